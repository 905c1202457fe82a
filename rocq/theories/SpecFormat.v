(** The binary format of version 2 files, written down by itself:
    which bytes stand for which recording.  Of the model only its data types are
    used, and the arithmetic of floats.  Numbers are stored in full (technique 0), as
    32-bit floats (technique 1), or densely (techniques 2 and 3). *)
From Coq Require Import ZArith Strings.String.
From Flocq Require Import IEEE754.Bits.
From Verif Require Import Base Floats Spec Metadata Recording.
Local Open Scope N_scope.

(** First bytes for [P], then bytes for [Q]. *)
Definition followed (P Q : bytes -> Prop) (b : bytes) : Prop := exists p q, b = p ++ q /\ P p /\ Q q.
Declare Scope format_scope.
Delimit Scope format_scope with format.
Notation "P ;; Q" := (followed P Q) (at level 61, right associativity) : format_scope.
Local Open Scope format_scope.
(** The elements of a list, one after the other; with their number in front. *)
Inductive each {A} (P : A -> bytes -> Prop) : list A -> bytes -> Prop :=
| EachNil : each P [] []
| EachCons : forall x l b c, P x b -> each P l c -> each P (x :: l) (b ++ c).

(** A number below 2^64 in base 128, least digit first, as short as possible. *)
Definition varint (n : N) (b : bytes) : Prop :=
  n < 2 ^ 64 /\ digits b /\ digits_value b = n /\ lenN b = N.log2 n / 7 + 1.
Definition counted {A} (P : A -> bytes -> Prop) (l : list A) : bytes -> Prop := varint (lenN l) ;; each P l.
(** Bytes, or the bytes of a text, with their number in front. *)
Definition text (s : str) : bytes -> Prop := varint (lenN s) ;; eq s.
Definition blob (P : bytes -> Prop) (b : bytes) : Prop := exists d, P d /\ text d b.
(** [k] bytes, least first; negative numbers in two's complement; floats by their bits. *)
Fixpoint little (b : bytes) : Z :=
  match b with [] => 0 | x :: r => Z.of_N (b2n x) + 256 * little r end%Z.
Definition fixed (k : nat) (z : Z) (b : bytes) : Prop :=
  List.length b = k /\ little b = (z mod 256 ^ Z.of_nat k)%Z.
Definition double (x : f64) : bytes -> Prop := fixed 8 (bits_of_b64 x).
Definition single (x : f32) : bytes -> Prop := fixed 4 (bits_of_b32 x).

(** Properties: a value, the number of its type, and its bytes.  In a block the
    number stands in front of each value, in an array it does not. *)
Inductive value : prop -> N -> bytes -> Prop :=
| VString : forall s b, text s b -> value (PString s) 0 b
| VInt : forall z b, (- 2 ^ 31 <= z < 2 ^ 31)%Z -> fixed 4 z b -> value (PInt z) 1 b
| VFloat : forall x b, single x b -> value (PFloat x) 2 b
| VTrue : value (PBool true) 3 []
| VFalse : value (PBool false) 4 []
| VByte : forall c, value (PByte c) 5 [c]
| VVec2 : forall x y b, (double x ;; double y) b -> value (PVec2 x y) 6 b
| VVec3 : forall x y z b, (double x ;; double y ;; double z) b -> value (PVec3 x y z) 7 b
| VBlock : forall m k v, NoDup (map fst m) -> counted text (map fst m) k -> entries m v -> value (PBlock m) 11 (k ++ v)
| VTime : forall us b, (- 2 ^ 63 <= us < 2 ^ 63)%Z -> fixed 8 us b -> value (PTime us) 12 b
| VArray : forall base ps n v, In base [0; 1; 2; 6; 7; 11; 12] -> varint (lenN ps) n -> items base ps v ->
    value (PArray base ps) (13 + base) (n ++ v)
| VBools : forall d b, text d b -> value (PRaw 3 b) 16 b
| VBytes : forall d b, text d b -> value (PRaw 5 b) 18 b
with entries : block -> bytes -> Prop :=
| EntriesNil : entries [] []
| EntriesCons : forall k v m t b r, value v (b2n t) b -> entries m r -> entries ((k, v) :: m) (t :: b ++ r)
with items : N -> list prop -> bytes -> Prop :=
| ItemsNil : forall base, items base [] []
| ItemsCons : forall base v l b r, value v base b -> items base l r -> items base (v :: l) (b ++ r).

(** Names are stored as places in a table. *)
Definition place (t : list str) (s : str) (b : bytes) : Prop :=
  exists i, nth_error t (N.to_nat i) = Some s /\ varint i b.
Definition metadata (keys : list str) (m : block) (b : bytes) : Prop :=
  NoDup (map fst m) /\ (counted (place keys) (map fst m) ;; entries m) b.

(** A number in full, or rounded to 32 bits.  (Every 32-bit float is the rounding of
    some number, but for signalling NaNs.) *)
Definition known (technique : byte) : Prop := technique = x00 \/ technique = x01.
Definition stored (technique : byte) (x : f64) (b : bytes) : Prop :=
  (technique = x00 /\ double x b) \/
  (technique = x01 /\ exists y, x = f64_of_f32 (f32_of_f64 y) /\ single (f32_of_f64 y) b).
(** Angles stored in full have two unused bytes behind them. *)
Definition angle (technique : byte) (x : f64) : bytes -> Prop :=
  stored technique x ;; eq match technique with x00 => [x00; x00] | _ => [] end.
(** A dense number: from the middle of a range, up (1) or down (0) by a quarter of the
    range, then by an eighth, and so on, the least bit of each byte first. *)
Fixpoint walk (x step : f64) (ups : list bool) : f64 :=
  match ups with [] => x | up :: r => walk (if up then fadd x step else fsub x step) (fdiv step f2) r end.
Definition bits (c : byte) : list bool := map (N.testbit (b2n c)) [0; 1; 2; 3; 4; 5; 6; 7].
Definition level (lo width x : f64) (b : bytes) : Prop :=
  List.length b = 2%nat /\ x = walk (fadd lo (fdiv width f2)) (fdiv width f4) (flat_map bits b).
(** The first of some values is given, the others by their distances. *)
Inductive path {A} (plus : A -> A -> A) (P : A -> bytes -> Prop) : A -> list A -> bytes -> Prop :=
| PathNil : forall x, path plus P x [] []
| PathCons : forall x d l b c, P d b -> path plus P (plus x d) l c -> path plus P x (plus x d :: l) (b ++ c).
Definition near : f64 -> bytes -> Prop := stored x01.
(** Dense times: the first and the longest distance, then each distance. *)
Definition dense_times (ts : list f64) (b : bytes) : Prop :=
  match ts with
  | [] => b = []
  | [x] => near x b
  | x :: rest => exists longest, (near x ;; near longest ;; path fadd (level f0 longest) x rest) b
  end.
Definition times (ts : list f64) (b : bytes) : Prop :=
  exists t r, b = t :: r /\
    ((known t /\ counted (stored t) ts r) \/ (t = x02 /\ (varint (lenN ts) ;; dense_times ts) r)).
(** Dense positions: the ends of the range of the distances, the first position,
    then each distance.  Three bytes, for z, x and y, lead to a distance, or twice three;
    here the bit 1 stands for down. *)
Definition point (P : f64 -> bytes -> Prop) (v : vec) : bytes -> Prop := P (vx v) ;; P (vy v) ;; P (vz v).
Definition plus (v w : vec) : vec := mkVec (fadd (vx v) (vx w)) (fadd (vy v) (vy w)) (fadd (vz v) (vz w)).
Definition axis (lo hi : f64) (b : bytes) : f64 :=
  walk (fdiv (fadd lo hi) f2) (fdiv (fsub hi lo) f4) (map negb (flat_map bits b)).
Inductive distance (lo hi : vec) : nat -> vec -> bytes -> Prop :=
| Distance3 : forall z x y,
    distance lo hi 3 (mkVec (axis (vx lo) (vx hi) [x]) (axis (vy lo) (vy hi) [y]) (axis (vz lo) (vz hi) [z])) [z; x; y]
| Distance6 : forall z x y z' x' y',
    distance lo hi 6 (mkVec (axis (vx lo) (vx hi) [x; x']) (axis (vy lo) (vy hi) [y; y']) (axis (vz lo) (vz hi) [z; z']))
      [z; x; y; z'; x'; y'].
Definition dense_positions (width : nat) (ps : list vec) (b : bytes) : Prop :=
  match ps with
  | [] => b = []
  | [p] => point near p b
  | p :: rest => exists lo hi,
      (point near lo ;; point near hi ;; point near p ;; path plus (distance lo hi width) p rest) b
  end.
(** Dense angles: in the circle; but a single one in 32 bits. *)
Definition dense_angles (vs : list vec) (b : bytes) : Prop :=
  match vs with
  | [v] => point near v b
  | _ => each (point (level f0 f360)) vs b
  end.
(** Dense numbers: the ends of their range, then each number. *)
Definition dense_numbers (xs : list f64) (b : bytes) : Prop :=
  exists lo hi : f32, (single lo ;; single hi ;; each (level (f64_of_f32 lo) (f64_of_f32 (fsub32 hi lo))) xs) b.

(** The kinds of collections, with the tables in the header of their encoder. *)
Inductive kind := KEvent (names keys : list str) | KEnum (members : list str) | KPosition | KEuler | KFloat.
Definition signature (k : kind) : str :=
  lit match k with
      | KEvent _ _ => "recolude.event" | KEnum _ => "recolude.enum" | KPosition => "recolude.position"
      | KEuler => "recolude.euler" | KFloat => "recolude.float"
      end.
Definition header (k : kind) : bytes -> Prop :=
  match k with
  | KEvent names keys => counted text names ;; counted text keys
  | KEnum members => counted text members
  | _ => eq []
  end.
Definition body (k : kind) (c : cbody) (b : bytes) : Prop :=
  match k, c with
  | KEvent names keys, BEvent l =>
      each (fun e => place names (fst (snd e)) ;; metadata keys (snd (snd e))) l b
  | KEnum members, BEnum ms l =>
      (counted (place members) ms ;;
       each (fun e b => (- 2 ^ 63 <= snd e < 2 ^ 63)%Z /\ varint (Z.to_N (snd e mod 2 ^ 64)) b) l) b
  | KPosition, BPos l => exists t r, b = t :: r /\
      ((known t /\ each (fun e => point (stored t) (snd e)) l r) \/
       (t = x02 /\ dense_positions 6 (map snd l) r) \/ (t = x03 /\ dense_positions 3 (map snd l) r))
  | KEuler, BEuler l => exists t r, b = t :: r /\
      ((known t /\ each (fun e => point (angle t) (snd e)) l r) \/ (t = x02 /\ dense_angles (map snd l) r))
  | KFloat, BFloat l => exists t r, b = t :: r /\
      ((known t /\ each (fun e => stored t (snd e)) l r) \/ (t = x02 /\ dense_numbers (map snd l) r))
  | _, _ => False
  end.
Definition stream (kinds : list kind) (c : coll) (b : bytes) : Prop :=
  exists i k, nth_error kinds (N.to_nat i) = Some k /\
    (varint i ;; text (c_name c) ;; times (c_times c) ;; blob (body k (c_body c))) b.
Definition reference (keys : list str) (f : binref) : bytes -> Prop :=
  text (r_name f) ;; text (r_uri f) ;; varint (r_size f) ;; metadata keys (r_md f).
Definition attachment (keys : list str) (f : binary) (b : bytes) : Prop :=
  b_size f = lenN (b_data f) /\
  (text (b_name f) ;; varint (lenN (b_data f)) ;; metadata keys (b_md f) ;; eq (b_data f)) b.

Definition present {A} (P : A -> bytes -> Prop) (o : option A) (b : bytes) : Prop := exists x, o = Some x /\ P x b.
Inductive recorded (keys : list str) (kinds : list kind) : recording -> bytes -> Prop :=
| Recorded : forall id name colls recs md bins refs b,
    (text id ;; text name ;; metadata keys md ;;
     counted (present (stream kinds)) colls ;; counted (present (reference keys)) refs ;;
     counted (present (attachment keys)) bins ;; counted (present (recorded keys kinds)) recs) b ->
    recorded keys kinds (mkRec id name colls recs md bins refs) b.
(** The beginning of a file: its version, the names of the encoders and their
    versions, and whether what follows is compressed. *)
Definition opening (kinds : list kind) (compressed : byte) : bytes -> Prop :=
  eq [x02] ;; counted text (map signature kinds) ;; each (fun _ => varint 0) kinds ;; eq [compressed].
(** What follows: the headers of the encoders, the table of metadata keys, and the
    recording. *)
Definition contents (kinds : list kind) (r : recording) : bytes -> Prop :=
  each (fun k => blob (header k)) kinds ;;
  fun b => exists keys, (counted text keys ;; recorded keys kinds r) b.
Definition rap_file (kinds : list kind) (r : recording) : bytes -> Prop := opening kinds x00 ;; contents kinds r.
(** A compressed file; [packed d] are the ways to compress the bytes [d].  [n] is
    its size but for the compression. *)
Definition packed_file (packed : bytes -> bytes -> Prop) (kinds : list kind) (r : recording) (n : N) (b : bytes) : Prop :=
  exists d, contents kinds r d /\
    ((fun o => opening kinds x01 o /\ n = lenN o + lenN d) ;; packed d) b.
