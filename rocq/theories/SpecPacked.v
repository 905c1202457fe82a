(** How a compressed file is laid out: version, names and versions of the encoders
    and flag as in an uncompressed one; behind them the compressed form of the
    headers, the table of metadata keys and the recordings, handed to the
    compressor in any number of pieces; anything may follow. *)
From Verif Require Import Base IO BinaryIO Recording Encoding Writer Reader SpecFile.
Local Open Scope N_scope.

Definition packed_layout (Z : compressor) (sigs : list str) (versions : list N) (headers : list bytes) (keys : list str) (recording content file : bytes) : Prop :=
  length versions = length sigs /\ length headers = length sigs /\
  content = concat (map bytes_array_to_bytes headers) ++ string_array_to_bytes keys ++ recording /\
  exists pieces rest, concat pieces = content /\
    file = [x02] ++ string_array_to_bytes sigs ++ concat (map put_uvarint versions) ++ [x01] ++ squeeze Z pieces ++ rest.
