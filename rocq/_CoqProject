-Q theories Verif
theories/Base.v
theories/Floats.v
theories/IO.v
theories/BinaryIO.v
theories/Metadata.v
theories/Recording.v
theories/Encoding.v
theories/EncEvent.v
theories/EncEnum.v
theories/EncPosition.v
theories/EncEuler.v
theories/EncFloat.v
theories/TimeIO.v
theories/Writer.v
theories/Reader.v
theories/BaseFacts.v
theories/Spec.v
theories/SpecMeta.v
theories/IOFacts.v
theories/BinaryIOFacts.v
theories/VarintFacts.v
theories/ByteFacts.v
theories/MetadataFacts.v
theories/PropPrimitives.v
theories/PropMetadata.v
theories/SpecFloat.v
theories/FloatFacts.v
theories/SpecRec.v
theories/RecordingFacts.v
theories/PropRecording.v
theories/EncTableFacts.v
theories/SpecEnc.v
theories/EncEventFacts.v
theories/EncEnumFacts.v
theories/EncNumFacts.v
theories/OctFacts.v
theories/EncLawful.v
theories/TimeFacts.v
theories/Near32Facts.v
theories/StreamFacts.v
theories/PropStreams.v
theories/SpecFile.v
theories/SpecPacked.v
theories/WriterFacts.v
theories/PlanFacts.v
theories/KeyFacts.v
theories/ReaderFacts.v
theories/FileFacts.v
theories/LinkFacts.v
theories/SafeFacts.v
theories/TruncFacts.v
theories/QuietFacts.v
theories/CalmFacts.v
theories/SchedFacts.v
theories/BuiltinFacts.v
theories/Toy.v
theories/Demo.v
theories/PropFile.v
theories/PropRead.v
theories/NumFacts.v
theories/WalkFacts.v
theories/QuantFacts.v
theories/DriftFacts.v
theories/OctWalkFacts.v
theories/PropNumeric.v
theories/Text.v
theories/SpecText.v
theories/TextFacts.v
theories/Summarize.v
theories/SpecSummary.v
theories/SummarizeFacts.v
theories/PropSummary.v
theories/Csv.v
theories/CsvText.v
theories/SpecCsv.v
theories/SpecCsvText.v
theories/CsvTextFacts.v
theories/CsvFacts.v
theories/Tools.v
theories/PropCsv.v
theories/PropCsvText.v
theories/RapV1.v
theories/SpecV1.v
theories/V1Facts.v
theories/PropV1.v
theories/V1TimesFacts.v
theories/PropV1Times.v
theories/SpecPipe.v
theories/PipeFacts.v
theories/PropPipe.v
theories/Strings.v
theories/SpecStrings.v
theories/StringsFacts.v
theories/PropStrings.v
theories/SpecResave.v
theories/ResaveFacts.v
theories/PropResave.v
theories/Json.v
theories/Quote.v
theories/JsonText.v
theories/SpecJsonText.v
theories/QuoteFacts.v
theories/JsonTextFacts.v
theories/SpecJson.v
theories/JsonFacts.v
theories/JsonOrderFacts.v
theories/PropJson.v
theories/ToJson.v
theories/SpecToJson.v
theories/ToJsonFacts.v
theories/PropToJson.v
theories/Unmarshal.v
theories/SpecUnmarshal.v
theories/MarshalFacts.v
theories/UnmarshalFacts.v
theories/PropJsonText.v
theories/PropMarshal.v
theories/PropUnmarshal.v
theories/SpecAccept.v
theories/AcceptFacts.v
theories/PropAccept.v
theories/Bson.v
theories/SpecBson.v
theories/BsonFacts.v
theories/PropBson.v
theories/Benchmark.v
theories/PropUse.v
theories/Cli.v
theories/SpecCli.v
theories/CliFacts.v
theories/PropCli.v
theories/PropWhole.v
theories/SpecFormat.v
theories/FormatFacts.v
theories/DenseFacts.v
theories/FormatRead.v
theories/FormatWrite.v
theories/PropFormat.v
theories/SpecAccuracy.v
theories/AccuracyFacts.v
theories/PropAccuracy.v
theories/SinDemo.v
theories/PropSinDemo.v
theories/CutFacts.v
theories/SpecDamage.v
theories/DamageFacts.v
theories/PropDamage.v
theories/Proto.v
theories/SpecProto.v
theories/ProtoFacts.v
theories/PropProto.v
theories/ParseFloat.v
theories/SpecDecimal.v
theories/DecimalFacts.v
theories/PropDecimal.v
theories/DelimFacts.v
theories/PropDelim.v
theories/PropPacked.v
theories/Stamp.v
theories/SpecStamp.v
theories/StampFacts.v
theories/PropStamp.v
theories/SpecDigits.v
theories/PropDigits.v
