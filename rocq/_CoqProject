-Q theories Verif
theories/Base.v
theories/Ints.v
theories/Reader.v
theories/Writer.v
theories/BufIo.v
theories/ReadMut.v
theories/Spec.v
theories/SpecOps.v
theories/BaseLemmas.v
theories/ReaderLemmas.v
theories/ReaderHist.v
theories/PropsReader.v
theories/WriterLemmas.v
theories/WriterHist.v
theories/ReadMutLemmas.v
theories/PropsWriter.v
theories/PropsIo.v
theories/RunSpec.v
theories/Schema.v
theories/Utf8.v
theories/Decode.v
theories/Encode.v
theories/Sugar.v
theories/Examples.v
theories/WireSpec.v
theories/CodecBase.v
theories/BitsLemmas.v
theories/WireExamples.v
theories/EncLemmas.v
theories/DecLemmas.v
theories/DecWire.v
theories/CodecSpec.v
theories/RoundTrip.v
theories/Collections.v
theories/Containers.v
theories/OrderLemmas.v
theories/FieldLemmas.v
theories/PropsFields.v
theories/PropsContainers.v
theories/SafetySpec.v
theories/Bounds.v
theories/Locality.v
theories/Robust.v
theories/FieldEffects.v
theories/PropsRobust.v
theories/Utf8Spec.v
theories/Utf8Lemmas.v
theories/TypeSpec.v
theories/Counting.v
theories/Typing.v
theories/EncSafe.v
theories/EncBits.v
theories/StringLemmas.v
theories/PropsValues.v
theories/Text.v
theories/TextSpec.v
theories/TextLemmas.v
theories/MacLemmas.v
theories/NetLemmas.v
theories/IpText.v
theories/UnitExamples.v
theories/IpLemmas.v
theories/PropsText.v
theories/CanonSpec.v
theories/Canonical.v
theories/PropsCanon.v
theories/SizeSpec.v
theories/Sizes.v
theories/PropsSize.v
theories/AttrParse.v
theories/AttrSpec.v
theories/AttrLemmas.v
theories/PropsAttr.v
theories/PropsWith.v
theories/FieldSpec.v
theories/PropsModifiers.v
theories/JDefault.v
theories/JDefaultSpec.v
theories/DefaultLemmas.v
theories/PropsDefault.v
theories/WriteMut.v
theories/WriteMutSpec.v
theories/WriteMutLemmas.v
theories/PropsWriteMut.v
theories/PropsFindings.v
theories/PropsStream.v
theories/Memory.v
theories/PropsMemory.v
theories/Serde.v
theories/PropsSerde.v
theories/JGet.v
theories/DeriveExamples.v
theories/GetSpec.v
theories/GetLemmas.v
theories/PropsGet.v
theories/PropsGetEnum.v
theories/CheckedReader.v
theories/CheckedDecode.v
theories/CheckedWriter.v
theories/CheckedEncode.v
theories/CheckedIo.v
theories/CheckedSpec.v
theories/CheckedLemmas.v
theories/CheckedEnc.v
theories/PropsChecked.v
theories/EnumText.v
theories/EnumTextSpec.v
theories/EnumTextLemmas.v
theories/PropsEnumText.v
theories/GenDecode.v
theories/GenSpec.v
theories/GenLemmas.v
theories/PropsGen.v
theories/GenEncode.v
theories/GenEncodeSpec.v
theories/GenEncodeLemmas.v
theories/PropsGenEncode.v
theories/GenExpr.v
theories/GenExprSpec.v
theories/GenExprLemmas.v
theories/PropsExpr.v
theories/PropsVariantExpr.v
theories/ErrorText.v
theories/ErrorSpec.v
theories/ErrorLemmas.v
theories/PropsErrors.v
theories/StreamSpec.v
theories/StreamLemmas.v
theories/PropsPieces.v
theories/NarrowReader.v
theories/NarrowDecode.v
theories/NarrowWriter.v
theories/NarrowEncode.v
theories/NarrowIo.v
theories/NarrowSpec.v
theories/NarrowLemmas.v
theories/NarrowEnc.v
theories/PropsNarrow.v
theories/CheckedReadMut.v
theories/NarrowReadMut.v
theories/NarrowWriteMut.v
theories/MutBuildsSpec.v
theories/MutBuildsLemmas.v
theories/PropsMutBuilds.v
theories/LoopSpec.v
theories/PropsLoop.v
theories/Objects.v
theories/ObjectsSpec.v
theories/PropsObjects.v
theories/GenArgs.v
theories/GenArgsSpec.v
theories/PropsArgs.v
theories/BigReader.v
theories/BigWriter.v
theories/BigDecode.v
theories/BigEncode.v
theories/BigReadMut.v
theories/BigWriteMut.v
theories/BigSpec.v
theories/PropsBig.v
theories/Packets.v
theories/PacketSpec.v
theories/PacketLemmas.v
theories/PacketText.v
theories/PacketExact.v
theories/PropsPackets.v
theories/ReadAny.v
theories/AnyDecode.v
theories/AnySpec.v
theories/AnyLemmas.v
theories/PropsAny.v
theories/AnyEncode.v
theories/AnyWriteSpec.v
theories/AnyEncLemmas.v
theories/AnyEncSim.v
theories/PropsAnyEncode.v
theories/BufferCalls.v
theories/FileSpec.v
theories/FileLemmas.v
theories/PropsFile.v
theories/Source.v
theories/SourceSpec.v
theories/SourceLemmas.v
theories/PropsSource.v
theories/VarSource.v
theories/VarSourceSpec.v
theories/VarSourceLemmas.v
theories/PropsVarSource.v
theories/EnumSource.v
theories/EnumSourceSpec.v
theories/EnumSourceLemmas.v
theories/PropsEnumSource.v
theories/PropsVarEnum.v
theories/VarEncode.v
theories/VarEncodeSpec.v
theories/VarEncodeLemmas.v
theories/PropsVarEncode.v
theories/VarEnumEncodeLemmas.v
theories/PropsVarEnumEncode.v
theories/VarTuple.v
theories/VarTupleSpec.v
theories/PropsVarTuple.v
theories/OwnCodec.v
theories/OwnCodecSpec.v
theories/PropsOwnCodec.v
theories/MachineExpr.v
theories/MachineSpec.v
theories/PropsMachine.v
theories/PropsCondition.v
theories/MachineEncode.v
theories/MachineEncodeSpec.v
theories/PropsMachineEncode.v
theories/MachineBuild.v
theories/MachineBuildSpec.v
theories/PropsBuild.v
theories/PropsBuildExact.v
theories/MachineBuildEncode.v
theories/MachineBuildEncodeSpec.v
theories/PropsBuildEncode.v
theories/MachineTypedSpec.v
theories/PropsTyped.v
theories/MachineCountSpec.v
theories/PropsCount.v
theories/IpSpec.v
theories/IpExact.v
theories/PropsIp.v
theories/TupleSource.v
theories/TupleSpec.v
theories/PropsTuple.v
theories/GenValue.v
theories/GenValueSpec.v
theories/PropsGenValue.v
theories/PropsSourceValue.v
