-Q theories Verif
theories/Base.v
theories/Num.v
theories/Compact.v
theories/Tags.v
theories/Types.v
theories/EncPrim.v
theories/DecPrim.v
theories/Enc.v
theories/Dec.v
theories/Utf8.v
theories/Builtin.v
theories/Spec.v
theories/Tests.v
theories/NumFacts.v
theories/TyInd.v
theories/KeyEq.v
theories/EncFacts.v
theories/EncWire.v
theories/DecWire.v
theories/RoundTrip.v
theories/Check.v
theories/RoundTripProps.v
theories/PropsCodec.v
theories/Text.v
theories/Tools.v
theories/Ops.v
theories/DecEq.v
theories/DecWithin.v
theories/DecLocal.v
theories/EncProps.v
theories/PropsEnc.v
theories/U128.v
theories/NumProps.v
theories/PropsNum.v
theories/Utf8Facts.v
theories/DecBound.v
theories/BuiltinFacts.v
theories/DecProps.v
theories/PropsDec.v
theories/DecSafe.v
theories/SafeFacts.v
theories/PropsSafe.v
theories/MapFacts.v
theories/PropsMaps.v
theories/FieldFacts.v
theories/EnumFacts.v
theories/TrimFacts.v
theories/TagFacts.v
theories/PropsFields.v
theories/TextFacts.v
theories/Json.v
theories/JsonFacts.v
theories/PropsText.v
theories/Heck.v
theories/GoHeck.v
theories/HeckFacts.v
theories/Sha256.v
theories/ShaSpec.v
theories/ShaFacts.v
theories/Sighash.v
theories/Variant.v
theories/VariantFacts.v
theories/NameFacts.v
theories/PropsNames.v
theories/PropsVariant.v
theories/Alias.v
theories/AliasFacts.v
theories/PropsAlias.v
theories/AliasEnc.v
theories/AliasEncFacts.v
theories/PropsAliasEnc.v
theories/LibSpec.v
theories/LibFacts.v
theories/PropsLib.v
theories/JsonSpec.v
theories/JsonExact.v
theories/JsonDest.v
theories/StructTag.v
theories/TagSpec.v
theories/TagText.v
theories/PropsJson.v
theories/MoreFacts.v
theories/PropsMore.v
theories/PropsTags.v
theories/FloatSpec.v
theories/FloatFacts.v
theories/ParseFloat.v
theories/FloatRound.v
theories/FloatExact.v
theories/FloatJson.v
theories/FloatKeys.v
theories/PropsFloat.v
theories/OpsSpec.v
theories/OpsFacts.v
theories/PropsOps.v
theories/LimitFacts.v
theories/PropsLimits.v
theories/Dest.v
theories/DestFacts.v
theories/PropsDest.v
theories/VariantDest.v
theories/PropsVariantDest.v
theories/GoEnc.v
theories/GoEncFacts.v
theories/GoDec.v
theories/GoDecFacts.v
theories/IfaceFacts.v
theories/PropsGo.v
theories/GoHeckFacts.v
theories/Encodings.v
theories/EncodingFacts.v
theories/PropsMisc.v
theories/AccSpec.v
theories/AccFacts.v
theories/AccLib.v
theories/SteadySpec.v
theories/SteadyFacts.v
theories/SteadyLib.v
theories/PropsAccept.v
theories/RecSpec.v
theories/RecFacts.v
theories/RecEnc.v
theories/RecEnds.v
theories/RecEncEnds.v
theories/PropsRec.v
theories/Cost.v
theories/CostSpec.v
theories/CostFacts.v
theories/CostBound.v
theories/CostReach.v
theories/PropsCost.v
theories/DirectFacts.v
theories/PropsDirect.v
theories/DynSpec.v
theories/DynFacts.v
theories/PropsDyn.v
theories/SizeSpec.v
theories/SizeFacts.v
theories/LayoutSpec.v
theories/LayoutFacts.v
theories/PropsSize.v
theories/TestsDec.v
theories/TestsEnc.v
theories/TestsBorsh.v
theories/TestsMisc.v
theories/Zero.v
theories/ZeroFacts.v
theories/PropsZero.v
theories/SameSpec.v
theories/SameFacts.v
theories/PropsSame.v
theories/SealedSpec.v
theories/SealedFacts.v
theories/PropsSealed.v
theories/WriteSpec.v
theories/WriteFacts.v
theories/PropsWrite.v
theories/Embed.v
theories/EmbedSpec.v
theories/EmbedFacts.v
theories/PropsEmbed.v
theories/AgainSpec.v
theories/AgainFacts.v
theories/AgainLib.v
theories/PropsAgain.v
theories/CallsSpec.v
theories/CallsFacts.v
theories/CallsLib.v
theories/PropsCalls.v
theories/ManySpec.v
theories/ManyEnc.v
theories/ManyDec.v
theories/PropsMany.v
theories/MemSpec.v
theories/MemFacts.v
theories/MemLib.v
theories/PropsMem.v
theories/BulkSpec.v
theories/BulkFacts.v
theories/BulkLib.v
theories/PropsBulk.v
theories/RelaySpec.v
theories/RelayFacts.v
theories/PropsRelay.v
theories/CycleSpec.v
theories/CycleFacts.v
theories/PropsCycle.v
theories/ErrSpec.v
theories/ErrFacts.v
theories/ErrEnc.v
theories/ErrLib.v
theories/PropsErr.v
theories/MixSpec.v
theories/MixFacts.v
theories/PropsMix.v
