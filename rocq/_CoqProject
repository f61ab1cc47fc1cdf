-Q theories Verif
theories/Base.v
theories/TreeModel.v
theories/TreeSpec.v
theories/TreeProofs.v
theories/TreeConc.v
theories/TreeConcProofs.v
theories/PropsTree.v
theories/SpecModel.v
theories/SpecSpec.v
theories/SpecProofs.v
theories/PropsSpec.v
theories/GoType.v
theories/CollectModel.v
theories/CollectSpec.v
theories/CollectProofs.v
theories/PropsCollect.v
theories/DetModel.v
theories/DetSpec.v
theories/DetProofs.v
theories/DetSound.v
theories/DetOrder.v
theories/DetFrame.v
theories/DetCor.v
theories/DetTotalSpec.v
theories/DetTotal.v
theories/PropsDet.v
theories/IpModel.v
theories/IpSpec.v
theories/IpProofs.v
theories/IpProofs6.v
theories/IpProofs7.v
theories/IpProofs8.v
theories/PropsIp.v
theories/CidrModel.v
theories/CidrSpec.v
theories/CidrProofs.v
theories/CidrProofs2.v
theories/CidrProofs3.v
theories/CidrProofs4.v
theories/PropsCidr.v
theories/CtyModel.v
theories/CtySpec.v
theories/CtyProofs.v
theories/CtyProofs2.v
theories/PropsCty.v
theories/HclModel.v
theories/HclSpec.v
theories/HclNumber.v
theories/HclDecode.v
theories/HclParse.v
theories/PlainScan.v
theories/HclScan.v
theories/HclGrammar.v
theories/HclLex.v
theories/HclGrammarProofs.v
theories/HclRound.v
theories/HclFraction.v
theories/HclExponent.v
theories/HclProofs.v
theories/HclExact.v
theories/PropsHcl.v
theories/HclClose.v
theories/PropsFraction.v
theories/TagModel.v
theories/TagSpec.v
theories/TagProofs.v
theories/PropsTag.v
theories/StructModel.v
theories/StructScan.v
theories/StructParse.v
theories/StructSpec.v
theories/StructFields.v
theories/StructRun.v
theories/StructRef.v
theories/StructFuel.v
theories/StructResult.v
theories/StructBlock.v
theories/StructSplit.v
theories/StructNames.v
theories/StructSound.v
theories/PropsStruct.v
theories/FuncModel.v
theories/FuncSpec.v
theories/FuncProofs.v
theories/PropsFunc.v
theories/FuncList.v
theories/FuncSum.v
theories/PropsFunc2.v
theories/FuncText.v
theories/FuncUnknown.v
theories/FuncLookup.v
theories/CastModel.v
theories/CastSpec.v
theories/CastProofs.v
theories/PropsCast.v
theories/PropsFunc3.v
theories/PropsFunc4.v
theories/EncModel.v
theories/EncSpec.v
theories/EncProofs.v
theories/PropsEnc.v
theories/JsonModel.v
theories/ConvModel.v
theories/JsonSpec.v
theories/JsonProofs.v
theories/JsonText.v
theories/JsonOnly.v
theories/ConvProofs.v
theories/PropsConv.v
theories/MarshalModel.v
theories/MarshalSpec.v
theories/MarshalText.v
theories/MarshalParse.v
theories/MarshalData.v
theories/MarshalProofs.v
theories/PropsMarshal.v
theories/RoundSpec.v
theories/RoundProofs.v
theories/FitText.v
theories/FitSpec.v
theories/FitProofs.v
theories/RoundFits.v
theories/PropsRound.v
theories/PropsFit.v
theories/TimeModel.v
theories/TimeSpec.v
theories/TimeProofs.v
theories/TimeAdd.v
theories/TimeLoose.v
theories/PropsTime.v
theories/CryptoModel.v
theories/CryptoSpec.v
theories/CryptoProofs.v
theories/PropsCrypto.v
theories/FilesetModel.v
theories/FilesetProofs.v
theories/PropsFileset.v
theories/PathModel.v
theories/PathSpec.v
theories/PathProofs.v
theories/PropsPath.v
theories/TemplateModel.v
theories/PropsTemplate.v
theories/VarModel.v
theories/VarSpec.v
theories/VarTree.v
theories/VarProofs.v
theories/VarGroup.v
theories/VarBody.v
theories/VarStruct.v
theories/VarPlain.v
theories/VarSession.v
theories/PropsVar.v
theories/TableModel.v
theories/PropsTable.v
theories/NumberModel.v
theories/PropsNumber.v
theories/PropsNull.v
theories/DescModel.v
theories/TypeModel.v
theories/PropsType.v
theories/AddrModel.v
theories/AddrSpec.v
theories/AddrProofs.v
theories/CidrFuncModel.v
theories/PropsAddr.v
theories/PropsDesc.v
theories/RefineModel.v
theories/PropsRefine.v
theories/CheckModel.v
theories/PropsCheck.v
theories/PropsMarks.v
theories/PropsUnknown.v
theories/TreeRace.v
theories/PropsRace.v
theories/LitModel.v
theories/PropsLit.v
theories/NativeModel.v
theories/PropsNative.v
theories/GoValModel.v
theories/PropsGoVal.v
theories/PropsGoBack.v
theories/PropsNative2.v
