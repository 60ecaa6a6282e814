-Q theories Verif
theories/Base.v
theories/PyStr.v
theories/PyInt.v
theories/Types.v
theories/EnumModel.v
theories/DimModel.v
theories/ElemModel.v
theories/FinalModel.v
theories/ResolveModel.v
theories/ProcessModel.v
theories/SpecProcess.v
theories/GraphFacts.v
theories/ReplicateFacts.v
theories/SpecSearch.v
theories/SearchFacts.v
theories/ResolveWF.v
theories/TopoFacts.v
theories/ResolveInv.v
theories/MapModel.v
theories/ConvertModel.v
theories/ParseModel.v
theories/SerializeModel.v
theories/SpecEnum.v
theories/EnumFacts.v
theories/EnumFacts2.v
theories/EnumFacts3.v
theories/SpecDim.v
theories/DimFacts.v
theories/SpecDevice.v
theories/FinalFacts.v
theories/AltFacts.v
theories/OverlapFacts.v
theories/OverlapFacts2.v
theories/SpecImage.v
theories/ImageFacts.v
theories/SpecElem.v
theories/ElemFacts.v
theories/EffectFacts.v
theories/FinalErr.v
theories/XmlReadModel.v
theories/SpecText.v
theories/TextFacts.v
theories/Samples.v
theories/PropsEnum.v
theories/PropsDim.v
theories/PropsElem.v
theories/PropsDevice.v
theories/PropsCheck.v
theories/DiagFacts.v
theories/PropsDiag.v
theories/PropsMap.v
theories/PropsErrors.v
theories/SpecDeclared.v
theories/PropsResolve.v
theories/FuelFacts.v
theories/SpecRoundTrip.v
theories/RoundTrip.v
theories/PropsRoundTrip.v
theories/SpecParse.v
theories/PropsParse.v
theories/SamplesParse.v
theories/SpecConvert.v
theories/PropsConvert.v
theories/PropsGraph.v
theories/PropsText.v
theories/SpecExpand.v
theories/DescribeFacts.v
theories/ExpandInv.v
theories/ExpandBuild.v
theories/ExpandStep.v
theories/ExpandNode.v
theories/ExpandRounds.v
theories/ExpandShare.v
theories/TermFacts.v
theories/ExpandLeft.v
theories/ExpandScope.v
theories/ExpandFinal.v
theories/PropsExpand.v
theories/PropsTerm.v
theories/ValidateModel.v
theories/PropsValidate.v
theories/SpecAccept.v
theories/BuildOk.v
theories/LookupOk.v
theories/AcceptFacts.v
theories/AcceptDeep.v
theories/FinalAccept.v
theories/PropsAccept.v
theories/PropsDeep.v
theories/SpecAgain.v
theories/AgainFacts.v
theories/AgainExpand.v
theories/PropsAgain.v
theories/SpecOrder.v
theories/OrderFinal.v
theories/OrderFacts.v
theories/OrderPer.v
theories/OrderDeep.v
theories/PropsOrder.v
theories/SpecExport.v
theories/ExportFacts.v
theories/PropsExport.v
theories/PropsDisplay.v
theories/SpecSize.v
theories/PropsSize.v
theories/SpecSchema.v
theories/SpecConform.v
theories/SchemaFacts.v
theories/SchemaText.v
theories/SchemaRead.v
theories/SchemaMono.v
theories/SchemaWrite.v
theories/SchemaKept.v
theories/PropsSchema.v
theories/PropsNotation.v
theories/LogModel.v
theories/SpecLog.v
theories/LogFacts.v
theories/LogListed.v
theories/PropsLog.v
theories/DrawModel.v
theories/SpecDraw.v
theories/DrawFacts.v
theories/PropsDraw.v
theories/SpecWarn.v
theories/PropsWarn.v
theories/LinkModel.v
theories/SpecLink.v
theories/LinkFacts.v
theories/PropsLink.v
theories/EdgeFacts.v
theories/DepFacts.v
theories/ErrFacts.v
theories/KeyFacts.v
theories/PropsRaise.v
theories/SpecEdges.v
theories/PropsEdges.v
