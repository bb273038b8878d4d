-Q theories Verif
theories/Base.v
theories/IntValModel.v
theories/IntValSpec.v
theories/IntValProofs.v
theories/IntValPropProofs.v
theories/PropertiesIntVal.v
theories/SetModel.v
theories/SetSpec.v
theories/SetProofs.v
theories/SetProofs2.v
theories/SetProofs3.v
theories/SetPropProofs.v
theories/PropertiesSet.v
theories/LinModel.v
theories/LinSpec.v
theories/LinProofs.v
theories/LinProofs2.v
theories/LinProofs3.v
theories/PropertiesLinear.v
theories/DoubleModel.v
theories/DoubleSpec.v
theories/DoubleProofs.v
theories/PropertiesDouble.v
theories/OptModel.v
theories/OptSpec.v
theories/OptProofs.v
theories/PropertiesOpt.v
theories/LitModel.v
theories/LitSpec.v
theories/LitProofs.v
theories/PropertiesLit.v
theories/B64Model.v
theories/B64Spec.v
theories/B64Proofs.v
theories/PropertiesB64.v
theories/ArrModel.v
theories/ArrSpec.v
theories/ArrProofs.v
theories/PropertiesArr.v
theories/TypeModel.v
theories/TypeSpec.v
theories/TypeProofs.v
theories/TypeProofs2.v
theories/TypeProofs3.v
theories/TypeProofs4.v
theories/PropertiesType.v
theories/DenseModel.v
theories/DenseSpec.v
theories/DenseProofs.v
theories/DenseProofs2.v
theories/PropertiesDense.v
theories/TopoModel.v
theories/TopoSpec.v
theories/TopoProofs.v
theories/TopoProofs2.v
theories/PropertiesTopo.v
theories/StrModel.v
theories/StrSpec.v
theories/StrProofs.v
theories/StrProofs2.v
theories/PropertiesStr.v
theories/FmtModel.v
theories/FmtSpec.v
theories/FmtProofs.v
theories/PropertiesFmt.v
theories/BoundsModel.v
theories/BoundsSpec.v
theories/BoundsProofs.v
theories/BoundsProofs2.v
theories/BoundsProofs3.v
theories/BoundsProofs4.v
theories/PropertiesBounds.v
theories/CmdModel.v
theories/CmdSpec.v
theories/CmdProofs.v
theories/PropertiesCmd.v
theories/RootModel.v
theories/RootSpec.v
theories/RootProofs.v
theories/RootProofs2.v
theories/RootProofs3.v
theories/PropertiesRoot.v
theories/GcModel.v
theories/GcSpec.v
theories/GcProofs.v
theories/GcProofs2.v
theories/GcProofs3.v
theories/GcProofs4.v
theories/GcProofs5.v
theories/GcProofs6.v
theories/GcProofs7.v
theories/PropertiesGc.v
theories/SolnModel.v
theories/SolnSpec.v
theories/SolnProofs.v
theories/SolnProofs2.v
theories/SolnProofs3.v
theories/SolnProofs4.v
theories/SolnProofs5.v
theories/PropertiesSoln.v
theories/ChainModel.v
theories/ChainSpec.v
theories/ChainProofs.v
theories/ChainProofs2.v
theories/ChainProofs3.v
theories/ChainProofs4.v
theories/ChainProofs5.v
theories/ChainProofs6.v
theories/ChainProofs7.v
theories/ChainProofs8.v
theories/ChainProofs9.v
theories/PropertiesChain.v
theories/AccessModel.v
theories/AccessSpec.v
theories/AccessProofs.v
theories/AccessProofs2.v
theories/AccessProofs3.v
theories/PropertiesAccess.v
theories/CtxModel.v
theories/CtxSpec.v
theories/CtxProofs.v
theories/PropertiesCtx.v
theories/CmpModel.v
theories/CmpSpec.v
theories/CmpProofs.v
theories/PropertiesCmp.v
theories/JsonModel.v
theories/JsonSpec.v
theories/JsonProofs.v
theories/JsonProofs2.v
theories/JsonProofs3.v
theories/JsonProofs4.v
theories/JsonExample.v
theories/PropertiesJson.v
theories/LexModel.v
theories/LexSpec.v
theories/LexProofs.v
theories/LexProofs2.v
theories/LexProofs3.v
theories/LexProofs4.v
theories/LexProofs5.v
theories/PropertiesLex.v
theories/ParseModel.v
theories/ParseSpec.v
theories/ParseProofs.v
theories/ParseProofs2.v
theories/ParseProofs3.v
theories/ParseProofs4.v
theories/PropertiesParse.v
theories/LeModel.v
theories/LeSpec.v
theories/LeProofs.v
theories/LeProofs2.v
theories/LeProofs3.v
theories/LeProofs4.v
theories/LeProofs5.v
theories/LeProofs6.v
theories/PropertiesLe.v
theories/EvalModel.v
theories/EvalSpec.v
theories/EvalProofs.v
theories/EvalProofs2.v
theories/EvalProofs3.v
theories/EvalProofs4.v
theories/EvalProofs5.v
theories/EvalProofs6.v
theories/EvalProofs7.v
theories/EvalProofs8.v
theories/PropertiesEval.v
theories/OvlModel.v
theories/OvlSpec.v
theories/OvlProofs.v
theories/OvlProofs2.v
theories/OvlProofs3.v
theories/PropertiesOvl.v
theories/BoptModel.v
theories/BoptSpec.v
theories/BoptProofs1.v
theories/BoptProofs2.v
theories/BoptProofs3.v
theories/BoptProofs4.v
theories/BoptProofs5.v
theories/BoptProofs6.v
theories/BoptProofs7.v
theories/BoptExamples.v
theories/PropertiesBopt.v
theories/BsetModel.v
theories/BsetSpec.v
theories/BsetProofs.v
theories/BsetProofs2.v
theories/PropertiesBset.v
theories/DomModel.v
theories/DomSpec.v
theories/DomProofs.v
theories/DomProofs2.v
theories/DomProofs3.v
theories/DomProofs4.v
theories/PropertiesDom.v
theories/BarrModel.v
theories/BarrSpec.v
theories/BarrProofs.v
theories/BarrProofs2.v
theories/BarrProofs3.v
theories/BarrProofs4.v
theories/PropertiesBarr.v
theories/RedModel.v
theories/RedSpec.v
theories/RedProofs.v
theories/RedProofs2.v
theories/PropertiesRed.v
theories/SortModel.v
theories/SortSpec.v
theories/SortProofs.v
theories/SortProofs2.v
theories/PropertiesSort.v
theories/MipModel.v
theories/MipSpec.v
theories/MipProofs.v
theories/MipProofs2.v
theories/MipProofs3.v
theories/MipProofs4.v
theories/PropertiesMip.v
theories/SelModel.v
theories/SelSpec.v
theories/SelProofs.v
theories/PropertiesSel.v
theories/ParamModel.v
theories/ParamSpec.v
theories/ParamProofs.v
theories/ParamProofs2.v
theories/PropertiesParam.v
theories/IteModel.v
theories/IteSpec.v
theories/IteProofs.v
theories/IteProofs2.v
theories/PropertiesIte.v
theories/SliceModel.v
theories/SliceSpec.v
theories/SliceProofs.v
theories/SliceProofs2.v
theories/PropertiesSlice.v
theories/CompModel.v
theories/CompSpec.v
theories/CompProofs.v
theories/CompProofs2.v
theories/CompProofs3.v
theories/PropertiesComp.v
theories/LetModel.v
theories/LetSpec.v
theories/LetProofs.v
theories/PropertiesLet.v
theories/FSetModel.v
theories/FSetSpec.v
theories/FSetProofs.v
theories/FSetProofs2.v
theories/PropertiesFSet.v
theories/CopyModel.v
theories/CopySpec.v
theories/CopyProofs.v
theories/PropertiesCopy.v
theories/SpecialiseModel.v
theories/SpecialiseSpec.v
theories/SpecialiseProofs.v
theories/SpecialiseProofs2.v
theories/PropertiesSpecialise.v
theories/NlSolModel.v
theories/NlSolSpec.v
theories/NlSolProofs.v
theories/PropertiesNlSol.v
theories/NlFileModel.v
theories/NlFileSpec.v
theories/NlFileProofs.v
theories/NlFileProofs2.v
theories/NlFileProofs3.v
theories/NlFileProofs4.v
theories/PropertiesNlFile.v
theories/StatModel.v
theories/StatSpec.v
theories/StatProofs.v
theories/PropertiesStat.v
