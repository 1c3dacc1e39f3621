-Q theories Verif
theories/AbiModel.v
theories/AbiProofs.v
theories/AbiProps.v
theories/AbiSpec.v
theories/ArgsModel.v
theories/ArgsProofs.v
theories/ArgsProps.v
theories/ArgsSpec.v
theories/ArithLoad.v
theories/ArithMach.v
theories/ArithModel.v
theories/ArithProofs.v
theories/ArithProps.v
theories/ArithSpec.v
theories/ArithStore.v
theories/AttData.v
theories/AttDataSpec.v
theories/AttLine.v
theories/AttMeaning.v
theories/AttModel.v
theories/AttProofs.v
theories/AttProps.v
theories/AttSpec.v
theories/BraceModel.v
theories/BraceProofs.v
theories/BraceProps.v
theories/BraceSpec.v
theories/Bytes.v
theories/CallFrame.v
theories/CallModel.v
theories/CallProofs.v
theories/CallProps.v
theories/CallSpec.v
theories/CfgBranch.v
theories/CfgBuild.v
theories/CfgBuilt.v
theories/CfgCond.v
theories/CfgExpr.v
theories/CfgFor.v
theories/CfgJump.v
theories/CfgLoop.v
theories/CfgModel.v
theories/CfgProofs.v
theories/CfgProps.v
theories/CfgSpec.v
theories/CfgStmt.v
theories/CfgSwitch.v
theories/CfgSyntax.v
theories/CmpModel.v
theories/CmpProps.v
theories/CompatDecl.v
theories/CompatMain.v
theories/CompatModel.v
theories/CompatProofs.v
theories/CompatProps.v
theories/CompatSpec.v
theories/CondModel.v
theories/CondProofs.v
theories/CondProps.v
theories/CondSpec.v
theories/CopyModel.v
theories/CopyProps.v
theories/DeclDone.v
theories/DeclMain.v
theories/DeclModel.v
theories/DeclParse.v
theories/DeclPath.v
theories/DeclProofs.v
theories/DeclProps.v
theories/DeclSpec.v
theories/DeclspecAccept.v
theories/DeclspecModel.v
theories/DeclspecProofs.v
theories/DeclspecProps.v
theories/DeclspecSpec.v
theories/DequeModel.v
theories/DequeProofs.v
theories/DequeProps.v
theories/DequeSpec.v
theories/DfsProofs.v
theories/DriverModel.v
theories/DriverProps.v
theories/ElfAll.v
theories/ElfFacts.v
theories/ElfFinal.v
theories/ElfFlush.v
theories/ElfItems.v
theories/ElfJump.v
theories/ElfModel.v
theories/ElfObject.v
theories/ElfProofs.v
theories/ElfProps.v
theories/ElfRead.v
theories/ElfSpec.v
theories/ElfSteps.v
theories/ElfSyms.v
theories/EncAll.v
theories/EncDummy.v
theories/EncModel.v
theories/EncProofs.v
theories/EncProps.v
theories/EncShape.v
theories/EncSpec.v
theories/EscModel.v
theories/EscProofs.v
theories/EscProps.v
theories/EscSpec.v
theories/EvalModel.v
theories/EvalProofs.v
theories/EvalProps.v
theories/EvalSpec.v
theories/FieldModel.v
theories/FieldProofs.v
theories/FieldProps.v
theories/FieldSpec.v
theories/GramModel.v
theories/GramProofs.v
theories/GramProps.v
theories/GramSpec.v
theories/HashModel.v
theories/HashProofs.v
theories/HashProps.v
theories/HashSpec.v
theories/IfModel.v
theories/IfProofs.v
theories/IfProps.v
theories/IfSpec.v
theories/IfSyntax.v
theories/InitModel.v
theories/InitProofs.v
theories/InitProps.v
theories/InitSpec.v
theories/JoinModel.v
theories/JoinProps.v
theories/LayoutModel.v
theories/LayoutProofs.v
theories/LayoutProofs2.v
theories/LayoutProofs3.v
theories/LayoutProps.v
theories/LayoutSpec.v
theories/LineFile.v
theories/LineModel.v
theories/LineProofs.v
theories/LineProps.v
theories/LineSafe.v
theories/LineSpec.v
theories/LinearModel.v
theories/LinearProofs.v
theories/LinearProps.v
theories/LinearSpec.v
theories/MacroModel.v
theories/MacroProofs.v
theories/MacroProps.v
theories/MacroSpec.v
theories/MacroTableProofs.v
theories/NumberModel.v
theories/NumberProofs.v
theories/NumberProps.v
theories/NumberSpec.v
theories/OptEnds.v
theories/OptLive.v
theories/OptMain.v
theories/OptModel.v
theories/OptPass.v
theories/OptProofs.v
theories/OptProps.v
theories/OptSpec.v
theories/PtrMain.v
theories/PtrModel.v
theories/PtrProofs.v
theories/PtrProps.v
theories/PtrSpec.v
theories/SkipModel.v
theories/SkipProps.v
theories/SkipSpec.v
theories/StoreMain.v
theories/StoreModel.v
theories/StoreProofs.v
theories/StoreProps.v
theories/StoreSpec.v
theories/StringifyModel.v
theories/StringifyProofs.v
theories/StringifyProps.v
theories/StringifySpec.v
theories/StrtabModel.v
theories/StrtabProofs.v
theories/StrtabProps.v
theories/SymtabModel.v
theories/SymtabProofs.v
theories/SymtabProps.v
theories/SymtabSpec.v
theories/SysvProofs.v
theories/SysvProps.v
theories/SysvSpec.v
theories/TokModel.v
theories/TokenizeModel.v
theories/TokenizeProofs.v
theories/TokenizeProofs2.v
theories/TokenizeProofs3.v
theories/TokenizeProps.v
theories/TokenizeSpec.v
theories/TypeModel.v
theories/TypeProofs.v
theories/TypeProps.v
theories/TypeSpec.v
theories/TypedAssign.v
theories/TypedDenotes.v
theories/TypedModel.v
theories/TypedProofs.v
theories/TypedProps.v
theories/TypedSpec.v
theories/Util.v
theories/VaModel.v
theories/VaProofs.v
theories/VaProps.v
theories/VaSpec.v
