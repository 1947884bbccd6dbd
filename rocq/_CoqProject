-Q theories Verif
theories/WidthModel.v
theories/WidthProofs.v
theories/WidthProps.v
theories/BitfieldModel.v
theories/BitfieldProofs.v
theories/BitfieldProps.v
theories/BindingModel.v
theories/BindingProofs.v
theories/BindingProps.v
theories/TableModel.v
theories/TableProofs.v
theories/TableProps.v
theories/CallModel.v
theories/CallProofs.v
theories/CallProps.v
theories/PinModel.v
theories/PinProofs.v
theories/PinProps.v
theories/ModeModel.v
theories/ModeProofs.v
theories/ModeProps.v
theories/NameModel.v
theories/NameProofs.v
theories/NameProps.v
theories/LuaEnvModel.v
theories/LuaEnvProofs.v
theories/LuaEnvProps.v
theories/RemapModel.v
theories/RemapProofs.v
theories/RemapProps.v
theories/CommentModel.v
theories/CommentProofs.v
theories/CommentProps.v
theories/IncludeModel.v
theories/IncludeProofs.v
theories/IncludeProps.v
theories/TemplateModel.v
theories/TemplateProofs.v
theories/TemplateProps.v
theories/LiteralModel.v
theories/LiteralProofs.v
theories/LiteralProps.v
theories/OrderModel.v
theories/OrderProofs.v
theories/OrderProps.v
theories/DepModel.v
theories/DepProofs.v
theories/DepBranch.v
theories/DepProps.v
theories/LintModel.v
theories/LintProofs.v
theories/LintProps.v
theories/FsmModel.v
theories/FsmEmit.v
theories/FsmLayout.v
theories/FsmGather.v
theories/FsmBody.v
theories/FsmRenum.v
theories/FsmRegion.v
theories/FsmJoin.v
theories/FsmStates.v
theories/FsmArms.v
theories/FsmSource.v
theories/FsmCorrect.v
theories/FsmRun.v
theories/FsmBig.v
theories/FsmSkip.v
theories/FsmProps.v
theories/SubModel.v
theories/SubProofs.v
theories/SubGather.v
theories/SubLink.v
theories/SubProps.v
theories/AccModel.v
theories/AccBfs.v
theories/AccDom.v
theories/AccTemp.v
theories/AccPart.v
theories/AccLoop.v
theories/AccProps.v
theories/RegModel.v
theories/RegProps.v
theories/FsmStep.v
theories/InstModel.v
theories/InstProofs.v
theories/InstSim.v
theories/InstProps.v
theories/PipeModel.v
theories/PipeProofs.v
theories/PipeProps.v
theories/PfModel.v
theories/PfProofs.v
theories/PfLive.v
theories/PfProps.v
theories/ParamModel.v
theories/ParamProofs.v
theories/ParamTree.v
theories/ParamProps.v
theories/UseModel.v
theories/UseProofs.v
theories/UseSound.v
theories/UseTwo.v
theories/UseCycle.v
theories/UseProps.v
theories/UseFsm.v
theories/UseFsmProps.v
theories/FsmFuel.v
theories/FsmTotal.v
theories/FsmReject.v
theories/FsmTotalProps.v
theories/CircModel.v
theories/CircProofs.v
theories/CircRename.v
theories/CircPlain.v
theories/CircProps.v
theories/PortModel.v
theories/PortProps.v
theories/FormalModel.v
theories/FormalProofs.v
theories/FormalProps.v
theories/MemModel.v
theories/MemProofs.v
theories/MemProps.v
theories/ResetModel.v
theories/ResetProps.v
theories/DefineModel.v
theories/DefineProofs.v
theories/DefineSim.v
theories/DefineCycle.v
theories/DefineExpand.v
theories/DefineMacros.v
theories/DefineMixed.v
theories/DefineProps.v
theories/DefineText.v
theories/TrackModel.v
theories/TrackProofs.v
theories/TrackDeps.v
theories/TrackSettle.v
theories/TrackProps.v
theories/FsmTimeGather.v
theories/FsmTimeStatic.v
theories/FsmTimeSem.v
theories/FsmTimeSim.v
theories/FsmTimeRun.v
theories/FsmTimeCost.v
theories/FsmTimeProps.v
theories/BindModel.v
theories/BindDeps.v
theories/BindProofs.v
theories/BindTime.v
theories/BindProps.v
theories/SplitModel.v
theories/SplitProofs.v
theories/SplitProps.v
theories/UnitModel.v
theories/UnitProofs.v
theories/UnitProps.v
theories/PopModel.v
theories/PopProofs.v
theories/PopRun.v
theories/PopProps.v
theories/ScopeModel.v
theories/ScopeProofs.v
theories/ScopeRun.v
theories/ScopeMain.v
theories/ScopeProps.v
theories/ScopeFit.v
theories/ScopeFitProps.v
theories/InitModel.v
theories/InitRuns.v
theories/InitView.v
theories/InitEmit.v
theories/InitProofs.v
theories/InitProps.v
theories/ExprModel.v
theories/ExprLex.v
theories/ExprParse.v
theories/ExprProofs.v
theories/ExprValue.v
theories/ExprProps.v
theories/ImageModel.v
theories/ImageProofs.v
theories/ImageTable.v
theories/ImageProps.v
theories/KindModel.v
theories/KindProofs.v
theories/KindProps.v
theories/RvModel.v
theories/RvProofs.v
theories/RvProps.v
theories/ModModel.v
theories/ModProofs.v
theories/ModProps.v
theories/FileModel.v
theories/FileProofs.v
theories/FileProps.v
theories/TopModel.v
theories/TopProofs.v
theories/TopProps.v
theories/MemberModel.v
theories/MemberProofs.v
theories/MemberProps.v
theories/AccessModel.v
theories/AccessProps.v
theories/DeclModel.v
theories/DeclProps.v
