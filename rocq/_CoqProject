-Q theories Verif

theories/Base.v
theories/IntTypes.v
theories/CSpec.v
theories/IntModel.v
theories/IntProofs.v
theories/IntProps.v
theories/FieldModel.v
theories/FieldSpec.v
theories/FieldProofs.v
theories/FieldProps.v
theories/LowerSpec.v
theories/LowerModel.v
theories/LowerProofs.v
theories/LowerProps.v
theories/BranchSpec.v
theories/BranchModel.v
theories/BranchProofs.v
theories/BranchRun.v
theories/BranchProps.v
theories/LitModel.v
theories/LitSpec.v
theories/LitProofs.v
theories/LitProps.v
theories/SortModel.v
theories/SortProofs.v
theories/SortProps.v
theories/UtilModel.v
theories/UtilSpec.v
theories/UtilProofs.v
theories/Md5Spec.v
theories/Md5Model.v
theories/Md5Proofs.v
theories/UtilProps.v
theories/ArenaModel.v
theories/ArenaSpec.v
theories/ArenaProofs.v
theories/ArenaProps.v
theories/LockModel.v
theories/LockProofs.v
theories/LockProps.v
theories/CmdModel.v
theories/CmdSpec.v
theories/CmdProofs.v
theories/CmdProps.v
theories/ArModel.v
theories/ArSpec.v
theories/ArProofs.v
theories/ArProps.v
theories/LeafModel.v
theories/LeafSpec.v
theories/LeafProofs.v
theories/LeafProps.v
theories/MsfModel.v
theories/MsfSpec.v
theories/MsfProofs.v
theories/MsfProps.v
theories/ParseSyntax.v
theories/ParseSpec.v
theories/ParseModel.v
theories/ParseProofs.v
theories/ParseProps.v
theories/DeclModel.v
theories/DeclSpec.v
theories/DeclProofs.v
theories/DeclProps.v
theories/X64Decode.v
theories/EncModel.v
theories/EncSpec.v
theories/EncProofs.v
theories/EncProps.v
theories/X64Machine.v
theories/EmitModel.v
theories/StepProofs.v
theories/ExecProofs.v
theories/EmitBasics.v
theories/JumpSpec.v
theories/JumpProofs.v
theories/JumpProps.v
theories/EmitSim.v
theories/EmitOps.v
theories/SelectModel.v
theories/EmitExpr.v
theories/EmitProps.v
theories/AllocModel.v
theories/AllocSpec.v
theories/AllocProofs.v
theories/AllocProps.v
theories/ScopeModel.v
theories/ScopeSpec.v
theories/ScopeProofs.v
theories/ScopeProps.v
theories/DefineModel.v
theories/DefineSpec.v
theories/DefineProofs.v
theories/DefineProps.v
theories/MacroTableModel.v
theories/MacroTableSpec.v
theories/MacroTableProofs.v
theories/MacroTableProps.v
theories/CondModel.v
theories/CondSpec.v
theories/CondProofs.v
theories/CondProps.v
theories/ReachModel.v
theories/ReachSpec.v
theories/ReachProofs.v
theories/ReachProps.v
theories/TypeEqModel.v
theories/TypeEqSpec.v
theories/TypeEqProofs.v
theories/TypeEqProps.v
theories/TableModel.v
theories/TableSpec.v
theories/TableProofs.v
theories/TableProps.v
theories/QueueModel.v
theories/QueueSpec.v
theories/QueueProofs.v
theories/QueueProps.v
theories/LayoutModel.v
theories/LayoutSpec.v
theories/LayoutProofs.v
theories/LayoutProps.v
theories/LoadModel.v
theories/LoadSpec.v
theories/LoadProofs.v
theories/LoadProps.v
theories/ChunkModel.v
theories/ChunkSpec.v
theories/ChunkProofs.v
theories/ChunkProps.v
theories/IfModel.v
theories/IfSpec.v
theories/IfProofs.v
theories/IfSound.v
theories/IfProps.v
theories/StringModel.v
theories/StringSpec.v
theories/StringProofs.v
theories/StringProps.v
theories/TokenModel.v
theories/TokenSpec.v
theories/TokenProofs.v
theories/TokenProps.v
theories/MacroModel.v
theories/MacroSpec.v
theories/MacroProofs.v
theories/MacroEnds.v
theories/MacroProps.v
theories/InitModel.v
theories/InitSpec.v
theories/InitProofs.v
theories/InitProps.v
theories/SleepSpec.v
theories/SleepModel.v
theories/SleepProofs.v
theories/SleepSteps.v
theories/SleepLogic.v
theories/SleepEnd.v
theories/SleepProps.v
theories/SleepRoom.v
theories/SleepRoomProps.v
theories/SleepTerm.v
theories/SleepTermProps.v
theories/StmtSpec.v
theories/StmtModel.v
theories/StmtShape.v
theories/StmtProofs.v
theories/StmtProps.v
theories/StmtRulesSpec.v
theories/StmtRulesProofs.v
theories/StmtTargets.v
theories/StmtRulesProps.v
theories/FallSpec.v
theories/FallModel.v
theories/FallProofs.v
theories/FallProps.v
theories/AbiSpec.v
theories/AbiModel.v
theories/AbiProofs.v
theories/AbiProps.v
theories/CallSpec.v
theories/CallModel.v
theories/CallProofs.v
theories/CallLower.v
theories/CallProps.v
theories/EmitTotal.v
theories/TotalSteps.v
theories/TotalLower.v
theories/TotalProps.v
theories/ServeSpec.v
theories/ServeProofs.v
theories/ServeProps.v
