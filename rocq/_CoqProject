-Q theories Verif
theories/Base.v
theories/Time.v
theories/Parsers.v
theories/Engine.v
theories/Pdag.v
theories/Samp.v
theories/TestEnv.v
theories/Enc.v
theories/EncSpec.v
theories/BaseFacts.v
theories/FieldSpec.v
theories/FieldFacts.v
theories/FieldFacts2.v
theories/FieldFacts3.v
theories/FieldFacts4.v
theories/FieldFacts5.v
theories/Prop_Fields.v
theories/SafetySpec.v
theories/IntFacts.v
theories/DateSpec.v
theories/DateFacts.v
theories/FieldSpec2.v
theories/FieldFacts6.v
theories/FieldFacts7.v
theories/FieldFacts8.v
theories/FieldFacts9.v
theories/FieldFacts10.v
theories/FieldFacts11.v
theories/FieldFacts12.v
theories/Prop_Fields2.v
theories/Prop_Fields3.v
theories/ParserSafe.v
theories/ParserSafe2.v
theories/ParserText.v
theories/Prop_Safety.v
theories/EngineSpec.v
theories/EngineFacts.v
theories/EngineFacts2.v
theories/EngineHist.v
theories/EngineWf.v
theories/EngineTotal.v
theories/EngineSpec2.v
theories/EngineGen.v
theories/EngineGen2.v
theories/EngineFacts3.v
theories/EngineCheck.v
theories/Prop_Engine.v
theories/GraphSpec.v
theories/HeapFacts.v
theories/DeleteFacts.v
theories/BuildFacts.v
theories/BuildFacts2.v
theories/BuildFacts3.v
theories/RuleSpec.v
theories/OptSem.v
theories/OptFacts.v
theories/LoadFacts.v
theories/History.v
theories/FrameFacts.v
theories/TreeFacts.v
theories/TreeFacts2.v
theories/BuiltSpec.v
theories/BuiltFacts.v
theories/RuleFacts.v
theories/SimSpec.v
theories/SimFacts.v
theories/LineSpec.v
theories/LineFacts.v
theories/LoadSpec.v
theories/AnnotSpec.v
theories/LoadText.v
theories/AnnotFacts.v
theories/LoadSim.v
theories/OptTotal.v
theories/ConfFacts.v
theories/LoadTop.v
theories/LoadTop2.v
theories/NormSafe.v
theories/Prop_Graph.v
theories/Prop_Rules.v
theories/Prop_Load.v
theories/Prop_Dates.v
theories/EncFacts.v
theories/EncFacts2.v
theories/Prop_Enc.v
theories/AltSpec.v
theories/AltFacts.v
theories/AltFacts2.v
theories/Prop_Alt.v
theories/Tool.v
theories/ToolSpec.v
theories/ToolFacts.v
theories/Prop_Tool.v
theories/SynSpec.v
theories/SynFacts.v
theories/TypeSpec.v
theories/TypeFacts.v
theories/TypeFacts2.v
theories/Prop_Syntax.v
theories/V1.v
theories/V1Spec.v
theories/V1Ipt.v
theories/V1Facts.v
theories/V1Add.v
theories/V1Match.v
theories/V1FieldSpec.v
theories/V1LoadSpec.v
theories/V1Load.v
theories/V1Total.v
theories/V1Field.v
theories/V1TextSpec.v
theories/V1Text.v
theories/V1Top.v
theories/V1SubSpec.v
theories/V1SubFacts.v
theories/V1SubFacts2.v
theories/V1SubFacts3.v
theories/V1SubFacts4.v
theories/Prop_V1.v
theories/Prop_V1Ipt.v
theories/Prop_V1Fields.v
theories/Prop_V1Sub.v
theories/OneSpec.v
theories/OneFacts.v
theories/OneEngine.v
theories/OneLoad.v
theories/OneOpt.v
theories/OneTop.v
theories/OneTotal.v
theories/Prop_One.v
theories/ManySpec.v
theories/ManyFacts.v
theories/ManyTop.v
theories/EngineTotal2.v
theories/ManyTotal.v
theories/Prop_Many.v
theories/Err.v
theories/ErrSpec.v
theories/ErrFacts.v
theories/ErrLoad.v
theories/ErrQuiet.v
theories/Prop_Err.v
theories/Stat.v
theories/StatSpec.v
theories/StatFacts.v
theories/StatFacts2.v
theories/StatFacts3.v
theories/StatFacts4.v
theories/StatTop.v
theories/StatTree.v
theories/Prop_Stat.v
theories/FaultSpec.v
theories/EngineFault.v
theories/LabelFacts.v
theories/Prop_Fault.v
theories/TrapSpec.v
theories/TrapFacts.v
theories/TrapLoad.v
theories/TrapTop.v
theories/Prop_Trap.v
theories/Prop_Trap2.v
theories/Prop_Trap3.v
theories/Prop_Trap4.v
theories/MistakeSpec.v
theories/MistakeFacts.v
theories/MistakeFacts2.v
theories/MistakeTop.v
theories/MistakeBack.v
theories/Prop_Mistake.v
theories/QuietSpec.v
theories/CompleteFacts.v
theories/Prop_Quiet.v
theories/FreshFacts.v
theories/Tool2.v
theories/ToolSpec2.v
theories/Tool2Facts.v
theories/Prop_Tool2.v
theories/Conc.v
theories/ConcFacts.v
theories/ConcSpec.v
theories/Prop_Conc.v
theories/Own.v
theories/OwnSpec.v
theories/OwnFacts.v
theories/OwnRead.v
theories/Prop_Own.v
theories/V1TrapSpec.v
theories/V1Trap.v
theories/Prop_V1Trap.v
