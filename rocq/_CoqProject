-Q theories Verif
theories/Base.v
theories/PipeModel.v
theories/PipeProofs.v
theories/PipeProofs2.v
theories/PipeProps.v
theories/PoolModel.v
theories/PoolSpec.v
theories/PoolProofs.v
theories/PoolProofs2.v
theories/PoolProps.v
theories/QueueModel.v
theories/QueueSpec.v
theories/QueueProofs.v
theories/QueueProofs2.v
theories/QueueProofs3.v
theories/QueueProofs4.v
theories/QueueProps.v
theories/ProcessModel.v
theories/ProcessSpec.v
theories/ProcessProofs.v
theories/ProcessProofs2.v
theories/ProcessProps.v
theories/HashModel.v
theories/HashProofs.v
theories/HashProps.v
theories/MessageModel.v
theories/MessageSpec.v
theories/MessageProofs.v
theories/MessageProofs2.v
theories/MessageProps.v
theories/DelayModel.v
theories/DelaySpec.v
theories/DelayProofs.v
theories/DelayProps.v
theories/Float32.v
theories/Float32Facts.v
theories/RandomModel.v
theories/RandomProofs.v
theories/RandomProps.v
theories/BinopModel.v
theories/BinopSpec.v
theories/BinopProofs.v
theories/BinopProps.v
theories/TableModel.v
theories/TableSpec.v
theories/TableProofs.v
theories/TableProofs2.v
theories/TableProps.v
theories/Simd.v
theories/Del1Model.v
theories/Del1Spec.v
theories/Del1Props.v
theories/InterleaveModel.v
theories/InterleaveSpec.v
theories/InterleaveProofs.v
theories/InterleaveProps.v
theories/PoleModel.v
theories/PoleSpec.v
theories/PoleProps.v
theories/BiquadModel.v
theories/BiquadProps.v
theories/LineModel.v
theories/LineSpec.v
theories/LineProps.v
theories/PhasorModel.v
theories/PhasorSpec.v
theories/PhasorProofs.v
theories/PhasorProps.v
theories/GraphModel.v
theories/OrderProofs.v
theories/GraphSpec.v
theories/BufferProofs.v
theories/GraphProofs.v
theories/GraphProofs2.v
theories/GraphProofs3.v
theories/GraphProofs4.v
theories/GraphProps.v
theories/RewriteModel.v
theories/RewriteSpec.v
theories/RewriteProofs.v
theories/RewriteProofs2.v
theories/RewriteProofs3.v
theories/RewriteProofs4.v
theories/RewriteProofs5.v
theories/RewriteProofs6.v
theories/RewriteExist.v
theories/RewriteProps.v
theories/HostModel.v
theories/HostSpec.v
theories/HostProofs.v
theories/HostProofs2.v
theories/HostProofs3.v
theories/HostProps.v
theories/CtlModel.v
theories/CtlSpec.v
theories/CtlProofs.v
theories/CtlProofs2.v
theories/CtlProofs3.v
theories/CtlProps.v
theories/RecvModel.v
theories/RecvSpec.v
theories/RecvProofs.v
theories/RecvProps.v
theories/ArgsModel.v
theories/ArgsSpec.v
theories/ArgsProofs.v
theories/ArgsProps.v
theories/FlowModel.v
theories/FlowSpec.v
theories/FlowSim.v
theories/FlowProofs.v
theories/FlowProofs2.v
theories/FlowProofs3.v
theories/FlowProofs4.v
theories/FlowProofs5.v
theories/FlowProps.v
theories/EnvModel.v
theories/EnvSpec.v
theories/EnvProofs.v
theories/EnvProofs2.v
theories/EnvProofs3.v
theories/EnvProps.v
theories/ConvModel.v
theories/ConvSpec.v
theories/ConvProofs.v
theories/ConvProofs2.v
theories/ConvProps.v
theories/UnopModel.v
theories/BinopValSpec.v
theories/BinopValProofs.v
theories/BinopValProps.v
theories/SigTabModel.v
theories/SigTabSpec.v
theories/SigTabProofs.v
theories/SigTabProps.v
theories/DelayLineModel.v
theories/DelayLineSpec.v
theories/DelayLineProofs.v
theories/DelayLineProps.v
theories/ExprModel.v
theories/ExprSpec.v
theories/ExprProofs.v
theories/ExprProofs2.v
theories/ExprProofs3.v
theories/ExprCtlModel.v
theories/ExprCtlSpec.v
theories/ExprCtlProofs.v
theories/ExprProps.v
theories/OpModel.v
theories/OpSpec.v
theories/OpProofs.v
theories/OpProofs2.v
theories/OpProofs3.v
theories/OpProofs4.v
theories/OpProofs5.v
theories/OpProofs6.v
theories/OpProofs7.v
theories/OpProofs8.v
theories/OpProps.v
theories/Float64.v
theories/Float64Facts.v
theories/TimeModel.v
theories/TimeSpec.v
theories/TimeProofs.v
theories/TimeProofs2.v
theories/TimeProps.v
theories/RecorderModel.v
theories/RecorderSpec.v
theories/RecorderProofs.v
theories/RecorderProofs2.v
theories/RecorderProofs3.v
theories/RecorderProofs4.v
theories/RecorderProps.v
theories/PatchModel.v
theories/PatchLibs.v
theories/PatchSpec.v
theories/PatchSpec2.v
theories/PatchProofs.v
theories/PatchProofs2.v
theories/PatchProofs3.v
theories/PatchProofs4.v
theories/PatchProofs5.v
theories/PatchProofs6.v
theories/PatchProofs7.v
theories/PatchProofs8.v
theories/PatchSpec3.v
theories/PatchProofs9.v
theories/PatchProofs10.v
theories/PatchProofs11.v
theories/PatchProofs12.v
theories/PatchProps.v
theories/SndModel.v
theories/SndSpec.v
theories/SndProofs.v
theories/SndProofs2.v
theories/SndProofs3.v
theories/SndProofs4.v
theories/SndProofs5.v
theories/SndProofs6.v
theories/SndProofs7.v
theories/SndProofs8.v
theories/SndProofs9.v
theories/SndProofs10.v
theories/SndProofs11.v
theories/SndProofs12.v
theories/SndProofs13.v
theories/SndProofs14.v
theories/SndProps.v
theories/ParseModel.v
theories/ParseSpec.v
theories/ParseProofs.v
theories/ParseProofs2.v
theories/ParseProofs3.v
theories/ParseProofs4.v
theories/ParseProofs5.v
theories/ParseProofs6.v
theories/ParseProofs7.v
theories/ParseProofs8.v
theories/ParseProofs9.v
theories/ParseProps.v
theories/MidiModel.v
theories/MidiSpec.v
theories/MidiProofs.v
theories/MidiProofs2.v
theories/MidiProofs3.v
theories/MidiProofs4.v
theories/MidiProps.v
theories/ExpFacts.v
theories/PatchLibs2.v
theories/PatchSpec4.v
theories/PatchProofs13.v
theories/PatchProofs14.v
theories/PatchProofs15.v
theories/PatchProofs16.v
theories/BoxProps.v
theories/FanModel.v
theories/FanSpec.v
theories/FanProofs.v
theories/FanProofs2.v
theories/FanProofs3.v
theories/FanProps.v
theories/RampSpec.v
theories/RampProofs.v
theories/RampProofs2.v
theories/RampProofs3.v
theories/RampProofs4.v
theories/RampProofs5.v
theories/RampProofs6.v
theories/RampProofs7.v
theories/RampProps.v
theories/NoiseModel.v
theories/NoiseSpec.v
theories/NoiseProofs.v
theories/NoiseProofs2.v
theories/NoiseProofs3.v
theories/NoiseProps.v
theories/FilterLibs.v
theories/FilterSpec.v
theories/FilterProofs.v
theories/FilterProofs2.v
theories/FilterProofs3.v
theories/FilterProofs4.v
theories/FilterProps.v
theories/ParamModel.v
theories/ParamSpec.v
theories/ParamProofs.v
theories/ParamProofs2.v
theories/ParamProofs3.v
theories/ParamProps.v
theories/HookModel.v
theories/HookSpec.v
theories/HookProofs.v
theories/HookProps.v
theories/ScopeModel.v
theories/ScopeSpec.v
theories/ScopeProofs.v
theories/ScopeProofs2.v
theories/ScopeProps.v
theories/GlueModel.v
theories/GlueSpec.v
theories/GlueProofs.v
theories/GlueProofs2.v
theories/GlueProofs3.v
theories/GlueProps.v
theories/OwlModel.v
theories/OwlSpec.v
theories/OwlProofs.v
theories/OwlProps.v
theories/SysModel.v
theories/SysSpec.v
theories/SysProofs.v
theories/SysProps.v
