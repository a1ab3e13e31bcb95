-Q theories Verif
theories/AddrModel.v
theories/AddrProofs.v
theories/AddrProofs2.v
theories/AddrProofs3.v
theories/AddrProofs4.v
theories/AddrProofs5.v
theories/AddrProofs6.v
theories/AddrProofs7.v
theories/AddrProps.v
theories/AddrSpec.v
theories/ArgsModel.v
theories/ArgsProofs.v
theories/ArgsProps.v
theories/ArgsSpec.v
theories/AtomicsModel.v
theories/AtomicsProofs.v
theories/AtomicsProofs2.v
theories/AtomicsProps.v
theories/AtomicsSpec.v
theories/Bits.v
theories/CastModel.v
theories/CastProofs.v
theories/CastProofs2.v
theories/CastProofs3.v
theories/CastProps.v
theories/CastSpec.v
theories/CoalesceModel.v
theories/CoalesceProofs.v
theories/CoalesceProofs2.v
theories/CoalesceProofs3.v
theories/CoalesceProofs4.v
theories/CoalesceProps.v
theories/CoalesceSpec.v
theories/ConstModel.v
theories/ConstProofs.v
theories/ConstProofs2.v
theories/ConstProofs3.v
theories/ConstProps.v
theories/ConstSpec.v
theories/DeclModel.v
theories/DeclProofs.v
theories/DeclProofs2.v
theories/DeclProofs3.v
theories/DeclProofs4.v
theories/DeclProps.v
theories/DeclSpec.v
theories/DepsModel.v
theories/DepsProofs.v
theories/DepsProps.v
theories/DepsSpec.v
theories/DiagModel.v
theories/DiagProofs.v
theories/DiagProps.v
theories/DiagSpec.v
theories/DispatchModel.v
theories/DispatchProofs.v
theories/DispatchProps.v
theories/DispatchSpec.v
theories/DotProofs.v
theories/ExprModel.v
theories/ExprProofs.v
theories/ExprProofs2.v
theories/ExprProofs3.v
theories/ExprProps.v
theories/ExprSpec.v
theories/FloatModel.v
theories/FloatProofs.v
theories/FloatProofs2.v
theories/FloatProofs3.v
theories/FloatProofs4.v
theories/FloatProofs5.v
theories/FloatProofs6.v
theories/FloatProofs7.v
theories/FloatProps.v
theories/FloatSpec.v
theories/FoldModel.v
theories/FoldProofs.v
theories/FoldProps.v
theories/FoldSpec.v
theories/ForeachModel.v
theories/ForeachProofs.v
theories/ForeachProofs2.v
theories/ForeachProofs3.v
theories/ForeachProofs4.v
theories/ForeachProps.v
theories/ForeachSpec.v
theories/FpModel.v
theories/FpProofs.v
theories/HalfModel.v
theories/HalfProofs.v
theories/HalfProofs2.v
theories/HalfProofs3.v
theories/HalfProofs4.v
theories/HalfProofs5.v
theories/HalfProps.v
theories/HalfSpec.v
theories/HeaderModel.v
theories/HeaderProofs.v
theories/HeaderProofs2.v
theories/HeaderProofs3.v
theories/HeaderProps.v
theories/HeaderSpec.v
theories/HeapModel.v
theories/HeapProofs.v
theories/HeapProps.v
theories/HeapSpec.v
theories/HexFloatModel.v
theories/HexFloatProofs.v
theories/HexFloatProps.v
theories/HexFloatSpec.v
theories/InitModel.v
theories/InitProofs.v
theories/InitProofs2.v
theories/InitProofs3.v
theories/InitProps.v
theories/InitSpec.v
theories/LanesModel.v
theories/LanesProofs.v
theories/LanesProofs2.v
theories/LanesProps.v
theories/LanesSpec.v
theories/LanesTables.v
theories/LexModel.v
theories/LexProofs.v
theories/LexProofs2.v
theories/LexProps.v
theories/LexSpec.v
theories/MaskModel.v
theories/MaskProofs.v
theories/MaskProps.v
theories/MaskSpec.v
theories/NumModel.v
theories/NumProofs.v
theories/NumProofs2.v
theories/NumProps.v
theories/NumSpec.v
theories/PackModel.v
theories/PackProofs.v
theories/PackProps.v
theories/PeepModel.v
theories/PeepProofs.v
theories/PeepProofs2.v
theories/PeepProofs3.v
theories/PeepProps.v
theories/PeepSpec.v
theories/PoolModel.v
theories/PoolProofs.v
theories/PoolProofs2.v
theories/PoolProofs3.v
theories/PoolProofs4.v
theories/PoolProofs5.v
theories/PoolProps.v
theories/PoolSpec.v
theories/PortModel.v
theories/PortProofs.v
theories/PortProps.v
theories/PortSpec.v
theories/PragmaModel.v
theories/PragmaProofs.v
theories/PragmaProps.v
theories/PragmaSpec.v
theories/PrintModel.v
theories/PrintProofs.v
theories/PrintProofs2.v
theories/PrintProofs3.v
theories/PrintProps.v
theories/PrintSpec.v
theories/QueueModel.v
theories/QueueProofs.v
theories/QueueProofs2.v
theories/QueueProofs3.v
theories/QueueProofs4.v
theories/QueueProps.v
theories/QueueSpec.v
theories/RedeclModel.v
theories/RedeclProofs.v
theories/RedeclProofs2.v
theories/RedeclProofs3.v
theories/RedeclProofs4.v
theories/RedeclProps.v
theories/RedeclSpec.v
theories/RefCountModel.v
theories/RefCountProofs.v
theories/RefCountProofs2.v
theories/RefCountProofs3.v
theories/RefCountProofs4.v
theories/RefCountProps.v
theories/RefCountSpec.v
theories/RngModel.v
theories/RngProofs.v
theories/RngProps.v
theories/RngSpec.v
theories/RoundProps.v
theories/SatModel.v
theories/SatProofs.v
theories/SatProps.v
theories/SatSpec.v
theories/ScopeModel.v
theories/ScopeProofs.v
theories/ScopeProps.v
theories/ScopeSpec.v
theories/ShufModel.v
theories/ShufProofs.v
theories/ShufProps.v
theories/ShufSpec.v
theories/SoaModel.v
theories/SoaProofs.v
theories/SoaProofs2.v
theories/SoaProofs3.v
theories/SoaProofs4.v
theories/SoaProps.v
theories/SoaSpec.v
theories/SpmdCall.v
theories/SpmdGuard.v
theories/SpmdIf.v
theories/SpmdLive.v
theories/SpmdLive2.v
theories/SpmdLive3.v
theories/SpmdLive4.v
theories/SpmdLive5.v
theories/SpmdLive6.v
theories/SpmdLive7.v
theories/SpmdLive8.v
theories/SpmdLoop.v
theories/SpmdMain.v
theories/SpmdModel.v
theories/SpmdProofs.v
theories/SpmdProps.v
theories/SpmdRel.v
theories/SpmdSpec.v
theories/SpmdSwitch.v
theories/SpmdWitness.v
theories/SwitchModel.v
theories/SwitchProofs.v
theories/SwitchProps.v
theories/SwitchSpec.v
theories/SwizModel.v
theories/SwizProofs.v
theories/SwizProps.v
theories/SwizSpec.v
theories/TargetsModel.v
theories/TargetsProofs.v
theories/TargetsProofs2.v
theories/TargetsProps.v
theories/TargetsSpec.v
theories/TargetsTables.v
theories/TaskMemModel.v
theories/TaskMemProofs.v
theories/TaskMemProps.v
theories/TaskMemSpec.v
theories/TasksModel.v
theories/TasksProofs.v
theories/TasksProofs10.v
theories/TasksProofs11.v
theories/TasksProofs12.v
theories/TasksProofs2.v
theories/TasksProofs3.v
theories/TasksProofs4.v
theories/TasksProofs5.v
theories/TasksProofs6.v
theories/TasksProofs7.v
theories/TasksProofs8.v
theories/TasksProofs9.v
theories/TasksProps.v
theories/TasksSpec.v
theories/TasksWitness.v
theories/TemplModel.v
theories/TemplProofs.v
theories/TemplProofs2.v
theories/TemplProofs3.v
theories/TemplProofs4.v
theories/TemplProps.v
theories/TemplSpec.v
theories/TypesModel.v
theories/TypesProofs.v
theories/TypesProofs2.v
theories/TypesProofs3.v
theories/TypesProofs4.v
theories/TypesProps.v
theories/TypesSpec.v
