-Q theories Verif
theories/Prelude.v
theories/MailboxModel.v
theories/MailboxSpec.v
theories/MailboxProofs.v
theories/TlmFifoModel.v
theories/TlmFifoSpec.v
theories/TlmFifoProofs.v
theories/MailboxProps.v
theories/PyList.v
theories/QueueModel.v
theories/QueueSpec.v
theories/QueueProofs.v
theories/QueueProps.v
theories/PoolModel.v
theories/PoolSpec.v
theories/PoolProofs.v
theories/PoolProps.v
theories/PackerModel.v
theories/PackerSpec.v
theories/PackerProofs.v
theories/PackerProofs2.v
theories/PackerProps.v
theories/SvModel.v
theories/SvSpec.v
theories/SvProofs.v
theories/SvProps.v
theories/RegFieldModel.v
theories/RegFieldSpec.v
theories/RegFieldProofs.v
theories/RegModel.v
theories/RegSpec.v
theories/RegProofs.v
theories/RegAtomicModel.v
theories/RegProps.v
theories/RegMapModel.v
theories/RegMapSpec.v
theories/RegMapProofs.v
theories/RegMapProps.v
theories/FactoryModel.v
theories/FactorySpec.v
theories/FactoryProofs.v
theories/FactoryProps.v
theories/ResourceModel.v
theories/ResourceSpec.v
theories/ResourceProofs.v
theories/ResourceProps.v
theories/ObjectionModel.v
theories/ObjectionSpec.v
theories/ObjectionProofs.v
theories/ObjectionProps.v
theories/CallbackModel.v
theories/CallbackSpec.v
theories/CallbackProofs.v
theories/CallbackProps.v
theories/ReportModel.v
theories/ReportSpec.v
theories/ReportProofs.v
theories/ReportProps.v
theories/SeqrModel.v
theories/SeqrSpec.v
theories/SeqrProofs.v
theories/SeqrProps.v
theories/EventModel.v
theories/EventSpec.v
theories/EventProofs.v
theories/EventProps.v
theories/DapModel.v
theories/DapProps.v
theories/SpellModel.v
theories/SpellSpec.v
theories/SpellProofs.v
theories/SpellProps.v
theories/ScopeModel.v
theories/ScopeProps.v
theories/MiscModel.v
theories/MiscProps.v
theories/ObjModel.v
theories/ObjSpec.v
theories/ObjProofs.v
theories/ObjProps.v
theories/ChanModel.v
theories/ChanProps.v
theories/CmpModel.v
theories/CmpProps.v
theories/RegFifoModel.v
theories/RegFifoProps.v
theories/PortModel.v
theories/PortProps.v
theories/TravModel.v
theories/TravProps.v
theories/PhaseRunModel.v
theories/PhaseRunProps.v
theories/PhaseEndProps.v
theories/PhaseGraphModel.v
theories/PhaseGraphProps.v
theories/PredictorModel.v
theories/PredictorSpec.v
theories/PredictorProofs.v
theories/PredictorProps.v
theories/MemModel.v
theories/MemSpec.v
theories/MemProofs.v
theories/MemProps.v
theories/SeqLifeModel.v
theories/SeqLifeSpec.v
theories/SeqLifeProofs.v
theories/SeqLifeProps.v
theories/TreeModel.v
theories/TreeSpec.v
theories/TreeProofs.v
theories/TreeProps.v
theories/RegSeqModel.v
theories/RegSeqSpec.v
theories/RegSeqProofs.v
theories/RegSeqProps.v
theories/RecModel.v
theories/RecSpec.v
theories/RecProofs.v
theories/RecProps.v
theories/RegBlkModel.v
theories/RegBlkSpec.v
theories/RegBlkProofs.v
theories/RegBlkProps.v
theories/PrnModel.v
theories/PrnSpec.v
theories/PrnProofs.v
theories/PrnProps.v
theories/MamModel.v
theories/MamProps.v
theories/CmdModel.v
theories/CmdSpec.v
theories/CmdProofs.v
theories/CmdProps.v
theories/AutoModel.v
theories/AutoSpec.v
theories/AutoProofs.v
theories/AutoPool.v
theories/AutoProofs2.v
theories/AutoProofs3.v
theories/AutoProps.v
theories/PkoModel.v
theories/PkoSpec.v
theories/PkoProofs.v
theories/PkoProofs2.v
theories/PkoProps.v
theories/IndModel.v
theories/IndSpec.v
theories/IndProofs.v
theories/IndProofs2.v
theories/IndProofs3.v
theories/IndProps.v
theories/RgyModel.v
theories/RgySpec.v
theories/RgyProofs.v
theories/RgyProps.v
theories/SelModel.v
theories/SelSpec.v
theories/SelProofs.v
theories/SelProps.v
theories/BusModel.v
theories/BusSpec.v
theories/BusProofs.v
theories/BusProps.v
theories/HdlModel.v
theories/HdlSpec.v
theories/HdlProofs.v
theories/HdlProps.v
theories/HierModel.v
theories/HierSpec.v
theories/HierProofs.v
theories/HierProps.v
theories/RegCbModel.v
theories/RegCbSpec.v
theories/RegCbProofs.v
theories/RegCbProps.v
theories/MtrModel.v
theories/MtrSpec.v
theories/MtrProofs.v
theories/MtrProps.v
theories/CtxModel.v
theories/CtxSpec.v
theories/CtxProofs.v
theories/CtxProps.v
theories/DomModel.v
theories/DomSpec.v
theories/DomProofs.v
theories/DomSetProofs.v
theories/DomProps.v
theories/DomSetProps.v
theories/IdsModel.v
theories/IdsSpec.v
theories/IdsProofs.v
theories/IdsProps.v
theories/WtModel.v
theories/WtSpec.v
theories/WtProofs.v
theories/WtProps.v
theories/McbModel.v
theories/McbSpec.v
theories/McbProofs.v
theories/McbProps.v
theories/SockModel.v
theories/SockSpec.v
theories/SockProps.v
theories/XltModel.v
theories/XltSpec.v
theories/XltProps.v
theories/SumModel.v
theories/SumSpec.v
theories/SumProofs.v
theories/SumProps.v
theories/WfoModel.v
theories/WfoSpec.v
theories/WfoProps.v
theories/ScanModel.v
theories/ScanSpec.v
theories/ScanProofs.v
theories/ScanProps.v
theories/NetModel.v
theories/NetSpec.v
theories/NetProofs.v
theories/NetProps.v
theories/MbdModel.v
theories/MbdSpec.v
theories/MbdProofs.v
theories/MbdProps.v
theories/FprModel.v
theories/FprSpec.v
theories/FprProofs.v
theories/FprProps.v
theories/DspModel.v
theories/DspSpec.v
theories/DspProps.v
theories/FdbModel.v
theories/FdbSpec.v
theories/FdbProps.v
theories/AgtModel.v
theories/AgtProps.v
theories/CovModel.v
theories/CovSpec.v
theories/CovProps.v
theories/ExcModel.v
theories/ExcSpec.v
theories/ExcProps.v
theories/AudModel.v
theories/AudSpec.v
theories/AudProps.v
theories/RtModel.v
theories/RtSpec.v
theories/RtProps.v
theories/SibSpec.v
theories/SibProps.v
theories/MbnModel.v
theories/MbnSpec.v
theories/MbnProps.v
theories/EopModel.v
theories/EopSpec.v
theories/EopProps.v
theories/ClrModel.v
theories/ClrProps.v
theories/ClrSpec.v
theories/FmtModel.v
theories/FmtSpec.v
theories/FmtProps.v
theories/NamModel.v
theories/NamSpec.v
theories/NamProps.v
