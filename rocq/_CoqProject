-Q theories Verif
theories/PyBase.v
theories/PyBaseFacts.v
theories/TheoryModel.v
theories/TheoryProofs.v
theories/TheoryProps.v
theories/GridModel.v
theories/GridProofs.v
theories/GridProps.v
theories/LimitsModel.v
theories/LimitsProofs.v
theories/LimitsProps.v
theories/SingleModel.v
theories/SingleProofs.v
theories/SingleProps.v
theories/RustBase.v
theories/RustBaseFacts.v
theories/RustMath.v
theories/Area.v
theories/Primitive.v
theories/InterpModel.v
theories/InterpProofs.v
theories/InterpProps.v
theories/QuadModel.v
theories/QuadFloat.v
theories/QuadProofs.v
theories/QuadLoop.v
theories/QuadRun.v
theories/QuadSpec.v
theories/QuadReal.v
theories/QuadRules.v
theories/QuadOrder.v
theories/QuadProps.v
theories/FloatMath.v
theories/BoostModel.v
theories/BoostProofs.v
theories/BoostTable.v
theories/BoostProps.v
theories/RamboModel.v
theories/RamboProofs.v
theories/RamboProps.v
theories/KinModel.v
theories/KinProofs.v
theories/DalitzProofs.v
theories/KinProps.v
theories/MedModel.v
theories/MedProofs.v
theories/MedProps.v
theories/MedStateModel.v
theories/MedStateProps.v
theories/SpecModel.v
theories/SpecProofs.v
theories/SpecProps.v
theories/FsrModel.v
theories/FsrProofs.v
theories/FsrProps.v
theories/PionModel.v
theories/MedSpecModel.v
theories/MedSpecProofs.v
theories/MedSpecProps.v
theories/PionProofs.v
theories/PionProps.v
theories/SpecialModel.v
theories/SpecialProofs.v
theories/SpenceProofs.v
theories/SpecialProps.v
theories/RelicModel.v
theories/RelicProofs.v
theories/RelicProps.v
theories/DispatchModel.v
theories/DispatchProofs.v
theories/DispatchProps.v
theories/NbodyModel.v
theories/NbodyProofs.v
theories/NbodyProps.v
theories/RhnModel.v
theories/RhnProofs.v
theories/RhnProps.v
theories/ConserveProofs.v
theories/ConserveProps.v
theories/TableData.v
theories/TableModel.v
theories/TableProofs.v
theories/TableProps.v
theories/GevModel.v
theories/GevProofs.v
theories/GevProps.v
theories/GevSpecModel.v
theories/GevSpecProofs.v
theories/GevSpecProps.v
theories/VffModel.v
theories/VffProofs.v
theories/VffProps.v
theories/GevCsModel.v
theories/GevCsProofs.v
theories/GevCsProps.v
theories/RareModel.v
theories/RareProofs.v
theories/RareProps.v
theories/Gauss.v
theories/FluxModel.v
theories/FluxProofs.v
theories/FluxProps.v
theories/FourPiModel.v
theories/FourPiProofs.v
theories/FourPiProps.v
theories/FitModel.v
theories/FitProofs.v
theories/FitProps.v
theories/PseudoModel.v
theories/PseudoProofs.v
theories/PseudoProps.v
theories/PortModel.v
theories/PortProofs.v
theories/PortProps.v
theories/OldModel.v
theories/OldProofs.v
theories/OldProps.v
theories/RhlModel.v
theories/RhlProofs.v
theories/RhlProps.v
theories/ScrModel.v
theories/ScrProofs.v
theories/ScrPhProofs.v
theories/ScrProps.v
theories/TwinModel.v
theories/TwinProofs.v
theories/TwinProps.v
theories/GevDecModel.v
theories/GevDecProps.v
theories/TriModel.v
theories/TriProofs.v
theories/TriProps.v
theories/DuoModel.v
theories/DuoProps.v
theories/HistModel.v
theories/HistProofs.v
theories/HistProps.v
theories/ElasProofs.v
theories/ElasProps.v
theories/DiracProofs.v
theories/DiracProps.v
theories/DistModel.v
theories/DistProofs.v
theories/DistProps.v
theories/ChanProofs.v
theories/ChanProps.v
theories/PbhModel.v
theories/PbhProofs.v
theories/PbhProps.v
theories/GammaProofs.v
theories/GammaIndex.v
theories/GammaProps.v
theories/PbhDecModel.v
theories/PbhDecProofs.v
theories/PbhDecProps.v
theories/SdiagProofs.v
theories/SdiagProps.v
theories/VcurProps.v
theories/TeleModel.v
theories/TeleProps.v
theories/BgModel.v
theories/BgProps.v
theories/EntryModel.v
theories/EntryProps.v
theories/TabModel.v
theories/TabProps.v
theories/NanProps.v
theories/AxialModel.v
theories/AxialProps.v
