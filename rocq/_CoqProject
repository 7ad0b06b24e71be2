-Q theories Verif
theories/Base.v
theories/ArraysModel.v
theories/ArraysProofs.v
theories/ArraysProps.v
theories/EnvModel.v
theories/EnvProofs.v
theories/EnvProps.v
theories/ReactionsModel.v
theories/ReactionsProofs.v
theories/ReactionsProps.v
theories/ParamsModel.v
theories/ParamsProofs.v
theories/ParamsProps.v
theories/Poly.v
theories/IntegratorsModel.v
theories/IntegratorsProofs.v
theories/IntegratorsProps.v
theories/EvolveModel.v
theories/EvolveProofs.v
theories/EvolveProps.v
theories/GridsModel.v
theories/GridsProofs.v
theories/GridsProps.v
theories/FunctionalModel.v
theories/FunctionalProofs.v
theories/FunctionalProps.v
theories/DsModel.v
theories/DsProofs.v
theories/DsLimits.v
theories/DsProps.v
theories/BoundsModel.v
theories/BoundsProofs.v
theories/BoundsProofs3.v
theories/BoundsLoop.v
theories/BoundsProps.v
theories/CrossModel.v
theories/CrossProofs.v
theories/CrossProofs2.v
theories/CrossProofs3.v
theories/CrossProofs4.v
theories/CrossProps.v
theories/ParticleModel.v
theories/ParticleProofs.v
theories/ParticleProofs2.v
theories/ParticleProps.v
theories/ThermoModel.v
theories/ThermoProofs.v
theories/ThermoProofs2.v
theories/ThermoProofs3.v
theories/ThermoProps.v
theories/KawanoModel.v
theories/KawanoProofs.v
theories/KawanoProps.v
theories/OscModel.v
theories/OscProofs.v
theories/OscProps.v
theories/KinemModel.v
theories/KinemProofs.v
theories/Kinem2Proofs.v
theories/KinemProps.v
theories/LibModel.v
theories/LibProofs.v
theories/Lib2Proofs.v
theories/Lib3Proofs.v
theories/LibProps.v
theories/MatrixModel.v
theories/MatrixProofs.v
theories/Matrix2Proofs.v
theories/MatrixProps.v
theories/Kinem2Props.v
theories/Env2Props.v
theories/Arrays2Props.v
theories/Kawano2Props.v
theories/Osc2Props.v
theories/Cross2Props.v
theories/Thermo2Props.v
theories/Particle2Props.v
theories/Functional2Props.v
theories/Bounds2Props.v
theories/Grids2Props.v
theories/Reactions2Props.v
theories/Params2Props.v
theories/UnitsModel.v
theories/UnitsProps.v
theories/Integrate3Model.v
theories/Integrate3Proofs.v
theories/Integrate3Props.v
theories/EventProofs.v
theories/EventProps.v
theories/Integrate4Model.v
theories/ScaleProofs.v
theories/Decay4Proofs.v
theories/ScaleProps.v
theories/Decay4Props.v
theories/WidthModel.v
theories/WidthProofs.v
theories/WidthProps.v
theories/SterileProofs.v
theories/SterileProps.v
theories/RelabelProofs.v
theories/LedgerProofs.v
theories/LedgerProps.v
theories/EnergyProofs.v
theories/EnergyProps.v
theories/ChannelProofs.v
theories/ChannelProps.v
theories/NeutronProofs.v
theories/NeutronProps.v
theories/TableModel.v
theories/TableProps.v
theories/LeptonProofs.v
theories/LeptonProps.v
theories/ConstProps.v
theories/EntropyProps.v
theories/ShapeProofs.v
theories/WeakTableProofs.v
theories/WeakTableProps.v
theories/TermProofs.v
theories/ReciprocityProofs.v
theories/ReciprocityProps.v
theories/ImbalanceProofs.v
theories/ImbalanceProps.v
theories/OrthoModel.v
theories/OrthoSpec.v
theories/OrthoProofs.v
theories/OrthoGaussProofs.v
theories/OrthoChebProofs.v
theories/OrthoProps.v
theories/OrthoJacobiProofs.v
theories/OrthoIntegralProofs.v
theories/OrthoEvalProofs.v
theories/OrthoPolyProps.v
theories/TextModel.v
theories/TextProofs.v
theories/TextProps.v
theories/CurrentProofs.v
theories/CurrentProps.v
theories/NeutralProps.v
theories/PlotModel.v
theories/PlotProofs.v
theories/PlotProps.v
theories/SystemModel.v
theories/SystemProofs.v
theories/SystemProps.v
theories/AccuracyProofs.v
theories/AccuracyProps.v
theories/RunModel.v
theories/RunProps.v
theories/RadiationProofs.v
theories/RadiationProps.v
theories/MonitorModel.v
theories/MonitorProps.v
theories/Tight4Props.v
theories/Ortho2Props.v
theories/OrthoLogModel.v
theories/OrthoLogSpec.v
theories/OrthoLogProofs.v
theories/OrthoLogProps.v
theories/DalitzSpec.v
theories/DalitzProofs.v
theories/Width2Props.v
theories/MassiveSpec.v
theories/MassiveProofs.v
theories/Massive2Proofs.v
theories/Massive3Proofs.v
theories/Massive4Proofs.v
theories/Massive5Proofs.v
theories/MassiveProps.v
theories/TolModel.v
theories/TolProofs.v
theories/TolProps.v
theories/TempModel.v
theories/TempProofs.v
theories/TempProps.v
theories/AgeModel.v
theories/AgeProofs.v
theories/AgeProps.v
theories/RowModel.v
theories/RowProps.v
theories/Age2Props.v
theories/Monitor2Props.v
theories/Tol2Props.v
theories/TrapModel.v
theories/TrapProofs.v
theories/TrapProps.v
theories/TrapFloatModel.v
theories/TrapFloatProps.v
theories/NumUnitsModel.v
theories/NumUnitsSpec.v
theories/NumUnitsProofs.v
theories/NumUnitsProps.v
theories/NumUnits2Props.v
theories/Particle3Props.v
theories/NumUnits3Props.v
