-Q theories Verif
theories/Prelude.v
theories/RealOrd.v
theories/AxisModel.v
theories/AxisSpec.v
theories/AxisProofs.v
theories/AxisInitModel.v
theories/AxisInitSpec.v
theories/AxisInitProofs.v
theories/AxisProofs2.v
theories/AxisProps.v
theories/PartModel.v
theories/PartSpec.v
theories/PartProofs.v
theories/PartProps.v
theories/SetupModel.v
theories/SetupProofs.v
theories/CollocProofs.v
theories/SetupProps.v
theories/Box.v
theories/GridModel.v
theories/GridSpec.v
theories/GridProofs.v
theories/GridProofs2.v
theories/GridSetup.v
theories/GridProps.v
theories/ElemModel.v
theories/ElemSpec.v
theories/ElemProofs.v
theories/AsmProofs.v
theories/ElemProps.v
theories/BCModel.v
theories/BCSpec.v
theories/BCProofs.v
theories/BCProofs2.v
theories/BCProps.v
theories/MatModel.v
theories/MatSpec.v
theories/MatProofs.v
theories/MatProofs2.v
theories/MatProps.v
theories/RuleModel.v
theories/RuleSpec.v
theories/RuleProofs.v
theories/RuleProofs2.v
theories/LifeModel.v
theories/RuleProps.v
theories/BasModel.v
theories/BasSpec.v
theories/BasProofs.v
theories/BasProofs2.v
theories/BasProofs3.v
theories/BasProps.v
theories/LagModel.v
theories/LagSpec.v
theories/LagProofs.v
theories/LagProofs2.v
theories/LagProps.v
theories/MapModel.v
theories/MapSpec.v
theories/MapProofs.v
theories/MapProofs2.v
theories/MapProofs3.v
theories/MapProofs4.v
theories/MapProps.v
theories/PtModel.v
theories/PtProps.v
theories/SolvModel.v
theories/SolvProofs.v
theories/SolvProps.v
theories/IOModel.v
theories/IOSpec.v
theories/IOProofs.v
theories/IOProofs2.v
theories/IOProofs3.v
theories/IOProps.v
theories/PoolModel.v
theories/PoolProps.v
theories/FdModel.v
theories/FdSpec.v
theories/FdProps.v
theories/MgModel.v
theories/MgSpec.v
theories/MgProps.v
theories/FormModel.v
theories/FormProps.v
theories/ProbeModel.v
theories/ProbeSpec.v
theories/ProbeProofs.v
theories/ProbeProofs2.v
theories/ProbeProofs3.v
theories/ProbeProofs4.v
theories/ProbeProps.v
theories/ProbeProps2.v
theories/DrawModel.v
theories/DrawProofs.v
theories/DrawProps.v
theories/DrvModel.v
theories/DrvSpec.v
theories/DrvProofs.v
theories/DrvProofs2.v
theories/DrvProofs3.v
theories/DrvProps.v
theories/ErrModel.v
theories/ErrSpec.v
theories/ErrProofs.v
theories/ErrProps.v
theories/PcModel.v
theories/PcSpec.v
theories/PcProofs.v
theories/PcProofs2.v
theories/PcProps.v
theories/BddcModel.v
theories/BddcSpec.v
theories/BddcProofs.v
theories/BddcProofs2.v
theories/BddcProofs3.v
theories/BddcProps.v
theories/OptModel.v
theories/OptSpec.v
theories/OptProofs.v
theories/OptProofs2.v
theories/OptProofs3.v
theories/OptProofs4.v
theories/OptProofs5.v
theories/OptProofs6.v
theories/OptProofs7.v
theories/OptProps.v
theories/TabPoly.v
theories/TabRule.v
theories/TabModel.v
theories/TabSpec.v
theories/TabProofs.v
theories/TabProofs2.v
theories/TabProofs3.v
theories/TabProofs4.v
theories/TabProofs5.v
theories/TabProofs6.v
theories/TabProofs7.v
theories/TabProps.v
theories/TabProps2.v
theories/ColModel.v
theories/ColSpec.v
theories/ColProofs.v
theories/ColProofs2.v
theories/ColProofs3.v
theories/ColProofs4.v
theories/ColProps.v
theories/ColProps2.v
theories/ColProps3.v
theories/ColProps4.v
theories/ColProofs5.v
theories/ColProps5.v
theories/ColProofs6.v
theories/ColProps6.v
theories/RefModel.v
theories/RefSpec.v
theories/RefProofs.v
theories/RefProofs2.v
theories/RefProofs3.v
theories/RefProofs4.v
theories/RefProps.v
theories/FrmModel.v
theories/FrmSpec.v
theories/FrmProofs.v
theories/FrmProps.v
theories/DmModel.v
theories/DmSpec.v
theories/DmProofs.v
theories/DmProps.v
theories/FtnModel.v
theories/FtnSpec.v
theories/FtnProofs.v
theories/FtnProps.v
theories/DaModel.v
theories/DaProofs.v
theories/DaProps.v
theories/SbModel.v
theories/SbSpec.v
theories/SbProofs.v
theories/SbProps.v
theories/VwModel.v
theories/VwSpec.v
theories/VwProofs.v
theories/VwProps.v
theories/LdModel.v
theories/LdSpec.v
theories/LdProofs.v
theories/LdProofs2.v
theories/LdProofs3.v
theories/LdProps.v
theories/GsModel.v
theories/GsSpec.v
theories/GsProofs.v
theories/GsProps.v
theories/OdModel.v
theories/OdSpec.v
theories/OdProps.v
theories/MkModel.v
theories/MkSpec.v
theories/MkProps.v
theories/BpModel.v
theories/BpSpec.v
theories/BpProofs.v
theories/BpProps.v
theories/EpModel.v
theories/EpProps.v
theories/StModel.v
theories/StSpec.v
theories/StProps.v
