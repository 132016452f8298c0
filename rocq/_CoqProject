-Q theories Verif
theories/ErrorModel.v
theories/ErrorProofs.v
theories/ErrorProps.v
theories/ListModel.v
theories/ListProofs.v
theories/ListProps.v
theories/StateModel.v
theories/MpiModel.v
theories/MpiProofs.v
theories/MpiProps.v
theories/QueueModel.v
theories/QueueProofs.v
theories/QueueProps.v
theories/WienerModel.v
theories/WienerProofs.v
theories/WienerProps.v
theories/EndcondModel.v
theories/EndcondProofs.v
theories/EndcondProps.v
theories/ParticleModel.v
theories/ParticleProofs.v
theories/ParticleProps.v
theories/RandomModel.v
theories/RandomProofs.v
theories/RandomProps.v
theories/Deriv.v
theories/MathModel.v
theories/MathProofs.v
theories/MathProps.v
theories/Vec.v
theories/Math2Model.v
theories/Math2Proofs.v
theories/Math2Props.v
theories/OrbModel.v
theories/OrbProofs.v
theories/OrbProps.v
theories/DistModel.v
theories/DistProofs.v
theories/DistProps.v
theories/Wall2Model.v
theories/Wall2Proofs.v
theories/Wall2Props.v
theories/Wall3Model.v
theories/Wall3Proofs.v
theories/Wall3TreeProofs.v
theories/Wall3GeoProofs.v
theories/Wall3SearchProofs.v
theories/Wall3Props.v
theories/AxisModel.v
theories/AxisProofs.v
theories/Glue.v
theories/LintModel.v
theories/LintProofs.v
theories/LintProps.v
theories/SplineUniq.v
theories/TensorProofs.v
theories/Spl2Uniq.v
theories/SplineModel.v
theories/SplineProofs.v
theories/SplineProps.v
theories/Spl2Model.v
theories/Spl2Proofs.v
theories/Spl2Props.v
theories/Spl3Model.v
theories/Spl3Proofs.v
theories/Spl3Props.v
theories/PhysModel.v
theories/PhysProofs.v
theories/PhysProps.v
theories/StepFoModel.v
theories/StepFoProofs.v
theories/StepFoProps.v
theories/RkProofs.v
theories/GcStepProofs.v
theories/GcModel.v
theories/GcProofs.v
theories/GcProps.v
theories/SimModel.v
theories/SimProofs.v
theories/SimProps.v
theories/HybridModel.v
theories/HybridProofs.v
theories/HybridProps.v
theories/PlasmaModel.v
theories/PlasmaProofs.v
theories/PlasmaProps.v
theories/NeutralModel.v
theories/NeutralProofs.v
theories/NeutralProps.v
theories/GsModel.v
theories/GsProofs.v
theories/GsProps.v
theories/BfModel.v
theories/BfProofs.v
theories/BfProps.v
theories/AtomModel.v
theories/AtomProofs.v
theories/AtomProps.v
theories/NbiModel.v
theories/NbiProofs.v
theories/NbiProps.v
theories/AfsiModel.v
theories/AfsiProofs.v
theories/AfsiProps.v
theories/BiosawModel.v
theories/BiosawProofs.v
theories/BiosawProps.v
theories/Erf.v
theories/CollModel.v
theories/CollProofs.v
theories/CollProps.v
theories/GcollProofs.v
theories/GcollProps.v
theories/GctModel.v
theories/GctProofs.v
theories/GctProps.v
theories/TcModel.v
theories/TcProofs.v
theories/TcProps.v
theories/MhdModel.v
theories/MhdProofs.v
theories/MhdProps.v
theories/StepMhdModel.v
theories/StepMhdProofs.v
theories/StepMhdProps.v
theories/AngleProofs.v
theories/AngleProps.v
theories/FogcModel.v
theories/FogcProofs.v
theories/FogcProps.v
theories/LibModel.v
theories/LibProofs.v
theories/LibProps.v
theories/MainModel.v
theories/MainProofs.v
theories/MainProps.v
theories/HdfModel.v
theories/HdfProofs.v
theories/HdfProps.v
theories/HmkModel.v
theories/HmkProofs.v
theories/HmkProps.v
theories/HoutModel.v
theories/HoutProofs.v
theories/HoutProps.v
theories/ExplModel.v
theories/ExplProofs.v
theories/ExplProps.v
theories/OptModel.v
theories/OptProofs.v
theories/OptProps.v
theories/HinModel.v
theories/HinProofs.v
theories/HinProps.v
theories/HuseModel.v
theories/HuseProofs.v
theories/HuseProps.v
theories/HnbiModel.v
theories/HnbiProofs.v
theories/HnbiProps.v
theories/BbnModel.v
theories/BbnProofs.v
theories/BbnProps.v
theories/IdtModel.v
theories/IdtProofs.v
theories/IdtProps.v
theories/HqryModel.v
theories/HqryProofs.v
theories/HqryProps.v
theories/DgModel.v
theories/DgProofs.v
theories/DgProps.v
theories/LwModel.v
theories/LwProofs.v
theories/LwProps.v
theories/RfModel.v
theories/RfProofs.v
theories/RfProps.v
theories/TermModel.v
theories/TermProofs.v
theories/TermProps.v
theories/RecModel.v
theories/RecProofs.v
theories/RecProps.v
theories/PtfModel.v
theories/PtfProofs.v
theories/PtfProps.v
theories/WfModel.v
theories/WfProofs.v
theories/WfProps.v
theories/VpaProofs.v
theories/VpaProps.v
theories/AsfModel.v
theories/AsfProofs.v
theories/AsfProps.v
theories/RejModel.v
theories/RejProofs.v
theories/RejProps.v
theories/ThmModel.v
theories/ThmProofs.v
theories/ThmProps.v
