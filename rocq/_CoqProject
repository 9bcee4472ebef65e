-Q theories Verif
theories/RleModel.v
theories/RleSpec.v
theories/RleProofs.v
theories/RleProps.v
theories/TreeModel.v
theories/TreeSpec.v
theories/TreeProofs.v
theories/TreeProps.v
theories/PlannerModel.v
theories/PlannerSpec.v
theories/PlannerProofs.v
theories/PlannerProps.v
theories/AngleModel.v
theories/AngleSpec.v
theories/AngleProofs.v
theories/AngleProps.v
theories/SampledModel.v
theories/SampledSpec.v
theories/SampledProofs.v
theories/SampledProps.v
theories/SampledPlanModel.v
theories/SampledPlanProofs.v
theories/SampledPlanProps.v
theories/TrajModel.v
theories/TrajSpec.v
theories/TrajProofs.v
theories/TrajProps.v
theories/MetricSpec.v
theories/MetricProofs.v
theories/MetricProps.v
theories/ShortcutModel.v
theories/ShortcutSpec.v
theories/ShortcutProofs.v
theories/ShortcutProps.v
theories/CSPathModel.v
theories/CSPathSpec.v
theories/CSPathProofs.v
theories/CSPathProps.v
theories/QueueModel.v
theories/QueueSpec.v
theories/QueueProofs.v
theories/QueueProps.v
theories/PqpModel.v
theories/PqpSpec.v
theories/PqpProofs.v
theories/PqpProps.v
theories/PqpBuildModel.v
theories/PqpBuildSpec.v
theories/PqpBuildProofs.v
theories/PqpBuildProps.v
theories/WsDataModel.v
theories/WsDataSpec.v
theories/WsDataProofs.v
theories/WsDataProps.v
theories/BlockModel.v
theories/BlockSpec.v
theories/BlockProofs.v
theories/BlockProps.v
theories/VoxModel.v
theories/VoxSpec.v
theories/VoxProofs.v
theories/VoxProps.v
theories/GridModel.v
theories/GridSpec.v
theories/GridProofs.v
theories/GridProps.v
theories/WsPoseModel.v
theories/WsPoseSpec.v
theories/WsPoseProofs.v
theories/WsPoseProps.v
theories/FileModel.v
theories/FileSpec.v
theories/FileProofs.v
theories/FileProps.v
theories/WsFileModel.v
theories/WsFileSpec.v
theories/WsFileProofs.v
theories/WsFileProps.v
theories/HullModel.v
theories/HullSpec.v
theories/HullProofs.v
theories/HullPoly.v
theories/HullBuild.v
theories/HullProps.v
theories/QuatModel.v
theories/QuatSpec.v
theories/QuatProofs.v
theories/QuatProps.v
theories/RpyModel.v
theories/RpySpec.v
theories/RpyProofs.v
theories/RpyProps.v
theories/GramModel.v
theories/GramSpec.v
theories/GramProofs.v
theories/GramProps.v
theories/JointModel.v
theories/JointSpec.v
theories/JointProofs.v
theories/JointFloat.v
theories/JointProps.v
theories/SceneModel.v
theories/SceneSpec.v
theories/SceneProofs.v
theories/SceneProps.v
theories/KinModel.v
theories/KinSpec.v
theories/KinProofs.v
theories/KinProps.v
theories/BBoxModel.v
theories/BBoxSpec.v
theories/BBoxProofs.v
theories/BBoxProps.v
theories/ObjSetModel.v
theories/ObjSetSpec.v
theories/ObjSetProofs.v
theories/ObjSetProps.v
theories/CdmModel.v
theories/CdmSpec.v
theories/CdmProofs.v
theories/CdmProps.v
theories/ConfigModel.v
theories/ConfigSpec.v
theories/ConfigProofs.v
theories/ConfigProps.v
theories/GraspModel.v
theories/GraspSpec.v
theories/GraspProofs.v
theories/GraspProps.v
theories/LockModel.v
theories/LockSpec.v
theories/LockProofs.v
theories/LockRobot.v
theories/LockProps.v
theories/ThreadModel.v
theories/ThreadSpec.v
theories/ThreadProofs.v
theories/ThreadProps.v
theories/BlendModel.v
theories/BlendSpec.v
theories/BlendProofs.v
theories/BlendPath.v
theories/BlendSwitch.v
theories/BlendProps.v
theories/ObbModel.v
theories/ObbSpec.v
theories/ObbProofs.v
theories/ObbExact.v
theories/ObbProps.v
theories/JacModel.v
theories/JacSpec.v
theories/JacProofs.v
theories/JacProps.v
theories/IkModel.v
theories/IkSpec.v
theories/IkProofs.v
theories/IkProps.v
theories/CheckModel.v
theories/CheckSpec.v
theories/CheckProofs.v
theories/CheckProps.v
theories/PlaneModel.v
theories/PlaneSpec.v
theories/PlaneProofs.v
theories/PlaneProps.v
theories/SupportModel.v
theories/SupportSpec.v
theories/SupportProofs.v
theories/SupportProps.v
theories/EefModel.v
theories/EefSpec.v
theories/EefProofs.v
theories/EefProps.v
theories/MeshModel.v
theories/MeshSpec.v
theories/MeshProofs.v
theories/MeshMerge.v
theories/MeshOrient.v
theories/MeshFill.v
theories/MeshProps.v
theories/KdModel.v
theories/KdSpec.v
theories/KdProofs.v
theories/KdKnn.v
theories/KdProps.v
theories/McModel.v
theories/McSpec.v
theories/McProofs.v
theories/McMesh.v
theories/McSingle.v
theories/McProps.v
theories/GwsModel.v
theories/GwsSpec.v
theories/GwsProofs.v
theories/GwsProps.v
theories/GwsPropsCase.v
theories/GplModel.v
theories/GplSpec.v
theories/GplProofs.v
theories/GplProps.v
theories/AprModel.v
theories/AprSpec.v
theories/AprProofs.v
theories/AprProps.v
theories/HistModel.v
theories/HistSpec.v
theories/HistProofs.v
theories/HistProps.v
theories/CrvModel.v
theories/CrvSpec.v
theories/CrvProofs.v
theories/CrvProps.v
theories/GeoModel.v
theories/GeoSpec.v
theories/GeoProofs.v
theories/GeoProps.v
theories/KerModel.v
theories/KerSpec.v
theories/KerProofs.v
theories/KerProps.v
theories/HelpModel.v
theories/HelpSpec.v
theories/HelpProofs.v
theories/HelpProps.v
theories/OriModel.v
theories/OriSpec.v
theories/OriProofs.v
theories/OriProps.v
theories/FacModel.v
theories/FacSpec.v
theories/FacProofs.v
theories/FacProps.v
theories/SubModel.v
theories/SubSpec.v
theories/SubProofs.v
theories/SubProps.v
theories/EnvModel.v
theories/EnvSpec.v
theories/EnvProofs.v
theories/EnvProps.v
theories/ChnModel.v
theories/ChnSpec.v
theories/ChnProofs.v
theories/ChnProps.v
theories/GravModel.v
theories/GravSpec.v
theories/GravProofs.v
theories/GravProps.v
theories/ColModel.v
theories/ColSpec.v
theories/ColProofs.v
theories/ColProps.v
theories/HikModel.v
theories/HikSpec.v
theories/HikProofs.v
theories/HikProps.v
theories/HikProps2.v
theories/CikModel.v
theories/CikSpec.v
theories/CikProofs.v
theories/CikProps.v
