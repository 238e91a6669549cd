-Q theories Verif
theories/Common.v
theories/ConfigModel.v
theories/ConfigProps.v
theories/SourcesModel.v
theories/SourcesProps.v
theories/RegistryModel.v
theories/RegistryProps.v
theories/StateModel.v
theories/StateProps.v
theories/StructModel.v
theories/StructProps.v
theories/TrackerModel.v
theories/TrackerProps.v
theories/MatStrModel.v
theories/MatStrProps.v
theories/NumModel.v
theories/SolverModel.v
theories/SolverProps.v
theories/UnitsModel.v
theories/UnitsProps.v
theories/ParamModel.v
theories/ParamProps.v
theories/InterpModel.v
theories/InterpProps.v
theories/NpModel.v
theories/IVModel.v
theories/IVProps.v
theories/PhysConst.v
theories/DiodeModel.v
theories/DiodeProps.v
theories/TunnelModel.v
theories/TunnelProps.v
theories/DetBalModel.v
theories/DetBalProps.v
theories/DepletionModel.v
theories/DepletionProps.v
theories/DepletionProps2.v
theories/DepletionProps3.v
theories/BeerLambertModel.v
theories/BeerLambertProps.v
theories/TmmModel.v
theories/TmmProps.v
theories/TmmLayersModel.v
theories/TmmLayersProps.v
theories/StackModel.v
theories/StackProps.v
theories/LightModel.v
theories/LightProps.v
theories/LinAlg.v
theories/StrainModel.v
theories/StrainProps.v
theories/KpModel.v
theories/KpProps.v
theories/SchrodModel.v
theories/SchrodProps.v
theories/SchrodProps2.v
theories/SmoothModel.v
theories/SmoothProps.v
theories/QwModel.v
theories/QwProps.v
theories/QwProps2.v
theories/SpiceModel.v
theories/SpiceProps.v
theories/SpiceProps2.v
theories/SpiceProps3.v
theories/SpiceProps4.v
theories/PddModel.v
theories/PddProps.v
theories/PddProps2.v
theories/PddProps3.v
theories/DepletionProps4.v
theories/IncModel.v
theories/IncProps.v
theories/SesameModel.v
theories/SesameProps.v
theories/SesameProps2.v
theories/SesameProps3.v
theories/MobilityModel.v
theories/MobilityProps.v
theories/CritModel.v
theories/CritProps.v
theories/SesameProps4.v
theories/QwProps3.v
theories/Quasi3DModel.v
theories/Quasi3DProps.v
theories/MaterialModel.v
theories/MaterialProps.v
theories/MaterialProps2.v
theories/DDModel.v
theories/DDProps.v
theories/DDProps2.v
theories/DDProps3.v
theories/BandModel.v
theories/BandProps.v
theories/NewtonModel.v
theories/NewtonProps.v
theories/DDMeshModel.v
theories/DDMeshProps.v
theories/RadModel.v
theories/RadProps.v
theories/Spectral2Model.v
theories/Spectral2Props.v
theories/SopraModel.v
theories/SopraProps.v
theories/SopraProps2.v
theories/RatModel.v
theories/RatProps.v
theories/RatProps2.v
theories/RatProps3.v
theories/RatProps4.v
theories/IncProfileModel.v
theories/IncProfileProps.v
theories/RiiModel.v
theories/RiiProps.v
theories/DielModel.v
theories/DielProps.v
theories/RcwaModel.v
theories/RcwaProps.v
theories/CircuitModel.v
theories/CircuitProps.v
theories/EvolModel.v
theories/EvolProps.v
theories/QwAbsModel.v
theories/QwAbsProps.v
theories/CrystalModel.v
theories/CrystalProps.v
theories/QwUnitModel.v
theories/QwUnitProps.v
theories/QwUnitProps2.v
theories/QwUnitProps3.v
theories/QwUnitProps4.v
theories/EllModel.v
theories/EllProps.v
theories/EllProps2.v
theories/DbPlanckModel.v
theories/DbPlanckProps.v
theories/SmartsModel.v
theories/SmartsProps.v
theories/SmartsProps2.v
theories/SmartsProps3.v
theories/SingletonModel.v
theories/SingletonProps.v
theories/MatTextModel.v
theories/MatTextProps.v
theories/AdachiModel.v
theories/AdachiProps.v
theories/OldQeModel.v
theories/OldQeProps.v
theories/OldQeProps2.v
theories/OldQeProps3.v
theories/BandQwModel.v
theories/BandQwProps.v
theories/BandQwProps2.v
theories/BandQwProps3.v
theories/BulkKpModel.v
theories/BulkKpProps.v
theories/BulkKpProps2.v
theories/BulkKpProps3.v
theories/NewMatModel.v
theories/NewMatProps.v
theories/NewMatProps2.v
theories/EllDataModel.v
theories/EllDataProps.v
theories/EllFitModel.v
theories/EllFitProps.v
theories/EllFitProps2.v
theories/CppbModel.v
theories/CppbProps.v
theories/CppbProps2.v
theories/CppbProps3.v
theories/DepLightModel.v
theories/DepLightProps.v
theories/DepLightProps2.v
theories/JAbsModel.v
theories/JAbsProps.v
theories/ConfAccModel.v
theories/ConfAccProps.v
theories/PickModel.v
theories/PickProps.v
theories/OldSourcesModel.v
theories/OldSourcesProps.v
theories/LoadCpModel.v
theories/LoadCpProps.v
theories/GraphQmModel.v
theories/GraphQmProps.v
theories/GraphQmProps2.v
theories/GraphModel.v
theories/GraphProps.v
theories/OldQeProps4.v
theories/NkFilesModel.v
theories/NkFilesProps.v
theories/ToStructModel.v
theories/ToStructProps.v
theories/DynMeshModel.v
theories/DynMeshProps.v
theories/DynMeshProps2.v
theories/DynMeshProps3.v
theories/DynMeshProps4.v
theories/DDStateModel.v
theories/DDStateProps.v
theories/BandQwProps4.v
theories/QwTextModel.v
theories/QwTextProps.v
