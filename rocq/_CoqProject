-Q theories Verif
theories/Model/Base.v
theories/Model/BlockIOM.v
theories/Model/CacheConcM.v
theories/Model/CacheM.v
theories/Model/CloneM.v
theories/Model/CoordM.v
theories/Model/CoordSysM.v
theories/Model/CopyM.v
theories/Model/CurveM.v
theories/Model/DamagedM.v
theories/Model/DenseM.v
theories/Model/FactoryM.v
theories/Model/FieldCacheM.v
theories/Model/FieldIOM.v
theories/Model/FieldM.v
theories/Model/FileM.v
theories/Model/FilterM.v
theories/Model/FloatCentreM.v
theories/Model/FloatCubicM.v
theories/Model/FloatCurveM.v
theories/Model/FloatLodM.v
theories/Model/FloatM.v
theories/Model/FloatMacM.v
theories/Model/FloatMapM.v
theories/Model/FloatMatM.v
theories/Model/FloatMinMaxM.v
theories/Model/FloatMipM.v
theories/Model/FloatMipVecM.v
theories/Model/FloatRayM.v
theories/Model/FloatResampleM.v
theories/Model/FloatSparseM.v
theories/Model/FloatVecM.v
theories/Model/ForeignM.v
theories/Model/FrontM.v
theories/Model/GroupM.v
theories/Model/GroupSetM.v
theories/Model/Hdf5FileM.v
theories/Model/Hdf5M.v
theories/Model/Hdf5MacM.v
theories/Model/Hdf5MapM.v
theories/Model/InterpM.v
theories/Model/IterCacheM.v
theories/Model/LogM.v
theories/Model/LoopM.v
theories/Model/MacM.v
theories/Model/MapM.v
theories/Model/MappingIOM.v
theories/Model/MatM.v
theories/Model/MembersM.v
theories/Model/MetaM.v
theories/Model/MinMaxM.v
theories/Model/MipH5M.v
theories/Model/MipIOM.v
theories/Model/MipLazyM.v
theories/Model/MipM.v
theories/Model/MipMapM.v
theories/Model/MipRaceM.v
theories/Model/MultiM.v
theories/Model/OgM.v
theories/Model/OgawaM.v
theories/Model/OpsM.v
theories/Model/PatternM.v
theories/Model/PluginM.v
theories/Model/ProxyH5M.v
theories/Model/ProxyM.v
theories/Model/RayM.v
theories/Model/RealM.v
theories/Model/RefConcM.v
theories/Model/RefM.v
theories/Model/SequenceM.v
theories/Model/SparseM.v
theories/Model/StreamsM.v
theories/Model/ToolM.v
theories/Model/VecM.v
theories/Spec/BlockIOSpec.v
theories/Spec/CacheSpec.v
theories/Spec/CloneSpec.v
theories/Spec/CoordSpec.v
theories/Spec/CoordSysSpec.v
theories/Spec/CopySpec.v
theories/Spec/CurveSpec.v
theories/Spec/DamagedSpec.v
theories/Spec/DenseSpec.v
theories/Spec/FieldCacheSpec.v
theories/Spec/FieldIOSpec.v
theories/Spec/FileSpec.v
theories/Spec/FilterSpec.v
theories/Spec/FloatCentreSpec.v
theories/Spec/FloatCubicSpec.v
theories/Spec/FloatCurveSpec.v
theories/Spec/FloatLodSpec.v
theories/Spec/FloatMacSpec.v
theories/Spec/FloatMapSpec.v
theories/Spec/FloatMatSpec.v
theories/Spec/FloatMinMaxSpec.v
theories/Spec/FloatMipSpec.v
theories/Spec/FloatMipVecSpec.v
theories/Spec/FloatRaySpec.v
theories/Spec/FloatResampleSpec.v
theories/Spec/FloatSparseSpec.v
theories/Spec/FloatSpec.v
theories/Spec/FloatVecSpec.v
theories/Spec/ForeignSpec.v
theories/Spec/FrontSpec.v
theories/Spec/GroupSetSpec.v
theories/Spec/GroupSpec.v
theories/Spec/Hdf5FileSpec.v
theories/Spec/Hdf5MapSpec.v
theories/Spec/Hdf5MetaSpec.v
theories/Spec/Hdf5Spec.v
theories/Spec/InterpSpec.v
theories/Spec/IterCacheSpec.v
theories/Spec/LogSpec.v
theories/Spec/MacSpec.v
theories/Spec/MapSpec.v
theories/Spec/MappingIOSpec.v
theories/Spec/MembersSpec.v
theories/Spec/MetaSpec.v
theories/Spec/MinMaxSpec.v
theories/Spec/MipH5Spec.v
theories/Spec/MipIOSpec.v
theories/Spec/MipLazySpec.v
theories/Spec/MipMapSpec.v
theories/Spec/MipRaceSpec.v
theories/Spec/MipSpec.v
theories/Spec/MultiSpec.v
theories/Spec/NameSpec.v
theories/Spec/OgSpec.v
theories/Spec/OgawaSpec.v
theories/Spec/OpsSpec.v
theories/Spec/PluginSpec.v
theories/Spec/ProxyH5Spec.v
theories/Spec/ProxySpec.v
theories/Spec/RaySpec.v
theories/Spec/RefConcSpec.v
theories/Spec/RefSpec.v
theories/Spec/SparseSpec.v
theories/Spec/StreamsSpec.v
theories/Spec/ToolSpec.v
theories/Spec/VoxelSpec.v
theories/Proof/BaseP.v
theories/Proof/BlockIOP.v
theories/Proof/BlockIOP2.v
theories/Proof/BlockIOP3.v
theories/Proof/CacheConcP.v
theories/Proof/CacheConcP2.v
theories/Proof/CacheP.v
theories/Proof/CacheP2.v
theories/Proof/CacheP3.v
theories/Proof/CacheP4.v
theories/Proof/CloneP.v
theories/Proof/CoordP.v
theories/Proof/CoordSysP.v
theories/Proof/CopyP.v
theories/Proof/CubicP.v
theories/Proof/CurveP.v
theories/Proof/DamagedP.v
theories/Proof/DamagedP2.v
theories/Proof/DamagedP3.v
theories/Proof/DenseP.v
theories/Proof/FieldCacheP.v
theories/Proof/FieldCacheP2.v
theories/Proof/FieldCacheP3.v
theories/Proof/FieldIOP.v
theories/Proof/FieldIOP2.v
theories/Proof/FieldP.v
theories/Proof/FileP.v
theories/Proof/FileP2.v
theories/Proof/FilterP.v
theories/Proof/FloatCentreP.v
theories/Proof/FloatCubicP.v
theories/Proof/FloatCubicP2.v
theories/Proof/FloatCubicP3.v
theories/Proof/FloatCubicP4.v
theories/Proof/FloatCurveP.v
theories/Proof/FloatLodP.v
theories/Proof/FloatLodP2.v
theories/Proof/FloatMacP.v
theories/Proof/FloatMapP.v
theories/Proof/FloatMatP.v
theories/Proof/FloatMinMaxP.v
theories/Proof/FloatMipP.v
theories/Proof/FloatMipP2.v
theories/Proof/FloatMipP3.v
theories/Proof/FloatMipP4.v
theories/Proof/FloatMipVecP.v
theories/Proof/FloatP.v
theories/Proof/FloatP2.v
theories/Proof/FloatP3.v
theories/Proof/FloatRayP.v
theories/Proof/FloatResampleP.v
theories/Proof/FloatResampleP2.v
theories/Proof/FloatSparseP.v
theories/Proof/FloatVecP.v
theories/Proof/ForeignP.v
theories/Proof/ForeignP2.v
theories/Proof/ForeignP3.v
theories/Proof/ForeignP4.v
theories/Proof/FrontP.v
theories/Proof/FrustumP.v
theories/Proof/GroupP.v
theories/Proof/GroupSetP.v
theories/Proof/Hdf5FileP.v
theories/Proof/Hdf5FileP2.v
theories/Proof/Hdf5FileP3.v
theories/Proof/Hdf5MapP.v
theories/Proof/Hdf5MetaP.v
theories/Proof/Hdf5MetaP2.v
theories/Proof/Hdf5P.v
theories/Proof/Hdf5P2.v
theories/Proof/Hdf5P3.v
theories/Proof/Hdf5P4.v
theories/Proof/InterpP.v
theories/Proof/IterCacheP.v
theories/Proof/IterCacheP2.v
theories/Proof/IterCacheP3.v
theories/Proof/IterCacheP4.v
theories/Proof/LogP.v
theories/Proof/LoopP.v
theories/Proof/MacConvP.v
theories/Proof/MacInterpP.v
theories/Proof/MacP.v
theories/Proof/MapP.v
theories/Proof/MappingIOP.v
theories/Proof/MatP.v
theories/Proof/MembersP.v
theories/Proof/MetaP.v
theories/Proof/MinMaxP.v
theories/Proof/MinMaxP2.v
theories/Proof/MinMaxP3.v
theories/Proof/MipExtP.v
theories/Proof/MipH5P.v
theories/Proof/MipH5P2.v
theories/Proof/MipIOP.v
theories/Proof/MipLazyP.v
theories/Proof/MipMapP.v
theories/Proof/MipP.v
theories/Proof/MipP2.v
theories/Proof/MipP3.v
theories/Proof/MipP4.v
theories/Proof/MipRaceP.v
theories/Proof/MultiP.v
theories/Proof/NameP.v
theories/Proof/OgP.v
theories/Proof/OgawaP.v
theories/Proof/OgawaP2.v
theories/Proof/OgawaP3.v
theories/Proof/OgawaP4.v
theories/Proof/OgawaP5.v
theories/Proof/OgawaP6.v
theories/Proof/OpsP.v
theories/Proof/PluginP.v
theories/Proof/PointP.v
theories/Proof/ProxyH5P.v
theories/Proof/ProxyH5P2.v
theories/Proof/ProxyH5P3.v
theories/Proof/ProxyP.v
theories/Proof/ProxyP2.v
theories/Proof/ProxyP3.v
theories/Proof/RayFrustumP.v
theories/Proof/RayP.v
theories/Proof/RayUniformP.v
theories/Proof/RealP.v
theories/Proof/RefConcP.v
theories/Proof/RefP.v
theories/Proof/ResampleP.v
theories/Proof/ResampleP2.v
theories/Proof/SequenceP.v
theories/Proof/ShrtP.v
theories/Proof/SparseP.v
theories/Proof/SparseP2.v
theories/Proof/SparseP3.v
theories/Proof/SparseP4.v
theories/Proof/StreamsP.v
theories/Proof/StreamsP2.v
theories/Proof/ToolP.v
theories/Props/BlockIOProps.v
theories/Props/CacheConcProps.v
theories/Props/CacheProps.v
theories/Props/CloneProps.v
theories/Props/CoordFloatProps.v
theories/Props/CoordProps.v
theories/Props/CoordSysProps.v
theories/Props/CopyProps.v
theories/Props/CurveProps.v
theories/Props/DamagedProps.v
theories/Props/DenseProps.v
theories/Props/FieldCacheProps.v
theories/Props/FieldIOProps.v
theories/Props/FileProps.v
theories/Props/FloatCentreProps.v
theories/Props/FloatCubicProps.v
theories/Props/FloatCurveProps.v
theories/Props/FloatLodProps.v
theories/Props/FloatMacProps.v
theories/Props/FloatMapProps.v
theories/Props/FloatMatProps.v
theories/Props/FloatMinMaxProps.v
theories/Props/FloatMipProps.v
theories/Props/FloatMipVecProps.v
theories/Props/FloatProps.v
theories/Props/FloatRayProps.v
theories/Props/FloatResampleProps.v
theories/Props/FloatSparseProps.v
theories/Props/FloatVecProps.v
theories/Props/ForeignProps.v
theories/Props/FrontProps.v
theories/Props/GroupProps.v
theories/Props/GroupSampleProps.v
theories/Props/GroupSetProps.v
theories/Props/Hdf5FileProps.v
theories/Props/Hdf5MapProps.v
theories/Props/Hdf5MetaProps.v
theories/Props/Hdf5Props.v
theories/Props/InterpProps.v
theories/Props/IterCacheProps.v
theories/Props/LogProps.v
theories/Props/MacProps.v
theories/Props/MapProps.v
theories/Props/MappingIOProps.v
theories/Props/MembersProps.v
theories/Props/MetaProps.v
theories/Props/MinMaxProps.v
theories/Props/MipH5Props.v
theories/Props/MipIOProps.v
theories/Props/MipInterpProps.v
theories/Props/MipLazyProps.v
theories/Props/MipMapProps.v
theories/Props/MipProps.v
theories/Props/MipSkipProps.v
theories/Props/MipThreadProps.v
theories/Props/MultiProps.v
theories/Props/NameProps.v
theories/Props/OgProps.v
theories/Props/OgawaProps.v
theories/Props/PluginProps.v
theories/Props/ProxyH5Props.v
theories/Props/ProxyProps.v
theories/Props/RayProps.v
theories/Props/RefProps.v
theories/Props/ResampleProps.v
theories/Props/SparseProps.v
theories/Props/StreamsProps.v
theories/Props/ToolProps.v
