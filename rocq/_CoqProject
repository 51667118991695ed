-Q theories Verif
theories/AabbModel.v
theories/AabbProofs.v
theories/AmbientModel.v
theories/AmbientProofs.v
theories/AreasModel.v
theories/AreasProofs.v
theories/AtlasModel.v
theories/Base.v
theories/Base64Model.v
theories/BevelModel.v
theories/BevelProofs.v
theories/BounceModel.v
theories/BrushBspModel.v
theories/BrushBspProofs.v
theories/BspAcceptProofs.v
theories/BspConvProofs.v
theories/BspFileModel.v
theories/BspLoadProofs.v
theories/BspQueryModel.v
theories/BspQueryProofs.v
theories/BspReadProofs.v
theories/BspRecModel.v
theories/BspRecProofs.v
theories/BspTexProofs.v
theories/BspWriteProofs.v
theories/BspxModel.v
theories/BspxProofs.v
theories/CdfModel.v
theories/CheckModel.v
theories/CheckProofs.v
theories/CmdlibModel.v
theories/CmdlibProofs.v
theories/Codec.v
theories/ContentsModel.v
theories/ContentsProofs.v
theories/ConvLoadProofs.v
theories/ConvModel.v
theories/ConvProofs.v
theories/DecompEntModel.v
theories/DecompEntProofs.v
theories/DecompModel.v
theories/DecompProofs.v
theories/DefsModel.v
theories/Dfs.v
theories/DivideModel.v
theories/EditModel.v
theories/EntModel.v
theories/EntOutModel.v
theories/EntOutProofs.v
theories/EntProofs.v
theories/ExtentsModel.v
theories/ExtentsProofs.v
theories/FaceEmitModel.v
theories/FaceEmitProofs.v
theories/FindTexProofs.v
theories/FsModel.v
theories/FsProofs.v
theories/ImgModel.v
theories/ImgProofs.v
theories/JsonModel.v
theories/LeafBitsHistory.v
theories/LeafBitsModel.v
theories/LeafBitsProofs.v
theories/LightColModel.v
theories/LightColProofs.v
theories/LightKeysModel.v
theories/LightPvsModel.v
theories/LightSamplesModel.v
theories/LightSamplesProofs.v
theories/LightStylesModel.v
theories/LightStylesProofs.v
theories/LightValModel.v
theories/LightValProofs.v
theories/LightgridDecode.v
theories/LightgridModel.v
theories/LightgridProofs.v
theories/LightgridSpec.v
theories/LightmapModel.v
theories/LightmapProofs.v
theories/LmLumpsModel.v
theories/LmLumpsProofs.v
theories/MapFileModel.v
theories/MapFileProofs.v
theories/MapMergeModel.v
theories/MapMergeProofs.v
theories/MapTexModel.v
theories/MapTexProofs.v
theories/MergeModel.v
theories/MergeProofs.v
theories/MinLightModel.v
theories/MinLightProofs.v
theories/NumCastModel.v
theories/NumCastProofs.v
theories/OptionsModel.v
theories/OutsideModel.v
theories/OutsideProofs.v
theories/ParserModel.v
theories/ParserProofs.v
theories/PhongModel.v
theories/PhongProofs.v
theories/PlaneTableModel.v
theories/PlaneTableProofs.v
theories/PolyGeoModel.v
theories/PolyGeoProofs.v
theories/PortalTreeModel.v
theories/PortalTreeProofs.v
theories/PropertiesAabb.v
theories/PropertiesAmbient.v
theories/PropertiesAreas.v
theories/PropertiesAtlas.v
theories/PropertiesBase64.v
theories/PropertiesBevel.v
theories/PropertiesBounce.v
theories/PropertiesBrushBsp.v
theories/PropertiesBspFile.v
theories/PropertiesBspQuery.v
theories/PropertiesBspRec.v
theories/PropertiesBspx.v
theories/PropertiesCdf.v
theories/PropertiesCheck.v
theories/PropertiesCmdlib.v
theories/PropertiesContents.v
theories/PropertiesConv.v
theories/PropertiesDecomp.v
theories/PropertiesDecompEnt.v
theories/PropertiesDefs.v
theories/PropertiesDivide.v
theories/PropertiesEdit.v
theories/PropertiesEntOut.v
theories/PropertiesExact.v
theories/PropertiesExact2.v
theories/PropertiesExact3.v
theories/PropertiesExact4.v
theories/PropertiesExact5.v
theories/PropertiesExtents.v
theories/PropertiesFaceEmit.v
theories/PropertiesFs.v
theories/PropertiesImg.v
theories/PropertiesJson.v
theories/PropertiesLeafBits.v
theories/PropertiesLightCol.v
theories/PropertiesLightKeys.v
theories/PropertiesLightOptions.v
theories/PropertiesLightPvs.v
theories/PropertiesLightSamples.v
theories/PropertiesLightStyles.v
theories/PropertiesLightVal.v
theories/PropertiesLightgrid.v
theories/PropertiesLightmap.v
theories/PropertiesLmLumps.v
theories/PropertiesMapFile.v
theories/PropertiesMapMerge.v
theories/PropertiesMapTex.v
theories/PropertiesMerge.v
theories/PropertiesMinLight.v
theories/PropertiesOptions.v
theories/PropertiesOutside.v
theories/PropertiesParser.v
theories/PropertiesPhong.v
theories/PropertiesPlaneTable.v
theories/PropertiesPolyGeo.v
theories/PropertiesPortalTree.v
theories/PropertiesPrt.v
theories/PropertiesQMap.v
theories/PropertiesRad.v
theories/PropertiesRegion.v
theories/PropertiesRetex.v
theories/PropertiesScale.v
theories/PropertiesSettings.v
theories/PropertiesShadow.v
theories/PropertiesSideOut.v
theories/PropertiesSpot.v
theories/PropertiesSpotRotation.v
theories/PropertiesSun.v
theories/PropertiesSurfFlags.v
theories/PropertiesSurfSub.v
theories/PropertiesTJunc.v
theories/PropertiesTexFlags.v
theories/PropertiesTexTab.v
theories/PropertiesText.v
theories/PropertiesTree.v
theories/PropertiesTrial.v
theories/PropertiesVisFlow.v
theories/PropertiesVisOut.v
theories/PropertiesVisRle.v
theories/PropertiesVisSound.v
theories/PropertiesVisState.v
theories/PropertiesWadOut.v
theories/PropertiesWeld.v
theories/PropertiesWindClip.v
theories/PropertiesWindStore.v
theories/PropertiesXform.v
theories/PrtModel.v
theories/PrtProofs.v
theories/QMapModel.v
theories/QMapProofs.v
theories/RadModel.v
theories/RegionModel.v
theories/RegionProofs.v
theories/RetexModel.v
theories/ScaleModel.v
theories/ScaleProofs.v
theories/SettingsModel.v
theories/SettingsProofs.v
theories/ShadowModel.v
theories/SideOutModel.v
theories/SideOutProofs.v
theories/SpotModel.v
theories/StreamModel.v
theories/StreamProofs.v
theories/SunModel.v
theories/SunProofs.v
theories/SurfFlagsModel.v
theories/SurfFlagsProofs.v
theories/SurfSubModel.v
theories/SurfSubProofs.v
theories/TJuncFaceProofs.v
theories/TJuncFanProofs.v
theories/TJuncModel.v
theories/TJuncProofs.v
theories/TexExportProofs.v
theories/TexFlagsModel.v
theories/TexFlagsProofs.v
theories/TexTabModel.v
theories/TreeExportProofs.v
theories/TreeModel.v
theories/TreeNumberProofs.v
theories/TrialModel.v
theories/VisFloodModel.v
theories/VisFloodProofs.v
theories/VisFlowModel.v
theories/VisFlowProofs.v
theories/VisFlowSound.v
theories/VisLumpModel.v
theories/VisLumpProofs.v
theories/VisMightHistory.v
theories/VisMightModel.v
theories/VisMightProofs.v
theories/VisPhsModel.v
theories/VisPhsProofs.v
theories/VisPoolModel.v
theories/VisPoolProofs.v
theories/VisRleModel.v
theories/VisRleProofs.v
theories/VisSchedModel.v
theories/VisSchedProofs.v
theories/VisSoundRun.v
theories/VisStateModel.v
theories/VisStateProofs.v
theories/WadOutModel.v
theories/WadOutProofs.v
theories/WeldModel.v
theories/WindClipModel.v
theories/WindClipProofs.v
theories/WindStoreModel.v
theories/WindStoreProofs.v
theories/XformModel.v
theories/XformProofs.v
