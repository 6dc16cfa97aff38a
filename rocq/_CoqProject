-Q theories Verif
theories/Base.v
theories/Pairs.v
theories/Graph.v
theories/Features.v
theories/Neigh.v
theories/Seeds.v
theories/Container.v
theories/Iso.v
theories/Aniso.v
theories/Main.v
theories/UtilM.v
theories/Subgraph.v
theories/Double.v
theories/Fidelity.v
theories/FidelMesh.v
theories/FidelCorr.v
theories/FidelPool.v
theories/FidelNeigh.v
theories/FidelAR.v
theories/FidelAniso.v
theories/FidelDep.v
theories/FidelEx.v
theories/Lib.v
theories/Spec.v
theories/Inst.v
theories/GraphP.v
theories/NbhP.v
theories/PairsP.v
theories/NeighP.v
theories/SeedsP.v
theories/FeaturesP.v
theories/BestP.v
theories/ContainerP.v
theories/GrowP.v
theories/IsoP.v
theories/LinesP.v
theories/AnisoP.v
theories/CorrectP.v
theories/SpecLine.v
theories/MainP.v
theories/ApiP.v
theories/ApiT.v
theories/ApiE.v
theories/SearchT.v
theories/PropsSearch.v
theories/PropsApi.v
theories/NoInvP.v
theories/SpecArgs.v
theories/CheckT.v
theories/CheckE.v
theories/PropsChecks.v
theories/SpecPool.v
theories/PoolT.v
theories/PoolE.v
theories/PropsPool.v
theories/WallT.v
theories/SpecCoarse.v
theories/CoarseT.v
theories/CoarseU.v
theories/CoarseE.v
theories/CoarseV.v
theories/PropsUtil.v
theories/ConnT.v
theories/SpecSub.v
theories/SubT.v
theories/SubE.v
theories/LeafT.v
theories/LeafE.v
theories/PropsSub.v
theories/SpecFeat.v
theories/SpecAR.v
theories/FeatT.v
theories/FeatU.v
theories/FeatE.v
theories/PropsFeat.v
theories/SpecBest.v
theories/BestT.v
theories/BestE.v
theories/PropsBest.v
theories/SpecChain.v
theories/ChainT.v
theories/ChainE.v
theories/PropsChain.v
theories/HalfT.v
theories/HalfE.v
theories/SpecHash.v
theories/HashT.v
theories/HashU.v
theories/HashV.v
theories/HashW.v
theories/HashE.v
theories/PropsHash.v
theories/SpecGrow.v
theories/GrowT.v
theories/GrowR.v
theories/GrowE.v
theories/PropsGrow.v
theories/TagM.v
theories/LineT.v
theories/LineE.v
theories/PropsLine.v
theories/SpecFeed.v
theories/FeedP.v
theories/TakeP.v
theories/StartP.v
theories/FeedT.v
theories/FeedE.v
theories/PropsFeed.v
theories/SpecMove.v
theories/MoveP.v
theories/MoveT.v
theories/MoveE.v
theories/PropsMove.v
theories/ArgsM.v
theories/ArgsT.v
theories/PropsArgs.v
theories/Deprec.v
theories/SpecDep.v
theories/DepT.v
theories/DepU.v
theories/DepE.v
theories/DepV.v
theories/DepF.v
theories/PropsDep.v
theories/SpecFront.v
theories/FrontT.v
theories/PropsFront.v
theories/DetT.v
theories/SpecRules.v
theories/RuleT.v
theories/RuleE.v
theories/PropsRules.v
theories/SpecUse.v
theories/UseT.v
theories/UseU.v
theories/UseE.v
theories/PropsUse.v
theories/Machine.v
theories/SpecInt.v
theories/IntP.v
theories/IntU.v
theories/IntE.v
theories/PropsInt.v
theories/UtilC.v
theories/OverT.v
theories/OverE.v
theories/PropsOver.v
theories/GridT.v
theories/GridG.v
theories/GridQ.v
theories/SpecGrid.v
theories/GridU.v
theories/GridE.v
theories/PropsGrid.v
theories/SpecCol.v
theories/ColT.v
theories/ColG.v
theories/ColE.v
theories/PropsCol.v
theories/SpecHier.v
theories/HierT.v
theories/HierE.v
theories/PropsHier.v
theories/SpecLay.v
theories/LayT.v
theories/LayE.v
theories/PropsLay.v
theories/SpecTools.v
theories/ToolsM.v
theories/ToolsT.v
theories/ToolsC.v
theories/ToolsU.v
theories/ToolsG.v
theories/ToolsL.v
theories/ToolsE.v
theories/PropsTools.v
theories/FileM.v
theories/SpecFile.v
theories/FileT.v
theories/FileE.v
theories/PropsFile.v
theories/LevelM.v
theories/SpecLevel.v
theories/LevelT.v
theories/LevelE.v
theories/PropsLevel.v
theories/DrawM.v
theories/DrawT.v
theories/RaeT.v
theories/DrawE.v
theories/PropsDraw.v
theories/SpecGeo.v
theories/GeoT.v
theories/GeoU.v
theories/GeoV.v
theories/GeoW.v
theories/GeoE.v
theories/PropsGeo.v
theories/SpecWhole.v
theories/WholeT.v
theories/WholeU.v
theories/WholeE.v
theories/PropsWhole.v
theories/SpecReord.v
theories/ReordT.v
theories/ReordU.v
theories/ReordV.v
theories/ReordE.v
theories/PropsReord.v
theories/SpecDouble.v
theories/DoubleT.v
theories/DoubleE.v
theories/PropsDouble.v
theories/SpecRenum.v
theories/RenumT.v
theories/RenumU.v
theories/RenumE.v
theories/RenumF.v
theories/PropsRenum.v
theories/SpecNum.v
theories/NumT.v
theories/NumE.v
theories/PropsNum.v
theories/SpecPiece.v
theories/PieceT.v
theories/PieceU.v
theories/PieceL.v
theories/PieceE.v
theories/PieceM.v
theories/PieceN.v
theories/PieceO.v
theories/TallyT.v
theories/TallyE.v
theories/PropsPiece.v
theories/SpecReline.v
theories/RelineT.v
theories/RelineU.v
theories/RelineE.v
theories/PropsReline.v
theories/SpecAlone.v
theories/AloneT.v
theories/AloneE.v
theories/PropsAlone.v
theories/PropsTally.v
theories/SpecBin.v
theories/BinT.v
theories/BinR.v
theories/SpecRoot.v
theories/RootT.v
theories/BinE.v
theories/RootE.v
theories/PropsBin.v
theories/Strict.v
theories/SpecStrict.v
theories/StrictT.v
theories/StrictE.v
theories/PropsStrict.v
theories/SpecTorn.v
theories/TornT.v
theories/TornE.v
theories/CountT.v
theories/PropsTorn.v
theories/HalfU.v
theories/HalfV.v
theories/PropsHalf.v
