-Q theories Verif
theories/Py.v
theories/Float64.v
theories/Float64Proofs.v
theories/Geom.v
theories/PatchInfo.v
theories/TractBuilder.v
theories/TractInfo.v
theories/Spec.v
theories/PatchProofs.v
theories/CellProofs.v
theories/TractProofs.v
theories/Examples.v
theories/MainPatch.v
theories/MainCells.v
theories/MainTract.v
theories/PropsPatch.v
theories/PropsCells.v
theories/PropsTract.v
theories/SkyMap.v
theories/SkySpec.v
theories/SkyProofs.v
theories/SkyProofs2.v
theories/MainSky.v
theories/PropsSky.v
theories/Rings.v
theories/RingsSpec.v
theories/RingsProofs.v
theories/RingsProofs2.v
theories/RingsProofs3.v
theories/MainRings.v
theories/PropsRings.v
theories/Sphere.v
theories/SphereProofs.v
theories/TractBox.v
theories/Uniform.v
theories/RingsNum.v
theories/MainRings2.v
theories/PropsRings2.v
theories/Packers.v
theories/MainPackers.v
theories/PropsPackers.v
theories/Register.v
theories/RegSpec.v
theories/RegProofs.v
theories/RegProofs2.v
theories/RegProofs3.v
theories/MainRegister.v
theories/PropsRegister.v
theories/Maps.v
theories/MapsProofs.v
theories/MainMaps.v
theories/PropsMaps.v
theories/Dodeca.v
theories/DodecaSpec.v
theories/DodecaZ.v
theories/DodecaProofs.v
theories/DodecaProofs2.v
theories/DodecaProofs3.v
theories/DodecaProofs4.v
theories/MainDodeca.v
theories/PropsDodeca.v
theories/Config.v
theories/ConfigSpec.v
theories/ConfigProofs.v
theories/MainConfig.v
theories/PropsConfig.v
theories/RingsNear.v
theories/Region.v
theories/RegionProofs.v
theories/MainRings3.v
theories/PropsRings3.v
theories/SkyMapLog.v
theories/MiscSpec.v
theories/MainMisc.v
theories/PropsMisc.v
theories/MainRings4.v
theories/PropsRings4.v
theories/HullProofs.v
theories/MainDodeca2.v
theories/ProjSpec.v
theories/TractHull.v
theories/MainHull.v
theories/MainDodeca3.v
theories/PropsDodeca2.v
theories/PropsHull.v
theories/PropsDodeca3.v
theories/MainConfig2.v
theories/MainDefaults.v
theories/PropsDefaults.v
theories/PropsConfig2.v
theories/MainPackers2.v
theories/PropsPackers2.v
theories/Threads.v
theories/ThreadsProofs.v
theories/MainThreads.v
theories/PropsThreads.v
theories/RingsFloat.v
theories/RingsFloatSpec.v
theories/FloatOps.v
theories/RingsFloatProofs.v
theories/RingsFloatProofs2.v
theories/MainRingsFloat.v
theories/PropsRingsFloat.v
theories/MainEquat.v
theories/PropsEquat.v
theories/MainPolygons.v
theories/PropsPolygons.v
theories/Wcs.v
theories/WcsSpec.v
theories/MainWcs.v
theories/PropsWcs.v
theories/MainPatchRegion.v
theories/PropsPatchRegion.v
theories/Alias.v
theories/AliasSpec.v
theories/AliasProofs.v
theories/MainRegions.v
theories/PropsRegions.v
theories/MainAlias.v
theories/PropsAlias.v
theories/RotatedProofs.v
theories/MainRotated.v
theories/PropsRotated.v
theories/Lookup.v
theories/MainLookup.v
theories/PropsLookup.v
theories/MainHealpix.v
theories/PropsHealpix.v
theories/MainSizes.v
theories/PropsSizes.v
theories/InnerProofs.v
theories/MainInner.v
theories/PropsInner.v
theories/Concurrent.v
theories/ConcProofs.v
theories/MainConcurrent.v
theories/PropsConcurrent.v
theories/MainDataId.v
theories/PropsDataId.v
theories/MainNames.v
theories/PropsNames.v
theories/MainRingsFloat2.v
theories/PropsRingsFloat2.v
theories/RegThreads.v
theories/RegThreadsProofs.v
theories/MainRegThreads.v
theories/PropsRegThreads.v
theories/ShaThreads.v
theories/MainShaThreads.v
theories/PropsShaThreads.v
theories/PackerLife.v
theories/MainPackerLife.v
theories/PropsPackerLife.v
theories/RegMany.v
theories/RegManyProofs.v
theories/MainRegMany.v
theories/PropsRegMany.v
theories/MainLazy.v
theories/PropsLazy.v
theories/EquatFloat.v
theories/EquatFloatProofs.v
theories/MainEquatFloat.v
theories/PropsEquatFloat.v
theories/BoundsSpec.v
theories/BoundsProofs.v
theories/MainBounds.v
theories/PropsBounds.v
theories/PixelFloat.v
theories/PixelFloatSpec.v
theories/PixelFloatProofs.v
theories/MainPixelFloat.v
theories/PropsPixelFloat.v
theories/DiscreteFloat.v
theories/MainDiscreteFloat.v
theories/PropsDiscreteFloat.v
theories/HealpixFloat.v
theories/MainHealpixFloat.v
theories/PropsHealpixFloat.v
