-Q theories Verif
theories/Base.v
theories/Geometry.v
theories/Ctx.v
theories/Utils.v
theories/QuadEdge.v
theories/Contracts.v
theories/Triangulation.v
theories/Factories.v
theories/Prog.v
theories/Strategies.v
theories/Planar.v
theories/Spec.v
theories/QcTac.v
theories/ProgProofs.v
theories/GeomProofs.v
theories/SimpleProofs.v
theories/Reference.v
theories/PlanarProofs.v
theories/LoopProofs.v
theories/ListProofs.v
theories/PrimeProofs.v
theories/GridProofs.v
theories/CyclicProofs.v
theories/CompressProofs.v
theories/AdjacentProofs.v
theories/SegmentProofs.v
theories/EdgeProofs.v
theories/ReferenceProofs.v
theories/HelperProofs.v
theories/ConvexProofs.v
theories/StarProofs.v
theories/QuadProofs.v
theories/TriProofs.v
theories/CarveProofs.v
theories/SeparationProofs.v
theories/MultiProofs.v
theories/ApiProofs.v
theories/ContourProofs.v
theories/PropertiesApi.v
theories/PropertiesHelpers.v
theories/PropertiesContours.v
theories/SequenceProofs.v
theories/GeometryApiProofs.v
theories/QuadSpec.v
theories/QuadApiProofs.v
theories/PropertiesGeometries.v
theories/PropertiesTriangulation.v
theories/MixSpec.v
theories/SliceProofs.v
theories/MultipolygonProofs.v
theories/MixProofs.v
theories/MixApiProofs.v
theories/PropertiesMixes.v
theories/HullSpec.v
theories/HullProofs.v
theories/NoInvalid.v
theories/RangeProofs.v
theories/RangeSpec.v
theories/Bertrand.v
theories/RangeApiProofs.v
theories/PropertiesRanges.v
theories/FaultProofs.v
theories/MemberProofs.v
theories/PropertiesFaults.v
theories/QcFast.v
theories/DelGeo.v
theories/DelCyc.v
theories/DelMap.v
theories/DelFan.v
theories/DelOps.v
theories/DelMir.v
theories/DelCand.v
theories/DelMerge.v
theories/DelEnd.v
theories/DelClaim.v
theories/DelDone.v
theories/DelTangent.v
theories/DelStart.v
theories/DelHeap.v
theories/DelLoop.v
theories/DelFind.v
theories/DelBase.v
theories/DelInit.v
theories/DelAll.v
theories/DelHull.v
theories/DelCarve.v
theories/DelFlip.v
theories/CycEdge.v
theories/WindSpec.v
theories/DelWind.v
theories/DelBorder.v
theories/DelRim.v
theories/Jordan.v
theories/DelGreen.v
theories/DelPoly.v
theories/WindProofs.v
theories/BorderProofs.v
theories/DelaunaySpec.v
theories/DelaunayProofs.v
theories/PropertiesBorders.v
theories/DelTotal.v
theories/FuelProofs.v
theories/DelPolyTotal.v
theories/DelMouth.v
theories/DelContour.v
theories/PolyFaultProofs.v
theories/PropertiesTotal.v
theories/GeneralSpec.v
theories/GeneralProofs.v
theories/CarveHull.v
theories/GeneralPolyProofs.v
theories/GeneralApiProofs.v
theories/GeneralCoordinates.v
theories/GeneralFaultProofs.v
theories/PropertiesGeneral.v
theories/StarSpec.v
theories/StarFan.v
theories/StarOrder.v
theories/StarConvex.v
theories/StarApi.v
theories/StarGeneral.v
theories/PropertiesStar.v
theories/ValtrSpec.v
theories/ValtrProofs.v
theories/PropertiesBounds.v
theories/RelaxSpec.v
theories/RelaxProofs.v
theories/RelaxApiProofs.v
theories/CapProofs.v
theories/PropertiesRelax.v
theories/EmptyProofs.v
theories/PropertiesEmpty.v
theories/HullChain.v
theories/FanCount.v
theories/SizeProofs.v
theories/SizeFan.v
theories/SizeGrid.v
theories/SizeSpec.v
theories/SizeApiProofs.v
theories/PropertiesSizes.v
theories/PropertiesGeneralFaults.v
theories/CountSpec.v
theories/CountGrid.v
theories/CountProofs.v
theories/PropertiesCounts.v
theories/Edges.v
theories/EdgesSpec.v
theories/EdgesProofs.v
theories/PropertiesEdges.v
theories/RegionSpec.v
theories/RegionProofs.v
theories/PropertiesRegions.v
theories/PropertiesCarveFaults.v
theories/LatticeSpec.v
theories/LatticeProofs.v
theories/PropertiesLattice.v
theories/MoveSpec.v
theories/MoveBase.v
theories/MoveHeap.v
theories/MoveFactories.v
theories/MoveProofs.v
theories/MoveReference.v
theories/PropertiesMove.v
theories/RoughArith.v
theories/RoughFactories.v
theories/RoughStrategies.v
theories/RoughPlanar.v
theories/RoughCarve.v
theories/RoughContours.v
theories/RoughMix.v
theories/RoughApi.v
theories/RoughExact.v
theories/PropertiesRough.v
theories/ReachProofs.v
theories/PropertiesReach.v
theories/PropertiesHulls.v
theories/SteerSpec.v
theories/SteerProofs.v
theories/CornerProofs.v
theories/DelLoose.v
theories/DelEnds.v
theories/LooseProofs.v
theories/EndProofs.v
theories/PropertiesSteer.v
theories/PartSpec.v
theories/PartProofs.v
theories/PropertiesParts.v
theories/SymmetrySpec.v
theories/SymmetryProofs.v
theories/PropertiesSymmetry.v
theories/EarProofs.v
theories/AnyFaultProofs.v
theories/PropertiesAnyFaults.v
theories/ValueSpec.v
theories/ValueProofs.v
theories/PropertiesValues.v
theories/SegmentSetProofs.v
theories/SegmentSymmetry.v
theories/PropertiesSegments.v
theories/AxisSpec.v
theories/AxisProofs.v
theories/PropertiesAxis.v
theories/VertexCountSpec.v
theories/VertexCountProofs.v
theories/PropertiesVertexCount.v
