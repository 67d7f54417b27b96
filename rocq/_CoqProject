-Q theories Verif
theories/GridModel.v
theories/GridSpec.v
theories/GridProofs.v
theories/GridProperties.v
theories/GridGeoModel.v
theories/GridGeoSpec.v
theories/GridGeoProofs.v
theories/GridEnclosingProofs.v
theories/GridGeoProperties.v
theories/HashGridModel.v
theories/HashGridProofs.v
theories/HashGridProperties.v
theories/ShapeModel.v
theories/ShapeSpec.v
theories/ShapeProofs.v
theories/ShapeFieldProofs.v
theories/ShapeGaussProofs.v
theories/ShapeBoundaryProofs.v
theories/ShapeProperties.v
theories/LinAlg.v
theories/RectModel.v
theories/RectSpec.v
theories/RectProofs.v
theories/LinAlgProofs.v
theories/NewtonLocalProofs.v
theories/RectProperties.v
theories/IntersectModel.v
theories/IntersectSpec.v
theories/IntersectSegmentProofs.v
theories/IntersectTriangleProofs.v
theories/IntersectProperties.v
theories/MeshModel.v
theories/MeshSpec.v
theories/MeshProofs.v
theories/MeshProperties.v
theories/BarycentricModel.v
theories/BarycentricSpec.v
theories/BarycentricProofs.v
theories/BarycentricProperties.v
theories/Sums.v
theories/SparseModel.v
theories/SparseProofs.v
theories/MappingModel.v
theories/MappingSpec.v
theories/MappingProofs.v
theories/MappingProperties.v
theories/TractionModel.v
theories/TractionSpec.v
theories/TractionProofs.v
theories/TractionProperties.v
theories/BBoxModel.v
theories/BBoxSpec.v
theories/BBoxProperties.v
theories/TensorModel.v
theories/TensorSpec.v
theories/TensorProperties.v
theories/VtkModel.v
theories/VtkSpec.v
theories/VtkProperties.v
theories/MaterialModel.v
theories/MaterialSpec.v
theories/MaterialProofs.v
theories/MaterialProperties.v
theories/HyperModel.v
theories/HyperSpec.v
theories/HyperProofs.v
theories/HyperProofs2.v
theories/HyperProofs3.v
theories/HyperProofs4.v
theories/HyperProperties.v
theories/HyperRepeatedProperties.v
theories/CorotModel.v
theories/CorotSpec.v
theories/CorotProofs.v
theories/CorotProofs2.v
theories/CorotProofs3.v
theories/CorotProofs4.v
theories/CorotProperties.v
theories/CorotProperties2.v
theories/EigenMatrixModel.v
theories/EigenMatrixSpec.v
theories/EigenMatrixProofs.v
theories/EigenMatrixProofs2.v
theories/EigenMatrixProofs3.v
theories/EigenMatrixProperties.v
theories/CGModel.v
theories/CGSpec.v
theories/CGProofs.v
theories/CGProofs2.v
theories/CGProofs3.v
theories/CGProperties.v
theories/CGProperties2.v
theories/FieldRing.v
theories/NewtonModel.v
theories/NewtonSpec.v
theories/NewtonProofs.v
theories/NewtonProperties.v
theories/OdeProperties.v
theories/OdeProperties2.v
theories/LegacyModel.v
theories/LegacySpec.v
theories/LegacyProofs.v
theories/LegacyProperties.v
theories/FictModel.v
theories/FictSpec.v
theories/FictProofs.v
theories/FictProofs2.v
theories/FictProofs3.v
theories/FictProofs4.v
theories/FictProofs5.v
theories/FictProofs6.v
theories/FictProofs7.v
theories/FictProofs8.v
theories/FictProofs9.v
theories/FictProofs10.v
theories/FictProperties.v
theories/FictProperties2.v
theories/FictProperties3.v
theories/FictProperties4.v
theories/IsoModel.v
theories/IsoSpec.v
theories/IsoProofs.v
theories/IsoProperties.v
theories/DirectModel.v
theories/DirectSpec.v
theories/DirectProperties.v
theories/TopologyModel.v
theories/TopologyProperties.v
theories/VecOpsModel.v
theories/VecOpsProperties.v
theories/FictParModel.v
theories/FictParProperties.v
theories/GridMachModel.v
theories/GridMachProofs.v
theories/GridMachProperties.v
theories/SetupModel.v
theories/SetupProperties.v
theories/FpModel.v
theories/FpProofs.v
theories/GridFpModel.v
theories/GridFpProofs.v
theories/GridFpAroundProofs.v
theories/GridFpProperties.v
theories/ShapeFpModel.v
theories/ShapeFpProofs.v
theories/ShapeFpSumProofs.v
theories/ShapeFpProperties.v
theories/HashFpModel.v
theories/HashFpProofs.v
theories/HashFpProperties.v
theories/ContainsFpModel.v
theories/ContainsFpProofs.v
theories/ContainsFpProperties.v
theories/CGFpModel.v
theories/CGFpSpec.v
theories/CGFpProofs.v
theories/CGFpGapProofs.v
theories/CGFpNormProofs.v
theories/CGFpProperties.v
theories/IntersectHexaProperties.v
theories/PyMeshModel.v
theories/PyMeshSpec.v
theories/PyMeshProofs.v
theories/PyMeshProperties.v
theories/SceneModel.v
theories/SceneSpec.v
theories/SceneProofs.v
theories/SceneProofs2.v
theories/SceneProperties.v
theories/SpectrumModel.v
theories/SpectrumSpec.v
theories/SpectrumProofs.v
theories/SpectrumProperties.v
theories/DenseModel.v
theories/DenseSpec.v
theories/DenseProofs.v
theories/DenseProperties.v
theories/FactoryModel.v
theories/FactorySpec.v
theories/FactoryProofs.v
theories/FactoryProperties.v
theories/StabilitySpec.v
theories/StabilityProofs.v
theories/StabilityProofs2.v
theories/StabilityProofs3.v
theories/StabilityProofs4.v
theories/StabilityProofs5.v
theories/StabilityProofs6.v
theories/StabilityProofs7.v
theories/StabilityProofs8.v
theories/StabilityProperties.v
theories/DrawModel.v
theories/DrawSpec.v
theories/DrawProofs.v
theories/DrawProofs2.v
theories/DrawProofs3.v
theories/DrawProofs4.v
theories/DrawProperties.v
theories/PyGridModel.v
theories/PyGridSpec.v
theories/PyGridProofs.v
theories/PyGridProofs2.v
theories/PyGridProofs3.v
theories/PyGridProofs4.v
theories/PyGridProofs5.v
theories/PyGridProperties.v
theories/EnergySpec.v
theories/EnergyProofs.v
theories/EnergyProofs2.v
theories/EnergyProofs3.v
theories/EnergyProofs4.v
theories/EnergyProofs5.v
theories/EnergyProperties.v
theories/PatchSpec.v
theories/PatchProofs.v
theories/PatchProofs2.v
theories/PatchProofs3.v
theories/PatchProofs4.v
theories/PatchProofs5.v
theories/PatchProperties.v
theories/LoadSpec.v
theories/LoadProofs.v
theories/LoadProofs2.v
theories/LoadProperties.v
theories/EmbeddingModel.v
theories/EmbeddingSpec.v
theories/EmbeddingProofs.v
theories/EmbeddingProperties.v
theories/DistributionModel.v
theories/DistributionSpec.v
theories/DistributionProofs.v
theories/DistributionProperties.v
theories/SimulationModel.v
theories/SimulationSpec.v
theories/SimulationProofs.v
theories/SimulationProperties.v
theories/ObjectivitySpec.v
theories/ObjectivityProofs.v
theories/ObjectivityProofs2.v
theories/ObjectivityProofs3.v
theories/ObjectivityProperties.v
theories/NumberingSpec.v
theories/NumberingProofs.v
theories/NumberingProofs2.v
theories/NumberingProofs3.v
theories/NumberingProofs4.v
theories/NumberingProofs5.v
theories/NumberingProperties.v
theories/MomentumSpec.v
theories/MomentumProperties.v
theories/SurfaceSpec.v
theories/SurfaceProofs.v
theories/SurfaceProofs2.v
theories/SurfaceProofs3.v
theories/SurfaceProperties.v
theories/FollowSpec.v
theories/FollowProofs.v
theories/FollowProofs2.v
theories/FollowProperties.v
theories/RemeshSpec.v
theories/RemeshProofs.v
theories/RemeshProofs2.v
theories/RemeshProperties.v
theories/HexPatchSpec.v
theories/HexPatchProofs.v
theories/HexPatchProofs2.v
theories/HexPatchProperties.v
theories/UnitsSpec.v
theories/UnitsProofs.v
theories/UnitsProofs2.v
theories/UnitsProperties.v
theories/UnitsSpec2.v
theories/UnitsProofs3.v
theories/UnitsProperties2.v
theories/UnitsSpec3.v
theories/UnitsProofs4.v
theories/UnitsProperties3.v
