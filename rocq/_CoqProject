-Q theories Verif
theories/Area64_model.v
theories/Area64_proofs.v
theories/Area64_props.v
theories/Area64_spec.v
theories/Base.v
theories/BaseLemmas.v
theories/Binomial_proofs.v
theories/Binomial_props.v
theories/Blocks_proofs.v
theories/Blocks_props.v
theories/Blocks_spec.v
theories/CenterR_model.v
theories/CenterR_proofs.v
theories/CenterR_props.v
theories/CenterR_spec.v
theories/CenterSymQ_props.v
theories/CenterSymQ_spec.v
theories/CenterSymR_props.v
theories/CenterSym_spec.v
theories/Center_model.v
theories/Center_proofs.v
theories/Center_props.v
theories/Center_spec.v
theories/Centrography_model.v
theories/Chi64_model.v
theories/Chi64_proofs.v
theories/Chi64_props.v
theories/Chi64_spec.v
theories/Chimean_proofs.v
theories/Chimean_props.v
theories/Chimean_spec.v
theories/Circle_geom.v
theories/Circle_model.v
theories/Circle_proofs.v
theories/Circle_props.v
theories/Circle_spec.v
theories/Circum64_props.v
theories/Cluster_exact.v
theories/Cluster_proofs.v
theories/Csr_proofs.v
theories/Csr_props.v
theories/Csr_spec.v
theories/DistStatsHull_props.v
theories/DistStatsL_props.v
theories/DistStats_model.v
theories/DistStats_proofs.v
theories/DistStats_props.v
theories/DistStats_spec.v
theories/Explore_model.v
theories/Explore_proofs.v
theories/Explore_props.v
theories/Explore_spec.v
theories/ExtremeR_props.v
theories/Extreme_props.v
theories/Extreme_spec.v
theories/F64_model.v
theories/F64_proofs.v
theories/F64_props.v
theories/Float_model.v
theories/Float_proofs.v
theories/Float_props.v
theories/Forms_model.v
theories/Forms_props.v
theories/G64_model.v
theories/G64_proofs.v
theories/G64_props.v
theories/G64_spec.v
theories/GeoCenter_model.v
theories/GeoCenter_props.v
theories/GeoCircle_props.v
theories/GeoEllipse_model.v
theories/GeoEllipse_props.v
theories/Geometry_model.v
theories/Geometry_proofs.v
theories/Geometry_props.v
theories/Gmean_proofs.v
theories/Gmean_props.v
theories/Gmean_spec.v
theories/HardCore_props.v
theories/Hex64_grid.v
theories/Hex64_model.v
theories/Hex64_proofs.v
theories/Hex64_props.v
theories/Hexagon_exact.v
theories/Hexagon_grid.v
theories/Hexagon_proofs.v
theories/Hotspot_props.v
theories/HullArea_props.v
theories/HullCircle_props.v
theories/HullExists_proofs.v
theories/HullExists_props.v
theories/Hull_model.v
theories/Hull_props.v
theories/Hyper_proofs.v
theories/Inputs_model.v
theories/Inputs_props.v
theories/Ints_model.v
theories/Ints_props.v
theories/Ints_spec.v
theories/J64_model.v
theories/J64_proofs.v
theories/J64_props.v
theories/JGrid_model.v
theories/JGrid_proofs.v
theories/JGrid_props.v
theories/JGrid_spec.v
theories/Jacqvar_proofs.v
theories/Jacqvar_props.v
theories/Joint_proofs.v
theories/Joint_props.v
theories/Joint_spec.v
theories/K64_model.v
theories/K64_proofs.v
theories/K64_props.v
theories/K64_spec.v
theories/KdePlot_model.v
theories/KdePlot_props.v
theories/KdePlot_spec.v
theories/Kde_model.v
theories/Kde_props.v
theories/Kmean_proofs.v
theories/Kmean_props.v
theories/Kmean_spec.v
theories/KnoxArr_props.v
theories/KnoxLocal_props.v
theories/KnoxObj_model.v
theories/KnoxObj_props.v
theories/KnoxSym_proofs.v
theories/KnoxSym_props.v
theories/KnoxSym_spec.v
theories/Knoxvar_proofs.v
theories/Knoxvar_props.v
theories/L64_model.v
theories/L64_proofs.v
theories/L64_props.v
theories/L64_spec.v
theories/MKnox64_model.v
theories/MKnox64_proofs.v
theories/MKnox64_props.v
theories/Mantel_model.v
theories/Mantel_proofs.v
theories/Mantel_props.v
theories/Mbc64_model.v
theories/Mbc64_proofs.v
theories/Mbc64_props.v
theories/Mbc64_spec.v
theories/Median_model.v
theories/Median_props.v
theories/Neighbors_model.v
theories/Neighbors_props.v
theories/Normal_props.v
theories/Null2_proofs.v
theories/Null3_proofs.v
theories/Null4_proofs.v
theories/Null_proofs.v
theories/Null_props.v
theories/Null_spec.v
theories/Order_spec.v
theories/Pairs_proofs.v
theories/PatternRing_proofs.v
theories/PatternRows_proofs.v
theories/PatternView_model.v
theories/PatternView_proofs.v
theories/PatternView_props.v
theories/PatternView_spec.v
theories/Pattern_model.v
theories/Pattern_proofs.v
theories/Pattern_props.v
theories/Pattern_spec.v
theories/PermLaw_props.v
theories/PermMean_props.v
theories/Perms_proofs.v
theories/Poisson_model.v
theories/Poisson_props.v
theories/ProcessFloat_props.v
theories/Process_model.v
theories/Process_proofs.v
theories/Process_props.v
theories/Pvalue64_model.v
theories/Pvalue64_props.v
theories/QPlot_model.v
theories/QPlot_props.v
theories/QStatExact_props.v
theories/QStatSim_props.v
theories/QStat_model.v
theories/QStat_proofs.v
theories/QuadratSym_proofs.v
theories/QuadratSym_props.v
theories/QuadratSym_spec.v
theories/Quadrat_model.v
theories/Quadrat_proofs.v
theories/Quadrat_props.v
theories/Quadrat_spec.v
theories/RandomLaw_props.v
theories/Random_model.v
theories/Random_proofs.v
theories/Random_props.v
theories/Random_spec.v
theories/Rectangle_model.v
theories/Rectangle_props.v
theories/Reversible_proofs.v
theories/Reversible_props.v
theories/Ripley_model.v
theories/Ripley_proofs.v
theories/Ripley_props.v
theories/Ripley_spec.v
theories/Sample64_model.v
theories/Sample64_proofs.v
theories/Sample64_props.v
theories/Sample64_spec.v
theories/Seeds_model.v
theories/Seeds_props.v
theories/ShapesR_model.v
theories/ShapesR_props.v
theories/Shapes_model.v
theories/Shapes_props.v
theories/Shapes_spec.v
theories/Size2_proofs.v
theories/Size_proofs.v
theories/Size_props.v
theories/Size_spec.v
theories/Spacetime2_proofs.v
theories/Spacetime3_props.v
theories/Spacetime_model.v
theories/Spacetime_proofs.v
theories/Spacetime_props.v
theories/Spacetime_spec.v
theories/Spec.v
theories/StSym_proofs.v
theories/StSym_props.v
theories/StSym_spec.v
theories/Straight_model.v
theories/Straight_props.v
theories/StraussExact_props.v
theories/StraussExc_props.v
theories/Strauss_proofs.v
theories/Supports_model.v
theories/Supports_props.v
theories/Symmetry_proofs.v
theories/Symmetry_props.v
theories/Symmetry_spec.v
theories/Wmc64_model.v
theories/Wmc64_proofs.v
theories/Wmc64_props.v
theories/Wmc64_spec.v
