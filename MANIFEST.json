{
 "claims": [
  {
   "property": "C01",
   "status": "proved",
   "theorems": [
    "tract_growth",
    "tract_box_exact"
   ],
   "note": ""
  },
  {
   "property": "C02",
   "status": "proved",
   "theorems": [
    "patches_tile_tract"
   ],
   "note": ""
  },
  {
   "property": "C03",
   "status": "proved",
   "theorems": [
    "legacy_outer"
   ],
   "note": ""
  },
  {
   "property": "C04",
   "status": "proved",
   "theorems": [
    "cells_outer"
   ],
   "note": ""
  },
  {
   "property": "C05",
   "status": "proved",
   "theorems": [
    "patch_lookup_pair",
    "patch_lookup_number",
    "patch_lookup_malformed"
   ],
   "note": ""
  },
  {
   "property": "C06",
   "status": "proved",
   "theorems": [
    "sequential_patch_bijection"
   ],
   "note": ""
  },
  {
   "property": "C07",
   "status": "proved",
   "theorems": [
    "tract_iteration"
   ],
   "note": ""
  },
  {
   "property": "C08",
   "status": "proved",
   "theorems": [
    "sequential_patch_unique_refuted"
   ],
   "note": ""
  },
  {
   "property": "C09",
   "status": "proved",
   "theorems": [
    "sequential_cell_bijection",
    "cell_iteration",
    "cell_own_number"
   ],
   "note": ""
  },
  {
   "property": "C10",
   "status": "proved",
   "theorems": [
    "cells_tile_patch"
   ],
   "note": ""
  },
  {
   "property": "C11",
   "status": "proved",
   "theorems": [
    "cell_outer_cover",
    "cell_validation"
   ],
   "note": ""
  },
  {
   "property": "C12",
   "status": "proved",
   "theorems": [
    "neighbour_cells_coincide"
   ],
   "note": ""
  },
  {
   "property": "C13",
   "status": "proved",
   "theorems": [
    "cell_lookup_legacy",
    "cell_lookup"
   ],
   "note": ""
  },
  {
   "property": "C14",
   "status": "proved",
   "theorems": [
    "cell_converters_indexerror_refuted",
    "cell_converters_exact"
   ],
   "note": "The statement is the exact characterisation. The simpler claim one would expect (field claim_refuted_in_general of properties.jsonl) is false of the code: refuted: out-of-range values are converted silently; theorems show exactly what happens."
  },
  {
   "property": "C15",
   "status": "proved",
   "theorems": [
    "findPatch_correct",
    "contains_correct"
   ],
   "note": ""
  },
  {
   "property": "C16",
   "status": "proved",
   "theorems": [
    "findPatchList_correct",
    "findPatchList_complete",
    "findPatchList_wcs_error"
   ],
   "note": ""
  },
  {
   "property": "C17",
   "status": "proved",
   "theorems": [
    "tract_contains_samples",
    "explicit_contains_samples"
   ],
   "note": ""
  },
  {
   "property": "C18",
   "status": "proved",
   "theorems": [
    "explicit_vertices"
   ],
   "note": ""
  },
  {
   "property": "C19",
   "status": "proved",
   "theorems": [
    "sky_polygons_shared"
   ],
   "note": ""
  },
  {
   "property": "C20",
   "status": "proved",
   "theorems": [
    "equal_counts",
    "equat_uniform",
    "longitude_invariant_projections",
    "rings_uniform",
    "rings_answers_stable",
    "tract_answers_stable",
    "tract_answers_last_generated",
    "tract_answers_exact",
    "tract_answers_change_refuted",
    "tract_answers_example_refuted",
    "settled_maps"
   ],
   "note": "The statement is the exact characterisation. The simpler claim one would expect (field claim_refuted_in_general of properties.jsonl) is false of the code: refuted for maps whose tracts differ in patch counts (general theorem and concrete map); proved for maps with uniform counts, and rings maps on the sphere (TAN, STG) are proved uniform."
  },
  {
   "property": "C21",
   "status": "proved",
   "theorems": [
    "tract_identity",
    "tract_generated_once",
    "sky_map_iteration"
   ],
   "note": ""
  },
  {
   "property": "C22",
   "status": "proved",
   "theorems": [
    "caching_index_range",
    "eager_index_range"
   ],
   "note": ""
  },
  {
   "property": "C23",
   "status": "proved",
   "theorems": [
    "pickle_round_trip",
    "unpickle_versions"
   ],
   "note": ""
  },
  {
   "property": "C24",
   "status": "proved",
   "theorems": [
    "rings_layout",
    "rings_ring_count"
   ],
   "note": ""
  },
  {
   "property": "C25",
   "status": "proved",
   "theorems": [
    "rings_numbering",
    "rings_centres_distinct"
   ],
   "note": ""
  },
  {
   "property": "C26",
   "status": "proved",
   "theorems": [
    "rings_v0_numbering",
    "rings_v0_defects"
   ],
   "note": ""
  },
  {
   "property": "C27",
   "status": "proved",
   "theorems": [
    "rings_findTract_total",
    "rings_uniform"
   ],
   "note": ""
  },
  {
   "property": "C28",
   "status": "proved",
   "theorems": [
    "rings_centre_found",
    "rings_tract_centre_found"
   ],
   "note": ""
  },
  {
   "property": "C29",
   "status": "proved",
   "theorems": [
    "rings_ranges"
   ],
   "note": ""
  },
  {
   "property": "C30",
   "status": "proved",
   "theorems": [
    "rings_findTractIdArray_agrees"
   ],
   "note": ""
  },
  {
   "property": "C31",
   "status": "proved",
   "theorems": [
    "rings_findAllTracts_correct",
    "rings_findAllTracts_total",
    "rings_findAllTracts_succeeds",
    "rings_findAllTracts_near"
   ],
   "note": ""
  },
  {
   "property": "C32",
   "status": "proved",
   "theorems": [
    "rings_v0_cap_twice_refuted",
    "rings_v0_cap_twice_example_refuted",
    "rings_v0_duplicates_exact"
   ],
   "note": "The statement is the exact characterisation. The simpler claim one would expect (field claim_refuted_in_general of properties.jsonl) is false of the code: refuted for version 0 (general theorem and the concrete default map at the north pole); version 1 is proved in C31's theorem."
  },
  {
   "property": "C33",
   "status": "proved",
   "theorems": [
    "rings_overlap_disc",
    "rings_full_overlap_refuted",
    "rings_found_distance",
    "rings_full_overlap",
    "rings_v0_last_ring"
   ],
   "note": "The statement is the exact characterisation. The simpler claim one would expect (field claim_refuted_in_general of properties.jsonl) is false of the code: refuted for the default configuration with three rings; the positive part (disc of half a ring plus overlap around the centre) is proved."
  },
  {
   "property": "C34",
   "status": "proved",
   "theorems": [
    "rings_findTractPatchList_correct"
   ],
   "note": ""
  },
  {
   "property": "C35",
   "status": "proved",
   "theorems": [
    "base_findTract_nearest"
   ],
   "note": ""
  },
  {
   "property": "C36",
   "status": "proved",
   "theorems": [
    "dodeca_findTract_search",
    "healpix_findTract_search",
    "rings_findTract_search",
    "findTractPatchList_correct",
    "findTractPatchList_settled",
    "settled_maps",
    "findClosestTractPatchList_correct",
    "index_search",
    "findClosestTractPatchList_settled",
    "closest_lists_tract_twice_refuted",
    "base_findTract_search"
   ],
   "note": "Exact; the expectation that each tract is listed once is refuted for maps with unequal patch counts (closest_lists_tract_twice_refuted)."
  },
  {
   "property": "C37",
   "status": "proved",
   "theorems": [
    "equat_findTract_slices",
    "equat_findTract_poles"
   ],
   "note": ""
  },
  {
   "property": "C38",
   "status": "proved",
   "theorems": [
    "dodecahedron_counts",
    "face_neighbours",
    "face_vertices"
   ],
   "note": ""
  },
  {
   "property": "C39",
   "status": "proved",
   "theorems": [
    "rotation_matrix",
    "coord_transform_rotation",
    "coord_transform_second",
    "coord_transform_negative_refuted",
    "coord_transform_negative_xz",
    "coord_transform_negative_exact",
    "polar_faces",
    "faces_by_z",
    "polar_vertices",
    "polar_vertex_default"
   ],
   "note": "The statement is the exact characterisation. The simpler claim one would expect (field claim_refuted_in_general of properties.jsonl) is false of the code: Rotation, the first vector, and the case without vec1NegativeX are proved for all vectors. With vec1NegativeX the claim is refuted in general (coord_transform_negative_refuted) and proved when both vectors are in the xz plane, which covers the call made by the code (polar_vertex_default)."
  },
  {
   "property": "C40",
   "status": "proved",
   "theorems": [
    "dodeca_constructed",
    "dodeca_findTract_default",
    "dodeca_pentagons",
    "dodeca_findTract_search"
   ],
   "note": ""
  },
  {
   "property": "C41",
   "status": "proved",
   "theorems": [
    "ang_coord_roundtrip",
    "coord_ang_roundtrip",
    "healpix_length",
    "healpix_findTract_centre",
    "healpix_findTract_search"
   ],
   "note": ""
  },
  {
   "property": "C42",
   "status": "proved",
   "theorems": [
    "discrete_validate_exact",
    "discrete_tracts",
    "discrete_access"
   ],
   "note": ""
  },
  {
   "property": "C43",
   "status": "proved",
   "theorems": [
    "hashed_bytes_determine"
   ],
   "note": ""
  },
  {
   "property": "C44",
   "status": "proved",
   "theorems": [
    "sha_history_independent",
    "equality_coherent"
   ],
   "note": ""
  },
  {
   "property": "C45",
   "status": "proved",
   "theorems": [
    "equal_maps_same_tracts",
    "equal_maps_refuted"
   ],
   "note": "The statement is the exact characterisation. The simpler claim one would expect (field claim_refuted_in_general of properties.jsonl) is false of the code: refuted for RingsSkyMap versions 0 and 1 (equal_maps_refuted: every configuration with at least two rings); proved for all other pairs of equal maps, under the hypothesis that SHA-1 does not collide on the two configurations (equal_maps_same_tracts)."
  },
  {
   "property": "C46",
   "status": "proved",
   "theorems": [
    "packed_id_fits",
    "packed_id_bits_tight"
   ],
   "note": ""
  },
  {
   "property": "C47",
   "status": "proved",
   "theorems": [
    "packing_injective"
   ],
   "note": ""
  },
  {
   "property": "C48",
   "status": "proved",
   "theorems": [
    "unpack_pack_iff",
    "unpack_inverts_pack"
   ],
   "note": ""
  },
  {
   "property": "C49",
   "status": "proved",
   "theorems": [
    "unpack_pack_iff",
    "unpack_bands_refuted"
   ],
   "note": "The statement is the exact characterisation. The simpler claim one would expect (field claim_refuted_in_general of properties.jsonl) is false of the code: refuted: unpack uses the position of the band in the mapping, not its number (unpack_bands_refuted); unpack_pack_iff characterises exactly when the round trip holds, and unpack_inverts_pack (C48) proves it for mappings numbered in order"
  },
  {
   "property": "C50",
   "status": "proved",
   "theorems": [
    "pack_rejects_exactly",
    "pack_negative_refuted"
   ],
   "note": "The statement is the exact characterisation. The simpler claim one would expect (field claim_refuted_in_general of properties.jsonl) is false of the code: The 'exactly when' half is proved (pack_rejects_exactly). The second half, that no accepted id is out of range, is refuted for negative numbers (pack_negative_refuted)"
  },
  {
   "property": "C51",
   "status": "proved",
   "theorems": [
    "packer_construction",
    "packer_band_ignored_refuted",
    "packer_from_config_correct",
    "packer_band_ignored_exactly"
   ],
   "note": "The statement is the exact characterisation. The simpler claim one would expect (field claim_refuted_in_general of properties.jsonl) is false of the code: Rejection of wrong dimensions and one direction proved (packer_construction). The converse is refuted for explicit band dimensions with n_bands=0 (packer_band_ignored_refuted)"
  },
  {
   "property": "C52",
   "status": "proved",
   "theorems": [
    "register_all_or_nothing",
    "register_collections",
    "repository_sound",
    "register_succeeds"
   ],
   "note": ""
  },
  {
   "property": "C53",
   "status": "proved",
   "theorems": [
    "register_again",
    "register_conflict"
   ],
   "note": ""
  },
  {
   "property": "C54",
   "status": "proved",
   "theorems": [
    "registered_ids_pack"
   ],
   "note": ""
  },
  {
   "property": "C55",
   "status": "proved",
   "theorems": [
    "equal_counts",
    "equat_uniform",
    "longitude_invariant_projections",
    "registered_patches_uniform",
    "registered_numbers_exact",
    "unequal_tracts_not_registered_refuted",
    "register_exactly",
    "registered_numbers_refuted"
   ],
   "note": "The statement is the exact characterisation. The simpler claim one would expect (field claim_refuted_in_general of properties.jsonl) is false of the code: Proved for maps whose tracts all have the same patch counts (all RingsSkyMaps). The general statement is false of the code: refuted by unequal_tracts_not_registered_refuted (register cannot succeed) and registered_numbers_refuted (a wrong number is registered)."
  },
  {
   "property": "C56",
   "status": "proved",
   "theorems": [
    "equal_patches_equal_cells"
   ],
   "note": ""
  },
  {
   "property": "C57",
   "status": "proved",
   "theorems": [
    "coordFromVec_pole",
    "coordFromVec_direction"
   ],
   "note": ""
  },
  {
   "property": "C58",
   "status": "proved",
   "theorems": [
    "config_properties",
    "config_properties_cells",
    "class_defaults",
    "default_numbers"
   ],
   "note": ""
  },
  {
   "property": "C59",
   "status": "proved",
   "theorems": [
    "explicit_disc"
   ],
   "note": ""
  },
  {
   "property": "C60",
   "status": "proved",
   "theorems": [
    "healpix_position_refuted"
   ],
   "note": "The statement is the exact characterisation. The simpler claim one would expect (field claim_refuted_in_general of properties.jsonl) is false of the code: The property is refuted: healpix_position_refuted shows that every tract is the mirror image in the equator of its HEALPixel."
  },
  {
   "property": "C61",
   "status": "proved",
   "theorems": [
    "hash_computable"
   ],
   "note": ""
  },
  {
   "property": "C62",
   "status": "proved",
   "theorems": [
    "equal_numbers_equal_maps",
    "negative_zero_refuted"
   ],
   "note": "The statement is the exact characterisation. The simpler claim one would expect (field claim_refuted_in_general of properties.jsonl) is false of the code: refuted: negative_zero_refuted. equal_numbers_equal_maps gives the exact condition."
  },
  {
   "property": "C63",
   "status": "proved",
   "theorems": [
    "rings_inner_region_found",
    "rings_inner_region_unique",
    "rings_v0_inner_region_refuted"
   ],
   "note": ""
  },
  {
   "property": "C64",
   "status": "proved",
   "theorems": [
    "rings_findAllTracts_near",
    "rings_findAllTracts_misses_refuted",
    "rings_findAllTracts_default_overlap_refuted"
   ],
   "note": "The statement is the exact characterisation. The simpler claim one would expect (field claim_refuted_in_general of properties.jsonl) is false of the code: refuted, also for the default overlap with 269 rings or more; rings_findAllTracts_near says exactly which tracts are considered."
  },
  {
   "property": "C65",
   "status": "proved",
   "theorems": [
    "patch_attributes",
    "cell_attributes",
    "patch_names"
   ],
   "note": ""
  },
  {
   "property": "C66",
   "status": "proved",
   "theorems": [
    "cell_equality",
    "patch_equality",
    "equality_equivalence",
    "patch_equality_tract"
   ],
   "note": ""
  },
  {
   "property": "C67",
   "status": "proved",
   "theorems": [
    "equat_tracts",
    "discrete_contents",
    "healpix_contents",
    "rings_contents",
    "dodeca_contents"
   ],
   "note": ""
  },
  {
   "property": "C68",
   "status": "proved",
   "theorems": [
    "base_findTractIdArray_correct"
   ],
   "note": ""
  },
  {
   "property": "C69",
   "status": "proved",
   "theorems": [
    "logSkyMapInfo_correct"
   ],
   "note": ""
  },
  {
   "property": "C70",
   "status": "proved",
   "theorems": [
    "dodeca_inner_polygons"
   ],
   "note": ""
  },
  {
   "property": "C71",
   "status": "proved",
   "theorems": [
    "tract_gnomonic_cover",
    "dodeca_gnomonic_cover"
   ],
   "note": ""
  },
  {
   "property": "C72",
   "status": "proved",
   "theorems": [
    "dodeca_stereographic_cover"
   ],
   "note": ""
  },
  {
   "property": "C73",
   "status": "proved",
   "theorems": [
    "config_reaches_tracts",
    "config_reaches_patches"
   ],
   "note": ""
  },
  {
   "property": "C74",
   "status": "proved",
   "theorems": [
    "packed_id_layout"
   ],
   "note": ""
  },
  {
   "property": "C75",
   "status": "proved",
   "theorems": [
    "threads_one_alone",
    "threads_all_tracts_exist",
    "threads_get",
    "threads_uniform",
    "threads_rings",
    "threads_never_block",
    "threads_identity_refuted",
    "threads_torn_refuted"
   ],
   "note": "Exact; the two guarantees that fail are refuted by concrete schedules (threads_identity_refuted, threads_torn_refuted). Attribute and list element accesses are the atomic actions, as in CPython."
  },
  {
   "property": "C76",
   "status": "proved",
   "theorems": [
    "rings_float_lookup",
    "rings_float_inside",
    "rings_float_degrees"
   ],
   "note": "Whole statement, in binary64; tract counts per ring arbitrary (they come from libm's cos)."
  },
  {
   "property": "C77",
   "status": "proved",
   "theorems": [
    "rings_float_array",
    "rings_float_array_near",
    "rings_float_array_negative_ra_refuted",
    "rings_float_nan_refuted"
   ],
   "note": "Exact; the bit-for-bit claim is refuted for negative right ascensions (rings_float_array_negative_ra_refuted) and proved for [0, 2 pi)."
  },
  {
   "property": "C78",
   "status": "proved",
   "theorems": [
    "rings_float_centre"
   ],
   "note": "Whole statement, in binary64."
  },
  {
   "property": "C79",
   "status": "proved",
   "theorems": [
    "equat_cea_slices",
    "equat_cea_findTract",
    "equat_cea_overlap",
    "equat_cea_one_tract_refuted"
   ],
   "note": "Whole statement for the default projection in exact arithmetic; the remaining case (one tract, overlap 0) is refuted by equat_cea_one_tract_refuted."
  },
  {
   "property": "C80",
   "status": "proved",
   "theorems": [
    "gnomonic_polygon",
    "gnomonic_polygon_wcs",
    "gnomonic_tracts",
    "gnomonic_patch_polygons",
    "gnomonic_findPatch_polygon",
    "gnomonic_outer_polygon",
    "gnomonic_cell_polygons",
    "gnomonic_tract_polygons",
    "stereographic_polygon_refuted"
   ],
   "note": "Whole statement for gnomonic WCSs; for the stereographic projection the claim is false (stereographic_polygon_refuted)."
  },
  {
   "property": "C81",
   "status": "proved",
   "theorems": [
    "wcs_factory",
    "zenithal_wcs",
    "cea_factory_wcs",
    "map_wcs",
    "factory_projections",
    "unrotated_wcs"
   ],
   "note": "Whole statement, for afw's makeCdMatrix and makeSkyWcs as modelled over exact reals (TAN, STG, CEA)."
  },
  {
   "property": "C82",
   "status": "proved",
   "theorems": [
    "findPatchList_region",
    "findTractPatchList_region",
    "findPatchList_region_refuted"
   ],
   "note": "Whole statement for gnomonic WCSs; for the stereographic projection the claim is false (findPatchList_region_refuted)."
  },
  {
   "property": "C83",
   "status": "proved",
   "theorems": [
    "handed_out_map",
    "handed_out_answers",
    "handed_out_attributes",
    "handed_out_local",
    "handed_out_patch_own",
    "handed_out_dims_shared"
   ],
   "note": "Safe for everything but patch_inner_dimensions (handed_out_map, handed_out_answers, handed_out_local); for that one, and for a patch's own boxes, the exact effect is proved (handed_out_dims_shared, handed_out_patch_own)."
  },
  {
   "property": "C84",
   "status": "proved",
   "theorems": [
    "registered_regions",
    "registered_patch_regions",
    "registered_patch_region_refuted",
    "registered_map_regions"
   ],
   "note": "Whole statement, for gnomonic WCSs (all maps configured with TAN: registered_map_regions); that patch regions stay inside their tract's fails with the cells builder or unequal tracts (registered_patch_region_refuted)."
  },
  {
   "property": "C85",
   "status": "proved",
   "theorems": [
    "explicit_rotated",
    "rotated_maps",
    "rings_full_overlap_rotated",
    "rotated_tract_refuted"
   ],
   "note": "The statement is the exact characterisation. The simpler claim one would expect (field claim_refuted_in_general of properties.jsonl) is false of the code: rotated_tract_refuted gives a Discrete map rotated by 45 degrees with a tract that lacks a coordinate at its radius."
  },
  {
   "property": "C86",
   "status": "proved",
   "theorems": [
    "healpix_lookup",
    "equal_counts",
    "coordinate_lookup"
   ],
   "note": "Rings layout version 1 (the default). For HEALPix, which tract findTract returns depends on hpgeom, which is external (healpix_lookup); that hpgeom's pixels lie within their polygons plus the margin, mirrored in the equator, is a hypothesis there. Equal patch counts of Dodeca maps are not proved (the tract extents differ by some pixels between faces); there the findPatch part needs them as a hypothesis. Dimensions below 2^31 (afw's int boxes) are assumed."
  },
  {
   "property": "C87",
   "status": "proved",
   "theorems": [
    "explicit_inner_polygon",
    "explicit_inner_disc",
    "explicit_inner_outside_refuted",
    "explicit_no_overlap_refuted",
    "explicit_extent",
    "inner_maps",
    "inner_region_refuted"
   ],
   "note": "The statement is the exact characterisation. The simpler claims one would expect (field claim_refuted_in_general of properties.jsonl) are false of the code: explicit_inner_outside_refuted, explicit_no_overlap_refuted and, for a constructed Discrete map with the default settings, inner_region_refuted. ConvexPolygon.convexHull is modelled as the convex (cone) hull of the points."
  },
  {
   "property": "C88",
   "status": "proved",
   "theorems": [
    "concurrent_serialisable",
    "concurrent_all_or_nothing",
    "concurrent_returned",
    "concurrent_alone",
    "concurrent_same_map"
   ],
   "note": "Processes with their own sky map objects; the database is modelled by its guarantees (views inside a transaction are committed states plus own records; a commit checks the keys). Threads sharing one sky map object are not covered."
  },
  {
   "property": "C89",
   "status": "proved",
   "theorems": [
    "records_kept",
    "other_object_registered",
    "found_data_id_registered",
    "constructed_generable"
   ],
   "note": "Equal patch counts are a hypothesis (equal_counts, C86, proves them for Rings, Equat and Discrete maps of one radius); for maps whose counts differ see C55. Tract sizes below 2^31 pixels for findPatch."
  },
  {
   "property": "C90",
   "status": "proved",
   "theorems": [
    "registered_names",
    "registered_names_later",
    "registered_names_refuted"
   ],
   "note": "The statement is the exact characterisation. The simpler claim one would expect (field claim_refuted_in_general of properties.jsonl) is false of the code: registered_names_refuted. The rest is under the hypothesis that SHA-1 does not collide on the two configurations."
  },
  {
   "property": "C91",
   "status": "proved",
   "theorems": [
    "zero_size",
    "usable_sizes",
    "negative_border",
    "negative_size",
    "zero_size_maps",
    "negative_border_register",
    "cell_sizes"
   ],
   "note": "usable_sizes gives the exact condition. The behaviour of lsst.geom boxes for negative dimensions and negative grow is taken from its documentation (Geom.v)."
  },
  {
   "property": "C92",
   "status": "proved",
   "theorems": [
    "rings_float_all_tracts",
    "rings_float_all_tracts_succeeds",
    "rings_float_all_tracts_near",
    "rings_float_nan_refuted"
   ],
   "note": "binary64 operation by operation for the ring and tract numbers; tracts and their pixel positions exact."
  },
  {
   "property": "C93",
   "status": "proved",
   "theorems": [
    "registering_uniform",
    "registering_all_tracts_exist",
    "registering_rings",
    "registering_others",
    "registering_never_blocks",
    "registering_refuted"
   ],
   "note": "The simpler claim one would expect (field claim_refuted_in_general of properties.jsonl) is false of the code: refuted for maps whose tracts differ in patch counts; proved for uniform maps, Rings maps (TAN, STG), and whenever all tracts exist. One registering thread; the butler is not used by the other threads."
  },
  {
   "property": "C94",
   "status": "proved",
   "theorems": [
    "sha_threads_alone",
    "sha_threads_coherent",
    "sha_threads_kept",
    "sha_threads_never_block",
    "sha_threads_one"
   ],
   "note": ""
  },
  {
   "property": "C95",
   "status": "proved",
   "theorems": [
    "packer_life",
    "packer_life_changes",
    "unpack_keeps_bands",
    "packer_never_blocks",
    "packer_changes_refuted"
   ],
   "note": "The statement is the exact characterisation. The simpler claim one would expect (field claim_refuted_in_general of properties.jsonl) is false of the code: refuted: unpack keeps the bands of the mapping as they were at its first call, pack uses the present ones."
  },
  {
   "property": "C96",
   "status": "proved",
   "theorems": [
    "unpack_outcome",
    "pack_unpack_iff"
   ],
   "note": ""
  },
  {
   "property": "C97",
   "status": "proved",
   "theorems": [
    "shared_refines",
    "shared_complete",
    "shared_serialisable",
    "shared_all_or_nothing",
    "shared_returned",
    "shared_never_blocks",
    "shared_rings"
   ],
   "note": ""
  },
  {
   "property": "C98",
   "status": "proved",
   "theorems": [
    "lazy_new",
    "lazy_getitem",
    "lazy_findTract",
    "lazy_findTract_healpix",
    "lazy_findAllTracts",
    "lazy_findTractPatchList",
    "lazy_closest",
    "lazy_closest_healpix",
    "lazy_base"
   ],
   "note": ""
  },
  {
   "property": "C99",
   "status": "proved",
   "theorems": [
    "equat_float_coords",
    "equat_float_order",
    "equat_float_neighbours",
    "equat_float_no_gap",
    "equat_float_same_edge_refuted"
   ],
   "note": ""
  },
  {
   "property": "C100",
   "status": "proved",
   "theorems": [
    "patch_boxes_near",
    "cell_boxes_near",
    "vertex_tract_size",
    "boxes_fit",
    "explicit_size",
    "map_tract_size",
    "equat_tract_size",
    "tiny_pixels_refuted"
   ],
   "note": ""
  },
  {
   "property": "C101",
   "status": "proved",
   "theorems": [
    "pixel_of_double",
    "lookup_as_exact",
    "patch_of_double",
    "patches_of_doubles",
    "doubles_complete",
    "one_pixel_patches_refuted"
   ],
   "note": ""
  },
  {
   "property": "C102",
   "status": "proved",
   "theorems": [
    "discrete_float_coords",
    "discrete_poles"
   ],
   "note": ""
  },
  {
   "property": "C103",
   "status": "proved",
   "theorems": [
    "ang_to_coord_float",
    "ang_out_of_range_float",
    "coord_to_ang_float",
    "ang_roundtrip_float"
   ],
   "note": ""
  }
 ]
}