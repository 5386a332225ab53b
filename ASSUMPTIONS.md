# Print Assumptions, theorem by theorem

Generated by `tools/mkassumptions.py` from the compiled development.

## Closed under the global context (no axioms)

* PropsConfig: config_properties
* PropsMaps: discrete_validate_exact
* PropsMisc: cell_equality, patch_equality, equality_equivalence
* PropsPackerLife: packer_life, packer_life_changes, unpack_keeps_bands, packer_never_blocks, packer_changes_refuted, packer_life_example
* PropsPackers: packed_id_fits, packed_id_bits_tight, packing_injective, unpack_pack_iff, unpack_inverts_pack, unpack_bands_refuted, pack_rejects_exactly, pack_negative_refuted, packer_construction, packer_band_ignored_refuted, packer_from_config_correct, packer_band_ignored_exactly, packer_hypotheses_met
* PropsPackers2: packed_id_layout, packed_id_layout_example, unpack_outcome, pack_unpack_iff, unpack_any_integer_example
* PropsPatch: tract_growth
* PropsShaThreads: sha_threads_never_block
* PropsSizes: zero_size, usable_sizes, negative_border, cell_sizes, sizes_met

## `ClassicalDedekindReals.sig_forall_dec`, `FunctionalExtensionality.functional_extensionality_dep`

* PropsTract: contains_correct

## `ClassicalDedekindReals.sig_forall_dec`, `ClassicalDedekindReals.sig_not_dec`, `FunctionalExtensionality.functional_extensionality_dep`

* PropsBounds: patch_boxes_near, cell_boxes_near, vertex_tract_size, boxes_fit
* PropsCells: sequential_cell_bijection, cell_iteration, cells_tile_patch, cell_outer_cover, cell_own_number, cell_validation, neighbour_cells_coincide, cell_lookup_legacy, cell_lookup, cell_converters_indexerror_refuted, cell_converters_exact, equal_patches_equal_cells, cell_hypotheses_met
* PropsConcurrent: concurrent_serialisable, concurrent_all_or_nothing, concurrent_returned, concurrent_alone, concurrent_same_map, concurrent_example
* PropsDataId: records_kept, other_object_registered
* PropsDodeca: rotation_matrix
* PropsLazy: lazy_new, lazy_getitem
* PropsMaps: discrete_tracts, discrete_access, ang_coord_roundtrip, coord_ang_roundtrip, healpix_length, healpix_findTract_centre, healpix_findTract_search, healpix_position_refuted
* PropsMisc: patch_attributes, cell_attributes, patch_names, patch_equality_tract, equat_tracts, discrete_contents, healpix_contents, base_findTractIdArray_correct, logSkyMapInfo_correct, cell_of_patch_example
* PropsPatch: tract_box_exact, patches_tile_tract, legacy_outer, cells_outer, patch_lookup_pair, patch_lookup_number, patch_lookup_malformed, sequential_patch_bijection, tract_iteration, sequential_patch_unique_refuted, patch_hypotheses_met
* PropsPolygons: gnomonic_polygon, gnomonic_polygon_wcs, gnomonic_patch_polygons, gnomonic_outer_polygon, gnomonic_cell_polygons
* PropsRegions: registered_regions, registered_patch_region_refuted
* PropsRegister: register_all_or_nothing, register_collections, repository_sound, register_succeeds, register_again, register_conflict, registered_ids_pack, registered_patches_uniform, registered_numbers_exact, unequal_tracts_not_registered_refuted, register_exactly, registered_numbers_refuted, registration_example
* PropsRings: rings_numbering, rings_centres_distinct, rings_v0_numbering, rings_v0_defects, rings_findTract_total, rings_centre_found, rings_ranges, rings_findTractIdArray_agrees, rings_findAllTracts_correct, rings_findAllTracts_total, rings_v0_cap_twice_refuted, rings_findTract_search
* PropsRings3: rings_v0_duplicates_exact, rings_tract_centre_found, rings_findAllTracts_near, rings_inner_region_found, rings_inner_region_unique, rings_v0_inner_region_refuted
* PropsRings4: rings_v0_last_ring
* PropsSizes: negative_size, zero_size_maps, negative_border_register
* PropsSky: tract_answers_last_generated, tract_answers_change_refuted, tract_identity, tract_generated_once, sky_map_iteration, caching_index_range, eager_index_range, base_findTract_nearest, settled_maps, index_search, base_findTract_search, sky_map_hypotheses_met
* PropsTract: tract_contains_samples, explicit_contains_samples, sky_polygons_shared, tract_hypotheses_met, explicit_hypotheses_met
* PropsWcs: wcs_factory

## `ClassicalDedekindReals.sig_forall_dec`, `ClassicalDedekindReals.sig_not_dec`, `Classical_Prop.classic`, `FunctionalExtensionality.functional_extensionality_dep`

* PropsAlias: handed_out_map, handed_out_answers, handed_out_attributes, handed_out_local, handed_out_patch_own, handed_out_dims_shared, handed_out_hypotheses_met
* PropsBounds: explicit_size, map_tract_size, equat_tract_size, tiny_pixels_refuted, tract_size_example
* PropsConfig: hashed_bytes_determine, hash_computable, sha_history_independent, equality_coherent, equal_maps_same_tracts, equal_maps_refuted, equal_maps_hypotheses_met, pickle_round_trip, unpickle_versions, config_properties_cells, class_defaults, equal_numbers_equal_maps, negative_zero_refuted, hash_example
* PropsConfig2: config_reaches_tracts, config_reaches_patches, config_reaches_example
* PropsDataId: found_data_id_registered, constructed_generable, found_data_id_defaults
* PropsDefaults: default_numbers
* PropsDiscreteFloat: discrete_float_coords, discrete_poles, discrete_float_met
* PropsDodeca: dodecahedron_counts, face_neighbours, face_vertices, coord_transform_rotation, coord_transform_second, coord_transform_negative_refuted, coord_transform_negative_xz, coord_transform_negative_exact, polar_faces, faces_by_z, polar_vertices, dodeca_constructed, dodeca_findTract_default, dodeca_pentagons, dodeca_findTract_search, dodeca_example, polar_vertex_default
* PropsDodeca2: dodeca_inner_polygons
* PropsDodeca3: dodeca_stereographic_cover
* PropsEquat: equat_cea_slices, equat_cea_findTract, equat_cea_overlap, equat_cea_one_tract_refuted, equat_cea_default
* PropsEquatFloat: equat_float_coords, equat_float_order, equat_float_neighbours, equat_float_no_gap, equat_float_same_edge_refuted, equat_float_default
* PropsHealpix: healpix_lookup, healpix_lookup_met
* PropsHull: tract_gnomonic_cover, dodeca_gnomonic_cover, standard_projections
* PropsInner: explicit_inner_polygon, explicit_inner_disc, explicit_inner_outside_refuted, explicit_no_overlap_refuted, explicit_extent, inner_maps, inner_region_refuted
* PropsLazy: lazy_findTract, lazy_findTract_healpix, lazy_findAllTracts, lazy_findTractPatchList, lazy_closest, lazy_closest_healpix, lazy_base, lazy_example
* PropsLookup: equal_counts, coordinate_lookup, coordinate_lookup_defaults
* PropsMaps: equat_findTract_slices, equat_findTract_poles, equat_uniform, longitude_invariant_projections, equat_default, discrete_example, healpix_example, coordFromVec_pole, coordFromVec_direction, coordFromVec_example
* PropsMisc: rings_contents, dodeca_contents, rings_log_example
* PropsNames: registered_names, registered_names_later, registered_names_refuted, registered_names_example
* PropsPatchRegion: findPatchList_region, findTractPatchList_region, findPatchList_region_refuted, findPatchList_region_met
* PropsPixelFloat: pixel_of_double, lookup_as_exact, patch_of_double, patches_of_doubles, doubles_complete, one_pixel_patches_refuted, double_positions_met
* PropsPolygons: gnomonic_tracts, gnomonic_findPatch_polygon, gnomonic_tract_polygons, stereographic_polygon_refuted, polygon_hypotheses_met
* PropsRegMany: shared_refines, shared_complete, shared_serialisable, shared_all_or_nothing, shared_returned, shared_never_blocks, shared_rings, shared_example
* PropsRegThreads: registering_uniform, registering_all_tracts_exist, registering_rings, registering_others, registering_never_blocks, registering_refuted, registering_example
* PropsRegions: registered_patch_regions, registered_map_regions, registered_regions_example
* PropsRings: rings_layout, rings_findTractPatchList_correct
* PropsRings2: rings_uniform, rings_answers_stable, rings_findAllTracts_succeeds, explicit_disc, rings_overlap_disc, rings_full_overlap_refuted, rings_v0_cap_twice_example_refuted
* PropsRings3: rings_ring_count, rings_findAllTracts_misses_refuted, rings_findAllTracts_default_overlap_refuted, rings3_default
* PropsRings4: rings_found_distance, rings_full_overlap, rings_full_overlap_default
* PropsRingsFloat: rings_float_lookup, rings_float_inside, rings_float_degrees, rings_float_array, rings_float_array_near, rings_float_array_negative_ra_refuted, rings_float_centre
* PropsRingsFloat2: rings_float_all_tracts, rings_float_all_tracts_succeeds, rings_float_all_tracts_near, rings_float_all_tracts_met, rings_float_nan_refuted
* PropsRotated: explicit_rotated, rotated_maps, rings_full_overlap_rotated, rotated_tract_refuted, rings_rotated_default
* PropsShaThreads: sha_threads_alone, sha_threads_coherent, sha_threads_kept, sha_threads_one, sha_threads_example
* PropsSky: tract_answers_stable, tract_answers_exact, tract_answers_example_refuted, findTractPatchList_correct, findTractPatchList_settled, findClosestTractPatchList_correct, findClosestTractPatchList_settled, closest_lists_tract_twice_refuted
* PropsThreads: threads_one_alone, threads_all_tracts_exist, threads_get, threads_uniform, threads_rings, threads_never_block, threads_identity_refuted, threads_torn_refuted, threads_hypotheses_met
* PropsTract: findPatch_correct, findPatchList_correct, findPatchList_complete, findPatchList_wcs_error, explicit_vertices
* PropsWcs: zenithal_wcs, cea_factory_wcs, map_wcs, factory_projections, unrotated_wcs, map_wcs_example, equat_wcs_example
