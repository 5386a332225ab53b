{
 "C14": [
  "proved",
  "The statement is the exact characterisation. The simpler claim one would expect (field claim_refuted_in_general of properties.jsonl) is false of the code: refuted: out-of-range values are converted silently; theorems show exactly what happens."
 ],
 "C20": [
  "proved",
  "The statement is the exact characterisation. The simpler claim one would expect (field claim_refuted_in_general of properties.jsonl) is false of the code: refuted for maps whose tracts differ in patch counts (general theorem and concrete map); proved for maps with uniform counts, and rings maps on the sphere (TAN, STG) are proved uniform."
 ],
 "C32": [
  "proved",
  "The statement is the exact characterisation. The simpler claim one would expect (field claim_refuted_in_general of properties.jsonl) is false of the code: refuted for version 0 (general theorem and the concrete default map at the north pole); version 1 is proved in C31's theorem."
 ],
 "C33": [
  "proved",
  "The statement is the exact characterisation. The simpler claim one would expect (field claim_refuted_in_general of properties.jsonl) is false of the code: refuted for the default configuration with three rings; the positive part (disc of half a ring plus overlap around the centre) is proved."
 ],
 "C49": [
  "proved",
  "The statement is the exact characterisation. The simpler claim one would expect (field claim_refuted_in_general of properties.jsonl) is false of the code: refuted: unpack uses the position of the band in the mapping, not its number (unpack_bands_refuted); unpack_pack_iff characterises exactly when the round trip holds, and unpack_inverts_pack (C48) proves it for mappings numbered in order"
 ],
 "C50": [
  "proved",
  "The statement is the exact characterisation. The simpler claim one would expect (field claim_refuted_in_general of properties.jsonl) is false of the code: The 'exactly when' half is proved (pack_rejects_exactly). The second half, that no accepted id is out of range, is refuted for negative numbers (pack_negative_refuted)"
 ],
 "C51": [
  "proved",
  "The statement is the exact characterisation. The simpler claim one would expect (field claim_refuted_in_general of properties.jsonl) is false of the code: Rejection of wrong dimensions and one direction proved (packer_construction). The converse is refuted for explicit band dimensions with n_bands=0 (packer_band_ignored_refuted)"
 ],
 "C55": [
  "proved",
  "The statement is the exact characterisation. The simpler claim one would expect (field claim_refuted_in_general of properties.jsonl) is false of the code: Proved for maps whose tracts all have the same patch counts (all RingsSkyMaps). The general statement is false of the code: refuted by unequal_tracts_not_registered_refuted (register cannot succeed) and registered_numbers_refuted (a wrong number is registered)."
 ],
 "C60": [
  "proved",
  "The statement is the exact characterisation. The simpler claim one would expect (field claim_refuted_in_general of properties.jsonl) is false of the code: The property is refuted: healpix_position_refuted shows that every tract is the mirror image in the equator of its HEALPixel."
 ],
 "C39": [
  "proved",
  "The statement is the exact characterisation. The simpler claim one would expect (field claim_refuted_in_general of properties.jsonl) is false of the code: Rotation, the first vector, and the case without vec1NegativeX are proved for all vectors. With vec1NegativeX the claim is refuted in general (coord_transform_negative_refuted) and proved when both vectors are in the xz plane, which covers the call made by the code (polar_vertex_default)."
 ],
 "C45": [
  "proved",
  "The statement is the exact characterisation. The simpler claim one would expect (field claim_refuted_in_general of properties.jsonl) is false of the code: refuted for RingsSkyMap versions 0 and 1 (equal_maps_refuted: every configuration with at least two rings); proved for all other pairs of equal maps, under the hypothesis that SHA-1 does not collide on the two configurations (equal_maps_same_tracts)."
 ],
 "C62": [
  "proved",
  "The statement is the exact characterisation. The simpler claim one would expect (field claim_refuted_in_general of properties.jsonl) is false of the code: refuted: negative_zero_refuted. equal_numbers_equal_maps gives the exact condition."
 ],
 "C64": [
  "proved",
  "The statement is the exact characterisation. The simpler claim one would expect (field claim_refuted_in_general of properties.jsonl) is false of the code: refuted, also for the default overlap with 269 rings or more; rings_findAllTracts_near says exactly which tracts are considered."
 ],
 "C36": [
  "proved",
  "Exact; the expectation that each tract is listed once is refuted for maps with unequal patch counts (closest_lists_tract_twice_refuted)."
 ],
 "C75": [
  "proved",
  "Exact; the two guarantees that fail are refuted by concrete schedules (threads_identity_refuted, threads_torn_refuted). Attribute and list element accesses are the atomic actions, as in CPython."
 ],
 "C76": [
  "proved",
  "Whole statement, in binary64; tract counts per ring arbitrary (they come from libm's cos)."
 ],
 "C77": [
  "proved",
  "Exact; the bit-for-bit claim is refuted for negative right ascensions (rings_float_array_negative_ra_refuted) and proved for [0, 2 pi)."
 ],
 "C78": [
  "proved",
  "Whole statement, in binary64."
 ],
 "C79": [
  "proved",
  "Whole statement for the default projection in exact arithmetic; the remaining case (one tract, overlap 0) is refuted by equat_cea_one_tract_refuted."
 ],
 "C80": [
  "proved",
  "Whole statement for gnomonic WCSs; for the stereographic projection the claim is false (stereographic_polygon_refuted)."
 ],
 "C81": [
  "proved",
  "Whole statement, for afw's makeCdMatrix and makeSkyWcs as modelled over exact reals (TAN, STG, CEA)."
 ],
 "C82": [
  "proved",
  "Whole statement for gnomonic WCSs; for the stereographic projection the claim is false (findPatchList_region_refuted)."
 ],
 "C83": [
  "proved",
  "Safe for everything but patch_inner_dimensions (handed_out_map, handed_out_answers, handed_out_local); for that one, and for a patch's own boxes, the exact effect is proved (handed_out_dims_shared, handed_out_patch_own)."
 ],
 "C84": [
  "proved",
  "Whole statement, for gnomonic WCSs (all maps configured with TAN: registered_map_regions); that patch regions stay inside their tract's fails with the cells builder or unequal tracts (registered_patch_region_refuted)."
 ],
 "C85": [
  "proved",
  "The statement is the exact characterisation. The simpler claim one would expect (field claim_refuted_in_general of properties.jsonl) is false of the code: rotated_tract_refuted gives a Discrete map rotated by 45 degrees with a tract that lacks a coordinate at its radius."
 ],
 "C86": [
  "proved",
  "Rings layout version 1 (the default). For HEALPix, which tract findTract returns depends on hpgeom, which is external (healpix_lookup); that hpgeom's pixels lie within their polygons plus the margin, mirrored in the equator, is a hypothesis there. Equal patch counts of Dodeca maps are not proved (the tract extents differ by some pixels between faces); there the findPatch part needs them as a hypothesis. Dimensions below 2^31 (afw's int boxes) are assumed."
 ],
 "C87": [
  "proved",
  "The statement is the exact characterisation. The simpler claims one would expect (field claim_refuted_in_general of properties.jsonl) are false of the code: explicit_inner_outside_refuted, explicit_no_overlap_refuted and, for a constructed Discrete map with the default settings, inner_region_refuted. ConvexPolygon.convexHull is modelled as the convex (cone) hull of the points."
 ],
 "C88": [
  "proved",
  "Processes with their own sky map objects; the database is modelled by its guarantees (views inside a transaction are committed states plus own records; a commit checks the keys). Threads sharing one sky map object are not covered."
 ],
 "C89": [
  "proved",
  "Equal patch counts are a hypothesis (equal_counts, C86, proves them for Rings, Equat and Discrete maps of one radius); for maps whose counts differ see C55. Tract sizes below 2^31 pixels for findPatch."
 ],
 "C90": [
  "proved",
  "The statement is the exact characterisation. The simpler claim one would expect (field claim_refuted_in_general of properties.jsonl) is false of the code: registered_names_refuted. The rest is under the hypothesis that SHA-1 does not collide on the two configurations."
 ],
 "C91": [
  "proved",
  "usable_sizes gives the exact condition. The behaviour of lsst.geom boxes for negative dimensions and negative grow is taken from its documentation (Geom.v)."
 ],
 "C92": [
  "proved",
  "binary64 operation by operation for the ring and tract numbers; tracts and their pixel positions exact."
 ],
 "C93": [
  "proved",
  "The simpler claim one would expect (field claim_refuted_in_general of properties.jsonl) is false of the code: refuted for maps whose tracts differ in patch counts; proved for uniform maps, Rings maps (TAN, STG), and whenever all tracts exist. One registering thread; the butler is not used by the other threads."
 ],
 "C95": [
  "proved",
  "The statement is the exact characterisation. The simpler claim one would expect (field claim_refuted_in_general of properties.jsonl) is false of the code: refuted: unpack keeps the bands of the mapping as they were at its first call, pack uses the present ones."
 ]
}