{"id": "C01", "title": "Tract growth is exact, minimal and centred", "statement": "Building a tract from a minimum pixel bounding box yields a tract box that contains the minimum box, whose width and height are exactly num_patches times patch_inner_dimensions, that exceeds the minimum box by less than one patch in each axis, and whose extra pixels are split so that the two sides differ by at most one pixel.", "quantifier": "every minimum bounding box (any position and size, including negative coordinates) and every positive patch size", "why_tests_cant": "The rounding-up and halving must be right for every residue of the box size modulo the patch size; tests only try a few sizes.", "anchors": ["python/lsst/skymap/tractBuilder.py:BaseTractBuilder.setupPatches"]}
{"id": "C02", "title": "Patch inner regions tile the tract exactly", "statement": "Every pixel of a tract's bounding box lies in the inner bounding box of exactly one patch of that tract, no inner bounding box has a pixel outside the tract, and all inner bounding boxes have the dimensions patch_inner_dimensions.", "quantifier": "every tract, every pixel of it, both tract builders", "why_tests_cant": "Tests look at the corner patches; the claim is about each pixel of arbitrarily large tracts.", "anchors": ["python/lsst/skymap/tractBuilder.py:LegacyTractBuilder.getPatchInfo", "python/lsst/skymap/tractBuilder.py:CellTractBuilder.getPatchInfo", "python/lsst/skymap/tractInfo.py:TractInfo"]}
{"id": "C03", "title": "Legacy patch outer region is the border neighbourhood clipped to the tract", "statement": "With the legacy builder a patch's outer bounding box consists of exactly the tract pixels at most patch_border away (in x and in y) from some pixel of its inner bounding box; it always contains the inner box and never leaves the tract, for any border including one larger than the tract.", "quantifier": "every tract, patch index, pixel and non-negative border", "why_tests_cant": "Clipping interacts with the border at every patch position and border size.", "anchors": ["python/lsst/skymap/tractBuilder.py:LegacyTractBuilder.getPatchInfo"]}
{"id": "C04", "title": "Cell patch outer region is the unclipped border neighbourhood", "statement": "With the cells builder a patch's outer bounding box is exactly the inner box grown on every side by numCellsInPatchBorder cell widths plus the cell border, also at the tract edge.", "quantifier": "every cells configuration, every patch", "why_tests_cant": "Must hold for each combination of cell size, border and patch position.", "anchors": ["python/lsst/skymap/tractBuilder.py:CellTractBuilder.__init__", "python/lsst/skymap/tractBuilder.py:CellTractBuilder.getPatchInfo"]}
{"id": "C05", "title": "Patch lookup by index accepts exactly the valid indices", "statement": "tract[index] returns a patch exactly when the index denotes 0<=x<nx and 0<=y<ny (given as Index2D, pair or sequential number 0<=n<nx*ny) and raises IndexError for every other pair or number, including negative ones (on a tract without patches a number raises ZeroDivisionError instead); the internal 'Bug: ... not contained' and 'outerBBox does not contain' errors are never raised for a non-negative border.", "quantifier": "every tract and every integer index or pair", "why_tests_cant": "The set of invalid indices is infinite, and 'unreachable' errors can only be ruled out by proof.", "anchors": ["python/lsst/skymap/tractBuilder.py:LegacyTractBuilder.getPatchInfo", "python/lsst/skymap/tractBuilder.py:CellTractBuilder.getPatchInfo", "python/lsst/skymap/tractBuilder.py:BaseTractBuilder.getPatchIndexPair", "python/lsst/skymap/patchInfo.py:PatchInfo.__init__"]}
{"id": "C06", "title": "Sequential patch index is a bijection", "statement": "getSequentialPatchIndexFromPair and getPatchIndexPair are mutually inverse bijections between valid pairs (x,y) and the integers 0..len(tract)-1, and the patch's sequential_index is that number.", "quantifier": "every number of patches nx, ny and every valid pair / number", "why_tests_cant": "Inverse-ness is a statement over all grid sizes.", "anchors": ["python/lsst/skymap/tractBuilder.py:BaseTractBuilder.getSequentialPatchIndexFromPair", "python/lsst/skymap/tractBuilder.py:BaseTractBuilder.getPatchIndexPair", "python/lsst/skymap/tractBuilder.py:BaseTractBuilder.getSequentialPatchIndex"]}
{"id": "C07", "title": "Iterating a tract enumerates its patches in sequential order", "statement": "list(tract) has len(tract) elements and its k-th element equals tract[k] and has sequential_index k; no patch is repeated or missing.", "quantifier": "every tract", "why_tests_cant": "Holds for all grid shapes; tests fix one.", "anchors": ["python/lsst/skymap/tractInfo.py:TractInfo.__iter__", "python/lsst/skymap/tractInfo.py:TractInfo.__len__", "python/lsst/skymap/tractInfo.py:TractInfo.__getitem__"]}
{"id": "C08", "title": "Sequential index of unchecked pairs is not unique", "statement": "getSequentialPatchIndexFromPair, documented to return an integer that uniquely identifies the pair, accepts out-of-range pairs and maps them onto the number of another, valid patch instead of rejecting them. (Expected to be refuted as a uniqueness claim over all accepted pairs.)", "quantifier": "every tract and every pair the call accepts", "why_tests_cant": "A uniqueness claim over all accepted inputs.", "anchors": ["python/lsst/skymap/tractBuilder.py:BaseTractBuilder.getSequentialPatchIndexFromPair"]}
{"id": "C09", "title": "Sequential cell index is a bijection and cell iteration follows it", "statement": "For a patch with cells, getSequentialCellIndexFromPair and getCellIndexPair are mutually inverse between valid cell pairs and 0..len(patch)-1, and iterating the patch yields len(patch) cells with sequential_index 0,1,2,... The cell-object form getSequentialCellIndex gives a cell its own number, and looking the cell up by it gives the cell back.", "quantifier": "every cell configuration and every valid cell index", "why_tests_cant": "All grid sizes.", "anchors": ["python/lsst/skymap/patchInfo.py:PatchInfo.getSequentialCellIndexFromPair", "python/lsst/skymap/patchInfo.py:PatchInfo.getCellIndexPair", "python/lsst/skymap/patchInfo.py:PatchInfo.__iter__", "python/lsst/skymap/patchInfo.py:PatchInfo.__len__"]}
{"id": "C10", "title": "Cell inner regions tile the patch plus its border cells", "statement": "The inner bounding boxes of the cells of a patch are pairwise disjoint and their union is exactly the patch inner box grown by numCellsInPatchBorder cells on every side; the cells whose index is not within numCellsInPatchBorder of the edge tile exactly the patch inner box.", "quantifier": "every cells configuration, patch and pixel", "why_tests_cant": "A per-pixel claim for all sizes.", "anchors": ["python/lsst/skymap/patchInfo.py:PatchInfo.getCellInfo", "python/lsst/skymap/tractBuilder.py:CellTractBuilder"]}
{"id": "C11", "title": "Cell outer regions exactly cover the patch outer region", "statement": "For square cells every cell's outer box is its inner box grown by cellBorder and lies inside the patch outer box, and every pixel of the patch outer box lies in some cell's outer box. Configuration validate accepts exactly square cells; without it (and with a border of cells) the cover fails in every patch.", "quantifier": "every validated cells configuration, every patch and cell", "why_tests_cant": "Relates two separately computed borders for all configurations.", "anchors": ["python/lsst/skymap/patchInfo.py:PatchInfo.getCellInfo", "python/lsst/skymap/tractBuilder.py:CellTractBuilder.__init__", "python/lsst/skymap/tractBuilder.py:CellTractBuilderConfig.validate"]}
{"id": "C12", "title": "Cells of neighbouring patches coincide where they overlap", "statement": "If the inner boxes of two cells of two patches of the same tract share a pixel then the two cells have identical inner and outer bounding boxes, so overlapping patches are gridded consistently.", "quantifier": "every pair of patches of a cells tract and every pair of their cells", "why_tests_cant": "Quadratic in patches and cells, unbounded sizes.", "anchors": ["python/lsst/skymap/patchInfo.py:PatchInfo.getCellInfo", "python/lsst/skymap/tractBuilder.py:CellTractBuilder.getPatchInfo"]}
{"id": "C13", "title": "Cell lookup accepts exactly the valid cell indices", "statement": "patch[index] raises IndexError for every index when the patch has no cells, returns the cell for every valid pair or sequential number and raises IndexError for every other pair or number.", "quantifier": "every patch (with and without cells) and every integer index or pair", "why_tests_cant": "Infinite set of invalid indices.", "anchors": ["python/lsst/skymap/patchInfo.py:PatchInfo.getCellInfo", "python/lsst/skymap/patchInfo.py:PatchInfo.__getitem__"]}
{"id": "C14", "title": "What the cell index converters do with out-of-range values", "statement": "getSequentialCellIndexFromPair and getCellIndexPair convert values in range to each other and back, and never check the range: an out-of-range pair or number of a patch with cells is converted silently by the same formula (the documented IndexError is never raised for it), while getCellInfo raises IndexError exactly for the out-of-range values.", "quantifier": "every patch with cells and every out-of-range pair or number", "why_tests_cant": "Claim over all out-of-range inputs.", "anchors": ["python/lsst/skymap/patchInfo.py:PatchInfo.getSequentialCellIndexFromPair", "python/lsst/skymap/patchInfo.py:PatchInfo.getCellIndexPair"], "claim_refuted_in_general": "getSequentialCellIndexFromPair and getCellIndexPair raise IndexError when the index is out of range, as their docstrings say. (Expected to be refuted: out-of-range values are converted silently.)"}
{"id": "C15", "title": "findPatch returns the patch whose inner box holds the coordinate, contains agrees", "statement": "If tract.contains(coord) then tract.findPatch(coord) returns the unique patch whose inner bounding box contains the pixel of coord; otherwise findPatch raises LookupError. The floating point division used to compute the index never selects a neighbouring patch.", "quantifier": "every tract, every coordinate, every WCS (including WCS calls that raise or return NaN)", "why_tests_cant": "Pixel positions next to patch boundaries and double rounding cannot be sampled exhaustively.", "anchors": ["python/lsst/skymap/tractInfo.py:TractInfo.findPatch", "python/lsst/skymap/tractInfo.py:TractInfo.contains"]}
{"id": "C16", "title": "findPatchList is complete and exact for the pixel bounding box", "statement": "findPatchList(coords) returns, without repetition and ordered by x then y, exactly the patches whose inner box grown by patch_border meets the pixel bounding box of those coords whose position can be computed; in particular it contains findPatch(c) for each such c in the tract, and it is empty exactly when no patch qualifies.", "quantifier": "every tract and every list of coordinates, with arbitrary WCS failures on some of them", "why_tests_cant": "All coordinate lists, all positions relative to patch edges.", "anchors": ["python/lsst/skymap/tractInfo.py:TractInfo.findPatchList"]}
{"id": "C17", "title": "Tract box starts at (0,0) and keeps sky registration", "statement": "A tract's bbox has its minimum at (0,0), and every sky point used to size the tract (each vertex displaced by half the overlap in each of the 24 directions, or each explicit corner) whose pixel can be computed is contained in the finished tract.", "quantifier": "every tract specification, WCS and overlap", "why_tests_cant": "Off-by-half-pixel and shift-sign errors depend on exact positions.", "anchors": ["python/lsst/skymap/tractInfo.py:TractInfo.__init__", "python/lsst/skymap/tractInfo.py:TractInfo._minimumBoundingBox", "python/lsst/skymap/tractInfo.py:TractInfo._finalOrientation", "python/lsst/skymap/tractInfo.py:ExplicitTractInfo._minimumBoundingBox"]}
{"id": "C18", "title": "Vertices of an explicit tract are inside the tract", "statement": "For an ExplicitTractInfo with a non-empty box, tract.contains(v) is true for each of the four vertices in getVertexList() (given a WCS that maps pixel to sky and back consistently), and findPatch of the vertices gives the four corner patches.", "quantifier": "every explicit tract", "why_tests_cant": "Depends on the 0.001 pixel shrink and half-pixel conventions for all box sizes.", "anchors": ["python/lsst/skymap/tractInfo.py:ExplicitTractInfo.__init__"]}
{"id": "C19", "title": "Adjacent patches share sky polygon edges", "statement": "The inner sky polygons of horizontally or vertically adjacent patches share their two common vertices exactly, and the tract's outer sky polygon has the extreme vertices of the corner patches' inner polygons.", "quantifier": "every tract, every pair of adjacent patches, every WCS", "why_tests_cant": "Half-pixel conventions for all patch positions.", "anchors": ["python/lsst/skymap/detail/utils.py:makeSkyPolygonFromBBox", "python/lsst/skymap/patchInfo.py:PatchInfo.getInnerSkyPolygon", "python/lsst/skymap/tractInfo.py:TractInfo.getOuterSkyPolygon"]}
{"id": "C20", "title": "When a tract's answers depend on which other tracts were used", "statement": "Sky maps are documented as conceptually immutable. Between two moments a tract answers tract[index], getSequentialPatchIndexFromPair, getPatchIndexPair, findPatch, findPatchList and iteration identically exactly if the tracts generated last before the two moments have the same patch counts; hence always for maps whose tracts all have equal patch counts (proved to include every RingsSkyMap with TAN or STG), and not otherwise: a tract generated after it with fewer columns makes a tract lose patches and renumber the rest, because all tracts share one mutable tract builder.", "quantifier": "every sky map and every history of tract accesses", "why_tests_cant": "History-dependent: tests use maps whose tracts all have the same size.", "anchors": ["python/lsst/skymap/baseSkyMap.py:BaseSkyMap.__init__", "python/lsst/skymap/tractBuilder.py:BaseTractBuilder.setupPatches", "python/lsst/skymap/tractInfo.py:TractInfo.getPatchInfo", "python/lsst/skymap/discreteSkyMap.py:DiscreteSkyMap.generateTract"], "claim_refuted_in_general": "Once obtained, a tract answers tract[index], tract.getSequentialPatchIndexFromPair, getPatchIndexPair, findPatch, findPatchList and iteration identically whatever other tracts of the same sky map are generated in between (sky maps are documented as conceptually immutable). (Expected to be refuted when two tracts have different patch counts, because all tracts share one mutable tract builder; provable when all tracts have equal patch counts.)"}
{"id": "C21", "title": "Caching sky maps generate each tract once and always return the same object", "statement": "In any sequence of indexing and iteration on a caching sky map, every access to a valid index returns the identical tract object, with that index as its id, and the tract is generated exactly once.", "quantifier": "every caching sky map and every sequence of accesses", "why_tests_cant": "All access histories.", "anchors": ["python/lsst/skymap/cachingSkyMap.py:CachingSkyMap.__getitem__", "python/lsst/skymap/cachingSkyMap.py:CachingSkyMap.__iter__"]}
{"id": "C22", "title": "Caching sky maps reject exactly the out-of-range indices", "statement": "skymap[i] raises IndexError for every i<0 and every i>=len(skymap) and otherwise returns a tract, although the explicit check tests i > len.", "quantifier": "every caching sky map, access history and integer index", "why_tests_cant": "All integers, all histories; the explicit guard alone is off by one.", "anchors": ["python/lsst/skymap/cachingSkyMap.py:CachingSkyMap.__getitem__"]}
{"id": "C23", "title": "Pickling a sky map reproduces it", "statement": "Unpickling the pickle of a sky map (any access history) gives a sky map of the same class, configuration and version with the same number of tracts, the same hash, and tracts equal to the original's in id, centre, bounding box and patch counts; unpickling Equat/Dodeca state with version >= (2,0) raises.", "quantifier": "every sky map, version and access history before pickling", "why_tests_cant": "All histories/configurations.", "anchors": ["python/lsst/skymap/cachingSkyMap.py:CachingSkyMap.__reduce__", "python/lsst/skymap/equatSkyMap.py:EquatSkyMap.__setstate__", "python/lsst/skymap/dodecaSkyMap.py:DodecaSkyMap.__setstate__"]}
{"id": "C24", "title": "Rings: number of tracts and ring sizes are well formed", "statement": "Every RingsSkyMap with numRings>=1 has at least 3 tracts in each ring, and len(skymap) is the sum of the ring sizes plus the two polar caps.", "quantifier": "every number of rings", "why_tests_cant": "A trigonometric inequality for all numRings.", "anchors": ["python/lsst/skymap/ringsSkyMap.py:RingsSkyMap.__init__"]}
{"id": "C25", "title": "Rings: tract numbering is a bijection (version 1)", "statement": "With version=1 getRingIndices maps 0 to (-1,0), len-1 to (numRings,0) and the other indices one-to-one onto the pairs (ring, tract) with 0<=ring<numRings, 0<=tract<ringNums[ring], in lexicographic order; out-of-range indices raise IndexError.", "quantifier": "every ring layout and every integer index", "why_tests_cant": "Arbitrary number of rings and sizes.", "anchors": ["python/lsst/skymap/ringsSkyMap.py:RingsSkyMap.getRingIndices"]}
{"id": "C26", "title": "Rings: version 0 numbering has exactly the documented defects", "statement": "With version=0 the tract positions are those of version 1 except that one position (first tract of the first ring) occurs exactly twice (at indices 1 and ringNums[0]+1), and the first tract of the last ring does not occur at all (for numRings>=2).", "quantifier": "every ring layout with version 0", "why_tests_cant": "Claim about all indices of all layouts.", "anchors": ["python/lsst/skymap/ringsSkyMap.py:RingsSkyMap.getRingIndices", "python/lsst/skymap/ringsSkyMap.py:RingsSkyMap"]}
{"id": "C27", "title": "Rings: findTract always returns a tract", "statement": "findTract succeeds for every coordinate of the sky and returns an index in [0,len), in both versions.", "quantifier": "every ring configuration, every ra (any value) and every dec in [-90,90] degrees, every raStart", "why_tests_cant": "Continuum of inputs including ring boundaries and the poles.", "anchors": ["python/lsst/skymap/ringsSkyMap.py:RingsSkyMap.findTract", "python/lsst/skymap/ringsSkyMap.py:RingsSkyMap._decToRingNum", "python/lsst/skymap/ringsSkyMap.py:RingsSkyMap._raToTractNum"]}
{"id": "C28", "title": "Rings: the tract found for a tract centre is that tract", "statement": "skymap.findTract(skymap[i].getCtrCoord()).getId() == i for every i with version 1, and with version 0 for every i except the duplicate ringNums[0]+1, for which it is 1.", "quantifier": "every ring configuration, raStart and tract index", "why_tests_cant": "DM-14809 was a bug here that tests of small maps missed.", "anchors": ["python/lsst/skymap/ringsSkyMap.py:RingsSkyMap.findTract", "python/lsst/skymap/ringsSkyMap.py:RingsSkyMap.generateTract"]}
{"id": "C29", "title": "Rings: inner regions partition the sky and findTract respects them", "statement": "With version 1 every coordinate lies in the (closed) RA/Dec range reported for findTract(coord), and a coordinate strictly inside the range of a tract is mapped to that tract; hence interiors are disjoint and ranges cover the sky.", "quantifier": "every ring configuration and coordinate", "why_tests_cant": "Continuum, with wrap-around at raStart.", "anchors": ["python/lsst/skymap/ringsSkyMap.py:RingsSkyMap.getRaDecRange", "python/lsst/skymap/ringsSkyMap.py:RingsSkyMap.findTract"]}
{"id": "C30", "title": "Rings: findTractIdArray agrees with findTract", "statement": "findTractIdArray(ra, dec) returns, element by element, the ids that findTract returns for the coordinates, for radians and degrees, in both versions.", "quantifier": "every ring configuration and all arrays of coordinates", "why_tests_cant": "Two independent implementations must agree on a continuum.", "anchors": ["python/lsst/skymap/ringsSkyMap.py:RingsSkyMap.findTractIdArray", "python/lsst/skymap/ringsSkyMap.py:RingsSkyMap.findTract"]}
{"id": "C31", "title": "Rings: findAllTracts is sound, duplicate free and includes the main tract", "statement": "Every tract returned by findAllTracts(coord) contains coord; with version 1 no tract is returned twice; if findTract(coord) contains coord it is in the list; both polar caps are reported whenever they contain coord.", "quantifier": "every ring configuration, WCS and coordinate", "why_tests_cant": "Wrap-around cases for all ring sizes.", "anchors": ["python/lsst/skymap/ringsSkyMap.py:RingsSkyMap.findAllTracts"]}
{"id": "C32", "title": "Rings: exactly when findAllTracts repeats a tract (version 0)", "statement": "With version 0, findAllTracts never returns a tract other than the north cap twice; it returns the north cap twice exactly if the cap contains the coordinate, there are two rings or more, the coordinate is north of the southern edge of the last ring but one and within one and a half tract widths (of the last ring) in RA of raStart; otherwise the result has no repetition. (With version 1 it never repeats a tract: C31.)", "quantifier": "every version 0 ring map and coordinate", "why_tests_cant": "Needs a particular combination of position and overlap.", "anchors": ["python/lsst/skymap/ringsSkyMap.py:RingsSkyMap.findAllTracts"], "claim_refuted_in_general": "findAllTracts never returns the same tract twice. (Expected to be refuted for version 0: next to the missing tract the north cap is tried twice.)"}
{"id": "C33", "title": "Rings: when the tracts overlap fully", "statement": "With the default rotation of 0 (for others see C85) and the TAN or STG projection: if there are three rings or more and the overlap is at least a quarter of the ring height (in particular in the default configuration), the tract returned by findTract contains the coordinate, for every coordinate on the sky, except with version 0 for coordinates of the last ring next to raStart, which are given the north cap; the coordinate is then at most three quarters of a ring height from the centre of that tract; in every configuration that tract contains every coordinate within half a ring height plus the overlap of its centre. Without the hypothesis on the overlap the claim of full overlap in the class documentation is false (three rings with the default overlap).", "quantifier": "every ring configuration and coordinate", "why_tests_cant": "Universal geometric claim.", "anchors": ["python/lsst/skymap/ringsSkyMap.py:RingsSkyMap.__init__", "python/lsst/skymap/ringsSkyMap.py:RingsSkyMap.findTract", "python/lsst/skymap/tractInfo.py:ExplicitTractInfo"], "claim_refuted_in_general": "The tract returned by findTract contains the coordinate (the class documents that the RA division is made so as to ensure full overlap). (Expected to be refuted, e.g. for numRings=1, whose only ring straddles the equator.)"}
{"id": "C34", "title": "Rings: findTractPatchList reports each tract once with its patch list", "statement": "findTractPatchList(coords) contains a pair for exactly the tracts that contain at least one of the coords and have a non-empty patch list; each pair carries tract.findPatchList(coords); no pair is repeated.", "quantifier": "every ring configuration and every list of coordinates", "why_tests_cant": "All coordinate lists.", "anchors": ["python/lsst/skymap/ringsSkyMap.py:RingsSkyMap.findTractPatchList"]}
{"id": "C35", "title": "Base findTract returns the nearest centre, lowest index on ties", "statement": "The default findTract returns a tract whose centre separation from coord is minimal over all tracts and, among those, the one of lowest position; it raises IndexError on an empty sky map.", "quantifier": "every list of tracts and every coordinate", "why_tests_cant": "All configurations, including ties.", "anchors": ["python/lsst/skymap/baseSkyMap.py:BaseSkyMap.findTract"]}
{"id": "C36", "title": "Base findTractPatchList and findClosestTractPatchList", "statement": "findTractPatchList returns exactly the tracts with a non-empty patch list, in tract order, each with the findPatchList result of the moment; findClosestTractPatchList looks up findTract of each coordinate in turn and returns the non-empty (tract, findPatchList of the moment) pairs in order of first occurrence without repeating an equal pair; on maps with equal patch counts, or when all tracts exist, these are the lists that tract.findPatchList gives afterwards and each tract is listed once; on other maps one call can list a tract twice.", "quantifier": "every sky map and coordinate list", "why_tests_cant": "All lists.", "anchors": ["python/lsst/skymap/baseSkyMap.py:BaseSkyMap.findTractPatchList", "python/lsst/skymap/baseSkyMap.py:BaseSkyMap.findClosestTractPatchList"], "claim_refuted_in_general": "findTractPatchList returns exactly the tracts with a non-empty patch list, in tract order, each with its findPatchList result; findClosestTractPatchList returns exactly the tracts that are findTract of some coord with non-empty patch list, in order of first occurrence, each once."}
{"id": "C37", "title": "Equat: findTract agrees with the RA slices", "statement": "For an EquatSkyMap with n tracts, a coordinate not at a pole whose RA lies strictly between 360*i/n and 360*(i+1)/n degrees is assigned tract i by findTract, whatever its declination; at slice boundaries one of the two adjacent tracts is returned.", "quantifier": "every number of tracts, declination range and coordinate", "why_tests_cant": "Nearest-centre versus slice equivalence is a spherical-trigonometry fact over a continuum.", "anchors": ["python/lsst/skymap/equatSkyMap.py:EquatSkyMap.__init__", "python/lsst/skymap/baseSkyMap.py:BaseSkyMap.findTract"]}
{"id": "C38", "title": "Dodecahedron: combinatorial structure", "statement": "Construction never raises; there are 12 face centres of unit length and 20 unit vertices; every face has exactly 5 nearest faces and 5 vertices, listed so that consecutive vertices are adjacent.", "quantifier": "both orientations, all faces", "why_tests_cant": "Exact geometric facts about irrational coordinates, tests compare floats approximately.", "anchors": ["python/lsst/skymap/detail/dodecahedron.py:Dodecahedron", "python/lsst/skymap/detail/dodecahedron.py:_computeDodecahedronVertices", "python/lsst/skymap/detail/dodecahedron.py:_findCloseIndexSet"]}
{"id": "C39", "title": "Dodecahedron: coordinate transform is a rotation placing the reference vectors", "statement": "The matrix computed to orient the dodecahedron is a proper rotation (preserves lengths and angles) that takes the first vector to +z, and the second into the xz plane with x>=0; with vec1NegativeX it lands in the xz plane with x<=0 exactly if the y and z components of the two vectors are proportional (when the first is not on the x axis), which includes the pair of vectors that the code passes for the vertex-on-pole orientation.", "quantifier": "all pairs of vectors", "why_tests_cant": "All vectors, including degenerate directions.", "anchors": ["python/lsst/skymap/detail/dodecahedron.py:computeRotationMatrix", "python/lsst/skymap/detail/dodecahedron.py:_computeCoordTransform"], "claim_refuted_in_general": "The matrix computed to orient the dodecahedron is a proper rotation (preserves lengths and angles) that takes the first vector to +z and the second into the xz plane with x>=0 (x<=0 for the vertex-on-pole orientation)."}
{"id": "C40", "title": "Dodeca: findTract is the nearest centre and its inner region contains the coordinate", "statement": "DodecaSkyMap.findTract returns the tract whose centre is nearest the coordinate (the same tract as the default findTract, ties included), and the coordinate lies on the inner side of each edge of that tract's inner pentagon.", "quantifier": "every coordinate, both orientations", "why_tests_cant": "Continuum of coordinates.", "anchors": ["python/lsst/skymap/dodecaSkyMap.py:DodecaSkyMap.findTract", "python/lsst/skymap/detail/dodecahedron.py:Dodecahedron.getFaceInd", "python/lsst/skymap/baseSkyMap.py:BaseSkyMap.findTract"]}
{"id": "C41", "title": "Healpix: coordinate conversions are inverse and findTract of a centre is the tract", "statement": "angToCoord and coordToAng are inverse on the sphere, the map has 12*4^log2NSide tracts, and findTract of a tract's centre is that tract provided hpgeom maps each pixel centre back to its pixel.", "quantifier": "every coordinate, log2NSide and pixel index", "why_tests_cant": "Continuum / all sizes.", "anchors": ["python/lsst/skymap/healpixSkyMap.py:angToCoord", "python/lsst/skymap/healpixSkyMap.py:coordToAng", "python/lsst/skymap/healpixSkyMap.py:HealpixSkyMap"]}
{"id": "C42", "title": "Discrete: one tract per nominated coordinate", "statement": "A validated DiscreteSkyMap has len(radiusList) tracts, tract i is centred on (raList[i], decList[i]) with radius radiusList[i], and validation rejects exactly the configurations whose three lists differ in length.", "quantifier": "every configuration", "why_tests_cant": "All list lengths.", "anchors": ["python/lsst/skymap/discreteSkyMap.py:DiscreteSkyMapConfig.validate", "python/lsst/skymap/discreteSkyMap.py:DiscreteSkyMap.generateTract"]}
{"id": "C43", "title": "The hashed byte string determines the configuration", "statement": "Two sky maps (of any of the five classes, with either tract builder) feed the same bytes to SHA-1 only if they have the same class, the same tract builder kind and equal values of every hashed configuration field.", "quantifier": "every pair of sky map configurations", "why_tests_cant": "Injectivity of an unseparated concatenation of variable parts over all configurations.", "anchors": ["python/lsst/skymap/baseSkyMap.py:BaseSkyMap.getSha1", "python/lsst/skymap/tractBuilder.py:LegacyTractBuilder.getPackedConfig", "python/lsst/skymap/tractBuilder.py:CellTractBuilder.getPackedConfig", "python/lsst/skymap/ringsSkyMap.py:RingsSkyMap.updateSha1", "python/lsst/skymap/discreteSkyMap.py:DiscreteSkyMap.updateSha1", "python/lsst/skymap/equatSkyMap.py:EquatSkyMap.updateSha1", "python/lsst/skymap/dodecaSkyMap.py:DodecaSkyMap.updateSha1", "python/lsst/skymap/healpixSkyMap.py:HealpixSkyMap.updateSha1"]}
{"id": "C44", "title": "Sky map equality and hash are coherent and history independent", "statement": "Equality of sky maps is an equivalence relation, equal sky maps have equal hash, and getSha1 returns the same value before and after any accesses.", "quantifier": "every sky map and every call history", "why_tests_cant": "All histories.", "anchors": ["python/lsst/skymap/baseSkyMap.py:BaseSkyMap.__eq__", "python/lsst/skymap/baseSkyMap.py:BaseSkyMap.__hash__", "python/lsst/skymap/baseSkyMap.py:BaseSkyMap.getSha1"]}
{"id": "C45", "title": "Which equal sky maps have the same tracts", "statement": "If two sky maps compare equal (and SHA-1 does not collide on their configurations) then they have the same tracts at the same indices, except for RingsSkyMaps of versions 0 and 1 of one configuration, which compare equal and, with two rings or more, number their tracts differently.", "quantifier": "every pair of sky maps", "why_tests_cant": "Universal claim over pairs of maps.", "anchors": ["python/lsst/skymap/baseSkyMap.py:BaseSkyMap.__eq__", "python/lsst/skymap/ringsSkyMap.py:RingsSkyMap.updateSha1", "python/lsst/skymap/ringsSkyMap.py:RingsSkyMap.getRingIndices"], "claim_refuted_in_general": "If two sky maps compare equal then they have the same tracts at the same indices. (Expected to be refuted: RingsSkyMap version 0 and version 1 of one configuration compare equal but number tracts differently.)"}
{"id": "C46", "title": "Packed ids fit in maxBits", "statement": "Every id packed from non-negative tract, patch and band numbers is non-negative and has at most maxBits bits; no smaller number of bits would do for the largest id.", "quantifier": "every packer configuration and accepted data id", "why_tests_cant": "All sizes.", "anchors": ["python/lsst/skymap/packers.py:SkyMapDimensionPacker._pack", "python/lsst/skymap/packers.py:SkyMapDimensionPacker.maxBits"]}
{"id": "C47", "title": "Packing is injective", "statement": "Two data ids accepted by the same packer (non-negative tract and patch, distinct bands having distinct non-negative numbers) with equal packed ids are equal.", "quantifier": "every packer configuration and pair of data ids", "why_tests_cant": "All pairs.", "anchors": ["python/lsst/skymap/packers.py:SkyMapDimensionPacker._pack"]}
{"id": "C48", "title": "Unpack inverts pack for enumerated bands", "statement": "unpack(pack(d)) == d for every accepted data id when bands are not packed, when the default band list is used, or when the band mapping numbers its bands 0,1,2,... in order.", "quantifier": "every data id and such configuration", "why_tests_cant": "All data ids.", "anchors": ["python/lsst/skymap/packers.py:SkyMapDimensionPacker.unpack", "python/lsst/skymap/packers.py:SkyMapDimensionPacker.SUPPORTED_FILTERS"]}
{"id": "C49", "title": "Exactly when unpack inverts pack for an arbitrary band mapping", "statement": "For every configured band mapping and every data id that pack accepts, unpack(pack(d)) == d exactly if the band at the position (in the mapping) given by the band's number is that band itself; for mappings not numbered in insertion order the round trip gives another band or fails.", "quantifier": "every band mapping", "why_tests_cant": "Tests use mappings numbered in insertion order.", "anchors": ["python/lsst/skymap/packers.py:SkyMapDimensionPacker.unpack"], "claim_refuted_in_general": "unpack(pack(d)) == d for every configured band mapping. (Expected to be refuted: unpack uses the position of the band in the mapping, not its configured number.)"}
{"id": "C50", "title": "Exactly which data ids the packer rejects", "statement": "pack raises ValueError exactly when patch >= n_patches, tract >= n_tracts, the band is unknown or its number >= n_bands; negative numbers are never rejected: for example patch -1 of tract 1 is given the id of the last patch of tract 0, so that two data ids share an id.", "quantifier": "every packer and data id", "why_tests_cant": "All integers.", "anchors": ["python/lsst/skymap/packers.py:SkyMapDimensionPacker._pack"], "claim_refuted_in_general": "pack raises ValueError exactly when patch >= n_patches, tract >= n_tracts, the band is unknown or its number >= n_bands; no accepted id is out of range. (The second half is expected to be refuted for negative numbers.)"}
{"id": "C51", "title": "Packer construction: dimensions and band count", "statement": "Construction raises ValueError for any explicit dimensions other than {skymap,tract,patch} and {skymap,tract,patch,band}; after successful construction without explicit dimensions the packer's dimensions contain band exactly when bands take part in packing (n_bands != 0); the packed id ignores the band although it is among the dimensions exactly when the dimensions were given explicitly with band and n_bands is 0 (given as 0, or not given with an empty band mapping); from_config gives the packer of the configured bands and counts.", "quantifier": "every combination of constructor arguments", "why_tests_cant": "All argument combinations.", "anchors": ["python/lsst/skymap/packers.py:SkyMapDimensionPacker.__init__", "python/lsst/skymap/packers.py:SkyMapDimensionPacker.from_config"], "claim_refuted_in_general": "After successful construction the packer's dimensions contain band exactly when bands take part in packing (n_bands != 0), and construction raises ValueError for any explicit dimensions other than {skymap,tract,patch} and {skymap,tract,patch,band}. (First half expected to be refuted for explicit band dimensions with n_bands=0.)"}
{"id": "C52", "title": "Registering a sky map is all or nothing", "statement": "If registration fails at any point inside the transaction the registry holds exactly the skymap, tract and patch records it held before; if it succeeds for a new sky map it holds one skymap record, one tract record per tract and one patch record per patch, and nothing else changed. No collection or dataset type is ever removed, and only \"skymaps\" and \"skyMap\" are added.", "quantifier": "every sky map, every prior registry content and every failure point", "why_tests_cant": "All crash points.", "anchors": ["python/lsst/skymap/baseSkyMap.py:BaseSkyMap.register"]}
{"id": "C53", "title": "Re-registration is idempotent and conflicts are rejected", "statement": "Registering the same sky map again under the same name changes nothing; registering a sky map under a name that holds a different definition, or a hash registered under another name, raises ConflictingDefinitionError and changes nothing.", "quantifier": "every registry history", "why_tests_cant": "All histories.", "anchors": ["python/lsst/skymap/baseSkyMap.py:BaseSkyMap.register"]}
{"id": "C54", "title": "Registered ids can be packed", "statement": "For every tract and patch record written by register, a packer built from the registered skymap record accepts (tract, patch) and packs distinct records to distinct ids.", "quantifier": "every sky map and registered record", "why_tests_cant": "Relates two modules for all map sizes.", "anchors": ["python/lsst/skymap/baseSkyMap.py:BaseSkyMap.register", "python/lsst/skymap/packers.py:SkyMapDimensionPacker"]}
{"id": "C55", "title": "Which patch numbers are registered", "statement": "Registration adds one patch record for each patch (x, y) of each tract, numbered y*w+x where w is the number of columns of the tract generated last; these are the tract's own numbers y*nx+x exactly for the tracts with nx = w or a single row of patches, in particular for all tracts of maps with equal patch counts. When all tracts exist, a map can be registered (under a new name and hash, nothing failing) exactly if no tract has more columns or rows than the tract generated last.", "quantifier": "every sky map", "why_tests_cant": "Depends on which tract was built last.", "anchors": ["python/lsst/skymap/baseSkyMap.py:BaseSkyMap.register", "python/lsst/skymap/tractBuilder.py:BaseTractBuilder.getSequentialPatchIndex"], "claim_refuted_in_general": "The patch number registered for patch (x,y) of a tract equals ny-independent numbering y*nx+x with that tract's own nx. (Expected to be refuted for maps whose tracts differ in patch counts; provable for uniform maps.)"}
{"id": "C56", "title": "PatchInfo equality determines the cell grid", "statement": "Two patches made by cells tract builders that compare equal have identical cells (same inner and outer box for each cell index).", "quantifier": "every pair of cell configurations and patches", "why_tests_cant": "Equality omits the cell dimensions, so this is a derived fact for all configurations.", "anchors": ["python/lsst/skymap/patchInfo.py:PatchInfo.__eq__", "python/lsst/skymap/tractBuilder.py:CellTractBuilder.getPatchInfo"]}
{"id": "C57", "title": "coordFromVec at and away from the poles", "statement": "coordFromVec returns a coordinate of declination +90 or -90 and the default RA for vectors along the pole axis, raises when no default RA is given there, and otherwise returns the direction of the vector.", "quantifier": "every vector", "why_tests_cant": "Continuum of vectors.", "anchors": ["python/lsst/skymap/detail/utils.py:coordFromVec"]}
{"id": "C58", "title": "Backward compatible configuration properties", "statement": "Setting config.patchInnerDimensions or config.patchBorder changes exactly the corresponding legacy tract builder value, reading gives back what was last set, and the cells builder's configuration and geometry are unaffected.", "quantifier": "every sequence of sets and gets", "why_tests_cant": "All sequences.", "anchors": ["python/lsst/skymap/baseSkyMap.py:BaseSkyMapConfig.setPatchInnerDimensions", "python/lsst/skymap/baseSkyMap.py:BaseSkyMapConfig.setPatchBorder"]}
{"id": "C59", "title": "Explicit tracts contain the disc of radius plus overlap", "statement": "A tract made from a centre, a radius and an overlap (all tracts of Rings and Discrete sky maps) contains every coordinate at most radius+overlap away from its centre, for the TAN and STG projections, not rotated (rotated ones: C85), at any centre, pixel scale and patch size.", "quantifier": "all centres, radii and overlaps (sum below 90 degrees for TAN, 180 for STG), pixel scales, tract builder configurations and states, coordinates", "why_tests_cant": "only four points on the rim of the disc are used to size the tract; that they bound the whole disc is a statement about uncountably many coordinates and all centres", "anchors": ["python/lsst/skymap/tractInfo.py: ExplicitTractInfo._minimumBoundingBox", "python/lsst/skymap/tractInfo.py: TractInfo.contains"]}
{"id": "C60", "title": "Healpix: a tract lies at the mirror image of its HEALPixel", "statement": "For a HealpixSkyMap, tract i is centred at the mirror image in the equator of the sky position (colatitude theta, longitude phi) of HEALPixel i: theta is used as latitude + 90 degrees; hence it lies at the position of its HEALPixel exactly for pixels on the equator.", "quantifier": "every nside, ordering and pixel", "why_tests_cant": "All pixels of all resolutions; the existing round-trip tests cannot see it because both conversions are mirrored.", "anchors": ["python/lsst/skymap/healpixSkyMap.py:angToCoord", "python/lsst/skymap/healpixSkyMap.py:HealpixSkyMap.generateTract"], "claim_refuted_in_general": "For a HealpixSkyMap, tract i is centred at the sky position of HEALPixel i (colatitude theta, longitude phi). (Refuted: theta is used as latitude + 90 degrees, so the tract is the mirror image in the equator.)"}
{"id": "C61", "title": "When the hash of a sky map can be computed", "statement": "getSha1, hash() and == on a sky map succeed exactly if the projection is ASCII, every hashed integer of the configuration fits 32 bits and (DiscreteSkyMap) the three lists have equal lengths; otherwise each of them raises the same error, even comparing a map with itself.", "quantifier": "every configuration, class and history", "why_tests_cant": "All configurations, including out-of-range ones that construction accepts.", "anchors": ["python/lsst/skymap/baseSkyMap.py:BaseSkyMap.getSha1", "python/lsst/skymap/tractBuilder.py:LegacyTractBuilder.getPackedConfig", "python/lsst/skymap/tractBuilder.py:CellTractBuilder.getPackedConfig", "python/lsst/skymap/discreteSkyMap.py:DiscreteSkyMap.updateSha1"]}
{"id": "C62", "title": "When numerically equal configurations give equal sky maps", "statement": "Two sky maps of one class whose configuration values are numerically equal compare equal exactly if their zeros have the same signs (0.0 and -0.0 are hashed differently) (assuming SHA-1 does not collide).", "quantifier": "every pair of configurations", "why_tests_cant": "All pairs of configurations.", "anchors": ["python/lsst/skymap/baseSkyMap.py:BaseSkyMap.__eq__", "python/lsst/skymap/ringsSkyMap.py:RingsSkyMap.updateSha1"], "claim_refuted_in_general": "Two sky maps of one class whose configuration values are numerically equal compare equal. (Expected to be refuted: 0.0 and -0.0 hash differently.)"}
{"id": "C63", "title": "Rings: inner sky region agrees with findTract", "statement": "For a RingsSkyMap of version 1, a coordinate lies in the inner_sky_region of the tract that findTract returns for it, and a coordinate inside the inner_sky_region of a tract and not on its border is assigned that tract by findTract. With version 0 the first half holds for tracts other than the polar caps, and coordinates of the first tract of the last ring are assigned the north cap although they are outside its inner region.", "quantifier": "every rings layout (numRings, raStart, tract counts), every coordinate, every access history", "why_tests_cant": "The unit test samples a grid of points for one or two configurations; the claim is about every coordinate, RA wrap-around, and every numRings and raStart.", "anchors": ["python/lsst/skymap/tractInfo.py: TractInfo.getInnerSkyRegion", "python/lsst/skymap/ringsSkyMap.py: RingsSkyMap.generateTract, getRaDecRange, findTract"]}
{"id": "C64", "title": "Rings: which tracts findAllTracts considers", "statement": "findAllTracts(coord) returns every tract of a ring that contains coord and whose centre is less than 1.5 ring heights away in declination and less than 1.5 tract widths away in RA (with version 0 except the duplicate tract), and both caps if they contain it; it returns no tract of a ring further away than that, whether or not it contains coord. So it does not return every tract that contains coord, as documented: with the default overlap the claim fails for 269 rings or more.", "quantifier": "every rings layout, overlap, coordinate and access history", "why_tests_cant": "Depends on the relation of ring height and overlap, for all numRings and overlaps.", "anchors": ["python/lsst/skymap/ringsSkyMap.py: RingsSkyMap.findAllTracts"], "claim_refuted_in_general": "findAllTracts(coord) returns every tract of the sky map that contains coord, as its documentation says. (Refuted in general: only tracts whose centres are within 1.5 ring heights in declination and 1.5 tract widths in RA are considered; exact characterisation proved.)"}
{"id": "C65", "title": "Attributes and naming of patches and cells", "statement": "tract[i] for an Index2D, a pair of integers or a sequential number gives the patch at the position the index denotes: its index is (x, y), its sequential index y*nx + x, its WCS that of the tract, its cell counts, cell inner dimensions and cell border those of the configuration (none for the legacy builder). The same holds for patch[i] and cells. Different names of one position give identical objects.", "quantifier": "every builder configuration, tract, patch, cell and index form", "why_tests_cant": "All shapes and all index forms.", "anchors": ["python/lsst/skymap/tractBuilder.py:BaseTractBuilder.getPatchInfo", "python/lsst/skymap/patchInfo.py:PatchInfo", "python/lsst/skymap/patchInfo.py:PatchInfo.getCellInfo", "python/lsst/skymap/cellInfo.py:CellInfo"]}
{"id": "C66", "title": "Equality of patches and cells", "statement": "== on cells holds exactly if index, inner and outer boxes agree; on patches exactly if index, boxes, number of cells and cell border agree (the sequential index, the cell inner dimensions and the WCS are not compared). Both are equivalence relations; within a tract two patches are equal exactly if they are at the same position.", "quantifier": "every pair of patches or cells", "why_tests_cant": "All pairs of patches of all tracts.", "anchors": ["python/lsst/skymap/cellInfo.py:CellInfo.__eq__", "python/lsst/skymap/patchInfo.py:PatchInfo.__eq__"]}
{"id": "C67", "title": "Contents of the tracts of each sky map class", "statement": "For every class (Equat, Discrete, Healpix, Rings, Dodeca) every tract i obtained from the map has id i, the centre, vertices, overlap and projection that the configuration implies for tract i, and its box covers the vertices and the points half the overlap away from them (Discrete: the points at radius plus overlap).", "quantifier": "every configuration, tract and access history", "why_tests_cant": "All configurations and tracts.", "anchors": ["python/lsst/skymap/equatSkyMap.py:EquatSkyMap.__init__", "python/lsst/skymap/discreteSkyMap.py:DiscreteSkyMap.generateTract", "python/lsst/skymap/healpixSkyMap.py:HealpixSkyMap.generateTract", "python/lsst/skymap/ringsSkyMap.py:RingsSkyMap.generateTract", "python/lsst/skymap/dodecaSkyMap.py:DodecaSkyMap.__init__"]}
{"id": "C68", "title": "findTractIdArray agrees with findTract element by element", "statement": "For classes that inherit findTractIdArray, the result has for each (ra, dec) pair, in radians or degrees, the id of the tract that findTract returns for the coordinate; a declination outside [-90, 90] degrees raises and leaves the map unchanged; it fails otherwise only if findTract fails.", "quantifier": "every map, state, array and unit", "why_tests_cant": "All arrays and access histories.", "anchors": ["python/lsst/skymap/baseSkyMap.py:BaseSkyMap.findTractIdArray"]}
{"id": "C69", "title": "logSkyMapInfo reports every tract", "statement": "logSkyMapInfo logs the number of tracts and then, in id order, id, outer sky corners and patch counts of every tract; it affects the map only as tract accesses do and, if some tract cannot be generated, has logged all the earlier ones.", "quantifier": "every map, state and log", "why_tests_cant": "All maps and failure points.", "anchors": ["python/lsst/skymap/baseSkyMap.py:BaseSkyMap.logSkyMapInfo"]}
{"id": "C70", "title": "Dodeca: inner sky polygons tile the sky", "statement": "The inner sky polygon (and inner sky region) of a Dodeca tract, the convex hull of its vertices, consists exactly of the coordinates on the inner side of its five edges. The polygon of the tract that findTract returns contains the coordinate, and a coordinate strictly inside the polygon of one tract is in the polygon of no other.", "quantifier": "every coordinate, orientation, set iteration order, configuration and access history", "why_tests_cant": "All coordinates of the sphere, including those on edges and vertices.", "anchors": ["python/lsst/skymap/tractInfo.py:TractInfo.getInnerSkyPolygon", "python/lsst/skymap/tractInfo.py:TractInfo.inner_sky_region", "python/lsst/skymap/dodecaSkyMap.py:DodecaSkyMap.findTract"]}
{"id": "C71", "title": "Gnomonic tracts made from vertices cover their inner polygon plus a margin", "statement": "A tract made from vertices whose WCS is a gnomonic (TAN) projection about its centre, at any scale, rotation and handedness, contains every coordinate within atan(cos(7.5 deg) tan(overlap/2)) of its inner sky polygon, if the vertices are more than half the overlap away from the horizon. So with TAN and overlap up to 90 degrees the tract that Dodeca's findTract returns contains the coordinate and its neighbourhood.", "quantifier": "every tract, vertex list, overlap, projection scale/rotation/handedness and coordinate", "why_tests_cant": "All coordinates and overlaps; the margin comes from only 24 sample points per vertex.", "anchors": ["python/lsst/skymap/tractInfo.py:TractInfo._minimumBoundingBox", "python/lsst/skymap/tractInfo.py:TractInfo.contains", "python/lsst/skymap/dodecaSkyMap.py:DodecaSkyMap"]}
{"id": "C72", "title": "Dodeca with the default projection: findTract's tract contains the coordinate", "statement": "With the default stereographic projection, at any scale, rotation and handedness, and a tract overlap between 2.9 and 177 degrees (the default is 3.5), the tract that findTract of a Dodeca map returns contains the coordinate.", "quantifier": "every coordinate, overlap in the range, orientation, set order and access history", "why_tests_cant": "All coordinates; edges of the pentagon bulge out of the box of the vertices in this projection.", "anchors": ["python/lsst/skymap/dodecaSkyMap.py:DodecaSkyMap.findTract", "python/lsst/skymap/tractInfo.py:TractInfo._minimumBoundingBox", "python/lsst/skymap/detail/wcsFactory.py:WcsFactory.makeWcs"]}
{"id": "C73", "title": "Configuration values reach the tracts", "statement": "Every tract of a sky map of any class, at any point of the map's life, has the configured tract overlap and is projected with the configured projection, pixel scale and rotation; number and centres of the tracts are those the class-specific fields give (numTracts and decRange, raList/decList/radiusList entry by entry, withFacesOnPoles, log2NSide and nest, numRings and raStart); its patches have the inner dimensions, border and cells of the selected tract builder's configuration.", "quantifier": "every configuration of the five classes, every access history, every tract and patch", "why_tests_cant": "All configurations and histories; a swapped or ignored field shows only for particular values.", "anchors": ["python/lsst/skymap/baseSkyMap.py:BaseSkyMap.__init__", "python/lsst/skymap/discreteSkyMap.py:DiscreteSkyMap.generateTract", "python/lsst/skymap/equatSkyMap.py:EquatSkyMap.__init__", "python/lsst/skymap/ringsSkyMap.py:RingsSkyMap.generateTract", "python/lsst/skymap/healpixSkyMap.py:HealpixSkyMap.generateTract", "python/lsst/skymap/dodecaSkyMap.py:DodecaSkyMap.__init__", "python/lsst/skymap/tractBuilder.py:BaseTractBuilder"]}
{"id": "C74", "title": "Packed ids have a fixed layout", "statement": "The integer that a skymap dimension packer gives a data id, with the default bands, is exactly ((band number) * number of tracts + tract) * number of patches + patch, with the band numbers of the released list (u=1, g=2, ... N964=27; 0 without a band): ids written to disk by one version can be read by another.", "quantifier": "every packer, data id, tract and patch count", "why_tests_cant": "All bands, tracts and patches; a reordering of the band list changes only some ids.", "anchors": ["python/lsst/skymap/packers.py:SkyMapDimensionPacker.SUPPORTED_FILTERS", "python/lsst/skymap/packers.py:SkyMapDimensionPacker._pack"]}
{"id": "C75", "title": "Threads sharing a sky map", "statement": "When several threads use one sky map object at the same time, under every interleaving of their accesses to shared state: skymap[i] returns a tract with the same contents as without other threads (or raises the same exception); if all tracts already exist nothing shared is written and every call returns what it would alone; if all tracts have equal patch counts every question to a tract is answered as alone; no call waits for another thread. Not guaranteed: two threads asking for the same new tract may get different objects, and on maps with unequal patch counts a valid patch lookup may raise RuntimeError, which never happens with one thread.", "quantifier": "every schedule of every number of threads, every map, every history", "why_tests_cant": "Races show only under particular interleavings.", "anchors": ["python/lsst/skymap/cachingSkyMap.py:CachingSkyMap.__getitem__", "python/lsst/skymap/tractBuilder.py:BaseTractBuilder.setupPatches", "python/lsst/skymap/tractBuilder.py:LegacyTractBuilder.getPatchInfo"]}
{"id": "C76", "title": "Rings look-up survives rounding", "statement": "RingsSkyMap.findTract, computed in IEEE double arithmetic exactly as written, gives for every coordinate the tract that exact arithmetic gives for some position at most 2^-48 rad away in declination and 2^-46 rad in right ascension; so it never raises, never leaves [0, len(skymap)), agrees with exact arithmetic for every coordinate farther than that from a tract boundary, and (version 1) always returns a tract whose RA/Dec range contains such a position.", "quantifier": "every double coordinate a SpherePoint can hold, every number of rings below 2^31-1, every tract count up to 2^31, every raStart within 8 rad, both versions", "why_tests_cant": "2^128 coordinates; rounding errors show only at particular last bits near boundaries.", "anchors": ["python/lsst/skymap/ringsSkyMap.py:RingsSkyMap.findTract", "python/lsst/skymap/ringsSkyMap.py:RingsSkyMap._decToRingNum", "python/lsst/skymap/ringsSkyMap.py:RingsSkyMap._raToTractNum"]}
{"id": "C77", "title": "findTractIdArray and findTract agree bit for bit", "statement": "In IEEE double arithmetic RingsSkyMap.findTractIdArray gives for every element exactly the id of findTract(SpherePoint(ra, dec)), in degrees or radians, for right ascensions in [0, 360) degrees; for any right ascension within 10 rad it gives what exact arithmetic gives within 2^-48 rad in declination and 2^-46 rad in right ascension. (For negative right ascensions the two methods need not agree in the last bit: a counterexample is proved.) For a NaN declination they differ: findTract raises ValueError, findTractIdArray returns a tract of the first ring.", "quantifier": "every array of doubles, every layout, both units and versions", "why_tests_cant": "All bit patterns; the two methods wrap angles with different formulas that differ only in rare roundings.", "anchors": ["python/lsst/skymap/ringsSkyMap.py:RingsSkyMap.findTractIdArray", "python/lsst/skymap/ringsSkyMap.py:RingsSkyMap.findTract"]}
{"id": "C78", "title": "The computed centre of a tract is found in the tract", "statement": "In IEEE double arithmetic the centre that RingsSkyMap computes for tract i is within 2^-48 rad in declination and 2^-46 rad in right ascension of the exact centre, and findTract of it returns tract i (version 0: except the duplicate tract ringNums[0]+1, which gives tract 1).", "quantifier": "every layout, every index, both versions", "why_tests_cant": "All layouts and raStart values; rounding.", "anchors": ["python/lsst/skymap/ringsSkyMap.py:RingsSkyMap.generateTract", "python/lsst/skymap/ringsSkyMap.py:RingsSkyMap.findTract"]}
{"id": "C79", "title": "Equat: findTract's tract contains the coordinate", "statement": "With the default CEA projection (any pixel scale, rotation and handedness), at least two tracts, overlap >= 0 and a declination range at least half the overlap away from the poles, tract i of an EquatSkyMap contains every coordinate with RA in [360 i/n, 360 (i+1)/n] degrees and declination in the configured range; hence findTract of any coordinate in the range returns a tract that contains it. With the default orientation tract i also contains everything up to half the overlap (in degrees of RA and Dec) outside its slice. For a single tract without overlap this is false: the tract is one column of patches at RA 0.", "quantifier": "every tract builder configuration, number of tracts, declination range, overlap, pixel scale, access history and coordinate in range", "why_tests_cant": "Continuum of coordinates and ranges; real trigonometry.", "anchors": ["python/lsst/skymap/equatSkyMap.py:EquatSkyMap.__init__", "python/lsst/skymap/tractInfo.py:TractInfo._minimumBoundingBox", "python/lsst/skymap/tractInfo.py:TractInfo.contains", "python/lsst/skymap/baseSkyMap.py:BaseSkyMap.findTract"]}
{"id": "C80", "title": "Sky polygons match the pixel boxes (gnomonic projection)", "statement": "With a gnomonic (TAN) WCS the sky polygon of any pixel box contains exactly the coordinates whose pixel position lies in the closed area of the box. Hence the outer sky polygon of a tract contains every coordinate that contains() accepts and is the union of the patches' inner sky polygons, which share only edges; findPatch's patch has the coordinate in its inner sky polygon; a patch's outer polygon contains its inner one; cell polygons make up the patch polygons in the same way; and a tract's outer polygon contains its inner polygon plus a margin. With the stereographic projection this is false: the middle of the lower edge of a patch above the projection centre is found in the patch but not in its inner sky polygon. A WCS passed as argument to the polygon methods of patches and cells is the one used.", "quantifier": "every gnomonic WCS (centre, reference pixel, scale, rotation, handedness), builder configuration, tract, patch, cell and coordinate", "why_tests_cant": "Continuum of coordinates and projections; boundary cases.", "anchors": ["python/lsst/skymap/detail/utils.py:makeSkyPolygonFromBBox", "python/lsst/skymap/patchInfo.py:PatchInfo.getInnerSkyPolygon", "python/lsst/skymap/patchInfo.py:PatchInfo.getOuterSkyPolygon", "python/lsst/skymap/cellInfo.py:CellInfo.getInnerSkyPolygon", "python/lsst/skymap/cellInfo.py:CellInfo.getOuterSkyPolygon", "python/lsst/skymap/tractInfo.py:TractInfo.getOuterSkyPolygon", "python/lsst/skymap/tractInfo.py:TractInfo.findPatch"], "claim_refuted_in_general": "for the default stereographic projection a patch's inner sky polygon does not contain all coordinates that findPatch assigns to the patch"}
{"id": "C81", "title": "The WCS of every tract has the configured projection, pixel scale and rotation", "statement": "A WcsFactory is refused (RuntimeError) exactly if the projection code does not have three characters. With TAN or STG the pixel at distance r from the reference pixel in direction phi is at angular distance atan(r*scale) (STG: 2 atan(r*scale/2)) from the reference coordinate, in the direction given by the rotation (the +y axis points to position angle 'rotation', +x is a quarter turn to its west, or to its east if flipX); pixelToSky and skyToPixel are inverse to each other, and exactly the coordinates at least 90 degrees (STG: 180) away have no pixel. With CEA about an equatorial point longitude and sine of latitude are the rotated and scaled pixel offsets. In a sky map of any class, at any time, every tract's WCS is this one for the configured projection, pixelScale (arcsec) and rotation (degrees), unflipped, with a whole reference pixel at the tract centre (Equat: the point of the equator at the tract's middle).", "quantifier": "every pixel scale > 0, rotation, flip, reference pixel and coordinate, pixel and sky coordinate; every configuration, class, tract and history of the map", "why_tests_cant": "Continuum of parameters and coordinates; tests look at a few tracts.", "anchors": ["python/lsst/skymap/detail/wcsFactory.py:WcsFactory.__init__", "python/lsst/skymap/detail/wcsFactory.py:WcsFactory.makeWcs", "python/lsst/skymap/baseSkyMap.py:BaseSkyMap.__init__", "python/lsst/skymap/tractInfo.py:TractInfo.getWcs"]}
{"id": "C82", "title": "findPatchList covers the region its coordinates span (gnomonic projection)", "statement": "With a gnomonic (TAN) WCS, if all coordinates given to findPatchList have a pixel position, then for every coordinate of the spherical convex polygon they span the list contains the patch that findPatch gives, and every patch whose outer box contains its pixel; and findTractPatchList (of a map with equal patch counts) lists such a tract with such a patch. With the stereographic projection, the default, this is false even for three coordinates within one tract and the default patch border.", "quantifier": "every gnomonic WCS, builder configuration, tract, coordinate list and coordinate of the region", "why_tests_cant": "Continuum of coordinates; tests only try the given vertices.", "anchors": ["python/lsst/skymap/tractInfo.py:TractInfo.findPatchList", "python/lsst/skymap/tractInfo.py:TractInfo.findPatch", "python/lsst/skymap/baseSkyMap.py:BaseSkyMap.findTractPatchList"], "claim_refuted_in_general": "for the default stereographic projection findPatchList misses patches that the region overlaps"}
{"id": "C83", "title": "Boxes and extents handed out may be changed without harm, except the patch dimensions", "statement": "Whatever a user does in place to the boxes and extents obtained from tract.bbox, and from inner_bbox, outer_bbox and cell_inner_dimensions of patches and cells, the sky map keeps answering every question exactly as if nothing had been changed; a patch (or cell, or box from tract.bbox) changes only if an object obtained from that very patch (cell, call) is changed. The result of tract.patch_inner_dimensions is different: it is the one object that all tracts of the map use, and changing it changes the patches of all of them.", "quantifier": "every sky map, every sequence of accesses, searches, attribute reads and in-place changes of objects obtained", "why_tests_cant": "Quantifies over all histories of calls and mutations; aliasing is invisible to tests that do not mutate.", "anchors": ["python/lsst/skymap/tractInfo.py:TractInfo.getBBox", "python/lsst/skymap/tractInfo.py:TractInfo.getPatchInnerDimensions", "python/lsst/skymap/tractBuilder.py:BaseTractBuilder.getPatchInnerDimensions", "python/lsst/skymap/tractBuilder.py:BaseTractBuilder.setupPatches", "python/lsst/skymap/tractBuilder.py:LegacyTractBuilder.getPatchInfo", "python/lsst/skymap/patchInfo.py:PatchInfo.getInnerBBox", "python/lsst/skymap/patchInfo.py:PatchInfo.getCellInfo", "python/lsst/skymap/cellInfo.py:CellInfo.getInnerBBox"], "claim_refuted_in_general": "a change of the object that patch_inner_dimensions returned changes the whole map"}
{"id": "C84", "title": "Regions of registered tracts and patches cover the coordinates they answer for", "statement": "After a sky map whose tracts have gnomonic (TAN) WCSs is registered: the region in the tract record of every tract contains every coordinate that tract.contains accepts, and beyond that only its upper and right pixel edges; every coordinate in the region of a tract record is in the region of a patch record of the same tract. If all tracts have the same patch counts, the patch that findPatch returns has a record (same indices and number) whose region contains the coordinate, and with the legacy builder the region of each patch record is inside that of its tract record.", "quantifier": "every sky map (class, configuration, history), every repository it is registered in, every coordinate", "why_tests_cant": "Region containment must hold for all points of the sky, all tracts and patches and all configurations; tests probe single points of sample maps.", "anchors": ["python/lsst/skymap/baseSkyMap.py:BaseSkyMap.register", "python/lsst/skymap/tractInfo.py:TractInfo.getOuterSkyPolygon", "python/lsst/skymap/patchInfo.py:PatchInfo.getOuterSkyPolygon", "python/lsst/skymap/detail/utils.py:makeSkyPolygonFromBBox", "python/lsst/skymap/tractInfo.py:TractInfo.contains", "python/lsst/skymap/tractInfo.py:TractInfo.findPatch"], "claim_refuted_in_general": "that patch regions are inside the region of their tract: false with the cells builder and a positive border, and with the legacy builder if another tract, generated later, has more columns (registered_patch_region_refuted)"}
{"id": "C85", "title": "Explicit tracts with a rotated WCS", "statement": "A tract made from a centre, a radius and an overlap (all tracts of Rings and Discrete sky maps), with the TAN or STG projection and a WCS rotated by any angle, contains every coordinate whose distance from its centre is at most radius+overlap times h, the larger of |cos| and |sin| of the rotation; h is 1 for multiples of 90 degrees and at least the square root of a half. On the axes the tract ends at most half a patch and two pixels beyond h times the projected radius+overlap. With three or more rings and an overlap of at least 0.57 ring heights (the default of 1 degree with 120 rings is enough) findTract's tract contains the coordinate whatever the rotation.", "quantifier": "every rotation, pixel scale, handedness, centre, radius and overlap (sum below 90 degrees for TAN, 180 for STG), tract builder configuration and state, Rings or Discrete configuration, access history and coordinate", "why_tests_cant": "A statement about uncountably many coordinates, centres and rotations; tests use rotation 0 or single points.", "anchors": ["python/lsst/skymap/tractInfo.py: ExplicitTractInfo._minimumBoundingBox", "python/lsst/skymap/tractInfo.py: TractInfo.contains", "python/lsst/skymap/baseSkyMap.py: BaseSkyMapConfig.rotation", "python/lsst/skymap/ringsSkyMap.py: RingsSkyMap.findTract"], "claim_refuted_in_general": "that the tract contains everything within radius+overlap of its centre whatever the rotation (the overlap is documented as a minimum in all directions): at 45 degrees it does not even contain the disc of its radius (rotated_tract_refuted)"}
{"id": "C86", "title": "From a coordinate to its tract and patch, for constructed sky maps of every class", "statement": "For a sky map constructed from a configuration and used in any way since, findTract of every coordinate the configuration covers succeeds and the returned tract contains the coordinate; if the tracts of the map have the same patch counts, findPatch of that tract then succeeds too, and the coordinate's pixel lies in the inner box of the patch, which is the one getPatchInfo gives for its index. Covered: Rings (three or more rings, TAN or STG, any rotation) every coordinate if the overlap is large enough (3/4 ring height within h*(half a ring + overlap)); Discrete every coordinate within h*(radius+overlap) of a listed centre; Equat with CEA, two or more tracts and any rotation, every coordinate in the declination range; Dodeca every coordinate, for STG with overlap 2.9 to 177 degrees or TAN with 0 to 90. Rings, Equat and Discrete maps of one radius always have equal patch counts. A HEALPix map's findTract succeeds for every coordinate with the tract of the pixel hpgeom gives for (declination + 90 degrees, RA), and with the TAN projection that tract contains the coordinate whenever the coordinate lies within the overlap's margin of the polygon of the tract's vertices.", "quantifier": "every configuration of the five classes (tract builder, scale, rotation, layout), every history of uses of the map, every coordinate covered, every set iteration order, every hpgeom that numbers its pixels from 0 to 12*4^k - 1 and gives colatitudes", "why_tests_cant": "The combination of the projection, the layout, the tract builder state and the look-ups must hold for uncountably many coordinates and all configurations and histories.", "anchors": ["python/lsst/skymap/ringsSkyMap.py: RingsSkyMap.findTract", "python/lsst/skymap/baseSkyMap.py: BaseSkyMap.findTract", "python/lsst/skymap/dodecaSkyMap.py: DodecaSkyMap.findTract", "python/lsst/skymap/tractInfo.py: TractInfo.findPatch", "python/lsst/skymap/detail/wcsFactory.py: WcsFactory.makeWcs", "python/lsst/skymap/healpixSkyMap.py: HealpixSkyMap.findTract"]}
{"id": "C87", "title": "Inner sky regions of explicit tracts", "statement": "For a tract made from a centre, a radius and an overlap (all tracts of Rings and Discrete sky maps; for Discrete maps getInnerSkyRegion is the polygon meant, for Rings maps the deprecated getInnerSkyPolygon): with the TAN projection the inner sky polygon (the convex hull of getVertexList) consists exactly of the coordinates whose position is in the tract's box, at least a thousandth of a pixel from its edges, and the tract contains them. With TAN, and with STG if the vertices are less than 90 degrees from the centre, it contains every coordinate within h*(radius+overlap) of the centre less a thousandth of a pixel (h the larger of |cos| and |sin| of the rotation). Every coordinate the tract contains, and every vertex, is closer to the centre than what corresponds in the plane to 2*h*r + half a patch in each direction + 4 pixels, where r corresponds to radius+overlap.", "quantifier": "every centre, radius, overlap (sum below 90 degrees for TAN, 180 for STG), rotation, pixel scale, handedness, tract builder configuration and state, Rings or Discrete configuration and history of use, every coordinate", "why_tests_cant": "Containment in a spherical polygon must hold for uncountably many coordinates and all configurations; tests probe the vertices only.", "anchors": ["python/lsst/skymap/tractInfo.py: ExplicitTractInfo.__init__", "python/lsst/skymap/tractInfo.py: TractInfo.getInnerSkyPolygon", "python/lsst/skymap/tractInfo.py: TractInfo.getInnerSkyRegion", "python/lsst/skymap/tractInfo.py: TractInfo.contains", "python/lsst/skymap/discreteSkyMap.py: DiscreteSkyMap.generateTract"], "claim_refuted_in_general": "that the tract contains its inner region (false with STG, the default projection, already for one Discrete tract of 4 degrees), and that the tract extends beyond its inner region by the overlap in all directions, as documented (false with either projection: a hundredth of a pixel is enough to leave the tract)"}
{"id": "C88", "title": "Concurrent registrations are serialisable", "statement": "Any number of processes call register for any sky maps on the same repository at the same time; any butler operation may fail and any process may crash at any point. At every moment the skymap, tract and patch records and the skyMap datasets are those of some sequence of registrations made one after the other: every registered map is complete, no map is there in part or twice, names and hashes are distinct. A step of a process leaves the records as they are or adds the complete records of its map, after which the process can only return normally or crash; a process that raised has added nothing. A process that returned normally has its map in the repository from then on; of processes that register different maps under one name, or one map under different names, at most one returns normally. Of two processes that register the same map concurrently one writes it and the other returns normally or raises without effect.", "quantifier": "every number of processes, every sky map, name and state of the map object of each, every interleaving of their butler operations, every failure and crash point, every view of the repository that the database allows inside a transaction (snapshot or read committed)", "why_tests_cant": "The interleavings of the operations of several processes, with failures and crashes, cannot be enumerated by tests; the tests register one map in one process.", "anchors": ["python/lsst/skymap/baseSkyMap.py: BaseSkyMap.register"]}
{"id": "C89", "title": "Data ids found in one process are those registered by another", "statement": "Take a configuration of a RingsSkyMap (version 1), DiscreteSkyMap, EquatSkyMap or DodecaSkyMap whose tracts cover a coordinate (C86) and have equal patch counts. After one object of the map was registered under a new name, and whatever registrations, failures and crashes of other processes followed, another object of the map in any state finds a tract for the coordinate by findTract, and the repository holds the skymap record and the tract record with that tract's id and outer sky polygon; findPatch of that tract succeeds and exactly one patch record has the number the tract gives to this patch, with its index and outer sky polygon; with the TAN projection the regions of both records contain the coordinate. Every packer made from the skymap record packs the data id into its range and unpacks it to the same data id.", "quantifier": "every configuration of the four classes with the TAN, STG or CEA projection whose tracts cover the coordinate, every coordinate, every state of both objects, every earlier history of the repository, every later interleaving of registrations with any failures, every packer", "why_tests_cant": "The guarantee is about every coordinate, every pair of access histories in two processes and every later history of the repository; tests look up a few coordinates in the object that was registered.", "anchors": ["python/lsst/skymap/baseSkyMap.py: BaseSkyMap.findTract, BaseSkyMap.register", "python/lsst/skymap/tractInfo.py: TractInfo.findPatch", "python/lsst/skymap/packers.py: SkyMapDimensionPacker"]}
{"id": "C90", "title": "What a registered name says about the sky map", "statement": "Two registrations in one repository that both returned normally, one after the other or concurrently with any others, used the same name if and only if the two sky maps agree in every hashed configuration value, that is, compare equal (SHA-1 not colliding on them). Then their tracts are the same, except for RingsSkyMaps of versions 0 and 1: after version 0 was registered, register of version 1 under that name returns normally and adds nothing, although the records are those of the tracts of version 0, which for two rings or more have other centres than the tracts of version 1 with the same ids.", "claim_refuted_in_general": "If register returns normally, the records under the name describe the tracts of the sky map that was registered. (Refuted for RingsSkyMaps of versions 0 and 1 of one configuration.)", "quantifier": "every pair of configurations of the five classes, every state of both objects, every repository history and interleaving; the refutation: every Rings configuration of two rings or more with the TAN, STG or CEA projection", "why_tests_cant": "It relates every pair of configurations over every repository history; tests register one or two literal maps.", "anchors": ["python/lsst/skymap/baseSkyMap.py: BaseSkyMap.register, getSha1, __eq__", "python/lsst/skymap/ringsSkyMap.py: RingsSkyMap.updateSha1, getRingIndices"]}
{"id": "C91", "title": "Patch sizes and borders that the configuration accepts but that cannot work", "statement": "The configuration accepts zero and negative patch sizes and borders. What happens then: with a patch inner size of zero along an axis every attempt to make a tract raises ZeroDivisionError, so no tract of the map can be obtained and registering it fails without adding records; with a negative border tracts can be made, but getPatchInfo raises for every index (RuntimeError in range) and registration under a new name fails without adding records; with a negative size tracts wider than it have no patches at all, and registering them writes no patch records. Patches can be obtained from a tract exactly if both patch inner sizes (for cells: cell size times number) are positive and the border (for cells: border cells times cell size plus cell border) is not negative, up to size -1 in a tract one pixel wide. For cells that is not enough: with a negative cell border every cell raises RuntimeError, and with a negative number of border cells the corner of a patch lies in no cell.", "quantifier": "every configuration (integers of any sign), minimum box, builder history, index, sky map, registry and fault", "why_tests_cant": "All integers of any sign and all tract boxes.", "anchors": ["python/lsst/skymap/tractBuilder.py: LegacyTractBuilderConfig", "python/lsst/skymap/tractBuilder.py: CellTractBuilderConfig", "python/lsst/skymap/tractBuilder.py: BaseTractBuilder.setupPatches", "python/lsst/skymap/tractBuilder.py: LegacyTractBuilder.getPatchInfo", "python/lsst/skymap/tractBuilder.py: CellTractBuilder.getPatchInfo", "python/lsst/skymap/patchInfo.py: PatchInfo.__init__", "python/lsst/skymap/patchInfo.py: PatchInfo.getCellInfo"]}
{"id": "C92", "title": "findAllTracts survives rounding", "statement": "In IEEE binary64 arithmetic RingsSkyMap.findAllTracts(coord) never fails in its number arithmetic (and never at all for TAN and STG maps); it returns only tracts that contain the coordinate, returns the tract that findTract selects and each polar cap whenever these contain the coordinate, and returns no tract twice with version 1 (with version 0 none but the north cap). It finds every tract of a ring that contains the coordinate and whose centre is less than 1.5 ring heights minus 2^-48 radians away in declination and 1.5 tract widths minus 2^-46 radians in right ascension (with version 0 except the duplicate tract), and none beyond 1.5 heights or widths plus these tolerances.", "quantifier": "every number of rings, tract counts of at least 3, raStart, version, pair of doubles as coordinate, configuration, overlap and access history", "why_tests_cant": "All pairs of doubles, in particular next to the rounded boundaries, where findTract and findAllTracts must agree.", "anchors": ["python/lsst/skymap/ringsSkyMap.py: RingsSkyMap.findAllTracts", "python/lsst/skymap/ringsSkyMap.py: RingsSkyMap._decToRingNum", "python/lsst/skymap/ringsSkyMap.py: RingsSkyMap._raToTractNum", "python/lsst/skymap/tractInfo.py: TractInfo.contains"]}
{"id": "C93", "title": "Registering a map while other threads use it", "statement": "register can run while other threads use the same map object (iterating over it, getting tracts and patches). For every schedule of the threads' atomic actions and every failure of the butler: registration never waits for another thread; and if all tracts of the map have the same patch counts, or all tracts already exist when the threads start (always so for Equat and Dodeca maps), then it returns, raises or stops exactly as it would without the other threads and leaves the same records in the repository, complete or none. In particular this holds for every RingsSkyMap with the TAN or STG projection. The other threads are not affected by the registration: each call gets the answer it gets when alone.", "quantifier": "every map, access history, schedule of threads, butler failure and repository", "why_tests_cant": "All interleavings of the threads with each step of the registration; a race shows only in some.", "anchors": ["python/lsst/skymap/baseSkyMap.py: BaseSkyMap.register", "python/lsst/skymap/cachingSkyMap.py: CachingSkyMap.__getitem__", "python/lsst/skymap/tractInfo.py: TractInfo.__iter__", "python/lsst/skymap/tractBuilder.py: LegacyTractBuilder.getPatchInfo"], "claim_refuted_in_general": "For maps whose tracts differ in patch counts the outcome depends on the other threads: a map that registers normally alone can raise IndexError if another thread is making a tract of it."}
{"id": "C94", "title": "Hash and equality of a map used by several threads", "statement": "getSha1, hash(), == and != may be called on the same sky map objects by several threads at once: for every interleaving each call returns or raises exactly what it does when no other thread is there (getSha1 never returns a half-computed digest or None); so all getSha1 results for one object agree, == stays an equivalence relation with != its negation, and equal objects have equal hash(). The digest kept by an object never changes once it is there, and no call waits for another.", "quantifier": "every family of sky maps in any state of use, every number of threads, every interleaving", "why_tests_cant": "All interleavings; the digest is filled in lazily by whichever thread comes first.", "anchors": ["python/lsst/skymap/baseSkyMap.py: BaseSkyMap.getSha1", "python/lsst/skymap/baseSkyMap.py: BaseSkyMap.__hash__", "python/lsst/skymap/baseSkyMap.py: BaseSkyMap.__eq__", "python/lsst/skymap/baseSkyMap.py: BaseSkyMap.__ne__"]}
{"id": "C95", "title": "A packer's answers do not depend on its past or on other threads", "statement": "A SkyMapDimensionPacker keeps the caller's band mapping and a list of bands that the first unpack makes. As long as nobody changes that mapping, every pack, unpack and maxBits, in any number of threads and any interleaving, answers as it would with a new packer, and no call waits for another. If the mapping is changed meanwhile, each call answers as a new packer would with some contents the mapping has had (except for a pack whose band's number is being changed); pack uses the present contents, but unpack for ever those at the time its list was made.", "quantifier": "every packer, every history of calls and of changes of the mapping, every interleaving of threads", "why_tests_cant": "All histories and interleavings.", "anchors": ["python/lsst/skymap/packers.py: SkyMapDimensionPacker._pack", "python/lsst/skymap/packers.py: SkyMapDimensionPacker.unpack", "python/lsst/skymap/packers.py: SkyMapDimensionPacker.maxBits"], "claim_refuted_in_general": "A packer whose band mapping is extended answers as a new packer with that mapping. (Refuted: after its first unpack it packs ids of the new band but raises IndexError when asked to unpack them.)"}
{"id": "C96", "title": "Unpacking any integer", "statement": "unpack accepts every integer. Without bands it gives tract n // P and patch n % P, whatever the number of tracts; with bands it gives the band at position n // (T*P) of the mapping, counting from the end for negative n, IndexError if there is none (ValueError if it is the None of the default mapping), and tract and patch of the remainder, which are then always in range. Packing the result gives back n exactly if the tract is less than T (without bands), or the number of the band is n // (T*P) and less than n_bands (with bands). KeyError and ZeroDivisionError are raised exactly as stated for packers whose dimensions include a band that is not packed and for zero counts.", "quantifier": "every packer and every integer", "why_tests_cant": "All integers, including negative ones and ones too large for the packer.", "anchors": ["python/lsst/skymap/packers.py: SkyMapDimensionPacker.unpack", "python/lsst/skymap/packers.py: SkyMapDimensionPacker._pack"]}
{"id": "C97", "title": "Threads that register one sky map object", "statement": "Let any number of threads of a process register one sky map object, each with a butler of its own on the same repository, under any names, while other threads use the map and other processes register sky maps in that repository. If all tracts of the map exist, or all have the same patch counts (Equat, Dodeca; Rings with TAN or STG), then whatever they do and when, the repository and the end of each registration (return, exception, killed) are what as many processes each with an object of its own could have produced, and conversely. So the records are always those of some history of registrations made one after the other, each registration adds the complete records of the map at one moment or nothing, one that raises adds nothing, and one that returns normally has the map in the repository under its name. No registering thread waits for another.", "quantifier": "every such map in every reachable state, every number of threads and processes, names, schedule, failure and kill", "why_tests_cant": "All interleavings of threads and processes and all points of failure.", "anchors": ["python/lsst/skymap/baseSkyMap.py: BaseSkyMap.register", "python/lsst/skymap/baseSkyMap.py: BaseSkyMap.__getitem__", "python/lsst/skymap/cachingSkyMap.py: CachingSkyMap.__getitem__", "python/lsst/skymap/tractBuilder.py: BaseTractBuilder"]}
{"id": "C98", "title": "Which tracts a look-up generates", "statement": "A new Rings, HEALPix or Discrete map has generated no tracts; an Equat or Dodeca map has generated all, and no operation on it makes another. map[i] generates at most tract i, and nothing if it raises. findTract on a Rings or HEALPix map generates at most the tract it returns, and nothing if it raises. However many tracts the map has, findAllTracts on a Rings map generates at most 11, its findTractPatchList for n coordinates at most 11 n and findClosestTractPatchList on a Rings or HEALPix map at most n, also when they raise. On a Discrete map the first findTract that succeeds has generated every tract, and on Discrete and HEALPix maps the first successful findTractPatchList.", "quantifier": "every configuration, every reachable state of the map, every coordinate and list of coordinates, every index", "why_tests_cant": "All states a map can be in and all coordinates; a test counts the tracts made by one call from one state.", "anchors": ["python/lsst/skymap/cachingSkyMap.py: CachingSkyMap.__getitem__", "python/lsst/skymap/ringsSkyMap.py: RingsSkyMap.findAllTracts", "python/lsst/skymap/ringsSkyMap.py: RingsSkyMap.findTractPatchList", "python/lsst/skymap/baseSkyMap.py: BaseSkyMap.findTract", "python/lsst/skymap/baseSkyMap.py: BaseSkyMap.findClosestTractPatchList", "python/lsst/skymap/healpixSkyMap.py: HealpixSkyMap.findTract"]}
{"id": "C99", "title": "Equat: the tract layout survives rounding", "statement": "In IEEE double arithmetic, computed as written, the centre, vertices and WCS reference coordinate of tract i of an EquatSkyMap are valid SpherePoints within 2^-48 rad in declination and 2^-46 rad in right ascension of the exact ones, for up to 2^31 tracts, and construction raises for exactly the declination ranges for which it does in exact arithmetic (a limit beyond 90 degrees). The tracts are in the order of their numbers: west edge < centre < east edge (except that the east edge of the last tract may be stored near 0), and every vertex of a later tract is east of an earlier tract's centre. The east edge of a tract and the west edge of the next, around the sky, differ by at most 2^-45 rad; but they need not be the same double (with 12 tracts there is a gap at 180 degrees, with 11 an overlap), although they are for the default of four. No double lies strictly between them, so no SpherePoint falls into a gap: every longitude is in the closed RA slice of some tract or not west of the last tract's west edge; with 1206 tracts a longitude just below 360 degrees is east of the last tract's east edge.", "quantifier": "every number of tracts up to 2^31, every tract, every pair of finite doubles as declination range", "why_tests_cant": "The rounding errors depend on every tract count and index; tests use a handful of counts.", "anchors": ["python/lsst/skymap/equatSkyMap.py: EquatSkyMap.__init__"]}
{"id": "C100", "title": "How large tracts are, and that pixel coordinates fit into 32 bits", "statement": "The inner boxes of patches are within the tract's box, outer boxes go beyond it by at most the patch border (legacy builder: not at all), boxes of cells by at most the border cells plus the cell border. So if the tract's width and height plus twice that are below 2^31, the corners and dimensions of the tract, of its patches and of their cells are values of the 32 bit integers of Point2I, Extent2I and Box2I; likewise the boxes made while a tract is sized from its vertices. A Rings or Discrete tract with the TAN or STG projection is from 2hr up to 2hr plus a patch and 3 pixels wide and high, where r is the distance in the plane, in pixels, of its radius plus the overlap, and h the larger of |cos| and |sin| of the configured rotation; an Equat tract with the CEA projection is below (2 pi + 2)/scale plus a patch and 3 pixels; a tract given by vertices is less than a patch and 3 pixels larger than the square that holds the pixel positions of its vertices moved by half the overlap. It is not true that every pixel scale the configuration accepts works: with 2^-20 arcseconds a tract of radius 4 degrees needs a box of more than 2^31 pixels.", "quantifier": "every configuration (pixel scale, rotation, projection TAN/STG/CEA, builder), every tract, patch and cell, every state of the map", "why_tests_cant": "Sizes depend on the whole configuration; the bounds hold for all of them, and overflow shows up only at extreme ones.", "anchors": ["python/lsst/skymap/tractInfo.py: TractInfo._minimumBoundingBox, ExplicitTractInfo._minimumBoundingBox, TractInfo._finalOrientation", "python/lsst/skymap/tractBuilder.py: setupPatches, getPatchInfo", "python/lsst/skymap/patchInfo.py: getCellInfo"]}
{"id": "C101", "title": "Finding the patch of a position survives the rounding of its pixel position", "statement": "Pixel positions are doubles, and TractInfo rounds them: Point2I adds 0.5 and takes the floor, findPatchList accumulates a Box2D whose upper edges are multiplied by 1 +- 2^-51 and whose corners are rounded. Adding 0.5 is itself rounded: for every finite double up to 2^49 the pixel obtained is the one the position is in, except for the double just before 0.5, which gets pixel 1 although it is in pixel 0. Nevertheless, with patches at least 2 pixels wide and high, contains is true exactly for the positions on the region of the tract's box, findPatch returns exactly the patch on whose inner region the position is and raises LookupError when there is none, as in exact arithmetic, and findPatchList returns, ordered and without repetition, the patches whose inner box comes within the patch border of a pixel bounding box of the positions that is exact on the left and below and exceeds the largest positions by at most half a pixel and a relative 2^-50, so that the patch found for each position is in the list (the list also with one pixel wide patches, if there is a patch border). With patches one pixel wide findPatch can return a neighbour.", "quantifier": "every tract in use (builder, configuration, sky map life), every finite double position up to 2^49, every list of such positions", "why_tests_cant": "there are about 2^63 doubles per axis and the one failing value is a single bit pattern; lists are unbounded", "anchors": ["python/lsst/skymap/tractInfo.py: TractInfo.findPatch, TractInfo.findPatchList, TractInfo.contains"]}
{"id": "C102", "title": "Coordinates of Discrete tracts in double precision", "statement": "For configured right ascensions up to 1000 degrees either way and any configured declinations, generating a tract of a DiscreteSkyMap in binary64 arithmetic raises exactly when exact arithmetic does (no such index, declination beyond 90 degrees), with the same exception. Otherwise the centre, which is also the reference coordinate of the WCS, is a valid SpherePoint (longitude in [0, 2*math.pi), latitude within math.pi/2) at most 2^-48 radians from the configured declination and 2^-46 from the configured right ascension modulo a turn, and radius and overlap are the configured angles up to a relative 2^-50. The limit is sharp: declinations of exactly +90 and -90 degrees are accepted and stored as exactly +-math.pi/2, those beyond, from the next double on, are rejected.", "quantifier": "every finite right ascension up to 1000 degrees, every finite declination, radius and overlap (up to 10^6 degrees), every list of tracts and every index", "why_tests_cant": "whether the conversion to radians rounds across the limit of SpherePoint, or the wrap of the longitude leaves its range, depends on the last bit of the configured doubles", "anchors": ["python/lsst/skymap/discreteSkyMap.py: DiscreteSkyMap.generateTract"]}
{"id": "C103", "title": "Healpix angles of coordinates in double precision", "statement": "In binary64 arithmetic angToCoord raises for no finite theta in [0, math.pi] and finite phi: it gives a valid SpherePoint (latitude within math.pi/2, longitude in [0, 2*math.pi)) at most 2^-51 radians from latitude theta - pi/2, with exactly phi as longitude if that is in range. It rejects every double theta above math.pi, from the next one on, and every theta at or below -2^-52. coordToAng maps every valid SpherePoint to angles in range (0 <= theta <= math.pi, 0 <= phi < 2*math.pi), which is what hpgeom insists on, with exactly the longitude as phi. Converting a SpherePoint to angles and back does not raise, and gives back exactly its longitude and its latitude up to 2^-50 radians.", "quantifier": "every finite double theta and phi, and every SpherePoint that can be stored", "why_tests_cant": "whether the rounded sum or difference with 0.5*numpy.pi leaves the accepted range depends on the last bit of the angle", "anchors": ["python/lsst/skymap/healpixSkyMap.py: angToCoord", "python/lsst/skymap/healpixSkyMap.py: coordToAng"]}
