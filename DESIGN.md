# Formal model of lsst/skymap in Rocq (Coq 8.16.1)

`properties.jsonl` lists the properties, `MANIFEST.json` the theorems for each, `ASSUMPTIONS.md` what
`Print Assumptions` says for each theorem. The statements are in `rocq/theories/Props*.v`, one section per
theorem with the English claim above it; they are generated (by `tools/mkprops.py`) from `Main*.v`, which
hold the same statements with their proofs.

## 1. Layout of `rocq/theories`

| file | contents |
|---|---|
| `Py.v` | exceptions as values, Python list indexing, ranges |
| `Float64.v` | Python `int/int` true division followed by `int()`, in IEEE binary64 (Flocq) |
| `Geom.v` | `lsst.geom` Box2I / Box2D / Point2I semantics (external, from its documentation) |
| `PatchInfo.v` | `cellInfo.py`, `patchInfo.py` |
| `TractBuilder.v` | `tractBuilder.py` |
| `TractInfo.v` | `tractInfo.py`, `detail/utils.py` (the WCS is an arbitrary function) |
| `SkyMap.v`, `SkyMapLog.v` | `baseSkyMap.py`, `cachingSkyMap.py`: heap of tracts, shared mutable tract builder; `logSkyMapInfo` |
| `Rings.v` | `ringsSkyMap.py` |
| `RingsFloat.v` | the look-up methods and tract centres of `ringsSkyMap.py` in IEEE binary64, operation by operation |
| `EquatFloat.v`, `DiscreteFloat.v` | the tract coordinates of `equatSkyMap.py` and `discreteSkyMap.py` in IEEE binary64 |
| `PixelFloat.v` | `TractInfo.contains`, `findPatch`, `findPatchList` from the pixel positions on, in IEEE binary64 |
| `Maps.v` | `equatSkyMap.py`, `discreteSkyMap.py`, `healpixSkyMap.py`, `coordFromVec` |
| `Dodeca.v` | `detail/dodecahedron.py`, `dodecaSkyMap.py` |
| `Region.v` | `getInnerSkyRegion`, `getInnerSkyPolygon`, sky polygons of cells |
| `Config.v` | the configuration classes, defaults, backward compatible properties, `struct.pack`, the byte string fed to SHA-1, constructors, `__eq__`, `__hash__`, pickling |
| `Packers.v` | `packers.py` |
| `PackerLife.v` | `packers.py` with the band mapping and the kept list of bands as shared objects, threads interleaved |
| `Threads.v` | `cachingSkyMap.py`, `setupPatches`, `getPatchInfo` and their callers as sequences of atomic accesses, interleaved |
| `Alias.v` | the same methods with a heap of Box2I and Extent2I objects: which calls hand out objects of their own |
| `Register.v` | `BaseSkyMap.register` on an abstract transactional registry |
| `Concurrent.v` | the same as a sequence of butler operations, interleaved with those of other processes |
| `RegThreads.v` | the same by one thread, its calls of the map interleaved with those of other threads |
| `ShaThreads.v` | `getSha1`, `__hash__`, `__eq__`, `__ne__` as sequences of atomic accesses to the kept digests, interleaved |
| `Wcs.v` | detail/wcsFactory.py: CD matrix, the WCS of a factory (external: afw's makeCdMatrix, makeSkyWcs) |
| `Sphere.v` | points of the sphere, offset, separation, the projections TAN, STG, CEA over exact reals (external code) |
| `Spec.v`, `SkySpec.v`, `RingsSpec.v`, `RegSpec.v`, `DodecaSpec.v`, `ConfigSpec.v`, `MiscSpec.v`, `ProjSpec.v`, `RingsFloatSpec.v`, `WcsSpec.v`, `AliasSpec.v` | the small vocabulary in which the properties are stated |
| `Main*.v` | the property lemmas with their proofs |
| `Props*.v` | only the property theorems (`exact lemma`), satisfiability examples, `Print Assumptions` |
| the others (`*Proofs*.v`, `Uniform.v`, `TractBox.v`, `TractHull.v`, `RingsNum.v`, `FloatOps.v`, ...) | lemmas |

Every definition of the model cites the file and lines it models and says where it simplifies.

## 2. Modelling principles

* Python ints are `Z`; `//` and `%` are `Z.div`/`Z.modulo` (same sign convention as Python). The 32-bit
  range of `Box2I` appears only as a hypothesis where it matters (C15); when values are in that range is C100.
* Exceptions are values (`res A := Ok a | Raise e`); state is threaded explicitly, and what was written before
  an exception stays written.
* Objects mutated in place (the tract builder shared by all tracts of a sky map, the tract cache, the kept
  SHA-1, the registry) are explicit state. "At any point of the map's life" = after any finite sequence of
  accesses (`accesses`, `sm_reachable`, `used`), proved by induction on the sequence.
* Pixel positions and angles are exact reals (`R`), as is the geometry computed from configured numbers. The
  place where binary64 rounding decides an integer from integers (`int(pixelInd[i]/patch_inner_dimensions[i])`)
  is modelled in binary64. Configured floats are binary64 values (the hashed bytes depend on their bits, `-0.0`
  included). `RingsFloat.v` repeats `findTract`, `findTractIdArray` and the centre computation of `RingsSkyMap` in binary64
  (C76-C78), `EquatFloat.v` and `DiscreteFloat.v` the tract coordinates of `EquatSkyMap` and `DiscreteSkyMap` (C99, C102), `HealpixFloat.v` the Healpix angles of coordinates (C103), `PixelFloat.v` what `TractInfo` does with pixel positions
  (C101), and the theorems relate them to the exact ones. Rounding of other angle arithmetic is **not** modelled.
* The WCS is a universally quantified pair of functions (`skyToPixel` may raise or give NaN); so are
  `SpherePoint.offset`, `hpgeom`'s functions, SHA-1, `hash()` and the iteration order of Python sets. Where a
  property needs more, the theorem states it as a hypothesis or uses the concrete functions of `Sphere.v`.

## 3. Plan and method per property

Patches and cells (PropsPatch, PropsCells)

* C01, C02: `setupPatches` and `_minimumBoundingBox` on `Z`; per-axis arithmetic (`lia`/`nia`).
* C03, C04, C05, C06, C07, C08: `getPatchInfo`, index conversions; C08 states that unchecked pairs alias.
* C09, C10, C11, C12, C13, C14: cells likewise; C14 refutes the docstring and gives the exact behaviour.
* C56, C65, C66: equality, attributes and names of patches and cells.

Tracts (PropsTract, PropsHull)

* C15: binary64 division lemma (Flocq error bound) + tiling. C16: loops over the patch range, WCS errors included.
* C17, C18, C19: arbitrary WCS; the box contains every sample used to build it; shared polygon vertices.
* C80 (PropsPolygons): three orthogonal functionals identify a direction; bilinear weights of the four corners; areas as
  unions of pixel areas carry C02, C03, C10, C11 over to the sky. STG: a separating plane.
* C82 (PropsPatchRegion): linear functionals show that a position in the hull is between the positions of the vertices; with C16.
  STG: three coordinates and a point of their triangle, in rational coordinates.
* C81 (PropsWcs): polar form of TAN and STG through the orthonormal frame, 2x2 matrix algebra, then `config_reaches_tracts` (C73).
* C85: rotated explicit tracts: the four sample points lie on a circle at the rotated axes, so each axis of the box extends to h times the
  projected radius; concavity of the radial law turns this into angles; upper bound by the enlargement to whole patches; numeric counterexample at 45 degrees.
* C86 (PropsLookup): puts C85, C27, C37, C55, C60, C71, C79 and C15 together for constructed maps; equal counts because the factory's pixel positions depend
  only on the components of a coordinate in the frame of the reference coordinate. HEALPix (PropsHealpix): C41, C60 and C71, with hypotheses on hpgeom.
* C87 (PropsInner): the vertices of an explicit tract are the corners of its box, so C80's bilinear weights apply for TAN; for STG the bilinear weights lack a non-negative multiple of the
  centre's direction, which is itself a combination of the corners as the reference pixel is in the box. The middle of the edge between two corners in an orthonormal frame refutes containment for STG.
* C88 (PropsConcurrent): a weakest precondition for the rest of each process' program, which says what it has written when it commits, whatever it saw; the unique
  keys checked at the commit then make the commit the same as a registration made alone at that moment. A simulation shows that the model of one process (C52) is included.
* C93 (PropsRegThreads): a simulation: the job's answers, up to the object identity of tracts, are functions of the calls alone (C75's invariants), so any schedule leads to the
  answers of the job run alone, and the butler operations see the same records. The refutation is an explicit schedule.
* C97 (PropsRegMany): forward and backward simulation between threads that share a map object and processes with an object each (C88); the answers to the calls of `register` do
  not depend on the schedule (C93), and between calls both do the same butler operations.
* C99 (PropsEquatFloat): EquatFloat.v computes the coordinates of equatSkyMap.py:67-86 with Flocq's binary64 operations; relative errors of each operation (Flocq), the wrap of C76;
  the double after 90 degrees gives more than pi/2, so the latitude check fails for the same ranges. The vertices enter the exact-real tract model (C79) as exact numbers: what 2^-46 rad do to pixel boxes is not modelled.
* C100 (PropsBounds): BoundsSpec.v (32 bit values, boxes near a box); the arithmetic of C02-C12 for patches and cells; for tracts the extent of the box of the sample positions (their bounds from the
  radial law and rotation of C85, from the range of the CEA plane, or assumed for vertices), plus the growth of C01. What the program does when a value does not fit (an exception from Box2I) is not modelled.
* C98 (PropsLazy): the indices in the generation log are those of the tracts held (C75's invariant); each operation is followed access by access. The Rings search tries the
  three candidates of each of at most three rings and the caps; the theorem counts them with multiplicity, so 11 is an upper bound.
* C94 (PropsShaThreads): an invariant on what each thread still has to do: whatever it reads, it answers as alone; attributes hold nothing or the digest.
* C89 (PropsDataId): composition of C86 (lookup), C52/C55 (what a registration writes), C88 (what other processes can do later), C48/C54 (packing) and C84 (regions),
  over two objects of one map; tracts and patches of the two agree because their contents do not depend on the history of the object.
* C90 (PropsNames): C88's names and hashes with C43-C45; the refutation registers both versions of any Rings configuration.
* C91 (PropsSizes): the axis arithmetic of `setupPatches` for sizes of every sign (floor division), and the boxes of `getPatchInfo`/`getCellInfo` for borders of every
  sign, give the exact condition for patches to exist; the map and registration parts follow from the models of `__getitem__` and `register`.
* C59: disc inside explicit tracts (TAN, STG) by convexity of the projected disc. C71: convex hull of 24 samples per
  vertex under the gnomonic projection.
* C101 (PropsPixelFloat): PixelFloat.v has contains, findPatch and findPatchList from the pixel positions on in binary64 (Flocq), with Point2I(Point2D), Box2D.include, tweakMax and Box2I(Box2D) operation by operation; PixelFloatSpec.v (regions covered by boxes, pixel bounding boxes of positions). The sum with 0.5 is compared with the neighbours of odd multiples of one half (pred and succ of the format); the box by an invariant of the loop over the positions; the integer part of findPatchList is shared with C16 (`box_patches_lemma`).
* C102 (PropsDiscreteFloat): DiscreteFloat.v computes discreteSkyMap.py:70-76 with Flocq's binary64 operations, compared with `discrete_args` of Maps.v; the lemmas of C99 on degrees and of C76 on the wrap, extended to angles of several turns.
* C103 (PropsHealpixFloat): HealpixFloat.v is angToCoord and coordToAng (healpixSkyMap.py:40-58) with Flocq's binary64 operations; monotone rounding, with 0.5*math.pi an exact double, and the successor of math.pi for the sharpness. hpgeom itself is not modelled.

Maps as stateful objects (PropsSky, PropsMisc)

* C20, C21, C22: state machine with shared builder; invariant by induction over arbitrary access sequences.
  C20 is refuted for unequal patch counts and proved for uniform ones (Rings, Equat with longitude invariant WCS).
* C35, C36, C68, C69: base class searches as folds over the tract list; C67, C73: contents of tracts per class,
  from the configuration object.

Objects handed out (PropsAlias)

* C83: heap of mutable boxes; an ownership tag per object (map, dimensions, k-th patch, k-th cell, user) is an invariant of all
  histories; simulation of the model without objects.
* C84: composition of C55 (which records a registration adds), C80 (gnomonic polygons are pixel areas) and C81 (TAN maps are gnomonic);
  the patch records of a tract are related to the patches of a builder of its own, since a later tract may have changed the shared one.

Threads (PropsThreads)

* C75: programs as trees of atomic actions; `run` of a tree = the sequential model; a `safe` predicate with rely/guarantee
  (the cache only grows, values written to the builder are those of some tract) is an invariant of all schedules.

Classes

* C24-C34, C63, C64 (PropsRings..4): ring layout as a list of positive ring sizes (combinatorics) and real-number
  geometry for `findTract`, ranges, centres, `findAllTracts`, overlap.
* C76, C77, C78 (PropsRingsFloat): every operation rounded (Flocq); error bounds composed by hand; `fmod` exact
  (`format_REM_ZR`); pi bounded by Machin's formula. The exact position is built from the rounded quotients.
* C92 (PropsRingsFloat2): the rounded tract number of each ring is the exact one for a position of its own near the coordinate (C76's lemmas), so each ring's
  candidates are those of C31/C64 for that position.
* C37 (PropsMaps): nearest centre vs RA slice, real trigonometry. C79 (PropsEquat): the cardinal offsets of the four
  corners bound the slice in the two CEA coordinates. C41, C42, C57, C60: direct models, hpgeom quantified.
* C38, C39, C40, C70, C72 (PropsDodeca..3): exact arithmetic in Q(sqrt 5) for the combinatorics, computed by the kernel
  for every set iteration order, rotation invariance over R; C70/C72: cones over the pentagons, fan of triangles.

Identity (PropsConfig, PropsConfig2)

* C23, C43, C44, C45, C58, C61, C62: byte lists, little-endian `struct` encodings proved injective; SHA-1 an arbitrary
  function, so that "equal hash implies equal bytes" is a hypothesis where used.

Packers (PropsPackers, PropsPackers2): C46-C51, C74, C96, arithmetic on `Z`, band mapping as association list. No axioms.

C95 (PropsPackerLife): an invariant on calls in progress, indexed by the contents that the mapping has had.

Registration (PropsRegister): C52-C55, registry as abstract state with rollback; failures injected at every operation.

Every property of the list has status "proved". For the properties with a field `claim_refuted_in_general`, the claim one
would first write down is false of this code: the manifest names theorems that refute it (`*_refuted`) and theorems
that state exactly what holds instead.

## 4. Findings about the code (all are theorems)

* Tracts of one map share a mutable builder: using another tract with other patch counts changes the answers (C20), patch
  numbers registered can be wrong or registration impossible (C55). With threads a valid patch lookup can raise
  RuntimeError, two threads can get different objects for one tract (C75), and registration can fail because another thread makes a tract (C93).
* Version-0 Rings maps: the tract before the north cap is missing from the numbering, the cap is tried twice (C26, C32), the
  last ring is sent to the cap by `findTract` in part of its range (C33 `rings_v0_last_ring`), inner regions disagree (C63).
* Zero and negative patch sizes, borders and cell borders pass the configuration's validation: every tract then raises ZeroDivisionError, or every patch
  RuntimeError, or tracts have no patches (C91).
* Rings: for a NaN declination `findTract` raises ValueError, but `findTractIdArray` returns a tract of the first ring (C77).
* Explicit tracts with a rotation that is not a multiple of 90 degrees can be too small for their radius (C85).
* Rings: `findTract`'s tract need not contain the coordinate with few rings (C33); `findAllTracts` misses tracts (C64).
* `findTractIdArray` and `findTract` agree bit for bit for right ascensions in [0, 2 pi) but not for negative ones (C77).
* Healpix tracts lie at the mirror image of their pixel (C60).
* With the default stereographic projection `findPatch`'s patch need not have the coordinate in its inner sky polygon (C80).
* With the default stereographic projection `findPatchList` may miss patches that the spanned region overlaps (C82).
* `patch_inner_dimensions` hands out the mutable object that all tracts of the map use (C83).
* An EquatSkyMap with one tract and no overlap is a single column of patches at RA 0 (C79).
* Equal maps may number tracts differently (C45), `0.0` vs `-0.0` compare unequal (C62).
* Packer: `unpack` uses the position of a band, not its number (C49); negative ids accepted (C50); band dimension ignored
  with `n_bands=0` (C51). `unpack` never checks its argument: too large and negative integers give data ids that `pack` rejects or gives another id (C96). A packer whose band mapping grows after its first `unpack` packs ids that it cannot unpack (C95). Cell index converters never raise (C14). `findClosestTractPatchList` can list a tract
  twice (C36). The coordinate transform is wrong for a negative second vector (C39).

## 5. Trusted base

* Coq 8.16.1's kernel (including `vm_compute`), and the standard library's axioms listed by `Print Assumptions`; per
  theorem in `ASSUMPTIONS.md`. They are the axioms of the classical reals (`ClassicalDedekindReals.sig_forall_dec`,
  `sig_not_dec`, `functional_extensionality_dep`) and, for some, `Classical_Prop.classic`. Flocq is used for binary64; no axiom of
  another library and none of our own. `vcheck` lists further names (`Rdefinitions.RbaseSymbolsImpl.*`, `ssrunder.*`) that come
  from opaque module seals of the standard library, not from axioms used.
* The model: that the definitions say what the Python code does (comments cite lines).
* External semantics as modelled: `lsst.geom` (integer boxes, rounding of points, `SpherePoint`), `lsst.sphgeom`
  (convex polygon = intersection of half-spaces; longitude/latitude boxes), `SkyWcs` (arbitrary, or TAN/STG/CEA over the
  reals), afw's `makeCdMatrix` and `makeSkyWcs`, `hpgeom` (arbitrary functions), `pex_config` (field values, validation), `daf_butler` registry (transactions that
  roll back, sync semantics), CPython integers, floats, `struct`, list and dict semantics.

## 6. What is not modelled

* Rounding of floating point angle arithmetic (exact reals instead), except as said in section 2; in particular libm's
  `cos` (the tract counts per ring are arbitrary in `RingsFloat.v`).
* `__str__`/`__repr__` texts, log formatting beyond the reported facts, docstrings; `skyMapRegistry.py`; `detail/` deprecation
  shims; pex_config's own machinery; the command line and `doc/`, `examples/`, `tests/`.
* Threads: `Threads.v` (C75) interleaves the accesses to the tract cache and the shared builder, `ShaThreads.v` (C94) those to the kept digest. Registrations by
  several processes are modelled (C88), by one thread while others use the map (C93), and by several threads that share one sky map object, in a repository in which other processes register too (C97).

## 7. Mutation testing

`tools/mutate.py` applies realistic wrong edits to the model in a scratch copy and rebuilds; `seeded/LOG.jsonl` records every
attempt: the definition, the edit, the claim it breaks, the theorems that failed, and what was tightened.
