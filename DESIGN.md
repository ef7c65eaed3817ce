# Formal model of TopoSimplify/plugin in Rocq (Coq 8.16.1)

## 1. What is modelled and how

The Go program is a sequential algorithm (Douglas-Peucker decomposition, hull
splitting under constraints, segment aggregation) over an in-memory R-tree, with
two small fork/join goroutine stages and a text front end.  Each Go function is
a total Gallina function of the same shape:

* Go `int` indices are `Z` (unbounded; overflow of 64-bit indices is not modelled).
* Go `float64` is `SpecFloat.spec_float` with precision 53 and emax 1024
  (`M_Float.v`): comparisons follow IEEE 754 including NaN, infinities and signed
  zeros; arithmetic is the standard library's correctly rounded `SFadd/SFmul/...`.
* Go slices are lists.  In-place sorts and swaps return the new list.  Where
  aliasing matters (the three-index slice in `ContiguousCoordinates`, the reused
  backing array in the junction finder) the definition's comment says why the
  list view is faithful, or an explicit array model is given.  The spatial index
  keeps pointers into the slice given to `Load` (hdb/load.go).  Every caller builds
  that slice for the call and neither writes to it nor reuses its array afterwards
  (`deformables` and `insertList` are new slices in every round, `node.Clear` empties
  `self.Hulls`, from which `deformables` was copied), so the index can hold values;
  C82 proves this on an explicit model of the arrays.
* A Go panic is the value `Panic`; a loop without an evident bound takes fuel and
  returns `NoFuel` when it runs out, so termination is a theorem, not an assumption.
* `*node.Node` identity is the node's `Id` (ids come from a generator and are unique).
* Id generators are an arbitrary injective stream `gen : nat -> Z`, so any
  interleaving of `id.Next()` by other goroutines is covered.
* Map iteration order and the order of ties in `sort.Sort` are oracles (arbitrary
  functions constrained only to permute).
* Code of other modules (`intdxdt/geom`, `mbr`, `heap`, `rtree`, `iter`, `sset`,
  `go.geojson`, `encoding/json`) is not in /repo.  Geometry predicates are a record of
  functions (`geomlib`), every theorem holds for every such record, and facts of plane
  geometry a theorem needs are explicit hypotheses in its statement.

Files: `M_*.v` model, `Spec.v` small specification vocabulary, `P_*.v` proofs,
`Properties_*.v` the claims (each proved by `exact` of a lemma, followed by a concrete
example meeting its hypotheses and `Print Assumptions`).

## 2. Per property: what is modelled and how it is proved

`refuted` means the code violates the English property and a theorem exhibits it; the
theorem with suffix `_partial` is then the part that does hold.

| id | modelled code | model file | proof |
|----|----------|-------|----|
| C01 | `decompose/decompose.go`, `geometry/pln.go` SubCoordinates | M_Decompose | stack-loop invariant: output ++ stack tile the line |
| C02 | same | M_Decompose | measure on the stack; for rejecting thresholds every fuel runs out; plain and squared offsets |
| C03 | same + `offset/dp.go` | M_Decompose, M_Offset | invariant: every emitted piece satisfied the relation; combined with C04; plain and squared offsets |
| C04 | `offset/dp.go` | M_Offset | induction on the scan |
| C05 | `dp/dp.go` Simple | M_Decompose, M_Node | sorted set of the ends of a tiling |
| C06 | `rng/split.go` | M_Rng | fold invariant |
| C07 | `split/split.go` | M_Split | from C06 and slice lemmas |
| C08 | `merge/merge.go` Range, ContiguousCoordinates | M_Split, M_Slice | list lemmas; a heap of backing arrays for the three-index slice and append (C08_arguments_untouched) |
| C09 | `merge/merge.go` ContiguousFragmentsAtThreshold | M_Split | case analysis |
| C10 | `merge/merge.go` ContiguousFragmentsBySize | M_BySize | invariant over the hull list with the two dictionaries and the hull index |
| C11-C14 | `hdb/*.go` | M_Hdb | invariant (balanced, boxes enclose, capacity) preserved by Load/Remove/Clear; refinement of histories to a multiset |
| C15 | `hdb/knn.go`, `knn/*.go` | M_Knn | best-first loop invariant, for every tie order of the heap |
| C16 | `hdb/select.go` | M_Select | all writes are swaps; partition invariant; refuted for more than 601 items and for the grouping |
| C17, C18 | `lnr/fc.go`, `lnr/self.go`, `lnr/vertices.go` | M_Lnr | run-scan invariant over a sorted list; refuted for the last run |
| C19 | `lnr/self.go` nonPlanarIntersection | M_Lnr | cache invariant; key injectivity; soundness and completeness of each flag |
| C20, C21 | `constrain/toself.go`, `split.go` | M_Constrain | fold invariant on the tiling; C21 refuted |
| C22, C23 | `relate/geom.go`, `relate/dist.go` | M_Relate | induction on the early-exit loop |
| C24, C48 | `homotopy/*.go`, `relate/sidedness.go` | M_Homotopy | loop invariant; every removal is a legal triangle collapse |
| C25 | `constdp/validate.go` | M_Relate, M_Knn | from C15 plus explicit geometry hypotheses |
| C26-C32 | `constdp/*.go` | M_ConstDP, M_Deform, M_Constrain | invariants of the split loop and of the aggregation, for every order of map iteration; C30 and C31 refuted in general |
| C33 | `constdp/common.go` CacheKey | M_ConstDP | multiset argument on sorted keys |
| C34 | `constdp/fc_simplify.go`, `fc_group.go` | M_ConstDP | per-instance tiling invariant |
| C35 | `deform/*.go` | M_Deform, Spec_Deform | the selection is exactly the hulls in conflict, conflict being defined on sub-lines, segments and hull geometries alone; complete for one line, by range across features, refuted across features |
| C36, C37 | `constdp/simple_0.go`, `fc_simplify.go` | M_Concur | small-step transition systems with explicit steps of feeder, workers, closer and collector; invariants over all schedules; step count bound |
| C38 | `node/queue.go` | M_Queue | refinement to a list; lock state machine; refuted after a panic |
| C39 | `geometry/geojson.go` composeId, `encode.go` indexPos | M_Text | decimal printing and parsing round trip |
| C40-C42 | `encode.go` | M_IO | grouping lemmas; C40 refuted in general |
| C43 | `util.go`, `main.go` | M_Text | base64 codec round trip (RFC 4648 alphabet, written out); encoded and decoded texts compared as numbers in base 64 and 256 |
| C44 | `io.go` readlinesFromReader, `geometry/geojson.go` readJsonFile | M_Text | list induction |
| C45 | `main.go`, `simplify.go` and all of the above | M_IO | composition of C26/C34, C37, C40, C44, C49, C52 |
| C46 | `offset/sed.go` | M_Offset | float NaN propagation; refuted for equal time stamps; signed zeros for the start time; with moderate numbers and distinct end times no NaN arises (from C86) |
| C47 | `cfg.go` | M_IO | field-wise |
| C49, C52 | `geometry/geojson*.go` | M_IO | list induction over documents, features and parts |
| C50 | `node/contig.go` | M_Node | list scan on a tiling |
| C51 | `main.go`, `offset.go` | M_Text | string functions written out |
| C53 | `main.go`, `cfg.go` | M_IO | case analysis of the program, in both directions |
| C54 | `dp/dp.go`, `decompose/decompose.go`, `offset/dp.go` | M_Decompose, M_Offset | the recursion tree of a run (P_DpTree); each split survives among the kept vertices, so the second run has the same tree |
| C55 | `dp/dp.go`, `decompose/decompose.go` | M_Decompose | induction on the recursion tree: the tree of the larger threshold is a pruning of the other |
| C56 | `main.go`, `simplify.go`, `constdp`, `lnr` | M_IO, M_ConstDP, M_Lnr | P_Out follows every line of a run from the file to its final hulls; C17 and C28 give the forced vertices |
| C57 | `main.go`, `simplify.go`, `constdp` | M_IO, M_ConstDP | P_Out: without the class option the final hulls are those of `simplify` on the line alone |
| C58 | `main.go`, `encode.go`, `geometry/geojson.go` | M_IO, M_Text | lines of the joined text are the written features (P_Text), C49 reads them |
| C59 | `main.go`, `constdp`, `constrain`, `relate` | M_IO, M_ConstDP | P_Out: consecutive kept vertices bound a final hull, every examined final hull passed C25's relations |
| C60 | `main.go`, `constdp` | M_IO, M_ConstDP | P_Out with C30 |
| C61 | `constdp`, `constrain`, `hdb` | M_ConstDP, M_Constrain, M_Deform | refinement: every run follows a reference over index ranges (P_Ref) step by step (P_Twin), and the reference is a function of the input (`r_result_unique`); needs boxes not farther than what they enclose, so that index searches are exact |
| C62 | `main.go`, `simplify.go`, `constdp` | M_IO, M_ConstDP | C57 with C61, and written geometries are a function of the vertices kept. `C62_unambiguous_class`: from `C98_clear_in_the_plane`, whose result is unique |
| C63 | `constdp`, `main.go` | M_ConstDP, M_IO | Douglas-Peucker pieces are accepted; splits refine a tiling that keeps all its ends; merges are accepted |
| C64 | `encode.go`, `geometry/geojson.go`, `main.go` | M_IO | entries split into documents, features and parts; stable sort by position is a concatenation of columns; a gap leaves a position without entries (counting) |
| C65 | `geometry`, `simplify.go`, `encode.go`, `main.go` | M_IO | inversion of a successful run |
| C66 | `simplify.go`, `main.go` | M_IO | both paths call the same function with the same junctions |
| C67 | `simplify.go`, `constdp`, `main.go` | M_ConstDP, M_IO | the class phase only splits: cuts are kept |
| C68 | `decompose`, `dp`, `offset` | M_Decompose, M_Offset | textbook algorithm as an inductive relation (Spec_Modes.v); it has one result, and the decomposition tree is a derivation |
| C69 | `constdp`, `main.go` | M_ConstDP, M_IO | no hull is split without options; a merge removes an end of a one-segment hull (invariant of aggregation) |
| C70 | `decompose`, `constdp`, `main.go` | M_ConstDP, M_IO | C69 and uniqueness of the textbook result |
| C71 | `decompose`, `main.go` | M_IO | `run` returns NoFuel for every fuel (C02) |
| C72 | `simplify.go`, `deform`, `constdp`, `main.go` | M_ConstDP, M_IO | no hull has a neighbour of another line, so the class phase selects nothing and leaves the index as it is; in the plane (`Properties_Far.v`) it is enough that the convex hulls of the lines are apart, because the distance does not shrink when the hulls do |
| C73 | `constdp`, `relate`, `hdb`, `main.go` | M_ConstDP, M_Relate, M_IO | the reference of C61 depends only on constraints near a piece; C57 with it |
| C74 | `constdp`, `relate`, `main.go` | M_ConstDP, M_IO | congruence: every function gives the same result for instances without their constraint index |
| C75 | `simplify.go`, `constdp/fc_simplify.go` | M_IO (setup) | the number of a draw is a function of line and count, and injective; draws outside the schedule get unused numbers |
| C76 | `io.go` | M_Wkt, M_Text | line reader of C44, induction over lines |
| C77 | `parser.go`, `io.go` | M_Wkt | `mapM` succeeds exactly when every element does |
| C78 | `main.go`, `constdp/simplify.go` | M_IO, M_ConstDP | C57 gives every line of each run the result it has alone; the result of a line alone is unique (C73) whatever ids, orders and other documents there are |
| C79 | `dp/dp.go`, `decompose`, `offset/dp.go` | M_Decompose, M_Offset | C68 reduces both runs to the textbook relation, which is mirrored by induction; refuted with ties (the last farthest vertex wins) |
| C80 | `constdp/fc_simplify.go`, `deform/cls.go`, `constrain/bycls.go` | M_ConstDP, M_Deform, M_Constrain | loop invariant over pairs of hulls of different lines (checked, waiting, newer, or overwritten in the range-keyed map); the same for hulls of one line, where every hull that was not there at first belongs to a line marked as changed; number of hulls grows unless only single segments were selected |
| C81 | `ctx/ctx.go`, `ctx/ctxs.go` | M_Ctx (on the arrays of M_Slice) | invariant: collections with capacity have arrays of their own; every call keeps it and acts on the lists as specified; `C81_shared_data_refuted` shows why the condition is needed |
| C82 | `constdp/simplify.go`, `fc_simplify.go`, `fc_group.go`, `hdb/load.go`, `node/nodes.go` | M_Alias (on the arrays of M_Slice) | the index holds cell addresses, the hulls live in arrays; invariant: the address a cell was computed at reads the same until the final copy; refinement to the run on plain values |
| C83 | `geometry/pln.go`, `common/common.go`, `node/node.go`, `node/nodes.go`, `rng/stride.go` | M_Views | views are index lists over the original points; computed by position; Pop on the arrays of M_Slice |
| C84 | `main.go` with all the geometric code | Spec_Plane (places are pairs of rationals; floats are whole multiples of 2^-1074) | every geometric hypothesis of C31, C56, C59, C62, C73, C78 is derived from one record `plane_library`; then C59 and `homotopy_sound` are read as statements about sets of places |
| C85 | `hdb/*.go` as it works on memory | M_HdbMem (arrays of nodes, slices with spare room, pointers, explicit stacks) | representation relation with footprints (no array in two nodes); induction along the insertion path over the state before and after each split, and over the depth-first removal; refinement to M_Hdb, so the bag of C11-C14 carries over.  `Knn` with its queue of pointers is M_KnnMem; it is matched step by step with M_Knn on the tree held in memory (P_KnnMem, `C85_nearest_in_memory`) |
| C86 | `offset/sed.go` | M_Offset (binary64 by `SpecFloat`) | P_Round: every rounding of a product, quotient, sum or square root stays in a bracket of relative width 2^-52 or absolute width 2^-1074 (rational arithmetic, no reals, no axioms); P_Dist: `hypot`, `squareHypot`; P_Sed: forward error of the whole formula against the exact synchronized position; the error of `Atan2`/`Sin`/`Cos`/`Magnitude` is a parameter |
| C87 | `hdb/insert.go`, `hdb/split.go`, `hdb/build.go`, `hdb/load.go`, `hdb/remove.go` | M_Hdb, M_HdbMem | every subtree carries a weight, the number of loads it accounts for: at least 2^(h-1) for a subtree of height h and at least the sum of the weights below; a split leaves two children or more on each side, the bulk loader fills its tiles, a removal leaves the weights alone; the memory version follows by the refinement of C85 |
| C88 | `hdb/split.go`, `hdb/insert.go` (choice of the cut and of the child) | M_Hdb | loop invariants over the cuts and children seen so far (axis: boxes of growing groups), with the sign of float subtraction; refuted: least enlargement, least area among cuts of equal overlap |
| C89 | `hdb/knn.go` `Knn` with any limit, score and predicates | M_Knn | loop invariant: hulls looked at so far are sorted, none waiting is nearer, none of them gave enough |
| C90 | `homotopy`, `relate`, whole runs, in the plane | M_Homotopy, M_Relate, M_IO | removal of a vertex = its move to the vertex before it inside a free triangle; straight parts: the triangle is covered by its sides; parts are joined; crossing numbers by cases on the level of the corners. Places have rational coordinates (all floats are) |
| C91 | `writeCoords`, `writeTomlCoords` on a failing disk | M_Files (disk, states) | a write passes through every prefix of its bytes; induction on the lines; reading back by C76 |
| C92 | `constdp/simplify.go`, deform candidates, in the plane | Spec_Apart, Spec_ApartClass, P_Jordan | a polygonal line and its chord close a curve that another line, apart from both, crosses evenly often: two chords that cross force a chord to meet the other part (`chords_meet`), and that case is C31's; class runs: by induction on the rounds of the description of Spec_Class.v (P_ApartClass.v): a new pair of parts whose chords cross asks for a split of one of them, unambiguous rounds grant it, and the part is gone (C92_class, C92_class_in_the_plane); without the condition that rounds are unambiguous a run over three lines in the exact plane leaves two crossing chords (C92_class_refuted) |
| C93 | `main.go` on a disk | M_Program (file systems passed through) | the program depends on the files it reads only; `SaveText` (external) is taken as: create, then one write passing through every prefix; nobody else changes the files meanwhile; for the torn file a feature is written on one line (as json.Marshal does) |
| C94 | Two pictures of a scene (`alike`: corresponding vertices and constraints, every question asked of the library answered alike). The reference result of P_Ref.v is shown equal in both, phase by phase; in the plane the conditions follow from one invertible affine map (Spec_Move.v, P_MovePlane.v). `C94_offsets`: offsets need only compare alike. With planar_self only the set of forced vertices matters, because a chain is determined by its cuts (`cuts_chain`). `C94_forced`: that set is the same when the same segments cross and no two vertices share the greatest place. `C94_mirrored_self_touch_refuted`: the latter is needed. With the class option (Spec_MoveClass, P_MoveClass, Properties_MoveClass): `C94_class` carries the description of Spec_Class from one picture to the other, round by round; `C94_class_forced` is `C94_forced` for the lines of a class; `C94_class_in_the_plane` combines it with C98_clear_in_the_plane for both runs. Class runs whose description is ambiguous are not covered: their result depends on the order of the lines, not on the picture alone. |
| C95 | `constdp/fc_simplify.go` | M_Report | the loop instrumented with the numbers reported; erasing them gives the loop of C34; induction on the rounds with the invariant of the hull bag |
| C96 | `constdp/simplify.go`, `constdp/node_aggregates.go`, `decompose/decompose.go`, `constrain/` | Spec_Exact (description), P_Exact | the reference over ranges of C61 (P_Ref) is shown equal to the description step by step: the rounds of splitting give the tree of splits, merging is an induction on the vertices left with an invariant on the cache of tried pairs; the description is shown to determine its result. avoid_self is C97, the class option C98 |
| C97 | as C96, with `constrain/byself.go`, `deform/` | Spec_Whole (description on top of Spec_Exact and the conflicts of Spec_Deform), P_Whole | as C96; the rounds of splitting are matched with rounds over the increasing list of kept vertices, in which a part is new iff it was not a part before; the cache of tried pairs is shown to hold exactly the pairs of neighbouring segments already tried |
| C98 | `constdp/fc_simplify.go`, `constdp/simple_1.go`, `constrain/bycls.go`, `deform/`, `lnr/` | Spec_Class (description on top of Spec_Whole), P_WholeClass | C97 for each line; the class phase by induction on its rounds: the bag of hulls is read as the kept vertices of every line, a hull is in the list to be checked iff it is a new part, and the dictionary keyed by ranges is the relation `taken` (one line for every range); results are unique when no check is ambiguous. How the dictionary picks the line is left open (it depends on the order in which the index is searched). `C98_in_the_plane` (Properties_ClassFiles) lifts it to files: the run writes every line with the vertices the joint result gives it; of lines with identical vertices the statement does not say which of their results is written for which. `C98_clear_in_the_plane`: the description may be followed with any names and order of the lines (P_Rename: the conflict tests do not look at line ids except for equality), and if it is unambiguous the run writes its result |
| C99 | as C98, with `main.go`, `parser.go` | P_Rename (a description carries over along a renaming of the lines) | `C98_clear_in_the_plane` for both runs with the same names; identical lines have the same result because exchanging them is a renaming and the result is unique |

## 3. Trusted base

* Coq 8.16.1's kernel (`coqc`; `vm_compute` is used in examples and witnesses, `native_compute` is not).
* `Print Assumptions` follows every theorem in the `Properties_*.v` files; every one prints
  `Closed under the global context`: no axiom of any kind, not even the standard library's, is used.
  Loading the standard library puts axioms declared there (such as those of `Coq.ssr.ssrunder`) into the
  environment; no theorem depends on them.
* Only the standard library is imported (`ZArith`, `List`, `Permutation`, `Sorting`, `Floats.SpecFloat`,
  `String`/`Ascii`, `QArith`, `Lia`/`Lqa`).  mathcomp, std++, Iris, Flocq etc. are not used.
* The reading of Go in the model: that each Gallina function computes what the cited Go lines compute.
  Each definition cites the lines and states its simplifications.
* Floating point: `+ - * /` and `sqrt` on `float64` are modelled as separately rounded binary64 operations.  The Go
  specification lets a compiler fuse `x*y + z` into one rounding; compilers do so on some architectures (arm64) and not on amd64.
  The theorems that compute with binary64 are about unfused evaluation.
* No axioms, no `Variable`/`Hypothesis` outside sections, no functors or module types, no admitted proofs.

### Hypotheses that stand for code outside /repo

These appear explicitly in theorem statements, and every theorem is followed by an example that meets them.

* `geomlib` (`M_Geom.v`): `intdxdt/geom` intersection, distance, hull, bounds, `Equals2D` are fields of a record;
  theorems quantify over all records.  Where needed: a box encloses its geometry (`boxes_enclose`, `hull_encloses`),
  a box is not farther than what it contains (`box_distance_ok`), `Equals2D` is coordinate equality on the points involved.
  For whole runs all of these follow from `plane_library` (`Spec_Plane.v`): the library computes plane geometry.  It assumes
  that hulls, intersections and the order of distances are exact (rounding may not change the outcome of a comparison of sets);
  `Toy_Plane.v` builds an exact library over the rationals and proves that it meets the record, so it can be met.
* `oracle_ok` (`P_HdbIns.v`): `sort.Sort` and the selection of bulk loading permute; the height computed with `math.Log` for N
  items is some h with M^(h-1) <= N <= M^h (at an exact power either neighbour may come out).
  `C16_index_selection` proves that the code's own selection meets the clause assumed of it.
* `pop_ok` (`P_Knn.v`): the heap pops a least element, ties in any order.
* `any_order`: a Go map is iterated in any order, a permutation of its values.
* `w_gen` injective: `iter.Igen.Next` never repeats an id.
* `json_ok`/`reads` (`Spec_IO.v`): the JSON library parses the text to the document; `Marshal` and `Unmarshal` of a
  property map are inverse; `decode` is the configuration decoder.
* `finds_segments`: the static segment index of `intdxdt/rtree` returns the segments whose boxes meet the query.
* Part of the model, not hypotheses: `iter.NewGenerator` with a positive step yields every step-th number below
  the end it is given (`gen_values`); `geom.NewSegment` takes positions in the view (`v_segment`).

## 4. Modelled and not modelled

Modelled function by function: `box`, `rng` (Range, Equals, Size, Contiguous, Split, AsArray, Stride, ExclusiveStride), `geometry/pln.go`,
`geometry/geojson.go`, `geometry/geojson_geom.go`, `geometry/jsontype.go`, `offset`, `split`, `merge`, `decompose`, `dp`,
`node` (CreateNode, Segment, SegmentAsPolyline, collapse, contig, nodes with Pop and Clear, queue), `hdb` (all files except the stringers), `knn`, `lnr`, `constrain`,
`ctx`, `deform`, `relate`, `homotopy`, `state`, `constdp` (except the unused channel variants), `cfg.go`, `encode.go`, `io.go`
(readers and WKT writer), `parser.go`, `main.go`, `offset.go`, `simplify.go`, `util.go`, `common` (Geometry, SubCoordinates, CreateHulls).

Not modelled, with reasons:

* `constdp/app`, `example`, `dp/example`: demonstration programs.  Test files and `hdb/bench_test.go`.
* Unused code: `constdp/simple_1.go` `deformNodes_` (streaming variant).
* `String`/WKT methods: presentation only.
* 64-bit overflow of indices; memory exhaustion; file-system errors other than a missing file when reading and failures of creating and writing the file in `writeCoords`/`writeTomlCoords` (C91); loss or reordering of bytes already accepted by the operating system.
* Data races on the shared `hdb` and on `id` generators inside one line are excluded by the code's structure
  (the parallel stage only reads the index); ids may be drawn in any interleaving.

## 5. Findings: where the code does not do what a user would expect

1. C17/C18 `lnr`: the run of the lexicographically greatest location is never flushed, so a junction or planar
   self-intersection there is lost.
2. C21 `ToSelfIntersects` returns at once when `planar_self` is off, so `non_planar_self` alone has no effect.
3. C30 pieces made by splitting at constrained vertices are not scored again and can violate the threshold.
4. C31 hulls of a single segment made by a later split are not checked again: a new crossing can appear.
5. C35 the selection of a feature class is keyed by index range: hulls of two features with the same range overwrite each other.
   In the plane this leaves crossing chords of lines that were apart (C92_class_refuted).
6. C38 `Queue` methods panic on an empty queue with the lock held: every later call blocks.
7. C40 `groupPlnsAsGeoJSONS` ranges over positions, not ids: a line without linear geometry before a linear one panics
   and nothing is written (C64 says exactly what is written for which files), and the features of one FeatureCollection are merged into one output feature with the first one's properties.
8. C46 trajectories whose time stamps coincide get a NaN distance everywhere: the offset function returns the end position.
9. C16 `selectBox` keeps using the bounds of the first iteration after a sampled recursion, so the k-th item can be wrong for
   more than 601 items; `multiSelect` leaves groups of n+1 items unsorted.  Only the quality of the index is affected (C11-C13 hold).
10. C25 a negative `min_dist` switches all constraint checks off.
11. C29 collinear hulls are never examined: a dropped vertex on a straight piece can change the relation with a constraint touching it.
12. C44 `readlinesFromReader` drops an unterminated last line.
13. C49, C65 a feature with null geometry, a line of fewer than two coordinates, and such a line among the constraints when there
    is anything to simplify, stop the program with a panic; nothing is written.
14. C33 `CacheKey` is only injective on the pairs it is used for.
15. C41 a MultiLineString with one part is written as a LineString; z is dropped when every z is close to 0.
16. C54 constrained simplification is not stable: merging drops vertices that plain Douglas-Peucker keeps, so simplifying the
    result again can drop more and leave vertices of the first line farther than the threshold.
17. C58 the errors of `json.Marshal` are ignored in `createGeoJSONString`: a feature that cannot be written becomes an empty line.
18. C31 `AggregateSimpleSegments`: when merging with the next hull is refused, the next hull is still out of the index while
    the merge with the previous hull is validated; the two can be left in conflict (C31_next_unchecked_refuted).
19. C71 `cfg.go` accepts a negative or NaN threshold; Douglas-Peucker then splits a segment at its own end for ever.
20. C62 with the class option the output can differ from run to run on the same files: which of two hulls with the same range is
    selected (finding 5) depends on the order of the index, which depends on the iteration order of a Go map (C62_class_refuted).
21. C76 `readlinesFromReader` returns the error that ended it, io.EOF: `readWKTInput` and `readConstraints` never return without an error.
22. C79 of several equally far vertices the last one is taken, so the result of simplifying a line depends on its direction.
23. C81 `SetData` and `NewContexts(list...)` keep the caller's slice: after handing the view of one collection to another,
    pushing to both makes one element overwrite the other (C81_shared_data_refuted).  The code itself never does this.
24. C83 `node.Pop` returns the old slice with the zero hull in the last place, not the hull it takes off, and writes that zero
    hull into the shared array (C83_pop_returns_no_hull_refuted).  The program does not call it.
25. C13 a hull whose box is finite but whose area overflows (coordinates of about 2^512 and more) makes `Load` dereference a nil
    pointer once the index has two levels (C13_huge_boxes_refuted).
26. C88 `chooseSubtree` compares the areas of the stretched boxes, not the enlargements its comment announces: a hull inside the
    box of one child can be stored below another child, which grows for it (C88_least_enlargement_refuted).  Results are unaffected.
27. C88 `chooseSplitIndex` does not reset the least area when it finds a smaller overlap, so among cuts of equal overlap the one
    of least area can be missed (C88_least_area_refuted; it takes three admissible cuts, with the default capacity 8 there are two).  Results are unaffected.
28. C91 `writeCoords` and `writeTomlCoords` empty the old file before there is anything new to put in its place; a failing write, a crash, or
    data that cannot be encoded to TOML (which is found out after the file has been emptied) lose it (C91_old_file_lost_refuted).  Neither closes the file.
29. C93 the output file may be the input file (nothing forbids it): it is emptied before the result is written, so a crash in between loses
    the input, and running the program again then writes an empty file (C93_in_place_refuted).
30. C94 because of finding 1 the result depends on the orientation of the data: a line that touches itself at its lexicographically greatest place
    keeps other vertices than its mirror image (C94_mirrored_self_touch_refuted).
