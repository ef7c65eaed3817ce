#!/usr/bin/env python3
"""Writes /verif/properties.jsonl (one property per line)."""
import json, os
P = []
def p(id, title, statement, quantifier, why, anchors):
    P.append(dict(id=id, title=title, statement=statement, quantifier=quantifier,
                  why_tests_cant=why, anchors=anchors))

p("C01", "Douglas-Peucker decomposition tiles the line",
  "Decomposing a polyline of n >= 2 vertices with a non-negative threshold returns pieces whose vertex ranges are non-empty, in order, contiguous (each starts at the vertex where the previous one ends) and run exactly from vertex 0 to vertex n-1; each piece carries exactly the vertices of its range.",
  "every polyline with at least two vertices, every scoring function returning an interior split index for pieces of three or more vertices, every non-negative threshold",
  "a test sees a handful of lines; a wrong stack order or off-by-one slice shows only for particular split patterns",
  ["decompose/decompose.go:DouglasPeucker", "dp/dp.go:Decompose", "constdp/decompose.go:Decompose", "geometry/pln.go:Range"])
p("C02", "Decomposition terminates exactly when the threshold accepts a zero offset",
  "With a threshold >= 0 the decomposition finishes within 2n-3 iterations for every line of n >= 2 vertices, even when distances are NaN; with a negative or NaN threshold it never finishes, on any line. With a squared offset it finishes for every threshold that is a number and for no other.",
  "all polylines, all thresholds (including negative, NaN, infinite), all distance functions",
  "non-termination cannot be observed by a finite test and the termination bound ranges over all lines",
  ["decompose/decompose.go:DouglasPeucker", "dp/dp.go:ScoreRelation", "dp/dp.go:SquareScoreRelation", "offset/dp.go:maxOffset"])
p("C03", "Every piece of the decomposition honours the threshold",
  "Every piece returned by the decomposition has a maximum offset that satisfies the threshold; hence, when distances are ordered numbers, every vertex dropped by plain Douglas-Peucker lies within the threshold of the chord that replaces it; with a squared offset, within the square of the threshold, whatever its sign.",
  "all polylines, thresholds, distance functions, all pieces and all dropped vertices",
  "the guarantee ranges over all dropped vertices of all lines",
  ["decompose/decompose.go:DouglasPeucker", "offset/dp.go:MaxOffset", "offset/dp.go:SquareMaxOffset", "dp/dp.go:ScoreRelation"])
p("C04", "Maximum offset picks the farthest interior vertex",
  "For three or more vertices with non-NaN non-negative distances, the maximum-offset search returns a strictly interior index whose distance to the chord is the returned value, no interior vertex is farther, and every later vertex is strictly nearer; for two or fewer vertices the value is 0.",
  "all vertex lists and distance functions",
  "needs all orderings and ties of distances",
  ["offset/dp.go:maxOffset", "offset/dp.go:MaxOffset", "offset/dp.go:SquareMaxOffset"])
p("C05", "Plain DP result is an ordered vertex subset keeping both ends",
  "The simplified index list of plain Douglas-Peucker is strictly increasing, starts at vertex 0, ends at the last vertex and contains only valid vertex indices.",
  "all polylines with at least two vertices and all non-negative thresholds",
  "universally quantified over lines and thresholds",
  ["dp/dp.go:Simplify", "dp/dp.go:Simple", "node/nodes.go:AsPointSet"])
p("C06", "Splitting an index range at indices",
  "Splitting a range at a list of indices (any order, duplicates, out-of-range values allowed) returns the ordered contiguous sub-ranges cut at exactly the distinct given indices strictly inside the range, and the empty list when there is none.",
  "all ranges and all integer lists",
  "all index multisets and boundary positions",
  ["rng/split.go:Split"])
p("C07", "Splitting a hull preserves its vertices",
  "Splitting a hull at given indices, or at its score vertex, yields hulls that tile the hull's range, carry exactly the vertices of their sub-range, belong to the same instance and have distinct fresh ids.",
  "all hulls, index lists and scoring functions",
  "all hulls and all index lists",
  ["split/split.go:AtIndex", "split/split.go:AtScoreSelection"])
p("C08", "Merging contiguous hulls is the inverse of splitting",
  "Merging two contiguous hulls, in either argument order, yields the union range and the vertices of that range without duplicating the shared vertex, and does not modify the vertices of either argument; non-contiguous hulls are rejected by a panic.",
  "all pairs of hulls of one polyline",
  "argument order, sizes and sharing of the underlying array",
  ["merge/merge.go:Range", "merge/merge.go:ContiguousCoordinates", "rng/contig.go:Contiguous"])
p("C09", "Threshold merge merges exactly when the merged score is accepted",
  "The threshold merge of two contiguous hulls returns success exactly when the score relation accepts the score of the merged vertices, and then the returned hull spans both.",
  "all contiguous pairs, score functions and relations",
  "universal over hull pairs and score functions",
  ["merge/merge.go:ContiguousFragmentsAtThreshold"])
p("C10", "Merging small fragments keeps a tiling",
  "Merging contiguous fragments up to a size returns kept fragments that tile the same range as the input fragments; the removed list is exactly the inputs that were merged away; a merge never crosses a vertex of the given vertex set and never joins a fragment larger than the size bound with something it does not touch.",
  "all fragment lists forming a tiling, vertex sets, size bounds and score functions",
  "depends on processing order, neighbour search results and already-merged bookkeeping",
  ["merge/merge.go:ContiguousFragmentsBySize"])
p("C11", "Spatial search is exact",
  "After any sequence of Load and Remove, Search(box) returns exactly the stored hulls whose bounding box intersects the box, each once.",
  "all operation histories, all query boxes, all node capacities >= 4, any choice made by the split and subtree heuristics",
  "histories and tree shapes are unbounded",
  ["hdb/search.go:Search", "hdb/insert.go:insert", "hdb/remove.go:Remove", "hdb/load.go:Load", "hdb/build.go:buildTree"])
p("C12", "The spatial index is a faithful multiset",
  "After any sequence of Load and Remove, All returns exactly the loaded hulls not yet removed, each as often as loaded; removing a stored hull (same id and box) removes one copy; removing an absent one changes nothing; IsEmpty holds exactly when nothing is left.",
  "all operation histories",
  "histories are unbounded; node overflow, root growth and condensing depend on sizes",
  ["hdb/search.go:All", "hdb/load.go:Load", "hdb/remove.go:Remove", "hdb/remove.go:condense", "hdb/insert.go:splitOnOverflow"])
p("C13", "The spatial index stays balanced, bounded and enclosing",
  "After any history every internal box encloses the boxes below it, all items sit at the same depth, no node exceeds its capacity, no node but the root is empty, and no operation panics.",
  "all operation histories whose boxes have areas that do not overflow",
  "structural invariant over unbounded histories",
  ["hdb/build.go:buildTree", "hdb/insert.go:insertNode", "hdb/split.go:split", "hdb/remove.go:condense", "hdb/mbr.go:calcBBox"])
p("C14", "Collision test agrees with search",
  "Collides(box) is true exactly when Search(box) is non-empty.",
  "all reachable indexes and boxes",
  "shortcut on containment must be right for all tree shapes",
  ["hdb/collides.go:Collides"])
p("C15", "Neighbour queries return exactly the items within the distance, nearest first",
  "A k-nearest query with the distance predicate returns exactly the stored hulls whose geometry lies within the given distance of the query geometry, in non-decreasing order of distance, provided box distance never exceeds the distance of an enclosed item.",
  "all reachable indexes, query geometries and distances",
  "best-first traversal with early stop over all tree shapes",
  ["hdb/knn.go:Knn", "knn/knn.go:find", "knn/knn.go:ScoreFn", "knn/knn.go:PredicateFn", "knn/neighbours.go:ContextNeighbours"])
p("C16", "Bulk-loading selection only permutes",
  "The partial selection used by bulk loading returns a permutation of its input, and leaves every element before position k no greater than every element after it in the chosen order.",
  "all item arrays, bounds, k and comparison functions that are total preorders",
  "in-place quickselect with moving bounds over all arrays",
  ["hdb/select.go:selectBox", "hdb/select.go:multiSelect", "hdb/core.go:swapItem"])
p("C17", "Shared vertices of a feature class are all detected",
  "The junction finder reports, for each feature, exactly the vertex indices whose coordinates coincide with another vertex of the class.",
  "all feature classes (any number of lines and vertices)",
  "depends on sorted runs, including the last run",
  ["lnr/fc.go:FCPlanarSelfIntersection", "lnr/vertices.go:Less"])
p("C18", "Planar self-intersections of a line are all detected",
  "The planar self-intersection finder reports one context per location visited by two or more vertices of the line, listing exactly the vertex indices at that location in increasing order.",
  "all polylines",
  "depends on sorted runs, including the last run",
  ["lnr/self.go:planarIntersects"])
p("C19", "Each pair of segments is intersected once",
  "The non-planar self-intersection finder examines every unordered pair of segments with intersecting bounding boxes exactly once and never a segment with itself; its pair cache never confuses two different pairs. Each flag of the self-intersection finder turns on its own kind of location and no other: coinciding vertices, or crossings of two segments with their four ends.",
  "all polylines",
  "pair cache collisions range over all segment pairs",
  ["lnr/self.go:nonPlanarIntersection", "lnr/self.go:cacheKey", "lnr/self.go:SelfIntersection"])
p("C20", "Self-intersection constraint forces vertices to be hull ends",
  "With planar_self on, after constraining to self-intersections the hulls still tile the line in order, every reported self-intersection or junction vertex is an end of some hull, and the returned vertex set is sorted, duplicate-free and is exactly the junctions plus the reported self-intersection vertices.",
  "all polylines, decompositions, junction lists",
  "all combinations of hulls and constrained vertices",
  ["constrain/toself.go:ToSelfIntersects", "constrain/split.go:splitAtSelfIntersects"])
p("C21", "non_planar_self works on its own",
  "With planar_self off and non_planar_self on, self-crossing segment ends are still constrained.",
  "all polylines with a self-crossing",
  "option combinations crossed with all geometries",
  ["constrain/toself.go:ToSelfIntersects", "constdp/constructor.go:NewConstDP"])
p("C22", "Geometric relation accepts exactly when intersection status is unchanged",
  "The geometric-relation check accepts a hull exactly when, for every neighbouring constraint, the original sub-line intersects it if and only if the replacement segment does.",
  "all hulls and constraint lists", "all constraint sets",
  ["relate/geom.go:IsGeomRelateValid", "constrain/bygeom.go:ByGeometricRelation"])
p("C23", "Distance relation accepts exactly when minimum distance is respected",
  "The distance-relation check accepts a hull exactly when every neighbouring constraint is at least the minimum distance from the replacement segment, or was already nearer than that to the original sub-line.",
  "all hulls, constraint lists and minimum distances", "all constraint sets and distances, NaN included",
  ["relate/dist.go:IsDistRelateValid", "constrain/bymindist.go:ByMinDistRelation"])
p("C24", "Sidedness check is a sound homotopy certificate",
  "When the homotopy check accepts, no constraint intersects exactly one of the sub-line and its segment, and the sub-line can be reduced to the segment by removing vertices one at a time such that no removal's triangle touches a constraint that is disjoint from both. When it refuses, either some constraint intersects exactly one of the two, or the sub-line can be reduced in that way to three or more vertices none of which, except the ends, can be removed without touching such a constraint.",
  "all sub-lines and constraint sets",
  "the order and number of collapses is unbounded",
  ["homotopy/homotopy.go:Homotopy", "homotopy/deform.go:chainDeformation", "relate/sidedness.go:Homotopy"])
p("C25", "Looking only at nearby constraints loses nothing",
  "Validating a hull against the constraints within minimum_distance of it gives the same answer as validating it against all constraints, for the enabled geometric, distance and homotopy relations.",
  "all constraint sets, hulls, option combinations and minimum distances",
  "universal over constraint sets; negative minimum distances included",
  ["constdp/validate.go:ValidateContextRelation", "knn/neighbours.go:ContextNeighbours"])
p("C26", "Constrained simplification returns an ordered vertex subset that keeps both ends",
  "After Simplify the hulls tile the line from first to last vertex; the simplified vertex set is strictly increasing, made of original vertices, and contains the first and last vertex.",
  "all polylines, constraints, options, map iteration orders and id allocations",
  "unbounded number of split rounds and merges",
  ["constdp/simplify.go:Simplify", "constdp/simple_1.go:deformNodes", "constdp/simple_2.go:cleanUpDB", "constdp/node_aggregates.go:AggregateSimpleSegments"])
p("C27", "Constrained simplification terminates",
  "The split loop of Simplify ends after at most n rounds on every line whose scoring function returns an interior index.",
  "all polylines, constraints, options and iteration orders",
  "termination", ["constdp/simplify.go:Simplify", "constdp/simple_0.go:processConstSimplification", "deform/cls.go:SelectFeatureClass"])
p("C28", "Constrained vertices survive simplification",
  "With planar_self on, every vertex reported as a self-intersection or junction is in the simplified vertex set: junctions, vertices visited twice (except at the greatest location of the line), and, with non_planar_self on, the ends of segments that cross.",
  "all polylines, junctions, constraints and options",
  "must survive every later split and merge",
  ["constdp/simplify.go:Simplify", "constdp/node_aggregates.go:AggregateSimpleSegments", "constrain/toself.go:ToSelfIntersects"])
p("C29", "Final segments satisfy the enabled context relations",
  "Every final hull of Simplify that spans more than one segment and is not collinear satisfies every enabled geometric, distance and homotopy relation with its neighbouring constraints.",
  "all polylines, constraints, options and iteration orders",
  "must hold for hulls created in any round or merge",
  ["constdp/simplify.go:Simplify", "constdp/validate.go:ValidateContextRelation", "constdp/validate.go:ValidateMerge"])
p("C30", "The threshold bounds the error of the constrained result",
  "Every vertex dropped by Simplify lies within the threshold of the segment that replaces it.",
  "all polylines, thresholds, constraints and options",
  "universal over dropped vertices; sub-hulls are not rescored after constraint-driven splits",
  ["constdp/simplify.go:Simplify", "split/split.go:AtScoreSelection", "split/split.go:AtIndex", "merge/merge.go:ContiguousFragmentsAtThreshold"])
p("C31", "Avoiding new self-intersections holds between all final pairs",
  "With avoid_new_self_intersects on, when the split loop ends no hull that was examined in the last state conflicts with another hull of the line.",
  "all polylines and all pairs of final hulls",
  "pairs of hulls created in different rounds",
  ["constrain/byself.go:BySelfIntersection", "constrain/bycls.go:ByFeatureClassIntersection", "constdp/simple_0.go:processConstSimplification"])
p("C32", "Merging simple segments is safe",
  "The final aggregation preserves the tiling, never merges at a constrained vertex, never indexes an empty work list, and every merged hull passed the score relation and the merge validation.",
  "all hull sets, caches and validation outcomes",
  "depends on interleaved removals and re-insertions",
  ["constdp/node_aggregates.go:AggregateSimpleSegments", "constdp/validate.go:ValidateMerge"])
p("C33", "Merge cache keys do not collide",
  "Two different contiguous hull pairs of one line never get the same merge-cache key.",
  "all pairs of contiguous hull pairs", "all integer ranges",
  ["constdp/common.go:CacheKey", "constdp/node_aggregates.go:AggregateSimpleSegments"])
p("C34", "Feature-class simplification keeps features separate",
  "After SimplifyFeatureClass each feature's hulls tile its own line, each feature's simplified set keeps its ends and is made of its own vertices.",
  "all feature classes, constraints, options and schedules",
  "unbounded rounds over interleaved features",
  ["constdp/fc_simplify.go:SimplifyFeatureClass", "constdp/fc_group.go:groupHullsByFC"])
p("C35", "A conflicting hull is never lost from the selection",
  "Whenever checking a hull against its neighbours finds a conflict that selects a hull for splitting, that hull is in the returned selection; and the class-intersection check answers true only if the checked hull was never selected.",
  "all hulls and neighbour lists",
  "collisions of selection keys among features",
  ["deform/cls.go:SelectFeatureClass", "deform/ln.go:Select", "constrain/bycls.go:ByFeatureClassIntersection"])
p("C36", "Parallel hull checking is schedule independent",
  "For every interleaving of the worker goroutines, checking hulls in parallel collects exactly the set of hulls a sequential check collects, and the collection always completes without deadlock.",
  "all hull lists and all schedules",
  "schedules cannot be enumerated by tests",
  ["constdp/simple_0.go:processConstSimplification", "constdp/simple_0.go:chunkTasks", "constdp/simple_0.go:findDeformableNodes"])
p("C37", "Every instance is simplified exactly once",
  "For every interleaving, SimplifyInstances simplifies each instance exactly once and returns without deadlock.",
  "all instance lists and schedules",
  "schedules cannot be enumerated by tests",
  ["constdp/fc_simplify.go:SimplifyInstances"])
p("C38", "The node queue is a double-ended queue that stays usable",
  "The queue behaves as a double-ended queue under any operation sequence, and an operation on an empty queue leaves the queue usable by others.",
  "all operation histories",
  "histories; lock state after a panic",
  ["node/queue.go:Queue"])
p("C39", "Feature ids round-trip",
  "The (line, part) pair encoded into a polyline id is recovered exactly from the id.",
  "all pairs of non-negative integers",
  "all integers and digit counts",
  ["geometry/geojson.go:composeId", "encode.go:indexPos"])
p("C40", "One output feature per input line, in order",
  "The output holds one feature per input line, in input order, each with its parts in input order.",
  "all input files", "all mixes of feature types and orders of polylines",
  ["encode.go:groupPlnsAsGeoJSONS", "encode.go:groupById", "encode.go:createGeoJSONString"])
p("C41", "Output geometry type and dimension follow the data",
  "A group with one part is written as LineString, with several as MultiLineString; coordinates are written with three components exactly when some vertex of the part has a non-zero third component.",
  "all groups of polylines", "all vertex lists",
  ["encode.go:createGeoJSONString", "encode.go:isCoords3D", "encode.go:extractCoords"])
p("C42", "Feature properties are carried through",
  "The properties of an input feature are written on its output feature; a bare geometry gets an empty property object.",
  "all inputs", "all property payloads and groupings",
  ["encode.go:getMeta", "geometry/geojson_geom.go:lineStringFromFeature", "encode.go:createGeoJSONString"])
p("C43", "Configuration survives base64 transport",
  "Decoding the base64 encoding of any byte string returns it, so -f and -b with the same configuration behave alike; a -b argument that is not base64 text is refused; one that is decodes to the bytes its characters spell, line breaks skipped and the bits left over by the padding dropped.",
  "all byte strings", "all lengths and padding cases",
  ["util.go:encode64", "util.go:decode64", "main.go:main"])
p("C44", "Line readers deliver every line",
  "Reading a text file delivers every non-blank line in order, trimmed.",
  "all file contents", "all line-ending and end-of-file shapes",
  ["io.go:readlinesFromReader", "geometry/geojson.go:readJsonFile"])
p("C45", "End to end: output lines are sub-sequences of input lines",
  "In a run over well-formed linear features, each output part is a sub-sequence of the corresponding input part with the same first and last coordinate.",
  "all inputs of linear features, constraints and options for which the run completes",
  "whole-pipeline, unbounded",
  ["simplify.go:setSimpleCoords", "main.go:main", "constdp/simplify.go:Simplify", "encode.go:groupPlnsAsGeoJSONS"])
p("C46", "SED offsets split trajectories at interior vertices",
  "The synchronized-distance search returns an interior vertex for three or more points; a vertex reached at the start time is measured from the first vertex.",
  "all trajectories, including ones with equal time stamps",
  "NaN propagation for equal time stamps",
  ["offset/sed.go:MaxSEDOffset"])
p("C47", "Every option reaches the simplifier",
  "Each configuration field sets exactly its option and no other.",
  "all configurations", "all combinations of fields",
  ["cfg.go:optsFromCfg", "opts/opts.go:Opts"])
p("C48", "Chain deformation terminates and keeps the ends",
  "The chain deformation used by the homotopy check terminates on every line, its recorded size always equals the number of linked vertices, and the first and last vertices are never removed.",
  "all lines with at least two vertices and constraint sets",
  "loop over a mutable linked list",
  ["homotopy/chain.go:remove", "homotopy/chain.go:NewChain", "homotopy/deform.go:chainDeformation"])
p("C49", "Only linear features become polylines",
  "Exactly the LineString and MultiLineString geometries of the input (bare, in features or collections) become polylines, one per part, in order.",
  "all input files", "all nestings of GeoJSON types",
  ["geometry/geojson.go:createPolylineGeoms", "geometry/geojson.go:parseInputLinearFeatures", "geometry/geojson_geom.go"])
p("C50", "Previous and next neighbours of a hull",
  "Among hulls that tile a line, the previous/next search returns the hull ending where the given hull starts and the hull starting where it ends, exactly when they are among the given neighbours, whatever the order of the neighbours.",
  "all tilings, hulls and neighbour orders", "all ranges and neighbour orders",
  ["node/contig.go:Neighbours", "rng/contig.go:Contiguous"])
p("C51", "Simplification type is recognised in any case",
  "The simplification type selects the perpendicular-distance offsets for dp and the synchronized-distance offsets for sed, whatever the case of the letters and the white space around them, and every other text is refused.",
  "all byte strings", "all strings and spellings",
  ["main.go:main", "offset.go:offsetDictionary"])
p("C52", "Every constraint geometry is read",
  "Every point, line and polygon of the constraint file, whether bare, in a feature, in a collection or a part of a multi-geometry, becomes one constraint, in order, and nothing else does.",
  "all constraint files whose features have geometries", "all nestings of GeoJSON types",
  ["geometry/geojson.go:parseConstraintFeatures", "geometry/geojson.go:createIGeom", "geometry/geojson_geom.go"])
p("C53", "Nothing is written without a complete configuration",
  "A run writes only to the configured output path, and only when exactly one configuration source, a known simplification type, an existing input file, a non-blank output path and an existing or unnamed constraint file are given; what it writes is the simplification of that input under those options. When all of these are given and that simplification succeeds, the run does write it.",
  "all command lines, configurations and file systems", "all combinations of present and absent settings",
  ["main.go:main", "cfg.go:parseInput", "cfg.go:optsFromCfg"])
p("C54", "Simplifying a simplified line changes nothing",
  "Running plain Douglas-Peucker, with the same threshold and offset, on the line made of the vertices it kept succeeds and keeps every one of them.",
  "all lines of at least two points, point-to-segment distances and thresholds at or above zero, with and without the squared score", "compares two complete runs for every line",
  ["dp/dp.go:Simplify", "decompose/decompose.go:DouglasPeucker", "offset/dp.go:MaxOffset"])
p("C55", "A larger threshold never brings a vertex back",
  "Every vertex plain Douglas-Peucker keeps at a threshold is also kept at every smaller non-negative threshold, so raising the threshold only removes vertices.",
  "all lines and pairs of ordered thresholds", "compares two complete runs for every line and every pair of thresholds",
  ["dp/dp.go:Simplify", "decompose/decompose.go:DouglasPeucker"])
p("C56", "Forced vertices reach the output",
  "With planar self-intersections preserved, every vertex of a line that is reported at a self-intersection and, for a feature class, every vertex at a location shared within the class, is among the vertices written for that line.",
  "all runs of the program: input files, constraint files, options, map iteration orders and ids", "composes reading, the intersection reports, splitting, merging, the class phase and writing for every input",
  ["main.go:main", "simplify.go:simplifyFeatureClass", "constdp/fc_simplify.go:SimplifyFeatureClass", "constdp/simplify.go:Simplify", "lnr/fc.go"])
p("C57", "Lines are simplified independently without the class option",
  "Without the feature class option the vertices written for each line are exactly those that constrained simplification of that line alone, with the same constraints and options and no junctions, keeps; other lines of the file have no influence.",
  "all runs without the class option", "all combinations of lines in one file",
  ["main.go:main", "simplify.go:simplifyInstances", "constdp/fc_simplify.go:SimplifyInstances"])
p("C58", "The output file can be read back",
  "The file written, features joined by line feeds, is read by the program itself as the same number of features in the same order, each with the properties of the feature read (empty when it had none) and for every part the written coordinates of the vertices kept.",
  "all runs whose features the JSON library can write and read back", "round trip through text for every input and result",
  ["main.go:main", "encode.go:groupPlnsAsGeoJSONS", "encode.go:createGeoJSONString", "geometry/geojson.go:readJsonFile"])
p("C59", "The written lines honour the constraints",
  "In both modes, every segment of an output line that replaces a part of the input line that is not straight intersects the same constraints as that part, keeps the minimum distance unless the part did not, and passes the constraints on the same side, for whichever of the three relations are enabled.",
  "all runs with a non-negative minimum distance, and all constraints in the constraint file", "relates the input file, the constraint file and the output file of every run",
  ["main.go:main", "constdp/simplify.go:Simplify", "constdp/fc_simplify.go:SimplifyFeatureClass", "constrain/bygeom.go", "constrain/bymindist.go", "constrain/byside.go", "relate"])
p("C60", "The written lines stay within the threshold when nothing constrains them",
  "With every constraint option off, in both modes, every vertex dropped from a line is within the threshold of the segment of the output line that replaces it.",
  "all runs without constraint options", "relates all dropped vertices of all lines of every input file to the output",
  ["main.go:main", "constdp/simplify.go:Simplify", "constdp/node_aggregates.go"])
p("C61", "Simplifying a line is deterministic",
  "Two simplifications of the same vertices with the same options, constraints and junctions keep the same vertices, whatever ids the hulls and the line draw, in whatever order maps are iterated and constraints are listed, however the spatial index breaks ties and however many rounds are allowed.",
  "all pairs of runs on one line", "map iteration order and the shape of the index change from run to run; a test sees a few of them",
  ["constdp/simplify.go:Simplify", "constdp/common.go", "constdp/node_aggregates.go:AggregateSimpleSegments", "constrain/toself.go:ToSelfIntersects", "deform", "hdb"])
p("C62", "Running the program twice gives the same output",
  "Without the feature class option, two runs of the program with the same options on input files that hold the same features and constraint files that hold the same geometries in any order write the same features; with that option they do when planar self-intersections are off and no line is near another, and also when the description of C98 is unambiguous, which it always is without avoid_new_self_intersects (no check asks for changes of parts with the same vertex numbers on two lines).",
  "all pairs of runs without the class option, and of runs with it on lines that are apart or settled without ambiguity", "goroutine and map orders and process ids vary between runs",
  ["main.go:main", "simplify.go:simplifyInstances", "constdp/simplify.go:Simplify", "encode.go"])
p("C63", "Every dropped vertex is within the threshold of a chord that was accepted",
  "Whatever the options, the constraints and the forced vertices, and with or without the class option: for two consecutive kept vertices there are two input vertices, one at or before the first and one at or after the second, such that every vertex between those two is within the threshold of the segment that joins them (as long as its distance is a number). Splitting for a constraint can leave a vertex farther than the threshold from its own segment, but no vertex is dropped without such a chord.",
  "all lines, all options, all constraint sets, all vertices forced by junctions, all runs", "splits, merges and the class phase compose in arbitrarily long histories",
  ["constdp/simplify.go:Simplify", "constdp/node_aggregates.go:AggregateSimpleSegments", "constdp/simple_0.go", "constrain/toself.go:ToSelfIntersects", "decompose/decompose.go:DouglasPeucker", "main.go:main"])
p("C64", "What is written for any mixture of input lines",
  "Input lines may be geometries, features, collections or other JSON. If a line without linear geometry comes before one with linear geometry the program stops and writes nothing. Otherwise one feature is written per line with linear geometry, in order: with the properties of the first feature in it that has a line, and with the shortened lines of all its features, first the first lines of the features, then the second ones, and so on; lines after the last one with linear geometry write nothing. The claims about the vertices of every written line (C56, C57, C59, C60, C63) hold for all of them.",
  "all input files of documents whose features have geometries, all options, all constraint files", "the writer groups by ids parsed from text, counts groups and sorts them; any count and order of documents and parts must work",
  ["encode.go:groupPlnsAsGeoJSONS", "encode.go:groupById", "encode.go:createGeoJSONString", "geometry/geojson.go:ParseInputLinearFeatures", "main.go:main"])
p("C65", "Invalid input stops the program",
  "A run that writes its result has read every line of both files that is not blank as JSON of a known shape, found a geometry in every feature, two coordinates or more in every line it simplified and, if there was anything to simplify, in every line among the constraints, and no line without linear geometry before one with it. No part of invalid input is skipped silently.",
  "all files, all libraries, all options", "ill-formed input can occur anywhere in files of any length",
  ["geometry/geojson.go", "geometry/pln.go:CreatePolyline", "simplify.go:setSimpleCoords", "encode.go", "main.go:main"])
p("C66", "The class option alone changes nothing",
  "When none of the constraint options (planar self-intersections, avoiding new self-intersections, geometric, distance and direction relations) is on, a run with the feature class option and one without it end the same way and write the same features, for valid and invalid files alike.",
  "all files, all libraries, all options without constraint options", "the class option takes another path through the program; equality is needed for every input",
  ["simplify.go:simplifyFeatureClass", "simplify.go:simplifyInstances", "main.go:main"])
p("C67", "The class option only adds vertices",
  "With the class option on and planar self-intersections off, every written line keeps all vertices it keeps when simplified on its own with the same options, and maybe more.",
  "all files of valid documents, all options with planar self-intersections off, all constraint files", "which hulls are split depends on all lines of the class and on map orders",
  ["simplify.go:simplifyFeatureClass", "constdp/simple_0.go", "main.go:main"])
p("C68", "Plain Douglas-Peucker is the textbook algorithm",
  "Plain Douglas-Peucker ends and keeps exactly the vertices the textbook recursion keeps: a part no vertex of which is farther than the threshold from its chord keeps its ends, any other part is split at its farthest vertex, the last one if several are equally far. With squared distances the same holds for the squared threshold.",
  "all polylines of two vertices or more, all distance functions, all thresholds that are not negative", "the decomposition works with a stack over any number of parts and ties must be broken the same way everywhere",
  ["decompose/decompose.go:DouglasPeucker", "dp/dp.go:Simplify", "offset/dp.go"])
p("C69", "Without constraint options the result is the textbook result, thinned",
  "When no constraint option is on, every written line keeps only vertices the textbook algorithm keeps, and a vertex of the textbook result that is left out is next to another vertex of that result: only one-segment pieces are merged away.",
  "all files of valid documents, all distance functions, all thresholds that are not negative, with and without the class option", "merging rounds of any number compose",
  ["constdp/simplify.go:Simplify", "constdp/node_aggregates.go:AggregateSimpleSegments", "main.go:main"])
p("C70", "Nearly straight lines become segments",
  "When no constraint option is on, a line no vertex of which is farther than the threshold from the segment between its ends is written as that segment.",
  "all files of valid documents, all distance functions, all thresholds that are not negative, with and without the class option", "quantifies over all lines and thresholds",
  ["decompose/decompose.go:DouglasPeucker", "constdp/simplify.go:Simplify", "main.go:main"])
p("C71", "A negative or NaN threshold makes the program run forever",
  "If the threshold is negative or NaN and the input has at least one line, the program never ends, whatever the other options and the constraints.",
  "all readable files, all options, runs of any length", "a test cannot tell a long run from one that never ends",
  ["decompose/decompose.go:DouglasPeucker", "constdp/simplify.go:Simplify", "cfg.go", "main.go:main"])
p("C72", "Lines that are far apart do not influence each other",
  "With the class option on and planar self-intersections off: if no part of a line has a hull that is near the hull of a part of another line, every line is written as it is when simplified on its own.",
  "all files of valid documents whose lines are far apart, all options with planar self-intersections off", "quantifies over all pairs of parts and all orders of examination",
  ["simplify.go:simplifyFeatureClass", "constrain/bycls.go", "deform/cls.go:SelectFeatureClass", "constdp/simple_0.go", "main.go:main"])
p("C73", "Constraints farther than the minimum distance do not matter",
  "Without the feature class option, two runs on the same features write the same if their constraint files hold the same geometries, apart from geometries that are farther than the minimum distance from the hull of every part of every line.",
  "all pairs of runs without the class option and all sets of far constraints", "constraints can be added anywhere and in any number; index searches must not be affected by them",
  ["constdp/simple_0.go", "constdp/simplify.go:Simplify", "relate", "hdb", "main.go:main"])
p("C74", "The constraint file is used only by the options that compare with it",
  "With the geometric, distance and direction relations off, runs that differ only in the constraint file write the same features whenever they write, with and without the class option; if both constraint files can be read they end the same way.",
  "all files, all libraries, all other options", "quantifies over all pairs of constraint files",
  ["main.go:main", "relate", "constdp/simple_0.go", "constdp/node_aggregates.go"])
p("C75", "Ids drawn concurrently never clash",
  "All lines of a run and the class phase draw their ids from one generator. In whatever order the goroutines draw, no two hulls get the same id and no hull gets the id of a line, and every such order is among those the other claims quantify over.",
  "all schedules of draws, all numbers of lines", "the order of draws is chosen by the scheduler",
  ["simplify.go:simplifyInstances", "simplify.go:simplifyFeatureClass", "constdp/fc_simplify.go:SimplifyInstances", "node/node.go:CreateNode"])
p("C76", "WKT files are read completely and written files read back",
  "The reader of WKT input delivers the coordinates of every terminated line string line, in order, and skips other lines; the reader of WKT constraints delivers every point, line string and polygon line, in order, and nothing else; lines written by the writer are read back as they were. (Both readers return io.EOF as error even when they succeed.)",
  "all files, all line lists, all WKT libraries that read back what they write", "any number of lines with any mixture of types and white space",
  ["io.go:readWKTInput", "io.go:readConstraints", "io.go:readlinesFromReader", "io.go:writeCoords"])
p("C77", "TOML files are read completely or not at all",
  "An array of arrays of numbers is read as exactly the values of those numbers, and anything else stops the program; every entry of the three tables of a constraint file becomes one geometry, points first, then lines, then polygons; every named line of an input file is read under its name; the iteration order of maps only permutes the geometries.",
  "all TOML values of any depth, all map orders", "arrays of any length and nesting, maps in any order",
  ["parser.go:parseLinearArray", "parser.go:parsePointArray", "parser.go:parseFloat", "io.go:ConstToml.Geometries", "io.go:readTomlInput"])
p("C78", "A file can be processed in pieces",
  "Without the feature class option, running the program on two input files one after the other and running it on their concatenation, with the same constraints and options, writes the same features in the same order, provided every document of the first file contains a line: what is written for a document depends only on that document, the constraints and the options, not on its place or its neighbours in the file.",
  "all pairs of input files, all constraints, all options without the feature class option, all orders of processing", "files of any size; the runs draw different ids and visit maps and queues in different orders",
  ["main.go:main", "simplify.go:simplifyInstances", "constdp/simplify.go:Simplify"])
p("C79", "A line and its reversal are simplified alike",
  "If the distance of a point from a segment does not depend on the order of the segment's ends, plain Douglas-Peucker keeps the same vertices of a line and of the reversed line, unless two vertices farther than the threshold are equally far from a segment; with such ties the result can depend on the direction.",
  "all lines, thresholds that are not negative, distance functions symmetric in the segment ends", "lines of any length; the recursion visits different pieces in a different order",
  ["dp/dp.go:Simplify", "decompose/decompose.go:DouglasPeucker", "offset/dp.go:maxOffset"])
p("C80", "Which conflicts the class option can leave",
  "With the avoid option on, when the lines of a class have been processed together, two simplified pieces of different lines that were examined cross anew (or a crossing moved too far, or vanished) only if the piece that should have been split shares its vertex-number range with a piece of another line that conflicts with the same piece. If processing the class together changed no line, every conflict left with an examined piece is over a piece of a single segment. The pieces of one line are compared again as soon as the line has been split for the sake of another: conflicts between two pieces of one line are left over only in the same way, or when both pieces are those of the line simplified on its own.",
  "all classes of lines with the avoid option, all orders in which hulls and lines are processed", "the loop runs for any number of rounds over any number of lines and each round removes and adds hulls",
  ["constdp/fc_simplify.go:SimplifyFeatureClass", "deform/cls.go:SelectFeatureClass", "constrain/bycls.go:ByFeatureClassIntersection", "constdp/simple_0.go:findDeformableNodes"])
p("C81", "Collections of contexts hold what was put in them",
  "A program that makes collections of contexts, pushes and extends them, sorts them and replaces their data, and never makes one collection keep the slice of another, sees in each collection exactly the contexts put there, in order, and after a sort in ascending order of first index; its length is their number. A view of a collection taken earlier keeps showing what it showed until something is sorted. Every context is of exactly one kind, the one it was last given. (Handing the view of one collection to another breaks this: both then write into the same array.)",
  "all sequences of calls on any number of collections, all capacities the runtime picks, all swaps a sort makes", "whether an append reuses an array depends on capacities, and the damage shows only in another collection or an older view",
  ["ctx/ctxs.go:NewContexts", "ctx/ctxs.go:NewContextsFromObjects", "ctx/ctxs.go:Push", "ctx/ctxs.go:Extend", "ctx/ctxs.go:Sort", "ctx/ctxs.go:DataView", "ctx/ctxs.go:SetData", "ctx/ctx.go:New", "ctx/ctx.go:AsContextGeometries"])
p("C82", "Hulls are not overwritten in memory",
  "However the runtime sizes arrays, after any series of simplifications of single lines and of feature classes the hulls an object holds are those the computation produced: nothing is overwritten between the moment a hull is computed, the moment the index hands out a pointer to it and the final copy into the object. A result taken from an object before further runs still reads the same after them.",
  "all series of runs, all lists of hulls per round, all orders in which the index lists them, all capacities the runtime picks", "an overwritten hull needs a particular capacity and order of the index; tests look at the result of one run",
  ["constdp/simplify.go:Simplify", "constdp/fc_simplify.go:SimplifyFeatureClass", "constdp/fc_group.go:groupHullsByFC", "hdb/load.go:Load", "node/nodes.go:Clear", "hdb/search.go:All"])
p("C83", "Parts of lines, hulls for given ranges and strides",
  "The part of a line from vertex i to vertex j is the line through exactly those vertices, keeps the id and the meta data, and still counts its vertices on the original line; its segment bounds are one per segment, in order, with those numbers. A part of one vertex has no geometry and every use of it panics. Hulls created for a list of index pairs are one per pair, in order, with the vertices between the two, and their segment joins the two vertices. A stride lists every step-th index of a range in order, the exclusive one without the ends. Pop shortens the slice by its last hull. (It does not return that hull: it returns the slice with the zero hull in its last place, and every other slice of the same array sees the zero hull.)",
  "all lines, ranges, lists of index pairs, positive steps, slices and shared arrays", "off-by-one errors at the ends of views of views, and writes through a shared array, need the right ranges to show",
  ["geometry/pln.go:SubPolyline", "geometry/pln.go:SubCoordinates", "geometry/pln.go:SegmentBounds", "geometry/pln.go:Range", "common/common.go:CreateHulls", "node/node.go:SegmentAsPolyline", "rng/stride.go:Stride", "rng/stride.go:ExclusiveStride", "node/nodes.go:Pop"])
p("C84", "Relations to constraints hold as point sets of the plane",
  "For any geometry library that computes plane geometry (a point, segment, polyline, box and convex hull are the sets of places one expects, two geometries intersect if the sets meet, bounding boxes enclose, distances do not grow when a set grows), every line the program writes keeps, between consecutive written vertices that bend, the relations of the options: with the geometric option the new segment meets exactly the constraints the replaced part met; with the distance option it keeps the minimum distance unless the part itself was closer; with the direction option the part can be shrunk to the segment one vertex at a time without any swept triangle containing a place of a constraint that meets neither.",
  "all geometry libraries that compute plane geometry, all files of documents and constraints, all options, all orders of processing", "the relation is about sets of points of the plane, and boxes, hulls and an index stand between it and the code",
  ["relate/geom.go", "relate/dist.go", "relate/dir.go", "relate/sidedness.go", "homotopy/chain.go", "homotopy/deform.go", "constdp/simplify.go:Simplify", "main.go:main"])
p("C85", "The index never loses a node it keeps in memory",
  "The index keeps its nodes in arrays that grow and move, and inserts and removes through pointers into them. Whatever hulls with bounded boxes are loaded and removed, in any order, and however much spare room the runtime gives to new arrays, every operation ends without a panic, and afterwards All, Search, Collides, IsEmpty and Knn (with any limit, score and predicates) answer for exactly the bag of hulls the history leaves: no update is made to a stale copy of a node, no child array is overwritten through another node, and none belongs to two nodes.",
  "all histories of loads and removals, all boxes below 2^483, all capacities, all growth policies of append, all orders of equal elements of sorting and selection", "whether append moves an array while a pointer into it is still used depends on capacities and on the depth of the tree",
  ["hdb/insert.go:insertNode", "hdb/insert.go:chooseSubtree", "hdb/split.go:split", "hdb/util.go:splitAtIndex", "hdb/build.go:buildTree", "hdb/load.go:Load", "hdb/remove.go:removeItem", "hdb/remove.go:condense", "hdb/remove.go:removeNode", "hdb/search.go:Search", "hdb/search.go:all", "hdb/collides.go:Collides", "hdb/knn.go:Knn"])
p("C86", "The synchronized distance is computed accurately",
  "The distance of a coordinate difference below 2^1000 is a number, never overflows on the way, and its square is right up to a factor 1 + 2^-48; the squared distance is right up to 1 + 2^-50. The synchronized offset of a fix is such a distance to the place an even movement from the first to the last fix has at its time, where each coordinate difference is off by at most 2^-45 of the largest coordinate and twice the error of the trigonometric functions.",
  "all binary64 differences below 2^1000 (squares: 2^480); all trajectories with coordinates and times below 2^100, first and last fix at least 2^-100 apart in time, and all trigonometric results of any stated error", "overflow, underflow and cancellation depend on the operands, the code orders and scales them to avoid it",
  ["offset/sed.go:hypot", "offset/sed.go:squareHypot", "offset/sed.go:MaxSEDOffset", "offset/sed.go:SqureMaxSEDOffset"])
p("C87", "The index stays shallow",
  "After any history of loads and removals of hulls with bounded boxes that leaves hulls in the index, all hulls hang at the same depth, and this depth is at most one more than the binary logarithm of the number of hulls ever loaded, although removals leave underfull nodes behind and never rebalance. The same holds of the heights the nodes store in memory.",
  "all histories of loads and removals, all boxes below 2^483, all capacities, all orders of equal elements of sorting and selection, all height estimates of the bulk loader", "a chain of nodes with one child each would show only as time and stack use, after a particular history",
  ["hdb/insert.go:insertNode", "hdb/split.go:split", "hdb/split.go:splitRoot", "hdb/build.go:buildTree", "hdb/load.go:Load", "hdb/remove.go:condense", "hdb/core.go:minEntries"])
p("C88", "Overfull nodes are cut where the parts overlap least",
  "A node with more entries than allowed is cut in two along one axis, the one for which the boxes of all groups made by admissible cuts have the smaller total girth: the entries, in order of their lower corners, are divided at a place where no other admissible place gives two parts whose boxes overlap less; each part gets at least the minimal number of entries and the smallest box around them, at the same height. Of the cuts with the same overlap, those before the one taken have parts of a larger total area; a later one is passed over because a cut up to the one taken has no larger total area. An entry goes down to a child whose box, stretched over the entry, has the least area, up to the tolerance. The comments promise more and are wrong: the child is not the one with the least enlargement, and among cuts of equal overlap not the one of least area is taken.",
  "all overfull nodes with real boxes below 2^483, all capacities, all ways of sorting equal elements, all tolerances", "the best of all cuts is a statement over all of them, ties and rounding decide between neighbours",
  ["hdb/split.go:chooseSplitIndex", "hdb/split.go:chooseSplitAxis", "hdb/split.go:split", "hdb/insert.go:chooseSubtree", "hdb/insert.go:intersectionArea", "hdb/mbr.go:distBBox", "hdb/mbr.go:allDistMargin"])
p("C89", "Knn finds the k nearest that the predicate takes",
  "After any history of loads and removals, Knn with a score under which no box is farther than a hull it encloses looks at the stored hulls from near to far and returns those its first predicate takes, in that order; it stops right after a hull for which the predicate says stop or with which the limit is reached, and only then leaves hulls out. So without a predicate a positive limit k gives the k nearest (all when there are fewer), nearest first; a limit of zero or a negative one gives every hull that is taken.",
  "all histories, capacities, limits, scores, predicates, priority queues (with any tolerance)", "the order in which subtrees are opened depends on scores and shape of the tree; every predicate and limit interrupts it elsewhere",
  ["hdb/knn.go:Knn", "hdb/knn.go:predicate", "hdb/kobj.go:KObj"])
p("C90", "With the direction relation lines are deformed around constraints, never across",
  "When the direction relation is on, every line written can be reached from its input line by a continuous deformation in the plane that fixes the ends and never touches a constraint which neither the input nor the written line touches; so both cross every ray from a place of such a constraint equally often (upwards less downwards): the line passes it on the same side. The same holds for every polyline accepted by the sidedness check and the segment that replaces it. (Straight parts and untouched edges are included.)",
  "all documents, options with dir relation, constraints, map orders, geometry libraries that compute plane geometry", "a deformation is a statement about infinitely many intermediate lines and places",
  ["homotopy/homotopy.go:Homotopy", "homotopy/deform.go:chainDeformation", "relate/dir.go:IsDirRelateValid", "simplify.go:simplifyInstances"])
p("C91", "Writing coordinates: what a crash or a failing disk leaves behind",
  "At every moment of a call that writes lines to a file, the file is as it was before the call or holds a beginning of the text to be written (each beginning occurs). A reader of such a torn file gets complete lines that were to be written, in order, from the first one on, and never part of a line. The call returns no error exactly if the directory and file could be made and every line was written, and then the file is complete; on an error the file is untouched (directory or file not made) or ends where the first failing write did. The TOML writer behaves likewise, but leaves an empty file if the data cannot be encoded. (The old file is lost on a failure: refuted.)",
  "all files, lines, writers of lines, points of failure and crash points", "a crash can come between any two bytes, and every write can fail after any number of bytes",
  ["io.go:writeCoords", "io.go:writeTomlCoords", "io.go:readlinesFromReader"])
p("C92", "Parts of a line that were apart stay apart",
  "With avoid_new_self_intersects on, each line simplified on its own: if two replaced parts of a line have a bend each and no place of the plane in common, then the two chords that replace them have no place in common either. Nothing else is required: not that a chord meets the other part. With the class option the same holds for two parts of one line or of two lines of the class, in runs whose outcome does not depend on ambiguous choices (the unambiguous runs of C98), if the library reports at least one place wherever two hulls meet. (Without that restriction on runs: refuted.)",
  "all files, coordinates, options, scores, map orders and libraries that compute plane geometry; runs without the class option, and unambiguous runs with it", "the check looks at chords against old parts and at hulls that come up as neighbours; that no crossing of two chords escapes it is a fact about all polygonal lines in the plane",
  ["constrain/byself.go:BySelfIntersection", "deform/noncontig.go:nonContiguousCandidates", "main.go:main", "constdp/simplify.go:ConstDP.Simplify"])
p("C93", "The program changes only its output file, and a crash can be repaired by running it again",
  "At every moment of an execution of the program, all files but the output file named in the configuration are as before; the output file is touched only after all files have been read and all lines simplified, and then holds a beginning of the text to be written: read as an input file it is some of the features, whole and in order, followed by nothing or by one cut feature, and if no proper beginning of a feature is a JSON document it is read as those whole features or refused. The program ends with success exactly if everything could be done, and then the output file holds the whole text, computed from the files as they were at the start (also if the output file is one of them); if it stops before it writes, nothing has changed. After a crash or failed write at any moment, running the program again gives what the first run would have given, provided that the output file is not one of the files read (otherwise the input can be lost: refuted).",
  "all file systems, configurations, inputs, failing writes and crash points", "a crash can come at any moment, with any files and configuration; tests see complete runs",
  ["main.go:main"])
p("C94","Which vertices are kept does not depend on where the data lie",
"If one picture of the data is carried to another by an invertible affine map of the plane (shifted, turned, mirrored, scaled), or if another geometry library is used that gives the same answers, then the same vertices are kept: in corresponding features the vertices at the same indices are written. It is enough that the offsets of the vertices compare alike with each other and with the threshold, that distances are on the same side of the minimum distance, and, with planar_self, that the same vertices (in any order) are reported where the line meets itself; they are when the same segments cross and in neither picture two vertices share the greatest place. The last condition is needed: a line that touches itself and its mirror image can keep different vertices. With the class option the same holds for runs whose outcome does not depend on ambiguous choices (the unambiguous runs of C98), with the greatest place taken over the vertices of all lines.",
"all lines, constraints, options, invertible affine maps and pairs of geometry libraries whose answers agree; runs without the class option, and unambiguous runs with it",
"a test compares one shifted or mirrored file; the claim is about every map and every input, through all phases (decomposition, forced vertices, splitting, merging)",
["constdp/simplify.go:ConstDP.Simplify", "main.go:main", "constdp/node_aggregates.go", "lnr/self.go:planarIntersects"])
p("C95", "The progress callback tells how much is examined and changes nothing",
  "Simplifying a feature class with a callback gives the result it gives without one. The callback is not called without constraint options or without lines. Otherwise it is first called with the number of segments of the lines simplified one by one; every later number is positive and at most the number of segments of the result; there is at most one more later call than vertices added by the class option, and twice the vertices added are at most the sum of the later numbers; a single call means that no vertex was added. The number of calls is bounded by the number of segments of the lines given plus one.",
  "all feature classes, constraints, options, iteration orders and id sequences", "counts rounds of every run; no test can bound them",
  ["constdp/fc_simplify.go:SimplifyFeatureClass", "constdp/simple_1.go:deformNodes"])
p("C96", "Exactly which vertices of a line are kept",
  "Without avoid_new_self_intersects and without the class option, the vertices kept of a line are exactly those given by four steps: (1) textbook Douglas-Peucker; (2) the forced vertices are added; (3) every part of more than one segment that is not straight and whose chord breaks a wanted relation with a constraint within the minimum distance of its hull is split at its farthest vertex (the last of equally far ones), and so are its halves; (4) one pass along the parts: for every part of a single segment its end is dropped if that is not forced, the chord to the vertex after it is within the threshold and keeps the wanted relations; else its beginning, under the same conditions. There is exactly one such list for every line, so nothing else (ids, map orders, index, heap) has any influence.",
  "all lines, constraints, options but avoid_self, forced vertices, map orders, ids, index and heap behaviours", "equality with a complete description for every input; tests compare a few outputs",
  ["constdp/simplify.go:ConstDP.Simplify", "constdp/node_aggregates.go:AggregateSimpleSegments", "constdp/validate.go:ValidateMerge", "constrain/toself.go:ToSelfIntersects", "decompose/decompose.go:DouglasPeucker", "main.go:main"])
p("C97", "Exactly which vertices of a line are kept, with avoid_new_self_intersects too",
  "For all options but the class option, the vertices kept of a line are exactly those given by four steps: (1) textbook Douglas-Peucker; (2) the forced vertices are added; (3) rounds: every new part of more than one segment that is not straight is checked; it is split if its chord breaks a wanted relation with a constraint within the minimum distance, and with avoid_new_self_intersects both it and any part near it are split if checking the pair asks for a change of them (C35); a part is split at its farthest vertex, and rounds go on with the new parts until nothing is split; (4) one pass along the parts: for every part of a single segment its end is dropped if that is not forced, the chord to the vertex after it is within the threshold, keeps the wanted relations and asks for no change next to any other part; else its beginning, under the same conditions, if the part before it is longer than a segment; but if the first chord was within the threshold and refused, the part after the segment is not looked at for the second. There is exactly one such list for every line.",
  "all lines, constraints, options without the class option, forced vertices, map orders, ids, index and heap behaviours", "equality with a complete description for every input; tests compare a few outputs",
  ["constdp/simplify.go:ConstDP.Simplify", "constdp/node_aggregates.go:AggregateSimpleSegments", "constdp/validate.go:ValidateMerge", "constrain/byself.go:BySelfIntersection", "deform/ln.go:Select", "constrain/toself.go:ToSelfIntersects", "decompose/decompose.go:DouglasPeucker", "main.go:main"])
p("C98", "Exactly which vertices are kept with the class option",
  "With the class option every line is first simplified by itself as in C97, its forced vertices including those shared with other lines of the class (without the greatest location, C17). Then come rounds over all lines together: every new part that is not straight and longer than a segment is checked against the parts near it, those of other lines and, once its line was changed in a round, those of its own; it is split if its chord breaks a wanted relation with a constraint, and with avoid_new_self_intersects the parts for which checking a pair asks for a change (C35) are split, but of the changes that one check asks for, a range of vertex numbers is taken for one line only. Parts are split at their farthest vertex; rounds go on until one splits nothing, and no vertex is dropped afterwards. If no check of a round asks for changes of parts with the same vertex numbers on two lines, then there is one result and the program gives it whatever the map orders; without avoid_new_self_intersects the rounds change nothing.",
  "all classes of lines, constraints, options, map orders of every line and of the class phase, ids, index and heap behaviours", "equality with a complete description for every class of lines and every order in which maps are visited; tests compare a few outputs",
  ["constdp/fc_simplify.go:SimplifyFeatureClass", "constdp/fc_simplify.go:SimplifyInstances", "constdp/simple_1.go:deformNodes", "constrain/bycls.go:ByFeatureClassIntersection", "deform/cls.go:SelectFeatureClass", "constdp/fc_group.go:groupHullsByFC"])
p("C99", "The order of the lines in the files does not matter",
  "Two runs with the class option and the same other options and the same constraint geometries in any order, on files that hold the same lines in another order and grouped into features in another way, keep the same vertices of every line, if avoid_new_self_intersects is off or the description of C98 is unambiguous for these lines; in particular identical lines are simplified alike. Map orders, ids, index and heap may differ between the runs.",
  "all pairs of files with the same lines, options, constraints, and all behaviours of both runs", "every permutation and grouping of every set of lines",
  ["main.go:main", "parser.go", "constdp/fc_simplify.go:SimplifyFeatureClass", "lnr", "deform/cls.go:SelectFeatureClass"])
with open(os.path.join(os.path.dirname(__file__), "..", "properties.jsonl"), "w") as f:
    for x in P:
        f.write(json.dumps(x) + "\n")
print(len(P))
