{
 "C46": [
  "partial",
  "Interior when synchronized distances are numbers, which they are for coordinates and times below 2^100 with the last fix at least 2^-100 after the first; refuted for equal time stamps: every distance is then NaN and the end position is returned."
 ],
 "C17": [
  "partial",
  "Exact for every shared location except the lexicographically greatest one, whose run is never flushed; C17_junctions_refuted exhibits the loss."
 ],
 "C18": [
  "partial",
  "Exact for every repeated location except the lexicographically greatest one, whose run is never flushed; C18_planar_self_refuted exhibits the loss."
 ],
 "C30": [
  "partial",
  "Proved when no enabled option can split a hull; refuted in general (C30_threshold_refuted): hulls split at a constrained vertex are not scored again, so a dropped vertex can lie farther than the threshold."
 ],
 "C31": [
  "partial",
  "Proved when the split loop ends: hulls can be ordered in time so that an examined hull conflicts with no hull that is not later, hence no two examined hulls conflict (C31_no_conflict_when_loop_ends). After aggregation this holds for hulls without a common end; refuted for hulls that follow each other (C31_next_unchecked_refuted: the next hull is out of the index while the merge with the previous one is checked) and for hulls that are never examined (C31_new_crossing_refuted). In the plane, for bent parts with no place in common, the chords never meet: C92."
 ],
 "C21": [
  "partial",
  "Refuted: with planar_self off ToSelfIntersects returns its input and no vertex for every line and every junction list (C21_non_planar_alone_refuted)."
 ],
 "C35": [
  "partial",
  "Exact when the hulls involved have different ranges, as within one line; refuted across features (C35_selection_lost_refuted): the selection is keyed by range, a selected hull is overwritten, and the class result then crosses another feature and depends on the order of the features."
 ],
 "C38": [
  "partial",
  "Proved under every schedule: the calls form a history of a double-ended queue and nothing blocks while no call asks an empty queue for an element. Staying usable after such a call is refuted: the panic leaves the lock held (C38_empty_pop_refuted, C38_lock_never_released)."
 ],
 "C40": [
  "partial",
  "One feature per line, in order, when every line is a geometry or feature with at least one part. Refuted in general: a line without linear geometry before a linear one makes the writer panic, and the features of one collection are merged into one. C64 states what happens for every file."
 ],
 "C44": [
  "proved",
  "Proved for the reader of input and constraint files. The reader of WKT lines, which no command uses, delivers only terminated lines (partial and refutation stated)."
 ],
 "C16": [
  "partial",
  "Permutation, confinement, termination and absence of panics hold for every input; the item at k is in place for ranges of at most 601 items; for larger ranges the code violates it (C16_selects_refuted), and the grouping documented for the repeated selection is refuted."
 ],
 "C56": [
  "partial",
  "Exact for reported self-intersections and shared locations except the lexicographically greatest location of the class (see C17), which is lost."
 ],
 "C54": [
  "proved",
  "Plain Douglas-Peucker. C54_constrained_again_refuted shows that constrained simplification, which also merges short pieces, is not stable in this sense."
 ],
 "C62": [
  "proved",
  "Without the class option for any documents, and with it for lines that are apart (C62_class_of_lines_apart) or, where the geometry library is that of the plane, settled without ambiguity (C62_unambiguous_class), as always without avoid_new_self_intersects (C62_class_without_avoid_self). For other classes it is refuted (C62_class_refuted): the output depends on the iteration order of a Go map."
 ],
 "C92": [
  "proved",
  "Without the class option for any documents, and with it for runs settled without ambiguity (C92_class, C92_class_in_the_plane). For other class runs it is refuted (C92_class_refuted): of three lines the first two come out as chords that cross, because the third line's part has the same index range and its change is the only one noted."
 ]
}