{
 "addToFuture": {
  "breaks": "the value returned by addToFuture",
  "tightened": [
   "C68_add"
  ]
 },
 "addToPast": {
  "breaks": "the value returned by addToPast",
  "tightened": [
   "C68_add"
  ]
 },
 "get_LinkFuture": {
  "breaks": "reading LinkFuture stores the set it returns",
  "tightened": [
   "C67_reading_links"
  ]
 },
 "get_LinkPast": {
  "breaks": "reading LinkPast stores the set it returns",
  "tightened": [
   "C67_reading_links"
  ]
 },
 "get_LinkCone": {
  "breaks": "reading LinkCone fills both link sets",
  "tightened": [
   "C67_reading_links"
  ]
 },
 "isLinkedTo": {
  "breaks": "isLinkedTo fills the link set of the other event",
  "tightened": [
   "C67_reading_links"
  ]
 },
 "LinkCountOf": {
  "breaks": "LinkCountOf counts every link of the set once",
  "tightened": [
   "C57_LinkCountOf",
   "C57_static"
  ]
 },
 "set_Position": {
  "breaks": "assigning Position stores the values",
  "tightened": [
   "C71_Position"
  ]
 },
 "path_loop": {
  "breaks": "isPath accepts at most two ends",
  "tightened": [
   "C30_isPath_exact"
  ]
 },
 "isPath": {
  "breaks": "isPath() of an empty causet is False",
  "tightened": [
   "C30_isPath_self"
  ]
 },
 "SmallestIntervalCard": {
  "breaks": "SmallestIntervalCard of comparable events with one end outside 'searching'",
  "tightened": [
   "C40_comparable_searching",
   "C40_comparable_outside"
  ]
 },
 "FutureMatrix": {
  "breaks": "default label order of FutureMatrix",
  "tightened": [
   "C25_default_order"
  ]
 },
 "LinkFutureMatrix": {
  "breaks": "default label order of LinkFutureMatrix",
  "tightened": [
   "C25_default_order"
  ]
 },
 "digit_val": {
  "breaks": "only digits are read as numbers from a text file",
  "tightened": [
   "C20_any_file"
  ]
 },
 "squeeze": {
  "breaks": "a file with one column is squeezed to a vector",
  "tightened": [
   "C20_thin"
  ]
 },
 "genfromtxt": {
  "breaks": "a ragged file raises ValueError",
  "tightened": [
   "C20_ragged"
  ]
 },
 "unlink_loop": {
  "breaks": "effect of a failing unlink loop on the events",
  "tightened": [
   "C24_unlink_effect"
  ]
 },
 "add": {
  "breaks": "add(..., unlink=True) unlinks the events of the causet",
  "tightened": [
   "C24_unlink_effect"
  ]
 },
 "discard": {
  "breaks": "discard(..., unlink=True) unlinks the events of the causet",
  "tightened": [
   "C24_unlink_effect"
  ]
 },
 "relate": {
  "breaks": "state left behind by a failing relate",
  "tightened": [
   "C50_failed_relate"
  ]
 },
 "asymptotic": {
  "breaks": "C44: the approximate harmonic numbers are accurate",
  "tightened": [
   "C44_accuracy",
   "C44_default_threshold"
  ]
 },
 "dm_count": {
  "breaks": "C41: DistanceMatrix returns early only when every pair is connected",
  "tightened": [
   "C41_shortest"
  ]
 },
 "equivalent": {
  "sub": "the index of an arbitrary oracle is renamed",
  "min_of": "the default for an empty set is never reached",
  "rank_int": "the default branch is never reached (C35)",
  "newton_next": "the default is never read (xmin is Some in that branch)",
  "zget": "indices are always inside the matrix",
  "index_of": "the event is always in the list",
  "digit_val": "only 0 and not 0 is read from a field (astype(bool)), and a field that is not a number reads as -1, which is also true",
  "parse_digits": "only 0 and not 0 is read from a field",
  "unlink": "the branch gives the same value for every Some",
  "MaxEdgeHalf": "the default is never read: a constructed shape has this parameter",
  "compute_volume": "the default is never read: a constructed shape has this parameter",
  "plot_patch": "the default is never read: a constructed shape has this parameter",
  "dim_at": "the default is never read: the plotted dimensions are given for every axis that is read",
  "list_min": "the default for an empty list is never read",
  "list_max": "the default for an empty list is never read",
  "first_column": "the first column of an outline is only taken where no row is a gap",
  "fl_real": "the default is never read: the argument is finite",
  "gamma_half": "Gamma is never evaluated at 0",
  "copysign": "the argument is a square root or positive, so the absolute value changes nothing",
  "py_pow": "0 ** 0 is never evaluated",
  "ball_row": "the branch of diamonds is dead: no constructed shape has this name (C54_diamond_branch_dead), nor is the dimension of a ball 0",
  "sprinkle_coords": "the branch of diamonds is dead: no constructed shape has this name (C54_diamond_branch_dead)",
  "set_positions": "set_Position leaves the store unchanged when it raises",
  "SprinkledCauset": "the constructor of EmbeddedCauset raises before it changes the store (C65_succeeds)",
  "dynamic_setup": "the default is never read",
  "timeslice": "the number of links of an event without a slot is not read",
  "old_dist": "the diagonal of the matrix is never read for the inputs on which the function yields (C84 determines the whole result)",
  "old_min": "the default for an empty list is never read",
  "old_min_indices": "the branch is only reached with three or more events, where the function never yields (C84 determines the whole result)",
  "old_past_loop": "with a past layer every call raises IndexError (C84 determines the whole result)",
  "old_try_index": "C84 determines the whole result, also of the edited function",
  "old_extend": "the sequence is never empty here",
  "add_all": "the key is always present",
  "place_event": "the keys are always present",
  "fence_loop": "the branch is never reached",
  "time_of": "the coordinates are never empty",
  "link_count": "the branch before covers None, so the edited pattern matches the same values"
 }
}