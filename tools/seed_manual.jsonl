{"definition": "CausetModel.SpacelikeTo", "edit": "C ∖ ConeOf h S true false  ==>  dom h ∖ ConeOf h S true false", "breaks": "the events spacelike to a set are events of the causet; queries depend only on the causet's order (C92)", "theorems_about_it": ["C32_cones", "C92_sets"], "result": "killed", "failed": ["Prop_Causet.C32_cones"], "tightened": []}
{"definition": "CausetModel.isChain", "edit": "ConeCard h e = size C)  ==>  ConeCard h e = size (dom h))", "breaks": "isChain() looks at the causet, not at the other events of the program (C92, C95)", "theorems_about_it": ["C29_chain_antichain", "C92_sets"], "result": "killed", "failed": ["CausetFacts.isChain_none"], "tightened": []}
{"definition": "CausetModel.PastInf", "edit": "filter (λ e, PastCard h e = 0) C.  ==>  filter (λ e, PastCard h e = 0) (dom h).", "breaks": "PastInf holds events of the causet only (C92, C93)", "theorems_about_it": ["C31_infinities", "C93_sets"], "result": "killed", "failed": ["Prop_Causet.C31_infinities"], "tightened": []}
{"definition": "BuildModel.FromTextFile", "edit": "if isPastMatrix then FromPastMatrix r c (mat_get M) h     else FromFutureMatrix  ==>  if negb isPastMatrix then FromPastMatrix r c (mat_get M) h     else FromFutureMatrix", "breaks": "a file read back is the same causet (C94)", "theorems_about_it": ["C20_csv_round_trip", "C94_file"], "result": "killed", "failed": ["Prop_Build.C20_csv_round_trip"], "tightened": []}
{"definition": "CausetModel.FutureMatrix_of", "edit": "mat_T (length l) (PastMatrix_of h l).  ==>  PastMatrix_of h l.", "breaks": "the future matrix read back as a future matrix is the same causet (C94)", "theorems_about_it": ["C25_matrices", "C94_reload"], "result": "killed", "failed": ["Prop_Causet.C25_matrices"], "tightened": []}
{"definition": "BuildModel.fromperm_loop", "edit": "index_lt P j v = true  ==>  index_lt P j v = false", "breaks": "permutation reversed and complemented gives the opposite causet (C94); NewChain is a chain (C95)", "theorems_about_it": ["C14_FromPermutation", "C94_permutations", "C95_mirror"], "result": "killed", "failed": ["BuildFacts.fromperm_loop_spec"], "tightened": []}
{"definition": "BuildModel.simplex_face", "edit": "combinations fv (length fv - 1)  ==>  combinations fv 1", "breaks": "simplices without central face are their own opposites (C95)", "theorems_about_it": ["C16_NewSimplex", "C95_mirror"], "result": "killed", "failed": ["SimplexFacts.simplex_inner"], "tightened": []}
{"definition": "BuildModel.FromFutureMatrix", "edit": "FromPastMatrix c r (λ i j, C j i) h  ==>  FromPastMatrix c r C h", "breaks": "a past matrix read as a future matrix gives the opposite causet (C94)", "theorems_about_it": ["C18_FromFutureMatrix", "C94_reload"], "result": "killed", "failed": ["Prop_Build.C18_FromFutureMatrix"], "tightened": []}
{"definition": "BuildModel.fence_row", "edit": "then if closed then  ==>  then if true then", "breaks": "open fences have 2*l-1 links per level (C90); within (C17)", "theorems_about_it": ["C17_NewFence", "C90_fence"], "result": "killed", "failed": ["FenceFacts.fence_row_lookup"], "tightened": []}
