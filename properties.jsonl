{"id": "C01", "title": "Causal order invariant over event histories", "statement": "After any history of event-level calls (CausetEvent(past=P), CausetEvent(future=F), CausetEvent(past=P, future=F) when every event of the closed P already precedes every event of the closed F, link(), unlink(), every link query, disjoin()), the relation a < b observed through the comparison operators is irreflexive and transitive, and a in b.Past holds exactly when b in a.Future, for all events.", "quantifier": "every finite history of calls, every argument set, every set-iteration order", "why_tests_cant": "the relation is stored redundantly in two mutable sets per event and updated incrementally; only an inductive invariant covers all histories", "anchors": ["causetevent.py: CausetEvent.__init__, _addToPast, _addToFuture, _discard, disjoin, link, unlink"]}
{"id": "C02", "title": "The constructor does not close the order when both past and future are given", "statement": "A user may expect that CausetEvent(past=P, future=F) leaves the order transitive. It does not: there is a well-formed causet and arguments after which a < x and x < b hold but a < b does not. Transitivity is preserved exactly when every event of P's closure already precedes every event of F's closure.", "quantifier": "every well-formed heap, all P and F", "why_tests_cant": "the exact boundary between the preserving and the breaking calls is a statement about all heaps", "anchors": ["causetevent.py: CausetEvent.__init__"]}
{"id": "C03", "title": "Effect and frame of the constructor", "statement": "x = CausetEvent(past=P, future=F, label=l): x.Past is exactly the union of e.PresentOrPast over P, x.Future exactly the union of e.PresentOrFuture over F, x is added to the Future of exactly the events in x.Past and to the Past of exactly the events in x.Future, and the relation between any two older events, their labels and coordinates are unchanged.", "quantifier": "every heap satisfying the order invariant, all P and F, every iteration order of the internal sets", "why_tests_cant": "frame conditions quantify over every other event in memory", "anchors": ["causetevent.py: CausetEvent.__init__, _addToPast, _addToFuture"]}
{"id": "C04", "title": "Link queries always return the covering relation", "statement": "After any history of constructor calls (as in C01), link(), unlink() and link queries, LinkPast, LinkFuture, LinkCone, isPastLink, isFutureLink and isLinkedTo return exactly the covering pairs (a < b with no event strictly between), no matter whether, when and on which events the link caches were computed.", "quantifier": "every history of calls, every pair of events, every iteration order", "why_tests_cant": "link caches are maintained incrementally; a stale cache needs a particular interleaving of link() and constructor calls to show", "anchors": ["causetevent.py: link, unlink, LinkPast, LinkFuture, LinkCone, isPastLink, isFutureLink, isLinkedTo, _addToPast, _addToFuture"]}
{"id": "C05", "title": "disjoin removes exactly one event from the order", "statement": "x.disjoin() on an event whose links were computed leaves x.Past and x.Future empty, removes x from the Past and Future of every other event and changes no other relation; on an event whose links were never computed (or were reset) it raises AttributeError and changes nothing.", "quantifier": "every heap satisfying the order invariant, every event, every iteration order", "why_tests_cant": "frame over all events and all iteration orders of the cone", "anchors": ["causetevent.py: disjoin, _discard, unlink"]}
{"id": "C06", "title": "Link caches after disjoin", "statement": "A user may expect link queries to be right after disjoin. They are not: for the linked chain a < x < b, for every iteration order of the cone, x.disjoin() leaves b missing from a.LinkFuture or a missing from b.LinkPast although a < b is then a link.", "quantifier": "every set-iteration order", "why_tests_cant": "the outcome depends on the set iteration order; all orders fail, but each on a different side", "anchors": ["causetevent.py: disjoin, _discard"]}
{"id": "C07", "title": "Comparison operators and spacelike test agree", "statement": "For any two events exactly one of a < b, a > b, a is b, a.isSpacelikeTo(b) holds; a <= b iff a < b or a is b; a >= b iff a > b or a is b; a < b iff b > a; isCausalTo and isSpacelikeTo are symmetric and complementary.", "quantifier": "every heap satisfying the order invariant, every pair of events", "why_tests_cant": "the operators read different stored sets; agreement is an invariant of the whole history", "anchors": ["causetevent.py: __lt__, __le__, __gt__, __ge__, isCausalTo, isSpacelikeTo"]}
{"id": "C08", "title": "Event-level cardinalities match the sets", "statement": "PastCard, FutureCard and ConeCard are the sizes of Past, Future and Cone; Past, {self} and Future are pairwise disjoint; SpacelikeCard(S) is the size of Spacelike(S); Spacelike(S) contains exactly the events of S spacelike to the event.", "quantifier": "every heap satisfying the order invariant, every event and every set S", "why_tests_cant": "the cardinalities are computed by arithmetic on other sets, right only because of disjointness", "anchors": ["causetevent.py: PastCard, FutureCard, ConeCard, Spacelike, SpacelikeCard"]}
{"id": "C09", "title": "LinkConeCard", "statement": "LinkConeCard is documented as the number of linked past plus linked future events (the size of LinkCone). The code returns the bitwise AND of the two counts, which differs from the size of LinkCone on a concrete causet and equals it only when both link sets are empty.", "quantifier": "every pair of counts", "why_tests_cant": "tests on symmetric small causets miss it; the exact agreement set is a statement about all counts", "anchors": ["causetevent.py: LinkConeCard"]}
{"id": "C10", "title": "Rank is the length of the shortest link path", "statement": "a.Rank(b) is math.inf exactly when not a <= b; otherwise it is the least number of link steps of any path of links from a to b (0 for a is b, 1 for a link), independently of the order in which the link sets are iterated; the recursion terminates.", "quantifier": "every finite causet, every pair of events, every iteration order", "why_tests_cant": "recursive search with two-sided steps and an early exit; must be minimal over all paths", "anchors": ["causetevent.py: Rank"]}
{"id": "C11", "title": "copy is isolated but unregistered", "statement": "e.copy() returns a new event with the same Label, Past, Future and link caches; no existing event is changed. Hence the copy is not in the Future of the events of its Past (the order invariant a in b.Past iff b in a.Future fails for any event with a non-empty past or future).", "quantifier": "every heap and event", "why_tests_cant": "aliasing and frame over all events", "anchors": ["causetevent.py: copy"]}
{"id": "C12", "title": "Embedding state machine", "statement": "embed(c) without reembed succeeds exactly when the event is not embedded; after a successful embed, Coordinates and CoordinatesDim return c and its length; disembed raises AttributeError exactly when the event is not embedded, Coordinates raises after disembed. A freshly constructed event counts as embedded even when no coordinates were given, so embed on it raises AttributeError.", "quantifier": "every sequence of embed / disembed / Coordinates calls", "why_tests_cant": "sequences of calls", "anchors": ["causetevent.py: embed, disembed, isEmbedded, Coordinates, CoordinatesDim"]}
{"id": "C13", "title": "Causet(S) is the causal closure of S", "statement": "Causet(S) terminates and contains exactly the events reachable from S by a chain of comparable events: it contains S, is closed under Past and Future, and is contained in every such closed superset. Causet applied to such a closed set returns the same set.", "quantifier": "every heap satisfying the order invariant, every finite set S", "why_tests_cant": "fixpoint iteration; least-ness and termination for all heaps", "anchors": ["causet.py: Causet.__init__, ConeOf"]}
{"id": "C14", "title": "FromPermutation builds the 2D order of the permutation", "statement": "For every permutation P of 1..n, Causet.FromPermutation(P) has exactly n events, labelled 1..n, and the event labelled u precedes the event labelled w exactly when u < w and u stands before w in P; for a list that misses some value of 1..len(P) a ValueError is raised.", "quantifier": "every n and every permutation (every list)", "why_tests_cant": "all permutations of all sizes", "anchors": ["causet.py: FromPermutation"]}
{"id": "C15", "title": "NewChain and NewAntichain", "statement": "For every integer n, NewChain(n) has max(n,0) events that form a chain (isChain() is True, any two events are comparable in label order) and NewAntichain(n) has max(n,0) events that form an antichain (isAntichain() is True).", "quantifier": "every integer n", "why_tests_cant": "all n", "anchors": ["causet.py: NewChain, NewAntichain, isChain, isAntichain"]}
{"id": "C16", "title": "NewSimplex is the face order of the simplex", "statement": "NewSimplex(d, central) has one event for every non-empty subset of the d+1 vertices with at most d elements (plus the full face when central and d > 0; for d = 0 the one vertex), labelled by its vertices, and one event precedes another exactly when its vertex set is a strict subset; so there are 2^(d+1)-1 or 2^(d+1)-2 events for d > 0.", "quantifier": "every d and both flags", "why_tests_cant": "all dimensions; correctness of the incremental label search", "anchors": ["causet.py: NewSimplex"]}
{"id": "C17", "title": "NewFence and NewCrown", "statement": "For length >= 2 and height >= 0, NewFence has (height+1)*length events labelled 1..(height+1)*length; the event at level h and place l precedes the event at level h' and place l' exactly when h < h' and l lies within h'-h steps to the left of l' (cyclically if closed). For length < 1 or height < 0 it is empty, for length 1 it is a chain of height+1 events. NewCrown(length) is NewFence(length, 1, True).", "quantifier": "all lengths, heights and both values of closed", "why_tests_cant": "all sizes, wrap-around indexing", "anchors": ["causet.py: NewFence, NewCrown"]}
{"id": "C18", "title": "Past matrix round trip", "statement": "For every square matrix C that is a strict partial order, FromPastMatrix(C) returns a causet with events e_1..e_n labelled 1..n such that e_j precedes e_i exactly when C[i,j], satisfying the order invariant, and PastMatrix([e_1..e_n]) of the result is C again. FromFutureMatrix(C) does the same with the transposed matrix. Consequently, for every labelled causet, rebuilding it from its own PastMatrix() or FutureMatrix() yields a causet of new events order-isomorphic to it, position by position.", "quantifier": "every n and every strict-partial-order matrix", "why_tests_cant": "all matrices", "anchors": ["causet.py: FromPastMatrix, FromFutureMatrix, PastMatrix, FutureMatrix"]}
{"id": "C19", "title": "FromPastMatrix on link matrices, loops and non-square matrices", "statement": "The documentation promises completion of link matrices, extension of matrices with fewer rows than columns, and a ValueError for causal loops. For lower-triangular (past-first) square link matrices the Past sets, and so <, are the full transitive closure, but the Future sets are not (a chain of four links); a loop of three events is accepted; with fewer rows than columns the Future sets of the added events stay empty. FromPastMatrix raises ValueError exactly when there are more rows than columns or some of the first rows has a self-loop or a 2-loop; FromFutureMatrix when this holds with rows and columns exchanged. For a causet closed under Past and Future the link matrices are enough: FromPastMatrix(LinkPastMatrix()) and FromFutureMatrix(LinkFutureMatrix()) give events with the same <, position by position; for a set of events that is not closed this is false.", "quantifier": "every lower-triangular matrix; every shape", "why_tests_cant": "single in-place pass whose completeness depends on the row order", "anchors": ["causet.py: FromPastMatrix"]}
{"id": "C20", "title": "CSV round trip", "statement": "saveAsCSV(f) writes one line per event, pasts before futures, with the fields 1 (the event of the column is in the past of the event of the row) and 0 separated by commas. For every causet of at least two events with integer labels, FromTextFile(f) after saveAsCSV(f) returns a causet isomorphic to the original. For a causet with a single event the round trip raises IndexError because the parsed array has no dimensions. Other files: rows of different lengths raise ValueError, fewer than two rows or columns IndexError, and otherwise every field that does not read as zero counts as true.", "quantifier": "every finite causet", "why_tests_cant": "all causets; file-level encoding", "anchors": ["causet.py: saveAsCSV, FromTextFile, PastMatrix, FromPastMatrix"]}
{"id": "C21", "title": "merge is the ordinal sum", "statement": "Causet.merge(A, B) of two disjoint causets closed under Past and Future contains exactly the events of A and B, keeps the order inside A and inside B, puts every event of A before every event of B, and satisfies the order invariant; with disjoint=True no relation changes. For a set A that is not closed under Past the result is not transitive.", "quantifier": "every pair of closed causets, every iteration order", "why_tests_cant": "all causets and all iteration orders", "anchors": ["causet.py: merge; causetevent.py: _addToPast, _addToFuture"]}
{"id": "C22", "title": "Link caches after merge", "statement": "A user may expect link queries to be right after merge. They are not when the links of the arguments were already computed: for the linked chain p1 < p2 merged with a linked f, with p1 iterated first, f is in p1.LinkFuture although p2 lies between. If no event of A and B has link caches, all link queries after merge are right.", "quantifier": "every iteration order", "why_tests_cant": "depends on the iteration order and on earlier link() calls", "anchors": ["causet.py: merge; causetevent.py: _addToPast, _addToFuture"]}
{"id": "C23", "title": "Causet.link and LinkCount", "statement": "C.link() on a causet closed under Past and Future computes the correct links for all its events, whatever caches existed before; LinkCount() is then the number of covering pairs; unlink() resets every event and never raises.", "quantifier": "every closed causet in a heap satisfying the order invariant", "why_tests_cant": "the future links are filled in through other events' loops", "anchors": ["causet.py: link, unlink, LinkCount"]}
{"id": "C24", "title": "add and discard", "statement": "C.add(S) makes the event set the union with S and C.discard(S) the difference, and no event relation changes. With unlink=True they raise AttributeError as soon as one event of the resulting set has no link cache.", "quantifier": "every causet and set, every iteration order", "why_tests_cant": "frame conditions over all events", "anchors": ["causet.py: add, discard"]}
{"id": "C25", "title": "Causal and link matrices", "statement": "PastMatrix(L)[i][j] is True exactly when L[j] < L[i]; FutureMatrix is its transpose; LinkPastMatrix(L)[i][j] is True exactly when L[j] is linked in the past of L[i]; LinkFutureMatrix is its transpose. With the default labelling the matrices are strictly lower triangular.", "quantifier": "every causet, every list of events", "why_tests_cant": "all causets and labellings", "anchors": ["causet.py: PastMatrix, FutureMatrix, LinkPastMatrix, LinkFutureMatrix"]}
{"id": "C26", "title": "sortedByCausality is a linear extension", "statement": "sortedByCausality(S) returns every event of S exactly once such that no event stands before one of its causes; with reverse=True no event stands before one of its effects. This holds whatever order the label sort produced.", "quantifier": "every finite set of events in a partial order, every label assignment and sort order", "why_tests_cant": "a single pass of swaps; correctness is not evident and must hold for every order", "anchors": ["causet.py: sortedByCausality, sortedByLabels"]}
{"id": "C27", "title": "find, findAny, findAll", "statement": "find(l) returns an event of the causet labelled l if there is one, otherwise raises ValueError; findAll(l1..lk) and findAny(l1..lk) return exactly the events whose label is among the arguments.", "quantifier": "every causet and labels, every iteration order", "why_tests_cant": "all label assignments including duplicates", "anchors": ["causet.py: find, findAny, findAll"]}
{"id": "C28", "title": "Set operators", "statement": "C | X, C & X, C - X, C ^ X and the named methods are the set operations on the events of C; X | C, X & C, X ^ C likewise. X - C however returns the events of C that are not in X instead of the events of X not in C.", "quantifier": "every causet and every iterable", "why_tests_cant": "all sets", "anchors": ["causet.py: __sub__, __rsub__, __or__, __and__, __xor__, difference, union, intersection, symmetric_difference"]}
{"id": "C29", "title": "isChain and isAntichain", "statement": "isChain(E) is True exactly when any two events of E are comparable; isAntichain(E) exactly when no two distinct events of E are. isChain() and isAntichain() without argument agree with this for every causet closed under Past and Future.", "quantifier": "every set of events", "why_tests_cant": "decided by counting cone sizes; equivalence must hold for all sets", "anchors": ["causet.py: isChain, isAntichain"]}
{"id": "C30", "title": "isPath", "statement": "Every saturated chain of links passes isPath(E). The converse fails: isPath is True for the V-shaped set a < b, a < c and for the 2-crown, which are not chains.", "quantifier": "every set of events", "why_tests_cant": "only counts links per event", "anchors": ["causet.py: isPath"]}
{"id": "C31", "title": "Past and future infinities", "statement": "PastInfOf(S) and FutureInfOf(S) are the minimal and maximal events of S, non-empty for non-empty S; PastInf and FutureInf of a causet closed under Past and Future are those of its event set; the Card versions are their sizes.", "quantifier": "every finite set of events", "why_tests_cant": "existence of extremal elements for every finite order", "anchors": ["causet.py: PastInf, FutureInf, PastInfCard, FutureInfCard, PastInfOf, FutureInfOf, PastInfCardOf, FutureInfCardOf"]}
{"id": "C32", "title": "PastOf, FutureOf, ConeOf, SpacelikeTo", "statement": "Without intersect, PastOf / FutureOf / ConeOf return the union of the pasts / futures / cones, plus the set itself with includePresent; SpacelikeTo(S) returns the events of the causet spacelike to all of S. With intersect=True all three return the empty set for every argument instead of the common past / future / cone.", "quantifier": "every set of events and both flags", "why_tests_cant": "all sets; the intersect branch is never exercised", "anchors": ["causet.py: PastOf, FutureOf, ConeOf, SpacelikeTo"]}
{"id": "C33", "title": "Causal intervals", "statement": "Interval(a,b) is exactly {e : a <= e <= b} (without boundary, for a < b, {e : a < e < b}), empty unless a <= b; IntervalCard is its size; PerimetralEvents are the events linked to both a and b, InternalEvents the other events strictly between; the Count versions are their sizes and add up to the open interval.", "quantifier": "every pair of events", "why_tests_cant": "counts are computed by a different formula than the sets", "anchors": ["causet.py: Interval, IntervalCard, PerimetralEvents, PerimetralEventCount, InternalEvents, InternalEventCount"]}
{"id": "C34", "title": "CentralAntichain is a maximal antichain", "statement": "For every causet closed under Past and Future, CentralAntichain(e) returns a set of pairwise spacelike events such that every other event of the causet is comparable to one of them; it contains an event whose |past - future - diff| is minimal. This holds for every iteration order.", "quantifier": "every causet, every iteration order", "why_tests_cant": "greedy algorithm over an arbitrary iteration order", "anchors": ["causet.py: CentralAntichain"]}
{"id": "C35", "title": "Layers and LayerNumbers", "statement": "LayerNumbers(L) gives each event of L the largest cardinality minus 1 of an interval from an event of L to it (0 if none); they are non-negative and strictly increase along <; with reverse they are non-positive and strictly increase along <. For an antichain S, Layers(S, first, last) contains exactly the events of PastOf/FutureOf(S) whose layer number lies in [first, last]; layer 0 is S itself and each event of the cone of S lies in exactly one layer.", "quantifier": "every causet, every list / antichain, all bounds", "why_tests_cant": "max over intervals; monotonicity for every order", "anchors": ["causet.py: Layers, LayerNumbers"]}
{"id": "C36", "title": "layered partitions the causet by height", "statement": "C.layered() is a list of non-empty antichains that partition the events, the k-th of which contains exactly the events whose longest chain from the past infinity has k steps; it terminates. For reverse the same from the future infinity. For a subset that is not convex events can be lost.", "quantifier": "every closed causet", "why_tests_cant": "fixpoint loop; termination and partition for all causets", "anchors": ["causet.py: layered, Layers, PastInfOf, FutureInfOf"]}
{"id": "C37", "title": "Ranks and RankNumbers", "statement": "RankNumbers(L) gives each event of L the largest Rank from an event of L below it (0 if none), reverse its mirror image; Ranks(S, first, last) returns exactly the events of the past / future of S whose rank number lies in the bounds.", "quantifier": "every causet, list / set and bounds", "why_tests_cant": "max over shortest path lengths", "anchors": ["causet.py: Ranks, RankNumbers; causetevent.py: Rank"]}
{"id": "C38", "title": "Paths enumerates every link path exactly once", "statement": "Paths(a, b) yields exactly the saturated chains (lists of consecutive links) from a to b, each exactly once; Paths(a, b, n) exactly those with n events (n >= 0), Paths(a, b, [m, n]) exactly those with m to n events; nothing if not a <= b; a ValueError for other length types.", "quantifier": "every causet, every pair of events, every length argument, every iteration order", "why_tests_cant": "recursive generator with pruning; completeness and absence of duplicates for all causets", "anchors": ["causet.py: Paths"]}
{"id": "C39", "title": "Paths of minimal and maximal length", "statement": "Paths(a, b, 'min') yields exactly the link paths from a to b with the least number of events, and Paths(a, b, 'max') (or 'timegeo') exactly those with the greatest number, each exactly once.", "quantifier": "every causet, every pair of events, every iteration order", "why_tests_cant": "shared mutable bounds are updated during the depth-first search; correctness depends on all visiting orders", "anchors": ["causet.py: Paths"]}
{"id": "C40", "title": "SmallestIntervalCard", "statement": "SmallestIntervalCard(a, b, s, i) = SmallestIntervalCard(b, a, s, i) for all arguments. For comparable a, b without search set it is the size of the interval between them. For spacelike a, b with common past and future events in the search set it is the least size of an interval (intersected with i) from a common past to a common future event; 0 if there is neither.", "quantifier": "every causet, all events and optional sets", "why_tests_cant": "many branches; symmetry must hold in all of them", "anchors": ["causet.py: SmallestIntervalCard"]}
{"id": "C41", "title": "DistanceMatrix", "statement": "For every list of pairwise spacelike events DistanceMatrix terminates and returns a symmetric matrix with zero diagonal and every other entry either -1 or positive, or the zero matrix when the antichain has no related event; other counting names raise ValueError. With the default 'ziczac' counting and recursion the entry of two events is the length of the shortest walk of zigzags between them (a zigzag joins two events of the antichain below or above one event that is linked to every event of the antichain it is related to), and -1 exactly when there is no such walk. With 'intersection' counting the entry of two events is one less than the number of antichain events in the smallest interval around them (SmallestIntervalCard searching the layers -1..1 and intersecting the antichain), for every pair without recursion and for every directly connected pair with recursion.", "quantifier": "every causet, every antichain list, both counting methods and both recursive flags", "why_tests_cant": "nested in-place updates of a matrix", "anchors": ["causet.py: DistanceMatrix, Layers, SmallestIntervalCard"]}
{"id": "C42", "title": "Antipaths", "statement": "Antipaths(a, b, along) yields lists that start with a, end with b and stay inside along; for an antichain with a related event and the default distances it yields exactly the shortest walks of zigzags from a to b, each once, and raises nothing (given a recursion limit of at least the length of along); for an antichain without related events it raises ValueError.", "quantifier": "every causet and antichain", "why_tests_cant": "recursive generator driven by a matrix", "anchors": ["causet.py: Antipaths, DistanceMatrix"]}
{"id": "C43", "title": "disjoint returns the connected components", "statement": "disjoint(S) returns a list of pairwise disjoint non-empty sets with union S such that two events lie in the same set exactly when they are connected by a chain of comparable events inside S; no relation holds between events of different sets. isDisjoint(S) is True exactly when two events of S are not connected.", "quantifier": "every finite set of events, every choice of start events", "why_tests_cant": "nested fixpoint loops with arbitrary choices", "anchors": ["causet.py: disjoint, isDisjoint"]}
{"id": "C44", "title": "Harmonic numbers", "statement": "HarmonicNumberFraction(n) = 1 + 1/2 + ... + 1/n exactly, HarmonicNumberFractions(n) lists these for 0..n, and HarmonicNumbers(n)[k] computes the same formula as HarmonicNumber(k) for all k <= n and every approximation threshold; below the threshold the value is exact, from it on the formula is off by at most 1/(252 k^6) (never too small), plus the error of the constant np.euler_gamma.", "quantifier": "every n, k and threshold", "why_tests_cant": "all n", "anchors": ["calculations.py: HarmonicNumber, HarmonicNumbers, HarmonicNumberFraction, HarmonicNumberFractions"]}
{"id": "C45", "title": "NewtonsMethod stays in its interval", "statement": "For every f, f', start value and bounds with xmin + precission <= xmax and xmin <= xmax - precission, NewtonsMethod returns the default or a value in [xmin, xmax] reached within maxIterations steps, the last step being smaller than the precission. The documented tighter interval [xmin + precission, xmax - precission] is not respected. If f is increasing and concave (or -f is) between the start value and a solution above it, with slopes f', NewtonsMethod does not return the default but a value between both, whose distance to the solution is bounded by the precission times q/(1-q), q = 1 - f'(solution)/f'(start), provided that q^(maxIterations-1) times the initial distance is below the precission.", "quantifier": "every function pair, start value, bounds, precision and iteration limit", "why_tests_cant": "all functions", "anchors": ["calculations.py: NewtonsMethod"]}
{"id": "C46", "title": "Causality functions never relate both ways", "statement": "For every spacetime that can be constructed, the returned causality function never reports both x <= y and x > y; the answer for (y, x) is the swapped answer for (x, y), except for points with the same ordering time (coordinate time; the ambient time for de Sitter and Anti-de Sitter) that are reported (True, False) in both orders. A larger tolerance only adds relations.", "quantifier": "all coordinate pairs, all parameters", "why_tests_cant": "continuous domain", "anchors": ["spacetimes.py: FlatSpacetime.Causality, deSitterSpacetime.Causality, AntideSitterSpacetime.Causality, BlackHoleSpacetime.Causality"]}
{"id": "C47", "title": "Flat causality is a partial order up to the tolerance", "statement": "With tolerance 0 the flat causality in every dimension is exactly the Minkowski light cone order and hence reflexive, transitive and antisymmetric; the periodic causality, for points at most one period apart, is exactly 'some periodic image of y is in the future light cone of x' and reflexive and transitive. Beyond one period the periodic answer is wrong. With a positive tolerance (1e-12 in the code) the relation is not transitive in any dimension >= 2, but nothing causal is missed, everything reported is causal after a delay of at most eps (2 dimensions) or sqrt(eps) (more dimensions), and along a chain of n reported relations the last point is causal to the first after n such delays.", "quantifier": "all points in all dimensions", "why_tests_cant": "needs the Cauchy-Schwarz inequality in every dimension", "anchors": ["spacetimes.py: FlatSpacetime.Causality, causality_eps"]}
{"id": "C48", "title": "de Sitter and Anti-de Sitter causality", "statement": "With tolerance 0 the de Sitter causality is a partial order in every dimension on the points inside the horizon, namely the light cone order of their places on the hyperboloid in the ambient Minkowski spacetime; points on or outside the horizon are unrelated to everything; a positive tolerance eps adds only pairs that are causal after an ambient delay of at most sqrt(eps); in two dimensions it is exactly the order given by the light rays. The Anti-de Sitter causality in every dimension compares the places on the hyperboloid in the ambient space with two times, ordered by the first of them. In two dimensions it is the light ray order for |t/alpha| + |atan(x/alpha)| < pi/2, and is reversed for some pairs of points outside of this region, even for times below alpha*pi/2, and for events at the same place on both sides of the turning point.", "quantifier": "all points in all dimensions and all radii", "why_tests_cant": "continuous domain", "anchors": ["spacetimes.py: deSitterSpacetime.Causality, AntideSitterSpacetime.Causality"]}
{"id": "C49", "title": "Black hole causality is transitive", "statement": "For both metrics the 2D black hole causality is transitive and antisymmetric on all points (horizon included) and reflexive off the horizon, for every Schwarzschild radius; off the horizon it is exactly the order given by the ingoing and outgoing light rays. On the horizon no point is before itself or before later points of the horizon.", "quantifier": "all points and radii", "why_tests_cant": "continuous domain with case split at the horizon", "anchors": ["spacetimes.py: BlackHoleSpacetime.Causality, _light_EF, _light_S"]}
{"id": "C50", "title": "relate reproduces the spacetime causality", "statement": "After EmbeddedCauset.relate(), for two distinct events a before b in the iteration order, a < b holds exactly when the causality function answers (True, _) and b < a exactly when it answers (_, True); Past and Future are mutually converse; nothing else is related; with link=True all events are linked and link queries are the covering relation, with link=False all link caches are gone. For a causality that decides a transitive relation (flat spacetime with tolerance 0, within one period of a periodic one, de Sitter, the black hole, the diamond of 2D Anti-de Sitter) the result is a strict partial order that equals the spacetime's causal order on distinct points. Events at one point are ordered by the set iteration order, and with the tolerance 1e-12 the result need not be transitive. An event without coordinates raises AttributeError.", "quantifier": "every set of coordinates, every causality function, every iteration order", "why_tests_cant": "all embeddings", "anchors": ["embeddedcauset.py: relate, create"]}
{"id": "C51", "title": "Both FromPermutation constructors agree", "statement": "For every permutation P of 1..n and radius with 2 * radius > eps * n (eps the causality tolerance), EmbeddedCauset.FromPermutation(P, radius) has the events labelled 1..n and u < w in the causet exactly when u < w and u stands before w in P - the same order as Causet.FromPermutation(P). For a radius up to the tolerance the antichain [2, 1] gets related.", "quantifier": "every permutation, radius, tolerance and iteration order", "why_tests_cant": "interaction of geometry and tolerance for all permutations", "anchors": ["embeddedcauset.py: FromPermutation, _Permutation_Coords, create; spacetimes.py: FlatSpacetime.Causality; causet.py: FromPermutation"]}
{"id": "C52", "title": "create and relabel", "statement": "create(coords) adds exactly one new event per coordinate row with labels Card+1.. in row order and these coordinates, leaves all events outside of the causet unchanged, and relates the whole causet (or nothing with relate=False). relabel(dim) gives the n events the labels 1..n such that labels increase (descending: decrease) weakly with the coordinate and changes nothing else; it raises IndexError for a dimension out of range and AttributeError without coordinates, changing nothing.", "quantifier": "every causet and coordinate list, every iteration order, every result numpy.argsort may return for ties", "why_tests_cant": "all inputs", "anchors": ["embeddedcauset.py: create, relabel"]}
{"id": "C53", "title": "Sprinkling intensity bookkeeping", "statement": "Starting from SprinkledCauset(card=n), after any sequence of returning sprinkle(k), create(coords), add(S) and discard(S) calls (and of sprinkle calls refused for a negative count) Intensity equals Card; with intensify calls, and without add and discard, Intensity is the sum of the requested numbers; it is never negative whatever raises; discard scales it by the share of remaining events; discard on an empty causet raises ZeroDivisionError; negative counts and intensities raise ValueError and change nothing. Density is Intensity per volume and LengthScale to the power Dim its inverse. A sprinkle call that fails after the check (a one-dimensional cylinder) has already changed Intensity. The overriding add, discard and create leave the events' relations, the causet's event set, the shape, the spacetime and the outcome exactly as the inherited methods do (discard on an empty causet apart).", "quantifier": "every sequence of operations", "why_tests_cant": "histories", "anchors": ["sprinkledcauset.py: sprinkle, intensify, create, add, discard, Intensity"]}
{"id": "C54", "title": "Sprinkled coordinates lie in the shape", "statement": "For cube, cuboid, ball and cylinder shapes every sprinkled coordinate lies in the shape (in particular within Limits of every dimension), for every random generator. For diamond / bicone shapes - the default of flat spacetime - the coordinates are never assigned: the returned array is uninitialised memory. A sprinkling shape of another dimension than the causet's raises ValueError on the first point (ZeroDivisionError for a cylinder in a one-dimensional causet), with these exceptions: a one-dimensional cube or cuboid is accepted and puts every point on the diagonal, and a one-dimensional ball and a two-dimensional cylinder are accepted and sprinkle into the ball / cylinder of the causet's dimension whose centre repeats their coordinate.", "quantifier": "every shape, every random stream, every count", "why_tests_cant": "all random outcomes", "anchors": ["sprinkledcauset.py: _sprinkle_coords; shapes.py: CoordinateShape.__init__, Limits"]}
{"id": "C55", "title": "Shape validation", "statement": "CoordinateShape(dim, name, params) succeeds exactly when dim >= 1, the name is one of the six supported names, the centre has dim entries, and the parameters are in the documented ranges; otherwise ValueError. The name 'diamond' is stored as 'bicone'.", "quantifier": "all inputs", "why_tests_cant": "all parameter combinations", "anchors": ["shapes.py: CoordinateShape.__init__"]}
{"id": "C56", "title": "Shape limits and volume", "statement": "For every valid shape Limits(d) is an interval of positive length centred at the centre's coordinate for 0 <= d < dim and raises ValueError otherwise; Volume is positive, is the difference of the outer and inner volume for hollow shapes and is cached consistently; MaxEdgeHalf(dims) bounds every half edge along dims.", "quantifier": "all valid shapes and dimensions", "why_tests_cant": "all parameters", "anchors": ["shapes.py: Limits, Volume, MaxEdgeHalf"]}
{"id": "C57", "title": "Static plots draw exactly the events, labels and links", "statement": "A static plot of distinct events returns one artist per link of the events (none left empty, no IndexError, exactly LinkCountOf(events) of them), ordered by the pairs of the list, then one marker per event and one label per event, and draws nothing else; the line of a link goes through its two events and, as gaps, through exactly the other plotted events that are in the box of the link and within 1e-7 of its line, in the order along the segment; plotting does not change the events, and with links=False it does not even link unlinked events. With a repeated linked event in the list the plot fails with IndexError. LinkCountOf(S) is the number of unordered pairs of events of S that are linked. With links=False exactly the markers and labels are drawn and the links handle is absent.", "quantifier": "every list or set of events, every choice of 2 or 3 plot dimensions, all plot parameters", "why_tests_cant": "all causets, all positions of events on links", "anchors": ["causetplotting.py: Plotter; causetevent.py: LinkCountOf, isLinkedTo"]}
{"id": "C58", "title": "plotDiagram positions", "statement": "plotDiagram(E, P) with a permutation P of 1..len(E) puts the event number p at the light-cone cell (p, place of p in P), changes no other event and no other attribute, and then plots E; so it agrees with the documentation (event i at (i, P[i])) exactly for permutations that are their own inverse. With a list of another length the positions are kept.", "quantifier": "every list of distinct events, every permutation", "why_tests_cant": "all permutations", "anchors": ["causetplotting.py: plotDiagram; embeddedcauset.py: _Permutation_Coords"]}
{"id": "C59", "title": "Colour schemes", "statement": "getColor / convertColorsInList / convertColorsInDict replace exactly the values that start with 'cs:' by the scheme's colour and leave every other value unchanged, raise KeyError for a colour name missing in the scheme and ValueError for an unknown scheme, and conversion is idempotent; every default plot colour resolves in every scheme. One scheme value is not a valid hexadecimal colour.", "quantifier": "all strings, lists, dictionaries and schemes", "why_tests_cant": "all inputs", "anchors": ["colorschemes.py: getColor, convertColorsInDict, convertColorsInList, ColorSchemes; causetplotting.py: default_colors"]}
{"id": "C60", "title": "permuted: which causets it handles, and what it returns", "statement": "permuted(C, eventSet) returns exactly for the event sets that can be built from the empty set by adding a least event, adding a greatest event and placing unrelated sets side by side; for every other set (for example any set with a connected part with two minimal and two maximal events) it raises TypeError. When it returns, the event list contains every event exactly once, causes first; but, unlike the documentation says, the integer list is always shorter than the event list (for nonempty sets), so never a permutation; for disjoint chains of n1<=n2<=... events it is 1..n1-1, 1..n2-1, ...; for n>=2 unrelated events below a chain of m events it is n+1..m-1 (empty for m<=n+1).", "quantifier": "every causet, every event set, every set iteration order", "why_tests_cant": "all posets and iteration orders", "anchors": ["causetpermutations.py: permuted, __perm_disjointsubsets, __perm_jointsubset, __perm_layeredsubset"]}
{"id": "C61", "title": "Fading of opacity", "statement": "dynamic_parameter('linear'|'exponential'|'intensity', dim, depth, alpha) with depth > 0 is 0 for negative values, alpha at 0, decreasing, never above alpha and equal to alpha(1-v/depth), alpha exp(-v/depth), alpha/(1+v)^(dim-1); 'linear' is positive exactly on [0, depth). The documented half-time 'timedepth' of 'exponential' is wrong (value alpha/e). Negative depth mirrors 'linear' and 'exponential', but 'intensity' does not fade then; depth 0 exceeds alpha before the slice. Any other name (including the documented '') gives no function, and plotting cones with conetimefade='' fails with UnboundLocalError.", "quantifier": "all real values and parameters, all names", "why_tests_cant": "continuous domain", "anchors": ["causetplotting.py: dynamic_parameter, Plotter"]}
{"id": "C62", "title": "sortedByLabels sorts by label", "statement": "sortedByLabels(S) of events with integer labels returns every event of S exactly once with labels ascending; with reverse=True descending.", "quantifier": "every event set with integer labels, every iteration order of the set and every result numpy.argsort may return for ties", "why_tests_cant": "ties and set iteration order vary between runs, and the set is of arbitrary size", "anchors": ["causet.py: Causet.sortedByLabels"]}
{"id": "C63", "title": "Constructing spacetimes", "statement": "FlatSpacetime(dim, period) succeeds exactly for dim >= 1 with a float period or a tuple of dim - 1 periods, the de Sitter and Anti-de Sitter spacetimes exactly for dim >= 2 and a positive radius, the black hole spacetime exactly for dim == 2, a positive radius and one of the two metric names; all other calls raise ValueError. repr() of a flat spacetime without period raises KeyError.", "quantifier": "all dimensions, periods, radii and metric names", "why_tests_cant": "A test tries a few arguments; the exact set of accepted arguments is a statement about all integers, reals, tuples and strings.", "anchors": ["spacetimes.py: FlatSpacetime.__init__, FlatSpacetime.__repr__, _dSSpacetime.__init__, deSitterSpacetime.__init__, AntideSitterSpacetime.__init__, BlackHoleSpacetime.__init__"]}
{"id": "C64", "title": "Density and LengthScale", "statement": "Density times the shape volume is the number of events. LengthScale to the power of the dimension is the density (0.0 for an empty causet), so it equals the documented inverse root exactly when the density is 1.", "quantifier": "every embedded causet with a shape of positive volume", "why_tests_cant": "Ranges over all shapes, dimensions and event counts; a test at one density cannot tell a root from an inverse root in general.", "anchors": ["embeddedcauset.py:EmbeddedCauset.Density", "embeddedcauset.py:EmbeddedCauset.LengthScale"]}
{"id": "C65", "title": "Constructing embedded causets", "statement": "EmbeddedCauset(spacetime, shape, coordinates, dim) yields a causet whose spacetime and shape have the same dimension (dim if given, else the one of the spacetime object, of the shape object, of the first event, or 2), the given spacetime / shape object or the flat spacetime / the default shape, the spacetime with default parameters for a name, and one event per coordinate row. It succeeds exactly if the spacetime, the shape and an array of coordinates fit to this dimension and the names are known; otherwise it raises ValueError - only an empty list of coordinates without a dimension raises IndexError - and changes nothing. Rows of a list are not checked (only arrays are), and the name 'Schwarzschild' selects Eddington-Finkelstein coordinates.", "quantifier": "all arguments", "why_tests_cant": "All combinations of the four optional arguments and all dimensions.", "anchors": ["embeddedcauset.py:EmbeddedCauset.__init__"]}
{"id": "C66", "title": "Sprinkling is uniform by volume", "statement": "A sprinkled coordinate of a cube or cuboid is at most the share t of the way from the lower to the upper limit exactly if its random number is at most t. A point of a ball (cylinder) has at most the distance rho * radius from the centre (axis) exactly if its random number is at most the share of the volume of the shape within that distance - taking the hollow part into account; its direction is that of a vector of standard normal numbers, and the time of a cylinder point is uniform. Every number is used for one coordinate only.", "quantifier": "every shape of these kinds, dimension, count, position in the random stream and random stream", "why_tests_cant": "a statement about a distribution: tests can only sample", "anchors": ["sprinkledcauset.py: _sprinkle_coords"]}
{"id": "C67", "title": "Reading links caches them and changes nothing else", "statement": "After reading LinkPast, LinkFuture, LinkCone, one of their cardinalities, or calling isPastLink, isFutureLink or isLinkedTo on an event, hasBeenLinked() is True for this event; its past, future, label, coordinates and position and all attributes of all other events are unchanged; if the event was linked before, nothing at all changes.", "quantifier": "every state, event and query", "why_tests_cant": "a frame property over all stores and queries", "anchors": ["causetevent.py: LinkPast, LinkFuture, LinkCone, LinkPastCard, LinkFutureCard, LinkConeCard, isPastLink, isFutureLink, isLinkedTo"]}
{"id": "C68", "title": "What adding and discarding relatives returns", "statement": "_addToPast / _addToFuture return True exactly if the event was not there before; afterwards it is there, the opposite side and all other events are unchanged. _discard returns True exactly if the event was in the past or the future; it is removed from the past, and from the future only if it was not in the past. A call that returns False changes nothing.", "quantifier": "every state and pair of events", "why_tests_cant": "all stores, including ones where an event is in both past and future", "anchors": ["causetevent.py: _addToPast, _addToFuture, _discard"]}
{"id": "C69", "title": "Plot parameters and axis limits", "statement": "plot_parameters returns the documented defaults overwritten by the user's values with every 'cs:' colour replaced by the colour of the scheme, and raises ValueError for other than 2 or 3 dims and KeyError for an undefined colour; the axis limits are the given ones, or those of the given shape, which contain the whole shape; the plot sets the limits of the x- and y-axis when both are there, and that of the z-axis exactly in three dimensions and when it is there. The documented axislim='shape' for an EmbeddedCauset fails with TypeError.", "quantifier": "all keyword arguments, all colour schemes, all shapes", "why_tests_cant": "all combinations of parameters", "anchors": ["causetplotting.py: plot_parameters, Plotter"]}
{"id": "C70", "title": "Dynamic plots and causal cones", "statement": "In dynamic mode an event and its label are drawn exactly if the event is within the time depth beyond the slice, with the faded opacity; a link is drawn exactly if both events are visible, or one is visible and the other behind the slice, from the visible event further away to the other event or to the point where the segment meets the slice (then marked); its slot is its index among the links. links=False in dynamic mode fails with KeyError. Past (future) cones are drawn exactly for the events later than the first (earlier than the last) time with positive opacity for which the spacetime provides a boundary. Switching cones on only adds their artists before all others: the plot then raises the same error or draws and returns the same links, events, labels and limits as with the cones switched off.", "quantifier": "every list of events, every slice time, depth and fading", "why_tests_cant": "continuous parameters, all causets", "anchors": ["causetplotting.py: Plotter, _timeslice"]}
{"id": "C71", "title": "Position of an event", "statement": "Setting Position of an event to two values makes Position return them and changes nothing else; any other number of values raises ValueError and changes nothing. The constructor stores the position unchecked; an event made without a position has the empty position (not the origin of the fallback), and its diagram cannot be drawn (IndexError).", "quantifier": "all events, all values", "why_tests_cant": "all states", "anchors": ["causetevent.py: Position, __init__"]}
{"id": "C72", "title": "AntichainPermutations, layeredPermutations and layers of one event", "statement": "Every list AntichainPermutations yields starts and ends at two different events of the antichain and stays inside it; for the empty antichain it raises ValueError; for an antichain of one event it yields nothing (unless includeGlobalSymmetry), so permuted_old raises an exception for every causet that has a layer of exactly one event, RuntimeError if it has a single minimal event; for the empty set permuted_old returns two empty lists. If every layer has a permutation, layeredPermutations yields exactly the choices of one permutation per layer, each combination once, the last layer varying fastest; for the empty set it yields one empty choice and then raises UnboundLocalError.", "quantifier": "every causet, antichain, iteration order, recursion limit and maxIterations", "why_tests_cant": "all causets", "anchors": ["causetpermutations.py: AntichainPermutations, layeredPermutations, permuted_old"]}
{"id": "C73", "title": "permuted_old returns as many events and integers as the causet has, or nothing", "statement": "If permuted_old returns for a whole causet, it returns either two empty lists or n events of the causet and n integers between 1 and n; if no layer permutation repeats an event, the n events are all events of the causet exactly once. Of the first maxIterations choices of layer permutations it returns the first one with the least number of extended causal relations (pairs of events that become related because one lies, in some layer, between two events of the future of the other); it returns two empty lists only if all choices fail, and raises ValueError if the first maxIterations fail and there are more (always for maxIterations = 0). Each returned event stands at the place (number of events of its extended past plus number of events on its near side) with the integer (number of events of its extended past plus number on its far side plus one), so place plus integer plus the size of its extended future is n plus the size of its extended past. The documented result (a permutation) does not hold in general: there are causets for which an event is returned twice and another is missing, for which the integers repeat, for which it raises KeyError, and for which it silently returns two empty lists.", "quantifier": "every causet, iteration order, recursion limit and maxIterations", "why_tests_cant": "all causets", "anchors": ["causetpermutations.py: permuted_old, layeredPermutations, AntichainPermutations"]}
{"id": "C74", "title": "findClosedFences never finds a fence", "statement": "findClosedFences returns the given start lists (with orientation) if they already form a closed fence inside the two antichains, an empty list if they do not start a fence, raises IndexError for two empty lists, and for every open start of a fence it never returns a result: it loops forever or raises IndexError.", "quantifier": "every causet, start lists and antichains", "why_tests_cant": "non-termination and all inputs", "anchors": ["causetpermutations.py: findClosedFences"]}
{"id": "C75", "title": "CoordinateShape.plot in 2D paints the cut through the centre", "statement": "For every constructed shape and two different existing dimensions, plot paints a point of the plane if and only if the point with these two coordinates, that agrees with the centre of the shape in all others, belongs to the shape. Hollow discs are painted as rings between polygons of 128 edges, which agree with the cut up to the factor cos(pi/128) in the radii. A dimension the shape does not have raises IndexError. The claim is false for a cylinder with the time on the first axis: it is drawn displaced by the difference of the two centre coordinates (and hence correctly if and only if they are equal).", "quantifier": "every shape, every pair of dimensions, every point of the plane", "why_tests_cant": "all shapes, centres, radii and all points of the plane", "anchors": ["shapes.py: CoordinateShape.plot", "shapes.py: CircleEdge, BiconeEdge, CylinderCutEdge, RectangleEdge"]}
{"id": "C76", "title": "The outline functions describe the shapes they name", "statement": "EllipseEdge, CircleEdge, RectangleEdge, BiconeEdge and CylinderCutEdge return closed polygons (two, separated by a row of nan, if hollow), with the documented number of rows; all points of EllipseEdge lie on the outer or inner ellipse; the filled polygon of RectangleEdge, BiconeEdge and CylinderCutEdge is exactly the rectangle, (hollow) bicone and (hollow) cylinder cut, and that of CircleEdge is the disc or ring up to the factor cos(pi/n) in the radii, where n is the sampling size (128 if non-positive).", "quantifier": "every centre, size, hollow parameter, sampling size and every point of the plane", "why_tests_cant": "all parameters and all points", "anchors": ["shapes.py: RectangleEdge, CircleEdge, EllipseEdge, BiconeEdge, CylinderCutEdge"]}
{"id": "C77", "title": "CoordinateShape.plot in 3D draws the boundary of the cut through the centre", "statement": "For every constructed shape and three different existing dimensions (for bicones and cylinders: the time, if shown, on the last axis), all nodes of the surfaces drawn are boundary points of the cut of the shape through its centre, and every boundary point of the cut is within a seventh of the radius of the surface drawn; boxes are drawn exactly. BallSurface, CylinderSurface and OpenConeSurface return grids of the documented size with all nodes on the sphere, on the documented rims, and on the apex and rim of the cone, for every sampling size. The claim is false with the time on the first or second axis: a cylinder is then drawn around the centre with cyclically permuted coordinates (correct if and only if the three centre coordinates agree), and a bicone always has drawn nodes outside the shape.", "quantifier": "every shape, every triple of dimensions, every sampling size, every node and boundary point", "why_tests_cant": "all shapes, centres, radii and all points of space", "anchors": ["shapes.py: CoordinateShape.plot", "shapes.py: BallSurface, CylinderSurface, OpenConeSurface, CuboidSurface"]}
{"id": "C78", "title": "Plotting does not change the shape", "statement": "Plotting a shape in 3D leaves its dimension, name, centre and all parameters unchanged. The claim is false for exactly one family: a hollow bicone plotted with its time dimension has its radius multiplied by the hollow parameter by every plot, so that it does not contain its former tip any more and has the radius r * hollow^n after n plots.", "quantifier": "every shape, every list of dimensions, every number of plots", "why_tests_cant": "all shapes and plot histories", "anchors": ["shapes.py: CoordinateShape.plot", "shapes.py: CoordinateShape.Parameter"]}
{"id": "C79", "title": "When a causal cone is drawn", "statement": "The handle of ConePlotter draws nothing exactly if the time slice is not later than the origin (earlier, for past cones) or the opacity function is not positive there; otherwise it draws with the opacity given by that function, as a patch in 2D plots and as surfaces in 3D plots, for any 2 or 3 different dimensions. In de Sitter spacetime origins on or beyond the horizon are skipped too and a 3D plot without the time raises NotImplementedError; base and anti-de Sitter spacetimes raise NotImplementedError whenever a cone would have to be drawn (except for skipped origins beyond the boundary of the 2D anti-de Sitter spacetime).", "quantifier": "every flat, de Sitter, anti-de Sitter and base spacetime, dimension list, origin, time slice, opacity function, sampling size and time direction", "why_tests_cant": "all origins, slices and opacity functions", "anchors": ["spacetimes.py: FlatSpacetime.ConePlotter", "spacetimes.py: Spacetime.ConePlotter", "spacetimes.py: _dSSpacetime._XT_slice", "spacetimes.py: deSitterSpacetime._XY_slice"]}
{"id": "C80", "title": "2D cones of flat spacetime show the causal cone", "statement": "In a 2D plot with the time dimension the painted patch is exactly the set of points of the plane through the origin that are in the causal future (past) of the origin according to the causality function of the spacetime and not beyond the time slice, at most one period away; with periodic boundaries it is the union of the cone and its images one period away. In a plot of two space dimensions only points that are causally related at the time of the slice are painted, and every point that is related a bit earlier is painted.", "quantifier": "every flat spacetime with or without periods, origin, time slice, axis order, time direction and sampling size of at least 3", "why_tests_cant": "all real points, origins and periods", "anchors": ["spacetimes.py: FlatSpacetime.ConePlotter", "spacetimes.py: FlatSpacetime.Causality"]}
{"id": "C81", "title": "3D cones of flat spacetime show the light cone", "statement": "In a 3D plot the nodes of the surfaces lie on the light cone of the origin (or an image one period away) up to the time slice, and every point of that light cone is close to the surfaces. The claim is false if time is on the first or second axis and the origin has different coordinates: the cone is drawn exactly, but displaced by the cyclic permutation of the origin.", "quantifier": "every flat spacetime, three different dimensions, origin, time slice and sampling size", "why_tests_cant": "all real points and origins; the displacement vanishes for the origins that tests use", "anchors": ["spacetimes.py: FlatSpacetime.ConePlotter", "shapes.py: OpenConeSurface", "shapes.py: BallSurface"]}
{"id": "C82", "title": "Causal cones of de Sitter spacetime show the causal order", "statement": "For an origin inside the horizon whose space coordinates that are not plotted are zero, the cone drawn in de Sitter spacetime is the causal cone given by the spacetime's own causality function: in a plot of two space dimensions every painted point lies in the cone and every point that is well inside the cone (by alpha*(1-cos(pi/128))) is painted; in a time-space plot the painted region agrees exactly with the cone at the sampled times and up to one sampling step in between; in 3D time-space plots the surface consists of points of the light cone and comes close to every point of it up to the slice. If another space coordinate of the origin is not zero, this fails.", "quantifier": "every de Sitter spacetime of any dimension and radius, plotted dimensions in any order, origin, slice, time direction, opacity, sampling size", "why_tests_cant": "a statement about all points of the plane and all origins; transcendental functions", "anchors": ["spacetimes.py: deSitterSpacetime._XY_slice", "spacetimes.py: deSitterSpacetime._XT_slice2", "spacetimes.py: _dSSpacetime._XT_slice", "spacetimes.py: Spacetime.ConePlotter", "spacetimes.py: deSitterSpacetime.Causality"]}
{"id": "C83", "title": "Causal cones of black holes follow the light rays", "statement": "In a time-space plot of a black hole spacetime the drawn cone starts at the origin and follows its outgoing and ingoing radial light rays on the origin's side, in equal radial steps; the rays end at the time slice up to a stated error quadratic in the precision 1e-6 (unless Newton's method fails or stops next to the horizon or centre; outside the horizon it is stated for which time slices it does not fail: D(1+D/d) < 2^49 10^-6 for the ray that leaves, D being the time and d the distance to the horizon), or at the centre; the times are infinite exactly on the horizon; every vertex in the time direction of the cone is causally related to the origin by the spacetime's own causality function; nothing is drawn exactly if the time slice is not in the time direction or the opacity is not positive, and the axes may be exchanged; a plot of three axes or without the time axis is refused. Past cones of events on the horizon in the Schwarzschild metric are drawn wrongly.", "quantifier": "every horizon radius, metric, origin, time slice, time direction, sampling size and opacity function", "why_tests_cant": "all origins and slices; logarithms, singular values on the horizon and an iterative solver", "anchors": ["spacetimes.py: BlackHoleSpacetime._XT_slice", "spacetimes.py: BlackHoleSpacetime._light_EF", "spacetimes.py: BlackHoleSpacetime._light_S", "spacetimes.py: Spacetime.ConePlotter", "calculations.py: NewtonsMethod"]}
{"id": "C84", "title": "AntichainPermutations_old handles at most two events", "statement": "For an antichain AntichainPermutations_old yields the empty tuple if it is empty, the event if it has one, and for two events without a past layer only one of the two orders: the event with the larger ConeCard first, for equal ones the order of the labels. For three or more events without a past layer it never yields and never ends; for two or more events with a past layer it raises IndexError. The documentation promises all possible permutations.", "quantifier": "every causet, antichain with sortable labels, past layer and iteration order", "why_tests_cant": "non-termination and all antichains", "anchors": ["causetpermutations.py: AntichainPermutations_old", "causet.py: SmallestIntervalCard"]}
{"id": "C85", "title": "Showing objects: texts and side effects", "statement": "str(e) is '#Event' exactly for events without label or with the label 0 or '', otherwise '#' and the label (texts in quotes); two events have the same text exactly if their labels are equal or both are such empty labels. repr(e) shows the events linked in the past (each once), the label and the coordinates, each only if present. Showing an event is not free of effects: repr(e), repr(C) and str(C) link the shown events (so that a later disjoin or unlink succeeds that raised AttributeError before), but change no relation, label, coordinate, position or other event. repr(C) shows every event of C once, 'set()' if there is none. str of a shape gives dimension and name, with the word hollow exactly for round shapes with a positive hollow part; str of two spacetimes is equal exactly if dimension and kind agree.", "quantifier": "every state of the events, every label, every causet, every iteration order, every constructed shape and spacetime", "why_tests_cant": "all states, labels and iteration orders; hidden side effects", "anchors": ["causetevent.py: __str__, __repr__, LinkPast", "causet.py: __repr__", "shapes.py: __str__", "spacetimes.py: __str__"]}
{"id": "C86", "title": "Options of CoordinateShape.plot", "statement": "plot(ax, dims, **kwargs) draws in two dimensions exactly one patch (the one of the outline theorems) and in three dimensions one surface per part of the boundary, all with the documented defaults (edgecolor/facecolor or color black, alpha 0.05; in three dimensions edgecolor None), each of which is replaced by the keyword of the same name the caller passes; every other keyword is passed on unchanged and nothing else is added. If the shape cannot be drawn in these dimensions, the same exception is raised whatever options are given.", "quantifier": "every shape, every list of dimensions, every set of keyword arguments", "why_tests_cant": "all combinations of keywords, dimensions and shapes", "anchors": ["shapes.py: CoordinateShape.plot"]}
{"id": "C87", "title": "Histories of the whole library", "statement": "Start from no events and call, in any order and any number of times, constructors and methods of CausetEvent, Causet and EmbeddedCauset (new events, link/unlink/disjoin/embed and link queries of events; Causet of a set; FromPermutation, NewChain, NewAntichain, NewSimplex, NewFence, NewCrown, FromPastMatrix, FromFutureMatrix, FromTextFile; merge, add, discard, link, unlink; create, relate, relabel), each call with the documented preconditions, calls that raise included. Afterwards Past and Future of all events are converse relations, the order of all events is a strict partial order, every causet holds existing events and Causet(E) exists for every set E of events and contains past and future of its events. If no event was disjoined and no linked causets were merged, LinkPast and LinkFuture of every event are exactly the covering relation of this order; and whatever happened, link() of a causet that contains the past and future of its events makes its link queries right.", "quantifier": "every finite history of calls by which any number of causets and events are created and mutated, every argument, every iteration order of every call", "why_tests_cant": "all interleavings of all mutating calls over shared events", "anchors": ["causetevent.py: CausetEvent", "causet.py: Causet", "embeddedcauset.py: create, relate, relabel"]}
{"id": "C88", "title": "Results do not depend on the iteration order of Python sets", "statement": "Take any sequence of calls of the library (events created, linked, embedded; causets built by the constructors, from matrices and files; merge, add, discard, link, unlink; create, relate and relabel of embedded causets) that respects the documented preconditions (C87), in which no two different events to be related have coordinates that are causally related in both directions, no two different events have the same value in the dimension used by relabel, add/discard with unlink=True are called on linked events, causets to be merged are not linked, and disjoin is not called. Two runs of this sequence, in which every loop over a Python set visits the elements in any two different orders (as with two hash seeds), end in exactly the same state: the same events with the same past, future, links, labels, coordinates and positions, and the same causets. If link caches may be wrong (disjoin, merge of linked causets) or a loop that unlinks raises, the events, their order, labels, coordinates, positions and the causets are still the same, provided that every event to be disjoined has been linked in both runs or in none. disjoin, add(unlink=True) with partly linked events, and merge of linked causets do leave link caches that depend on the order.", "quantifier": "all finite histories of calls, all pairs of iteration orders of every loop over a set", "why_tests_cant": "A test runs with one (or a few) hash seeds and on few histories; iteration orders of sets of instances depend on memory addresses and cannot be enumerated.", "anchors": ["causetevent.py:CausetEvent.__init__", "causetevent.py:CausetEvent.disjoin", "causet.py:Causet.merge", "causet.py:Causet.add", "causet.py:Causet.discard", "causet.py:Causet.link", "causet.py:Causet.unlink", "causet.py:Causet.FromPermutation", "causet.py:Causet.NewSimplex", "causet.py:Causet.NewFence", "causet.py:Causet.FromPastMatrix", "embeddedcauset.py:EmbeddedCauset.create", "embeddedcauset.py:EmbeddedCauset.relate", "embeddedcauset.py:EmbeddedCauset.relabel"]}
{"id": "C89", "title": "An embedded causet stays faithful to its spacetime", "statement": "After EmbeddedCauset(...), SprinkledCauset(...), relate() and create(coords) - whatever the events were related to before - and throughout every history of sprinkle, intensify, create and discard calls from there on, returning or raising, each with any random numbers, the order among the causet's events is the causality of their coordinates: a < b only if Causality reports a <= b, two events that Causality reports are related, never both ways, and Past and Future agree. In flat spacetime with the code's tolerance an event in the (later) light cone of another one is after it, and a < b implies that b is causal to a after a delay of at most eps (2 dimensions) or sqrt(eps); with tolerance 0 and different places a < b is exactly the light cone order and transitive.", "quantifier": "every spacetime, every store, every history of calls, every iteration order and random stream", "why_tests_cant": "random coordinates, unbounded histories, hash-order dependent pair loop", "anchors": ["embeddedcauset.py: EmbeddedCauset.__init__, create, relate", "sprinkledcauset.py: SprinkledCauset.__init__, sprinkle, intensify, create, discard"]}
{"id": "C90", "title": "Queries on the standard causets", "statement": "The query methods give the textbook answers on the causets the constructors build. Chain of n events: the k-th event has k-1 past and n-k future events, links join neighbours only, LinkCount is n-1, the rank of two events is the difference of their places, the only path between two events (also shortest and longest) is the stretch of the chain between them, IntervalCard counts this stretch, and layered yields the events one by one in either direction. Antichain: no event has relatives or links, LinkCount is 0, PastInf, FutureInf and CentralAntichain are the whole antichain, layered has one layer, disjoint yields the single events, ranks of distinct events are infinite. Simplex of dimension d > 0 with n = d+1 vertices: a face of k vertices has 2^k-2 past events and 2^(n-k)-1 future events (one less without the central event), k >= 2 links to its past, links join faces that differ by one vertex, all paths between two faces have the same length, the rank is the difference of their dimensions, there are n vertices in PastInf and layered groups the faces by dimension. Fence of length l >= 2 and height m >= 0: every event is linked to the one above and the one above to the right (cyclically if closed), LinkCount is 2*l*m if closed and (2*l-1)*m otherwise, all paths between two events have as many steps as there are levels between them, which is also their rank, layered yields the levels in either direction, and PastInf and FutureInf are the lowest and the highest level.", "quantifier": "every length, dimension and height, both flags, every iteration order of constructors and queries, every path length mode", "why_tests_cant": "The answers hold for every size; tests compute a few small causets. They combine a constructor with the recursive searches of several query methods, each of which depends on the iteration order of sets.", "anchors": ["causet.py: Causet.NewChain, NewAntichain, NewSimplex, NewFence, LinkCount, layered, PastInf, FutureInf, PastInfCard, CentralAntichain, disjoint, Paths, IntervalCard", "causetevent.py: CausetEvent.Rank, PastCard, FutureCard, LinkPast"]}
{"id": "C91", "title": "Symmetries of the causality functions", "statement": "The two booleans that a spacetime's Causality function gives for a pair of points respect the symmetries of the spacetime. (1) In non-periodic flat spacetime they depend only on the time difference and the Euclidean distance of the points, and in (Anti-)de Sitter spacetime only on the times, on the distances from the origin and on the distance from each other: rotations and reflections of space do not matter. (2) In flat spacetime, also periodic and with any tolerance eps, moving both points by the same vector changes nothing. (3) With eps 0, in non-periodic flat spacetime of dimension at least 2, a Lorentz boost along the first axis with any rapidity changes nothing. (4) A common shift in time changes nothing in de Sitter spacetime (eps 0) and in the two-dimensional black hole spacetime; in anti-de Sitter spacetime it does: points at the same place with times alpha pi/2 and 3 alpha pi/2 are reported in reversed order, the same pair shifted by -alpha pi in the correct order. (5) In flat, de Sitter and anti-de Sitter spacetime, and outside the horizon of a Schwarzschild black hole, Causality of the pair with times negated and points exchanged is the Causality of the pair. (6) Mirroring both points at the centre of the black hole changes nothing. (7) Multiplying all coordinates, periods, curvature radii or the horizon radius by the same positive factor (and eps by the factor in two-dimensional flat spacetime, by its square elsewhere) changes nothing.", "quantifier": "all points, dimensions, periods, radii, translation vectors, rapidities and scale factors, all real-valued", "why_tests_cant": "a test compares finitely many pairs under finitely many transformations; invariance is a statement over all pairs and a continuous group", "anchors": ["/repo/spacetimes.py:80-94", "/repo/spacetimes.py:289-341 (FlatSpacetime.Causality)", "/repo/spacetimes.py:543-564 (deSitterSpacetime.Causality)", "/repo/spacetimes.py:638-654 (AntideSitterSpacetime.Causality)", "/repo/spacetimes.py:748-790 (BlackHoleSpacetime.Causality)"]}
{"id": "C92", "title": "Queries depend only on the order", "statement": "If two causets have the same order (a one-to-one correspondence of their events that preserves before/after in both directions; either may live in a different store, next to other events, with other labels and coordinates, made in another order, with other links already computed), then every order query gives the same answer for corresponding arguments: past, future, cone, spacelike and link sets of events correspond, their counts, comparisons, link tests and ranks are equal; pasts, futures, cones, intervals, perimetral and internal events, infinities, layers and ranks of sets correspond, and counts, chain, antichain, path and disjointness tests, layer numbers, rank numbers, layered lists, smallest interval cards and distance matrices of antichains are equal; paths and components correspond up to the order in which they are listed.", "quantifier": "all pairs of causets with the same order in any two reachable stores, all events, sets, lists and options, all iteration orders of sets (which may differ between the two causets)", "why_tests_cant": "A test compares answers on a few causets; that the creation history, the labels, the cached links, the iteration order of sets or unrelated events never influence an answer is a statement about all pairs of histories.", "anchors": ["causetevent.py: CausetEvent (Past, Future, Cone, Spacelike, LinkPast, LinkFuture, LinkCone, Rank, __lt__, __le__, isCausalTo, isSpacelikeTo, isLink)", "causet.py: Causet (PastOf, FutureOf, ConeOf, SpacelikeTo, Interval, PerimetralEvents, InternalEvents, PastInf, FutureInf, LinkCount, isChain, isAntichain, isPath, Layers, LayerNumbers, Ranks, RankNumbers, layered, disjoint, isDisjoint, Paths, SmallestIntervalCard, DistanceMatrix)"]}
{"id": "C93", "title": "Opposite causets: past and future exchange roles", "statement": "If two causets have opposite orders (a one-to-one correspondence of their events under which one event is before another in one causet exactly when it is after it in the other), then every order query on one is the mirrored query on the other: past and future, link past and link future, the four infinities and PastOf/FutureOf are exchanged; cones, spacelike sets, intervals and their counts, perimetral and internal events, link tests, ranks, chain, antichain, path and disjointness tests, smallest interval cards and distance matrices of antichains are unchanged with the two ends exchanged; comparisons change direction, causal tests are unchanged, layer numbers and rank numbers change sign (with the flag reverse exchanged); layers and ranks from m to n become those from -n to -m when neither limit is 0; layered lists are listed from the other end; paths are the reversed paths. (Layer 0 of a set is not symmetric: it is the set of events with no later event in the set.)", "quantifier": "all pairs of causets with opposite orders in any two reachable stores, all events, sets, lists and options (layer limits other than 0, or antichains), all iteration orders of sets", "why_tests_cant": "A test shows the symmetry of the two code paths for past and future on a few causets; that no query treats one direction differently from the other is a statement about all causets and all arguments.", "anchors": ["causetevent.py: CausetEvent (Past, Future, Cone, LinkPast, LinkFuture, Rank, __lt__, __le__, isCausalTo, isLink)", "causet.py: Causet (PastOf, FutureOf, ConeOf, Interval, PerimetralEvents, InternalEvents, PastInf, FutureInf, Layers, LayerNumbers, Ranks, RankNumbers, layered, Paths, SmallestIntervalCard, DistanceMatrix)"]}
{"id": "C94", "title": "Matrices and files carry the whole order; symmetries of permutations", "statement": "A labelled causet that contains the past and future of its events, written with PastMatrix or FutureMatrix and read back with FromPastMatrix or FromFutureMatrix, or (two events or more) written with saveAsCSV and read back with FromTextFile, into the same program or any other one, has the same order as before, so that every query (C92) gives the same answer; read back the wrong way round (a past matrix as a future matrix, or a file with the flag isPastMatrix wrong) it is the opposite causet, so that every query (C93) gives the mirrored answer. Two causets have the same order exactly if some listings of their events have equal past matrices, and opposite orders exactly if the past matrix of one listing is the future matrix of another. FromPermutation of a permutation and of its inverse give the same causet, of the permutation reversed and complemented (v replaced by n+1-v) the opposite causet, and of the permutation reversed or complemented a causet in which exactly the spacelike pairs of events have become the causal pairs.", "quantifier": "all closed causets of all reachable stores, every second store, every sort algorithm and iteration order; all pairs of causets; all permutations of 1..n for all n", "why_tests_cant": "A test round-trips a few causets and compares a few matrices; that nothing of the order is lost for any causet, and that the symmetries hold for all permutations, are statements about infinitely many inputs.", "anchors": ["causet.py: Causet.PastMatrix, Causet.FutureMatrix, Causet.FromPastMatrix, Causet.FromFutureMatrix, Causet.saveAsCSV, Causet.FromTextFile, Causet.FromPermutation"]}
{"id": "C95", "title": "Standard causets are reproducible and their own mirror images", "statement": "Two calls of the same constructor with the same arguments (NewChain, NewAntichain, FromPermutation of a permutation, NewSimplex, NewFence with length >= 2 and height >= 0, NewCrown with length >= 2), in any two programs, return causets with the same order, so that every query (C92) gives the same answer. Chains, antichains, fences (open or closed, of any length and height), crowns and simplices without the central face, of every size, are their own opposites: two calls return causets with opposite orders, so that every query about the past (C93) gives the mirrored answer of the query about the future. Simplices with the central face are not.", "quantifier": "all sizes, dimensions, heights, label formats and flags, all stores, all iteration orders", "why_tests_cant": "A test compares a few sizes; the mirror symmetry of all of them is a statement about every size, every store and every iteration order.", "anchors": ["causet.py: Causet.NewChain, Causet.NewAntichain, Causet.FromPermutation, Causet.NewSimplex, Causet.NewFence, Causet.NewCrown"]}
{"id": "C96", "title": "Building steps respect sameness and mirroring", "statement": "If two causets have the same order along a correspondence of their events, then adding a new event with corresponding past and future to each (CausetEvent(past=P, future=F)), taking corresponding linked events out of the order (CausetEvent.disjoin), or merging each with a further, corresponding, disjoint causet (Causet.merge, disjoint or not), gives two causets with the same order along the (extended) correspondence, whatever labels, coordinates or positions are given and in whatever order Python iterates the sets. If they have opposite orders, the step with past and future exchanged, or the merge with its two arguments exchanged, gives causets with opposite orders. So causets built in parallel answer every query alike (C92), and causets built in mirror image answer every query mirrored (C93).", "quantifier": "all stores built by the library, all causets with the same or opposite order, all pasts and futures inside them, all labels, all iteration orders", "why_tests_cant": "A test builds a few causets twice; that every step keeps sameness and mirroring is a statement about every pair of stores, every correspondence and every iteration order.", "anchors": ["causetevent.py: CausetEvent.__init__, CausetEvent.disjoin", "causet.py: Causet.merge"]}
{"id": "C97", "title": "The mirrored program builds the mirrored order", "statement": "Take any program of constructor calls, link(), unlink(), link queries, embed, disembed and Position assignments (no disjoin) that never relates events inconsistently, and exchange past and future in every call (CausetEvent(past=P, future=F) becomes CausetEvent(past=F, future=P), LinkPast becomes LinkFuture, isPastLink becomes isFutureLink, and so on). Whatever orders Python iterates sets in, both programs create the same events with the same labels, coordinates and positions; Past and Future of every event are exchanged, and so are LinkPast and LinkFuture.", "quantifier": "every history of event-level calls without disjoin that is admissible (as in C01), every pair of iteration orders", "why_tests_cant": "all programs and all iteration orders; the two notification and cache paths of the code are separate pieces of code that must agree in every history", "anchors": ["causetevent.py: CausetEvent.__init__, _addToPast, _addToFuture, link, unlink, LinkPast, LinkFuture, isPastLink, isFutureLink, LinkPastCard, LinkFutureCard"]}
