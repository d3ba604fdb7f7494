# Formal model of c-minz/Python-causets in Rocq (Coq 8.16.1)

Source: `/repo/*.py` (text only, never run). Model and proofs: `/verif/rocq/theories`.
Properties: `properties.jsonl` (C01..). Status per property: `MANIFEST.json`.

## 1. How the code is modelled

* **Objects.** A Python `CausetEvent` instance is a natural number (its identity); the object
  store is `heap := gmap nat event` and an event record holds `Label, _prec, _succ,
  _lprec?, _lsucc?, _coordinates?, _position`. `hasattr` on the cache or coordinate attributes is
  `option`. Python's `is`/`==`/hash of events is identity, hence equality of naturals.
* **Sets.** Python sets of events are `gset nat`. The *iteration order* of a Python set is not
  specified by the language; every place where the code iterates over a set takes the order from
  an oracle `it : nat -> gset nat -> list nat` (first argument: a name for the call site) with the single
  assumption `it k s ≡ₚ elements s`. Theorems quantify over the oracle. Simplification: the same set
  iterated twice at the same call site gives the same order.
* **Exceptions** are values (`exn`, `res A := Ok a | Err e`); functions that mutate return the heap
  reached when the exception was raised together with the result.
* **Termination.** Python loops and recursions become structural recursion, folds, or recursion on fuel
  that returns `Err OutOfFuel` when exhausted; each theorem shows the fuel given suffices (that is the
  termination proof).
* **Numbers.** Python ints are `Z`/`nat`. Floats are exact: the coordinates stored in events are
  rationals `Q`; everything computed from them (causality, volumes, intensities, opacities, outlines)
  is in Coq's `R`. Floating-point rounding is *not* modelled, with two exceptions: the conversion to
  `numpy.float32` in `CoordinateShape.__init__` is an arbitrary function `f32`, and the rounding of sprinkled
  coordinates to stored ones is an arbitrary function `rnd`. Infinities and nan occur in the black hole
  metric and are modelled there (`fl`); nan rows separate the parts of an outline (`None`).
* **External calls** (numpy argsort, random generators, file system, matplotlib) are either oracles
  with a stated contract (argsort returns a permutation that sorts the keys; random draws lie in their
  documented range) or are not modelled.

## 2. Plan per property

| id | modelled | proof |
|---|---|---|
| C01 | heap, ctor, link, unlink, queries, disjoin as `op`s of a step function | invariant by induction over the op list |
| C02 | ctor with both arguments | witness by computation + exact characterisation (iff) |
| C03 | ctor | induction over the two notification loops |
| C04 | link caches, `_addToPast/_addToFuture` | cache invariant "cached set = covering set" over histories |
| C05 | disjoin | fold lemmas, AttributeError branch |
| C06 | disjoin on linked 3-chain | case analysis on every oracle order |
| C07, C08 | operators, cardinalities | direct from the order invariant |
| C09 | LinkConeCard (`Nat.land`) | refutation + characterisation |
| C10 | Rank with fuel | induction on interval size; shortest path of covering steps |
| C11 | copy | direct |
| C12 | embed/disembed state machine | step function and history theorem |
| C13 | Causet.__init__ closure loop | loop invariant + measure; least closed superset |
| C14 | FromPermutation | induction over the label loop |
| C15 | NewChain, NewAntichain | via C14 |
| C16 | NewSimplex | induction over face sizes |
| C17 | NewFence, NewCrown | level-by-level invariant |
| C18, C19 | FromPastMatrix/FromFutureMatrix/PastMatrix | row loop invariant; witnesses for the refuted parts; whole-causet round trips through all four matrices from C25 (linear extension) and closure of the cover relation |
| C20 | saveAsCSV / FromTextFile text codec | token round trip over C18 |
| C21, C22 | merge | fold lemmas, witness |
| C23, C24 | Causet.link/unlink/LinkCount, add/discard | fold lemmas |
| C25 | matrices | index lemmas |
| C26 | sortedByCausality swap loop | insertion invariant |
| C27, C28 | find*, set operators | direct |
| C29, C30, C31, C32, C33 | isChain.., PastInf.., PastOf.., Interval.. | counting/pigeonhole; set reasoning |
| C34 | CentralAntichain | greedy invariant |
| C35, C36, C37 | Layers, LayerNumbers, layered, Ranks | induction on height, interval monotonicity |
| C38, C39 | Paths generator | induction on interval size |
| C40 | SmallestIntervalCard | fold-min lemmas |
| C41, C42 | DistanceMatrix, Antipaths | loop invariant / structure of the recursion |
| C43 | disjoint | closure loop invariant |
| C44, C45 | calculations.py | induction over loops; convergence of Newton's method by an error measure that shrinks in every step |
| C46..C49 | spacetimes.py causality functions | Cauchy–Schwarz over Q / R, real analysis |
| C50..C52 | embeddedcauset.py | double loop invariant |
| C53, C54 | sprinkledcauset.py | step function over Q; coordinate bounds |
| C55, C56 | shapes.py | case analysis; positivity over R |
| C57, C58, C61 | causetplotting.py (logic only; no drawing) | counting; computation |
| C59 | colorschemes.py | string prefix reasoning |
| C60 | causetpermutations.py `permuted` | induction over components |
| C62 | sortedByLabels | sortedness from the argsort contract |
| C63 | spacetime constructors, `repr` | case analysis |
| C64 | Density, LengthScale | algebra over R |
| C65 | EmbeddedCauset.__init__ | case analysis over the argument kinds |
| C66 | _sprinkle_coords | distribution functions of the single random numbers |
| C67, C68 | link getters, addToPast/addToFuture/discard return values | direct |
| C69 | plot_parameters, axis limits | case analysis |
| C70 | dynamic mode of Plotter, cones | loop invariants |
| C71 | Position | state machine |
| C72, C73, C74 | AntichainPermutations, layeredPermutations, permuted_old, findClosedFences | induction over the generators; fuel-independence for non-termination |
| C75, C76 | 2D outlines of shapes (`RectangleEdge` .. `CylinderCutEdge`, `plot`) | winding numbers of polygons, non-zero rule |
| C77, C78 | 3D surfaces (`CuboidSurface` .. `OpenConeSurface`, `plot`) | every drawn point is on the boundary and every boundary point is close to a drawn one |
| C79, C80, C81 | ConePlotter of flat spacetime | the painted set equals the causal cone of the Causality function |
| C82 | ConePlotter of de Sitter spacetime | the sampled points lie on the boundary of the causal relation |
| C83 | ConePlotter of black holes | the sampled points lie on the light rays; outside the horizon the relative error (w - r)/(r - r_S) of Newton's method halves in every step |
| C84 | AntichainPermutations_old | distances inside an antichain are all c; the insertion step then finds no place |
| C85 | `__str__`, `__repr__` of events and causets, `__str__` of shapes and spacetimes (PrintModel) | texts compared by their first characters; the effect is the one of reading LinkPast (C67) |
| C86 | shape_plot on top of plot_patch / plot_surfaces (C76–C78) | the options of every artist are compared with the documented defaults overwritten by the caller's keywords |
| C87 | LibHistory: one state (all events, all Causet objects), one operation per mutating constructor or method, dispatching to the models of C01–C23 and C50 | invariant (order_inv, link_paired, causets exist) preserved by every call (LibFacts), induction over the history; link invariant separately |
| C88 | the histories of C87, each call with its own iteration order of Python sets (the oracle `it`) | every call gives the same state for all iteration orders (SeedFacts: notifications of independent events commute), or the same order (SeedOrder); induction over two histories with the same calls; refuting instances for the calls that are excluded |
| C89 | embeddedcauset.py, sprinkledcauset.py: the relations after every relating call and throughout histories of calls | `relate_core` (the double loop) in an arbitrary store; link caches do not touch the order (`keeps`); invariant `faithful` over histories; C47_tolerance for the meaning in flat spacetime |
| C90 | causet.py, causetevent.py: query methods on the causets of NewChain, NewAntichain, NewSimplex, NewFence | end-to-end: the order of C15-C17 is graded (GradedFacts: covering pairs, link paths, heights of graded orders); the specifications of the queries then give the values; explicit NoDup lists of links, faces and sublists are counted |
| C91 | spacetimes.py: Causality of the five spacetimes under rotations, translations, boosts, time shifts, time reversal, mirroring, scaling | each transformation is followed through the formulas: the sign of the time difference and the truth of the interval inequality are unchanged (boost: cosh² − sinh² = 1 and |sinh| < cosh; de Sitter time shift = boost of the ambient points; scaling: all terms of the inequality have the same degree); anti-de Sitter time shift refuted by the turning point of C48 |
| C92 | all order queries of causetevent.py and causet.py on two causets with the same order | `same_causet f h1 C1 h2 C2`: f is one-to-one between the two event sets, which are closed, and preserves before in both directions; each model function commutes with the image under f (by unfolding; paths, ranks and components by their characterisations C10, C38, C39, C43; the loop of DistanceMatrix by induction on fuel and fuel monotonicity) |
| C93 | all order queries of causetevent.py and causet.py on two causets with opposite orders | `opposite_causet f h1 C1 h2 C2`; each query on the store with all past and future fields exchanged (`dual`) is the mirrored query, by unfolding and by the characterisations used for C92; then C92 relates h1 to the exchanged h2. Layers with a limit 0 are refuted by a witness |
| C94 | PastMatrix, FutureMatrix, FromPastMatrix, FromFutureMatrix, saveAsCSV, FromTextFile, FromPermutation | same_causet / opposite_causet of C92, C93: lists of corresponding events with equal entries (C18, C20, C25) give the correspondence; permutations by C14 along the renumberings of values |
| C95 | NewChain, NewAntichain, FromPermutation, NewSimplex, NewFence, NewCrown | reproducible / mirror_symmetric: two calls in any two stores return same_causet / opposite_causet; from C14 - C17 along the renumbering u -> n-1-u (chains, fences), the identity (antichains) and the complement of the vertex set (simplices) |
| C96 | CausetEvent.__init__, disjoin, merge | same_causet / opposite_causet of the stores before gives that of the stores after, from the order effect of the constructor (C03), of disjoin (C05) and of merge (C21) |
| C97 | histories of event-level calls (History) | mirrored exchanges past and future in each call; simulation along dual (LayerFacts) up to the link caches (alike, SeedOrder), links by C04 |

## 3. Layout of the development

`*Model.v` are the models (every definition cites the lines of /repo it models), `Spec*.v` the small
specifications that the statements use, `*Facts.v` lemmas, `Prop_*.v` the theorems of the manifest, each
with `Print Assumptions` and, beside it, an `Example ..._nonvacuous` (or a `_refuted` theorem, which is
a concrete case itself).

| model | code | specification | theorems |
|---|---|---|---|
| Base, EventModel, History | causetevent.py | Spec | Prop_Event, Prop_EventMore |
| CausetModel, PathsModel, DistModel | causet.py (queries) | Spec | Prop_Causet, Prop_CausetMore, Prop_Paths, Prop_Dist, Prop_DistMore, Prop_Iso, Prop_Dual, Prop_Reload, Prop_Mirror, Prop_Steps, Prop_MirrorHistory |
| BuildModel, PyStr | causet.py (constructors, files, merge, add, link) | SpecBuild | Prop_Build, Prop_BuildMore, Prop_RoundTrip, Prop_Standard |
| CalcModel | calculations.py | (standard library: `sum_f_R0`, limits) | Prop_Calc, Prop_CalcMore |
| SpacetimeModel | spacetimes.py (constructors, causality) | in Prop_Spacetime | Prop_Spacetime, Prop_SpacetimeMore, Prop_Tolerance, Prop_Symmetry |
| ShapeModel | shapes.py (constructor, volume, limits) | SpecShape | Prop_Shape |
| EmbedModel | embeddedcauset.py | in Prop_Embed | Prop_Embed, Prop_EmbedMore |
| SprinkledModel | sprinkledcauset.py | SpecShape | Prop_Sprinkled, Prop_Faithful |
| ColorModel | colorschemes.py, causetplotting.py:21-39 | in Prop_Color | Prop_Color |
| PlotModel | causetplotting.py | SpecPlot | Prop_Plot, Prop_PlotMore, Prop_Dynamic, Prop_ConesFirst |
| PermModel, OldPermModel | causetpermutations.py | SpecPerm | Prop_Perm, Prop_OldPerm |
| OutlineModel | shapes.py:251-592 | SpecOutline, SpecSurface | Prop_Outline, Prop_Surface |
| ConeModel | spacetimes.py:96-239, 343-457, 494-613 | SpecCone | Prop_Cone, Prop_ConeMore, Prop_ConeTime, Prop_ConeBase |
| BlackHoleConeModel | spacetimes.py:693-746, 792-882 | SpecBlackHole | Prop_BlackHoleCone, Prop_Newton |
| PrintModel | `__str__`, `__repr__` everywhere | in Prop_Print | Prop_Print |
| LibHistory | histories over causetevent.py, causet.py, embeddedcauset.py | in LibHistory (`lib_admissible`), Spec | Prop_Library |
| (iteration orders) | SeedFacts, SeedOrder: two runs with different iteration orders | in Prop_Seed (`determined`, `determined_order`) | Prop_Seed |

A property that the code does not have (because the documentation promises more than the code does) is
kept in `properties.jsonl` in the form that is true, together with a theorem `..._refuted` that gives a
concrete counterexample to the documented form. Section 6 lists these.

## 4. Trusted base

* **Coq 8.16.1's kernel** (including the virtual machine: closed decidable statements are settled with
  `vm_compute`), the parser and the standard library. std++ provides finite maps, sets and lists and
  Coquelicot is used in one file (HarmonicFacts.v); both are built on the kernel and add no axiom that a
  theorem of the manifest depends on.
* **Axioms.** None of our own. `ASSUMPTIONS.md` (written by tools/assumptions.py) records what
  `Print Assumptions` lists for each theorem of the manifest. Everything about events, causets, builders,
  matrices, paths, distances, permutations and colours is "Closed under the global context". Statements about
  real numbers depend on the axioms of the standard library's reals, and nothing else:
  `ClassicalDedekindReals.sig_forall_dec`, `ClassicalDedekindReals.sig_not_dec`,
  `FunctionalExtensionality.functional_extensionality_dep` and `Classical_Prop.classic`.
  (`coqchk` also lists `Coq.ssr.ssrunder.Under_rel.*`, which come with the import of ssreflect by std++ and on
  which no theorem depends.)
* **The model** is a reading of the Python text by hand; nothing was run. The correspondence is documented by
  the citations and was tested by seeding errors (section 7).
* **Assumptions of the statements** (visible in each theorem): `iter_ok it` (a loop over a set visits each element
  once), the argsort contract (a permutation that sorts), random numbers in their documented range.
* **Environment not modelled**: floating-point rounding and overflow, memory, Python's recursion limit except in
  C72/C73/C42 (parameter `limit`), concurrency, user subclasses, monkey patching, non-finite inputs, the file
  system (a file is its text), matplotlib (an artist is the call that creates it; the non-zero winding rule of
  SpecOutline is our account of what a filled polygon paints; SpecSurface is ours of what a surface
  shows), exception messages, type annotations, wrongly typed arguments except where a theorem mentions them.

## 5. Which parts of the code are modelled

Modelled, function by function: all of `causetevent.py` (how Python prints coordinates is a parameter); all of `causet.py` except
`__iter__` (iteration is the oracle) and `NewKROrder` (raises NotImplementedError); all of `calculations.py`,
`embeddedcauset.py`, `sprinkledcauset.py`, `colorschemes.py`; `shapes.py` except
`__repr__` (which always raises); `spacetimes.py` except the text of
`__repr__` (only whether it raises) and the never implemented `_XYZ_slice`; all of `causetpermutations.py`
(the printing of D apart); `causetplotting.py` except the creation of axes and `aspect`. Not modelled: `demo.py`, `__init__.py`, the `test_*.py`.

Simplifications (each is repeated at the definition): labels are None, int or str; a set iterated twice at the same call
site gives the same order; events carry rational coordinates; generators are the list of what they yield with the exception
that ends them; `numpy.argsort` and the random generator are oracles; uninitialised memory is an arbitrary function `junk`;
functions passed by the user (label formats) are total functions.

## 6. Findings (differences between documentation and code that the theorems establish or the model shows)

Events and causets
- the constructor with both `past` and `future` does not close the order (C02)
- link caches are stale after `disjoin` (C06) and after `merge` of linked sets (C22); `LinkConeCard` is a bitwise and (C09)
- `isPath` accepts zigzags and crowns (C30); `a - C` with a set on the left is `C - a` (C28_rsub_refuted); `intersect=True` of cones differs from the documented intersection (C32_intersect_refuted)
- `FromPastMatrix` neither completes link matrices nor finds loops of three events nor adds rows as documented (C19); a text file with one row or column raises (C20_thin)
- `add`/`discard` with `unlink=True` unlink events in iteration order until the first unlinked one raises (C24)
- `layered` needs a convex set (C36_nonconvex_refuted)
- `DistanceMatrix`: thickening never connects more events than the first round; adding an event can turn distance 1 into -1 (C41)
- `HarmonicNumbers` with threshold 0 leaves index 0 unassigned (C44); `NewtonsMethod` may return the default outside of the interval (C45)
- two runs of the same program may differ in the links after `disjoin`, after `merge` of linked causets and after a failing `add(unlink=True)`, because Python sets are iterated in different orders (C88)
- `Position` fallback [0, 0] is dead code (C71)

Spacetimes, shapes, sprinkling
- `repr(FlatSpacetime(n))` raises KeyError (C63)
- periodic flat causality is wrong beyond one period, the tolerance makes it non-transitive (C47)
- Anti-de Sitter order is reversed outside of the diamond (C48); points on a horizon are not related to themselves (C49)
- events at the same point are ordered by the iteration order (C50); a failed `relate` has already erased relations (C50_failed_relate)
- small radius in `FromPermutation` adds relations (C51); `LengthScale` is not the inverse root (C64)
- `relabel` stores int labels although documented as str (C52); the name 'Schwarzschild' gives the Eddington-Finkelstein metric (C65); list coordinates are not checked for their dimension (C65)
- `repr(e)` and printing a causet link the events, so that printing decides whether a later `disjoin` raises (C85); label 0 is shown like no label
- hollow 1-dimensional cylinder has volume 0 (C56); shape `__repr__` raises AttributeError
- sprinkling into the default shape (bicone, diamond) returns uninitialised memory (C54); 1-dimensional cylinder raises ZeroDivisionError after the intensity has been increased; a failed `create` changes Card but not Intensity; `discard` on an empty causet raises (C53)

Colours and plots
- 'lime' of ImperialLondon is not a hexadecimal colour; 'darkblue' is missing in one scheme; a failed `convertColorsInDict` leaves the dict partly converted (C59)
- `conetimefade=''` raises UnboundLocalError, the half-time is wrong, negative and zero depth do not fade as documented (C61)
- dynamic mode with `links=False` raises KeyError (C70); the shape is set too late for `axislim='shape'` (C69); a repeated linked event in a list raises IndexError (C57_repeated)
- `plotDiagram` uses the inverse permutation (C58)
- 2D plot of a cylinder with the time first is displaced (C75); 3D cylinders and bicones with the time axis first or second are drawn wrongly (C77); plotting a hollow bicone shrinks its stored radius (C78)
- 3D cones with time axis first or second are drawn from a permuted origin (C81); de Sitter slices in 4 dimensions mix full and 2D radius (C82); past cone of an event on the horizon shows its future (C83)

Permutations
- `permuted` never returns a permutation of a nonempty set (C60)
- `AntichainPermutations_old` never ends for three or more events, raises IndexError with a past layer (C84)
- `AntichainPermutations` yields nothing for one event, so `layeredPermutations` raises RuntimeError; it may repeat events (C72)
- `permuted_old` may repeat or miss events, repeat integers, raise KeyError or return ([], []) (C73)
- `findClosedFences` never finds a fence and does not return for open starts (C74)

## 7. Wrong programs

`tools/mutate.py` edits definitions of the model in a scratch copy and rebuilds it; `seeded/LOG.jsonl` records each edit, the claim it
breaks, the theorems that failed and the theorems that were tightened because an edit survived. Edits that survive and are recorded as
equivalent do not change the behaviour (defaults that are never read, renamed oracle sites).
