# Formal model of desdeo-emo in Rocq (Coq 8.16.1)

## Trusted base
* Coq's kernel. Nothing is admitted, no axiom is declared, no kernel check is switched off, no functors or module types, no plugins.
* Axioms (no other library is used, except Flocq's core (and its error bound for sums, Prop/Plus_error, in `P_IndDouble`), which has no axioms of its own, in `M_Double`/`P_Double`, `M_IndDouble`/`P_IndDouble`, `M_RefDouble`/`P_RefDouble`, `M_LatDouble`/`P_LatDouble`, `M_NbDouble`, `M_APDDouble`/`P_APDDouble`, `M_NSGA3Double`/`P_NSGA3Double`, `M_PrefDouble`, `M_NonPrefDouble`, `M_RangesDouble`): only those of the standard library's classical reals and functional extensionality
  (`ClassicalDedekindReals.sig_forall_dec`, `ClassicalDedekindReals.sig_not_dec`, `Classical_Prop.classic`,
  `FunctionalExtensionality.functional_extensionality_dep`), and only in theorems about real-valued geometry. Theorems on discrete
  logic use `Q`, `Z`, `nat` and are closed under the global context. The per-theorem list is at the end of this file.
* Reading of the Python source. Each model definition carries a comment with the file and lines it models, and the simplifications made.
* External code is an argument of the model (never an axiom): evaluation of problems and preference incorporated spaces (`desdeo_problem`,
  `desdeo_tools.maps`), random draws (`numpy.random`, `pyDOE.lhs`), `desdeo_tools` dominance sorting, scalarisations and indicators, numpy's
  `argsort`/`argpartition`/`linalg.solve`/`lstsq`/`qr`, plotly's `plot`. Where a theorem needs a contract for such an oracle, the contract is a
  hypothesis of the theorem and an instance satisfying it is exhibited in an `Example`.

## Conventions
* Numbers: finite floats are embedded in `Q` where only comparisons, sums and products matter and in `R` where powers, roots and angles
  matter. Rounding error and overflow are not modelled, except in `M_Double` (C114, C115: initial individuals and SBX in IEEE double precision, no overflow). NaN is modelled (as `None`) where the code can produce it from finite input, and infinite or NaN objective values as input in `M_APDnan` (C124) and `M_MOEADnan` (C125).
* Arrays: a numpy matrix is a list of rows. Aliasing is modelled only where the code depends on it (BioGP data columns, BioGP node heap) and for the population's columns and the archived tables (`M_Alias`, C113: read through its arrays the population behaves as `M_Population` says, and an archived table keeps its values as long as the first in-place replacement comes after an addition, which is how every algorithm here uses it; this is what justifies the value-level snapshots of C22 and C100).
* Exceptions: `res A := Ok a | Err e`. Methods that mutate before raising return the mutated state together with the outcome.
* A property that the code violates is kept as stated; what does hold is proved in theorems named `_partial`, and a theorem named
  `_refuted` shows the violation (a concrete reachable witness, or a "for all inputs it fails" statement). Such properties have status
  `partial` in MANIFEST.json. There is no property left partial for lack of proof.

## Files (`rocq/theories`)
* `Base.v` (exceptions, index conventions, list helpers), `Pareto.v` (dominance), `RVec.v` (real vectors).
* `M_X.v`: the model, definitions only, each citing the source lines.
* `Spec_X.v`: specification vocabulary, independent of the model's helpers (where the statement needs more than the standard library).
* `P_X*.v`: lemmas and proofs.
* `Properties_X.v`: the property theorems `Cnn_...`, `Print Assumptions`, and `Example`s showing that concrete non-trivial cases meet the hypotheses.

## Parts of the code
| source | model |
|----|----|
| population/Population.py | `M_Population` (add, keep, delete, replace, repair, reevaluate_fitness, mate's pairing via `M_Recombination`) |
| population/CreateIndividuals.py | `M_Create`, `M_Double` (rounding) |
| population/SurrogatePopulation.py, surrogatemodels/Problem.py | `M_Train` (construction only) |
| recombination/*.py | `M_Recombination` (SBX, polynomial mutation, single point, EvoNN, EvoDN2), `M_NetRecomb` (whole EvoNN and EvoDN2 operators), `M_BioGP` (tree operators) |
| selection/APD_Select_constraints.py, NSGAIII_select.py, MOEAD_select.py, TournamentSelection.py, IOPIS_APD.py, IOPIS_NSGAIII.py | `M_APD`, `M_NSGA3`, `M_MOEAD`, `M_Indicator`, `M_IOPISsel` |
| selection/APD_Select.py, oAPD.py, robust_APD.py (retired) | `M_APDold` |
| population/Population.py + EAs/BaseEA.py: array sharing | `M_Alias` |
| selection/SelectionBase.py | `M_Preferences` (requests, dispatch), `M_RefVec` (effect on the vectors) |
| EAs/BaseEA.py | `M_BaseEA` (loop, counters, snapshots, constructor), `M_Archive` (non-dominated archive, end), `M_Preferences`, `M_Snap` (contents and labels of the archived tables), `M_Run` (whole runs) |
| EAs/*: constructors | `M_Ctor` |
| EAs/RVEA.py, NSGAIII.py, MOEAD.py, BaseIndicatorEA.py, IBEA.py, PBEA.py, PPGA.py, IOPIS.py, TournamentEA.py | `M_RVEA`, `M_NSGA3`, `M_MOEAD`, `M_Indicator`, `M_PBEA`, `M_IndRun`, `M_PPGA`, `M_IOPIS`, `M_Train` |
| problem/IOPIS.py | `M_IOPIS` |
| utilities/ReferenceVectors.py | `M_Lattice` (creation), `M_RefVec` (rotation, adaptation) |
| utilities/symmetric_vectors.py | `M_SymVec` (its loop; its functions are those of `M_RefVec`) |
| utilities/newRV.py | `M_NewRV` |
| utilities/non_dominated.py, model_management.py, plotlyanimate.py | `M_Archive`, `M_Mgmt`, `M_Animate` |
| surrogatemodels/BioGP.py | `M_BioGP` (trees), `M_GPfit` (evaluation, fitting, creation), `M_Train` (fit) |
| surrogatemodels/EvoNN.py, EvoDN2.py | `M_EvoNet`, `M_Create` (creation), `M_Train` (fit) |

Not modelled: `EAs/slowRVEA.py`, `population/Population_old.py` (legacy, not importable: they import the old package name `pyrvea`),
the plots of `utilities/symmetric_vectors.py` (its functions repeat `ReferenceVectors.py`, see `M_RefVec`; its loop is `M_SymVec`), `utilities/IsNotebook.py`, the contents of log messages and plots,
floating point rounding (except `M_Double`), performance.

## Plan per property
| id | model | proof |
|----|-------|-------|
| C01-C05, C07 | `M_Population`: parallel columns, boolean-mask keep/delete, add/replace with partial updates on exceptions | refinement to a list of member records; invariant by induction over call list |
| C06 | clamp per gene over Q | case analysis, list induction |
| C08, C12, C13 | `M_Recombination` over R with NaN as None | real analysis for in-bounds; witness for the NaN |
| C09, C69, C70 | `M_Create`: affine scaling of a unit-cube sample, network shapes | real/rational inequalities, list induction |
| C10, C11, C17, C67 | `M_Recombination`: pairing and SBX formula; `M_NetRecomb`: the network operators (`Properties_Pairs`: each pair mates as if it were alone; a 1-D list's partners are ignored by the network operators) | list induction |
| C14, C15 | single point operators | list induction |
| C16, C68 | swap sets on nested lists (`M_Recombination`); the whole operators with both mutation types and the scale of the steps (`M_NetRecomb`) | list induction over pairs, subnets, layers. Refuted past the planned end (EvoNN raises) and, self-adapting, once no weight is left (raises) |
| C18-C20, C22 | `M_BaseEA`: counters and loop as a state machine | invariants; fuel excluded by a measure |
| C21, C57 | `M_Preferences` | case analysis, induction over call sequences |
| C43, C107 | `M_IndRun`: sessions of the indicator based EAs (manage_preferences, requests, start, iterate, loops and counters; a generation is its number of offspring or its exception); `Spec_IndRun` reads accepted preferences off the history | invariant over call sequences; 2^k outgrows k |
| C23 | `M_BaseEA.construct` | case analysis + binomial facts |
| C24-C26, C66 | `M_Archive`: check_domination as nested loops with kill flags | invariant over batches |
| C27, C28 | `M_RVEA` | case analysis, monotonicity over R |
| C29-C32 | `M_APD` | argmin/argmax lemmas |
| C33-C36, C71 | `M_NSGA3`: fronts, splitting front, niching loop | invariant on the loop |
| C37-C39, C72 | `M_MOEAD` | list lemmas, invariant of a generation |
| C40-C42, C73, C74 | `M_Indicator` | argmin lemmas, loop invariant, sums over lists |
| C44, C45 | `M_Lattice` | combinatorial induction |
| C46-C51, C75-C78, C97 | `M_RefVec` over R | linear algebra over lists |
| C52-C55, C79-C82 | `M_PPGA` | lattice invariant, loop invariants |
| C56, C83, C84 | `M_IOPIS` | induction over evaluation histories, attribute resolution |
| C85, C86 | `M_IOPISsel` | reuse of APD / NSGA-III lemmas on the scalarised space |
| C58, C59 | `M_Mgmt` | list lemmas + witness |
| C60-C62, C92, C93 | `M_BioGP`: rose trees and a heap of nodes | tree induction, refinement heap to tree |
| C63, C64, C94-C96 | `M_EvoNet` | list lemmas, matrix products as path sums |
| C65 | `M_Animate` | history induction |
| C100 | `M_Snap`: name lists, pandas labels, the tables of pre_iteration, end and the plot request | case analysis on scalar/vector names, induction over the run; counterexamples for vector fitnesses |
| C101 | `M_NSGA3` (nadir point, normalisation) against `Spec_Nadir` | uniqueness of the solution of the intercept system, bounds by case analysis; witness for the fallback |
| C102 | `M_Run`: start, iterate, end and the generations of all five kinds of algorithm on the Population model, with variation, selection, preferences and lattice as oracles and every exception point; `Spec_Run` | Hoare-style invariant through every statement, on top of C01 and C26 |
| C103 | `M_Run` with `M_Archive` | the log and the archive advance together in every successful generation; C24-C26 applied to the log; counterexample for changed preferences |
| C104 | `M_Run` counters against the log | invariant relating counters and log within a generation, loop and call; counterexamples for surrogates and failing generations |
| C105 | `M_Run` generations | inversion of a successful generation, statement by statement |
| C106 | `M_PBEA`: epsilon and preference indicators (external, restated) on `M_Indicator`'s selection loop | a member with the smallest exponential loss dominates nobody present; induction over the removals; counterexample for maximised objectives |
| C108, C109 | `M_NewRV` on `M_RefVec`'s rotations (reals; NaN as None, shape errors as ValueError) | rotations are isometries that exchange the axis and the reference direction; the shrinking factor is monotone in the distance and at most 1; parity of the number of rows for the duplicates |
| C110 | the generations of `M_Run` with the operators `nsga3_do` (`M_NSGA3`), `apd_select` (`M_APD`), `moead_do`/`choose_parents` (`M_MOEAD`) and `tournament_do` (`M_Indicator`) answering `w_select`, in any internal state and with any random numbers; `Spec_RunSel` | total correctness of each generation (every statement succeeds) with the population's table as invariant, then induction over generations and iterate() calls |
| C111 | `M_SymVec`: the column average and the loop of `symmetric_vectors.main`, on top of `rotate_toward` (`M_RefVec`); `Spec_SymVec` (mean, angle, shape) | a turn is one linear map (`toward_linear`), so it commutes with averaging; induction on the number of turns with the angle decreasing by theta. Refuted when the angle is an exact multiple of the step: the loop lands on the target unnoticed and then divides 0 by 0 (exact arithmetic; rounding may hide it) |
| C112 | `M_APDold`: the retired operators as written, and sequences of generations for them and for `apd_select` | induction over the history with the invariant relating the ideal points the operators carry; equality of the per-vector choice. Refuted for 'robust': the current operator also uses the population's ideal point, which ignores the uncertainty |
| C113 | `M_Alias`: heap of arrays, which statements allocate and which write in place; archived tables share the arrays | refinement to `M_Population` by induction over the calls; frame invariants (cells no column refers to are never written). Refuted: `replace` with no addition since the snapshot rewrites the archived table; the array given to a first `add` is shared and changed by `replace` |
| C114, C115 | `M_Double`: the scaling of samples and the SBX formula operation by operation with IEEE binary64 rounding (Flocq core: FLT format, nearest even, unbounded exponent above) | ulp and midpoint arguments. C114 refuted for LHSDesign: a Latin hypercube sample can round to 1 and the gene then exceeds its bound (by a few ulps at most, proved). C115 refuted for copied genes and sums (1 and 2^-60 give 1 and 0); the deviation is bounded |
| C116 | `M_Shared`: any number of the objects of `M_Run` on one population, calls interleaved (the aliasing of `initial_population`) | the run invariant of C102 made relative to the evidence of all objects, and shown stable under calls of the others; counters from C104. Refuted: an object's end() changes when another object sharing its population iterates |
| C117 | `M_Run` with `M_NSGA3` behind the selection (as in C110); `Spec_Elite` | invariant: positions of the unbeaten rows of the whole history are in the population; step from C33, C34. Refuted beyond: when the best do not fit, a survivor can be dominated by a member dropped two generations before |
| C118 | `M_DecRun`: object state (interaction state of `M_Preferences`, limits, vectors, population, counters), vector operations and generations as arguments that may raise; `Spec_DecRun` reads type, request id and iterations off the call history | invariant over sessions (object type/id = history type/id), induction on the generation loop. Refuted: "Preferred ranges" hands out nothing; untyped iterate runs then raises; initial-population EAs ignore preferences |
| C119 | `M_MoeadRun`: the selection operator's planar vectors and neighbourhoods as state, whole iterations over `M_MOEAD`'s loop, ghost log of the tried solutions; `Properties_MoeadRef` relates the rational vectors to the real ones of `M_RefVec` | normalisation is the identity on rows summing to 1; invariant over the loop (each member at least as good as everything tried in its neighbourhood), ideal monotone |
| C120 | same, with the answers of SelectionBase.manage_preferences | totality of the loop from C72; two runs compared step by step for "only the first solution counts". Refuted: further solutions ignored, non-preferred removal raises, iteration without a preference after an answer raises |
| C121 | calc_fitness/apd_select of M_APD, nsga3_do of M_NSGA3, mr_run of M_MoeadRun, ind_next_gen of M_Indicator | two executions related by a shift (or scaling), by induction over the calls; every quantity used in a comparison is shown invariant. Units: MOEA/D by the same induction with a homogeneous scalarisation, IBEA when kappa is rescaled alike. Refuted: NSGA-III under a common unit (absolute thresholds), IBEA with kappa left alone |
| C122 | apd_select of M_APD, neighbouring_angles of M_RefVec, nsga3_do of M_NSGA3, env_loop/ind_next_gen of M_Indicator | the choice per vector restated on the individuals themselves and shown invariant under permutation of the candidates; dot products and minima as sums/folds invariant under reordering; for IBEA through the greedy specification of C41; for NSGA-III (Properties_Perm2) the fronts are unique, extreme points change places, np.linalg.solve is known only by its contract (an answer iff exactly one solution) and equivariance is derived from it; for MOEA/D (Properties_Perm3) a simulation between the run of M_MoeadRun and the run on reordered data |
| C123 | `M_IndDouble`: the additions of indicator fitness assignment and update with IEEE binary64 rounding; np.exp(-I/kappa) is an oracle returning nonnegative doubles, no overflow | error recurrence err' <= err(1+u) + uB per operation, invariant along the removal loop; exactness refuted by a duplicate whose removal leaves a fitness of 0 instead of -2^-60, so the wrong member goes |
| C124 | `M_APDnan`: RVEA's selection over finite numbers, +-infinity and NaN with IEEE arithmetic rules and numpy's NaN conventions | refinement of `M_APD` on finite rows; a NaN coordinate propagates through ideal point, differences, norms and cosines; a +infinity makes a row's cosines NaN, so it is put under vector 0 and skipped by nanmin there |
| C125 | `M_MOEADnan`: a MOEA/D generation over finite numbers, +-infinity and NaN; scalarising function by contract, with Tchebycheff as instance | refinement of `M_MOEAD` on finite values; invariants over generations (all finite; NaN in the ideal point) |
| C126 | `M_Perf`: `_model_performance` of the three surrogate models on `M_EvoNet` and `M_GPfit`; least squares by contract, with a reference solver (`P_LeastSq`, orthogonal projection) proved to meet it; a batch of a single EvoDN2 network or GP tree is not modelled | rows computed one by one; normal equations for the reference solver; witness for the BioGP batch with a zero denominator |
| C127 | `M_IndNaN`: fitness assignment, np.argmin and the removal loop on the numbers of `M_APDnan` (finite part exact); the epsilon and preference indicators restated as in `M_PBEA` (a NaN difference is passed over); infinite and NaN members fail in all objectives (PBEA, NaN: in any) | refinement to `M_Indicator` without failures; from-scratch sums and a counting argument (IBEA, +infinity: the selection from the successful members alone); C106's argument with indicator value 0 (IBEA, NaN); NaN-propagation invariants of the loop for the two PBEA refutations, stated for every population |
| C128 | `M_NSGA3nan`: the whole of NSGAIII_select.do and its helpers on the numbers of `M_APDnan`; external sorting, np.linalg.solve and random draws are arguments; a failed member is NaN (or +infinity) in all objectives | refinement to `M_NSGA3` without failures; the niching on arbitrary numbers is the niching of `M_NSGA3` on an order-preserving real code of them, so the count and elitism proofs of C33/C34 carry over; NaN-propagation from the ideal point to all niches and distances, and the origin-collapse under an infinite nadir, for the refutations (stated as: the selection is a function of the fronts and the random numbers only) |
| C129 | `M_PPGAnan`: the predators' phase and the generation of `M_PPGA` with infinite and NaN fitness; the repeated `list.sort` is CPython's algorithm for fewer than 64 elements (count_run, binarysort) on tuples with NaN | refinement to `M_PPGA` without failures; the sort of a sorted list with one element appended, for any asymmetric comparison: the last element stays last unless the new one is not smaller; from it a scan characterisation, by which a NaN restarts the search; the lattice invariants of C52-C55 re-proved for every outcome of the search |
| C130 | `M_Run` (an evaluation may raise at any call: field `w_fails`), `M_Crash` (the lattice of an interrupted PPGA generation); `Spec_Crash` | Hoare triples of C110 with an exceptional postcondition (`P_Crash`), the statements done before the raise by inversion (`P_Crash2`), lock-step simulation with the never-raising world (`P_Crash3`). Refuted: TournamentEA, PPGA, the generation budget |
| C131 | `M_Interrupt`: the methods of Population as lists of column assignments, cut off anywhere | proved equal to the methods of `M_Population` when run to the end (`code_step`, all inputs); case analysis over the cut-off point for any population, number of constraints and uncertainties; lengths decide. The silent case is a run of `M_Run` from the torn state |
| C132 | M_Seed: both process-wide generators threaded as states through creation, mating (with the arithmetic of M_Recombination), choosing parents, tournaments, requests and whole runs of MOEA/D (M_MOEAD, M_MoeadRun), IBEA/PBEA (M_Indicator) and a generation of RVEA/NSGA-III with an arbitrary selection drawing from numpy; generators are arbitrary functions of their state. PPGA, the network and GP operators (which also use Python's generator) are not threaded | every computation of MOEA/D and IBEA/PBEA shown not to read or change Python's generator, composed over runs; `Properties_Seed3`: which draws a MOEA/D step and an IBEA/PBEA generation consume and what they decide; refutations (RVEA/NSGA-III shuffle with Python's generator; request ids are drawn from numpy's; the generators are shared) with an explicit honest generator and every selection operator |
| C133 | M_MateFn.v: the three functions mate (mating list or random partners, parameter dict with defaults, mutation types), next to the classes of M_Recombination/M_NetRecomb/M_BioGP | Properties_MateFn.v: equality with the operator for explicit pairs; offspring described weight by weight (the specification `grown`); refuted: params=None raises in all three (documented as "use defaults"), EvoDN2 with another mutation type returns no offspring |
| C134 | M_GPmut.v: BioGP_mutation.do and the function mutate over lists of offspring on an object heap | P_GPmut.v: induction over the offspring with a frame argument (disjoint object sets); Properties_GPmut.v: one theorem per kind of mutation, crossover followed by mutation; partial/refuted: small mutation may break arity, mono-parental mutation may exceed max_depth (C62), and raises on an offspring with one node below the linear node |
| C135 | Each generation of `M_Run` and `iterate()` as a tree of statements (`M_Stop.prog`: one method call of the population, archive, operator or lattice, or one counter assignment); `stopped n` executes n of them. Stops inside a method of the population are C131 | `run_all` of the tree is the function of `M_Run` (C135_programs). A Hoare logic for "holds wherever stopped" (`safe`), with the rules of `P_Run` for single statements: provenance (C135_data_intact) and counters (C135_interrupted_counts, C135_count_of_a_session) by induction over programs and sessions. Exact state after j statements for decomposition and MOEA/D. Refuted: MOEA/D keeps one row too many for good (universally, C135_moead_size_refuted), the tournament EA loses its population for good (universally), the archive misses a batch (witness) |
| C136 | the five main loops statement by statement (M_Stop/M_Run), with the operators of M_Recombination, M_NetRecomb and repair as `w_mate`/`w_repair` | a predicate on rows is added to the run invariant (`J`) and carried through every statement with the `safe` logic of C135; archive, snapshots and result are covered by provenance (every reported row is a logged one); instances use the postconditions of C08/C14/C15/C16 for arbitrary draws |
| C137 | `M_RefDouble`: normalisation, adaptation and cosines operation by operation in binary64 (as M_Double); the order of summation is an arbitrary tree; overflow of the norm followed explicitly | relative error (1 ± u)^n of sums of squares by induction on the tree, square root and division by the standard model, Bernoulli; refutations by exact computation in Flocq: subnormal squares, overflow, and an adaptation (4 objectives, ranges 1 and 2^-30) after which two vectors have the cosine exactly 1; conversely (`Properties_RefDouble2`) the computed cosine is within n·2^-52 of the scalar product, and vectors at a squared distance of at least (n + 8)·2^-48 from the others get an angle of at least 2^-25; `Properties_RefDouble3`: adapted vectors are the initial ones stretched by the exact ranges up to 2^-50 |
| C138 | `M_Unbounded`: creation, SBX, BP mutation and repair on extended numbers (finite, ±infinity, NaN) with bounds that may be infinite; agrees with M_Recombination on finite numbers (proved) | the clamps by cases for an arbitrary incoming value; for infinite bounds: initial genes, crossover and mutation by computation with IEEE rules, and the whole run by C136's lifting theorem (refutation quantified over all runs) |
| C139 | `M_LatDouble`: the lattice's integers (M_Lattice) divided by the resolution and normalised in binary64 (and, for the planar copy, divided by their computed sum), order of summation arbitrary; resolution 0 is C45 | two different rows of the same integer sum differ by at least 1 somewhere; with the relative error 3·2^-53 per entry this gives a distance of at least 1/(4h) after normalisation, hence (C137_separated_angles) angles of at least 2^-25 |
| C140 | `M_NbDouble`: scipy's distance_matrix of the planar vectors in binary64 (differences, squares, sum in any order, root), argsort under the contract of C72, the first n_neighbors; overflow not followed | relative error of squared distances (underflow included) by the bounds of C137, square root normal because a positive double is at least 2^-1074; a vector's distance to itself is exactly 0; initial vectors by C139 |
| C141 | `M_APDDouble`: APD_Select.do without constraints in binary64 (translation, norm, quotient, dot products and squares summed in any order, cut to [0, 1], argmax, arccos correctly rounded, distance, argmin); np.power(x, 2) is one rounded product; the ideal point's update as in M_APD | relative error bounds of C137 for norms and dot products, a chain of elementary inequalities for the quotient and the product; Cauchy-Schwarz for true cosines <= 1; witness in subnormal squares for the refuted clause; angles: 1 - cos d >= d^2/3 up to 90 degrees; on the vectors of C139 the hypotheses are met (C141_initial) |
| C142 | `M_NSGA3Double`: associate_to_niches and calc_perpendicular_distance in binary64 (differences, quotients, norms, scalar product, projection and distance, sums in any order, argmin); overflow not followed | relative errors carried through the projection componentwise, then the triangle inequality (Cauchy-Schwarz), the squared-distance bound of C140 (underflow included) and a bound for roots; doubles' differences by Flocq's error of sums; on the vectors of C139 the hypotheses are met (C142_initial) |
| C143 | `M_PrefDouble`: interactive_adapt_1, add_edge_vectors, normalize, manage_preferred_solutions and manage_reference_point (iteractive_adapt_3) in binary64 (translation_param = the double nearest 0.2); overflow of products and sums not followed | relative errors of the two products and their sum; refuted for large objectives: from 2^56 on a vector's entry is absorbed in the sum, so all vectors become one, and argmax/argmin (first of equals) then leave at most 1 + n non-empty subpopulations for RVEA's next selection; at moderate sizes the gap of an entry exceeds both errors; a reference point's direction is a unit row (C137), refuted within 2^-538 of the ideal point (the squares underflow, the norm is 0); both normalisations of moderate rows: C137 twice, the axes exactly (a sum of zeros and one 1 in any order is 1) |
| C144 | `M_NonPrefDouble`: interactive_adapt_2 in binary64 (L1 norm, quotients, distances of `M_NbDouble`, threshold the double nearest 0.2, NaN for a zero norm; sums in any order; overflow not followed) | relative error of the L1 norm and the quotients, the triangle inequality, and C142's lemma on roots of computed sums of squares; refuted at the origin (0/0 is NaN, every comparison with it is false, all vectors are dropped) |
| C145 | `M_RangesDouble`: interactive_adapt_4 in binary64 (the scaling of `M_Double`, the normalisation of `M_RefDouble`; the unit-cube sample an argument; overflow not followed) | C114's row-wise bounds and C137's unit rows; refuted: a coordinate 1 of pyDOE.lhs can leave the range by rounding, and ranges containing only the origin give zero vectors |
| C87, C99 | `M_Ctor`: Python call binding and the constructor chains | general lemma on binding, case analysis per class |
| C88-C91 | `M_GPfit` | tree induction, loop invariant of the pruning loop |
| C98 | `M_Train` | computation on the constructor model, for all populations and generation functions |

## Testing the theorems
`tools/mutate.py` applies the edits of `seeded/mutants.jsonl` to the model in a scratch copy, rebuilds, admits every lemma that breaks and reports
which property theorems no longer prove; `seeded/LOG.jsonl` is its log. `tools/automut.py` is a random sweep looking for single-token edits that
no proof notices.

<!-- assumptions:begin -->
### What `Print Assumptions` lists for each theorem
(generated by `tools/assumptions.py`)

**Closed under the global context (no axioms)** (372 theorems):
* `Properties_Alias`: C113_values, C113_snapshots_frozen, C113_archives_stay, C113_added_arrays_kept, C113_direct_replace_refuted, C113_first_add_shared_refuted
* `Properties_Animate`: C65_next_appends_one, C65_init, C65_history, C65_names_partial, C65_names_refuted, C65_one_objective_refuted, C65_frames_and_lists_refuted, C65_dataframe_partial, C65_empty_population, C65_never_loses, C65_example, C65_plottable_example
* `Properties_Archive`: C24_archive_never_loses, C25_archive_mutual_partial, C25_archive_mutual_single_rows_partial, C25_only_same_batch_pairs_partial, C25_archive_mutual_refuted, C26_archive_aligned, C66_end_returns_non_dominated
* `Properties_BaseEA`: C18_budget_overshoot_bounded, C18_exhausted_budget_stops, C18_zero_budget_is_unlimited, C18_upper_limit_refuted, C19_iterate_generations, C19_run_terminates, C20_counters, C20_counters_initial_population, C20_surrogate_count_refuted, C22_snapshots, C23_constructor
* `Properties_BioGP`: C60_grown_trees, C60_new_individual, C60_growing_succeeds, C61_crossover, C61_exchange, C92_height_fair_keeps_depth, C92_standard_depth_partial, C93_pairs_refuted, C93_every_second, C93_no_exchange_between_individuals, C62_standard_mutation, C62_mono_parental_partial, C62_small_mutation_partial, C60_example, C60_example_grow, C61_example, C61_result, C92_standard_depth_refuted, C92_example, C93_example, C62_small_mutation_refuted, C62_small_example, C62_mono_parental_refuted, C62_standard_result, C62_standard_example, C62_mono_example
* `Properties_Crash`: C130_decomposition_generation, C130_same_course, C130_tournament_refuted, C130_moead_survives
* `Properties_Crash2`: C130_ppga_refuted, C130_generation_bound, C130_generation_budget_refuted
* `Properties_Create`: C70_single_layer_networks_refuted, C09_default_pop_size
* `Properties_Ctor`: C87_call_binding, C87_malformed_call_rejected, C87_settings_as_given, C87_own_options_as_given, C87_total_generations, C87_decomposition_population, C87_indicator_population, C87_prey_population, C87_iopis_population, C99_IK_RVEA_refuted, C99_IOPIS_alpha_refuted, C87_RVEA_alpha, C99_PPGA_ignores_problem_refuted, C87_MOEAD_two_parents, C87_RVEA_time_penalty
* `Properties_Ctor2`: C87_documented_calls_succeed, C87_both_or_neither_refused
* `Properties_DecRun`: C118_refused_preference, C118_iteration, C118_iteration_returns, C118_other_calls, C118_iteration_counter, C118_untyped_iteration_refuted, C118_initial_population_ignores_preferences_refuted, C118_non_interactive, C118_preferred_ranges_refuted
* `Properties_EvoNet`: C94_evodn2_untrained_refuted, C64_subsets_cover, C64_refit_refuted, C64_example, C64_hyps
* `Properties_GPfit`: C88_which_subtrees_go, C88_individual_kept, C88_one_pruned_partial, C88_succeeds, C90_effect_on_data, C90_value_partial, C90_prediction_partial, C90_prediction_effect, C90_variable_column, C89_recorded_output_partial, C89_complexity_is_of_the_final_tree, C91_individuals, C91_size_full_grow, C91_size_ramped, C91_size_ramped_partial, C88_right_subtrees_refuted, C89_recorded_output_refuted, C89_example, C88_one_example, C88_hyps, C90_data_unchanged_refuted, C90_same_prediction_twice_refuted, C90_value_refuted, C90_example, C91_population_size_refuted, C91_default, C91_unknown_method_refuted, C91_odd
* `Properties_GPmut`: C134_function_as_operator, C134_not_mutated, C134_standard, C134_small_partial, C134_mono_parental_partial, C134_single_node_refuted, C134_breeding
* `Properties_IOPIS`: C56_ideal_never_worsens, C56_ideal_is_best_seen, C56_nadir_fixed, C56_map_follows_ideal, C56_ideal_fitness_bounds, C83_reevaluated_fitness_current_partial, C83_preference_applied, C83_preference_applied_by_algorithm, C83_stale_fitness_refuted, C84_iopis_iterate_fails_refuted, C84_iopis_start_fails_refuted, C84_plain_iterates_partial, C84_iteration_prepared, C84_interaction_type_set, C84_start_needs_type
* `Properties_IndRun`: C107_limits_double, C107_rejected_preference, C107_accepted_preference, C107_interactive_start_refuted, C107_counters, C107_iteration_length, C43_without_interaction_ends_partial, C43_used_up_budget_ends_partial, C43_interactive_indicator_never_ends_refuted, C43_budget_outgrows_the_run_refuted
* `Properties_Interrupt`: C131_statements, C131_add_refuted, C131_keep_refuted, C131_delete_refuted, C131_replace_refuted, C131_torn_raises, C131_silent_refuted
* `Properties_Keep`: C136_operators_lift, C136_moead_repair, C136_binary, C136_networks
* `Properties_Lattice`: C44_lattice_complete, C44_values_sum_to_one, C45_maximal_resolution, C45_lattice_size_roundtrip, C45_one_objective_refuted, C45_few_vectors_refuted, C39_lattice_sized_population_partial
* `Properties_MOEAD`: C38_weights_without_zeros, C38_exactly_the_improved, C37_subproblem_step, C37_generation_keeps_size, C37_generation_never_worsens, C39_more_members_than_vectors_refuted, C39_matching_sizes_partial, C72_nearest_vectors, C72_contains_itself
* `Properties_MOEADnan`: C125_finite_values, C125_population_stays_finite, C125_failed_member_is_replaced, C125_failed_member_stays_refuted, C125_nan_freezes_the_run_refuted
* `Properties_MateFn`: C133_evonn_as_operator, C133_evonn_mate, C133_mutation_fades, C133_evodn2_as_operator, C133_evodn2_default_mating, C133_evodn2_other_type_refuted, C133_biogp_selects, C133_biogp_mate, C133_no_params_refuted
* `Properties_Mgmt`: C58_returned_are_new, C58_exact_partial, C58_not_in_archive_partial, C58_repeated_archive_refuted, C59_u_new_candidates_partial, C59_nothing_new, C59_too_few_candidates_refuted, C59_first_candidates_refuted, C59_preferred_and_certain_partial, C59_worst_evaluated_refuted, C58_new_candidate_dropped_refuted
* `Properties_MoeadRun`: C119_adaptation_keeps_the_subproblems, C119_run_never_worsens, C120_answer_is_followed_partial, C120_only_the_first_preferred_solution_refuted, C120_answers_keep_the_neighbourhoods, C120_non_preferred_breaks_refuted, C120_no_preference_afterwards_refuted
* `Properties_NetRecomb`: C16_evonn_self_adapting, C16_self_adapting_no_weights_refuted, C68_self_adapting_revives, C16_evodn2_operator, C16_mutation_fades, C16_evonn_mutation_fades, C68_evodn2_zero_stays_zero
* `Properties_PPGA`: C52_lattice_consistent, C52_predator_count, C52_no_sharing, C52_generation, C53_at_least_target, C53_predators_stop_at_target, C54_placed_exactly, C54_attempts_useless_refuted, C55_wrap, C55_neighbourhood, C55_moore, C55_not_centred_refuted, C79_kills_the_weakest, C79_weights, C80_mating_pairs, C80_mates_are_neighbours, C81_only_the_mating_error, C81_lattice_capacity, C82_culls_by_front, C82_culled_are_dominated, C82_culled_chain, C82_someone_survives, C53_never_extinct
* `Properties_PPGAnan`: C129_finite_values, C129_lattice_consistent, C129_never_below_target, C129_nan_hides_refuted, C129_edge_predators_refuted, C129_infinite_killed_first, C129_cull, C129_nan_example, C129_inf_example, C129_edge_example, C129_run
* `Properties_Pairs`: C17_single_point_pairs, C17_evonn_pairs_partial, C17_evonn_self_adapting_pairs_partial, C17_evodn2_pairs_partial, C17_partners_ignored_refuted
* `Properties_Perf`: C126_biogp_batch_order_refuted, C126_biogp_hyps
* `Properties_Perm3`: C122_moead_objectives
* `Properties_Population`: C01_population_aligned, C01_population_refines_member_list, C01_reevaluate, C02_keep_exact, C03_delete_complement, C04_add_appends, C05_replace_frame, C07_delete_all_then_add, C01_wrong_rank_refuted, C06_repair_clamps, C06_repair_wrong_length, C06_repair_matrix_refuted
* `Properties_Population2`: C01_uncertainty_rows
* `Properties_Preferences`: C21_start_requires_valid_type_partial, C21_rejected_type_partial, C21_rejected_type_changes_nothing_refuted, C21_interactive_initial_population_refuted, C21_iopis_problem_starts, C21_non_interactive_starts, C21_request_for_last_type, C57_selection_preferences, C57_latest_request_only, C57_request_returns_partial, C57_preferred_ranges_request_refuted, C57_indicator_preferences, C57_iopis_preferences, C57_iopis_problem_preferences
* `Properties_RVEA`: C27_one_selection_per_generation, C28_rejected_partial, C28_default_function_count_has_budget
* `Properties_Recomb2`: C68_evonn_zero_stays_zero
* `Properties_Recombination`: C14_single_point_tails, C14_rounding, C14_halves_to_even, C14_binary_children, C15_mutation_flips_one, C16_evonn_architecture, C16_evodn2_architecture, C68_zero_weights_stay_zero, C17_self_mating_refuted, C16_evonn_past_end_raises_refuted
* `Properties_Run`: C102_reported_rows_were_evaluated, C104_iterate_counts, C104_failed_iterate, C104_budget, C104_run_counts_everything, C104_fresh_object, C104_run_on_population, C104_loops_complete, C105_decomposition_generation, C105_moead_generation, C105_indicator_generation, C105_tournament_generation, C105_ppga_generation, C103_archive_of_a_run, C103_start_first, C103_changed_preferences_refuted, C104_surrogate_constructor_refuted, C104_indicator_surrogates_refuted, C104_failed_generation_uncounted_refuted
* `Properties_Run2`: C104_continues, C104_loop
* `Properties_RunSel`: C110_moead_runs_on
* `Properties_Seed`: C132_reseeded_schedules
* `Properties_Shared`: C116_reported_rows_were_evaluated, C116_own_counters, C116_others_untouched, C116_same_result, C116_result_not_own_refuted
* `Properties_Shift2`: C121_moead_origin
* `Properties_Shift3`: C121_moead_unit
* `Properties_Snap`: C100_snapshot_labels_partial, C100_end_returns_archive_partial, C100_no_archive, C100_failed_snapshot_changes_nothing, C100_snapshot_fails_iff, C100_run_history_partial, C100_objective_labels_refuted, C100_vector_fitness_refuted, C100_mixed_objectives_refuted, C100_plot_table_partial, C100_plot_table_refuted
* `Properties_Snap2`: C100_vector_fitnesses_refuted, C100_plot_vector_objectives_refuted, C100_single_vector_fitness_refuted
* `Properties_Stop`: C135_programs, C135_data_intact, C135_interrupted_counts, C135_count_of_a_session, C135_decomposition_stopped, C135_moead_stopped, C135_moead_size_refuted, C135_moead_size_partial, C135_tournament_refuted, C135_archive_refuted
* `Properties_Train`: C98_network_trains_with_PPGA, C98_network_other_algorithms_refuted, C98_network_size_refuted, C98_biogp_never_trains_refuted, C98_biogp_default_refuted, C98_biogp_two_objective_stage, C98_biogp_decomposition_refuted

**Axioms `ClassicalDedekindReals.sig_forall_dec`** (14 theorems):
* `Properties_APD`: C32_selection_types
* `Properties_Create`: C70_evonn_created_shape, C70_evonn_omitted_weights, C70_evonn_any_weights_omitted, C70_evodn2_created_chain, C70_evodn2_omitted_weights
* `Properties_EvoNet`: C94_evonn_untrained, C94_evonn_new_model, C70_evonn_training_networks_partial, C70_evonn_training_bias_refuted, C96_created_networks_evaluate, C96_example
* `Properties_NSGA3nan`: C128_inf_call
* `Properties_Unbounded`: C138_agrees_design

**Axioms `ClassicalDedekindReals.sig_forall_dec`, `ClassicalDedekindReals.sig_not_dec`, `Classical_Prop.classic`, `FunctionalExtensionality.functional_extensionality_dep`** (152 theorems):
* `Properties_APD`: C29_selection_total, C29_one_per_niche, C30_smallest_apd, C31_feasible_first, C32_ideal_step, C32_ideal_history
* `Properties_APDDouble`: C141_cosine, C141_assignment, C141_distance, C141_choice, C141_best_up_to_rounding, C141_no_penalty, C141_ideal_point, C141_distance_nonneg, C141_tiny_refuted
* `Properties_APDDouble2`: C141_selection
* `Properties_APDDouble3`: C141_angle, C141_unambiguous
* `Properties_APDnan`: C124_finite_values, C124_infinity_disturbs_nobody, C124_nan_stops_selection_refuted, C124_nan_for_ever_refuted
* `Properties_APDold`: C112_mean_as_before, C112_optimistic_as_before, C112_robust_refuted
* `Properties_Crash`: C130_rvea_survives
* `Properties_Double`: C114_random_design_in_bounds, C114_lhs_design_nearly_in_bounds, C114_lhs_design_refuted, C115_identical_parents, C115_sum_nearly_kept, C115_copied_nearly, C115_copied_refuted
* `Properties_EvoNet`: C63_akaike_takes_the_first, C63_akaike_partial, C63_min_error_refuted, C63_criterion, C94_evonn_reproduces, C94_evonn_failed_training, C63_akaike_refuted, C63_partial_example
* `Properties_IOPISsel`: C85_selection_total, C85_one_per_niche, C85_smallest_apd_partial, C85_alpha_ignored_refuted
* `Properties_IndDouble`: C123_nearly_exact, C123_exact_when_separated, C123_wrong_member_removed_refuted
* `Properties_IndNaN`: C127_ibea_infinite, C127_ibea_nan_partial
* `Properties_Indicator`: C73_removed_is_not_better
* `Properties_InitDouble`: C141_initial, C142_initial, C141_initial_distance, C141_adapted
* `Properties_InitDouble2`: C142_adapted
* `Properties_Keep`: C136_bounds, C136_bounds_offspring
* `Properties_LatDouble`: C139_initial_vectors, C139_planar_vectors
* `Properties_NSGA3`: C101_nadir_between
* `Properties_NSGA3Double`: C142_distance, C142_association, C142_unambiguous
* `Properties_NSGA3Double2`: C142_normalised, C142_ideal_point
* `Properties_NbDouble`: C140_nearest_up_to_rounding, C140_contains_itself, C140_initial_neighbourhoods
* `Properties_NonPrefDouble`: C144_distance, C144_far_kept, C144_near_dropped, C144_exact, C144_origin_refuted
* `Properties_PBEA`: C106_ibea_keeps_dominators, C106_pbea_keeps_dominators_partial, C106_pbea_maximised_refuted
* `Properties_Pairs`: C17_sbx_pairs
* `Properties_Perf`: C126_evonn_trained_model
* `Properties_Perm`: C122_rvea_individuals, C122_rvea_objectives, C122_neighbouring_angles
* `Properties_PrefDouble`: C143_shift, C143_identical_refuted, C143_collapse_refuted
* `Properties_PrefDouble2`: C143_distinct
* `Properties_PrefDouble3`: C143_reference_point, C143_near_ideal_refuted
* `Properties_PrefDouble4`: C143_axis, C143_axes_added
* `Properties_PrefDouble5`: C143_reference_vectors, C143_preferred_vectors
* `Properties_RVEA`: C27_partial_penalty
* `Properties_RangesDouble`: C145_samples, C145_samples_refuted, C145_unit_length, C145_origin_refuted
* `Properties_Recomb2`: C67_sbx_operator, C13_mutation_operator_partial
* `Properties_Recombination`: C10_sbx_pairs, C11_sbx_mean_preserving, C67_sbx_spread, C12_mutation_in_bounds, C12_default_probability, C12_mutation_distance, C13_mutation_repairs_partial, C13_mutation_repairs_refuted, C08_mate_in_bounds_partial, C08_mate_in_bounds_refuted
* `Properties_RefDouble`: C137_unit_length_partial, C137_adapt_partial, C137_tiny_refuted, C137_huge_refuted, C137_distinct_exact, C137_nonnegative_angles, C137_distinct_refuted
* `Properties_RefDouble2`: C137_cosine_error, C137_separated_angles
* `Properties_RefDouble3`: C137_adapt_by_ranges_partial
* `Properties_RefVec`: C49_turns_by_angle, C49_parallel_refuted, C75_smallest_angle, C75_repeated_vector, C77_focused, C77_sparse_focused, C78_slow_step, C78_unnormalised_refuted, C78_exact_angle_refuted
* `Properties_RunSel`: C110_rvea_runs_on
* `Properties_Seed`: C132_moead_numpy_seed, C132_indicator_numpy_seed
* `Properties_Seed2`: C132_mate_refuted, C132_decomposition_refuted, C132_extra_request_refuted, C132_other_algorithm_refuted
* `Properties_Seed3`: C132_moead_step, C132_indicator_step
* `Properties_Shift`: C121_rvea_origin, C121_rvea_unit
* `Properties_Shift3`: C121_ibea_units_refuted
* `Properties_SymVec`: C111_transition_arrives, C111_transition_turns, C111_exact_multiple_refuted, C111_example, C111_example_exact
* `Properties_Unbounded`: C138_agrees, C138_agrees_sbx, C138_nan_stays, C138_mutation_refuted, C138_equal_bounds_refuted, C138_run_refuted, C138_mate_inside

**Axioms `ClassicalDedekindReals.sig_forall_dec`, `ClassicalDedekindReals.sig_not_dec`, `FunctionalExtensionality.functional_extensionality_dep`** (101 theorems):
* `Properties_Crash`: C130_nsga3_survives
* `Properties_Elite`: C117_best_kept_while_they_fit, C117_no_survivor_beaten_by_a_dropped_row, C117_best_lost_refuted
* `Properties_EvoNet`: C63_evodn2_min_error, C63_evodn2_other_criterion, C94_evodn2_reproduces, C96_selection_succeeds, C96_selection_example
* `Properties_IOPISsel`: C86_exact_count, C86_every_selection, C86_dominators_selected, C86_ideal_step, C86_explicit_n_survive_refuted
* `Properties_IndNaN`: C127_ibea_finite_values, C127_pbea_finite_values, C127_ibea_nan_refuted, C127_pbea_nan_refuted, C127_pbea_infinite_refuted
* `Properties_Indicator`: C41_environmental_selection, C42_assignment_exact, C42_each_removal_exact, C42_loop_exact, C41_generation, C74_mating_prefers_the_worst_refuted
* `Properties_MoeadRef`: C119_adaptation_refines, C120_answers_refine
* `Properties_NSGA3`: C33_exact_count, C34_dominators_selected, C34_fronts_in_order, C35_least_crowded_first, C35_niche_is_nearest_line, C36_small_population_wiped_refuted, C36_explicit_n_survive_refuted, C36_nonempty_partial, C32_nsga3_ideal_worst, C32_nsga3_exact, C71_after_selection, C101_fallback_refuted
* `Properties_NSGA3nan`: C128_finite_values, C128_count_and_elitism, C128_infinite_last, C128_nan_survives_refuted, C128_nan_blinds_refuted, C128_infinite_blinds_refuted, C128_mixed, C128_mixed_all, C128_inf
* `Properties_NewRV`: C108_pulled_towards_reference, C108_order_kept, C108_third_axis_refuted, C108_all_parallel_refuted, C108_three_objectives_only_refuted, C109_vectors_around_reference, C109_unit_nonnegative_close, C109_no_trace, C109_duplicates_refuted
* `Properties_Perf`: C126_evodn2_records_agree, C126_evodn2_trained_model_refuted, C126_evodn2_example
* `Properties_Perm`: C122_ibea_individuals
* `Properties_Perm2`: C122_nsga3_objectives, C122_ibea_objectives
* `Properties_RefPref`: C97_reference_point, C97_preferred_solutions_partial, C97_preferred_solutions_refuted, C97_preferred_ranges, C97_ranges_grow, C97_reference_example, C97_ranges_example, C97_solutions_example
* `Properties_RefVec`: C46_unit_length, C46_uniform_creation, C46_adapt_unit, C46_planar_sum, C46_number_of_vectors, C47_no_trace, C47_idempotent, C47_planar_trace_refuted, C76_interactions_accepted_partial, C76_skipped_interaction_refuted, C48_rotation, C48_parallel_refuted, C50_edges_present, C50_directions_kept, C50_edges_accumulate, C51_never_empty, C51_preferred_solutions, C51_preferred_solutions_planar, C51_reference_point_planar, C51_ranges_planar, C51_non_preferred_solutions, C51_all_named_resets, C51_all_removed_refuted, C51_none_preferred_refuted, C77_on_axis_refuted
* `Properties_RunSel`: C110_nsga3_runs_on
* `Properties_Shift`: C121_nsga3_origin, C121_nsga3_units_refuted
* `Properties_Shift2`: C121_ibea_origin
* `Properties_Shift3`: C121_ibea_unit_with_kappa

**Axioms `ClassicalDedekindReals.sig_forall_dec`, `FunctionalExtensionality.functional_extensionality_dep`** (36 theorems):
* `Properties_APDold`: C112_example
* `Properties_Crash`: C130_indicator_survives
* `Properties_Create`: C09_design_in_bounds, C69_lhs_stratified
* `Properties_EvoNet`: C94_best_output_layer, C95_complexity_is_path_weight, C95_zero_complexity, C95_example
* `Properties_Indicator`: C40_best_of_each_tournament, C40_total, C40_last_individual_never_chosen_refuted, C40_full_tournament_refuted
* `Properties_NSGA3`: C35_normalised_components, C71_axis_value, C71_extreme_points, C101_extreme_points_on_simplex, C71_instance
* `Properties_NSGA3nan`: C128_oracles
* `Properties_Perf`: C126_evonn_rows, C126_evonn_untrained, C126_other_data_refuted, C126_evodn2_rows, C126_least_squares
* `Properties_PrefDouble`: C143_exact_distinct
* `Properties_RVEA`: C27_original, C27_interactive, C27_function_count, C27_function_count_without_budget_refuted, C28_out_of_range_float_accepted_refuted
* `Properties_RefVec`: C47_ranges
* `Properties_RunSel`: C110_indicator_runs_on, C110_tournament_runs_on
* `Properties_Seed3`: C132_tournaments_happen
* `Properties_Unbounded`: C138_clamps, C138_initial_refuted, C138_crossover_lost

**Axioms `FunctionalExtensionality.functional_extensionality_dep`** (1 theorems):
* `Properties_Perf`: C126_biogp_rows_partial

<!-- assumptions:end -->
