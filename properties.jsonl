{"id": "C01", "title": "Population columns stay aligned", "statement": "After any sequence of Population.add / keep / delete / replace / repair / reevaluate_fitness calls whose evaluations return one row per individual (and always, or never, report uncertainty), the individuals, objectives, fitness, constraint and uncertainity arrays have the same number of rows, and row i of every array is the evaluation of row i of individuals (its fitness being the one recomputed from its own objectives if the problem was asked to recompute it).", "quantifier": "every call sequence, every argument of each call, every evaluator, every number of individuals/objectives/constraints", "why_tests_cant": "A test checks a handful of call sequences; misalignment appears only after particular histories (e.g. delete everything and refill).", "anchors": ["desdeo_emo/population/Population.py: Population.add, keep, delete, replace, repair, reevaluate_fitness"]}
{"id": "C02", "title": "keep retains exactly the listed members", "statement": "Population.keep(indices) leaves exactly the members whose position is listed (negative positions count from the end, duplicates are irrelevant), in their original relative order, in every array; an out-of-range position raises IndexError and changes nothing.", "quantifier": "every population, every list of integer positions", "why_tests_cant": "Order, duplicates, negatives and out-of-range positions multiply into unboundedly many index lists.", "anchors": ["desdeo_emo/population/Population.py: Population.keep"]}
{"id": "C03", "title": "delete is the exact complement of keep", "statement": "Population.delete(indices) removes exactly the members keep(indices) would retain and keeps all the others in original order; keep and delete with the same indices partition the population.", "quantifier": "every population, every list of integer positions", "why_tests_cant": "The complement law is a statement about all index lists.", "anchors": ["desdeo_emo/population/Population.py: Population.delete, keep"]}
{"id": "C04", "title": "add appends the evaluated offspring and preserves existing members", "statement": "Population.add(offspring) on a non-empty population appends the offspring, in order, with their evaluation results after the existing members, none of which changes, and returns that evaluation.", "quantifier": "every population, every offspring batch, every evaluator", "why_tests_cant": "Must hold for all batch sizes and all evaluator outputs.", "anchors": ["desdeo_emo/population/Population.py: Population.add"]}
{"id": "C05", "title": "replace changes only the addressed members", "statement": "Population.replace(indices, individual, results) makes every addressed row (in all arrays) equal to the given individual and its evaluation and leaves every other row and the size unchanged.", "quantifier": "every population, every index list, every individual", "why_tests_cant": "Frame conditions quantify over all untouched rows.", "anchors": ["desdeo_emo/population/Population.py: Population.replace"]}
{"id": "C06", "title": "repair brings every gene into its bounds and changes nothing else", "statement": "Population.repair applied to a decision vector returns a vector of the same length in which every (non-NaN) gene lies between its lower and upper bound, genes already inside are unchanged, and applying it twice equals applying it once.", "quantifier": "every matrix, every pair of bound vectors with lower <= upper", "why_tests_cant": "Quantifies over all real genes and bounds.", "anchors": ["desdeo_emo/population/Population.py: Population.repair"]}
{"id": "C07", "title": "An emptied population can be refilled", "statement": "After delete removes every member, the population is empty, further keep/delete calls raise instead of corrupting data, and the next add makes the population exactly the added offspring in all arrays.", "quantifier": "every history that ends with deleting everything", "why_tests_cant": "Needs a specific history before the observation.", "anchors": ["desdeo_emo/population/Population.py: Population.delete, add"]}
{"id": "C08", "title": "mate produces in-bounds offspring", "statement": "For any in-bounds population, Population.mate with the default operators returns offspring whose genes are numbers lying within the variable bounds.", "quantifier": "every population, every draw of the random generator", "why_tests_cant": "Depends on the random draws; a violating draw is rare.", "anchors": ["desdeo_emo/population/Population.py: Population.mate", "desdeo_emo/recombination/SimulatedBinaryCrossover.py: SBX_xover.do", "desdeo_emo/recombination/BoundedPolynomialMutation.py: BP_mutation.do"]}
{"id": "C09", "title": "Initial designs lie inside the bounds and have the requested size", "statement": "create_new_individuals with RandomDesign or LHSDesign returns exactly pop_size individuals with one gene per variable, each gene within its bounds.", "quantifier": "every pop_size, number of variables, bounds and unit-cube sample", "why_tests_cant": "Random output over unbounded sizes.", "anchors": ["desdeo_emo/population/CreateIndividuals.py: create_new_individuals"]}
{"id": "C10", "title": "SBX uses every parent and returns an even number of children", "statement": "SBX_xover.do returns one pair of children per consecutive pair of mating indices; with an odd number of indices the last parent is paired with the first; the number of children is the number of indices rounded up to even.", "quantifier": "every population and every mating list (1-D, 2-D or default shuffled)", "why_tests_cant": "Parity and shape cases over all list lengths.", "anchors": ["desdeo_emo/recombination/SimulatedBinaryCrossover.py: SBX_xover.do"]}
{"id": "C11", "title": "SBX is mean preserving", "statement": "For each pair of parents, the two children have the same gene-wise sum as the parents, and identical parents yield identical children, whatever the random draws.", "quantifier": "every pair of parents and every random draw", "why_tests_cant": "Random real-valued outputs.", "anchors": ["desdeo_emo/recombination/SimulatedBinaryCrossover.py: SBX_xover.do"]}
{"id": "C12", "title": "Polynomial mutation keeps in-bounds individuals in bounds", "statement": "BP_mutation.do applied to offspring whose genes are within bounds (lower < upper) returns numbers within bounds, and genes whose draw exceeds the mutation probability are unchanged.", "quantifier": "every offspring matrix inside bounds, every random draw, every ProM and DisM", "why_tests_cant": "Real-valued formula with powers over all draws.", "anchors": ["desdeo_emo/recombination/BoundedPolynomialMutation.py: BP_mutation.do"]}
{"id": "C13", "title": "Polynomial mutation repairs out-of-bounds individuals", "statement": "BP_mutation.do returns in-bounds numbers also for offspring that crossover pushed out of bounds.", "quantifier": "every offspring matrix, every random draw", "why_tests_cant": "The failing region (negative base of a fractional power) has small probability.", "anchors": ["desdeo_emo/recombination/BoundedPolynomialMutation.py: BP_mutation.do"]}
{"id": "C14", "title": "Single point crossover only exchanges tails", "statement": "Each pair of children of SinglePoint_Xover.do is obtained by cutting both parents at one common point and swapping tails: at every position the two children carry exactly the two parents' genes (rounded); binary parents give binary children.", "quantifier": "every population of equal-length individuals, mating list and cut points", "why_tests_cant": "All lengths and cut points.", "anchors": ["desdeo_emo/recombination/SinglePointCrossoverMutation.py: SinglePoint_Xover.do"]}
{"id": "C15", "title": "Single point mutation flips exactly one bit per individual", "statement": "SinglePoint_Mutation.do changes exactly one gene of each binary individual, turning x into 1-x, and keeps the matrix binary and of the same shape.", "quantifier": "every binary matrix and draw of mutated positions", "why_tests_cant": "All sizes and draws.", "anchors": ["desdeo_emo/recombination/SinglePointCrossoverMutation.py: SinglePoint_Mutation.do"]}
{"id": "C16", "title": "Neural-network recombination preserves architecture", "statement": "EvoNN / EvoDN2 recombination (either mutation type) returns two children per pair with the layer shapes of the parents; at every weight position the children hold the two parents' weights, possibly swapped, and a weight drawn for mutation is then moved by the documented step: w(1 + step) with a step that shrinks to 0 towards the planned end (Gaussian), or by a multiple of the difference of two members' weights (self-adapting).", "quantifier": "every population of networks, every list of pairs, every random draw, every generation", "why_tests_cant": "All architectures, swap sets and mutation draws.", "anchors": ["desdeo_emo/recombination/evonn_xover_mutation.py: EvoNNRecombination.do", "desdeo_emo/recombination/evodn2_xover_mutation.py: EvoDN2Recombination.do"]}
{"id": "C17", "title": "A mating list is consumed as pairs of distinct entries", "statement": "When a recombination operator is given a 1-D mating list a,b,c,d,... it mates a with b, c with d and so on.", "quantifier": "every mating list", "why_tests_cant": "Pairing is a property of every list length.", "anchors": ["desdeo_emo/recombination/SimulatedBinaryCrossover.py: SBX_xover.do", "desdeo_emo/recombination/SinglePointCrossoverMutation.py: SinglePoint_Xover.do", "desdeo_emo/recombination/evonn_xover_mutation.py", "desdeo_emo/recombination/evodn2_xover_mutation.py", "desdeo_emo/recombination/biogp_xover.py"]}
{"id": "C18", "title": "The function-evaluation budget stops the run", "statement": "With a positive total_function_evaluations, no generation starts once the evaluation count exceeds the budget, so the total number of evaluations exceeds the budget by at most one generation's offspring; with 0 the budget never stops the run.", "quantifier": "every budget, every generation size sequence, every number of iterate calls", "why_tests_cant": "The overshoot bound must hold for every schedule of generations.", "anchors": ["desdeo_emo/EAs/BaseEA.py: BaseEA.check_FE_count, continue_iteration, continue_evolution, iterate"]}
{"id": "C19", "title": "iterate runs the configured number of generations and the run terminates", "statement": "Each iterate runs exactly n_gen_per_iter generations unless the evaluation budget is exhausted first, and calling iterate while continue_evolution holds performs at most n_iterations iterations.", "quantifier": "every configuration of n_iterations, n_gen_per_iter, budget", "why_tests_cant": "Termination over all configurations.", "anchors": ["desdeo_emo/EAs/BaseEA.py: BaseEA.iterate, continue_iteration, continue_evolution"]}
{"id": "C20", "title": "Counters equal the work done", "statement": "_function_evaluation_count equals the number of individuals evaluated through the EA (initial population plus offspring), _current_gen_count the number of generations run, and _iteration_counter the number of completed iterations.", "quantifier": "every run history", "why_tests_cant": "Counting invariants over histories.", "anchors": ["desdeo_emo/EAs/BaseEA.py: BaseEA.__init__, iterate; BaseDecompositionEA.__init__, _next_gen"]}
{"id": "C21", "title": "A rejected interaction type changes nothing", "statement": "set_interaction_type accepts exactly None and the allowable types; any other value raises and leaves the EA as it was, so an EA for which no valid type was set refuses to start.", "quantifier": "every sequence of set_interaction_type calls and values", "why_tests_cant": "Requires call sequences with failing calls.", "anchors": ["desdeo_emo/EAs/BaseEA.py: BaseEA.set_interaction_type, start; BaseDecompositionEA"]}
{"id": "C22", "title": "Population snapshots are keyed by generation", "statement": "With keep_archive, after a run the archive holds one snapshot for the start of every iteration plus the end, each equal to the population at that moment and keyed by the generation count; no snapshot is later changed.", "quantifier": "every run history", "why_tests_cant": "History property.", "anchors": ["desdeo_emo/EAs/BaseEA.py: BaseEA.pre_iteration, end"]}
{"id": "C23", "title": "Wrong construction arguments are rejected", "statement": "A decomposition EA needs exactly one of problem and initial_population: giving both or neither raises eaError; with a problem and no population_size the size is the default lattice size for the number of objectives.", "quantifier": "every argument combination and number of objectives", "why_tests_cant": "All numbers of objectives.", "anchors": ["desdeo_emo/EAs/BaseEA.py: BaseDecompositionEA.__init__"]}
{"id": "C24", "title": "The non-dominated archive never loses a best solution", "statement": "After any history of generations, every solution ever submitted to the archive is equal to or dominated by an archived one; in particular every Pareto-optimal submitted solution's objective vector is in the archive.", "quantifier": "every history of submitted batches", "why_tests_cant": "History property over unbounded batches.", "anchors": ["desdeo_emo/utilities/non_dominated.py: check_domination", "desdeo_emo/EAs/BaseEA.py: BaseEA.non_dominated_archive"]}
{"id": "C25", "title": "The non-dominated archive is mutually non-dominated", "statement": "No archived solution dominates another.", "quantifier": "every history of submitted batches", "why_tests_cant": "Only particular batch contents violate it.", "anchors": ["desdeo_emo/utilities/non_dominated.py: check_domination", "desdeo_emo/EAs/BaseEA.py: BaseEA.non_dominated_archive", "desdeo_emo/EAs/MOEAD.py: MOEA_D._next_gen"]}
{"id": "C26", "title": "The non-dominated archive's columns stay aligned and only hold submitted solutions", "statement": "individuals, objectives and fitness of the archive keep the same number of rows, row i being the i-th archived solution, and every archived solution was submitted.", "quantifier": "every history", "why_tests_cant": "History property.", "anchors": ["desdeo_emo/utilities/non_dominated.py: check_domination", "desdeo_emo/EAs/BaseEA.py: BaseEA.non_dominated_archive"]}
{"id": "C27", "title": "The time penalty grows from 0 towards 1 over the run", "statement": "The RVEA time penalty is between 0 and 1 at every selection of a run within its budget, never decreases within a phase, and the partial penalty used by selection lies in [0, number of objectives].", "quantifier": "every configuration and point of the run", "why_tests_cant": "Real-valued and history dependent.", "anchors": ["desdeo_emo/EAs/RVEA.py: RVEA._time_penalty_*", "desdeo_emo/selection/APD_Select_constraints.py: APD_Select._partial_penalty_factor"]}
{"id": "C28", "title": "Invalid time-penalty settings are rejected", "statement": "RVEA raises eaError when time_penalty_component is neither a float in [0,1] nor one of the documented strings.", "quantifier": "every value of the argument", "why_tests_cant": "All values.", "anchors": ["desdeo_emo/EAs/RVEA.py: RVEA.__init__"]}
{"id": "C29", "title": "APD selection picks exactly one individual per active reference vector", "statement": "APD selection returns distinct valid positions, exactly one from each non-empty niche (individuals whose closest reference vector, by cosine, is that vector) and none else; it is non-empty for a non-empty population.", "quantifier": "every fitness matrix, reference vectors, penalty", "why_tests_cant": "All matrices.", "anchors": ["desdeo_emo/selection/APD_Select_constraints.py: APD_Select.do"]}
{"id": "C30", "title": "APD selection minimises the angle penalised distance", "statement": "Within each niche (after the constraint filter) the chosen individual has the smallest |f - ideal| * (1 + penalty * angle / smallest vector angle).", "quantifier": "every fitness matrix, reference vectors, penalty", "why_tests_cant": "Real-valued optimisation claim.", "anchors": ["desdeo_emo/selection/APD_Select_constraints.py: APD_Select.do"]}
{"id": "C31", "title": "APD selection prefers feasible individuals", "statement": "With constraints, if a niche contains feasible individuals the chosen one is feasible; otherwise it has the least total violation in the niche.", "quantifier": "every constraint matrix", "why_tests_cant": "All matrices.", "anchors": ["desdeo_emo/selection/APD_Select_constraints.py: APD_Select.do"]}
{"id": "C32", "title": "The ideal point only improves", "statement": "The ideal vector used by APD and NSGA-III selection never increases in any component, is at most every fitness seen, and translated fitness values are non-negative.", "quantifier": "every history of selections", "why_tests_cant": "History property.", "anchors": ["desdeo_emo/selection/APD_Select_constraints.py: APD_Select.do", "desdeo_emo/selection/NSGAIII_select.py: NSGAIII_select.do"]}
{"id": "C33", "title": "NSGA-III selects exactly the requested number of survivors", "statement": "If the population has at least n_survive individuals, NSGA-III selection returns exactly n_survive distinct valid positions.", "quantifier": "every fitness matrix, fronts, reference directions, random draws", "why_tests_cant": "All matrices and draws.", "anchors": ["desdeo_emo/selection/NSGAIII_select.py: NSGAIII_select.do, niching"]}
{"id": "C34", "title": "NSGA-III is elitist by rank", "statement": "A dominated individual is selected only if every individual that dominates it is selected; all individuals of fronts before the splitting front are selected.", "quantifier": "every fitness matrix and draw", "why_tests_cant": "All matrices and draws.", "anchors": ["desdeo_emo/selection/NSGAIII_select.py: NSGAIII_select.do, niching"]}
{"id": "C35", "title": "NSGA-III niching fills the least crowded niches first", "statement": "While splitting the last front, each added individual belongs to a niche whose current number of survivors is minimal among niches that still have candidates, and an empty niche gets its closest candidate.", "quantifier": "every niche configuration and draw", "why_tests_cant": "All configurations.", "anchors": ["desdeo_emo/selection/NSGAIII_select.py: NSGAIII_select.do, niching"]}
{"id": "C36", "title": "NSGA-III selection never wipes out the population", "statement": "NSGA-III selection returns a non-empty selection for any non-empty population and honours an explicitly given n_survive.", "quantifier": "every population size and n_survive", "why_tests_cant": "The failing sizes are specific.", "anchors": ["desdeo_emo/selection/NSGAIII_select.py: NSGAIII_select.do, niching", "desdeo_emo/selection/NSGAIII_select.py: NSGAIII_select.__init__"]}
{"id": "C37", "title": "MOEA/D keeps the population size and never worsens a subproblem", "statement": "One MOEA/D generation leaves the population size unchanged; in each of its steps the members outside the current neighbourhood are unchanged and the scalarised value (at the ideal point known then) of every neighbour's member never increases; while no offspring improves the ideal point this holds for the whole generation.", "quantifier": "every population, scalarising function, set of vectors and neighbourhoods, every random choice of parents and every offspring", "why_tests_cant": "must hold for every population, scalarising function and random draw", "anchors": ["desdeo_emo/EAs/MOEAD.py: MOEA_D._next_gen", "desdeo_emo/selection/MOEAD_select.py: MOEAD_select.do", "desdeo_emo/population/Population.py: Population.replace"]}
{"id": "C38", "title": "MOEA/D replaces exactly the improved neighbours", "statement": "MOEAD_select.do returns exactly the neighbour positions whose scalarised value is strictly worse than the offspring's.", "quantifier": "every state", "why_tests_cant": "All states.", "anchors": ["desdeo_emo/selection/MOEAD_select.py: MOEAD_select.do"]}
{"id": "C39", "title": "MOEA/D visits only existing subproblems", "statement": "A MOEA/D generation never fails with an index error, for any admissible population size.", "quantifier": "every population size and number of objectives", "why_tests_cant": "Only non-lattice sizes fail.", "anchors": ["desdeo_emo/EAs/MOEAD.py: MOEA_D._next_gen"]}
{"id": "C40", "title": "Tournament selection returns the best of each tournament", "statement": "TournamentSelection.do returns one valid position per individual, each being the contestant with the smallest fitness of a tournament of tournament_size distinct individuals; every individual can take part in tournaments.", "quantifier": "every fitness array, tournament size and random draw", "why_tests_cant": "must hold for every random draw and fitness array", "anchors": ["desdeo_emo/selection/TournamentSelection.py: TournamentSelection.do, _tour_select"]}
{"id": "C41", "title": "Indicator-based environmental selection keeps the population size", "statement": "Environmental selection in IBEA/PBEA removes one individual with the worst indicator fitness at a time until exactly pop_size remain (or nothing if already at most pop_size).", "quantifier": "every population and indicator", "why_tests_cant": "All states.", "anchors": ["desdeo_emo/EAs/BaseIndicatorEA.py: BaseIndicatorEA._next_gen", "desdeo_emo/EAs/IBEA.py", "desdeo_emo/EAs/PBEA.py"]}
{"id": "C42", "title": "The incremental indicator update is exact", "statement": "After each removal, the incrementally updated IBEA fitness of every remaining individual equals the fitness recomputed from scratch on the remaining population.", "quantifier": "every population and removal order", "why_tests_cant": "All histories of removals.", "anchors": ["desdeo_emo/EAs/IBEA.py: IBEA._environmental_selection", "desdeo_emo/EAs/PBEA.py: PBEA._environmental_selection"]}
{"id": "C43", "title": "An interactive indicator run ends", "statement": "Calling iterate while continue_evolution holds ends after finitely many calls for interactive PBEA.", "quantifier": "every run with interaction", "why_tests_cant": "Non-termination cannot be observed by a finite test.", "anchors": ["desdeo_emo/EAs/BaseIndicatorEA.py: BaseIndicatorEA.manage_preferences, iterate"]}
{"id": "C44", "title": "The simplex lattice design is complete", "statement": "With lattice resolution H and M objectives, the uniform reference vectors are, before normalisation, exactly all vectors of non-negative multiples of 1/H summing to 1, each once; there are binomial(H+M-1, M-1) of them.", "quantifier": "every H >= 1 and M >= 1", "why_tests_cant": "All resolutions and dimensions.", "anchors": ["desdeo_emo/utilities/ReferenceVectors.py: ReferenceVectors._create"]}
{"id": "C45", "title": "The lattice resolution search is maximal", "statement": "Given number_of_vectors, the chosen resolution is the largest whose lattice has at most number_of_vectors vectors, and the search terminates with at least one vector.", "quantifier": "every number_of_vectors and number of objectives", "why_tests_cant": "Termination and maximality over all sizes.", "anchors": ["desdeo_emo/utilities/ReferenceVectors.py: ReferenceVectors.__init__"]}
{"id": "C46", "title": "Reference vectors have unit length", "statement": "After creation, normalisation, adaptation or edge insertion, in any order, every reference vector with a non-zero entry has Euclidean norm 1, planar copies whose sum is not zero sum to 1, and number_of_vectors counts the rows.", "quantifier": "every vector set and every history of interactions", "why_tests_cant": "Real-valued, all histories.", "anchors": ["desdeo_emo/utilities/ReferenceVectors.py: ReferenceVectors.normalize, adapt, add_edge_vectors"]}
{"id": "C47", "title": "Adaptation to the objective ranges is idempotent", "statement": "ReferenceVectors.adapt(fitness) depends only on the initial vectors and the current fitness ranges: repeating it changes nothing and earlier adaptations leave no trace.", "quantifier": "every vector set and fitness history", "why_tests_cant": "History property.", "anchors": ["desdeo_emo/utilities/ReferenceVectors.py: ReferenceVectors.adapt"]}
{"id": "C48", "title": "Rotation is an isometry taking the initial to the rotated vector", "statement": "rotate(initial, rotated, others) preserves lengths and inner products and sends initial to rotated, for unit vectors.", "quantifier": "every pair of distinct unit vectors and every vector", "why_tests_cant": "Real-valued linear algebra.", "anchors": ["desdeo_emo/utilities/ReferenceVectors.py: rotate, householder"]}
{"id": "C49", "title": "rotate_toward turns by the requested angle", "statement": "rotate_toward(initial, final, others, degrees) sends initial to a vector at exactly the given angle from initial within the plane of both, or reaches final when it is closer than that.", "quantifier": "every pair of vectors and angle", "why_tests_cant": "Real-valued trigonometry.", "anchors": ["desdeo_emo/utilities/ReferenceVectors.py: rotate_toward"]}
{"id": "C50", "title": "Edge vectors are always present after interaction", "statement": "After add_edge_vectors the set contains every axis unit vector and all previous directions.", "quantifier": "every vector set", "why_tests_cant": "All sets.", "anchors": ["desdeo_emo/utilities/ReferenceVectors.py: ReferenceVectors.add_edge_vectors"]}
{"id": "C51", "title": "Preference adaptation never leaves an empty reference set", "statement": "Every interactive adaptation leaves at least one reference vector: removing all of them restores the original set; preferred-solution adaptation yields one shifted copy of the set per preferred solution.", "quantifier": "every preference and vector set", "why_tests_cant": "All preferences.", "anchors": ["desdeo_emo/utilities/ReferenceVectors.py: ReferenceVectors.interactive_adapt_1, interactive_adapt_2"]}
{"id": "C52", "title": "The predator-prey lattice is consistent", "statement": "At all times each prey and each predator occupies exactly one lattice cell, no two share a cell, every non-empty cell belongs to one of them, and prey i on the lattice is individual i of the population.", "quantifier": "every history of moves, births and kills", "why_tests_cant": "History invariant.", "anchors": ["desdeo_emo/EAs/PPGA.py: Lattice.init_prey, init_predator, move_prey, place_offspring, move_predator, update_lattice"]}
{"id": "C53", "title": "Predators never drive the population below the target size", "statement": "Within a generation the predators reduce the population to no less than the smaller of its size and the target population size.", "quantifier": "every state", "why_tests_cant": "Integer division corner cases.", "anchors": ["desdeo_emo/EAs/PPGA.py: Lattice.move_predator"]}
{"id": "C54", "title": "Offspring enter only free cells", "statement": "The offspring kept are exactly those for which a free cell was found, in order, each placed once in a previously empty cell.", "quantifier": "every state and draw", "why_tests_cant": "All draws.", "anchors": ["desdeo_emo/EAs/PPGA.py: Lattice.place_offspring"]}
{"id": "C55", "title": "Lattice coordinates wrap around", "statement": "Every coordinate, however far outside, is mapped into the lattice congruently modulo its size; the neighbourhood of a cell consists of the cells at toroidal distance at most the radius.", "quantifier": "all integers and sizes", "why_tests_cant": "All integers.", "anchors": ["desdeo_emo/EAs/PPGA.py: Lattice.lattice_wrap_idx, neighbours"]}
{"id": "C56", "title": "IOPIS ideal and nadir tracking is monotone", "statement": "The ideal estimate tracked by an IOPIS problem never worsens in any objective in that objective's own sense (minimised or maximised).", "quantifier": "every history of evaluations", "why_tests_cant": "History property.", "anchors": ["desdeo_emo/problem/IOPIS.py: IOPISProblem.update_ideal"]}
{"id": "C57", "title": "Preferences of the wrong kind are rejected without effect", "statement": "manage_preferences with a response to another request, or of a wrong type, raises and leaves reference vectors and selection state unchanged; None means no new preferences.", "quantifier": "every preference object and interaction type", "why_tests_cant": "All preference kinds and states.", "anchors": ["desdeo_emo/selection/SelectionBase.py: InteractiveDecompositionSelectionBase.manage_preferences", "desdeo_emo/EAs/BaseIndicatorEA.py: manage_preferences", "desdeo_emo/EAs/IOPIS.py: manage_preferences"]}
{"id": "C58", "title": "Surrogate training data removal drops exactly the duplicates", "statement": "remove_duplicate returns exactly the candidate rows not already present in the archive.", "quantifier": "every candidate and archive matrix", "why_tests_cant": "Duplicate patterns.", "anchors": ["desdeo_emo/utilities/model_management.py: remove_duplicate"]}
{"id": "C59", "title": "Interactive K-RVEA evaluates the most preferred least uncertain solutions", "statement": "ikrvea_mm re-evaluates u solutions chosen among the best 2u by scalarised preference as those with the lowest uncertainty.", "quantifier": "every population", "why_tests_cant": "Index indirection.", "anchors": ["desdeo_emo/utilities/model_management.py: ikrvea_mm"]}
{"id": "C60", "title": "Generated GP trees are well formed and depth bounded", "statement": "Node.grow_tree produces trees in which every function node has as many children as its arity, terminals have none, and no node is deeper than max_depth; with the full method every leaf is at max depth.", "quantifier": "every function/terminal set, depth and draw", "why_tests_cant": "Recursive structure.", "anchors": ["desdeo_emo/surrogatemodels/BioGP.py: Node.grow_tree"]}
{"id": "C61", "title": "GP crossover preserves well-formedness", "statement": "BioGP crossover returns trees that are well formed and together contain exactly the parents' nodes.", "quantifier": "every pair of trees and chosen nodes", "why_tests_cant": "Recursive structure.", "anchors": ["desdeo_emo/recombination/biogp_xover.py: BioGP_xover"]}
{"id": "C62", "title": "GP mutation preserves well-formedness", "statement": "BioGP mutation returns well formed trees not deeper than max_depth.", "quantifier": "every tree and draw", "why_tests_cant": "Recursive structure.", "anchors": ["desdeo_emo/recombination/biogp_mutation.py: BioGP_mutation"]}
{"id": "C63", "title": "EvoNN and EvoDN2 return the model selected by their criterion", "statement": "EvoNN.fit with model_selection_criterion akaike_corrected returns the network with the smallest corrected Akaike criterion of the final population, with min_error the one with the smallest error; EvoDN2.fit likewise with min_error; an unknown criterion is refused.", "quantifier": "every trained population, data set and criterion", "why_tests_cant": "All populations.", "anchors": ["desdeo_emo/surrogatemodels/EvoNN.py: EvoNN.select", "desdeo_emo/surrogatemodels/EvoDN2.py: EvoDN2.select"]}
{"id": "C64", "title": "EvoDN2 subnets cover every input variable", "statement": "The input subsets of the EvoDN2 subnets together contain every variable of the data fitted, and each subset is non-empty without repetitions, also when the object is fitted again.", "quantifier": "every number of variables, subnets and draws, first and later fits", "why_tests_cant": "Random.", "anchors": ["desdeo_emo/surrogatemodels/EvoDN2.py: EvoDN2.fit"]}
{"id": "C65", "title": "Animations gain one frame per call", "statement": "animate_init_ starts a figure with the population as frame 0; each animate_next_ call appends exactly one frame showing every individual and one slider step pointing to it, keeps the earlier ones and saves the figure; frame names are distinct; arrays, data frames and lists of any number of objectives are accepted.", "quantifier": "every sequence of calls and populations", "why_tests_cant": "All histories.", "anchors": ["desdeo_emo/utilities/plotlyanimate.py: animate_init_, animate_next_, animate_2d_init_, animate_2d_next_, animate_3d_init_, animate_3d_next_, animate_parallel_coords_init_, animate_parallel_coords_next_"]}
{"id": "C66", "title": "end returns exactly the non-dominated members of the final population", "statement": "The EA's end() returns exactly the individuals of the final population that no member of the final population dominates, with their own objective vectors in the same order, and it is non-empty for a non-empty population.", "quantifier": "every final population", "why_tests_cant": "must hold for every set of fitness vectors, including ties and duplicates", "anchors": ["desdeo_emo/EAs/BaseEA.py:BaseDecompositionEA.end", "desdeo_emo/population/Population.py"]}
{"id": "C67", "title": "SBX spreads children by the drawn factor", "statement": "In SBX_xover.do a gene whose probability draw exceeds ProC is copied from the parents; otherwise the two child genes are b times as far apart as the parents', with b^(DisC+1) = 2u for a draw u <= 1/2 (then both child genes lie between the parents') and 1/(2-2u) for u > 1/2 (then they lie further apart).", "quantifier": "every pair of gene values, every draw in [0,1), every distribution index > -1", "why_tests_cant": "a statement about all real draws", "anchors": ["desdeo_emo/recombination/SimulatedBinaryCrossover.py:SBX_xover.do"]}
{"id": "C68", "title": "Pruned connections stay pruned under Gaussian mutation", "statement": "In EvoNN (and EvoDN2) recombination with Gaussian mutation a connection whose inherited weight is 0 has weight 0 in the child.", "quantifier": "every network, every mutation draw", "why_tests_cant": "must hold for every draw and every network shape", "anchors": ["desdeo_emo/recombination/evonn_xover_mutation.py:EvoNNRecombination.do"]}
{"id": "C69", "title": "LHS design stratifies every variable", "statement": "create_new_individuals with LHSDesign places, for every variable, exactly one individual in each of the pop_size equal slices of that variable's range.", "quantifier": "every population size, number of variables, bounds, and every unit-cube Latin hypercube returned by pyDOE", "why_tests_cant": "The design is random and of arbitrary size; a scaling mistake may only show for some bounds.", "anchors": ["desdeo_emo/population/CreateIndividuals.py: create_new_individuals (LHSDesign)"]}
{"id": "C70", "title": "Created networks have the requested architecture", "statement": "create_new_individuals with EvoNN or EvoDN2 designs returns pop_size networks whose weight matrices have the right shapes (successive layers chain), bias 1 in front, every other weight 0 or within the weight range, and 1..max_layers layers. Exactly ceil(number of weights * prob_omit) positions (repetitions possible, any positions possible) are set to 0 and the other weights stay as drawn. The networks EvoNN training starts from are of the same kind.", "quantifier": "every population size, node/layer limits and random draws", "why_tests_cant": "Shapes depend on random draws of layers and nodes.", "anchors": ["desdeo_emo/population/CreateIndividuals.py: create_new_individuals (EvoNN, EvoDN2)", "desdeo_emo/surrogatemodels/EvoNN.py: EvoNN._create_individuals"]}
{"id": "C71", "title": "NSGA-III never loses an extreme point", "statement": "After each NSGA-III selection there is one extreme point per objective, taken from the previous extreme points or the current first front, and none of those candidates has a smaller achievement value for that objective's axis.", "quantifier": "every first front, ideal point and set of earlier extreme points", "why_tests_cant": "Replacement decisions depend on the whole history of fronts.", "anchors": ["desdeo_emo/selection/NSGAIII_select.py: get_extreme_points_c"]}
{"id": "C72", "title": "MOEA/D neighbourhoods are the nearest reference vectors", "statement": "The neighbourhood of a subproblem has min(n_neighbors, number of vectors) distinct members; no vector outside it is closer to the subproblem's vector than one inside; with distinct vectors it contains the subproblem itself.", "quantifier": "every set of reference vectors, every n_neighbors, every argsort result", "why_tests_cant": "must hold for every set of vectors including ties in distance", "anchors": ["desdeo_emo/selection/MOEAD_select.py: MOEAD_select.__init__, adapt_RVs"]}
{"id": "C73", "title": "Indicator-based selection never removes a better individual before a worse one", "statement": "For a dominance preserving indicator, an individual removed by IBEA environmental selection is not better than (does not dominate) any individual that stays.", "quantifier": "every population, every indicator compatible with the preference relation, every kappa > 0", "why_tests_cant": "must hold for every population and every compatible indicator", "anchors": ["desdeo_emo/EAs/BaseIndicatorEA.py: BaseIndicatorEA._next_gen", "desdeo_emo/EAs/IBEA.py: IBEA._fitness_assignment"]}
{"id": "C74", "title": "IBEA mating selection favours fitter individuals", "statement": "In IBEA/PBEA the parents chosen by tournament have the better (larger) indicator fitness of the contestants, consistently with environmental selection, which removes the smallest.", "quantifier": "every population and random draw", "why_tests_cant": "must hold for every population and draw", "anchors": ["desdeo_emo/selection/TournamentSelection.py: TournamentSelection._tour_select", "desdeo_emo/EAs/BaseIndicatorEA.py: BaseIndicatorEA._next_gen"]}
{"id": "C75", "title": "neighbouring_angles gives the smallest angle to another vector", "statement": "For unit vectors, entry i of ReferenceVectors.neighbouring_angles() is the smallest angle between vector i and any other vector of the set.", "quantifier": "every set of at least two unit vectors", "why_tests_cant": "Real-valued, all sets.", "anchors": ["desdeo_emo/utilities/ReferenceVectors.py: ReferenceVectors.neighbouring_angles"]}
{"id": "C76", "title": "Preferences of any type are accepted after any interaction history", "statement": "Whatever preferences were given or skipped before, a well-formed preference of the selected type adapts the reference vectors without raising.", "quantifier": "every history of interactions, including skipped ones (preference None)", "why_tests_cant": "All histories.", "anchors": ["desdeo_emo/selection/SelectionBase.py: SelectionBase.manage_preferences", "desdeo_emo/utilities/ReferenceVectors.py: ReferenceVectors.interactive_adapt_1, interactive_adapt_2, adapt"]}
{"id": "C77", "title": "Focused reference vectors lie at five degrees from the reference point", "statement": "Creation types Focused and Sparse_Focused give the direction of the reference point, 3^(n-1)-1 respectively 2(n-1) unit vectors at exactly five degrees from it, arranged symmetrically, and the axis vectors.", "quantifier": "every reference point and number of objectives", "why_tests_cant": "Real-valued geometry in every dimension.", "anchors": ["desdeo_emo/utilities/ReferenceVectors.py: ReferenceVectors._create, shear, rotate"]}
{"id": "C78", "title": "slow_interactive_adapt turns the vectors five degrees towards the reference point", "statement": "Each call rotates the non-axis vectors rigidly by five degrees towards the reference point, or onto it when closer, keeps the axis vectors, and returns whether the point was reached; once it is reached further calls change nothing.", "quantifier": "every vector set and reference point", "why_tests_cant": "Real-valued geometry, all sets.", "anchors": ["desdeo_emo/utilities/ReferenceVectors.py: ReferenceVectors.slow_interactive_adapt, rotate_toward"]}
{"id": "C79", "title": "Predators kill the locally weakest prey", "statement": "Each move of a predator either kills exactly one prey of its neighbourhood, one with the largest weighted sum of the first two objectives under that predator's weight, and takes its cell, or, if no prey is there, changes no prey and stays put or moves to an empty cell; the predators' weights are evenly spread over [0,1].", "quantifier": "every consistent lattice, population, predator and draw", "why_tests_cant": "All lattice configurations and fitness values.", "anchors": ["desdeo_emo/EAs/PPGA.py: Lattice.move_predator, init_predators"]}
{"id": "C80", "title": "Prey mate with distinct living neighbours", "statement": "The index pairs handed to recombination are non-empty, made of two different existing individuals, and a prey's mate is within toroidal distance one of it when chosen; a prey without mate has no other prey that close.", "quantifier": "every consistent lattice and draws", "why_tests_cant": "All configurations.", "anchors": ["desdeo_emo/EAs/PPGA.py: Lattice.move_prey, neighbours"]}
{"id": "C81", "title": "A predator-prey generation fails only when nobody can mate", "statement": "From any reachable state a generation of PPGA ends normally or raises the library's own error, and the latter only if no prey found a mate; a lattice is refused exactly if prey and predators do not fit.", "quantifier": "every history, population and draws", "why_tests_cant": "History and schedule dependent index errors.", "anchors": ["desdeo_emo/EAs/PPGA.py: PPGA._next_gen, Lattice"]}
{"id": "C82", "title": "The periodic cull removes exactly the deep fronts", "statement": "The cull of PPGA removes exactly the individuals in fronts beyond max_rank; each culled individual ends a chain of more than max_rank successively dominating individuals, and somebody always survives.", "quantifier": "every fitness matrix and max_rank", "why_tests_cant": "All fitness matrices.", "anchors": ["desdeo_emo/EAs/PPGA.py: PPGA.select, _next_gen"]}
{"id": "C83", "title": "After preferences are given, the stored fitness is current", "statement": "When a preference is given to a problem-located interactive algorithm on an IOPIS problem and accepted, the fitness stored in the population for every solution equals what evaluating that solution again under the new preference would give.", "quantifier": "every problem state, preference, population and history of evaluations", "why_tests_cant": "The stored fitness and the space it is computed in are updated by three objects in sequence; whether they agree depends on whether the population's recorded ideal equals the problem's, which depends on the whole history.", "anchors": ["desdeo_emo/problem/IOPIS.py:IOPISProblem.reevaluate_fitness", "desdeo_emo/problem/IOPIS.py:IOPISProblem.manage_preferences", "desdeo_emo/EAs/BaseEA.py:BaseEA.manage_preferences"]}
{"id": "C84", "title": "The IOPIS algorithms can run an iteration", "statement": "An IOPIS_RVEA or IOPIS_NSGAIII object that was given a valid preference can run an iteration without raising an exception.", "quantifier": "every problem, valid preference and state of the algorithm", "why_tests_cant": "No test constructs these algorithms with a preference; whether any state makes an iteration succeed is a statement about all states.", "anchors": ["desdeo_emo/EAs/IOPIS.py:IOPIS_RVEA", "desdeo_emo/EAs/IOPIS.py:IOPIS_NSGAIII", "desdeo_emo/EAs/BaseEA.py:BaseDecompositionEA._next_gen"]}
{"id": "C85", "title": "IOPIS/RVEA selection picks the best individual of every niche in the scalarised space", "statement": "The IOPIS APD selection, given a population, reference vectors and a reference point, returns distinct valid positions, exactly one for every reference vector to which some individual's vector of scalarisation values (translated by their minima) is closest; that individual has the smallest angle penalised distance of its niche, with the penalty time^alpha times the number of scalarisations cut to [0, 1].", "quantifier": "every population, set of scalarisation functions, reference point, reference vectors, time component and alpha", "why_tests_cant": "The niche assignment and the minimum are over real geometry in a space chosen by the caller; tests check sizes on a few random populations.", "anchors": ["desdeo_emo/selection/IOPIS_APD.py:IOPIS_APD_Select.do", "desdeo_emo/selection/IOPIS_APD.py:IOPIS_APD_Select._partial_penalty_factor"]}
{"id": "C86", "title": "IOPIS/NSGA-III selection keeps exactly n_survive, dominators first, in the scalarised space", "statement": "The IOPIS NSGA-III selection keeps exactly n_survive distinct individuals of any population at least that large, keeps whoever dominates a kept individual in the space of scalarisation values, and its running ideal is at most every scalarisation value seen; an explicitly given n_survive is honoured.", "quantifier": "every population, scalarisation functions, reference point, reference directions, random choices and history of calls", "why_tests_cant": "Depends on random niching choices and on state carried from call to call.", "anchors": ["desdeo_emo/selection/IOPIS_NSGAIII.py:IOPIS_NSGAIII_select"]}
{"id": "C87", "title": "Constructor options take effect as given", "statement": "For every algorithm class and every call of its constructor: a malformed call (unknown, repeated, surplus or missing argument) raises TypeError; otherwise every run setting and class option of the new object is the value passed or the documented default, and the population is the given one or a new one of the requested (or documented default) size whose evaluations are counted.", "quantifier": "every class, every mixture of positional and keyword arguments and all their values", "why_tests_cant": "Infinitely many calls; forwarding mistakes between base classes show only for the particular option.", "anchors": ["desdeo_emo/EAs/BaseEA.py: BaseEA.__init__, BaseDecompositionEA.__init__", "desdeo_emo/EAs/BaseIndicatorEA.py: __init__", "desdeo_emo/EAs/RVEA.py, NSGAIII.py, MOEAD.py, IKRVEA.py, IBEA.py, PBEA.py, PPGA.py, TournamentEA.py, IOPIS.py: __init__"]}
{"id": "C88", "title": "GP fitting replaces exactly the useless subtrees", "statement": "Fitting the linear weights of a BioGP individual replaces every subtree whose error reduction ratio is below error_lim by a newly grown one and keeps all others; the individual keeps max_subtrees well-formed subtrees within the depth limit.", "quantifier": "every individual, training data, pattern of small error ratios and draws", "why_tests_cant": "Depends on which of several subtrees are found useless at once, over all individuals.", "anchors": ["desdeo_emo/surrogatemodels/BioGP.py:LinearNode.calculate_linear"]}
{"id": "C89", "title": "A fitted GP individual reproduces its recorded output", "statement": "After fitting, the output recorded for a BioGP individual (on which its loss is computed) equals what the model predicts for the training data with that individual, and its recorded complexity is that of the same tree.", "quantifier": "every individual, training data and draws", "why_tests_cant": "Needs the state left by fitting for all individuals and data.", "anchors": ["desdeo_emo/surrogatemodels/BioGP.py:LinearNode.calculate_linear", "desdeo_emo/surrogatemodels/BioGP.py:BioGP.predict"]}
{"id": "C90", "title": "Predicting with a GP model does not change the data", "statement": "BioGP predictions return the value of the expression tree on the data (division by zero taken as division by one), leave the data as they were, and give the same result when repeated.", "quantifier": "every tree and data", "why_tests_cant": "Depends on aliasing between arrays for every tree shape and on zeros in the data.", "anchors": ["desdeo_emo/surrogatemodels/BioGP.py:Node.predict", "desdeo_emo/surrogatemodels/BioGP.py:BioGP.div", "desdeo_emo/surrogatemodels/BioGP.py:BioGP.predict"]}
{"id": "C91", "title": "The first GP population has pop_size individuals", "statement": "BioGP creates pop_size individuals, each a well-formed tree with max_subtrees subtrees within the depth limit; an unknown init_method is refused.", "quantifier": "every pop_size, max_depth, init method and draws", "why_tests_cant": "Holds for some sizes only; all parameters must be considered.", "anchors": ["desdeo_emo/surrogatemodels/BioGP.py:BioGP._create_individuals"]}
{"id": "C92", "title": "GP crossover respects the depth limit", "statement": "If both parents are not deeper than max_depth, neither are the offspring of the BioGP crossover.", "quantifier": "every pair of trees, crossover kind and chosen nodes", "why_tests_cant": "Recursive structure; the violation needs particular choices of nodes.", "anchors": ["desdeo_emo/recombination/biogp_xover.py: BioGP_xover.do"]}
{"id": "C93", "title": "GP crossover exchanges material between different individuals", "statement": "BioGP crossover mates different members of the population: with mating ids given as a list, consecutive ids are mated.", "quantifier": "every list of mating ids, population and draw", "why_tests_cant": "Holds or fails for every population and every shuffle.", "anchors": ["desdeo_emo/recombination/biogp_xover.py: BioGP_xover.do"]}
{"id": "C94", "title": "A trained network predicts its training data with the recorded error, an untrained one refuses", "statement": "After a successful EvoNN.fit or EvoDN2.fit, predict on the training inputs gives one value per sample whose root mean squared error is the recorded one, and no other linear output layer does better; before a successful fit predict raises ModelError.", "quantifier": "every data set, population and object history", "why_tests_cant": "All data; optimality over all output layers.", "anchors": ["desdeo_emo/surrogatemodels/EvoNN.py: EvoNN.predict, EvoNN._activate, EvoNN._calculate_linear, EvoNN.select", "desdeo_emo/surrogatemodels/EvoDN2.py: EvoDN2.predict, EvoDN2.select"]}
{"id": "C95", "title": "EvoDN2 complexity is the total weight of the input-output paths", "statement": "The complexity EvoDN2 minimises is, per subnet, the sum over all paths of connections from an input to the last layer of the product of the absolute weights; biases do not count and it is 0 exactly when every path is cut.", "quantifier": "every shape and every weight", "why_tests_cant": "All networks.", "anchors": ["desdeo_emo/surrogatemodels/EvoDN2.py: EvoDN2._calculate_complexity, EvoDN2._feed_forward"]}
{"id": "C96", "title": "Every network EvoDN2 creates can be evaluated", "statement": "The initial population of EvoDN2.fit has pop_size networks with one subnet per subset; each evaluates on every sample with the right number of variables, and model selection over networks that evaluate succeeds.", "quantifier": "every draw, size and sample", "why_tests_cant": "Random creation.", "anchors": ["desdeo_emo/surrogatemodels/EvoDN2.py: EvoDN2._create_individuals, EvoDN2._feed_forward, EvoDN2.select"]}
{"id": "C97", "title": "A preference turns the reference vectors towards it", "statement": "After a reference point interaction every reference vector makes a smaller angle with the direction from the ideal point to the reference point than the initial vector it comes from; likewise for every preferred solution; after a preferred-ranges interaction every vector points to a point within the ranges. The axis vectors are added.", "quantifier": "every set of unit reference vectors, every preference", "why_tests_cant": "Real-valued geometry in every dimension.", "anchors": ["desdeo_emo/selection/SelectionBase.py: InteractiveDecompositionSelectionBase.manage_reference_point, manage_preferred_solutions, manage_preferred_ranges", "desdeo_emo/utilities/ReferenceVectors.py: ReferenceVectors.iteractive_adapt_3, interactive_adapt_1, interactive_adapt_4"]}
{"id": "C98", "title": "A surrogate model can be trained with any evolutionary algorithm", "statement": "EvoNN.fit, EvoDN2.fit and BioGP.fit run the algorithm class given as training_algorithm on the population of models of the requested size, for every algorithm class of the library.", "quantifier": "every algorithm class, population, data, number of single objective generations", "why_tests_cant": "All algorithm classes, sizes and data.", "anchors": ["desdeo_emo/surrogatemodels/EvoNN.py: EvoNN.fit", "desdeo_emo/surrogatemodels/EvoDN2.py: EvoDN2.fit", "desdeo_emo/surrogatemodels/BioGP.py: BioGP.fit", "desdeo_emo/EAs/TournamentEA.py: select"]}
{"id": "C99", "title": "Every class can be constructed and no accepted option is ignored", "statement": "Every public algorithm class has calls that construct it, and every option a constructor accepts has an effect on the run.", "quantifier": "every class, call and option value", "why_tests_cant": "Claims about all calls: that none succeeds, or that none of the values of an option makes a difference.", "anchors": ["desdeo_emo/EAs/IKRVEA.py: IK_RVEA.__init__", "desdeo_emo/EAs/IOPIS.py: IOPIS_RVEA.__init__", "desdeo_emo/selection/IOPIS_APD.py: IOPIS_APD_Select.__init__", "desdeo_emo/EAs/PPGA.py: PPGA.__init__"]}
{"id": "C100", "title": "Archived tables label every column with the name of the quantity in it", "statement": "With keep_archive=True, every iterate() call and end() store under the current generation count the iteration number and three tables holding exactly the population's decision variables, objectives and fitness, whose columns carry, in order, the problem's variable names, objective names and fitness names (a vector-valued one contributes the names of its components). Snapshots of other generations stay readable and unchanged for the rest of the run; end() returns the archive. A snapshot fails only when an array does not have one column per name, and then nothing is changed. Without keep_archive nothing is stored. The table of the plot request is labelled the same way.", "quantifier": "all problems' name lists (scalar and vector valued), all population contents, all sequences of iterations", "why_tests_cant": "the labels depend on which of the name lists are nested and the stored history on the whole run; tests use scalar objectives whose fitness names equal the objective names", "anchors": ["desdeo_emo/EAs/BaseEA.py:BaseEA.pre_iteration", "desdeo_emo/EAs/BaseEA.py:BaseEA.end", "desdeo_emo/EAs/BaseEA.py:BaseDecompositionEA.request_plot"]}
{"id": "C101", "title": "NSGA-III normalises by the plane through the extreme points", "statement": "The nadir point NSGA-III normalises with is the vector of axis intercepts of the hyperplane through the extreme points whenever that plane exists, its intercepts are usable (positive and not beyond the worst point seen) and the solution is accurate; otherwise it is the worst of the first front, with components too close to the ideal point replaced by the worst of the population. Every component lies between the ideal point and the worst value seen, and with usable intercepts every extreme point is normalised to a point of the unit simplex.", "quantifier": "all fitness matrices, all histories of ideal, worst and extreme points, all behaviours of the linear solver", "why_tests_cant": "depends on whether the extreme points of an arbitrary population span a plane, and on the whole history of extreme points; tests only check shapes", "anchors": ["desdeo_emo/selection/NSGAIII_select.py:NSGAIII_select.get_nadir_point", "desdeo_emo/selection/NSGAIII_select.py:NSGAIII_select.associate_to_niches", "desdeo_emo/selection/NSGAIII_select.py:NSGAIII_select.do"]}
{"id": "C102", "title": "Everything an algorithm reports was evaluated", "statement": "Whatever sequence of start() and iterate() calls is made on any algorithm (decomposition based, MOEA/D, indicator based, tournament or PPGA), exceptions caught included, every row of the population, of the non-dominated archive, of every snapshot and of the result of end() is a decision vector the problem was asked to evaluate, paired with the objectives answered for it and with the fitness answered for it, or recomputed from those objectives after preferences were given; columns of different rows are never mixed.", "quantifier": "all problems honouring the shape contract, all variation, selection, preference and lattice behaviours, all call sequences and all points at which an exception may occur", "why_tests_cant": "quantifies over every sequence of calls, every behaviour of the operators and every exception point", "anchors": ["desdeo_emo/EAs/BaseEA.py:BaseEA.start", "desdeo_emo/EAs/BaseEA.py:BaseEA.iterate", "desdeo_emo/EAs/BaseEA.py:BaseDecompositionEA._next_gen", "desdeo_emo/EAs/MOEAD.py:MOEA_D._next_gen", "desdeo_emo/EAs/BaseIndicatorEA.py:BaseIndicatorEA._next_gen", "desdeo_emo/EAs/TournamentEA.py:TournamentEA._next_gen", "desdeo_emo/EAs/PPGA.py:PPGA._next_gen"]}
{"id": "C103", "title": "The archive of a whole run covers all that was evaluated", "statement": "With save_non_dominated, after start() and any number of successful iterate() calls of a decomposition based algorithm or MOEA/D, every solution that was in the population at start() or was evaluated since is in the archive by its fitness or dominated by an archived one, nothing else is archived, and in MOEA/D the archive holds exactly the non-dominated ones. Without start() no generation succeeds.", "quantifier": "all runs of any length, all operators, all evaluation results", "why_tests_cant": "a statement about every row evaluated during runs of any length", "anchors": ["desdeo_emo/EAs/BaseEA.py:BaseEA.start", "desdeo_emo/EAs/BaseEA.py:BaseEA.non_dominated_archive", "desdeo_emo/EAs/BaseEA.py:BaseDecompositionEA._next_gen", "desdeo_emo/EAs/MOEAD.py:MOEA_D._next_gen"]}
{"id": "C104", "title": "Evaluation counts of whole runs, all algorithms", "statement": "For every algorithm, the function evaluation count grows in each iterate() by exactly the number of individuals evaluated with the problem itself, so that after a run on a problem it is the number of all real evaluations made; with a positive budget the evaluations beyond it are those of at most one generation; with use_surrogates no evaluation uses the problem itself; an iterate() that raises never counts more than it evaluated.", "quantifier": "all algorithms, settings, operators and run lengths, successful and failing calls", "why_tests_cant": "the count must be right for every run and every exception point", "anchors": ["desdeo_emo/EAs/BaseEA.py:BaseEA.iterate", "desdeo_emo/EAs/BaseEA.py:BaseEA.check_FE_count", "desdeo_emo/EAs/BaseEA.py:BaseDecompositionEA._next_gen", "desdeo_emo/EAs/MOEAD.py:MOEA_D._next_gen", "desdeo_emo/EAs/BaseIndicatorEA.py:BaseIndicatorEA._next_gen", "desdeo_emo/EAs/TournamentEA.py:TournamentEA._next_gen", "desdeo_emo/EAs/PPGA.py:PPGA._next_gen"]}
{"id": "C105", "title": "What one generation does to the population", "statement": "In a generation the rows evaluated are exactly the offspring the mating produced (MOEA/D: per subproblem, in order, the first offspring of that subproblem's parents, repaired if asked for; PPGA: the placed ones), and afterwards the population is: in a decomposition based algorithm exactly the selected rows of parents and offspring in order; in MOEA/D of unchanged size, each row the old one or one evaluated in this generation; in an indicator based algorithm min(pop_size, present) of the parents followed by all offspring; in the tournament algorithm exactly the offspring; in PPGA made of old rows and placed offspring only.", "quantifier": "all populations, operators and selections", "why_tests_cant": "must hold for every population size and every selection outcome", "anchors": ["desdeo_emo/EAs/BaseEA.py:BaseDecompositionEA._next_gen", "desdeo_emo/EAs/MOEAD.py:MOEA_D._next_gen", "desdeo_emo/EAs/BaseIndicatorEA.py:BaseIndicatorEA._next_gen", "desdeo_emo/EAs/TournamentEA.py:TournamentEA._next_gen", "desdeo_emo/EAs/PPGA.py:PPGA._next_gen"]}
{"id": "C106", "title": "Environmental selection of IBEA and PBEA never removes a dominator of a survivor", "statement": "After the environmental selection of an IBEA or PBEA generation min(pop_size, present) members remain; no removed member dominates a remaining one, so whoever dominates a survivor survives, and at least one survivor is dominated by nobody of the original population. (False of PBEA when objectives are maximised.)", "quantifier": "all populations, population sizes, reference points, kappa > 0 and delta > 0", "why_tests_cant": "depends on sums of exponentials over arbitrary populations and on the order of any number of removals", "anchors": ["desdeo_emo/EAs/IBEA.py:IBEA._fitness_assignment, _environmental_selection", "desdeo_emo/EAs/PBEA.py:PBEA._fitness_assignment, _environmental_selection", "desdeo_emo/EAs/BaseIndicatorEA.py:BaseIndicatorEA._next_gen"]}
{"id": "C107", "title": "Interactive sessions of the indicator based algorithms", "statement": "In any sequence of set_interaction_type, start, requests and iterate calls of an interactive indicator based algorithm, a preference is accepted exactly if it is a reference point answering the last request handed out; a refused one changes nothing and runs no generation; the reference point in use is the last accepted one; the iteration counter is the number of returned iterate calls; the evaluations and generations counted are exactly those of the generations that returned; a returning iterate runs n_gen_per_iter generations unless the budget is used up, and begins none beyond the budget; and n_iterations and total_function_evaluations are the constructor's times two to the number of accepted preferences. start() begins the session. (The last is false of the code: start always raises.)", "quantifier": "all call sequences, preferences and outcomes of generations, including failing ones", "why_tests_cant": "ranges over all histories of calls with failures in between", "anchors": ["desdeo_emo/EAs/BaseIndicatorEA.py:BaseIndicatorEA.manage_preferences, request_preferences, requests", "desdeo_emo/EAs/BaseEA.py:BaseEA.start, iterate, set_interaction_type, continue_evolution"]}
{"id": "C108", "title": "Distance-based interaction pulls reference vectors towards the reference point", "statement": "newRV.interact_v2 keeps the number, order and unit length of the reference vectors; each ends in the hemisphere of the reference direction and at least as close in angle to that direction as before, strictly closer unless it was farthest or already aligned; the order of closeness is kept. It is defined for every reference point and number of objectives. (The last is false of the code: a reference point on the third axis, or a set all of whose vectors are parallel to it, yields NaN, and any number of objectives but three raises.)", "quantifier": "all sets of unit vectors and all reference points", "why_tests_cant": "a geometric statement over all real vectors", "anchors": ["desdeo_emo/utilities/newRV.py:newRV.interact_v2, rotate_to_axis, project_to_hyperplane, translate_to_hypersphere, revert_rotation, dist_based_translation"]}
{"id": "C109", "title": "Covering interaction builds vectors around the reference point", "statement": "newRV.interact_v3 builds the vectors from the initial ones only: each initial vector, mirrored in its first two entries, shrunk towards the axis and turned so that the axis points to the reference point, exactly those without a negative entry being kept; all are unit vectors. No vector is repeated and the recorded number of vectors matches. (The last sentence is false of the code: each vector occurs twice and the number is not updated.)", "quantifier": "all initial vector sets, reference points and previous interactions", "why_tests_cant": "a geometric statement over all real vectors and histories", "anchors": ["desdeo_emo/utilities/newRV.py:newRV.interact_v3, dist_based_translation"]}
{"id": "C110", "title": "A properly started run never raises and keeps its population", "statement": "Once the population is large enough and (if an archive is kept) start() was called, every further iterate() call succeeds, however many there are, as long as recombination, preferences and reference vector adaptation do: with the NSGA-III selection the population has exactly n_survive rows after the first generation for ever; with the RVEA selection it is never empty and has at most as many rows as reference vectors; in MOEA/D it keeps its size; in the indicator-based and tournament algorithms it stays larger than a tournament.", "quantifier": "all numbers of iterate() calls, all evaluators, recombination answers, random draws and internal states of the selection operators, all earlier sequences of calls", "why_tests_cant": "an unbounded number of generations over arbitrary evaluators and random draws", "anchors": ["desdeo_emo/EAs/BaseEA.py:BaseEA.iterate, BaseDecompositionEA._next_gen", "desdeo_emo/EAs/MOEAD.py:_next_gen", "desdeo_emo/EAs/BaseIndicatorEA.py:_next_gen", "desdeo_emo/EAs/TournamentEA.py:_next_gen", "desdeo_emo/selection/NSGAIII_select.py:do", "desdeo_emo/selection/APD_Select_constraints.py:do", "desdeo_emo/selection/MOEAD_select.py:do", "desdeo_emo/selection/TournamentSelection.py:do"]}
{"id": "C111", "title": "A smooth transition reaches its target and keeps the shape of the set", "statement": "Turning a set of vectors repeatedly by a fixed angle towards a target (the loop of utilities/symmetric_vectors.py: centre = average of the set, rotate_toward until it reports completion) brings the centre exactly that angle closer at every turn, ends after the number of turns that the initial angle requires, and leaves all lengths and mutual angles unchanged, the centre pointing along the target.", "quantifier": "every non-empty set of vectors of one length with a non-zero centre, every non-zero target not opposite to the centre, every positive turning angle", "why_tests_cant": "Termination and the exact number of turns have to hold for every angle; a test sees single real-valued inputs, and the failing angles (exact multiples of the step) are masked or unmasked by rounding.", "anchors": ["desdeo_emo/utilities/symmetric_vectors.py:rotate_toward", "desdeo_emo/utilities/symmetric_vectors.py:main"]}
{"id": "C112", "title": "The selection_type option selects as the retired optimistic, robust and plain operators did", "statement": "The comment retiring the classes oRVEA and robust_RVEA says their feature is incorporated in RVEA through selection_type: without constraints, in every generation of every run, selection with selection_type 'mean', 'optimistic' or 'robust' picks exactly the individuals that the operators of selection/APD_Select.py, oAPD.py and robust_APD.py pick.", "quantifier": "every sequence of generations (fitness values, non-negative uncertainties, reference vectors, penalties) whose population ideal point is the running minimum of the fitness values", "why_tests_cant": "The operators carry an ideal point from call to call; equality has to hold along every history of generations, not for one population.", "anchors": ["desdeo_emo/selection/APD_Select.py:APD_Select.do", "desdeo_emo/selection/oAPD.py:Optimistic_APD_Select.do", "desdeo_emo/selection/robust_APD.py:robust_APD_Select.do", "desdeo_emo/selection/APD_Select_constraints.py:APD_Select.do", "desdeo_emo/EAs/RVEA.py:oRVEA"]}
{"id": "C113", "title": "Archived tables and handed-over arrays are not changed by later calls", "statement": "A table archived by an algorithm (decision variables, objectives, fitness under a generation count) keeps showing the population of that moment however the run goes on, arrays passed to add and the evaluation results returned by it are not changed by later calls, and reading the population through its arrays gives what a value-level description of add, keep, delete, replace and re-evaluation gives.", "quantifier": "every reachable population, every snapshot, every later sequence of calls (including failing ones)", "why_tests_cant": "Whether an array is shared or copied depends on the whole history of calls; a test compares values after a few calls only, and the in-place writes of MOEA/D show in old tables only in particular orders.", "anchors": ["desdeo_emo/population/Population.py: add, keep, delete, replace, reevaluate_fitness", "desdeo_emo/EAs/BaseEA.py: pre_iteration, end", "desdeo_emo/EAs/MOEAD.py: _next_gen"]}
{"id": "C114", "title": "Initial individuals respect the variable bounds in double precision", "statement": "With floating point arithmetic as numpy performs it (IEEE double precision, round to nearest even, no overflow), every gene of every individual made by create_new_individuals with RandomDesign or LHSDesign lies between its lower and upper bound.", "quantifier": "every population size, all double precision bounds l <= u, every random sample", "why_tests_cant": "Rounding errors exceed a bound only for rare combinations of bounds and samples; tests with round bounds never meet them.", "anchors": ["desdeo_emo/population/CreateIndividuals.py: create_new_individuals", "desdeo_emo/population/Population.py: Population.__init__"]}
{"id": "C115", "title": "SBX reproduces parents in double precision", "statement": "In double precision arithmetic SBX_xover.do returns identical children for identical parents, copies genes that are not crossed over (ProC) and keeps the sum of the parents' genes.", "quantifier": "every pair of double precision gene values and every factor drawn", "why_tests_cant": "Absorption and cancellation depend on the magnitudes of the two parents; only a proof over all doubles shows which identities survive rounding.", "anchors": ["desdeo_emo/recombination/SimulatedBinaryCrossover.py: SBX_xover.do"]}
{"id": "C116", "title": "Algorithms sharing a population", "statement": "When several algorithm objects are made on the same population (initial_population) and their start() and iterate() calls are interleaved in any way, with exceptions caught, every row any of them reports (population, non-dominated archive, snapshots, end()) was evaluated by one of them or before, with its own objectives and fitness; each object's counters, archive and snapshots are its own (exactly its own evaluations and iterations are counted), and an object's result does not change while only others are called.", "quantifier": "every number of objects, of every kind and setting, every sequence of calls on them including failing ones, every problem, operator and random draw", "why_tests_cant": "The number of interleavings of calls is unbounded and an exception may strike at any point of any of them; aliasing shows only in particular orders.", "anchors": ["desdeo_emo/EAs/BaseEA.py: BaseDecompositionEA.__init__ (initial_population)", "desdeo_emo/EAs/BaseIndicatorEA.py: BaseIndicatorEA.__init__", "desdeo_emo/EAs/TournamentEA.py", "desdeo_emo/EAs/PPGA.py", "desdeo_emo/EAs/MOEAD.py"]}
{"id": "C117", "title": "NSGA-III keeps the best solutions of a run", "statement": "In a run of NSGA-III of any length no best solution is lost: every solution evaluated (or present at the start) that no other such solution dominates is in the final population with its own variables, objectives and fitness, as long as at no time more than n_survive solutions are non-dominated; in every generation, no solution left out dominates a survivor; and a survivor of a run is never dominated by an earlier member of the population.", "quantifier": "every problem, every sequence of calls leading to the start of the run, every number of iterate() calls, every random choice, every conforming non-dominated sort", "why_tests_cant": "It is a statement about all solutions of an unbounded history and all random choices of the niching step; losses show only after particular sequences of generations.", "anchors": ["desdeo_emo/selection/NSGAIII_select.py: NSGAIII_select.do", "desdeo_emo/EAs/BaseEA.py: BaseDecompositionEA._next_gen", "desdeo_emo/EAs/NSGAIII.py"]}
{"id": "C118", "title": "Interactive sessions of the decomposition based algorithms", "statement": "In any sequence of set_interaction_type, start, requests and iterate calls of an interactive RVEA, NSGA-III or MOEA/D on an ordinary problem, exceptions caught: a preference given to iterate() is acted on exactly if it is of the class of the interaction type chosen last and carries the id of the last request; any other raises and changes nothing (no generation runs, the pending request stays answerable). An accepted preference (or None, which re-adapts to the population) decides the reference vectors of every generation of that iteration and no other call changes them. A returning iterate runs n_gen_per_iter generations unless the budget is used up and begins none beyond it, the counters advance by exactly these, and it hands out a new request of the type in force. Every interaction type can be answered, an iterate that raises for lack of a type runs nothing, and an algorithm built from an initial population honours preferences as well. (The last three are false of the code.)", "quantifier": "all sequences of calls, types, preference objects, request ids, random draws, populations, reference vector operations and generations (any of which may raise), all limits", "why_tests_cant": "acceptance depends on the whole history of calls and ids; a test follows a few sessions, the claim ranges over all interleavings with stale answers, changed types and exceptions", "anchors": ["desdeo_emo/EAs/BaseEA.py: BaseEA.start, iterate, manage_preferences, set_interaction_type; BaseDecompositionEA.pre_iteration, _next_gen, request_preferences", "desdeo_emo/selection/SelectionBase.py: InteractiveDecompositionSelectionBase"]}
{"id": "C119", "title": "MOEA/D improves every subproblem over a whole run", "statement": "Over any number of iterations of any number of generations of MOEA/D without preferences: adapting the vectors leaves the weights of the subproblems and their neighbourhoods as constructed; every generation tries exactly one new solution per subproblem, in order, and the population keeps its size; and if the ideal point has not moved, the member holding each subproblem at the end is at least as good for it as the one holding it at the start and as every solution that was tried by any subproblem in whose neighbourhood it lies.", "quantifier": "all weight vectors summing to 1, populations, fitness and scalarizing functions, random picks, variation operators, neighbourhood sizes, numbers of iterations and generations", "why_tests_cant": "the guarantee is about every solution tried during a run of any length under every random choice; tests see single runs and do not record the tried solutions", "anchors": ["desdeo_emo/EAs/MOEAD.py: MOEA_D._next_gen", "desdeo_emo/selection/MOEAD_select.py: MOEAD_select.__init__, adapt_RVs, do", "desdeo_emo/utilities/ReferenceVectors.py: ReferenceVectors.adapt, normalize"]}
{"id": "C120", "title": "MOEA/D honours preferences", "statement": "An interactive MOEA/D follows an answered reference point or preferred solutions without raising: the weights become the initial ones shrunk towards the preference, the population keeps its size. All preferred solutions are taken into account; naming non-preferred solutions only removes search directions; after an answer the neighbourhoods are those of the vectors in use and the search can go on without further preferences. (The last three are false of the code: all solutions but the first are ignored, removing many vectors makes every further iteration raise, the neighbourhoods stay those of the constructor and the next iteration without a preference raises IndexError.)", "quantifier": "all weight vectors, populations, preferences, scalarizing functions, random picks, variation operators, numbers of generations", "why_tests_cant": "that several preferences act as the first alone is an equality of two runs for every input; that answers keep working depends on the history of answers", "anchors": ["desdeo_emo/selection/MOEAD_select.py: MOEAD_select.adapt_RVs", "desdeo_emo/selection/SelectionBase.py: InteractiveDecompositionSelectionBase.manage_preferences", "desdeo_emo/utilities/ReferenceVectors.py: interactive_adapt_1, interactive_adapt_2, iteractive_adapt_3, add_edge_vectors", "desdeo_emo/EAs/MOEAD.py: MOEA_D._next_gen"]}
{"id": "C121", "title": "Selection does not depend on the origin and unit of the objectives", "statement": "Adding a constant to each objective (the same for all solutions, with the remembered ideal points moved along) changes nothing in what is selected: over any sequence of calls RVEA's and NSGA-III's operators return the same rows or raise the same exception; a whole MOEA/D run, interactive or not, keeps the same population and tries the same solutions; an IBEA generation with the additive epsilon indicator keeps the same survivors. Multiplying all objectives by one positive factor changes nothing for RVEA and for a whole MOEA/D run either, nothing for IBEA (kappa being multiplied alike or not), and nothing for NSGA-III. (False of the code for NSGA-III: thresholds 1e-3 and 1e-6 are absolute, so rescaling by 1e-4 changes the extreme points. False of IBEA with kappa left alone: indicator values are not normalised, so dividing the objectives by ten makes it drop the only different solution instead of a duplicate.)", "quantifier": "all populations, shifts, positive factors, reference vectors, operator states and sequences of calls, random choices, MOEA/D iterations with or without preferences, kappa", "why_tests_cant": "an equality of two executions for every input and every shift; a test compares one shift on one problem", "anchors": ["desdeo_emo/selection/APD_Select_constraints.py: APD_Select.do, _calculate_fitness", "desdeo_emo/selection/NSGAIII_select.py: NSGAIII_select.do, get_extreme_points_c, get_nadir_point", "desdeo_emo/selection/MOEAD_select.py: MOEAD_select.do", "desdeo_emo/EAs/MOEAD.py: MOEA_D._next_gen", "desdeo_emo/EAs/BaseIndicatorEA.py: BaseIndicatorEA._next_gen", "desdeo_emo/EAs/IBEA.py: IBEA._environmental_selection, IBEA._fitness_assignment"]}
{"id": "C122", "title": "Selection does not depend on the order of individuals or objectives", "statement": "If a population is listed in another order, RVEA's selection picks the same solutions for the same reference vectors and remembers the same ideal point, provided no two different members of one niche have equal angle penalised distance; environmental selection of IBEA/PBEA leaves the same survivors, provided indicator fitness never ties. If the objectives are listed in another order (with ideal points, uncertainties and reference vectors reordered alike) RVEA's selections over any sequence of calls are exactly the same rows, and the neighbouring angles of the vectors are the same; NSGA-III's selections over any sequence of calls are exactly the same rows (or the same exception), provided no two different remembered extreme points tie; an IBEA generation with the additive epsilon indicator is exactly the same; a run of MOEA/D without preferences (reference vectors and ideal point reordered alike, a scalarising function that does not distinguish objectives) is exactly the same: same population, same solutions tried, same exception if any.", "quantifier": "all populations and permutations of them, all permutations of the objectives, reference vectors, constraint values, operator states and sequences of calls, indicators", "why_tests_cant": "an equality of executions over all permutations of all inputs; a test compares a few shuffles of one population", "anchors": ["desdeo_emo/selection/APD_Select_constraints.py: APD_Select.do", "desdeo_emo/utilities/ReferenceVectors.py: ReferenceVectors.neighbouring_angles", "desdeo_emo/EAs/BaseIndicatorEA.py: BaseIndicatorEA._next_gen", "desdeo_emo/EAs/IBEA.py: IBEA._environmental_selection", "desdeo_emo/EAs/PBEA.py: PBEA._environmental_selection", "desdeo_emo/selection/NSGAIII_select.py: NSGAIII_select.do, get_extreme_points_c, get_nadir_point, associate_to_niches", "desdeo_emo/EAs/MOEAD.py: MOEA_D._next_gen"]}
{"id": "C123", "title": "Rounding does not change what indicator based environmental selection removes", "statement": "In double precision, IBEA's and PBEA's incrementally updated indicator fitness stays within n*B*2^-51 of the fitness computed from scratch on the members still present (n members, B the largest initial sum of exponentials), environmental selection ends with min(pop_size, n) members in their old order, and every member removed is the worst of those present up to n*B*2^-50; if no two members of an intermediate population are that close, the members removed are exactly those that exact arithmetic removes. Without that separation the members removed are the worst of those present.", "quantifier": "all populations of up to 2^51 members, all nonnegative double values of the exponentials, any number of removals", "why_tests_cant": "an error bound over every sequence of rounded additions and subtractions; the failures need magnitudes that a small test does not have", "anchors": ["desdeo_emo/EAs/IBEA.py: IBEA._fitness_assignment, IBEA._environmental_selection", "desdeo_emo/EAs/PBEA.py: PBEA._fitness_assignment, PBEA._environmental_selection", "desdeo_emo/EAs/BaseIndicatorEA.py: BaseIndicatorEA._next_gen"]}
{"id": "C124", "title": "Failed evaluations (infinite or NaN fitness) do not disturb RVEA's selection", "statement": "If some individuals' evaluations failed and are reported as +infinity, RVEA's APD selection still succeeds, its remembered ideal point stays finite and the individuals selected are those that would have been selected from the finitely evaluated individuals alone (exception, part of the claim: a single failed individual is also selected if nobody else is closest to the first reference vector). With finite values only the selection is the ordinary one. The same claim for NaN is false: one NaN in any objective of any individual makes the ideal point NaN for ever, and neither this selection nor any later one selects anybody.", "quantifier": "all populations of any size and number of objectives with any pattern of failed values, all reference vectors and angles, all penalty factors, all sequences of later selections", "why_tests_cant": "The NaN and infinity patterns over population, objectives and history are unbounded; the effect on later generations is a statement about every continuation.", "anchors": ["desdeo_emo/selection/APD_Select_constraints.py: APD_Select.do"]}
{"id": "C125", "title": "Failed evaluations (infinite or NaN fitness) in MOEA/D", "statement": "If evaluations that fail are reported as +infinity, MOEA/D's population and ideal point stay finite however often and whenever that happens, a generation in which every evaluation fails changes nobody, and (for scalarising functions that answer +infinity) a failed initial member gives way to the first finitely evaluated offspring of a neighbourhood it belongs to. Without failures the generation is the ordinary one. Not true of the code: with a scalarising function that answers NaN for failed members (penalised boundary intersection) they stay for ever; and one offspring with a NaN in any objective freezes the population for ever, since the NaN enters the ideal point.", "quantifier": "all populations, vectors, neighbourhoods, scalarising functions meeting the stated contracts, all numbers of generations and all outcomes of variation and evaluation in each of them", "why_tests_cant": "Which evaluations fail, when, and in which objectives is an unbounded schedule; the frozen run is a statement about every continuation.", "anchors": ["desdeo_emo/EAs/MOEAD.py: MOEA_D._next_gen", "desdeo_emo/selection/MOEAD_select.py: MOEAD_select.do, _evaluate_SF"]}
{"id": "C126", "title": "Every model of a training population is recorded with its own error and size", "statement": "While a surrogate model is trained, the objectives recorded for a network (EvoNN, EvoDN2) are the loss of that network with the best possible linear output layer and its complexity, one row per network in order, independent of the other networks; what EvoDN2.fit reports for the selected network is the smallest error recorded in training and the complexity recorded with it; the performance of a trained EvoNN model is that of its predictions, an untrained one refuses. BioGP individuals are recorded with their own error if no variable used as a bare denominator is 0 in the data. Not true of the code: asking EvoNN's performance on other data always fails, asking a trained EvoDN2 model's performance always fails, and with a zero in a denominator an earlier BioGP individual of the batch changes the error recorded for a later one.", "quantifier": "all data, batches of models, weights, activation functions and least squares solvers meeting the stated contract, all results of random draws", "why_tests_cant": "Batch, data and model contents are unbounded; that no output layer does better is a statement about all of them.", "anchors": ["desdeo_emo/surrogatemodels/EvoNN.py: EvoNN._model_performance", "desdeo_emo/surrogatemodels/EvoDN2.py: EvoDN2._model_performance, select", "desdeo_emo/surrogatemodels/BioGP.py: BioGP._model_performance", "desdeo_emo/surrogatemodels/Problem.py: surrogateProblem.evaluate"]}
{"id": "C127", "title": "Failed evaluations (infinite or NaN fitness) in IBEA and PBEA", "statement": "When some evaluations of a population fail, the environmental selection of IBEA still returns min(pop_size, size) members; if they failed with fitness +infinity it selects exactly as it would from the successfully evaluated members alone, and failed members survive only when there are too few successful ones; if they failed with NaN, nobody is removed who dominates a survivor. Not true of the code: with NaN a failed member can survive in place of a successful one; PBEA with one NaN objective value keeps the last pop_size rows whatever their quality; PBEA with +infinity removes the successful members first.", "quantifier": "every population size, number of objectives, kappa > 0, mixture of successful and failed members, and (PBEA) reference point and delta", "why_tests_cant": "Which positions fail and how NaN spreads through sums and argmin depends on every combination of failed members and on the whole removal sequence; unit tests use benchmark problems that never fail.", "anchors": ["desdeo_emo/EAs/BaseIndicatorEA.py: BaseIndicatorEA._next_gen", "desdeo_emo/EAs/IBEA.py: IBEA._fitness_assignment, IBEA._environmental_selection", "desdeo_emo/EAs/PBEA.py: PBEA._fitness_assignment, PBEA._environmental_selection"]}
{"id": "C128", "title": "Failed evaluations (infinite or NaN fitness) in NSGA-III", "statement": "When some evaluations of a population fail, NSGA-III's selection still returns exactly n_survive distinct members and selects everyone who dominates a selected member; members that failed with fitness +infinity are selected only after all successfully evaluated ones. Not true of the code: members that failed with NaN are never dominated, so all of them are selected as soon as any dominated member is; one NaN is kept in the stored ideal point, and from then on, in every later generation, the choice within the last front depends on nothing but the random numbers; an infinite failure does the same for one generation when the hyperplane through the extreme points cannot be found, because the fallback nadir point includes the failed members.", "quantifier": "every population size, number of objectives, set of reference directions, stored state, random draws, and mixture of successful and failed members", "why_tests_cant": "It is about every mixture of failed members and about the memory the selection keeps between generations; unit tests use benchmark problems that never fail.", "anchors": ["desdeo_emo/selection/NSGAIII_select.py: NSGAIII_select.do, get_extreme_points_c, get_nadir_point, niching, associate_to_niches, calc_perpendicular_distance"]}
{"id": "C129", "title": "Failed evaluations (infinite or NaN fitness) in the predator-prey algorithm", "statement": "Whatever evaluations of a PPGA run fail, the lattice agrees with the population after any history, a generation ends normally or with the library's own error (nobody found a mate), and predators never kill below the target size. Predators kill failed (infinite) prey before successful ones, and the periodic cull removes infinite members whenever it removes a successful one. Not true of the code: a NaN member is never culled; a NaN prey hides all prey scanned before it from the predator, which then kills somebody scanned after it, however good, and the NaN prey itself only if it is scanned last; the first and the last predator (weights 0 and 1) treat infinite prey like NaN prey.", "quantifier": "every population, history of generations, random draws, parameter setting, predator, neighbourhood, and mixture of successful and failed members", "why_tests_cant": "Sorting a list that contains NaN depends on the order in which the prey happen to be scanned; unit tests use benchmark problems that never fail.", "anchors": ["desdeo_emo/EAs/PPGA.py: PPGA._next_gen, PPGA.select, Lattice.move_predator"]}
{"id": "C130", "title": "Evaluations that raise, at any point of a run, and going on afterwards", "statement": "When an evaluation raises during iterate() and the user catches the exception and goes on, the object stays usable. RVEA, NSGA-III: the interrupted generation leaves population, archive, counters and snapshots as they were, the population never shrinks below n_survive (NSGA-III) or becomes empty (RVEA), every iterate() succeeds once evaluations stop raising, and (for deterministic collaborators) the results are those of an undisturbed run with as many generations. MOEA/D: the population keeps its size, the subproblems before the failing one are done and counted. Indicator-based algorithms: only the environmental selection of the interrupted generation has happened. Never more than n_gen_per_iter generations per call. Not true of the code: TournamentEA deletes its population before the offspring are evaluated and is dead after one failure; PPGA keeps the offspring on the lattice without individuals; an iterate() that raises is not counted as an iteration although its generations are, so that the total budget of generations is not kept.", "quantifier": "every problem, population, configuration, sequence of start()/iterate() calls and set of moments at which evaluations raise", "why_tests_cant": "The state after a failure depends on the statement at which it struck and on the whole history before it; tests do not make evaluations fail at every point of every history.", "anchors": ["desdeo_emo/EAs/BaseEA.py: BaseEA.iterate, BaseDecompositionEA._next_gen", "desdeo_emo/EAs/MOEAD.py: MOEA_D._next_gen", "desdeo_emo/EAs/BaseIndicatorEA.py: BaseIndicatorEA._next_gen", "desdeo_emo/EAs/TournamentEA.py: TournamentEA._next_gen", "desdeo_emo/EAs/PPGA.py: PPGA._next_gen", "desdeo_emo/population/Population.py: Population.add"]}
{"id": "C131", "title": "Interrupting a run (Ctrl-C) between two statements of a population update", "statement": "A user who interrupts a run and goes on would rely on the population still being a table of individuals with their own values. The table is consistent exactly when the interrupt arrives before the first or after the last column is assigned (an interrupted delete of everybody counts as an empty population). Not true of the code in between: add, keep and delete leave columns of different lengths, after which every further keep and delete raises IndexError while still shortening the individuals, so that the lengths may agree again by accident and the run goes on with individuals carrying the objectives of others, which end() then reports; replace (MOEA/D) leaves the new individual with the objectives, fitness or constraints of the one it replaces, without any error.", "quantifier": "every population, argument, number of constraints, with and without uncertainties, and every point between two assignments", "why_tests_cant": "The moment of an interrupt cannot be controlled in a unit test; there is one intermediate state per statement and per shape of the population.", "anchors": ["desdeo_emo/population/Population.py: Population.add, keep, delete, replace, reevaluate_fitness", "desdeo_emo/EAs/BaseEA.py: BaseEA.iterate, BaseEA.end"]}
{"id": "C132", "title": "Seeding the random generators reproduces a run", "statement": "With numpy's global generator seeded, a run of MOEA/D, IBEA or PBEA - construction of the first population with a random or LHS design, any number of iterate() calls of any lengths, interactive or not, with any answers given in between - has the same outcome (population, ideal point, operator, or exception) whatever Python's own generator holds; RVEA and NSGA-III likewise. Asking for the requests does not influence what a run does next. A run started from a given seed does not depend on what else the process does with other algorithms; in particular, if both generators are seeded before every call, calls to several algorithms may be interleaved in any order and each ends as if run alone.", "quantifier": "all generators and seeds, problems, operator parameters, scalarising functions, indicators, designs, numbers and lengths of iterate() calls, answers, interleavings of calls", "why_tests_cant": "independence of a hidden global state is an equality between all pairs of runs, and the dependence on Python's generator shows only when its state differs between two runs with the same numpy seed", "anchors": ["desdeo_emo/population/Population.py: Population.mate", "desdeo_emo/recombination/SimulatedBinaryCrossover.py: SBX_xover.do", "desdeo_emo/recombination/BoundedPolynomialMutation.py: BP_mutation.do", "desdeo_emo/population/CreateIndividuals.py: create_new_individuals", "desdeo_emo/selection/MOEAD_select.py: MOEAD_select.choose_parents", "desdeo_emo/selection/TournamentSelection.py: TournamentSelection.do", "desdeo_emo/EAs/BaseEA.py: BaseEA.iterate", "desdeo_emo/EAs/BaseEA.py: BaseDecompositionEA.requests", "desdeo_emo/selection/SelectionBase.py: SelectionBase.request_preferences"]}
{"id": "C133", "title": "The recombination functions behave as the operator objects", "statement": "The module-level functions mate of the EvoNN, EvoDN2 and BioGP recombination modules mate exactly the pairs of the mating list (or, without one, every individual with a random member), return two offspring of the same architecture per pair built from those two parents, use the documented defaults for omitted parameters, and return what the operator object of the same parameters returns.", "quantifier": "every population, mating list or none, parameter dict, mutation type and random draws", "why_tests_cant": "They must hold for every population, pair list, generation number and draw; a test sees a few seeds.", "anchors": ["desdeo_emo/recombination/evonn_xover_mutation.py: mate", "desdeo_emo/recombination/evodn2_xover_mutation.py: mate", "desdeo_emo/recombination/biogp_xover.py: mate"]}
{"id": "C134", "title": "GP mutation of whole offspring lists", "statement": "BioGP mutation of a list of offspring (as object or as function) uses one draw to choose the kind of mutation for all, mutates every offspring in place without touching any object outside the offspring, keeps every individual well formed and within max_depth, never fails, and leaves the parents untouched when it follows crossover.", "quantifier": "every heap, list of offspring, probability and sequence of draws", "why_tests_cant": "Sharing between recursive structures over all lists and draws cannot be enumerated.", "anchors": ["desdeo_emo/recombination/biogp_mutation.py: mutate, BioGP_mutation.do", "desdeo_emo/recombination/biogp_xover.py: BioGP_xover.do", "desdeo_emo/population/Population.py: Population.mate"]}
{"id": "C135", "title": "Stopping a run between two statements of iterate() and going on", "statement": "A run can be stopped (Ctrl-C, an interrupted notebook cell) between any two statements of iterate() and the next generation, and continued with the same object: every row then in the population, the archive, the snapshots and the result was evaluated and is reported with the values it was evaluated to; the reported number of function evaluations is never more than were made, evaluations of completed generations are counted (in MOEA/D all but at most one row), the iteration is not counted, and a budget is exceeded by at most the generation that was running. The population of MOEA/D keeps its size, the tournament EA keeps a population, and the archive still holds what was evaluated and not dominated.", "quantifier": "all five kinds of algorithm, all operators, problems and settings, every initial state, every number of statements after which a run is stopped, and every sequence of start(), iterate() and stopped iterate() calls before and after", "why_tests_cant": "Stops fall at any of arbitrarily many places of a run, and what matters is what any continuation does; tests run to completion.", "anchors": ["desdeo_emo/EAs/BaseEA.py: BaseEA.iterate, BaseDecompositionEA._next_gen", "desdeo_emo/EAs/BaseIndicatorEA.py: BaseIndicatorEA._next_gen", "desdeo_emo/EAs/MOEAD.py: MOEA_D._next_gen", "desdeo_emo/EAs/TournamentEA.py: TournamentEA._next_gen", "desdeo_emo/EAs/PPGA.py: PPGA._next_gen"]}
{"id": "C136", "title": "What the operators guarantee holds for everything a run evaluates and reports", "statement": "If every row of the initial population has some property of decision vectors - within the variable bounds, zeros and ones only, a network of the same architecture - and mating rows that have it yields rows that have it (in MOEA/D with use_repair: yields it after repair), then every row ever passed to problem.evaluate, every row of the population, of the nondominated archive, of every recorded generation and of the result of end() has it, for all algorithms, after any sequence of start() and iterate() calls, also ones that raise or are stopped between statements. In particular: recombination that ends in BP_mutation keeps every gene NaN or within its bounds whatever the crossover does and all draws; MOEA/D with use_repair needs no property of its operators; single point crossover and mutation keep chromosomes binary; EvoNNRecombination keeps the architecture of all networks.", "quantifier": "all properties of decision vectors, worlds (operators, evaluation, selection, preferences, draws), configurations, initial states (from a problem or from a population with a history), sequences of calls and points of interruption", "why_tests_cant": "the property must survive every schedule of the five main loops with every draw, raise and interruption; tests run a few generations of one algorithm", "anchors": ["desdeo_emo/EAs/BaseEA.py:BaseDecompositionEA._next_gen, start, iterate", "desdeo_emo/EAs/MOEAD.py:_next_gen", "desdeo_emo/EAs/BaseIndicatorEA.py:_next_gen", "desdeo_emo/EAs/TournamentEA.py:_next_gen", "desdeo_emo/EAs/PPGA.py:_next_gen", "desdeo_emo/population/Population.py:mate, repair, add", "desdeo_emo/recombination/BoundedPolynomialMutation.py:do", "desdeo_emo/recombination/SinglePointCrossoverMutation.py", "desdeo_emo/recombination/evonn_xover_mutation.py:EvoNNRecombination.do"]}
{"id": "C137", "title": "In double precision, reference vectors keep unit length and stay apart", "statement": "Normalising or adapting reference vectors in double precision yields vectors whose length is 1 and whose direction is that of the exact result, up to a few roundings, for entries and ranges that are not extremely small or large, whatever the order in which numpy adds; the neighbouring angles are then defined and, as in exact arithmetic, positive for vectors that differ from all others, if they differ by about 1e-7. (Outside that range the length can be wrong by any factor; and vectors closer than that can get the neighbouring angle 0, by which APD divides.)", "quantifier": "all vectors and fitness matrices of doubles, numbers of objectives up to 2^20 and orders of summation", "why_tests_cant": "the error bound ranges over all doubles and orders of summation; the failures need ranges that differ by nine orders of magnitude, or underflow", "anchors": ["desdeo_emo/utilities/ReferenceVectors.py:ReferenceVectors.normalize, adapt, neighbouring_angles", "desdeo_emo/selection/APD_Select_constraints.py:_partial_penalty_factor, do"]}
{"id": "C138", "title": "Genes stay numbers within the bounds, whatever the arithmetic does", "statement": "With finite bounds, the clamps of mutation and repair yield a number within the bounds from anything number arithmetic can produce (rounded values, infinities), and NaN only from NaN. With any bounds a problem may declare, the initial population and everything evaluated in a run consists of numbers. (False for variables with an infinite bound: every initial gene is NaN or infinite, mutation destroys finite genes, and no run ever evaluates a finite value of such a variable; nothing raises. Likewise a mutated gene whose two bounds are equal becomes NaN.)", "quantifier": "all genes, bounds (finite or not), samples, draws, crossover factors, and for runs all algorithms, worlds and sequences of calls", "why_tests_cant": "infinities and NaN pass silently through creation, crossover, mutation and evaluation of whole runs; tests use finite bounds", "anchors": ["desdeo_emo/population/CreateIndividuals.py:create_new_individuals", "desdeo_emo/recombination/SimulatedBinaryCrossover.py:SBX_xover.do", "desdeo_emo/recombination/BoundedPolynomialMutation.py:BP_mutation.do", "desdeo_emo/population/Population.py:Population.mate, repair"]}
{"id": "C139", "title": "The reference vectors a run starts with are well separated in double precision", "statement": "The reference vectors created by simplex lattice design, as actually computed in double precision and whatever the order in which numpy adds, are as many as in exact arithmetic and pairwise different; before normalisation their entries are the exact fractions up to one rounding and sum to 1 up to 2^-53 (as stored, after one more division, up to a few roundings); afterwards they have no negative entry, keep their direction and length 1 up to a few roundings, and every neighbouring angle (by which APD divides) comes out at least 2^-25 and at most 90 degrees.", "quantifier": "all numbers of objectives n >= 2 (up to 2^20), all resolutions h with (n+8)h^2 <= 2^44, all orders of summation", "why_tests_cant": "the number of vectors grows binomially, and rounding depends on every entry; separation of all pairs for all sizes needs an error analysis", "anchors": ["desdeo_emo/utilities/ReferenceVectors.py:ReferenceVectors._create, normalize, neighbouring_angles"]}
{"id": "C140", "title": "MOEA/D's neighbourhoods survive rounding", "statement": "Computed in double precision, in whatever order numpy adds and with any argsort, the neighbourhood of a subproblem has min(n_neighbors, number of vectors) distinct members, they are nearest to its vector up to a relative error of a few roundings, and it contains the subproblem itself as long as no other vector practically coincides with its own - always for the vectors MOEA/D starts with.", "quantifier": "all reference vectors of doubles (entries up to 2^500), numbers of objectives up to 2^20, orders of summation, sorting functions; for the initial vectors all resolutions h with (n+8)h^2 <= 2^44", "why_tests_cant": "rounding and ties differ for every set of vectors and every platform's summation order", "anchors": ["desdeo_emo/selection/MOEAD_select.py:MOEAD_select.__init__, adapt_RVs", "desdeo_emo/utilities/ReferenceVectors.py:ReferenceVectors._create"]}
{"id": "C141", "title": "RVEA's assignment and choice survive rounding", "statement": "In double precision, whatever the order in which numpy adds: the cosine RVEA computes between a solution and a reference vector is the true one up to (n+4)*2^-49; the computed angle is the true one up to the root of (n+4)*2^-47; every solution is assigned to exactly one vector, one whose true cosine is the largest up to (n+4)*2^-48 (so the right one whenever it leads by more); the computed angle penalized distance is norm*(1 + penalty*angle/neighbouring angle), for the computed angle, up to (n+4)*2^-51 of its value, and never negative; from every niche with members exactly one solution is chosen and from empty ones none, and the chosen one's distance is the least in its niche up to (n+4)*2^-49 of its value; with penalty 0 a solution is never given a smaller distance than one that is at least as good in every objective; a solution equal to the ideal point gets distance 0 and the first vector. False of objectives (relative to the ideal) below 2^-538: all their distances are computed as 0, and a solution worse in every respect is chosen if it comes first.", "quantifier": "all numbers of objectives (up to 2^20), translated objectives 0 or from 2^-500 to 2^500, all sets of normalised non-negative reference vectors, all penalties up to 2^20, all orders of summation", "why_tests_cant": "rounding depends on every bit of every objective; a test compares a few values with a tolerance", "anchors": ["desdeo_emo/selection/APD_Select_constraints.py:APD_Select.do, _partial_penalty_factor"]}
{"id": "C142", "title": "NSGA-III's association with reference directions survives rounding", "statement": "In double precision, whatever the order in which numpy adds: the objectives NSGA-III normalises come out non-negative and equal to (f - ideal)/(nadir - ideal) up to the factor 1 + 2^-51; the computed distance of a normalised solution from the line through a reference direction is the true one up to (n+4)*2^-48 of the solution's norm; a solution is associated with a direction whose line is nearest up to twice that, and with exactly the one exact arithmetic gives whenever it is nearer than every other by more; a solution equal to the ideal point is associated with the first direction at distance 0.", "quantifier": "all numbers of objectives (up to 2^20), all doubles (short of overflow), all non-empty sets of normalised non-negative directions, all orders of summation", "why_tests_cant": "the projection subtracts nearly equal numbers, so the error depends on every bit of solution and direction; a test compares a few values with a tolerance", "anchors": ["desdeo_emo/selection/NSGAIII_select.py:NSGAIII_select.associate_to_niches, calc_perpendicular_distance"]}
{"id": "C143", "title": "Adapting the reference vectors to a preferred solution or reference point keeps them apart in double precision", "statement": "When a decision maker names a preferred solution with non-negative objectives, every initial reference vector is moved to 0.2 times itself plus 0.8 times that solution; in double precision every entry is that value up to the factor 1 + 2^-50 (and 2^-1073), whatever the numbers of vectors and objectives. Different vectors should therefore stay different, so that the next selection can still keep one solution per vector: they do when some entry tells them apart by more than 2^-50 times the entries and the solution's. With a reference point, the vectors are moved towards its direction from the ideal point instead, which has entries up to 2 whatever the objectives' scale, so vectors 2^-44 apart stay different; every reference point should have such a direction. After the normalisations, the new vectors are the normalised 0.2 * vector + 0.8 * solution (or direction), up to the factor 1 + 2^-49 per entry and in length 1 up to (n+4)*2^-51, for entries 0 or between 2^-400 and 2^40, one block per preferred solution; the axis vectors follow exactly.", "quantifier": "all numbers of objectives and reference vectors, all non-negative initial vectors, preferred solutions and reference points not better than the ideal point (short of overflow), all orders of summation", "why_tests_cant": "the objectives of the preferred solution are not scaled, so whether anything of the reference vectors is left depends on their magnitude; tests use objectives near 1", "anchors": ["desdeo_emo/utilities/ReferenceVectors.py:ReferenceVectors.interactive_adapt_1, iteractive_adapt_3, add_edge_vectors, normalize", "desdeo_emo/selection/SelectionBase.py:InteractiveDecompositionSelectionBase.manage_preferred_solutions, manage_reference_point"]}
{"id": "C144", "title": "Reference vectors near non-preferred solutions are the ones dropped, in double precision", "statement": "When a decision maker names non-preferred solutions, a reference vector (planar form) is dropped when its distance from one of them, divided by the sum of its absolute values, is below 0.2, and kept otherwise. In double precision, whatever the order in which numpy adds, the computed distance is the true one up to (n+4)*2^-49, so vectors further than 0.2 + (n+4)*2^-48 from every such solution are kept and vectors nearer than 0.2 - (n+4)*2^-48 to one are dropped. This should hold for every non-preferred solution, also one at the origin.", "quantifier": "all numbers of objectives (up to 2^20), all doubles between 2^-500 and 2^500 in size or 0, any sign, all sets of non-preferred solutions and reference vectors of norm up to 2, all orders of summation", "why_tests_cant": "vectors at the threshold depend on every rounding and on the order of summation; a test tries a few solutions", "anchors": ["desdeo_emo/utilities/ReferenceVectors.py:ReferenceVectors.interactive_adapt_2", "desdeo_emo/selection/SelectionBase.py:InteractiveDecompositionSelectionBase.manage_non_preferred_solutions"]}
{"id": "C145", "title": "Reference vectors sampled from preferred ranges lie in them and have unit length in double precision", "statement": "When a decision maker gives a preferred range per objective, every new reference vector is a point sampled in the ranges, divided by its length. In double precision every sample lies between the lower limit and the upper limit (up to 2^-51 of the limits' sizes), there are as many new vectors as old ones, and, with positive limits between 2^-500 and 2^499, every vector is its sample divided by one positive number up to one rounding per entry and has length 1 up to (n+4)*2^-51, whatever the order in which numpy adds. All ranges should yield vectors with a direction, and no sample should leave its range.", "quantifier": "all numbers of objectives (up to 2^20) and vectors, all double limits (short of overflow), all unit-cube samples, all orders of summation", "why_tests_cant": "whether a sample at the end of a range is rounded out of it depends on every bit of the limits and the sample", "anchors": ["desdeo_emo/utilities/ReferenceVectors.py:ReferenceVectors.interactive_adapt_4, normalize", "desdeo_emo/selection/SelectionBase.py:InteractiveDecompositionSelectionBase.manage_preferred_ranges"]}
