(** Who draws random numbers from where: the two process-wide generators (numpy's np.random and Python's random), threaded through population creation, variation, selection, requests and
    whole runs of the algorithms. Modelled: population/CreateIndividuals.py 41-57, population/Population.py 114-122, 218-239, recombination/SimulatedBinaryCrossover.py 44-69,
    recombination/BoundedPolynomialMutation.py 33-36, selection/MOEAD_select.py 110-116, selection/TournamentSelection.py 38-74, EAs/BaseEA.py 138-152, 420-435, 470-480, EAs/MOEAD.py 112-146,
    EAs/BaseIndicatorEA.py 106-128, 201, selection/SelectionBase.py 147-216. The arithmetic on the drawn numbers is that of [M_Recombination], [M_MOEAD], [M_Indicator], [M_Create].
    Simplification: individuals are rows of reals; a NaN gene (impossible for individuals within their bounds, C08) is written [nan]. *)
From Coq Require Import Reals QArith.
From Verif Require Import Base M_Create M_Recombination M_MOEAD M_MoeadRun M_Indicator.
Open Scope nat_scope.

(** The generators: numpy's with the kinds of draws the code makes (np.random.rand/random, randint(0, 2, size), randint(0, n), choice without replacement giving positions, pyDOE's lhs, which
    draws from np.random), Python's with [shuffle]. A state stands for the whole internal state; seeding sets it. *)
Record generators := mkGenerators {
  NP : Type; PY : Type;
  g_floats : nat -> NP -> list R * NP;
  g_bits : nat -> NP -> list bool * NP;
  g_integer : Z -> NP -> Z * NP;
  g_choice : nat -> nat -> NP -> list nat * NP;
  g_lhs : nat -> nat -> NP -> list (list R) * NP;
  g_shuffle : nat -> PY -> list nat * PY }.

Section Seed.
Context (G : generators).

(** A computation that draws: result (or exception) and the states of both generators afterwards. *)
Definition rnd (A : Type) : Type := NP G -> PY G -> res A * (NP G * PY G).
Definition ret {A} (a : A) : rnd A := fun n p => (Ok a, (n, p)).
Definition fail {A} (e : exn) : rnd A := fun n p => (Err e, (n, p)).
Definition of_res {A} (r : res A) : rnd A := fun n p => (r, (n, p)).
Definition andthen {A B} (m : rnd A) (f : A -> rnd B) : rnd B :=
  fun n p => let (r, s) := m n p in match r with Ok a => f a (fst s) (snd s) | Err e => (Err e, s) end.
Definition numpy {A} (d : NP G -> A * NP G) : rnd A := fun n p => let (a, n') := d n in (Ok a, (n', p)).
Definition python {A} (d : PY G -> A * PY G) : rnd A := fun n p => let (a, p') := d p in (Ok a, (n, p')).

(** SimulatedBinaryCrossover.py:60-64: for every pair, num_var floats, num_var signs, num_var floats. *)
Fixpoint zip_draws (mius : list R) (negs : list bool) (prs : list R) : list sbx_draw :=
  match mius, negs, prs with m :: ms, b :: bs, p :: ps => mkDraw m b p :: zip_draws ms bs ps | _, _, _ => [] end.
Fixpoint draw_pairs (n_pairs num_var : nat) : rnd (list (list sbx_draw)) :=
  match n_pairs with
  | O => ret []
  | S k => andthen (numpy (g_floats G num_var)) (fun mius => andthen (numpy (g_bits G num_var)) (fun negs => andthen (numpy (g_floats G num_var)) (fun prs =>
           andthen (draw_pairs k num_var) (fun r => ret (zip_draws mius negs prs :: r)))))
  end.
Definition no_draw : sbx_draw := mkDraw 0 false 0.
Definition cell {A} (d : A) (m : list (list A)) (i j : nat) : A := nth j (nth i m []) d.
(** BoundedPolynomialMutation.py:35-36: two arrays of the offspring's shape, filled row by row. *)
Definition draw_array (rows cols : nat) : rnd (nat -> nat -> R) := andthen (numpy (g_floats G (rows * cols))) (fun l => ret (fun i j => nth (i * cols + j) l 0%R)).

Section Mate.
(** ProC, DisC, ProM, DisM, bounds; [nan] see above. *)
Context (ProC DisC ProM DisM : R) (lbs ubs : list R) (nan : R).
Definition gene (x : option R) : R := match x with Some r => r | None => nan end.

(** Population.py:234-239 with the default operators; [None]: SimulatedBinaryCrossover.py:45-47, Python's shuffle. *)
Definition pop_mate (pop : list (list R)) (ids : option (list nat)) : rnd (list (list R)) :=
  andthen (match ids with None => python (g_shuffle G (length pop)) | Some l => ret l end) (fun order =>
  let ids' := map Z.of_nat order in
  andthen (of_res (take_rows pop ids')) (fun mp =>
  let n_pairs := Nat.div2 (length (close_odd mp)) in
  andthen (draw_pairs n_pairs (length lbs)) (fun ds =>
  andthen (draw_array (2 * n_pairs) (length lbs)) (fun k =>
  andthen (draw_array (2 * n_pairs) (length lbs)) (fun miu =>
  andthen (of_res (mate ProC DisC ProM DisM (cell no_draw ds) (fun i j => (k i j, miu i j)) lbs ubs pop ids')) (fun off =>
  ret (map (map gene) off))))))).

(** ** Construction: Population.py:114-122, CreateIndividuals.py:41-57. *)
Inductive design := RandomDesign | LHSDesign.
Definition new_individuals (d : design) (pop_size : nat) : rnd (list (list R)) :=
  match d with
  | RandomDesign => andthen (draw_array pop_size (length lbs)) (fun u => of_res (scaled_design pop_size (length lbs) u lbs ubs))
  | LHSDesign => andthen (numpy (g_lhs G (length lbs) pop_size)) (fun m => of_res (scaled_design pop_size (length lbs) (cell 0%R m) lbs ubs))
  end.

(** ** Requests: BaseEA.py:470-480 with SelectionBase.py:147-216, BaseIndicatorEA.py:201, 229-230: an interactive algorithm draws the id of its request. *)
Definition requests (interact : bool) : rnd Z := if interact then numpy (g_integer G 1000000000) else ret 0%Z.

(** iterate() (BaseEA.py:138-152): what happens before the generations, [k] generations, the requests. *)
Fixpoint generations {T} (gen : T -> rnd T) (k : nat) (s : T) : rnd T := match k with O => ret s | S k' => andthen (gen s) (generations gen k') end.
Definition iterate {T} (interact : bool) (pre : T -> rnd T) (gen : T -> rnd T) (k : nat) (s : T) : rnd T :=
  andthen (pre s) (fun s1 => andthen (generations gen k s1) (fun s2 => andthen (requests interact) (fun _ => ret s2))).
Fixpoint iterations {T} (interact : bool) (pre : nat -> T -> rnd T) (gen : T -> rnd T) (i : nat) (ks : list nat) (s : T) : rnd T :=
  match ks with [] => ret s | k :: t => andthen (iterate interact (pre i) gen k s) (iterations interact pre gen (S i) t) end.

(** ** MOEA/D *)
Section MOEAD.
(** A member: its variables and its fitness. [ev]: repair and evaluation; [SF], [new_ideal] as in [M_MOEAD]. *)
Context (ev : list R -> list Q) (SF : list Q -> list Q -> list Q -> Q) (new_ideal : list Q -> (list R * list Q) -> list Q).
Record mstate := mkMS { ms_op : mop; ms_ideal : list Q; ms_pop : list (list R * list Q) }.
(** MOEAD.py:114-143; MOEAD_select.py:110-116: two positions of the neighbourhood from numpy. Population.mate gets the two parents, so nothing is shuffled. *)
Definition seeded_subproblem (i : nat) (s : mstate) : rnd mstate :=
  match nth_error (mo_nbs (ms_op s)) i with
  | None => fail IndexError
  | Some nb =>
      if Nat.ltb (length nb) 2 then fail ValueError
      else andthen (numpy (g_choice G (length nb) 2)) (fun pos =>
           let pick := (nth 0 pos 0, nth 1 pos 0) in
           andthen (of_res (choose_parents (fun _ => pick) (mo_nbs (ms_op s)) i)) (fun ab =>
           andthen (pop_mate (map fst (ms_pop s)) (Some [fst ab; snd ab])) (fun off =>
           match off with
           | [] => fail IndexError
           | x :: _ =>
               andthen (of_res (subproblem (M := list R * list Q) snd SF (mo_planar (ms_op s)) (mo_nbs (ms_op s)) (fun _ _ => pick) (fun _ _ _ _ => (x, ev x)) new_ideal i (ms_ideal s, ms_pop s))) (fun r =>
               ret (mkMS (ms_op s) (fst r) (snd r)))
           end)))
  end.
Fixpoint seeded_subproblems (is : list nat) (s : mstate) : rnd mstate := match is with [] => ret s | i :: t => andthen (seeded_subproblem i s) (seeded_subproblems t) end.
(** MOEAD.py:112-146. *)
Definition moead_gen (pop_size : nat) (s : mstate) : rnd mstate := seeded_subproblems (seq 0 pop_size) s.
(** A run from construction: the first population, the operator built from it by [setup], then iterate() calls of the given lengths. [pre i]: what the i-th call does first (adapting the vectors,
    or using the answer given; preferred ranges are sampled with lhs, ReferenceVectors.py:437): any computation that draws from numpy only. *)
Definition moead_run (d : design) (pop_size : nat) (setup : list (list R * list Q) -> mop * list Q) (interact : bool) (pre : nat -> mstate -> NP G -> res mstate * NP G) (ks : list nat) : rnd mstate :=
  andthen (new_individuals d pop_size) (fun xs =>
  let pop := map (fun x => (x, ev x)) xs in
  iterations interact (fun i s => fun n p => let (r, n') := pre i s n in (r, (n', p))) (moead_gen pop_size) 0 ks (mkMS (fst (setup pop)) (snd (setup pop)) pop)).
End MOEAD.

(** ** IBEA and PBEA *)
Section Indicator.
(** [A]: what the indicator depends on besides the individuals (PBEA's reference point). *)
Context {A : Type} (ind : A -> list R -> list R -> R) (kappa : R).
(** TournamentSelection.py:41-47, 66-74: two draws per parent. *)
Fixpoint draw_aspirants (n size k : nat) : rnd (list (list nat)) :=
  match k with O => ret [] | S k' => andthen (numpy (g_choice G n size)) (fun a => andthen (draw_aspirants n size k') (fun r => ret (a :: r))) end.
Definition seeded_tournaments (size : nat) (fit : list R) : rnd (list nat) :=
  if Nat.ltb (length fit - 1) size then (if Nat.eqb (length fit) 0 then ret [] else fail ValueError)
  else andthen (draw_aspirants (length fit - 1) size (2 * length fit)) (fun ds => of_res (tournament_do size fit (fun i => nth i ds []))).
(** BaseIndicatorEA.py:106-128; individuals are compared through [ind] (IBEA.py:95-108, PBEA.py:104-124). *)
Definition indicator_gen (size pop_size : nat) (s : A * list (list R)) : rnd (A * list (list R)) :=
  match env_loop (ind (fst s)) kappa (length (snd s)) pop_size (snd s) (fitness_assignment (ind (fst s)) kappa (snd s)) with
  | None => fail Unmodelled
  | Some r => andthen (of_res r) (fun pf => andthen (seeded_tournaments size (snd pf)) (fun chosen => andthen (pop_mate (fst pf) (Some chosen)) (fun off => ret (fst s, fst pf ++ off))))
  end.
Definition indicator_run (d : design) (pop_size : nat) (a : A) (interact : bool) (pre : nat -> A * list (list R) -> NP G -> res (A * list (list R)) * NP G) (ks : list nat) : rnd (A * list (list R)) :=
  andthen (new_individuals d pop_size) (fun xs =>
  iterations interact (fun i s => fun n p => let (r, n') := pre i s n in (r, (n', p))) (indicator_gen 2 pop_size) 0 ks (a, xs)).
End Indicator.

(** ** RVEA and NSGA-III *)
Section Decomposition.
(** The selection operator: any computation on its state [A], the members and numpy's generator (NSGAIII_select.py:198, 206; RVEA's draws nothing). *)
Context {A : Type} (select : A -> list (list R) -> NP G -> res (A * list nat) * NP G).
Record dstate := mkDS { ds_op : A; ds_pop : list (list R); ds_evaluated : list (list R) }.
(** BaseEA.py:420-435; [ds_evaluated] (ghost): everything evaluated so far. *)
Definition decomposition_gen (s : dstate) : rnd dstate :=
  andthen (pop_mate (ds_pop s) None) (fun off =>
  let all := ds_pop s ++ off in
  andthen (fun n p => let (r, n') := select (ds_op s) all n in (r, (n', p))) (fun sel =>
  andthen (of_res (take_rows all (map Z.of_nat (snd sel)))) (fun kept =>
  ret (mkDS (fst sel) kept (ds_evaluated s ++ off))))).
End Decomposition.
End Mate.
End Seed.
Arguments mkDS {A}. Arguments ds_op {A}. Arguments ds_pop {A}. Arguments ds_evaluated {A}.
