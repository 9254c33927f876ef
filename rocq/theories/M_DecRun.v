(** Sessions of the decomposition based EAs (RVEA, NSGA-III, MOEA/D), interactive or not: desdeo_emo/EAs/BaseEA.py start 82-103, iterate 138-152, continue_iteration 187-192,
    continue_evolution 194-196, check_FE_count 198-209, set_interaction_type 211-243, manage_preferences 245-287, BaseDecompositionEA.__init__ 381-418, _next_gen 420-437, pre_iteration
    439-444, request_preferences 467-475, requests 477-478, with the selection operator's part of it in desdeo_emo/selection/SelectionBase.py 91-301 ([M_Preferences]).
    Left out: snapshots and the non-dominated archive (see [M_Run]), plot requests. *)
From Verif Require Import Base M_Preferences.
Open Scope Z_scope.

(** The object's counters: _iteration_counter, _current_gen_count, _gen_count_in_curr_iteration, _function_evaluation_count, and (ghost) the generations begun. *)
Record counts := mkCounts { c_it : Z; c_gen : Z; c_gin : Z; c_fe : Z; c_clock : nat }.

Section DecRun.
(** [VS]: the reference vectors; [PS]: the population and whatever else the selection operator remembers; [Payload]: what a preference holds. *)
Context {VS PS Payload : Type}.
(** selection_operator.adapt_RVs(population.fitness), SelectionBase.py:101-103. *)
Context (adapt_RVs : PS -> VS -> VS).
(** SelectionBase.py:259-301 after the isinstance test: the vectors left behind and whether it raised (e.g. an index that is not in the population). *)
Context (apply_pref : itype -> Payload -> PS -> VS -> VS * res unit).
(** problem.manage_preferences and population.reevaluate_fitness, BaseEA.py:279-281. *)
Context (problem_pref : option (pref Payload) -> PS -> PS * res unit).
(** One generation with the given vectors: mate, add, select, keep (BaseEA.py:424-432), returning the number of offspring; it may read the counters (time penalty) and draw at random. *)
Context (gen : counts -> VS -> PS -> PS * res nat).

Record drun := mkDRun {
  d_ea : ea;                                   (* interact, _interaction_location, interaction_type_set_bool, interaction_type, _interaction_request_id *)
  d_sur : bool;                                (* use_surrogates *)
  d_iters : Z; d_gpi : Z; d_total : Z;         (* n_iterations, n_gen_per_iter, total_function_evaluations *)
  d_vs : VS; d_ps : PS; d_c : counts }.

Definition with_ea (s : drun) e := mkDRun e (d_sur s) (d_iters s) (d_gpi s) (d_total s) (d_vs s) (d_ps s) (d_c s).
Definition with_vs (s : drun) v := mkDRun (d_ea s) (d_sur s) (d_iters s) (d_gpi s) (d_total s) v (d_ps s) (d_c s).
Definition with_ps (s : drun) p := mkDRun (d_ea s) (d_sur s) (d_iters s) (d_gpi s) (d_total s) (d_vs s) p (d_c s).
Definition with_c (s : drun) c := mkDRun (d_ea s) (d_sur s) (d_iters s) (d_gpi s) (d_total s) (d_vs s) (d_ps s) c.

(** BaseEA.py:36-60, 381-418; [fe0]: population_size when the population is created here, 0 when one is given. *)
Definition dec_new (interact : bool) (k : problem_kind) (sur : bool) (n_iterations n_gen_per_iter total fe0 : Z) (v : VS) (p : PS) : drun :=
  mkDRun (new_ea interact k) sur n_iterations n_gen_per_iter total v p (mkCounts 0 0 0 fe0 0).

Definition dec_check_FE (s : drun) : bool := if d_total s =? 0 then true else c_fe (d_c s) <=? d_total s.
Definition dec_continue_iteration (s : drun) : bool := (c_gin (d_c s) <? d_gpi s) && dec_check_FE s.
Definition dec_continue_evolution (s : drun) : bool := (c_it (d_c s) <? d_iters s) && dec_check_FE s.

(** BaseEA.py:211-243. *)
Definition dec_set_type (a : itype_arg) (s : drun) : drun * res (option request) :=
  let (e, r) := set_interaction_type (d_ea s) a in (with_ea s e, bind r (fun _ => Ok None)).
(** BaseEA.py:467-478; [rnd]: np.random.randint. *)
Definition dec_requests (rnd : nat) (s : drun) : drun * res (option request) :=
  let (e, r) := request_preferences (d_ea s) rnd in (with_ea s e, r).
(** BaseEA.py:82-103. *)
Definition dec_start (rnd : nat) (s : drun) : drun * res (option request) :=
  let (e, r) := start (d_ea s) rnd in (with_ea s e, r).

(** SelectionBase.py:231-301. *)
Definition sel_manage (p : option (pref Payload)) (s : drun) : drun * res unit :=
  match p with
  | None => (with_vs s (adapt_RVs (d_ps s) (d_vs s)), Ok tt)
  | Some p =>
      if negb (match ea_reqid (d_ea s) with Some i => Nat.eqb i (pf_id p) | None => false end) then (s, Err ValueError)
      else match ea_type (d_ea s) with
           | None => (s, Err ValueError)
           | Some t =>
               if match pf_class p with Some c => itype_eqb c t | None => false end
               then let (v, r) := apply_pref t (pf_payload p) (d_ps s) (d_vs s) in (with_vs s v, r)
               else (s, Err TypeError)
           end
  end.
(** BaseEA.py:245-287. Population has no manage_preferences: AttributeError. *)
Definition dec_manage (p : option (pref Payload)) (s : drun) : drun * res unit :=
  match ea_loc (d_ea s) with
  | LocNone => (s, Ok tt)
  | LocPopulation => (s, Err AttributeError)
  | LocSelection => sel_manage p s
  | LocEA => (s, Err EaError)
  | LocProblem => let (q, r) := problem_pref p (d_ps s) in (with_ps s q, r)
  end.
(** BaseEA.py:439-444. *)
Definition dec_pre_iteration (s : drun) : drun :=
  let s1 := if negb (ea_interact (d_ea s)) then with_vs s (adapt_RVs (d_ps s) (d_vs s)) else s in
  match ea_loc (d_ea s) with LocSelection => s1 | _ => with_vs s1 (adapt_RVs (d_ps s1) (d_vs s1)) end.
(** BaseEA.py:420-437. *)
Definition dec_gen (s : drun) : drun * res unit :=
  let c := d_c s in
  match gen c (d_vs s) (d_ps s) with
  | (q, Err e) => (with_c (with_ps s q) (mkCounts (c_it c) (c_gen c) (c_gin c) (c_fe c) (S (c_clock c))), Err e)
  | (q, Ok n) => (with_c (with_ps s q) (mkCounts (c_it c) (c_gen c + 1) (c_gin c + 1) (if d_sur s then c_fe c else c_fe c + Z.of_nat n) (S (c_clock c))), Ok tt)
  end.
Fixpoint dec_gens (fuel : nat) (s : drun) : drun * res unit :=
  if dec_continue_iteration s then
    match fuel with
    | O => (s, Err Unmodelled)
    | S f => match dec_gen s with (s', Ok _) => dec_gens f s' | (s', Err e) => (s', Err e) end
    end
  else (s, Ok tt).
(** BaseEA.py:138-152; the fuel always suffices. *)
Definition dec_iterate (p : option (pref Payload)) (rnd : nat) (s : drun) : drun * res (option request) :=
  match dec_manage p s with
  | (s1, Err e) => (s1, Err e)
  | (s1, Ok _) =>
      let s2 := dec_pre_iteration s1 in
      let c := d_c s2 in
      match dec_gens (Z.to_nat (d_gpi s2)) (with_c s2 (mkCounts (c_it c) (c_gen c) 0 (c_fe c) (c_clock c))) with
      | (s3, Err e) => (s3, Err e)
      | (s3, Ok _) => let c := d_c s3 in dec_requests rnd (with_c s3 (mkCounts (c_it c + 1) (c_gen c) (c_gin c) (c_fe c) (c_clock c)))
      end
  end.

(** What a user does, exceptions caught. Reading allowable_interaction_types is [DSetType ArgNone] (BaseEA.py:71-77). *)
Inductive dcall := DSetType (a : itype_arg) | DStart (rnd : nat) | DRequests (rnd : nat) | DIterate (p : option (pref Payload)) (rnd : nat).
Definition dec_do (s : drun) (c : dcall) : drun * res (option request) :=
  match c with
  | DSetType a => dec_set_type a s
  | DStart r => dec_start r s
  | DRequests r => dec_requests r s
  | DIterate p r => dec_iterate p r s
  end.
Fixpoint dec_session (s : drun) (cs : list dcall) : drun := match cs with [] => s | c :: t => dec_session (fst (dec_do s c)) t end.
(** The calls with what they returned or raised. *)
Fixpoint dec_history (s : drun) (cs : list dcall) : list (dcall * res (option request)) :=
  match cs with [] => [] | c :: t => (c, snd (dec_do s c)) :: dec_history (fst (dec_do s c)) t end.
End DecRun.
Arguments drun : clear implicits.
Arguments dcall : clear implicits.
