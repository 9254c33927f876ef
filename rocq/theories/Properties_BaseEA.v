(** C18-C20, C22, C23: run loop of the EAs. *)
From Verif Require Import Base M_BaseEA P_BaseEA.
Open Scope Z_scope.

(** C18 (bound). With a positive budget, however many iterate calls are made, the count exceeds
    the budget by at most one generation's offspring (unless it did so initially); once it is
    exceeded no generation runs any more; with budget 0 every iteration is complete. *)
Theorem C18_budget_overshoot_bounded : forall (P : Type) (gen : Z -> P -> P * nat) c B k s s',
  (forall g p, (snd (gen g p) <= B)%nat) -> 0 < total_fe c ->
  iterates gen c k s = Some s' -> fe_count s' <= Z.max (fe_count s) (total_fe c + Z.of_nat B).
Proof. exact @iterates_fe_bound. Qed.

Theorem C18_exhausted_budget_stops : forall (P : Type) (gen : Z -> P -> P * nat) c s s',
  0 < total_fe c -> total_fe c < fe_count s -> iterate gen c (enough c) s = Some s' ->
  gen_count s' = gen_count s /\ popul s' = popul s /\ fe_count s' = fe_count s /\ gen_in_iter s' = 0.
Proof. exact @iterate_exhausted. Qed.

Theorem C18_zero_budget_is_unlimited : forall (P : Type) (gen : Z -> P -> P * nat) c s s',
  total_fe c = 0 -> iterate gen c (enough c) s = Some s' -> gen_in_iter s' = Z.max 0 (n_gen_per_iter c).
Proof. exact @iterate_unlimited. Qed.

(** C18, read as "upper limit" (docstring of BaseDecompositionEA), is false: a run whose budget
    is already used up exactly still performs one more generation. *)
Theorem C18_upper_limit_refuted : exists (gen : Z -> unit -> unit * nat) c k s',
  0 < total_fe c /\ iterates gen c k (init_problem c tt 50) = Some s' /\
  fe_count (init_problem c tt 50) <= total_fe c < fe_count s'.
Proof.
  exists (fun _ _ => (tt, 50%nat)), (mkCfg 10 100 100 false false), 1%nat.
  eexists. split; [reflexivity|]. split; [vm_compute; reflexivity|]. vm_compute. split; [discriminate|reflexivity].
Qed.

(** C19. One iterate call always returns, after k generations where k is n_gen_per_iter unless
    the budget check failed at that point (and held before each of the k generations). *)
Theorem C19_iterate_generations : forall (P : Type) (gen : Z -> P -> P * nat) c s,
  exists s', iterate gen c (enough c) s = Some s' /\
    it_count s' = it_count s + 1 /\ gen_count s' = gen_count s + gen_in_iter s' /\
    0 <= gen_in_iter s' <= Z.max 0 (n_gen_per_iter c) /\
    (gen_in_iter s' = Z.max 0 (n_gen_per_iter c) \/ (total_fe c <> 0 /\ total_fe c < fe_count s')).
Proof.
  intros P gen c s. destruct (iterate_char gen c s) as (k & A & _). eexists. split; [exact A|].
  destruct (iterate_counts gen c _ _ A) as (B & C & D & E). repeat split; auto; try apply D.
  destruct E as [E|E]; [left; exact E|right].
  unfold check_FE in E. destruct (Z.eqb_spec (total_fe c) 0) as [|Hn]; [discriminate|].
  split; [exact Hn|]. destruct (Z.leb_spec (fe_count (bump_iter (gens gen c k (reset_gen (snapshot c s))))) (total_fe c)); [discriminate|assumption].
Qed.

(** C19. The driver loop terminates after at most n_iterations iterations. *)
Theorem C19_run_terminates : forall (P : Type) (gen : Z -> P -> P * nat) c s,
  exists s' k, evolve gen c (S (Z.to_nat (n_iterations c - it_count s))) s = Some s' /\
    iterates gen c k s = Some s' /\ (k <= Z.to_nat (n_iterations c - it_count s))%nat /\
    (n_iterations c <= it_count s' \/ (total_fe c <> 0 /\ total_fe c < fe_count s')).
Proof.
  intros P gen c s. destruct (evolve_terminates gen c _ s (Nat.lt_succ_diag_r _)) as (s' & k & A & B & C & D).
  exists s', k. repeat split; auto. unfold continue_evolution in D. apply andb_false_iff in D.
  destruct D as [D|D]; [left; apply Z.ltb_ge; exact D|right].
  unfold check_FE in D. destruct (Z.eqb_spec (total_fe c) 0) as [|Hn]; [discriminate|].
  split; [exact Hn|]. destruct (Z.leb_spec (fe_count s') (total_fe c)); [discriminate|assumption].
Qed.

(** C20. Counters equal work done: after any number of iterate calls on a fresh EA, the
    population is the result of exactly the generations 0 .. _current_gen_count - 1, the
    evaluation count is the initial size plus all offspring, it equals the number of
    individuals really evaluated, and the iteration counter is the number of calls. *)
Theorem C20_counters : forall (P : Type) (gen : Z -> P -> P * nat) c k p n s',
  use_surrogates c = false ->
  iterates gen c k (init_problem c p n) = Some s' ->
  it_count s' = Z.of_nat k /\ 0 <= gen_count s' /\
  popul s' = pop_at gen p (Z.to_nat (gen_count s')) /\
  fe_count s' = Z.of_nat n + evals_at gen p (Z.to_nat (gen_count s')) /\
  true_evals s' = fe_count s'.
Proof.
  intros P gen c k p n s' Hs E.
  pose proof (iterates_it_count gen c k _ _ E) as Hit.
  pose proof (Inv_iterates gen c _ _ _ k _ s' (Inv_init_problem gen c p n) E) as (A & B & C & D & _).
  rewrite Hs in *. cbn [init_problem it_count] in Hit. repeat split; auto; lia.
Qed.

(** C20. The same for an EA created from an initial population, which is not evaluated again: its members are not counted. *)
Theorem C20_counters_initial_population : forall (P : Type) (gen : Z -> P -> P * nat) c k p s',
  use_surrogates c = false ->
  iterates gen c k (init_population p) = Some s' ->
  it_count s' = Z.of_nat k /\ 0 <= gen_count s' /\
  popul s' = pop_at gen p (Z.to_nat (gen_count s')) /\
  fe_count s' = evals_at gen p (Z.to_nat (gen_count s')) /\
  true_evals s' = fe_count s'.
Proof.
  intros P gen c k p s' Hs E.
  pose proof (iterates_it_count gen c k _ _ E) as Hit.
  pose proof (Inv_iterates gen c _ _ _ k _ s' (Inv_init_population gen c p) E) as (A & B & C & D & _).
  rewrite Hs in *. cbn [init_population it_count] in Hit. repeat split; auto; lia.
Qed.
Print Assumptions C20_counters_initial_population.

(** C20 with surrogates: the initial surrogate evaluations are counted as real ones. *)
Theorem C20_surrogate_count_refuted : exists c (n : nat), use_surrogates c = true /\
  fe_count (init_problem c tt n) <> true_evals (init_problem c tt n).
Proof. exists (mkCfg 10 100 0 true false), 50%nat. split; [reflexivity|discriminate]. Qed.

(** C22. Snapshots: after k iterations and [end], the dictionary's entries are exactly the states
    at the starts of the iterations and the final one, each looked up by its generation count
    and holding the population of that moment. *)
Theorem C22_snapshots : forall (P : Type) (gen : Z -> P -> P * nat) c k p n s',
  keep_archive c = true -> iterates gen c k (init_problem c p n) = Some s' ->
  (forall key i q, In (key, (i, q)) (snaps (finish c s')) <->
     exists j sj, (j <= k)%nat /\ iterates gen c j (init_problem c p n) = Some sj /\
                  key = gen_count sj /\ i = it_count sj /\ q = popul sj) /\
  (forall j sj, (j <= k)%nat -> iterates gen c j (init_problem c p n) = Some sj ->
     exists i, snap_get (gen_count sj) (snaps (finish c s')) = Some (i, popul sj)).
Proof.
  intros P gen c k p n s' Hk E.
  assert (H1 : forall key i q, In (key, (i, q)) (snaps (finish c s')) <->
     exists j sj, (j <= k)%nat /\ iterates gen c j (init_problem c p n) = Some sj /\
                  key = gen_count sj /\ i = it_count sj /\ q = popul sj).
  { intros key i q. unfold finish, snapshot. rewrite Hk. cbn [snaps In].
    rewrite (iterates_snaps gen c k (init_problem c p n) s' Hk eq_refl E). split.
    - intros [H|(j & sj & H1 & H2)].
      + injection H as <- <- <-. exists k, s'. repeat split; auto.
      + exists j, sj. split; [lia|exact H2].
    - intros (j & sj & Hj & H2 & H3 & H4 & H5). destruct (Nat.eq_dec j k) as [->|Hn].
      + rewrite E in H2. injection H2 as <-. subst. left; reflexivity.
      + right. exists j, sj. repeat split; auto. lia. }
  split; [exact H1|].
  intros j sj Hj Ej.
  assert (Hin : In (gen_count sj, (it_count sj, popul sj)) (snaps (finish c s'))).
  { apply H1. exists j, sj. repeat split; auto. }
  destruct (snap_get_In _ _ _ Hin) as ([i q] & Hget & Hin').
  exists i. rewrite Hget. f_equal. f_equal.
  pose proof (Inv_iterates gen c _ _ _ j _ sj (Inv_init_problem gen c p n) Ej) as (_ & B & _).
  apply H1 in Hin'. destruct Hin' as (j' & sj' & _ & Ej' & Hkey & _ & Hq).
  pose proof (Inv_iterates gen c _ _ _ j' _ sj' (Inv_init_problem gen c p n) Ej') as (_ & B' & _).
  rewrite Hq, B', B, Hkey. reflexivity.
Qed.

(** C23. Exactly one of problem / initial_population; default sizes. *)
Theorem C23_constructor : forall a,
  match arg_problem a, arg_initial a with
  | Some _, Some _ | None, None => construct a = Err EaError
  | None, Some _ => construct a = Ok (FromInitial 0)
  | Some m, None =>
      (forall n, arg_size a = Some n -> construct a = Ok (NewPopulation n n)) /\
      (arg_size a = None -> (1 <= m)%nat ->
        let r := match arg_lattice a with Some r => r | None => nth m [0; 3; 49; 13; 7; 5; 4; 3; 3; 3; 3]%nat 3%nat end in
        construct a = Ok (NewPopulation (binom (r + m - 1) (m - 1)) (binom (r + m - 1) (m - 1))) /\
        (0 < binom (r + m - 1) (m - 1))%nat)
  end.
Proof.
  intros [[m|] [[f sz]|] s l]; cbn; auto. split.
  - intros n ->. reflexivity.
  - intros -> Hm. split.
    + destruct l as [r|]; cbn; [reflexivity|]. rewrite default_resolution_spec by exact Hm. reflexivity.
    + apply binom_pos. lia.
Qed.

(** ** Non-vacuity *)
Example ex_run_loop :
  option_map (fun s => (it_count s, gen_count s, fe_count s, map fst (snaps s)))
    (evolve (fun g (p : list Z) => (g :: p, 10%nat)) (mkCfg 3 2 0 false true) 4
            (init_problem (mkCfg 3 2 0 false true) [] 10))
  = Some (3, 6, 70, [4; 2; 0]).
Proof. reflexivity. Qed.

Example ex_run_budget :
  option_map (fun s => (it_count s, gen_count s, fe_count s))
    (evolve (fun g (p : list Z) => (g :: p, 10%nat)) (mkCfg 3 2 25 false true) 4
            (init_problem (mkCfg 3 2 25 false true) [] 10))
  = Some (1, 2, 30).
Proof. reflexivity. Qed.

Example ex_default_sizes :
  map (fun m => construct (mkArgs (Some m) None None None)) [2; 3; 4; 5]%nat
  = map (fun n => Ok (NewPopulation n n)) [50; 105; 120; 126]%nat.
Proof. vm_compute. reflexivity. Qed.

Print Assumptions C18_budget_overshoot_bounded.
Print Assumptions C18_exhausted_budget_stops.
Print Assumptions C18_zero_budget_is_unlimited.
Print Assumptions C18_upper_limit_refuted.
Print Assumptions C19_iterate_generations.
Print Assumptions C19_run_terminates.
Print Assumptions C20_counters.
Print Assumptions C20_surrogate_count_refuted.
Print Assumptions C22_snapshots.
Print Assumptions C23_constructor.
