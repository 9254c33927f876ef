(** C130, continued: the predator-prey algorithm, the budget of generations, and concrete cases. *)
From Coq Require Import Reals QArith.
From Verif Require Import Base M_PPGA P_PPGA P_PPGA2 P_PPGA3 Properties_PPGA M_Crash.
From Verif Require Import M_Population Spec_Population M_Archive M_Run Spec_Run P_Run P_Run2 Spec_RunSel Spec_Crash Properties_Run Properties_RunSel Properties_Crash Pareto P_Crash3.
Open Scope nat_scope.
(** C130. PPGA: when the evaluation of the offspring raises, the population and the counters are those of before the generation, but the offspring that found a cell stay on the lattice:
    one prey more than individuals for each of them, labelled with numbers no individual has. The lattice agrees with the population again only if no offspring had been placed. *)
Theorem C130_ppga_refuted : forall {A} (fitness : A -> list Q) nds mate c r s (pop : list A) gen fe s1 pairs,
  (forall m, 2 <= length (fitness m)) -> sensible c -> reachable fitness nds mate c (s, pop, gen, fe) -> in_shape s c r -> move_prey (gd_prey r) s = (s1, Ok pairs) ->
  exists s2 placed, ppga_interrupted mate c r (s, pop, gen, fe) = Ok (s2, pop, gen, fe) /\
    (forall i, In i placed <-> i < length (mate pop pairs) /\ cells s1 (gd_place r i) = 0%Z /\ forall j, j < i -> gd_place r j <> gd_place r i) /\
    length (preys_loc s2) = length pop + length placed /\
    (forall k i, nth_error placed k = Some i -> nth_error (preys_loc s2) (length pop + k) = Some (Some (gd_place r i)) /\ cells s2 (gd_place r i) = Z.of_nat (S (length pop + k))) /\
    (consistent s2 pop <-> placed = []).
Proof.
  intros A fitness nds mate c r s pop gen fe s1 pairs objs cok H (D1 & D2) E. pose proof (reachable_inv fitness nds mate c objs cok _ H) as (W & Al & P). cbn [fst snd] in *.
  destruct cok as (K1 & K2 & K3). destruct (move_prey_spec _ _ _ _ W E) as (W1 & Fr & M).
  assert (Al1 : alive s1 pop) by (eapply alive_frame; eauto). destruct Al1 as (L1 & _).
  assert (B1 : forall i, fst (gd_place r i) < size_y s1 /\ snd (gd_place r i) < size_x s1). { destruct Fr as (F1 & F2 & _). intros i. specialize (D1 i). rewrite F1, F2. exact D1. }
  destruct (place_offspring (pc_attempts c) (gd_place r) (length (mate pop pairs)) s1) as [s2 placed] eqn:EP.
  destruct (C54_placed_exactly _ _ _ _ _ _ K2 W1 B1 EP) as (_ & G2 & G3 & G4 & W2).
  exists s2, placed. split. { unfold ppga_interrupted. rewrite E. cbn [bind]. rewrite EP. reflexivity. }
  split; auto. split. { rewrite G3, app_length, map_length, L1. reflexivity. }
  assert (Ph : forall k i, nth_error placed k = Some i -> nth_error (preys_loc s2) (length pop + k) = Some (Some (gd_place r i)) /\ cells s2 (gd_place r i) = Z.of_nat (S (length pop + k))).
  { intros k i Hk. assert (X : nth_error (preys_loc s2) (length pop + k) = Some (Some (gd_place r i))).
    { rewrite G3, <- L1, nth_error_app2 by lia. replace (length (preys_loc s1) + k - length (preys_loc s1)) with k by lia. apply (map_nth_error (fun i => Some (gd_place r i))). exact Hk. }
    split; auto. destruct (wf_prey _ W2 _ _ X) as (_ & X2). rewrite X2. unfold prey_label. lia. }
  split; auto. split.
  - intros [C _ _ _]. rewrite G3, app_length, map_length, L1 in C. destruct placed; auto. cbn [length] in C. lia.
  - intros ->. cbn [map] in G3. rewrite app_nil_r in G3. apply consistent_iff. split; auto. unfold alive. rewrite G3. eapply alive_frame; eauto.
Qed.
Print Assumptions C130_ppga_refuted.
(** Nine prey for six individuals; with the next draws a prey that is nobody becomes a parent (individual 6 of 0..5: IndexError in the recombination). *)
Example ex_phantoms : reachable ex_fit ref_nds ex_mate ex_cfg (ex_lat, ex_pop, 0, 6) /\ in_shape ex_lat ex_cfg ex_draws /\
  match ppga_interrupted ex_mate ex_cfg ex_draws (ex_lat, ex_pop, 0, 6) with
  | Ok (s2, pop2, gen2, fe2) => pop2 = ex_pop /\ length (preys_loc s2) = 10 /\
      match snd (move_prey (gd_prey ex_draws) s2) with Ok pairs => existsb (fun p => Nat.leb 6 (fst p) || Nat.leb 6 (snd p)) pairs = true | Err _ => False end
  | Err _ => False end.
Proof. split; [apply ex_reachable|]. split; [apply ex_reachable|]. vm_compute. split; [reflexivity|]. split; reflexivity. Qed.

(** ** How many generations *)
Definition iterates (ks : list call) : nat := length (filter (fun k => match k with CIterate => true | CStart => false end) ks).
(** C130. However many of the iterate() calls raise, k calls make at most k times n_gen_per_iter generations and count at most k iterations, and nothing is ever counted back. *)
Theorem C130_generation_bound : forall (I O F C U : Type) (dom : F -> F -> bool) (w : world I O F C U) (c : cfg) ks s,
  (s_gen s <= s_gen (session dom w c s ks) <= s_gen s + Z.of_nat (iterates ks) * Z.max 0 (c_n_gen_per_iter c) /\
   s_iter s <= s_iter (session dom w c s ks) <= s_iter s + Z.of_nat (iterates ks))%Z.
Proof.
  intros I O F C U dom w c ks. induction ks as [|k ks IH]; intros s; [cbn; lia|]. change (session dom w c s (k :: ks)) with (session dom w c (do_call dom w c s k) ks).
  specialize (IH (do_call dom w c s k)). destruct k.
  - assert (E : s_gen (do_call dom w c s CStart) = s_gen s /\ s_iter (do_call dom w c s CStart) = s_iter s).
    { cbn [do_call]. unfold start. destruct (c_save_nd c); auto. destruct (p_ind (s_pop s)), (p_obj (s_pop s)), (p_fit (s_pop s)); auto. }
    destruct E as [E1 E2]. rewrite E1, E2 in IH. unfold iterates in *. cbn [filter]. exact IH.
  - assert (E : (s_gen s <= s_gen (do_call dom w c s CIterate) <= s_gen s + Z.max 0 (c_n_gen_per_iter c) /\ s_iter s <= s_iter (do_call dom w c s CIterate) <= s_iter s + 1)%Z).
    { cbn [do_call]. pose proof (iterate_counts dom w c s) as T. destruct (iterate dom w c s) as [s' [x|e]]; cbn [fst].
      - destruct T as [(lg & _ & _ & T1 & _ & T2 & T3 & _) _]. unfold counts_of in *. cbn [n_it n_gen n_gi] in *. lia.
      - destruct T as (l1 & l2 & _ & _ & _ & T1 & _ & T2 & _). unfold counts_of in *. cbn [n_it n_gen n_gi] in *. lia. }
    assert (L : iterates (CIterate :: ks) = S (iterates ks)) by reflexivity. rewrite L. lia.
Qed.
Print Assumptions C130_generation_bound.
(** One individual, whose one offspring replaces it; every seventh call of a collaborator is an evaluation that raises. *)
Definition flaky_world (fails : nat -> option exn) : world Z (list Q) (list Q) unit unit :=
  mkWorld (fun _ _ _ => Ok [1]%Z) (fun x => x) (fun _ _ rows => answer ob rows) (fun k _ _ => fails k) (fun _ _ _ => Ok [0]%Z) (fun _ i => Ok []) (fun _ _ => 0%Z) (fun _ => Ok []) (fun _ n => [])
    (fun _ _ => []) (fun _ _ => Ok []) (fun _ _ => Ok None) (fun _ _ => Ok tt).
Definition seventh (k : nat) : option exn := if Nat.eqb (k mod 7) 0 then Some ValueError else None.
Definition budget_cfg : cfg := mkCfg KDecomposition false false false 1 2 0.
Definition held : pop Z (list Q) (list Q) unit unit := mkPop 0 (Some [1%Z]) (Some [ob 1]) (Some [ob 1]) None None.
Lemma flaky_gen fails t g gi it fe lg ops : fails (S t) = None ->
  exists lg' ops', next_gen dominates (flaky_world fails) budget_cfg (mkSt held None g gi it fe [] t lg ops) = (mkSt held None (g + 1) (gi + 1) it (fe + 1) [] (S (S (S t))) lg' ops', Ok tt).
Proof.
  intros H. eexists. eexists. change (next_gen dominates (flaky_world fails) budget_cfg) with (dec_gen dominates (flaky_world fails) budget_cfg). unfold dec_gen. rewrite andthen_ask. cbn [flaky_world w_mate].
  rewrite andthen_eq. unfold do_add. cbn [flaky_world w_fails tick s_clock]. rewrite H. unfold take_results. cbn -[ob dominates Z.add]. reflexivity.
Qed.
Lemma flaky_raise fails t g gi it fe lg ops e : fails (S t) = Some e ->
  next_gen dominates (flaky_world fails) budget_cfg (mkSt held None g gi it fe [] t lg ops) = (mkSt held None g gi it fe [] (S (S t)) lg ops, Err e).
Proof.
  intros H. change (next_gen dominates (flaky_world fails) budget_cfg) with (dec_gen dominates (flaky_world fails) budget_cfg). unfold dec_gen. rewrite andthen_ask. cbn [flaky_world w_mate].
  rewrite andthen_eq. unfold do_add. cbn [flaky_world w_fails tick s_clock]. rewrite H. reflexivity.
Qed.
Lemma flaky_loop_S fails f (s : st Z (list Q) (list Q) unit unit) : (s_gen_in_iter s <? 2)%Z = true -> gen_loop dominates (flaky_world fails) budget_cfg (S f) s =
  match next_gen dominates (flaky_world fails) budget_cfg s with (s', Ok _) => gen_loop dominates (flaky_world fails) budget_cfg f s' | (s', Err e) => (s', Err e) end.
Proof. intros H. cbn [gen_loop]. unfold continue_iteration, check_FE. cbn [budget_cfg c_n_gen_per_iter c_total_fe]. rewrite H. reflexivity. Qed.
Lemma flaky_loop fails t g it fe lg ops : fails (S t) = None -> fails (S (S (S (S t)))) = Some ValueError ->
  exists lg' ops', gen_loop dominates (flaky_world fails) budget_cfg 3 (mkSt held None g 0 it fe [] t lg ops) = (mkSt held None (g + 1) 1 it (fe + 1) [] (S (S (S (S (S t))))) lg' ops', Err ValueError).
Proof.
  intros H1 H2. destruct (flaky_gen fails t g 0%Z it fe lg ops H1) as (lg' & ops' & E). exists lg', ops'. rewrite flaky_loop_S by reflexivity. rewrite E. change (0 + 1)%Z with 1%Z.
  rewrite flaky_loop_S by reflexivity. rewrite (flaky_raise fails _ _ _ _ _ _ _ ValueError H2). reflexivity.
Qed.
Lemma flaky_before fails t g gi it fe lg ops : iterate dominates (flaky_world fails) budget_cfg (mkSt held None g gi it fe [] t lg ops) =
  match gen_loop dominates (flaky_world fails) budget_cfg 3 (mkSt held None g 0 it fe [] (S (S t)) lg ops) with (s', Ok _) => (bump_iter s', Ok tt) | (s', Err e) => (s', Err e) end.
Proof.
  unfold iterate. rewrite andthen_ask. cbn [flaky_world w_prefs]. rewrite andthen_eq. cbn [upd]. rewrite andthen_eq. cbn [upd budget_cfg c_keep_archive]. rewrite andthen_ask. cbn [flaky_world w_adapt].
  rewrite andthen_eq. unfold upd at 1. rewrite andthen_eq. reflexivity.
Qed.
Lemma flaky_step fails t g gi fe lg ops : fails (S (S (S t))) = None -> fails (S (S (S (S (S (S t)))))) = Some ValueError ->
  exists lg' ops' e, iterate dominates (flaky_world fails) budget_cfg (mkSt held None g gi 0 fe [] t lg ops) = (mkSt held None (g + 1) 1 0 (fe + 1) [] (S (S (S (S (S (S (S t))))))) lg' ops', Err e).
Proof.
  intros H1 H2. rewrite flaky_before. destruct (flaky_loop fails (S (S t)) g 0%Z fe lg ops H1 H2) as (lg' & ops' & E). rewrite E. exists lg', ops', ValueError. reflexivity.
Qed.
(** C130. The budget of generations (n_iterations times n_gen_per_iter, here 2) is not kept: an iterate() that raises is not counted as an iteration although its generations are. Here
    every call makes one generation and raises; after any number n of them there have been n generations, no iteration, and the run is to be continued. *)
Theorem C130_generation_budget_refuted : exists (w : world Z (list Q) (list Q) unit unit) (c : cfg), honest 0 false w /\ (c_n_iterations c * c_n_gen_per_iter c = 2)%Z /\
  forall n, let s := session dominates w c (on_problem w c 0 [1]%Z) (repeat CIterate n) in s_gen s = Z.of_nat n /\ s_iter s = 0%Z /\ continue_evolution c s = true /\ p_ind (s_pop s) = Some [1]%Z.
Proof.
  exists (flaky_world seventh), budget_cfg. split. { intros k b rows. cbn. unfold good_results. cbn. rewrite !map_length. repeat split; auto; intros X; congruence. }
  split; [reflexivity|]. intros n.
  assert (G : forall n m gi lg ops, exists gi' lg' ops', session dominates (flaky_world seventh) budget_cfg (mkSt held None (Z.of_nat m) gi 0 (Z.of_nat m + 1) [] (7 * m + 1) lg ops) (repeat CIterate n) =
    mkSt held None (Z.of_nat (m + n)) gi' 0 (Z.of_nat (m + n) + 1) [] (7 * (m + n) + 1) lg' ops').
  { clear n. induction n as [|n IH]; intros m gi lg ops.
    - exists gi, lg, ops. rewrite Nat.add_0_r. reflexivity.
    - cbn [repeat]. assert (N1 : seventh (S (S (S (7 * m + 1)))) = None).
      { unfold seventh. replace (S (S (S (7 * m + 1)))) with (4 + m * 7) by lia. rewrite Nat.mod_add by lia. reflexivity. }
      assert (N2 : seventh (S (S (S (S (S (S (7 * m + 1))))))) = Some ValueError).
      { unfold seventh. replace (S (S (S (S (S (S (7 * m + 1))))))) with (0 + (m + 1) * 7) by lia. rewrite Nat.mod_add by lia. reflexivity. }
      destruct (flaky_step seventh (7 * m + 1) (Z.of_nat m) gi (Z.of_nat m + 1) lg ops N1 N2) as (lg1 & ops1 & e & E).
      unfold session in *. cbn [fold_left do_call]. rewrite E. cbn [fst]. destruct (IH (S m) 1%Z lg1 ops1) as (gi' & lg' & ops' & X). exists gi', lg', ops'.
      replace (m + S n) with (S m + n) by lia. rewrite <- X. f_equal. f_equal; lia. }
  assert (E0 : exists lg ops, on_problem (flaky_world seventh) budget_cfg 0 [1]%Z = mkSt held None (Z.of_nat 0) 0 0 (Z.of_nat 0 + 1) [] (7 * 0 + 1) lg ops) by (eexists; eexists; reflexivity).
  destruct E0 as (lg & ops & E0). rewrite E0. destruct (G n 0 0%Z lg ops) as (gi' & lg' & ops' & X). cbv zeta. rewrite X. cbn [s_gen s_iter s_pop Nat.add]. repeat split; auto.
Qed.
Print Assumptions C130_generation_budget_refuted.

(** ** The hypotheses of C130 are met, with evaluations that raise *)
Definition failing {F C : Type} (w : world Z (list Q) F C unit) (fails : nat -> option exn) : world Z (list Q) F C unit :=
  mkWorld (w_mate w) (w_repair w) (w_eval w) (fun k _ _ => fails k) (w_select w) (w_parents w) (w_worst w) (w_prey w) (w_placed w) (w_cull w) (w_killed w) (w_prefs w) (w_adapt w).
Lemma failing_ok {F C : Type} (w : world Z (list Q) F C unit) fails : honest 0 false w -> smooth w -> honest 0 false (failing w fails) /\ steady (failing w fails).
Proof. intros H [[S1 S2 S3] _]. split; [exact H|]. constructor; [exact S1|exact S2|exact S3]. Qed.
(** NSGA-III and RVEA, every second evaluation (here: every second call) raising up to call 100. *)
Definition at_first (k : nat) : option exn := if Nat.even k && Nat.leb k 100 then Some ValueError else None.
Example ex_nsga3_failing : let w := failing (basic_world (fun x => [IZR x; - IZR x]%R) nsga3_select (fun _ => Ok [])) at_first in
  honest 0 false w /\ steady w /\ by_nsga3 2 w /\ calm_from w 101 /\ ~ calm_from w 100.
Proof.
  destruct ex_nsga3 as (A & B & D & _). cbv zeta. destruct (failing_ok _ at_first A B) as [X Y]. split; [exact X|]. split; [exact Y|]. split; [exact D|]. split.
  - intros k b rows Hk. cbn. unfold at_first. destruct (Nat.leb_spec k 100); [lia|]. rewrite andb_false_r. reflexivity.
  - intros H. specialize (H 100 false [] (le_n _)). discriminate H.
Qed.
Example ex_rvea_failing : let w := failing (basic_world (fun x => [IZR x; - IZR x]%R) apd_pick (fun _ => Ok [])) at_first in
  honest 0 false w /\ steady w /\ by_apd 2 2 w /\ fitness_ok (fun f => length f = 2) w.
Proof. destruct ex_rvea as (A & B & D & E). cbv zeta. destruct (failing_ok _ at_first A B) as [X Y]. split; [exact X|]. split; [exact Y|]. split; [exact D|exact E]. Qed.
(** MOEA/D: a third subproblem whose evaluation raises, and the retry. *)
Definition moead_failing := failing ex_moead_world (fun k => if Nat.eqb k 13 then Some ValueError else None).
Example ex_moead_failing : honest 0 false moead_failing /\ steady moead_failing /\ by_moead 3 (length [1; 5; 4]%Z) moead_failing.
Proof. destruct ex_moead as (A & B & D). destruct (failing_ok ex_moead_world (fun k => if Nat.eqb k 13 then Some ValueError else None) A B) as [X Y]. split; [exact X|]. split; [exact Y|exact D]. Qed.
Definition seen {F C U : Type} (s : st Z (list Q) F C U) := (p_ind (s_pop s), s_fe s, s_gen s, s_iter s, map (fun e => snd (fst e)) (s_log s)).
Example ex_moead_failed : let c := mkCfg (KMoead 3 false) false true false 2 2 0 in let s := basic_start Pareto.dominates moead_failing (KMoead 3 false) in
  seen (session Pareto.dominates moead_failing c s [CIterate]) = (Some [1; 2; 2], 5, 0, 0, [[1; 5; 4]; [2]; [2]])%Z /\
  seen (session Pareto.dominates moead_failing c s [CIterate; CIterate]) = (Some [1; 2; 2], 11, 2, 1, [[1; 5; 4]; [2]; [2]; [2]; [2]; [2]; [2]; [2]; [2]])%Z.
Proof. vm_compute. split; reflexivity. Qed.
(** Indicator-based and tournament: the second evaluation raises; the first goes on, the second has lost its population. *)
Definition tour_failing k0 := failing ex_tour_world (fun k => if Nat.eqb k k0 then Some ValueError else None).
Example ex_indicator_failing : honest 0 false (tour_failing 6) /\ steady (tour_failing 6) /\ by_tournament 1 (tour_failing 6).
Proof. destruct ex_tour as (A & B & D & _). destruct (failing_ok ex_tour_world (fun k => if Nat.eqb k 6 then Some ValueError else None) A B) as [X Y]. split; [exact X|]. split; [exact Y|exact D]. Qed.
Example ex_tournament_lost : let c := mkCfg KTournament false true false 2 2 0 in let s := basic_start Pareto.dominates (tour_failing 5) KTournament in
  seen s = (Some [1; 5; 4], 3, 0, 0, [[1; 5; 4]])%Z /\ fst (fst (fst (fst (seen (session Pareto.dominates (tour_failing 5) c s [CIterate]))))) = None /\
  snd (iterate Pareto.dominates (tour_failing 5) c (session Pareto.dominates (tour_failing 5) c s [CIterate])) = Err TypeError.
Proof. vm_compute. split; [reflexivity|]. split; reflexivity. Qed.
(** The same course: the decomposition algorithm with the seventh calls raising, two retries: what two undisturbed generations give. *)
Definition flaky_ref := failing (ref_world ob plain (fun _ => None)) seventh.
Example ex_same_course : timeless flaky_ref /\ (forall k p g, w_prefs flaky_ref k p <> Ok (Some g)) /\
  seen (session dominates flaky_ref budget_cfg (ref_on ob KDecomposition) [CIterate; CIterate]) = (Some [1; 10], 8, 2, 0, [[1; 5; 4]; [4; 8; 7]; [4; 10]])%Z.
Proof. split; [repeat split|]. split; [intros k p g; discriminate|]. vm_compute. reflexivity. Qed.
Example ex_generations : forall j, exists s', generations dominates (never_raising (flaky_world seventh)) budget_cfg j (on_problem (flaky_world seventh) budget_cfg 0 [1]%Z) s'.
Proof.
  intros j. assert (G : exists g gi it fe t lg ops, generations dominates (flaky_world (fun _ => None)) budget_cfg j (on_problem (flaky_world seventh) budget_cfg 0 [1]%Z) (mkSt held None g gi it fe [] t lg ops)).
  { induction j as [|j (g & gi & it & fe & t & lg & ops & IH)].
    - do 7 eexists. apply no_generation.
    - destruct (flaky_gen (fun _ => None) t g gi it fe lg ops eq_refl) as (lg' & ops' & E). do 7 eexists. eapply one_more; [exact IH|exact E]. }
  destruct G as (g & gi & it & fe & t & lg & ops & G). eexists. exact G.
Qed.
