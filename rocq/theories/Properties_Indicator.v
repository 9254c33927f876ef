(** C40-C42, C73, C74: tournament selection and the indicator based EAs. *)
From Verif Require Import Base RVec Spec_Indicator M_Indicator P_Indicator.
From Coq Require Import Reals Lra.
Open Scope R_scope.

(** C40. One parent per individual; the i-th is the smallest-fitness contestant of the tournament drawn for it. *)
Theorem C40_best_of_each_tournament (tournament_size : nat) (fitness : list R) (draws : nat -> list nat) (parents : list nat) :
  tournament_do tournament_size fitness draws = Ok parents ->
  length parents = length fitness /\
  forall i w, nth_error parents i = Some w ->
    exists contestants, contestants = draws (2 * i)%nat /\ In w contestants /\
      forall j, In j contestants -> nth w fitness 0 <= nth j fitness 0.
Proof.
  intros H. destruct (tournaments_ok _ _ _ _ _ _ H) as [L S]. split; auto.
  intros i w Hw. exists (draws (2 * i)%nat). split; auto. apply (S i w Hw).
Qed.

(** C40. It works as long as the tournament is smaller than the population ... *)
Theorem C40_total (tournament_size : nat) (fitness : list R) (draws : nat -> list nat) :
  (0 < tournament_size)%nat -> (tournament_size < length fitness)%nat ->
  (forall n, valid_draw (length fitness - 1) tournament_size (draws n)) ->
  exists parents, tournament_do tournament_size fitness draws = Ok parents /\ forall w, In w parents -> (w < length fitness)%nat.
Proof.
  intros H1 H2 H3. destruct (tournaments_total tournament_size fitness draws (length fitness)) with (n := 0%nat) as [r Hr]; auto; try lia.
  { intros n. apply H3. }
  exists r. split; auto. intros w Hw. destruct (In_nth_error _ _ Hw) as [i Hi].
  destruct (tournaments_ok _ _ _ _ _ _ Hr) as [_ S]. destruct (S i w Hi) as [Hin _]. destruct (H3 (0 + 2 * i)%nat) as (_ & _ & B).
  specialize (B w Hin). lia.
Qed.

(** ... but the last individual never takes part, whatever its fitness, and a tournament of everybody is refused. *)
Theorem C40_last_individual_never_chosen_refuted (tournament_size : nat) (fitness : list R) (draws : nat -> list nat) (parents : list nat) :
  (forall n, valid_draw (length fitness - 1) tournament_size (draws n)) ->
  tournament_do tournament_size fitness draws = Ok parents -> ~ In (length fitness - 1)%nat parents.
Proof.
  intros H3 Hr Hw. destruct (In_nth_error _ _ Hw) as [i Hi].
  destruct (tournaments_ok _ _ _ _ _ _ Hr) as [_ S]. destruct (S i _ Hi) as [Hin _]. destruct (H3 (0 + 2 * i)%nat) as (_ & _ & B).
  specialize (B _ Hin). lia.
Qed.

Theorem C40_full_tournament_refuted (fitness : list R) (draws : nat -> list nat) :
  fitness <> [] -> tournament_do (length fitness) fitness draws = Err ValueError.
Proof.
  intros H. unfold tournament_do. destruct fitness as [|x t]; [congruence|].
  cbn [length tournaments]. unfold tour_select.
  replace (Nat.ltb (length (x :: t) - 1) (S (length t))) with true by (symmetry; apply Nat.ltb_lt; simpl; lia).
  reflexivity.
Qed.

(** C41, C42. Environmental selection ends, with min(pop_size, size) members in their old order; every removal takes a member
    with the smallest fitness computed from scratch among those present, and the fitness values left are the from-scratch ones. *)
Theorem C41_environmental_selection {M : Type} (ind : M -> M -> R) (kappa : R) (pop_size : nat) (pop : list M) :
  exists pop' fit',
    env_loop ind kappa (length pop) pop_size pop (fitness_assignment ind kappa pop) = Some (Ok (pop', fit')) /\
    trims ind kappa pop_size pop pop' /\ subseq pop' pop /\ length pop' = Nat.min pop_size (length pop).
Proof.
  destruct (env_loop_spec ind kappa (length pop) pop_size pop _ (assignment_exact ind kappa pop)) as (pop' & fit' & H1 & H2 & H3); [lia|].
  exists pop', fit'. split; auto. split; auto. destruct (trims_size ind kappa _ _ _ H2). auto.
Qed.

(** C42. Exactness after any number of removals: the loop started from exact values ends with exact values, and so does the
    first assignment. *)
Theorem C42_assignment_exact {M : Type} (ind : M -> M -> R) (kappa : R) (pop : list M) :
  exact ind kappa pop (fitness_assignment ind kappa pop).
Proof. exact (assignment_exact ind kappa pop). Qed.

Theorem C42_each_removal_exact {M : Type} (ind : M -> M -> R) (kappa : R) (pop : list M) (fit : list R) (k : nat) (w : M) :
  exact ind kappa pop fit -> nth_error pop k = Some w ->
  exact ind kappa (without k pop) (delete_row k (env_update ind kappa pop fit k w)).
Proof. exact (step_exact ind kappa pop fit k w). Qed.

Theorem C42_loop_exact {M : Type} (ind : M -> M -> R) (kappa : R) (fuel pop_size : nat) (pop pop' : list M) (fit fit' : list R) :
  exact ind kappa pop fit -> (length pop <= fuel)%nat ->
  env_loop ind kappa fuel pop_size pop fit = Some (Ok (pop', fit')) -> exact ind kappa pop' fit'.
Proof.
  intros H1 H2 H3. destruct (env_loop_spec ind kappa fuel pop_size pop fit H1) as (p & f & R1 & R2 & R3); [lia|].
  rewrite H3 in R1. injection R1 as -> ->. auto.
Qed.

(** C41. A whole generation: the trimmed population followed by the offspring, which are counted. *)
Theorem C41_generation {M : Type} (ind : M -> M -> R) (kappa : R) (mate : list nat -> list M -> list M)
  (tournament_size pop_size : nat) (draws : nat -> list nat) (pop pop' : list M) (evals : nat) :
  ind_next_gen ind kappa mate tournament_size pop_size draws pop = Ok (pop', evals) ->
  exists kept off, pop' = kept ++ off /\ evals = length off /\ trims ind kappa pop_size pop kept /\
    length kept = Nat.min pop_size (length pop).
Proof.
  unfold ind_next_gen.
  destruct (env_loop_spec ind kappa (length pop) pop_size pop _ (assignment_exact ind kappa pop)) as (p & f & H1 & H2 & H3); [lia|].
  rewrite H1; cbn [bind snd fst]. destruct (tournament_do tournament_size f draws) as [ch|e]; cbn [bind]; [|discriminate].
  intros H; injection H as <- <-. exists p, (mate ch p). split; auto. split; auto. split; auto.
  apply (trims_size ind kappa _ _ _ H2).
Qed.

(** C73. For any relation [better] the indicator respects (a better than b: a's indicator against anybody is at least b's, and
    a's against b exceeds b's against a), nothing better than somebody still present is ever removed. *)
Inductive removes {M : Type} (ind : M -> M -> R) (kappa : R) (pop_size : nat) : list M -> M -> list M -> Prop :=
| removes_now pop k w : (pop_size < length pop)%nat -> nth_error pop k = Some w ->
    argmin (fitness_assignment ind kappa pop) = Some k -> removes ind kappa pop_size pop w (delete_row k pop).

Lemma rsum_le {A} (f g : A -> R) l : (forall x, In x l -> f x <= g x) -> rsum (map f l) <= rsum (map g l).
Proof.
  induction l as [|x t IH]; intros H; simpl; [lra|].
  pose proof (H x (or_introl eq_refl)). pose proof (IH (fun y Hy => H y (or_intror Hy))). lra.
Qed.

Theorem C73_removed_is_not_better {M : Type} (ind : M -> M -> R) (kappa : R) (better : M -> M -> Prop) (pop_size : nat) (pop pop' : list M) (w : M) :
  0 < kappa ->
  (forall a b, better a b -> (forall c, ind b c <= ind a c) /\ ind b a < ind a b) ->
  removes ind kappa pop_size pop w pop' ->
  forall b, In b pop' -> ~ better w b.
Proof.
  intros Hk Hb [pop0 k w0 H1 H2 H3] b Hin Hw. clear pop w pop'.
  destruct (In_nth_error _ _ Hin) as [i0 Hi0].
  change (delete_row k pop0) with (without k pop0) in Hi0. rewrite nth_error_without in Hi0.
  set (i := if Nat.ltb i0 k then i0 else S i0) in *.
  assert (Hn : i <> k) by (unfold i; destruct (Nat.ltb_spec i0 k); lia).
  destruct (assignment_exact ind kappa pop0) as [L E].
  destruct (argmin_spec _ _ H3) as (v & V1 & V2 & _). rewrite (E _ _ H2) in V1. injection V1 as <-.
  specialize (V2 _ (nth_error_In _ _ (E _ _ Hi0))).
  destruct (Hb _ _ Hw) as [B1 B2]. unfold loss in V2.
  rewrite (rsum_without _ _ _ _ H2), (rsum_without _ _ _ _ Hi0) in V2.
  (* compare the two sums over pop minus {w, b} *)
  assert (Hik : exists k', nth_error (without i pop0) k' = Some w0).
  { exists (if Nat.ltb k i then k else (k - 1)%nat). rewrite nth_error_without.
    destruct (Nat.ltb_spec k i) as [Hl|Hl].
    - replace (Nat.ltb k i) with true by (symmetry; apply Nat.ltb_lt; auto). auto.
    - replace (Nat.ltb (k - 1) i) with false by (symmetry; apply Nat.ltb_ge; lia). replace (S (k - 1)) with k by lia. auto. }
  destruct Hik as [k' Hk'].
  pose proof (rsum_without (fun x => exp (- ind w0 x / kappa)) _ _ _ Hk') as S1.
  pose proof (rsum_without (fun x => exp (- ind b x / kappa)) _ _ _ Hk') as S2.
  rewrite (rsum_without _ _ _ _ Hi0) in S1. rewrite (rsum_without _ _ _ _ Hi0) in S2.
  assert (Hle : rsum (map (fun x => exp (- ind w0 x / kappa)) (without k' (without i pop0))) <=
                rsum (map (fun x => exp (- ind b x / kappa)) (without k' (without i pop0)))).
  { apply rsum_le. intros x _. destruct (Rle_lt_or_eq_dec _ _ (B1 x)) as [Hl|He].
    - left. apply exp_increasing. unfold Rdiv. apply Rmult_lt_compat_r; [apply Rinv_0_lt_compat; auto|lra].
    - rewrite He. lra. }
  assert (Hlt : exp (- ind w0 b / kappa) < exp (- ind b w0 / kappa)).
  { apply exp_increasing. unfold Rdiv. apply Rmult_lt_compat_r; [apply Rinv_0_lt_compat; auto|lra]. }
  lra.
Qed.

(** C74 (false of the code). Environmental selection removes the smallest fitness, so large is good; the tournament that
    chooses parents prefers the smallest. The member about to be removed next wins every tournament it takes part in. *)
Theorem C74_mating_prefers_the_worst_refuted {M : Type} (ind : M -> M -> R) (kappa : R) (pop : list M) (tournament_size worst : nat) (contestants : list nat) (winner : nat) :
  (forall i, In i contestants -> (i < length pop)%nat) -> In worst contestants ->
  (forall mw i m, nth_error pop worst = Some mw -> i <> worst -> nth_error pop i = Some m ->
     loss ind kappa mw (without worst pop) < loss ind kappa m (without i pop)) ->
  tour_select tournament_size (fitness_assignment ind kappa pop) contestants = Ok winner -> winner = worst.
Proof.
  intros Hr Hin Hlt H. destruct (tour_select_ok _ _ _ _ H) as [H1 H2].
  destruct (Nat.eq_dec winner worst) as [|Hn]; auto. exfalso.
  destruct (nth_error pop worst) as [mw|] eqn:Ew; [|apply nth_error_None in Ew; specialize (Hr _ Hin); lia].
  destruct (nth_error pop winner) as [m|] eqn:Em; [|apply nth_error_None in Em; specialize (Hr _ H1); lia].
  destruct (assignment_exact ind kappa pop) as [_ E].
  specialize (H2 _ Hin). rewrite (nth_error_nth _ _ _ (E _ _ Em)), (nth_error_nth _ _ _ (E _ _ Ew)) in H2.
  specialize (Hlt mw winner m eq_refl Hn Em). lra.
Qed.

(* Print Assumptions: the standard library's real-number axioms. *)
Print Assumptions C40_best_of_each_tournament.
Print Assumptions C41_environmental_selection.
Print Assumptions C41_generation.
Print Assumptions C42_loop_exact.
Print Assumptions C73_removed_is_not_better.
Print Assumptions C74_mating_prefers_the_worst_refuted.

(** A population of three numbers, indicator max(0, b - a): smaller is better. *)
Definition ex_ind (a b : R) : R := Rmax 0 (b - a).
Example ex_respects : forall a b : R, a < b -> (forall c, ex_ind b c <= ex_ind a c) /\ ex_ind b a < ex_ind a b.
Proof.
  intros a b H. unfold ex_ind. split.
  - intros c. unfold Rmax. destruct (Rle_dec 0 (c - b)), (Rle_dec 0 (c - a)); lra.
  - unfold Rmax. destruct (Rle_dec 0 (a - b)), (Rle_dec 0 (b - a)); lra.
Qed.
(** Trimming 1, 2 to one member: 2 has the smaller fitness and goes. *)
Example ex_trim : trims ex_ind 1 1 [1; 2] [1].
Proof.
  apply (trims_step ex_ind 1 1 [1;2] 1%nat 2); [simpl; lia|reflexivity| |].
  - intros [|[|i]] m H; simpl in H; try (destruct i; discriminate); injection H as <-; cbn; [|lra].
    unfold loss; cbn [rsum map without firstn skipn app]. unfold ex_ind, Rmax.
    destruct (Rle_dec 0 (1 - 2)); [lra|]. destruct (Rle_dec 0 (2 - 1)); [|lra].
    assert (exp (- (2 - 1) / 1) < exp (- 0 / 1)) by (apply exp_increasing; lra). lra.
  - apply trims_done. simpl; lia.
Qed.
Example ex_draws : (forall n : nat, valid_draw (length [3; 1; 2] - 1) 2 ((fun _ => [0; 1]%nat) n)) /\
  exists parents, tournament_do 2 [3; 1; 2] (fun _ => [0; 1]%nat) = Ok parents /\ ~ In 2%nat parents.
Proof.
  assert (V : forall n : nat, valid_draw (length [3; 1; 2] - 1) 2 ((fun _ => [0; 1]%nat) n)).
  { intros _. split; [reflexivity|]. split.
    - constructor; [intros [H|[]]; discriminate|]. constructor; [intros []|constructor].
    - intros i [<-|[<-|[]]]; simpl; lia. }
  split; auto. destruct (C40_total 2 [3;1;2] (fun _ => [0;1]%nat)) as [r [Hr _]]; auto; try (simpl; lia).
  exists r. split; auto. exact (C40_last_individual_never_chosen_refuted 2 _ _ _ V Hr).
Qed.
(** C74's hypothesis holds for the population 1, 2 (the second is the worse). *)
Example ex_worst : forall mw i m, nth_error [1; 2] 1 = Some mw -> i <> 1%nat -> nth_error [1; 2] i = Some m ->
  loss ex_ind 1 mw (without 1 [1; 2]) < loss ex_ind 1 m (without i [1; 2]).
Proof.
  intros mw [|[|i]] m H Hn Hm; simpl in H, Hm; try congruence; [|destruct i; discriminate].
  injection H as <-; injection Hm as <-. unfold loss; cbn [rsum map without firstn skipn app]. unfold ex_ind, Rmax.
  destruct (Rle_dec 0 (1 - 2)); [lra|]. destruct (Rle_dec 0 (2 - 1)); [|lra].
  assert (exp (- (2 - 1) / 1) < exp (- 0 / 1)) by (apply exp_increasing; lra). lra.
Qed.
