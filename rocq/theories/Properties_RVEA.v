(** C27, C28: RVEA's time penalty. *)
From Verif Require Import Base M_BaseEA P_BaseEA M_Recombination M_RVEA P_RVEA.
From Coq Require Import Reals Lra.
Open Scope Z_scope.

(** The selections listed by [run_selections] are all of them: one per generation performed. *)
Lemma iterates_shift {P} (gen : Z -> P -> P * nat) c k s :
  iterates gen c (S k) s = match iterate gen c (enough c) s with Some s' => iterates gen c k s' | None => None end.
Proof.
  induction k as [|k IH]; [cbn [iterates]; destruct (iterate gen c (enough c) s); reflexivity|].
  cbn [iterates] in *. rewrite IH. destruct (iterate gen c (enough c) s); reflexivity.
Qed.
Theorem C27_one_selection_per_generation : forall (P : Type) (gen : Z -> P -> P * nat) c k s s',
  iterates gen c k s = Some s' ->
  gen_count s' = gen_count s + Z.of_nat (length (run_selections gen c k s)).
Proof.
  intros P gen c k. induction k as [|k IH]; intros s s' H.
  - cbn in *. injection H as <-. lia.
  - rewrite iterates_shift in H. cbn [run_selections].
    destruct (iterate_selections_char gen c s) as (m & A & B & D). rewrite A in *.
    apply IH in H. rewrite H, app_length, B, map_length, seq_length. cbn [bump_iter gen_count].
    pose proof (gens_fields gen c m (reset_gen (snapshot c s))) as (_ & E2 & _).
    rewrite E2, snapshot_gen. lia.
Qed.

(** C27, "original": the i-th selection (from 0) of a run of at most n_iterations iterations of a
    fresh EA has time penalty i / total number of generations, which lies in [0,1). *)
Theorem C27_original : forall (P : Type) (gen : Z -> P -> P * nat) c p n k i s,
  0 < n_gen_per_iter c -> Z.of_nat k <= n_iterations c ->
  nth_error (run_selections gen c k (init_problem c p n)) i = Some s ->
  time_penalty c Original s = Ok (IZR (Z.of_nat i) / IZR (n_gen_per_iter c * n_iterations c))%R /\
  (0 <= IZR (Z.of_nat i) / IZR (n_gen_per_iter c * n_iterations c) < 1)%R.
Proof.
  intros P gen c p n k i s Hg Hk H.
  assert (Hi : (i < k * Z.to_nat (n_gen_per_iter c))%nat).
  { eapply Nat.lt_le_trans; [|apply (run_selections_length gen c k (init_problem c p n))].
    apply nth_error_Some. congruence. }
  apply run_selections_gen in H. destruct H as [H _]. cbn [init_problem gen_count] in H.
  assert (Hp : 0 < n_gen_per_iter c * n_iterations c) by (apply Z.mul_pos_pos; nia).
  split.
  - cbn [time_penalty]. unfold int_div. rewrite H. destruct (Z.eqb_spec (n_gen_per_iter c * n_iterations c) 0); [lia|]. reflexivity.
  - assert (Hlt : Z.of_nat i < n_gen_per_iter c * n_iterations c) by nia.
    pose proof (IZR_div_unit (Z.of_nat i) (n_gen_per_iter c * n_iterations c) ltac:(lia) Hp) as [U _].
    split; [exact U|]. replace 1%R with (IZR (n_gen_per_iter c * n_iterations c) / IZR (n_gen_per_iter c * n_iterations c))%R.
    + apply IZR_div_lt; auto.
    + apply Rinv_r. apply IZR_lt in Hp. lra.
Qed.
Print Assumptions C27_original.

(** C27, "interactive": whatever happened before, the i-th selection of an iteration has time
    penalty i / n_gen_per_iter: 0 at the start of every iteration, growing, below 1. *)
Theorem C27_interactive : forall (P : Type) (gen : Z -> P -> P * nat) c s0 i s,
  nth_error (iterate_selections gen c s0) i = Some s ->
  time_penalty c Interactive s = Ok (IZR (Z.of_nat i) / IZR (n_gen_per_iter c))%R /\
  (0 <= IZR (Z.of_nat i) / IZR (n_gen_per_iter c) < 1)%R.
Proof.
  intros P gen c s0 i s H. apply iterate_selections_nth in H. destruct H as (H & _ & C).
  unfold continue_iteration in C. apply andb_true_iff in C. destruct C as [C _]. apply Z.ltb_lt in C.
  rewrite H in C. assert (Hp : 0 < n_gen_per_iter c) by lia. split.
  - cbn [time_penalty]. unfold int_div. rewrite H. destruct (Z.eqb_spec (n_gen_per_iter c) 0); [lia|]. reflexivity.
  - pose proof (IZR_div_unit (Z.of_nat i) (n_gen_per_iter c) ltac:(lia) Hp) as [U _]. split; [exact U|].
    replace 1%R with (IZR (n_gen_per_iter c) / IZR (n_gen_per_iter c))%R.
    + apply IZR_div_lt; auto.
    + apply Rinv_r. apply IZR_lt in Hp. lra.
Qed.

(** C27, "function_count" with a positive budget: over the whole run (any number of iterations)
    the penalties are in [0,1] and never decrease; the value is the used share of the budget. *)
Theorem C27_function_count : forall (P : Type) (gen : Z -> P -> P * nat) c p n k i j s s',
  0 < total_fe c -> (i <= j)%nat ->
  nth_error (run_selections gen c k (init_problem c p n)) i = Some s ->
  nth_error (run_selections gen c k (init_problem c p n)) j = Some s' ->
  exists t t', time_penalty c FunctionCount s = Ok t /\ time_penalty c FunctionCount s' = Ok t' /\
    (t * IZR (total_fe c) = IZR (fe_count s))%R /\ (0 <= t <= t')%R /\ (t' <= 1)%R.
Proof.
  intros P gen c p n k i j s s' Hp Hij Hi Hj.
  pose proof (run_selections_fe_mono gen c k _ i j s s' Hij Hi Hj) as Hm.
  pose proof (run_selections_fe gen c k _ s (nth_error_In _ _ Hi)) as H0. cbn [init_problem fe_count] in H0.
  apply run_selections_gen in Hj. destruct Hj as [_ C]. unfold continue_iteration in C. apply andb_true_iff in C.
  destruct C as [_ C]. unfold check_FE in C. destruct (Z.eqb_spec (total_fe c) 0); [lia|].
  destruct (Z.leb_spec (fe_count s') (total_fe c)) as [Hu|]; [|discriminate].
  exists (IZR (fe_count s) / IZR (total_fe c))%R, (IZR (fe_count s') / IZR (total_fe c))%R.
  cbn [time_penalty]. unfold int_div. destruct (Z.eqb_spec (total_fe c) 0); [lia|].
  pose proof (IZR_div_unit (fe_count s) (total_fe c) ltac:(lia) Hp) as [A _].
  pose proof (IZR_div_unit (fe_count s') (total_fe c) ltac:(lia) Hp) as [_ B].
  pose proof (IZR_div_le (fe_count s) (fe_count s') (total_fe c) Hm Hp) as D.
  pose proof (IZR_lt _ _ Hp).
  repeat split; auto. field. lra.
Qed.

(** C27: the factor used by selection. Whatever the time penalty (also a constant outside [0,1] or
    a run longer than planned), for alpha > 0 it is a number in [0, number of objectives], 0 for a
    penalty at most 0, the number of objectives for one at least 1, t^alpha times that in between,
    and it grows with the time penalty. *)
Theorem C27_partial_penalty : forall t alpha n, (0 < alpha)%R ->
  exists p, partial_penalty t alpha n = Some p /\ (0 <= p <= INR n)%R /\
    (t <= 0 -> p = 0)%R /\ (1 <= t -> p = INR n)%R /\ (0 < t < 1 -> p = Rpower t alpha * INR n)%R /\
    forall t' p', (t <= t')%R -> partial_penalty t' alpha n = Some p' -> (p <= p')%R.
Proof.
  intros t alpha n Ha. destruct (partial_penalty_form t alpha n Ha) as (p & E & [B1 B2] & Z & O & M).
  pose proof (pos_INR n). exists (p * INR n)%R. split; [exact E|].
  split; [split; [apply Rmult_le_pos; auto|rewrite <- (Rmult_1_l (INR n)) at 2; apply Rmult_le_compat_r; auto]|].
  split; [intros; rewrite Z by auto; ring|]. split; [intros; rewrite O by auto; ring|].
  split; [intros; rewrite M by auto; ring|].
  intros t' p' Ht H'. eapply partial_penalty_mono; eauto.
Qed.
Print Assumptions C27_partial_penalty.

(** "function_count" without a budget is accepted, and then every selection fails. *)
Theorem C27_function_count_without_budget_refuted : forall (P : Type) c (s : st P) interact,
  total_fe c = 0 ->
  tp_construct interact (total_fe c) TPFunctionCount = Ok FunctionCount /\
  time_penalty c FunctionCount s = Err ZeroDivisionError.
Proof. intros P c s interact H. split; [reflexivity|]. cbn. unfold int_div. rewrite H. reflexivity. Qed.

(** C28. What is rejected: exactly the strings that are not documented and the values that are
    neither float nor str - but with UnboundLocalError, not eaError; and the documented defaults. *)
Theorem C28_rejected_partial : forall interact fe a,
  match a with
  | TPOtherStr | TPOtherType => tp_construct interact fe a = Err UnboundLocalError
  | TPFloat v => tp_construct interact fe a = Ok (Const v)
  | TPOriginal => tp_construct interact fe a = Ok Original
  | TPFunctionCount => tp_construct interact fe a = Ok FunctionCount
  | TPInteractive => tp_construct interact fe a = Ok Interactive
  | TPNone => tp_construct interact fe a =
      Ok (if interact then Interactive else if 0 <? fe then FunctionCount else Original)
  end.
Proof. intros [] fe []; unfold tp_construct; try reflexivity. destruct (0 <? fe); reflexivity. Qed.

(** ... so floats outside [0,1] are accepted. *)
Theorem C28_out_of_range_float_accepted_refuted : exists v, ~ (0 <= v <= 1)%R /\
  forall interact fe, tp_construct interact fe (TPFloat v) = Ok (Const v).
Proof. exists 5%R. split; [lra|]. intros; reflexivity. Qed.

(** The default never picks "function_count" without a budget. *)
Theorem C28_default_function_count_has_budget : forall interact fe,
  tp_construct interact fe TPNone = Ok FunctionCount -> 0 < fe.
Proof. intros [] fe; unfold tp_construct; [discriminate|]. destruct (Z.ltb_spec 0 fe); [auto|discriminate]. Qed.

(** Non-trivial instances: a run of 3 iterations of 4 generations with 12 selections; one that the
    budget cuts after 6. *)
Example run_12 : length (run_selections (fun _ (_ : unit) => (tt, 10%nat)) (mkCfg 3 4 0 false true) 3
  (init_problem (mkCfg 3 4 0 false true) tt 20)) = 12%nat.
Proof. reflexivity. Qed.
Example run_6 : map (fun s => fe_count s) (run_selections (fun _ (_ : unit) => (tt, 10%nat)) (mkCfg 3 4 70 false true) 3
  (init_problem (mkCfg 3 4 70 false true) tt 20)) = [20; 30; 40; 50; 60; 70].
Proof. reflexivity. Qed.
