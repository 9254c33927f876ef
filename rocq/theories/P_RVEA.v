From Verif Require Import Base M_BaseEA P_BaseEA M_Recombination M_RVEA.
From Coq Require Import Reals Lra.
Open Scope Z_scope.

Section P.
Context {P : Type} (gen : Z -> P -> P * nat) (c : cfg).
Notation st := (st P).

Lemma loop_selections_char fuel (s : st) : (Z.to_nat (n_gen_per_iter c - gen_in_iter s) < fuel)%nat ->
  exists k, gen_loop gen c fuel s = Some (gens gen c k s) /\
    loop_selections gen c fuel s = map (fun j => gens gen c j s) (seq 0 k) /\
    (forall j, (j < k)%nat -> continue_iteration c (gens gen c j s) = true).
Proof.
  revert s; induction fuel as [|f IH]; intros s Hf; [lia|]. cbn [gen_loop loop_selections].
  destruct (continue_iteration c s) eqn:E.
  - pose proof E as E0. unfold continue_iteration in E. apply andb_true_iff in E. destruct E as [E1 _].
    apply Z.ltb_lt in E1.
    pose proof (gens_fields gen c 1 s) as (G & _). cbn [gens] in G.
    destruct (IH (next_gen gen c s)) as (k & A & B & D). { rewrite G. lia. }
    exists (S k). rewrite gens_S. split; [exact A|]. split.
    + rewrite B. cbn [seq map gens]. f_equal. rewrite <- seq_shift, map_map. apply map_ext. intros j.
      rewrite gens_S. reflexivity.
    + intros [|j] Hj; [exact E0|]. rewrite gens_S. apply D. lia.
  - exists 0%nat. split; [reflexivity|]. split; [reflexivity|]. intros; lia.
Qed.

Lemma iterate_selections_char (s : st) :
  exists k, iterate gen c (enough c) s = Some (bump_iter (gens gen c k (reset_gen (snapshot c s)))) /\
    iterate_selections gen c s = map (fun j => gens gen c j (reset_gen (snapshot c s))) (seq 0 k) /\
    (forall j, (j < k)%nat -> continue_iteration c (gens gen c j (reset_gen (snapshot c s))) = true).
Proof.
  unfold iterate, iterate_selections.
  destruct (loop_selections_char (enough c) (reset_gen (snapshot c s))) as (k & A & B & D).
  { unfold enough; cbn [reset_gen gen_in_iter]. rewrite Z.sub_0_r. lia. }
  exists k. rewrite A. auto.
Qed.

Lemma snapshot_gen (s : st) : gen_count (reset_gen (snapshot c s)) = gen_count s.
Proof. unfold snapshot. destruct (keep_archive c); reflexivity. Qed.

Lemma iterate_selections_nth (s : st) j x :
  nth_error (iterate_selections gen c s) j = Some x ->
  gen_in_iter x = Z.of_nat j /\ gen_count x = gen_count s + Z.of_nat j /\ continue_iteration c x = true.
Proof.
  destruct (iterate_selections_char s) as (k & A & B & D). rewrite B. intros H.
  assert (Hj : (j < k)%nat).
  { rewrite <- (seq_length k 0), <- (map_length (fun j => gens gen c j (reset_gen (snapshot c s)))).
    apply nth_error_Some. congruence. }
  rewrite nth_error_map in H. rewrite (nth_error_nth' _ 0%nat) in H by (rewrite seq_length; auto).
  rewrite seq_nth in H by auto. simpl in H. injection H as <-.
  pose proof (gens_fields gen c j (reset_gen (snapshot c s))) as (E1 & E2 & _).
  rewrite E1, E2, snapshot_gen. cbn [reset_gen gen_in_iter]. repeat split; try lia. apply D; auto.
Qed.

Lemma run_selections_gen k (s : st) i x :
  nth_error (run_selections gen c k s) i = Some x ->
  gen_count x = gen_count s + Z.of_nat i /\ continue_iteration c x = true.
Proof.
  revert s i; induction k as [|k IH]; intros s i; cbn [run_selections]; [destruct i; discriminate|].
  destruct (iterate_selections_char s) as (m & A & B & D). rewrite A.
  assert (Hl : length (iterate_selections gen c s) = m) by (rewrite B, map_length, seq_length; auto).
  destruct (lt_dec i m) as [Hi|Hi].
  - rewrite nth_error_app1 by lia. intros H. apply iterate_selections_nth in H. tauto.
  - rewrite nth_error_app2 by lia. intros H. apply IH in H. destruct H as [H1 H2]. split; [|exact H2].
    rewrite H1, Hl. cbn [bump_iter gen_count].
    pose proof (gens_fields gen c m (reset_gen (snapshot c s))) as (_ & E2 & _).
    rewrite E2, snapshot_gen. lia.
Qed.

Lemma run_selections_length k (s : st) : (length (run_selections gen c k s) <= k * Z.to_nat (n_gen_per_iter c))%nat.
Proof.
  revert s; induction k as [|k IH]; intros s; cbn [run_selections]; [simpl; lia|].
  destruct (iterate_selections_char s) as (m & A & B & D). rewrite A, app_length.
  specialize (IH (bump_iter (gens gen c m (reset_gen (snapshot c s))))).
  rewrite B, map_length, seq_length.
  assert (Hm : (m <= Z.to_nat (n_gen_per_iter c))%nat).
  { destruct m as [|m]; [lia|]. specialize (D m ltac:(lia)). unfold continue_iteration in D.
    apply andb_true_iff in D. destruct D as [D _]. apply Z.ltb_lt in D.
    pose proof (gens_fields gen c m (reset_gen (snapshot c s))) as (E1 & _). rewrite E1 in D.
    cbn [reset_gen gen_in_iter] in D. lia. }
  simpl. lia.
Qed.

Lemma next_gen_fe (s : st) : fe_count s <= fe_count (next_gen gen c s).
Proof. unfold next_gen. destruct (gen _ _) as [p n]. cbn. destruct (use_surrogates c); lia. Qed.
Lemma gens_fe_mono j j' (s : st) : (j <= j')%nat -> fe_count (gens gen c j s) <= fe_count (gens gen c j' s).
Proof.
  induction 1 as [|m H IH]; [lia|]. cbn [gens]. pose proof (next_gen_fe (gens gen c m s)). lia.
Qed.

Lemma run_selections_fe k (s : st) x : In x (run_selections gen c k s) -> fe_count s <= fe_count x.
Proof.
  revert s; induction k as [|k IH]; intros s; cbn [run_selections]; [intros []|].
  destruct (iterate_selections_char s) as (m & A & B & D). rewrite A, in_app_iff, B.
  assert (E0 : forall j, fe_count s <= fe_count (gens gen c j (reset_gen (snapshot c s)))).
  { intros j. pose proof (gens_fe_mono 0 j (reset_gen (snapshot c s)) ltac:(lia)) as H.
    cbn [gens] in H. rewrite snapshot_fe in H. exact H. }
  intros [H|H].
  - apply in_map_iff in H. destruct H as (j & <- & _). apply E0.
  - apply IH in H. specialize (E0 m). cbn [bump_iter fe_count] in H. lia.
Qed.

Lemma run_selections_fe_mono k (s : st) i j x y : (i <= j)%nat ->
  nth_error (run_selections gen c k s) i = Some x -> nth_error (run_selections gen c k s) j = Some y ->
  fe_count x <= fe_count y.
Proof.
  revert s i j; induction k as [|k IH]; intros s i j Hij; cbn [run_selections]; [destruct i; discriminate|].
  destruct (iterate_selections_char s) as (m & A & B & D). rewrite A.
  set (s1 := reset_gen (snapshot c s)) in *.
  assert (Hl : length (iterate_selections gen c s) = m) by (rewrite B, map_length, seq_length; auto).
  assert (N : forall i x, (i < m)%nat -> nth_error (iterate_selections gen c s) i = Some x -> x = gens gen c i s1).
  { intros i0 x0 Hi0. rewrite B, nth_error_map, (nth_error_nth' _ 0%nat) by (rewrite seq_length; auto).
    rewrite seq_nth by auto. simpl. congruence. }
  destruct (lt_dec i m) as [Hi|Hi]; destruct (lt_dec j m) as [Hj|Hj]; try lia.
  - rewrite !nth_error_app1 by lia. intros Hx Hy. apply N in Hx; auto. apply N in Hy; auto. subst.
    apply gens_fe_mono; auto.
  - rewrite nth_error_app1, nth_error_app2 by lia. intros Hx Hy. apply N in Hx; auto. subst x.
    apply nth_error_In, run_selections_fe in Hy. cbn [bump_iter fe_count] in Hy.
    pose proof (gens_fe_mono i m s1 ltac:(lia)). lia.
  - rewrite !nth_error_app2 by lia. apply IH. lia.
Qed.
End P.

Open Scope R_scope.
Lemma IZR_div_unit a b : (0 <= a <= b)%Z -> (0 < b)%Z -> 0 <= IZR a / IZR b <= 1.
Proof.
  intros [H1 H2] H3. apply IZR_le in H1, H2. apply IZR_lt in H3. split.
  - apply Rmult_le_pos; auto. left. apply Rinv_0_lt_compat; auto.
  - apply (Rmult_le_reg_r (IZR b)); auto. unfold Rdiv. rewrite Rmult_assoc, Rinv_l by lra. lra.
Qed.
Lemma IZR_div_le a a' b : (a <= a')%Z -> (0 < b)%Z -> IZR a / IZR b <= IZR a' / IZR b.
Proof.
  intros H1 H3. apply IZR_le in H1. apply IZR_lt in H3. apply Rmult_le_compat_r; auto.
  left. apply Rinv_0_lt_compat; auto.
Qed.
Lemma IZR_div_lt a a' b : (a < a')%Z -> (0 < b)%Z -> IZR a / IZR b < IZR a' / IZR b.
Proof.
  intros H1 H3. apply IZR_lt in H1. apply IZR_lt in H3. apply Rmult_lt_compat_r; auto.
  apply Rinv_0_lt_compat; auto.
Qed.

Lemma partial_penalty_form t alpha n : 0 < alpha ->
  exists p, partial_penalty t alpha n = Some (p * INR n) /\ 0 <= p <= 1 /\
    (t <= 0 -> p = 0) /\ (1 <= t -> p = 1) /\ (0 < t < 1 -> p = Rpower t alpha).
Proof.
  intros Ha. unfold partial_penalty.
  destruct (Rlt_dec t 0) as [H|H].
  { destruct (Rlt_dec 1 0); [lra|]. unfold npow. destruct (Rlt_dec 0 0); [lra|].
    destruct (Req_EM_T 0 0); [|lra]. destruct (Rlt_dec 0 alpha); [|lra].
    exists 0. simpl. repeat split; auto; try lra. }
  destruct (Rlt_dec 1 t) as [H'|H'].
  { unfold npow. destruct (Rlt_dec 0 1); [|lra]. exists 1.
    assert (E : Rpower 1 alpha = 1). { unfold Rpower. rewrite ln_1, Rmult_0_r. apply exp_0. }
    simpl. rewrite E. repeat split; auto; try lra. }
  unfold npow. destruct (Rlt_dec 0 t) as [Hp|Hp].
  - exists (Rpower t alpha). simpl. split; [reflexivity|].
    assert (L : ln t <= 0). { destruct (Req_dec t 1) as [->|]; [rewrite ln_1; lra|]. rewrite <- ln_1. left. apply ln_increasing; lra. }
    unfold Rpower. pose proof (exp_pos (alpha * ln t)) as E.
    assert (U : exp (alpha * ln t) <= 1).
    { rewrite <- exp_0. assert (Q : alpha * ln t <= 0) by (rewrite <- (Rmult_0_r alpha); apply Rmult_le_compat_l; lra).
      destruct Q as [Q| ->]; [left; apply exp_increasing; auto|lra]. }
    repeat split; try lra. intros. assert (t = 1) by lra. subst. rewrite ln_1, Rmult_0_r, exp_0. auto.
  - destruct (Req_EM_T t 0); [|lra]. destruct (Rlt_dec 0 alpha); [|lra]. exists 0. simpl.
    repeat split; auto; try lra.
Qed.

Lemma partial_penalty_mono t t' alpha n p p' : 0 < alpha -> t <= t' ->
  partial_penalty t alpha n = Some p -> partial_penalty t' alpha n = Some p' -> p <= p'.
Proof.
  intros Ha Ht H H'.
  destruct (partial_penalty_form t alpha n Ha) as (q & E & B & Z & O & M). 
  destruct (partial_penalty_form t' alpha n Ha) as (q' & E' & B' & Z' & O' & M').
  rewrite H in E. rewrite H' in E'. injection E as ->. injection E' as ->.
  apply Rmult_le_compat_r; [apply pos_INR|].
  destruct (Rle_dec t 0) as [C|C]; [rewrite Z by lra; lra|].
  destruct (Rle_dec 1 t') as [C'|C']; [rewrite O' by lra; lra|].
  rewrite M, M' by lra. apply Rle_Rpower_l; lra.
Qed.
