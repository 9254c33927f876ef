(** C114, C115: initial individuals and SBX in double precision arithmetic. *)
From Coq Require Import Reals Lra Lia.
From Flocq Require Import Core.
From Verif Require Import Base M_Double P_Double.
Open Scope R_scope.

(** Row-wise bounds: every gene of the row lies between its bounds, up to [slack]. *)
Definition within (slack : R -> R -> R) (lbs ubs row : list R) : Prop :=
  length row = length lbs /\
  forall j l u x, nth_error lbs j = Some l -> nth_error ubs j = Some u -> nth_error row j = Some x -> l <= x <= u + slack l u.
Definition double_bounds (lbs ubs : list R) : Prop :=
  forall j l u, nth_error lbs j = Some l -> nth_error ubs j = Some u -> double l /\ double u /\ l <= u.

Lemma rows_within slack (ok : R -> Prop) :
  (forall s l u, ok s -> double l -> double u -> l <= u -> l <= scale_gene_fl s l u <= u + slack l u) ->
  forall ss lbs ubs, (forall s, In s ss -> ok s) -> double_bounds lbs ubs -> length ss = length lbs -> length lbs = length ubs ->
  within slack lbs ubs (scale_row_fl ss lbs ubs).
Proof.
  intros G ss. induction ss as [|s ss IH]; intros [|l lbs] [|u ubs] A B L1 L2; try discriminate.
  - split; [reflexivity|]. intros [|j]; discriminate.
  - cbn in L1, L2. injection L1 as L1. injection L2 as L2. cbn [scale_row_fl].
    destruct (IH lbs ubs) as [I1 I2]; [intros x X; apply A; right; exact X|intros j; exact (B (S j))|exact L1|exact L2|].
    split; [cbn; rewrite I1; reflexivity|]. intros [|j] l' u' x; cbn; [|apply I2].
    intros E1 E2 E3. injection E1 as <-. injection E2 as <-. injection E3 as <-.
    destruct (B 0%nat l u eq_refl eq_refl) as (D1 & D2 & D3). apply G; try assumption. apply A. left. reflexivity.
Qed.
Lemma design_within slack (ok : R -> Prop) :
  (forall s l u, ok s -> double l -> double u -> l <= u -> l <= scale_gene_fl s l u <= u + slack l u) ->
  forall pop_size n_vars samples lbs ubs, (forall i j, ok (samples i j)) -> double_bounds lbs ubs -> length lbs = n_vars -> length ubs = n_vars ->
  exists pop, scaled_design_fl pop_size n_vars samples lbs ubs = Ok pop /\ length pop = pop_size /\ forall r, In r pop -> within slack lbs ubs r.
Proof.
  intros G pop_size n_vars samples lbs ubs A B L1 L2. unfold scaled_design_fl. rewrite L1, L2, Nat.eqb_refl. cbn [andb].
  eexists; split; [reflexivity|]. split; [rewrite map_length, seq_length; reflexivity|].
  intros r I. apply in_map_iff in I as (i & <- & _). apply (rows_within slack ok G); [|exact B| |congruence].
  - intros s S0. apply in_map_iff in S0 as (j & <- & _). apply A.
  - rewrite map_length, seq_length. congruence.
Qed.

(** RandomDesign: with samples from numpy's generator, every initial gene is within its bounds, rounding included. *)
Theorem C114_random_design_in_bounds pop_size n_vars samples lbs ubs :
  (forall i j, np_random (samples i j)) -> double_bounds lbs ubs -> length lbs = n_vars -> length ubs = n_vars ->
  exists pop, scaled_design_fl pop_size n_vars samples lbs ubs = Ok pop /\ length pop = pop_size /\
    forall r, In r pop -> within (fun _ _ => 0) lbs ubs r.
Proof.
  intros A. apply (design_within (fun _ _ => 0) np_random); [|exact A].
  intros s l u S0 Dl Du L. rewrite Rplus_0_r. apply scale_gene_in_bounds; try assumption. apply random_range. exact S0.
Qed.

(** LHSDesign (the default): samples anywhere in [0, 1]; the upper bound is exceeded by a few rounding errors at most. *)
Theorem C114_lhs_design_nearly_in_bounds pop_size n_vars samples lbs ubs :
  (forall i j, 0 <= samples i j <= 1) -> double_bounds lbs ubs -> length lbs = n_vars -> length ubs = n_vars ->
  exists pop, scaled_design_fl pop_size n_vars samples lbs ubs = Ok pop /\ length pop = pop_size /\
    forall r, In r pop -> within (fun l u => bpow radix2 (-51) * (Rabs l + Rabs u)) lbs ubs r.
Proof.
  intros A. apply (design_within _ (fun s => 0 <= s <= 1)); [|exact A].
  intros s l u S0 Dl Du L. apply scale_gene_overshoot; assumption.
Qed.

Lemma near_one : fl (1 + bpow radix2 (-53) + bpow radix2 (-60)) = 1 + bpow radix2 (-52).
Proof.
  assert (B53 : bpow radix2 (-53) = / IZR (2 ^ 53)) by reflexivity. assert (B52 : bpow radix2 (-52) = 2 * bpow radix2 (-53)).
  { change (-52)%Z with (1 + -53)%Z. rewrite bpow_plus. reflexivity. }
  assert (B60 : bpow radix2 (-53) = 128 * bpow radix2 (-60)).
  { change (-53)%Z with (7 + -60)%Z. rewrite (bpow_plus radix2 7 (-60)). reflexivity. }
  pose proof (bpow_gt_0 radix2 (-60)) as P60.
  assert (S1 : succ radix2 (FLT_exp (-1074) 53) 1 = 1 + bpow radix2 (-52)).
  { rewrite succ_eq_pos by lra. f_equal. change 1 with (bpow radix2 0) at 1. rewrite ulp_bpow. reflexivity. }
  assert (D1 : double 1) by (change 1 with (bpow radix2 0); apply generic_format_FLT_bpow; [reflexivity|lia]).
  assert (D2 : double (1 + bpow radix2 (-52))).
  { rewrite <- S1. apply generic_format_succ; [apply FLT_exp_valid; reflexivity|exact D1]. }
  apply Rle_antisym.
  - apply Rle_trans with (fl (1 + bpow radix2 (-52))); [apply fl_mono; lra|rewrite (fl_id _ D2); apply Rle_refl].
  - unfold fl. apply round_N_ge_midp; [apply FLT_exp_valid; reflexivity|exact D2|].
    rewrite <- S1 at 2. rewrite pred_succ; [|apply FLT_exp_valid; reflexivity|exact D1]. lra.
Qed.

(** Refuted: a Latin hypercube sample can be 1 (the last of four strata, a draw close to 1), and then the initial gene can lie above its bound. *)
Theorem C114_lhs_design_refuted : exists r l u,
  np_random r /\ double l /\ double u /\ l < u /\ lhs_point r (3 / 4) 1 = 1 /\ u < scale_gene_fl (lhs_point r (3 / 4) 1) l u.
Proof.
  assert (B52 : bpow radix2 (-52) = 2 * bpow radix2 (-53)).
  { change (-52)%Z with (1 + -53)%Z. rewrite bpow_plus. reflexivity. }
  assert (B60 : bpow radix2 (-53) = 128 * bpow radix2 (-60)).
  { change (-53)%Z with (7 + -60)%Z. rewrite (bpow_plus radix2 7 (-60)). reflexivity. }
  assert (B53 : bpow radix2 (-53) = 4 * bpow radix2 (-55)).
  { change (-53)%Z with (2 + -55)%Z. rewrite (bpow_plus radix2 2 (-55)). reflexivity. }
  assert (P : 0 < bpow radix2 (-60)) by apply bpow_gt_0.
  assert (I53 : IZR (2 ^ 53) * bpow radix2 (-53) = 1) by (change (bpow radix2 (-53)) with (/ IZR (2 ^ 53)); apply Rinv_r; apply Rgt_not_eq; apply IZR_lt; reflexivity).
  assert (D1 : double 1) by (change 1 with (bpow radix2 0); apply generic_format_FLT_bpow; [reflexivity|lia]).
  assert (LP : lhs_point (IZR (2 ^ 53 - 1) / IZR (2 ^ 53)) (3 / 4) 1 = 1).
  { unfold lhs_point. replace (1 - 3 / 4) with (bpow radix2 (-2)) by (cbn; lra).
    rewrite (fl_id (bpow radix2 (-2))) by (apply generic_format_FLT_bpow; [reflexivity|lia]).
    assert (Q1 : IZR (2 ^ 53 - 1) / IZR (2 ^ 53) * bpow radix2 (-2) = IZR (2 ^ 53 - 1) * bpow radix2 (-55)).
    { change (-55)%Z with (-53 + -2)%Z. rewrite (bpow_plus radix2 (-53) (-2)). change (bpow radix2 (-53)) with (/ IZR (2 ^ 53)). unfold Rdiv. ring. }
    rewrite Q1, (fl_id (IZR (2 ^ 53 - 1) * bpow radix2 (-55))) by (apply double_intro; [reflexivity|lia]).
    assert (Q2 : IZR (2 ^ 53 - 1) * bpow radix2 (-55) + 3 / 4 = 1 - bpow radix2 (-55)).
    { rewrite minus_IZR. rewrite Rmult_minus_distr_r. replace (IZR (2 ^ 53) * bpow radix2 (-55)) with (1 / 4); [lra|].
      rewrite B53 in I53. lra. }
    rewrite Q2. apply Rle_antisym.
    - rewrite <- (fl_id 1 D1) at 2. apply fl_mono. pose proof (bpow_gt_0 radix2 (-55)). lra.
    - unfold fl. apply round_N_ge_midp; [apply FLT_exp_valid; reflexivity|exact D1|].
      change 1 with (bpow radix2 0) at 2. rewrite pred_bpow. change (FLT_exp (-1074) 53 0) with (-53)%Z. change (bpow radix2 0) with 1.
      pose proof (bpow_gt_0 radix2 (-55)). lra. }
  exists (IZR (2 ^ 53 - 1) / IZR (2 ^ 53)), (- 1), (bpow radix2 (-53) + bpow radix2 (-60)).
  split; [exists (2 ^ 53 - 1)%Z; split; [lia|reflexivity]|].
  split; [apply double_opp; exact D1|]. split.
  { replace (bpow radix2 (-53) + bpow radix2 (-60)) with (IZR 129 * bpow radix2 (-60)) by (rewrite B60; lra). apply double_intro; [reflexivity|lia]. }
  split; [lra|]. split; [exact LP|]. rewrite LP. unfold scale_gene_fl.
  replace (bpow radix2 (-53) + bpow radix2 (-60) - - 1) with (1 + bpow radix2 (-53) + bpow radix2 (-60)) by ring. rewrite near_one, Rmult_1_l.
  assert (E : fl (1 + bpow radix2 (-52)) = 1 + bpow radix2 (-52)) by (rewrite <- near_one at 1; rewrite fl_id by apply fl_double; apply near_one).
  rewrite E. replace (1 + bpow radix2 (-52) + -1) with (bpow radix2 (-52)) by ring.
  rewrite fl_id by (apply generic_format_FLT_bpow; [reflexivity|lia]). lra.
Qed.

(** SBX: identical parents reproduce exactly, whatever the factor drawn. *)
Theorem C115_identical_parents beta x : double x -> sbx_pair_fl beta x x = (x, x).
Proof. apply sbx_same. Qed.

(** The children's sum is the parents' up to rounding of the sizes involved. *)
Theorem C115_sum_nearly_kept beta x y c d : double x -> double y -> sbx_pair_fl beta x y = (c, d) ->
  Rabs ((c + d) - (x + y)) <= bpow radix2 (-53) * (Rabs c + Rabs d + 2 * Rmax (Rabs x) (Rabs y)) + bpow radix2 (-1074).
Proof. intros Dx Dy E. pose proof (sbx_sum beta x y Dx Dy) as H. rewrite E in H. exact H. Qed.

(** A gene that is not crossed over (factor 1) is copied up to rounding of the larger parent's size. *)
Theorem C115_copied_nearly x y c d : double x -> double y -> sbx_pair_fl 1 x y = (c, d) ->
  Rabs (c - x) <= 4 * bpow radix2 (-53) * Rmax (Rabs x) (Rabs y) + bpow radix2 (-1073) /\
  Rabs (d - y) <= 4 * bpow radix2 (-53) * Rmax (Rabs x) (Rabs y) + bpow radix2 (-1073).
Proof. intros Dx Dy E. pose proof (sbx_copy x y Dx Dy) as H. rewrite E in H. exact H. Qed.

(** Refuted: a gene that is not crossed over need not be copied: the smaller parent's gene is lost, and leaves the range of the parents. *)
Theorem C115_copied_refuted : exists x y c d, double x /\ double y /\ 0 < y < x /\ sbx_pair_fl 1 x y = (c, d) /\
  c = x /\ d <> y /\ d < y /\ c + d <> x + y.
Proof.
  assert (D1 : double 1) by (change 1 with (bpow radix2 0); apply generic_format_FLT_bpow; [reflexivity|lia]).
  assert (P : 0 < bpow radix2 (-60)) by apply bpow_gt_0.
  assert (B60 : bpow radix2 (-53) = 128 * bpow radix2 (-60)).
  { change (-53)%Z with (7 + -60)%Z. rewrite (bpow_plus radix2 7 (-60)). reflexivity. }
  assert (L1 : bpow radix2 (-60) < 1) by (change 1 with (bpow radix2 0); apply bpow_lt; lia).
  assert (S1 : fl (1 + bpow radix2 (-60)) = 1).
  { apply Rle_antisym.
    - unfold fl. apply round_N_le_midp; [apply FLT_exp_valid; reflexivity|exact D1|].
      rewrite succ_eq_pos by lra. change (ulp radix2 (FLT_exp (-1074) 53) 1) with (ulp radix2 (FLT_exp (-1074) 53) (bpow radix2 0)).
      rewrite ulp_bpow. change (FLT_exp (-1074) 53 (0 + 1)) with (-52)%Z.
      assert (B52 : bpow radix2 (-52) = 2 * bpow radix2 (-53)) by (change (-52)%Z with (1 + -53)%Z; rewrite bpow_plus; reflexivity). lra.
    - rewrite <- (fl_id 1 D1) at 1. apply fl_mono. lra. }
  assert (S2 : fl (1 - bpow radix2 (-60)) = 1).
  { apply Rle_antisym.
    - rewrite <- (fl_id 1 D1) at 2. apply fl_mono. lra.
    - unfold fl. apply round_N_ge_midp; [apply FLT_exp_valid; reflexivity|exact D1|].
      change 1 with (bpow radix2 0) at 2. rewrite pred_bpow. change (FLT_exp (-1074) 53 0) with (-53)%Z. change (bpow radix2 0) with 1. lra. }
  assert (H2 : fl (1 / 2) = 1 / 2) by (apply fl_id; replace (1 / 2) with (bpow radix2 (-1)) by (cbn; lra); apply generic_format_FLT_bpow; [reflexivity|lia]).
  exists 1, (bpow radix2 (-60)), 1, 0. split; [exact D1|]. split; [apply generic_format_FLT_bpow; [reflexivity|lia]|]. split; [lra|].
  split; [|split; [reflexivity|split; [lra|split; lra]]].
  unfold sbx_pair_fl. rewrite S1, S2, H2, Rmult_1_l, H2. replace (1 / 2 + 1 / 2) with 1 by field. replace (1 / 2 - 1 / 2) with 0 by ring.
  rewrite fl_0, (fl_id 1 D1). reflexivity.
Qed.

Print Assumptions C114_random_design_in_bounds.
Print Assumptions C114_lhs_design_nearly_in_bounds.
Print Assumptions C114_lhs_design_refuted.
Print Assumptions C115_identical_parents.
Print Assumptions C115_sum_nearly_kept.
Print Assumptions C115_copied_nearly.
Print Assumptions C115_copied_refuted.

(** Bounds and samples meeting the hypotheses. *)
Example ex_double_bounds : double_bounds [- 1; 0] [1; 1 / 2] /\ np_random (1 / 2) /\ double (1 / 2).
Proof.
  assert (D1 : double 1) by (change 1 with (bpow radix2 0); apply generic_format_FLT_bpow; [reflexivity|lia]).
  assert (DH : double (1 / 2)) by (replace (1 / 2) with (bpow radix2 (-1)) by (cbn; lra); apply generic_format_FLT_bpow; [reflexivity|lia]).
  split; [|split; [|exact DH]].
  - intros [|[|[|j]]] l u; cbn; intros E1 E2; try discriminate; injection E1 as <-; injection E2 as <-.
    + split; [apply double_opp; exact D1|]. split; [exact D1|lra].
    + split; [apply double_0|]. split; [exact DH|lra].
  - exists (2 ^ 52)%Z. split; [lia|]. change (2 ^ 53)%Z with (2 * 2 ^ 52)%Z. rewrite mult_IZR. assert (IZR (2 ^ 52) <> 0) by (apply Rgt_not_eq, IZR_lt; reflexivity).
    field. assumption.
Qed.
