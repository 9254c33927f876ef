(** Proofs about double precision arithmetic (M_Double), on Flocq's core library. *)
From Coq Require Import Reals Lra Lia.
From Flocq Require Import Core.
From Verif Require Import Base M_Double.
Open Scope R_scope.

Local Instance prec53 : Prec_gt_0 53. Proof. reflexivity. Qed.
Notation E64 := (FLT_exp (-1074) 53).

Lemma fl_mono x y : x <= y -> fl x <= fl y.
Proof. intros. unfold fl. apply round_le; [apply FLT_exp_valid; reflexivity|apply valid_rnd_N|assumption]. Qed.
Lemma fl_id x : double x -> fl x = x.
Proof. intros. unfold fl. apply round_generic; [apply valid_rnd_N|assumption]. Qed.
Lemma fl_double x : double (fl x).
Proof. unfold fl, double. apply generic_format_round; [apply FLT_exp_valid; reflexivity|apply valid_rnd_N]. Qed.
Lemma double_0 : double 0.
Proof. apply generic_format_0. Qed.
Lemma fl_0 : fl 0 = 0.
Proof. apply fl_id, double_0. Qed.
Lemma double_opp x : double x -> double (- x).
Proof. apply generic_format_opp. Qed.
Lemma fl_opp x : fl (- x) = - fl x.
Proof. unfold fl. apply round_NE_opp. Qed.

(** Multiples of a power of two with a small enough factor are doubles. *)
Lemma double_intro (m : Z) (e : Z) : (Z.abs m < 2 ^ 53)%Z -> (-1074 <= e)%Z -> double (IZR m * bpow radix2 e).
Proof.
  intros M E. apply generic_format_FLT. exists (Float radix2 m e); [reflexivity|exact M|exact E].
Qed.

(** Doubles are multiples of the smallest one. *)
Lemma double_grid x : double x -> exists k : Z, x = IZR k * bpow radix2 (-1074).
Proof.
  intros D. apply generic_format_FIX_FLT in D. apply FIX_format_generic in D. destruct D as [[m e] H1 H2]. cbn in H2. subst e. exists m. exact H1.
Qed.
Lemma double_diff_small x y : double x -> double y -> Rabs (x - y) <= bpow radix2 (-1021) -> double (x - y).
Proof.
  intros Dx Dy L. apply generic_format_FLT_FIX; [exact prec53|exact L|].
  destruct (double_grid x Dx) as [a ->], (double_grid y Dy) as [b ->].
  apply generic_format_FIX. exists (Float radix2 (a - b) (-1074)); [|reflexivity]. unfold F2R; cbn [Fnum Fexp]. rewrite minus_IZR. ring.
Qed.

Lemma random_range x : np_random x -> 0 <= x <= 1 - bpow radix2 (-53).
Proof.
  intros (k & K & ->). assert (P : 0 < IZR (2 ^ 53)) by (apply IZR_lt; reflexivity).
  assert (B : bpow radix2 (-53) = / IZR (2 ^ 53)) by reflexivity. rewrite B.
  assert (K1 : IZR k <= IZR (2 ^ 53) - 1) by (rewrite <- minus_IZR; apply IZR_le; lia).
  assert (K0 : 0 <= IZR k) by (apply IZR_le; lia).
  split; [apply Rmult_le_pos; [exact K0|left; apply Rinv_0_lt_compat; exact P]|].
  apply (Rmult_le_reg_r (IZR (2 ^ 53))); [exact P|]. unfold Rdiv. rewrite Rmult_assoc, Rinv_l by lra. 
  rewrite Rmult_minus_distr_r, Rinv_l by lra. lra.
Qed.

(** The scaled sample never exceeds the exact width of the range. *)
Lemma scaled_width s l u : 0 <= s <= 1 - bpow radix2 (-53) -> double l -> double u -> l <= u ->
  fl (s * fl (u - l)) <= u - l.
Proof.
  intros S0 Dl Du L. set (d := u - l). assert (D0 : 0 <= d) by (unfold d; lra).
  assert (B53 : 0 < bpow radix2 (-53)) by apply bpow_gt_0.
  destruct (generic_format_EM radix2 E64 d) as [F|F].
  - rewrite (fl_id d F). rewrite <- (fl_id d F) at 2. apply fl_mono. rewrite <- (Rmult_1_l d) at 2. apply Rmult_le_compat_r; lra.
  - assert (Big : bpow radix2 (-1021) < d).
    { apply Rnot_le_lt. intros C. apply F. apply double_diff_small; [exact Du|exact Dl|]. fold d. rewrite Rabs_pos_eq; assumption. }
    pose (p := round radix2 E64 Zfloor d).
    assert (Fp : double p) by (apply generic_format_round; [apply FLT_exp_valid; reflexivity|apply valid_rnd_DN]).
    destruct (round_DN_UP_lt radix2 E64 d F) as [P1 P2]. fold p in P1.
    assert (Pp : bpow radix2 (-1022) <= p).
    { apply round_ge_generic; [apply FLT_exp_valid; reflexivity|apply valid_rnd_DN| |].
      - apply generic_format_FLT_bpow; [exact prec53|lia].
      - apply Rle_trans with (bpow radix2 (-1021)); [apply bpow_le; lia|lra]. }
    assert (P0 : 0 < p) by (apply Rlt_le_trans with (2 := Pp); apply bpow_gt_0).
    assert (W : fl d = p \/ fl d = succ radix2 E64 p).
    { destruct (round_DN_or_UP radix2 E64 ZnearestE d) as [X|X]; [left; exact X|right].
      change (round radix2 E64 ZnearestE d) with (fl d) in X. rewrite X, succ_eq_pos by lra.
      rewrite round_UP_DN_ulp by exact F. fold p. f_equal. unfold p. symmetry. apply ulp_DN; [apply FLT_exp_valid; reflexivity|exact D0]. }
    apply Rle_trans with p; [|lra].
    destruct W as [W|W].
    + rewrite W. rewrite <- (fl_id p Fp) at 2. apply fl_mono. rewrite <- (Rmult_1_l p) at 2. apply Rmult_le_compat_r; lra.
    + rewrite W. unfold fl. apply round_N_le_midp; [apply FLT_exp_valid; reflexivity|exact Fp|].
      rewrite succ_eq_pos by lra. set (v := ulp radix2 E64 p).
      assert (V : v <= p * bpow radix2 (-52)).
      { unfold v. rewrite <- (Rabs_pos_eq p) at 2 by lra. apply (ulp_FLT_le radix2 (-1074) 53). rewrite Rabs_pos_eq by lra. exact Pp. }
      assert (V0 : 0 < v) by (unfold v; rewrite ulp_neq_0 by lra; apply bpow_gt_0).
      assert (B52 : bpow radix2 (-52) = 2 * bpow radix2 (-53)).
      { change (-52)%Z with (1 + -53)%Z. rewrite bpow_plus. reflexivity. }
      apply Rle_lt_trans with ((1 - bpow radix2 (-53)) * (p + v)); [apply Rmult_le_compat_r; lra|].
      assert (X : v / 2 < bpow radix2 (-53) * (p + v)).
      { apply Rle_lt_trans with (bpow radix2 (-53) * p); [rewrite B52 in V; lra|]. apply Rmult_lt_compat_l; lra. }
      lra.
Qed.

Lemma scale_gene_in_bounds s l u : 0 <= s <= 1 - bpow radix2 (-53) -> double l -> double u -> l <= u -> l <= scale_gene_fl s l u <= u.
Proof.
  intros S0 Dl Du L. unfold scale_gene_fl. pose proof (scaled_width s l u S0 Dl Du L) as W.
  assert (W0 : 0 <= fl (u - l)) by (rewrite <- fl_0; apply fl_mono; lra).
  assert (X0 : 0 <= fl (s * fl (u - l))) by (rewrite <- fl_0 at 1; apply fl_mono; apply Rmult_le_pos; lra).
  split.
  - rewrite <- (fl_id l Dl) at 1. apply fl_mono. lra.
  - rewrite <- (fl_id u Du) at 2. apply fl_mono. lra.
Qed.

(** Rounding errors. *)
Lemma fl_err_ulp z : Rabs (fl z - z) <= / 2 * ulp radix2 E64 z.
Proof. unfold fl. apply error_le_half_ulp. apply FLT_exp_valid; reflexivity. Qed.
Lemma u53 : bpow radix2 (-53) = / 2 * bpow radix2 (-52).
Proof. change (-53)%Z with (-1 + -52)%Z. rewrite bpow_plus. f_equal. Qed.
Lemma fl_err_normal z : bpow radix2 (-1022) <= Rabs z -> Rabs (fl z - z) <= bpow radix2 (-53) * Rabs z.
Proof.
  intros N. apply Rle_trans with (1 := fl_err_ulp z). pose proof (ulp_FLT_le radix2 (-1074) 53 z N) as H.
  change (1 - 53)%Z with (-52)%Z in H. rewrite u53. lra.
Qed.
Lemma sum_err x y : double x -> double y -> Rabs (fl (x + y) - (x + y)) <= bpow radix2 (-53) * Rabs (x + y).
Proof.
  intros Dx Dy. pose proof (bpow_gt_0 radix2 (-53)) as B.
  destruct (Rle_lt_dec (Rabs (x + y)) (bpow radix2 (-1021))) as [L|L].
  - rewrite fl_id. 2:{ replace (x + y) with (x - - y) in * by ring. apply double_diff_small; [exact Dx|apply double_opp; exact Dy|exact L]. }
    unfold Rminus. rewrite Rplus_opp_r, Rabs_R0. apply Rmult_le_pos; [lra|apply Rabs_pos].
  - apply fl_err_normal. apply Rle_trans with (bpow radix2 (-1021)); [apply bpow_le; lia|lra].
Qed.
(** The same, relative to the result. *)
Lemma sum_err_out x y : double x -> double y -> Rabs (fl (x + y) - (x + y)) <= bpow radix2 (-53) * Rabs (fl (x + y)).
Proof.
  intros Dx Dy. pose proof (bpow_gt_0 radix2 (-53)) as B.
  destruct (Rle_lt_dec (Rabs (x + y)) (bpow radix2 (-1021))) as [L|L].
  - rewrite fl_id. 2:{ replace (x + y) with (x - - y) in * by ring. apply double_diff_small; [exact Dx|apply double_opp; exact Dy|exact L]. }
    unfold Rminus. rewrite Rplus_opp_r, Rabs_R0. apply Rmult_le_pos; [lra|apply Rabs_pos].
  - apply Rle_trans with (/ 2 * ulp radix2 E64 (fl (x + y))).
    + unfold fl. apply error_le_half_ulp_round; [apply FLT_exp_valid; reflexivity|apply FLT_exp_monotone].
    + assert (N : bpow radix2 (-1022) <= Rabs (fl (x + y))).
      { assert (D1 : double (bpow radix2 (-1022))) by (apply generic_format_FLT_bpow; [exact prec53|lia]).
        assert (Le : bpow radix2 (-1022) <= Rabs (x + y)) by (apply Rle_trans with (bpow radix2 (-1021)); [apply bpow_le; lia|lra]).
        unfold fl. apply abs_round_ge_generic; [apply FLT_exp_valid; reflexivity|apply valid_rnd_N|exact D1|exact Le]. }
      pose proof (ulp_FLT_le radix2 (-1074) 53 (fl (x + y)) N) as H. change (1 - 53)%Z with (-52)%Z in H. rewrite u53. lra.
Qed.

(** Doubling is exact, halving exact up to the smallest number. *)
Lemma double_twice x : double x -> double (x + x).
Proof.
  intros D. apply FLT_format_generic in D; [|exact prec53]. destruct D as [[m e] H1 H2 H3]. cbn in H2, H3.
  replace (x + x) with (IZR m * bpow radix2 (e + 1)); [apply double_intro; [exact H2|lia]|].
  rewrite H1. unfold F2R; cbn [Fnum Fexp]. rewrite bpow_plus. change (bpow radix2 1) with 2. ring.
Qed.
Lemma half_err z : double z -> Rabs (fl (z / 2) - z / 2) <= bpow radix2 (-1075).
Proof.
  intros D. destruct (Rle_lt_dec (bpow radix2 (-1021)) (Rabs (z / 2))) as [L|L].
  - assert (Dh : double (z / 2)).
    { apply FLT_format_generic in D; [|exact prec53]. destruct D as [[m e] H1 H2 H3]. cbn in H2, H3.
      replace (z / 2) with (IZR m * bpow radix2 (e - 1)).
      - apply double_intro; [exact H2|].
        assert (X : bpow radix2 (-1021) < bpow radix2 (53 + (e - 1))).
        { apply Rle_lt_trans with (1 := L). rewrite H1. unfold F2R; cbn [Fnum Fexp].
          replace (IZR m * bpow radix2 e / 2) with (IZR m * bpow radix2 (e - 1)).
          - rewrite Rabs_mult, (Rabs_pos_eq (bpow radix2 (e - 1))) by apply bpow_ge_0. rewrite bpow_plus. apply Rmult_lt_compat_r; [apply bpow_gt_0|].
            rewrite <- abs_IZR. change (bpow radix2 53) with (IZR (2 ^ 53)). apply IZR_lt. exact H2.
          - unfold Zminus. rewrite bpow_plus. change (bpow radix2 (-(1))) with (/ 2). field. }
        apply lt_bpow in X. lia.
      - rewrite H1. unfold F2R; cbn [Fnum Fexp]. unfold Zminus. rewrite bpow_plus. change (bpow radix2 (-(1))) with (/ 2). field. }
    rewrite (fl_id _ Dh). unfold Rminus. rewrite Rplus_opp_r, Rabs_R0. apply bpow_ge_0.
  - apply Rle_trans with (1 := fl_err_ulp _). rewrite ulp_FLT_small; [|exact prec53|apply Rlt_le_trans with (1 := L); apply bpow_le; lia].
    change (-1075)%Z with (-1 + -1074)%Z. rewrite (bpow_plus radix2 (-1) (-1074)). apply Rle_refl.
Qed.

Lemma half_sum_err x y M : double x -> double y -> Rabs x <= M -> Rabs y <= M ->
  Rabs (fl (fl (x + y) / 2) - (x + y) / 2) <= bpow radix2 (-53) * M + bpow radix2 (-1075).
Proof.
  intros Dx Dy Mx My. pose proof (sum_err x y Dx Dy) as S1. pose proof (half_err (fl (x + y)) (fl_double _)) as H1.
  pose proof (bpow_gt_0 radix2 (-53)) as B. pose proof (Rabs_triang x y) as T.
  assert (S2 : Rabs (fl (x + y) - (x + y)) <= bpow radix2 (-53) * (2 * M)) by (apply Rle_trans with (1 := S1); apply Rmult_le_compat_l; lra).
  replace (fl (fl (x + y) / 2) - (x + y) / 2) with ((fl (fl (x + y) / 2) - fl (x + y) / 2) + (fl (x + y) - (x + y)) / 2) by field.
  apply Rle_trans with (1 := Rabs_triang _ _). unfold Rdiv at 3. rewrite (Rabs_mult (fl (x + y) - (x + y))), (Rabs_pos_eq (/ 2)) by lra. lra.
Qed.

Lemma abs_le_max x y : Rabs x <= Rmax (Rabs x) (Rabs y) /\ Rabs y <= Rmax (Rabs x) (Rabs y).
Proof. split; [apply Rmax_l|apply Rmax_r]. Qed.

Lemma sbx_same beta x : double x -> sbx_pair_fl beta x x = (x, x).
Proof.
  intros D. unfold sbx_pair_fl. rewrite (fl_id (x + x)) by (apply double_twice; exact D). replace ((x + x) / 2) with x by field. rewrite (fl_id x D).
  replace (x - x) with 0 by ring. rewrite fl_0. replace (0 / 2) with 0 by field. rewrite fl_0, Rmult_0_r, fl_0, Rplus_0_r, Rminus_0_r, (fl_id x D). reflexivity.
Qed.

Lemma sbx_sum beta x y : double x -> double y ->
  let (c, d) := sbx_pair_fl beta x y in
  Rabs ((c + d) - (x + y)) <= bpow radix2 (-53) * (Rabs c + Rabs d + 2 * Rmax (Rabs x) (Rabs y)) + bpow radix2 (-1074).
Proof.
  intros Dx Dy. unfold sbx_pair_fl. set (a := fl (fl (x + y) / 2)). set (t := fl (beta * fl (fl (x - y) / 2))).
  destruct (abs_le_max x y) as [Mx My]. set (M := Rmax (Rabs x) (Rabs y)) in *.
  pose proof (half_sum_err x y M Dx Dy Mx My) as A. fold a in A.
  pose proof (sum_err_out a t (fl_double _) (fl_double _)) as C.
  pose proof (sum_err_out a (- t) (fl_double _) (double_opp _ (fl_double _))) as D.
  change (a + - t) with (a - t) in D.
  assert (B : bpow radix2 (-1074) = 2 * bpow radix2 (-1075)) by (change (-1074)%Z with (1 + -1075)%Z; rewrite (bpow_plus radix2 1 (-1075)); reflexivity).
  rewrite B. replace (fl (a + t) + fl (a - t) - (x + y)) with ((fl (a + t) - (a + t)) + (fl (a - t) - (a - t)) + 2 * (a - (x + y) / 2)) by field.
  apply Rle_trans with (1 := Rabs_triang _ _). pose proof (Rabs_triang (fl (a + t) - (a + t)) (fl (a - t) - (a - t))) as T.
  rewrite (Rabs_mult 2), (Rabs_pos_eq 2) by lra. lra.
Qed.

Lemma sbx_copy x y : double x -> double y ->
  let (c, d) := sbx_pair_fl 1 x y in
  Rabs (c - x) <= 4 * bpow radix2 (-53) * Rmax (Rabs x) (Rabs y) + bpow radix2 (-1073) /\
  Rabs (d - y) <= 4 * bpow radix2 (-53) * Rmax (Rabs x) (Rabs y) + bpow radix2 (-1073).
Proof.
  intros Dx Dy. unfold sbx_pair_fl. rewrite Rmult_1_l. set (a := fl (fl (x + y) / 2)). set (e := fl (fl (x - y) / 2)).
  rewrite (fl_id e) by apply fl_double.
  destruct (abs_le_max x y) as [Mx My]. set (M := Rmax (Rabs x) (Rabs y)) in *.
  assert (M0 : 0 <= M) by (apply Rle_trans with (2 := Mx); apply Rabs_pos).
  pose proof (half_sum_err x y M Dx Dy Mx My) as A. fold a in A.
  assert (My' : Rabs (- y) <= M) by (rewrite Rabs_Ropp; exact My).
  pose proof (half_sum_err x (- y) M Dx (double_opp _ Dy) Mx My') as F. change (x + - y) with (x - y) in F. fold e in F.
  pose proof (sum_err a e (fl_double _) (fl_double _)) as C.
  pose proof (sum_err a (- e) (fl_double _) (double_opp _ (fl_double _))) as D.
  change (a + - e) with (a - e) in D.
  set (u := bpow radix2 (-53)) in *. set (h := bpow radix2 (-1075)) in *.
  assert (U : 0 < u) by apply bpow_gt_0. assert (Hh : 0 < h) by apply bpow_gt_0.
  assert (U8 : u <= / 8) by (unfold u; change (/ 8) with (bpow radix2 (-3)); apply bpow_le; lia).
  assert (B : bpow radix2 (-1073) = 4 * h) by (unfold h; change (-1073)%Z with (2 + -1075)%Z; rewrite (bpow_plus radix2 2 (-1075)); reflexivity).
  rewrite B.
  assert (G : forall z w, Rabs (z - w) <= 2 * u * M + 2 * h -> Rabs w <= M -> Rabs (fl z - z) <= u * Rabs z -> Rabs (fl z - w) <= 4 * u * M + 4 * h).
  { intros z w Hzw Hw Hz. assert (Z1 : Rabs z <= M + 2 * u * M + 2 * h).
    { replace z with (w + (z - w)) by ring. apply Rle_trans with (1 := Rabs_triang _ _). lra. }
    assert (Z2 : u * Rabs z <= u * (M + 2 * u * M + 2 * h)) by (apply Rmult_le_compat_l; lra).
    replace (fl z - w) with ((fl z - z) + (z - w)) by ring. apply Rle_trans with (1 := Rabs_triang _ _).
    assert (Z3 : u * (M + 2 * u * M + 2 * h) <= 2 * u * M + 2 * h).
    { assert (u * (2 * u * M) <= u * M * / 4). { replace (u * (2 * u * M)) with (2 * u * (u * M)) by ring. replace (u * M * / 4) with ((2 * / 8) * (u * M)) by field. apply Rmult_le_compat_r; [apply Rmult_le_pos; lra|lra]. }
      assert (u * (2 * h) <= 2 * h) by (rewrite <- (Rmult_1_l (2 * h)) at 2; apply Rmult_le_compat_r; lra).
      assert (0 <= u * M) by (apply Rmult_le_pos; lra). lra. }
    lra. }
  split.
  - apply G; [|exact Mx|exact C]. replace (a + e - x) with ((a - (x + y) / 2) + (e - (x - y) / 2)) by field. apply Rle_trans with (1 := Rabs_triang _ _). lra.
  - apply G; [|exact My|exact D]. replace (a - e - y) with ((a - (x + y) / 2) - (e - (x - y) / 2)) by field. unfold Rminus at 1. apply Rle_trans with (1 := Rabs_triang _ _). rewrite Rabs_Ropp. lra.
Qed.

(** Overshoot of the scaling when the sample may be 1. *)
Lemma scale_gene_overshoot s l u : 0 <= s <= 1 -> double l -> double u -> l <= u ->
  l <= scale_gene_fl s l u <= u + bpow radix2 (-51) * (Rabs l + Rabs u).
Proof.
  intros S0 Dl Du L. unfold scale_gene_fl.
  assert (W0 : 0 <= fl (u - l)) by (rewrite <- fl_0; apply fl_mono; lra).
  assert (X0 : 0 <= fl (s * fl (u - l))) by (rewrite <- fl_0 at 1; apply fl_mono; apply Rmult_le_pos; lra).
  split; [rewrite <- (fl_id l Dl) at 1; apply fl_mono; lra|].
  assert (X1 : fl (s * fl (u - l)) <= fl (u - l)).
  { rewrite <- (fl_id (fl (u - l))) at 2 by apply fl_double. apply fl_mono. rewrite <- (Rmult_1_l (fl (u - l))) at 2. apply Rmult_le_compat_r; lra. }
  apply Rle_trans with (fl (fl (u - l) + l)); [apply fl_mono; lra|].
  pose proof (sum_err u (- l) Du (double_opp _ Dl)) as E1. change (u + - l) with (u - l) in E1.
  pose proof (sum_err (fl (u - l)) l (fl_double _) Dl) as E2. set (w := fl (u - l)) in *.
  set (v := bpow radix2 (-53)) in *. assert (V : 0 < v) by apply bpow_gt_0.
  assert (V8 : v <= / 8) by (unfold v; change (/ 8) with (bpow radix2 (-3)); apply bpow_le; lia).
  assert (B51 : bpow radix2 (-51) = 4 * v) by (unfold v; change (-51)%Z with (2 + -53)%Z; rewrite bpow_plus; reflexivity).
  rewrite B51. set (N := Rabs l + Rabs u).
  assert (T1 : Rabs (u - l) <= N) by (unfold N, Rminus; pose proof (Rabs_triang u (- l)) as T; rewrite Rabs_Ropp in T; lra).
  assert (N0 : 0 <= N) by (apply Rle_trans with (2 := T1); apply Rabs_pos).
  assert (E1' : Rabs (w - (u - l)) <= v * N) by (apply Rle_trans with (1 := E1); apply Rmult_le_compat_l; lra).
  assert (Q1 : w + l <= u + v * N) by (pose proof (Rle_abs (w - (u - l))); lra).
  assert (Q2 : Rabs (w + l) <= N + v * N).
  { replace (w + l) with (u + (w - (u - l))) by ring. apply Rle_trans with (1 := Rabs_triang _ _). pose proof (Rabs_pos l). unfold N at 1. lra. }
  assert (Q3 : v * Rabs (w + l) <= v * (2 * N)).
  { apply Rmult_le_compat_l; [lra|]. assert (v * N <= 1 * N) by (apply Rmult_le_compat_r; lra). lra. }
  pose proof (Rle_abs (fl (w + l) - (w + l))). assert (0 <= v * N) by (apply Rmult_le_pos; lra). lra.
Qed.
