(** C142, continued: normalisation of the objectives, solutions equal to the ideal point, examples. *)
From Coq Require Import Reals Lra Lia Permutation.
From Flocq Require Import Core.
From Verif Require Import Base RVec M_NSGA3 P_APD M_Double P_Double P_IndDouble M_RefDouble P_RefDouble Properties_RefDouble Properties_RefDouble2 Properties_RefDouble3 M_NbDouble M_APDDouble P_APDDouble Properties_APDDouble M_NSGA3Double P_NSGA3Double Properties_NSGA3Double.
Open Scope R_scope.
Notation u := (bpow radix2 (-53)).

Lemma difference_err x y : double x -> double y -> y <= x -> (1 - u) * (x - y) <= fl (x - y) <= (1 + u) * (x - y).
Proof.
  intros Dx Dy L. assert (Dn : double (- y)) by (apply generic_format_opp; exact Dy). pose proof (fl_plus_err x (- y) Dx Dn) as E. rewrite uu_u in E. replace (x + - y) with (x - y) in E by ring. rewrite (Rabs_pos_eq (x - y)) in E by lra. apply Rabs_le_inv in E. lra.
Qed.
Lemma one_quotient x d X D : 0 <= X -> 0 < D -> (1 - u) * X <= x <= (1 + u) * X -> (1 - u) * D <= d <= (1 + u) * D -> Rabs (fl (x / d) - X / D) <= bpow radix2 (-51) * (X / D) + bpow radix2 (-1075).
Proof.
  intros X0 D0 Hx Hd. pose proof u_pos as U0. pose proof u_small as U1. assert (x0 : 0 <= x) by (assert (0 <= (1 - u) * X) by (apply Rmult_le_pos; lra); lra). assert (d0 : 0 < d) by (assert (0 < (1 - u) * D) by (apply Rmult_lt_0_compat; lra); lra).
  assert (Y0 : 0 <= X / D) by (apply Rmult_le_pos; [exact X0|apply Rlt_le, Rinv_0_lt_compat; exact D0]). assert (y0 : 0 <= x / d) by (apply Rmult_le_pos; [exact x0|apply Rlt_le, Rinv_0_lt_compat; exact d0]). pose proof (fl_nonneg_err _ y0) as F.
  replace (bpow radix2 (-51)) with (4 * u) by (change (-51)%Z with (2 + -53)%Z; rewrite bpow_plus; reflexivity). pose proof (bpow_gt_0 radix2 (-1075)) as E0.
  assert (Ex : x = x / d * d) by (field; lra). assert (EX : X = X / D * D) by (field; lra). set (y := x / d) in *. set (Y := X / D) in *. clearbody y Y. rewrite Ex, EX in Hx. clear Ex EX X0 x0.
  assert (Up : (1 - u) * y <= (1 + u) * Y). { apply Rmult_le_reg_r with D; [exact D0|]. assert (y * ((1 - u) * D) <= y * d) by (apply Rmult_le_compat_l; lra). lra. }
  assert (Lo : (1 - u) * Y <= (1 + u) * y). { apply Rmult_le_reg_r with D; [exact D0|]. assert (y * d <= y * ((1 + u) * D)) by (apply Rmult_le_compat_l; lra). lra. }
  assert (uY : 0 <= u * Y) by (apply Rmult_le_pos; lra). assert (uuY : u * (u * Y) <= / 1000000 * (u * Y)) by (apply Rmult_le_compat_r; lra).
  assert (uu0 : 0 <= u * (u * Y)) by (apply Rmult_le_pos; lra). assert (y1 : y <= Y + 5 / 2 * (u * Y)). { apply Rmult_le_reg_l with (1 - u); [lra|]. lra. } assert (y2 : Y - 2 * (u * Y) <= y). { apply Rmult_le_reg_l with (1 + u); [lra|]. lra. }
  assert (y3 : u * y <= u * (Y + 5 / 2 * (u * Y))) by (apply Rmult_le_compat_l; lra). apply Rabs_le. split; lra.
Qed.

(** C142. The normalised objectives are non-negative doubles, each the exact quotient (f - ideal) / (nadir - ideal) up to the factor 1 + 2^-51 (and 2^-1075), for an ideal point at most the solution's objectives and the nadir point. *)
Theorem C142_normalised : forall n ideal nadir f, length ideal = n -> length nadir = n -> length f = n -> Forall double ideal -> Forall double nadir -> Forall double f -> Forall2 Rle ideal f -> Forall2 Rle ideal nadir ->
  plain_point n (normalise_fl ideal nadir f) /\
  forall j z b x, nth_error ideal j = Some z -> nth_error nadir j = Some b -> nth_error f j = Some x -> z < b ->
    exists y, nth_error (normalise_fl ideal nadir f) j = Some y /\ Rabs (y - (x - z) / (b - z)) <= bpow radix2 (-51) * ((x - z) / (b - z)) + bpow radix2 (-1075).
Proof.
  unfold plain_point, normalise_fl, denom_fl, vsub. intros n ideal nadir f Li Ln Lf Di Dn Df Lef Len. revert nadir f n Li Ln Lf Dn Df Lef Len. induction ideal as [|z ideal IH]; intros [|b nadir] [|x f] n <- Ln Lf Dn Df Lef Len; try discriminate.
  - split; [split; [reflexivity|split; [apply Forall_nil|intros y []]]|]. intros [|j]; discriminate.
  - inversion Di as [|? ? Dz Di']; inversion Dn as [|? ? Db Dn']; inversion Df as [|? ? Dx Df']; inversion Lef as [|? ? ? ? Lx Lef']; inversion Len as [|? ? ? ? Lb Len']. subst. injection Ln as Ln. injection Lf as Lf.
    destruct (IH Di' nadir f (length ideal) eq_refl Ln Lf Dn' Df' Lef' Len') as ((I1 & I2 & I3) & I4). cbn [vmap2 map length]. split; [split; [|split]|].
    + congruence.
    + apply Forall_cons; [apply fl_double|exact I2].
    + intros y [<-|Hy]; [|exact (I3 y Hy)]. assert (F0 : forall w, 0 <= w -> 0 <= fl w) by (intros w Hw; rewrite <- fl_0; apply fl_mono; exact Hw). apply F0. pose proof (F0 (b - z) ltac:(lra)) as B0. pose proof (F0 (x - z) ltac:(lra)) as X0. pose proof (F0 (1 / 1000000000000) ltac:(lra)) as T0.
      assert (G : forall q, 0 <= q -> 0 <= fl (x - z) / q) by (intros q [Q|<-]; [apply Rmult_le_pos; [exact X0|apply Rlt_le, Rinv_0_lt_compat; exact Q]|unfold Rdiv; rewrite Rinv_0, Rmult_0_r; lra]). apply G. destruct (Req_EM_T (fl (b - z)) 0); assumption.
    + intros [|j] z' b' x' Ez Eb Ex Lt; cbn [nth_error] in *; [|exact (I4 j z' b' x' Ez Eb Ex Lt)]. injection Ez as <-. injection Eb as <-. injection Ex as <-. eexists. split; [reflexivity|]. pose proof (difference_err x z Dx Dz Lx) as Hx. pose proof (difference_err b z Db Dz ltac:(lra)) as Hb.
      assert (P : 0 < fl (b - z)) by (pose proof u_small; assert (0 < (1 - u) * (b - z)) by (apply Rmult_lt_0_compat; lra); lra). destruct (Req_EM_T (fl (b - z)) 0) as [E|_]; [lra|]. apply one_quotient; try assumption; lra.
Qed.

(** C142. A solution equal to the ideal point is associated with the first direction, at distance 0. *)
Theorem C142_ideal_point : forall t1 t2 t3 dirs v, (forall x, In x v -> x = 0) -> dirs <> [] -> niche_of_fl t1 t2 t3 dirs v = 0%nat /\ niche_dist_fl t1 t2 t3 dirs v = 0.
Proof.
  intros t1 t2 t3 dirs v H NE.
  assert (C : forall d, perp_fl t1 t2 t3 v d = 0).
  { intros d. unfold perp_fl. cbv zeta. rewrite sum_zero; [rewrite sqrt_0; apply fl_0|]. intros i.
    assert (R0 : nth i (projection_fl t1 t2 v d) 0 = 0).
    { apply nth_all_zero. unfold projection_fl. cbv zeta. intros x Hx. apply in_map_iff in Hx. destruct Hx as (y & <- & _). unfold dot_fl at 1. rewrite sum_zero; [|intros j; rewrite (nth_all_zero v j H), Rmult_0_l; apply fl_0].
      unfold Rdiv. rewrite !Rmult_0_l, fl_0, Rmult_0_l, fl_0, Rmult_0_l. apply fl_0. }
    rewrite R0, (nth_all_zero v i H), Rminus_0_r, fl_0, Rmult_0_l. apply fl_0. }
  assert (E : niche_of_fl t1 t2 t3 dirs v = 0%nat).
  { unfold niche_of_fl. destruct dirs as [|d ds]; [congruence|]. cbn [map argmin]. rewrite C. clear NE. generalize 1%nat. induction ds as [|w ds IH]; intros m; [reflexivity|]. cbn [map argmin_from]. rewrite C. destruct (Rlt_dec 0 0); [lra|apply IH]. }
  split; [exact E|]. unfold niche_dist_fl. rewrite E. apply C.
Qed.

(** ** Non-vacuity *)
Lemma double_small z : (0 <= z <= 8)%Z -> double (IZR z).
Proof.
  intros H. unfold double. apply generic_format_FLT. exists (Float radix2 z 0); [unfold F2R; cbn [Fnum Fexp bpow]; ring| |discriminate]. cbn [Fnum]. apply Z.le_lt_trans with 8%Z; [lia|reflexivity].
Qed.
Example ex_direction : plain_direction 2 [1; 0] /\ plain_direction 2 [0; 1] /\ plain_point 2 [3; 1].
Proof.
  destruct ex_ordinary as (_ & _ & D1 & D2). assert (M0 : moderate 0) by (left; reflexivity). assert (M1 : moderate 1) by (right; rewrite Rabs_R1; apply (moderate_small 1); lia).
  split; [split; [exact D1|]|split; [split; [exact D2|]|split; [reflexivity|split]]].
  - apply Forall_cons; [exact M1|apply Forall_cons; [exact M0|apply Forall_nil]].
  - apply Forall_cons; [exact M0|apply Forall_cons; [exact M1|apply Forall_nil]].
  - apply Forall_cons; [apply (double_small 3); lia|apply Forall_cons; [apply (double_small 1); lia|apply Forall_nil]].
  - intros x [<-|[<-|[]]]; lra.
Qed.
(** The solution (3, 1) is associated with the first axis, as it is in exact arithmetic. *)
Example ex_niche : niche_of_fl two two two [[1; 0]; [0; 1]] [3; 1] = 0%nat /\ niche_of [[1; 0]; [0; 1]] [3; 1] = 0%nat.
Proof.
  destruct ex_direction as (D1 & D2 & Hv). pose proof (Nat.pow_le_mono_r 2 1 20 ltac:(lia) ltac:(lia)) as P. rewrite Nat.pow_1_r in P.
  refine (C142_unambiguous two two two 2 [[1; 0]; [0; 1]] [3; 1] 0 [1; 0] (le_S 1 1 (le_n 1)) P two_perm two_perm two_perm Hv _ eq_refl _); [intros e [<-|[<-|[]]]; assumption|].
  intros [|[|j]] e Hj He; [congruence| |destruct j; discriminate]. cbn [nth_error] in He. injection He as <-.
  assert (A : perp_dist [3; 1] [1; 0] = 1). { unfold perp_dist. rewrite norm_10. unfold vsub, norm. cbn [map vmap2 dot]. apply Rsqr_inj; [apply sqrt_pos|lra|]. rewrite Rsqr_sqrt; [unfold Rsqr; field|]. match goal with |- 0 <= ?x => replace x with 1 by field end. lra. }
  assert (B : perp_dist [3; 1] [0; 1] = 3). { unfold perp_dist. rewrite norm_01. unfold vsub, norm. cbn [map vmap2 dot]. apply Rsqr_inj; [apply sqrt_pos|lra|]. rewrite Rsqr_sqrt; [unfold Rsqr; field|]. match goal with |- 0 <= ?x => replace x with 9 by field end. lra. }
  rewrite A, B. assert (N4 : norm [3; 1] <= 4) by (unfold norm; apply sqrt_le_intro; [lra|cbn [dot]; lra]). pose proof (norm_nonneg [3; 1]) as N0.
  assert (E1 : INR (2 + 4) * bpow radix2 (-47) <= 6 * / 64) by (apply Rmult_le_compat; [apply pos_INR|apply bpow_ge_0|cbn; lra|change (/ 64) with (bpow radix2 (-6)); apply bpow_le; lia]).
  assert (E2 : bpow radix2 (-519) <= / 64) by (change (/ 64) with (bpow radix2 (-6)); apply bpow_le; lia). assert (E3 : INR (2 + 4) * bpow radix2 (-47) * norm [3; 1] <= 6 * / 64 * 4) by (apply Rmult_le_compat; [apply Rmult_le_pos; [apply pos_INR|apply bpow_ge_0]|exact N0|exact E1|exact N4]). lra.
Qed.
Print Assumptions C142_distance.
Print Assumptions C142_association.
Print Assumptions C142_unambiguous.
Print Assumptions C142_normalised.
Print Assumptions C142_ideal_point.
