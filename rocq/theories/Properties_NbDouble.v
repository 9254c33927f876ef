(** C140: MOEA/D's neighbourhoods, as computed in double precision. *)
From Coq Require Import Reals Lra Lia Permutation Sorted ZArith.
From Flocq Require Import Core.
From Verif Require Import Base RVec P_MOEAD M_Double P_Double M_RefDouble P_RefDouble Properties_RefDouble Properties_RefDouble2 M_LatDouble P_LatDouble Properties_LatDouble M_NbDouble.
Open Scope R_scope.
(** np.argsort: the positions, each once, in the order of their keys. *)
Definition sorts_reals (keys : list R) (r : list nat) : Prop :=
  Permutation r (seq 0 (length keys)) /\ StronglySorted (fun i j => forall x y, nth_error keys i = Some x -> nth_error keys j = Some y -> x <= y) r.

(** ** The computed distances *)
Lemma square_sum_bounds t v w : (length v <= 2 ^ 20)%nat -> length w = length v -> Permutation (leaves t) (seq 0 (length v)) -> Forall double v -> Forall double w ->
  let D := dot (vsub w v) (vsub w v) in let n := INR (length v) in
  0 <= square_sum_fl t v w /\ (1 - (n + 2) * u) * D - n * eta <= square_sum_fl t v w <= (1 + 2 * ((n + 2) * u)) * (D + n * eta).
Proof.
  intros L Lw Ht Dv Dw D n. destruct (leaves_range t (length v) 0 Ht) as [Ln _].
  set (e := fun i => Rabs (fl (nth i w 0 - nth i v 0)) * Rabs (fl (nth i w 0 - nth i v 0))).
  assert (Pe : forall i, 0 <= e i) by (intros i; apply Rmult_le_pos; apply Rabs_pos).
  destruct (sum_fl_bounds t e (fun i _ => Pe i)) as (A & B & C & E). rewrite Ln in C, E. fold n in C, E. change (sum_fl t (fun i => fl (e i))) with (square_sum_fl t v w) in *.
  pose proof u_pos as U0. pose proof u_small as U1.
  assert (Ed : forall i, (1 - u) * (1 - u) * (nth i (vsub w v) 0 * nth i (vsub w v) 0) <= e i <= (1 + u) * (1 + u) * (nth i (vsub w v) 0 * nth i (vsub w v) 0)).
  { intros i. unfold e. rewrite <- Rabs_mult, Rabs_pos_eq by nra. destruct (Nat.lt_ge_cases i (length v)) as [Li|Li].
    - unfold vsub. rewrite (P_RefVec.nth_vmap2 Rminus) by lia. assert (Dx : double (nth i w 0)) by (rewrite Forall_forall in Dw; apply Dw, nth_In; lia). assert (Dy : double (nth i v 0)) by (rewrite Forall_forall in Dv; apply Dv, nth_In; lia).
      set (x := nth i w 0) in *. set (y := nth i v 0) in *. pose proof (sum_err x (- y) Dx (double_opp y Dy)) as S. fold (x - y) in S. set (z := x - y) in *. set (f := fl z) in *. assert (Az : Rabs z * Rabs z = z * z) by (rewrite <- Rabs_mult; apply Rabs_pos_eq; nra).
      assert (Af : Rabs f * Rabs f = f * f) by (rewrite <- Rabs_mult; apply Rabs_pos_eq; nra). pose proof (Rabs_pos z) as Z0. pose proof (Rabs_pos f) as F0. pose proof (Rabs_triang_inv f z) as T1. pose proof (Rabs_triang_inv z f) as T2. rewrite (Rabs_minus_sym z f) in T2.
      rewrite <- Az, <- Af. set (a := Rabs z) in *. set (b := Rabs f) in *. assert (Q : exists c, c = u) by eauto. destruct Q as [c Ec]. rewrite <- Ec in *. assert (B1 : (1 - c) * a <= b) by lra. assert (B2 : b <= (1 + c) * a) by lra. assert (B3 : 0 <= (1 - c) * a) by (apply Rmult_le_pos; lra). split.
      + apply Rle_trans with (((1 - c) * a) * ((1 - c) * a)); [right; ring|apply Rmult_le_compat; assumption].
      + apply Rle_trans with (((1 + c) * a) * ((1 + c) * a)); [apply Rmult_le_compat; assumption|right; ring].
    - rewrite (nth_overflow w), (nth_overflow v) by lia. rewrite Rminus_0_r, fl_0, (nth_overflow (vsub w v)) by (unfold vsub; rewrite vmap2_length by lia; lia). lra. }
  assert (Es : (1 - u) * (1 - u) * D <= esum t e <= (1 + u) * (1 + u) * D).
  { assert (Lv : length (vsub w v) = length v) by (unfold vsub; rewrite vmap2_length; lia). unfold D. rewrite <- (rsum_dot (vsub w v) (vsub w v) eq_refl), Lv, <- (esum_seq t (fun i => nth i (vsub w v) 0 * nth i (vsub w v) 0) _ Ht).
    clear - Ed. induction t as [i|l [IHl1 IHl2] r [IHr1 IHr2]]; cbn [esum]; [apply Ed|]. lra. }
  assert (D0 : 0 <= D) by (unfold D; generalize (vsub w v); clear; intros l; induction l; cbn [dot]; nra).
  pose proof (pow_minus u (length v + 2) ltac:(lra)) as Pm. pose proof (INR_u _ L) as N. rewrite plus_INR in N. replace (INR 4) with 4 in N by (cbn; lra). fold n in N. assert (N0 : 0 <= n) by apply pos_INR.
  pose proof (pow_plus u (length v + 2) ltac:(lra)) as Pp. rewrite !plus_INR in Pm, Pp. replace (INR 2) with 2 in * by (cbn; lra). fold n in Pm, Pp. specialize (Pp ltac:(nra)). rewrite !pow_add in Pm, Pp.
  pose proof (bpow_gt_0 radix2 (-1075)) as E0. assert (0 <= n * eta) by nra. pose proof (pow_le (1 - u) (length v) ltac:(lra)) as P1. pose proof (pow_le (1 + u) (length v) ltac:(lra)) as P2. cbn [pow] in Pm, Pp. rewrite Rmult_1_r in Pm, Pp.
  split; [exact B|]. split.
  - apply Rle_trans with (2 := C). assert ((1 - (n + 2) * u) * D <= (1 - u) ^ length v * esum t e); [|lra]. apply Rle_trans with ((1 - u) ^ length v * ((1 - u) * (1 - u) * D)); [|apply Rmult_le_compat_l; [exact P1|apply Es]]. rewrite <- Rmult_assoc. apply Rmult_le_compat_r; assumption.
  - apply Rle_trans with (1 := E). apply Rle_trans with ((1 + u) ^ length v * ((1 + u) * (1 + u) * (D + n * eta))); [|rewrite <- Rmult_assoc; apply Rmult_le_compat_r; [lra|exact Pp]].
    apply Rmult_le_compat_l; [exact P2|]. destruct Es as [_ Es]. set (h := n * eta) in *. nra.
Qed.

Lemma double_sqrt_err s : double s -> 0 <= s -> (1 - u) * sqrt s <= fl (sqrt s) <= (1 + u) * sqrt s.
Proof.
  intros Ds S0. destruct S0 as [S0|<-]; [|rewrite sqrt_0, fl_0; lra]. apply fl_pos_err. left. destruct (double_grid s Ds) as [k Ek]. pose proof (bpow_gt_0 radix2 (-1074)) as P. assert (K : (1 <= k)%Z). { apply le_IZR. destruct (Z_le_gt_dec 1 k) as [G|G]; [apply IZR_le; exact G|]. exfalso. assert (IZR k <= 0) by (apply IZR_le; lia). nra. }
  apply IZR_le in K. apply Rle_trans with (bpow radix2 (-537)); [apply bpow_le; lia|]. rewrite <- (sqrt_square (bpow radix2 (-537))) by apply bpow_ge_0. apply sqrt_le_1_alt. rewrite <- bpow_plus. change (-537 + -537)%Z with (-1074)%Z. nra.
Qed.
Lemma square_sum_double t v w : double (square_sum_fl t v w).
Proof. apply sum_fl_double. intros. apply fl_double. Qed.
Lemma dot_self_nonneg (x : list R) : 0 <= dot x x.
Proof. induction x; cbn [dot]; nra. Qed.
(** Computed distances in the wrong order belong to squared distances that agree up to rounding. *)
Lemma distance_order t n v a b : (n <= 2 ^ 20)%nat -> Permutation (leaves t) (seq 0 n) -> (forall x, In x [v; a; b] -> length x = n /\ Forall double x) -> distance_fl t v a <= distance_fl t v b ->
  dot (vsub a v) (vsub a v) <= (1 + INR (n + 4) * bpow radix2 (-50)) * dot (vsub b v) (vsub b v) + bpow radix2 (-1050).
Proof.
  intros L Ht H Le. destruct (H v) as [Lv Dv]; [left; reflexivity|]. destruct (H a) as [La Da]; [right; left; reflexivity|]. destruct (H b) as [Lb Db]; [right; right; left; reflexivity|].
  destruct (square_sum_bounds t v a ltac:(lia) ltac:(lia) ltac:(rewrite Lv; exact Ht) Dv Da) as (A0 & A1 & _). destruct (square_sum_bounds t v b ltac:(lia) ltac:(lia) ltac:(rewrite Lv; exact Ht) Dv Db) as (B0 & _ & B2). cbv zeta in A1, B2. rewrite Lv in A1, B2.
  pose proof (double_sqrt_err _ (square_sum_double t v a) A0) as [SA _]. pose proof (double_sqrt_err _ (square_sum_double t v b) B0) as [_ SB]. unfold distance_fl in Le.
  pose proof (dot_self_nonneg (vsub a v)) as Na. pose proof (dot_self_nonneg (vsub b v)) as Nb. pose proof (sqrt_sqrt _ A0) as Qa. pose proof (sqrt_sqrt _ B0) as Qb. pose proof (sqrt_pos (square_sum_fl t v a)) as Ra. pose proof (sqrt_pos (square_sum_fl t v b)) as Rb.
  set (sa := square_sum_fl t v a) in *. set (sb := square_sum_fl t v b) in *. set (ra := sqrt sa) in *. set (rb := sqrt sb) in *. set (x := dot (vsub a v) (vsub a v)) in *. set (y := dot (vsub b v) (vsub b v)) in *.
  pose proof (INR_u n L) as N. rewrite plus_INR in *. replace (INR 4) with 4 in * by (cbn; lra). pose proof (pos_INR n) as N0. pose proof (eta_small n L) as E. pose proof u_pos as U0. assert (U : bpow radix2 (-50) = 8 * u) by (change (-50)%Z with (3 + -53)%Z; rewrite bpow_plus; reflexivity). rewrite U.
  assert (H5 : 32 * (INR n * eta) <= bpow radix2 (-1050)) by (change (-1050)%Z with (5 + -1055)%Z; rewrite bpow_plus; change (bpow radix2 5) with 32; lra). pose proof (bpow_gt_0 radix2 (-1075)) as E0. assert (H0 : 0 <= INR n * eta) by nra.
  set (h := INR n * eta) in *. set (m := INR n) in *. assert (Cs : (1 - u) * ra <= (1 + u) * rb) by lra. pose proof u_small as U1. assert (Cq : (1 - u) * (1 - u) * sa <= (1 + u) * (1 + u) * sb).
  { rewrite <- Qa, <- Qb. assert (C0 : 0 <= (1 - u) * ra) by (apply Rmult_le_pos; lra). apply Rle_trans with (((1 - u) * ra) * ((1 - u) * ra)); [right; ring|]. apply Rle_trans with (((1 + u) * rb) * ((1 + u) * rb)); [apply Rmult_le_compat; assumption|right; ring]. }
  assert (Qc : exists c, c = u) by eauto. destruct Qc as [c Ec]. rewrite <- Ec in *. pose (z := (m + 2) * c). assert (Ez : z = (m + 2) * c) by reflexivity. clearbody z. rewrite <- Ez in A1, B2. assert (Z0 : 0 <= z) by (rewrite Ez; apply Rmult_le_pos; lra). assert (Z2 : 2 * c <= z) by (rewrite Ez; nra).
  assert (Z1 : z <= / 1000000) by (rewrite Ez; lra). replace ((m + 4) * (8 * c)) with (8 * z + 16 * c) by (rewrite Ez; ring).
  assert (K1 : (1 - z) * ((1 - z) * x - h) <= (1 - c) * (1 - c) * sa). { apply Rle_trans with ((1 - z) * sa); [apply Rmult_le_compat_l; lra|apply Rmult_le_compat_r; nra]. }
  assert (K2 : (1 + c) * (1 + c) * sb <= (1 + 2 * z) * ((1 + 2 * z) * (y + h))). { apply Rle_trans with ((1 + 2 * z) * sb); [apply Rmult_le_compat_r; nra|apply Rmult_le_compat_l; lra]. }
  assert (K3 : (1 - 2 * z) * x - h <= (1 - z) * ((1 - z) * x - h)) by nra. assert (K4 : (1 + 2 * z) * ((1 + 2 * z) * (y + h)) <= (1 + 5 * z) * (y + h)). { rewrite <- Rmult_assoc. apply Rmult_le_compat_r; [lra|nra]. }
  assert (K5 : (1 - 2 * z) * x <= (1 + 5 * z) * (y + h) + h). { clear - K1 K2 K3 K4 Cq. assert (X : (1 - 2 * z) * x - h <= (1 + 5 * z) * (y + h)); [|lra]. apply Rle_trans with (1 := K3), Rle_trans with (1 := K1), Rle_trans with (1 := Cq), Rle_trans with (1 := K2). exact K4. }
  assert (K6 : (1 + 5 * z) * (y + h) + h <= (1 - 2 * z) * ((1 + 8 * z) * y + 4 * h)). { clear - Z0 Z1 Nb H0. assert (0 <= y * (z * (/ 16 - z))) by (apply Rmult_le_pos; [lra|apply Rmult_le_pos; lra]). assert (0 <= h * (1 - 7 * z)) by (apply Rmult_le_pos; lra). lra. }
  assert (K7 : x <= (1 + 8 * z) * y + 4 * h). { apply Rmult_le_reg_l with (1 - 2 * z); [lra|]. apply Rle_trans with (1 := K5). exact K6. }
  apply Rle_trans with (1 := K7). assert (0 <= c * y) by nra. lra.
Qed.

(** ** The neighbourhoods *)
(** C140. For all reference vectors of doubles (n <= 2^20 entries each) and whatever the order of summation: the neighbourhood of a vector has min(n_neighbors, number of vectors) distinct members, and a member's
    squared distance exceeds that of a vector outside at most by the factor 1 + (n + 4) * 2^-50 (and 2^-1050): nearest up to rounding. *)
Theorem C140_nearest_up_to_rounding : forall (argsort : list R -> list nat) (t : order) (n : nat) (vs : list (list R)) (n_neighbors i : nat) (v : list R),
  (forall keys, sorts_reals keys (argsort keys)) -> (n <= 2 ^ 20)%nat -> Permutation (leaves t) (seq 0 n) -> (forall w, In w vs -> length w = n /\ Forall double w) -> nth_error vs i = Some v ->
  exists nb, nth_error (neighborhoods_fl argsort t vs n_neighbors) i = Some nb /\ length nb = Nat.min n_neighbors (length vs) /\ NoDup nb /\ (forall j, In j nb -> (j < length vs)%nat) /\
    forall j k a b, In j nb -> ~ In k nb -> nth_error vs j = Some a -> nth_error vs k = Some b ->
      dot (vsub a v) (vsub a v) <= (1 + INR (n + 4) * bpow radix2 (-50)) * dot (vsub b v) (vsub b v) + bpow radix2 (-1050).
Proof.
  intros argsort t n vs nn i v Ha L Ht H Hv. unfold neighborhoods_fl. rewrite nth_error_map, Hv. cbn [option_map]. eexists. split; [reflexivity|].
  destruct (Ha (map (distance_fl t v) vs)) as [P So]. rewrite map_length in P. set (r := argsort (map (distance_fl t v) vs)) in *.
  assert (Lr : length r = length vs) by (rewrite (Permutation_length P), seq_length; reflexivity).
  assert (B : forall j, In j r <-> (j < length vs)%nat).
  { intros j. split; intros Hj; [apply (Permutation_in _ P), in_seq in Hj; lia|]. apply (Permutation_in _ (Permutation_sym P)), in_seq. lia. }
  split; [rewrite firstn_length; lia|]. split; [apply NoDup_firstn, (Permutation_NoDup (Permutation_sym P)), seq_NoDup|].
  split; [intros j Hj; apply B; rewrite <- (firstn_skipn nn r); apply in_or_app; left; exact Hj|].
  intros j k a b Hj Hk Ea Eb. assert (Hs : In k (skipn nn r)).
  { assert (Ik : In k r) by (apply B, nth_error_Some; congruence). rewrite <- (firstn_skipn nn r) in Ik. apply in_app_or in Ik. tauto. }
  apply (distance_order t n v a b L Ht).
  - intros x [<-|[<-|[<-|[]]]]; apply H; eapply nth_error_In; eassumption.
  - apply (SS_firstn_skipn _ _ _ _ _ So Hj Hs); rewrite nth_error_map; [rewrite Ea|rewrite Eb]; reflexivity.
Qed.
Lemma sum_fl_zero t f : (forall i, f i = 0) -> sum_fl t f = 0.
Proof. intros H. induction t as [i|l IHl r IHr]; cbn [sum_fl]; [apply H|]. rewrite IHl, IHr, Rplus_0_l. apply fl_0. Qed.
Lemma distance_self t v : distance_fl t v v = 0.
Proof. unfold distance_fl, square_sum_fl. rewrite sum_fl_zero; [rewrite sqrt_0; apply fl_0|]. intros i. rewrite Rminus_diag_eq, fl_0, Rabs_R0, Rmult_0_l by reflexivity. apply fl_0. Qed.
Lemma distance_pos t n v w : (n <= 2 ^ 20)%nat -> Permutation (leaves t) (seq 0 n) -> length v = n -> Forall double v -> length w = n -> Forall double w ->
  bpow radix2 (-1000) <= dot (vsub w v) (vsub w v) -> 0 < distance_fl t v w.
Proof.
  intros L Ht Lv Dv Lw Dw D. destruct (square_sum_bounds t v w ltac:(lia) ltac:(lia) ltac:(rewrite Lv; exact Ht) Dv Dw) as (A & B & _). cbv zeta in B. rewrite Lv in B. pose proof (INR_u n L) as N. rewrite plus_INR in N. replace (INR 4) with 4 in N by (cbn; lra). pose proof (eta_small n L) as E.
  assert (E2 : 2 * bpow radix2 (-1055) <= bpow radix2 (-1000)) by (change 2 with (bpow radix2 1); rewrite <- bpow_plus; apply bpow_le; lia). pose proof u_pos as U0. pose proof u_small as U1. pose proof (bpow_gt_0 radix2 (-1000)) as P. pose proof (bpow_gt_0 radix2 (-1055)) as P5.
  assert (S0 : 0 < square_sum_fl t v w). { set (x := dot (vsub w v) (vsub w v)) in *. assert (9 / 10 * x <= (1 - (INR n + 2) * u) * x) by (apply Rmult_le_compat_r; lra). lra. }
  unfold distance_fl. pose proof (double_sqrt_err _ (square_sum_double t v w) A) as [F _]. pose proof (sqrt_lt_R0 _ S0). nra.
Qed.
(** C140. A vector whose squared distance to every other is at least 2^-1000 belongs to its own neighbourhood. *)
Theorem C140_contains_itself : forall (argsort : list R -> list nat) (t : order) (n : nat) (vs : list (list R)) (n_neighbors i : nat) (v : list R),
  (forall keys, sorts_reals keys (argsort keys)) -> (n <= 2 ^ 20)%nat -> Permutation (leaves t) (seq 0 n) -> (forall w, In w vs -> length w = n /\ Forall double w) -> nth_error vs i = Some v -> (1 <= n_neighbors)%nat ->
  (forall j w, j <> i -> nth_error vs j = Some w -> bpow radix2 (-1000) <= dot (vsub w v) (vsub w v)) ->
  exists nb, nth_error (neighborhoods_fl argsort t vs n_neighbors) i = Some nb /\ In i nb.
Proof.
  intros argsort t n vs nn i v Ha L Ht H Hv Hn D. unfold neighborhoods_fl. rewrite nth_error_map, Hv. cbn [option_map]. eexists. split; [reflexivity|].
  destruct (Ha (map (distance_fl t v) vs)) as [P So]. rewrite map_length in P. set (r := argsort (map (distance_fl t v) vs)) in *. assert (Li : (i < length vs)%nat) by (apply nth_error_Some; congruence).
  assert (Ii : In i r) by (apply (Permutation_in _ (Permutation_sym P)), in_seq; lia). destruct (in_dec Nat.eq_dec i (firstn nn r)) as [Y|N]; [exact Y|exfalso].
  assert (Hs : In i (skipn nn r)) by (rewrite <- (firstn_skipn nn r) in Ii; apply in_app_or in Ii; tauto).
  destruct r as [|j r']; [destruct Ii|]. destruct nn as [|nn]; [lia|]. cbn [firstn] in N. assert (Hj : In j (firstn (S nn) (j :: r'))) by (left; reflexivity).
  assert (Lj : (j < length vs)%nat) by (assert (Ij : In j (j :: r')) by (left; reflexivity); apply (Permutation_in _ P), in_seq in Ij; lia). destruct (nth_error vs j) as [w|] eqn:Ej; [|apply nth_error_None in Ej; lia].
  assert (Nj : j <> i) by (intros ->; apply N; left; reflexivity). pose proof (SS_firstn_skipn _ _ _ _ _ So Hj Hs (distance_fl t v w) (distance_fl t v v)) as Le. rewrite !nth_error_map, Ej, Hv in Le. specialize (Le eq_refl eq_refl). rewrite distance_self in Le.
  destruct (H v (nth_error_In _ _ Hv)) as [Lv Dv]. destruct (H w (nth_error_In _ _ Ej)) as [Lw Dw]. pose proof (distance_pos t n v w L Ht Lv Dv Lw Dw (D j w Nj Ej)). lra.
Qed.
(** C140. In particular, with the planar vectors MOEA/D starts with (sizes as in C139), every subproblem belongs to its own neighbourhood. *)
Theorem C140_initial_neighbourhoods : forall (argsort : list R -> list nat) (t : order) (n h n_neighbors : nat) (vs : list (list R)) (i : nat) (v : list R),
  (forall keys, sorts_reals keys (argsort keys)) -> (2 <= n <= 2 ^ 20)%nat -> (1 <= h)%nat -> (Z.of_nat (n + 8) * (Z.of_nat h * Z.of_nat h) <= 2 ^ 44)%Z -> Permutation (leaves t) (seq 0 n) -> (1 <= n_neighbors)%nat ->
  planar_vectors_fl t h n = Ok vs -> nth_error vs i = Some v ->
  exists nb, nth_error (neighborhoods_fl argsort t vs n_neighbors) i = Some nb /\ In i nb /\ length nb = Nat.min n_neighbors (length vs) /\ NoDup nb.
Proof.
  intros argsort t n h nn vs i v Ha Hn Hh Hs Ht H1 E Ei. destruct (C139_planar_vectors t n h Hn Hh Hs Ht) as (planar & vs' & _ & E' & _ & _ & _ & A). assert (vs' = vs) by congruence. subst vs'.
  assert (M : forall w, In w vs -> length w = n /\ Forall double w) by (intros w Hw; apply In_nth_error in Hw as [j Hj]; destruct (A j w Hj) as (w0 & _ & _ & _ & _ & Lw & Dw & _); split; assumption).
  destruct (C140_nearest_up_to_rounding argsort t n vs nn i v Ha (proj2 Hn) Ht M Ei) as (nb & B1 & B2 & B3 & _). destruct (C140_contains_itself argsort t n vs nn i v Ha (proj2 Hn) Ht M Ei H1) as (nb' & C1 & C2).
  { intros j w Hj Ej. destruct (A i v Ei) as (w0 & _ & _ & _ & _ & _ & _ & _ & _ & _ & Sep). apply Rle_trans with (2 := Sep j w Hj Ej). apply Rle_trans with (bpow radix2 (-48)); [apply bpow_le; lia|].
    pose proof (bpow_gt_0 radix2 (-48)). rewrite plus_INR. replace (INR 8) with 8 by (cbn; lra). pose proof (pos_INR n). nra. }
  exists nb. assert (nb' = nb) by congruence. subst nb'. repeat split; assumption.
Qed.
Print Assumptions C140_nearest_up_to_rounding.
Print Assumptions C140_contains_itself.
Print Assumptions C140_initial_neighbourhoods.

(** An argsort exists: insertion sort. *)
Fixpoint insR (keys : list R) (i : nat) (r : list nat) : list nat :=
  match r with [] => [i] | j :: s => if Rle_dec (nth i keys 0) (nth j keys 0) then i :: r else j :: insR keys i s end.
Definition argsortR (keys : list R) : list nat := fold_right (insR keys) [] (seq 0 (length keys)).
Lemma insR_perm keys i r : Permutation (insR keys i r) (i :: r).
Proof. induction r as [|j s IH]; cbn [insR]; [apply Permutation_refl|]. destruct (Rle_dec _ _); [apply Permutation_refl|]. apply perm_trans with (j :: i :: s); [apply perm_skip; exact IH|apply perm_swap]. Qed.
Lemma insR_sorted keys i r : StronglySorted (fun a b => nth a keys 0 <= nth b keys 0) r -> StronglySorted (fun a b => nth a keys 0 <= nth b keys 0) (insR keys i r).
Proof.
  induction r as [|j s IH]; cbn [insR]; intros H; [constructor; [constructor|constructor]|]. inversion H as [|? ? H2 H3]; subst. destruct (Rle_dec (nth i keys 0) (nth j keys 0)) as [E|E].
  - constructor; [exact H|]. constructor; [exact E|]. eapply Forall_impl; [|exact H3]. cbn. intros a Ha. lra.
  - constructor; [exact (IH H2)|]. apply (Permutation_Forall (Permutation_sym (insR_perm keys i s))). constructor; [lra|exact H3].
Qed.
Example ex_argsort : forall keys, sorts_reals keys (argsortR keys).
Proof.
  intros keys. unfold argsortR. split.
  - generalize (seq 0 (length keys)) as l. induction l as [|i l IH]; cbn [fold_right]; [constructor|]. apply perm_trans with (1 := insR_perm _ _ _). apply perm_skip. exact IH.
  - assert (So : StronglySorted (fun a b => nth a keys 0 <= nth b keys 0) (fold_right (insR keys) [] (seq 0 (length keys)))).
    { generalize (seq 0 (length keys)) as l. induction l as [|i l IH]; cbn [fold_right]; [constructor|]. apply insR_sorted. exact IH. }
    revert So. generalize (fold_right (insR keys) [] (seq 0 (length keys))) as r. induction 1 as [|a r So IH F]; constructor; [exact IH|].
    eapply Forall_impl; [|exact F]. cbn. intros b Hb x y Hx Hy. rewrite (nth_error_nth _ _ _ Hx), (nth_error_nth _ _ _ Hy) in Hb. exact Hb.
Qed.
