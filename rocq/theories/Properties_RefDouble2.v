(** C137, continued: how well separated reference vectors must be for their computed neighbouring angles to be positive. *)
From Coq Require Import Reals Lra Lia Permutation.
From Flocq Require Import Core.
From Verif Require Import Base RVec M_RefVec M_Double P_Double M_RefDouble P_RefDouble Properties_RefDouble.
Open Scope R_scope.
Notation eta := (bpow radix2 (-1075)).
Lemma fl_nonneg_err z : 0 <= z -> (1 - u) * z - eta <= fl z <= (1 + u) * z + eta.
Proof.
  intros Z. pose proof (bpow_gt_0 radix2 (-1075)) as P. destruct (Rle_or_lt (bpow radix2 (-1022)) z) as [H|H]; [pose proof (fl_pos_err z (or_introl H)); lra|].
  assert (E : Rabs (fl z - z) <= eta).
  { apply Rle_trans with (1 := fl_err_ulp z). rewrite ulp_FLT_small; [|reflexivity|rewrite Rabs_pos_eq by exact Z; apply Rlt_trans with (1 := H); apply bpow_lt; lia]. change (-1074)%Z with (1 + -1075)%Z. rewrite bpow_plus. change (bpow radix2 1) with 2. lra. }
  apply Rabs_le_inv in E. pose proof u_pos. nra.
Qed.
(** A sum of rounded non-negative terms, underflow included, in any order. *)
Lemma sum_fl_bounds t g : (forall i, In i (leaves t) -> 0 <= g i) -> let n := length (leaves t) in
  0 <= esum t g /\ 0 <= sum_fl t (fun i => fl (g i)) /\ (1 - u) ^ n * esum t g - INR n * eta <= sum_fl t (fun i => fl (g i)) <= (1 + u) ^ n * (esum t g + INR n * eta).
Proof.
  pose proof u_pos as U0. pose proof u_small as U1. pose proof (bpow_gt_0 radix2 (-1075)) as P. cbv zeta. induction t as [i|l IHl r IHr]; intros H; cbn [sum_fl esum leaves].
  - pose proof (H i (or_introl eq_refl)) as G. pose proof (fl_nonneg_err (g i) G) as [A B]. cbn [length pow INR]. split; [exact G|]. split; [rewrite <- fl_0; apply fl_mono; exact G|]. split; [lra|]. nra.
  - destruct IHl as (L0 & L1 & L2 & L3); [intros i Hi; apply H; cbn [leaves]; apply in_or_app; left; exact Hi|].
    destruct IHr as (R0 & R1 & R2 & R3); [intros i Hi; apply H; cbn [leaves]; apply in_or_app; right; exact Hi|].
    set (a := sum_fl l _) in *. set (b := sum_fl r _) in *. assert (Da : double a) by (apply sum_fl_double; intros; apply fl_double). assert (Db : double b) by (apply sum_fl_double; intros; apply fl_double).
    pose proof (fl_sum_pos_err a b Da Db L1 R1) as [S1 S2]. rewrite app_length. pose proof (leaves_pos l) as Pl. pose proof (leaves_pos r) as Pr. rewrite plus_INR. set (m := length (leaves l)) in *. set (n := length (leaves r)) in *.
    set (A := esum l g) in *. set (B := esum r g) in *.
    pose proof (pow_down (1 - u) m (m + n - 1) ltac:(lra) ltac:(lia)). pose proof (pow_down (1 - u) n (m + n - 1) ltac:(lra) ltac:(lia)).
    pose proof (pow_up (1 + u) m (m + n - 1) ltac:(lra) ltac:(lia)). pose proof (pow_up (1 + u) n (m + n - 1) ltac:(lra) ltac:(lia)). pose proof (pos_INR m). pose proof (pos_INR n).
    replace (m + n)%nat with (S (m + n - 1)) by lia. cbn [pow]. set (p := (1 - u) ^ (m + n - 1)) in *. set (q := (1 + u) ^ (m + n - 1)) in *. set (x := INR m) in *. set (y := INR n) in *.
    assert (0 <= x * eta) by nra. assert (0 <= y * eta) by nra. split; [lra|]. split; [|split].
    + rewrite <- fl_0. apply fl_mono. lra.
    + apply Rle_trans with (2 := S1). assert (p * (A + B) - (x + y) * eta <= a + b) by nra. nra.
    + apply Rle_trans with (1 := S2). rewrite Rmult_assoc. apply Rmult_le_compat_l; [lra|]. nra.
Qed.
Lemma leaves_range t n i : Permutation (leaves t) (seq 0 n) -> length (leaves t) = n /\ (In i (leaves t) -> (i < n)%nat).
Proof. intros P. split; [rewrite (Permutation_length P); apply seq_length|]. intros H. apply (Permutation_in _ P), in_seq in H. lia. Qed.
Lemma eta_small n : (n <= 2 ^ 20)%nat -> INR n * eta <= bpow radix2 (-1055).
Proof. intros H. apply INR_2pow20 in H. change (-1055)%Z with (20 + -1075)%Z. rewrite bpow_plus. pose proof (bpow_gt_0 radix2 (-1075)). apply Rmult_le_compat_r; lra. Qed.
Lemma nth_nonneg (v : list R) i : (forall x, In x v -> 0 <= x) -> 0 <= nth i v 0.
Proof. intros H. destruct (nth_in_or_default i v 0) as [A|A]; [exact (H _ A)|rewrite A; lra]. Qed.
(** C137. The cosine computed for two vectors of at most 2^20 non-negative entries is the scalar product up to a relative error n * 2^-52 and 2^-1054, in whatever order the products are added. *)
Theorem C137_cosine_error : forall t v w, (length v <= 2 ^ 20)%nat -> length w = length v -> Permutation (leaves t) (seq 0 (length v)) -> (forall x, In x v \/ In x w -> 0 <= x) ->
  Rabs (dot_fl t v w - dot v w) <= INR (length v) * bpow radix2 (-52) * dot v w + bpow radix2 (-1054).
Proof.
  intros t v w L Lw Ht H. destruct (leaves_range t (length v) 0 Ht) as [Ln _].
  destruct (sum_fl_bounds t (fun i => nth i v 0 * nth i w 0)) as (A & B & C & D).
  { intros i _. apply Rmult_le_pos; apply nth_nonneg; auto. }
  rewrite (esum_seq t _ (length v) Ht), (rsum_dot v w Lw), Ln in *. fold (dot_fl t v w) in *. pose proof (eta_small _ L) as E. pose proof (INR_u _ L) as N. rewrite plus_INR in N. replace (INR 4) with 4 in N by (cbn; lra).
  pose proof u_pos as U0. pose proof u_small as U1. pose proof (pos_INR (length v)) as P. pose proof (pow_minus u (length v) ltac:(lra)) as Pm. pose proof (pow_plus u (length v) ltac:(lra) ltac:(nra)) as Pp.
  change (-52)%Z with (1 + -53)%Z. rewrite (bpow_plus radix2 1). change (bpow radix2 1) with 2. change (-1054)%Z with (1 + -1055)%Z. rewrite (bpow_plus radix2 1). change (bpow radix2 1) with 2.
  pose proof (bpow_gt_0 radix2 (-1075)) as Pe. set (d := dot v w) in *. set (n := INR (length v)) in *. assert (0 <= n * eta) by nra. set (h := bpow radix2 (-1055)) in *. assert (0 <= n * u) by nra. assert (n * u <= / 1000000) by nra.
  apply Rabs_le. split; [nra|]. assert ((1 + 2 * (n * u)) * (d + n * eta) <= d + n * (2 * u) * d + 2 * h); [|nra]. set (e := n * eta) in *. set (z := n * u) in *. replace (n * (2 * u) * d) with (2 * (z * d)) by (unfold z; ring). nra.
Qed.
Lemma second_below (l : list R) i (c : R) x : (forall j y, j <> i -> nth_error l j = Some y -> y <= c) -> second_largest l = Some x -> x <= c.
Proof.
  intros H. unfold second_largest. destruct (argmax l) as [k|] eqn:K; [|discriminate]. destruct (argmax (drop_at k l)) as [j|]; [|discriminate]. intros X.
  destruct (argmax_spec l k K) as (mx & M1 & M2 & _). destruct (Nat.eq_dec k i) as [->|N].
  - unfold drop_at in X. destruct (Nat.lt_ge_cases j (length (firstn i l))) as [Lj|Lj].
    + rewrite nth_error_app1 in X by exact Lj. rewrite firstn_length in Lj. apply (H j); [lia|]. rewrite <- (firstn_skipn i l). rewrite nth_error_app1 by (rewrite firstn_length; lia). exact X.
    + rewrite nth_error_app2 in X by exact Lj. apply nth_error_In in X. apply In_nth_error in X as [q Q]. apply (H (S i + q)%nat); [lia|]. clear - Q. revert l Q. induction i as [|i IH]; intros [|y l] Q; cbn [skipn] in Q; try (destruct q; discriminate); [exact Q|]. cbn. exact (IH l Q).
  - apply Rle_trans with mx; [|exact (H k mx N M1)]. apply nth_error_In in X. unfold drop_at in X. apply M2. apply in_app_or in X.
    destruct X as [Q|Q]; [rewrite <- (firstn_skipn k l); apply in_or_app; left; exact Q|rewrite <- (firstn_skipn (S k) l); apply in_or_app; right; exact Q].
Qed.
Lemma acos_lower x : 0 <= x <= 1 - bpow radix2 (-50) -> bpow radix2 (-25) <= acos x.
Proof.
  intros [A B]. pose proof (bpow_gt_0 radix2 (-50)). pose proof (bpow_gt_0 radix2 (-25)). assert (C : cos (acos x) = x) by (apply cos_acos; lra). destruct (acos_bound x) as [L _].
  assert (S : sin (acos x) <= acos x). { destruct L as [L|L]; [apply Rlt_le, sin_lt_x; exact L|]. rewrite <- L, sin_0. lra. }
  assert (S0 : 0 <= sin (acos x)). { apply sin_ge_0; [exact L|apply acos_bound]. }
  pose proof (sin2_cos2 (acos x)) as E. unfold Rsqr in E. rewrite C in E. assert (E2 : bpow radix2 (-50) = bpow radix2 (-25) * bpow radix2 (-25)) by (rewrite <- bpow_plus; reflexivity).
  set (s := sin (acos x)) in *. set (a := acos x) in *. destruct (Rle_or_lt (bpow radix2 (-25)) a) as [G|G]; [exact G|]. exfalso. assert (s * s < bpow radix2 (-25) * bpow radix2 (-25)) by nra. nra.
Qed.
(** C137. Vectors without negative entries and of length 1 up to (n + 4) * 2^-51 (as the normalisation delivers them): one whose squared distance to every other is at least (n + 8) * 2^-48
    - its entries differ by about 10^-7 - gets a neighbouring angle of at least 2^-25, so dividing by it is harmless. Compare C137_distinct_refuted: at a distance of 10^-9 the angle is 0. *)
Theorem C137_separated_angles : forall t n vs i v, (n <= 2 ^ 20)%nat -> Permutation (leaves t) (seq 0 n) -> (2 <= length vs)%nat ->
  (forall w, In w vs -> length w = n /\ (forall x, In x w -> 0 <= x) /\ Rabs (norm w - 1) <= INR (n + 4) * bpow radix2 (-51)) -> nth_error vs i = Some v ->
  (forall j w, j <> i -> nth_error vs j = Some w -> INR (n + 8) * bpow radix2 (-48) <= dot (vsub w v) (vsub w v)) ->
  exists angle, neighbouring_angle_fl t vs v = Some angle /\ bpow radix2 (-25) <= angle <= fl (PI / 2).
Proof.
  intros t n vs i v L Ht L2 H Hv D. unfold neighbouring_angle_fl. pose proof (nth_error_In _ _ Hv) as Iv. destruct (H v Iv) as (Lv & Pv & Nv).
  destruct (second_some (map (dot_fl t v) vs)) as [x X]; [rewrite map_length; exact L2|]. rewrite X. cbn [option_map].
  assert (X0 : 0 <= x). { apply second_in, in_map_iff in X. destruct X as (w & <- & Hw). destruct (H w Hw) as (_ & Pw & _). apply sum_fl_nonneg. intros k _. apply Rle_trans with (fl 0); [rewrite fl_0; lra|]. apply fl_mono. apply Rmult_le_pos; apply nth_nonneg; assumption. }
  assert (X1 : x <= 1 - bpow radix2 (-50)).
  { apply (second_below _ i _ x) with (2 := X). intros j y Hj Hy. rewrite nth_error_map in Hy. destruct (nth_error vs j) as [w|] eqn:Hw; [|discriminate]. injection Hy as <-. specialize (D j w Hj Hw). destruct (H w (nth_error_In _ _ Hw)) as (Lw & Pw & Nw).
    pose proof (C137_cosine_error t v w ltac:(lia) ltac:(congruence) ltac:(rewrite Lv; exact Ht) ltac:(intros z [Z|Z]; auto)) as E. rewrite Lv in E.
    rewrite dot_sub_l, !dot_sub_r, (dot_comm w v) in D by congruence. pose proof (norm_sq v) as Sv. pose proof (norm_sq w) as Sw. rewrite <- Sv, <- Sw in D. pose proof (norm_nonneg v). pose proof (norm_nonneg w).
    pose proof (INR_u n L) as Nu. rewrite plus_INR in D, Nv, Nw, Nu. replace (INR 4) with 4 in * by (cbn; lra). replace (INR 8) with 8 in D by (cbn; lra). pose proof (pos_INR n) as Pn.
    assert (U : bpow radix2 (-51) = 4 * u) by (change (-51)%Z with (2 + -53)%Z; rewrite bpow_plus; reflexivity). assert (U2 : bpow radix2 (-48) = 32 * u) by (change (-48)%Z with (5 + -53)%Z; rewrite bpow_plus; reflexivity).
    assert (U3 : bpow radix2 (-50) = 8 * u) by (change (-50)%Z with (3 + -53)%Z; rewrite bpow_plus; reflexivity). assert (U4 : bpow radix2 (-52) = 2 * u) by (change (-52)%Z with (1 + -53)%Z; rewrite bpow_plus; reflexivity).
    assert (U5 : bpow radix2 (-1054) <= u) by (apply bpow_le; lia). rewrite U in Nv, Nw. rewrite U2 in D. rewrite U3. rewrite U4 in E. pose proof u_pos as U0. apply Rabs_le_inv in Nv, Nw, E.
    set (a := norm v) in *. set (b := norm w) in *. set (d := dot v w) in *. set (N := INR n) in *. set (q := dot_fl t v w) in *. clear U U2 U3 U4 Sv Sw X X0 Pv Pw H Lv Lw L2.
    set (h := bpow radix2 (-1054)) in *. set (y := u) in *. clearbody a b d N h y q. pose (e := (N + 4) * y). assert (Ee : e = (N + 4) * y) by reflexivity. clearbody e. rewrite <- Ee in Nu. assert (E0 : 0 <= e) by (rewrite Ee; apply Rmult_le_pos; lra). assert (E1 : e <= / 1000000) by lra. assert (E2 : 0 <= e * (/ 1000000 - e)) by (apply Rmult_le_pos; lra).
    assert (A1 : a <= 1 + 4 * e) by (rewrite Ee; lra). assert (B1 : b <= 1 + 4 * e) by (rewrite Ee; lra). assert (A2 : a * a <= 1 + 9 * e) by (apply Rle_trans with ((1 + 4 * e) * (1 + 4 * e)); [apply Rmult_le_compat; lra|lra]).
    assert (B2 : b * b <= 1 + 9 * e) by (apply Rle_trans with ((1 + 4 * e) * (1 + 4 * e)); [apply Rmult_le_compat; lra|lra]).
    assert (Dd : d <= 1 + 9 * e - 16 * ((N + 8) * y)) by lra. assert (Y0 : 0 <= N * y) by (apply Rmult_le_pos; lra). assert (D1 : d <= 1) by (rewrite Ee in Dd; lra).
    assert (N * (2 * y) * d <= N * (2 * y) * 1) by (apply Rmult_le_compat_l; lra). rewrite Ee in Dd. lra. }
  pose proof (bpow_gt_0 radix2 (-50)) as P50. assert (C : clip1 x = x) by (unfold clip1; destruct (Rlt_dec 1 x); lra). rewrite C. exists (fl (acos x)). split; [reflexivity|]. split.
  - rewrite <- (fl_id (bpow radix2 (-25))) by (apply double_bpow; lia). apply fl_mono, acos_lower. split; assumption.
  - apply fl_mono. destruct (Rle_or_lt (acos x) (PI / 2)) as [G|G]; [exact G|]. exfalso. pose proof PI_RGT_0. pose proof (acos_bound x). pose proof (cos_lt_0 (acos x) G ltac:(lra)) as Cn. rewrite cos_acos in Cn by lra. lra.
Qed.
Print Assumptions C137_cosine_error.
Print Assumptions C137_separated_angles.
(** The hypotheses are met. *)
Example ex_separated : exists angle, neighbouring_angle_fl (Node (Leaf 0) (Leaf 1)) [[1; 0]; [0; 1]] [1; 0] = Some angle /\ bpow radix2 (-25) <= angle.
Proof.
  assert (Nm : forall w, In w [[1; 0]; [0; 1]] -> length w = 2%nat /\ (forall x, In x w -> 0 <= x) /\ norm w = 1).
  { intros w [<-|[<-|[]]]; (split; [reflexivity|]); (split; [intros x [<-|[<-|[]]]; lra|]); unfold norm; cbn [dot]; replace (1 * 1 + (0 * 0 + 0)) with 1 by ring; replace (0 * 0 + (1 * 1 + 0)) with 1 by ring; apply sqrt_1. }
  destruct (C137_separated_angles (Node (Leaf 0) (Leaf 1)) 2 [[1; 0]; [0; 1]] 0 [1; 0]) as (a & A & B & _); [apply (Nat.pow_le_mono_r 2 1 20); lia|apply Permutation_refl|cbn; lia| |reflexivity| |exists a; split; assumption].
  - intros w Hw. destruct (Nm w Hw) as (A & B & C). split; [exact A|]. split; [exact B|]. rewrite C, Rminus_diag_eq, Rabs_R0 by reflexivity. apply Rmult_le_pos; [apply pos_INR|apply Rlt_le, bpow_gt_0].
  - intros [|[|j]] w Hj Hw; [congruence| |destruct j; discriminate]. injection Hw as <-. unfold vsub. cbn [vmap2 dot]. replace (INR (2 + 8)) with 10 by (cbn; lra). assert (bpow radix2 (-48) <= / 32) by (change (/ 32) with (bpow radix2 (-5)); apply bpow_le; lia). lra.
Qed.
