(** C141: the computed angle against the true one. *)
From Coq Require Import Reals Lra Lia Permutation.
From Flocq Require Import Core.
From Verif Require Import Base RVec M_APD P_APD M_Double P_Double M_RefDouble P_RefDouble Properties_RefDouble Properties_RefDouble2 M_APDDouble P_APDDouble Properties_APDDouble.
Open Scope R_scope.
Notation u := (bpow radix2 (-53)).

Lemma cos_drop d : 0 <= d <= PI / 2 -> d * d <= 3 * (1 - cos d).
Proof.
  intros [A B]. pose proof PI_4. assert (D2 : d <= 2) by lra. destruct (pre_cos_bound d 0 ltac:(lra) D2) as (_ & C). unfold cos_approx, cos_term in C. cbn in C.
  assert (Q : d * d <= 4) by (replace 4 with (2 * 2) by ring; apply Rmult_le_compat; lra). assert (P : 0 <= d * d) by (apply Rmult_le_pos; lra). assert (PQ : d * d * (d * d) <= 4 * (d * d)) by (apply Rmult_le_compat_r; assumption). lra.
Qed.
Lemma angles_close a b : 0 <= a -> a <= b -> b <= PI / 2 -> (b - a) * (b - a) <= 3 * (cos a - cos b).
Proof.
  intros A AB B. pose proof (cos_drop (b - a) ltac:(lra)) as D. apply Rle_trans with (1 := D). apply Rmult_le_compat_l; [lra|].
  assert (E1 : 1 - cos (b - a) = 2 * (sin ((b - a) / 2) * sin ((b - a) / 2))) by (replace (b - a) with (2 * ((b - a) / 2)) at 1 by lra; rewrite cos_2a_sin; ring).
  assert (E2 : cos a - cos b = 2 * (sin ((b - a) / 2) * sin ((a + b) / 2))) by (rewrite form2; replace ((a - b) / 2) with (- ((b - a) / 2)) by lra; rewrite sin_neg; ring).
  rewrite E1, E2. apply Rmult_le_compat_l; [lra|]. pose proof PI_RGT_0. apply Rmult_le_compat_l; [apply sin_ge_0; lra|]. apply sin_incr_1; lra.
Qed.
Lemma acos_close x y : 0 <= x <= 1 -> 0 <= y <= 1 -> (acos x - acos y) * (acos x - acos y) <= 3 * Rabs (x - y).
Proof.
  intros X Y. assert (G : forall z, 0 <= z <= 1 -> 0 <= acos z <= PI / 2 /\ cos (acos z) = z).
  { intros z Z. pose proof (acos_bound z) as B. pose proof (cos_acos z ltac:(lra)) as C. split; [|exact C]. split; [apply B|]. destruct (Rle_or_lt (acos z) (PI / 2)) as [W|W]; [exact W|]. pose proof PI_RGT_0. pose proof (cos_lt_0 _ W ltac:(lra)). lra. }
  destruct (G x X) as (X1 & X2). destruct (G y Y) as (Y1 & Y2). pose proof (Rle_abs (x - y)) as R1. pose proof (Rle_abs (- (x - y))) as R2. rewrite Rabs_Ropp in R2. destruct (Rle_or_lt (acos x) (acos y)) as [L|L].
  - pose proof (angles_close (acos x) (acos y) ltac:(lra) L ltac:(lra)) as H. rewrite X2, Y2 in H. replace ((acos x - acos y) * (acos x - acos y)) with ((acos y - acos x) * (acos y - acos x)) by ring. lra.
  - pose proof (angles_close (acos y) (acos x) ltac:(lra) ltac:(lra) ltac:(lra)) as H. rewrite X2, Y2 in H. lra.
Qed.

(** C141. The computed angle differs from the true angle by at most the root of (n + 4) * 2^-47: about 10^-7 for a few objectives (half the digits are lost near angle 0, where the cosine is flat). *)
Theorem C141_angle : forall t1 t2 n tr v, (n <= 2 ^ 20)%nat -> Permutation (leaves t1) (seq 0 n) -> Permutation (leaves t2) (seq 0 n) -> ordinary n tr -> direction n v ->
  (theta_fl t1 t2 tr v - acos (cosine_of tr v)) * (theta_fl t1 t2 tr v - acos (cosine_of tr v)) <= INR (n + 4) * bpow radix2 (-47).
Proof.
  intros t1 t2 n tr v Hn H1 H2 Ho Hd. pose proof (C141_cosine t1 t2 n tr v Hn H1 H2 Ho Hd) as C. pose proof (ordinary_pos n tr Ho) as N1. destruct (small_units n N1 Hn) as (Z & Zu & _). destruct (ordinary_moderate n tr Ho) as (_ & Pt). destruct Ho as (Lt & _ & x0 & Hx0 & Nx0). destruct Hd as (Lv & Pv & Nv).
  replace (INR (n + 4) * bpow radix2 (-49)) with (16 * (INR (n + 4) * u)) in C by (change (-49)%Z with (4 + -53)%Z; rewrite bpow_plus; change (bpow radix2 4) with 16; ring).
  replace (INR (n + 4) * bpow radix2 (-47)) with (64 * (INR (n + 4) * u)) by (change (-47)%Z with (6 + -53)%Z; rewrite bpow_plus; change (bpow radix2 6) with 64; ring).
  replace (INR (n + 4) * bpow radix2 (-51)) with (4 * (INR (n + 4) * u)) in Nv by (change (-51)%Z with (2 + -53)%Z; rewrite bpow_plus; change (bpow radix2 2) with 4; ring).
  set (z := INR (n + 4) * u) in *. apply Rabs_le_inv in Nv. pose proof (norm_pos tr x0 Hx0 Nx0) as Np. assert (Sv : 0 < norm v) by lra.
  assert (C0 : 0 <= cosine_of tr v) by (unfold cosine_of; apply Rmult_le_pos; [apply dot_nonneg; assumption|apply Rlt_le, Rinv_0_lt_compat, Rmult_lt_0_compat; assumption]).
  assert (C1 : cosine_of tr v <= 1).
  { unfold cosine_of. apply Rmult_le_reg_r with (norm tr * norm v); [apply Rmult_lt_0_compat; assumption|]. unfold Rdiv. rewrite Rmult_assoc, Rinv_l, Rmult_1_r, Rmult_1_l by (apply Rgt_not_eq, Rmult_lt_0_compat; assumption). apply Rle_trans with (1 := Rle_abs _). apply dot_le_norms. congruence. }
  pose proof (clip01_range (dot_fl t2 (unit_row_fl t1 tr) v)) as R1. fold (cosine_fl t1 t2 tr v) in R1. pose proof (acos_close _ _ R1 (conj C0 C1)) as A. unfold theta_fl. set (a := acos (cosine_fl t1 t2 tr v)) in *. set (b := acos (cosine_of tr v)) in *.
  pose proof (acos_bound (cosine_fl t1 t2 tr v)) as B. fold a in B. pose proof PI_4. pose proof u_pos as U0. pose proof u_small as U1. pose proof (fl_nonneg_err a (proj1 B)) as F. assert (E : bpow radix2 (-1075) <= u) by (apply bpow_le; lia).
  assert (ua : u * a <= u * 4) by (apply Rmult_le_compat_l; lra). assert (D : (a - b) * (a - b) <= 48 * z) by lra. set (d := a - b) in *. set (e := fl a - a) in *. assert (He : - (5 * u) <= e <= 5 * u) by (unfold e; lra). replace (fl a - b) with (d + e) by (unfold d, e; ring). clearbody d e z.
  assert (ee : e * e <= 5 * u * (5 * u)) by nra. assert (uu2 : u * u <= / 1000000 * u) by (apply Rmult_le_compat_r; lra).
  assert (de : 2 * (d * e) <= / 100 * (d * d) + 100 * (e * e)) by (pose proof (Rle_0_sqr (d / 10 - 10 * e)) as Q; unfold Rsqr in Q; lra). replace ((d + e) * (d + e)) with (d * d + 2 * (d * e) + e * e) by ring. lra.
Qed.
(** C141. When the cosine with one vector is larger than with every other by more than (n + 4) * 2^-48, that vector is the one assigned. *)
Theorem C141_unambiguous : forall t1 t2 n vecs tr k v, (n <= 2 ^ 20)%nat -> Permutation (leaves t1) (seq 0 n) -> Permutation (leaves t2) (seq 0 n) -> ordinary n tr -> (forall w, In w vecs -> direction n w) ->
  nth_error vecs k = Some v -> (forall j w, j <> k -> nth_error vecs j = Some w -> cosine_of tr w + INR (n + 4) * bpow radix2 (-48) < cosine_of tr v) -> assigned_fl t1 t2 vecs tr = k.
Proof.
  intros t1 t2 n vecs tr k v Hn H1 H2 Ho Hd Hk Hs. assert (NE : vecs <> []) by (intros X; rewrite X in Hk; destruct k; discriminate). destruct (C141_assignment t1 t2 n vecs tr Hn H1 H2 Ho NE Hd) as (w & Hw & M).
  destruct (Nat.eq_dec (assigned_fl t1 t2 vecs tr) k) as [G|G]; [exact G|]. exfalso. specialize (Hs _ w G Hw). specialize (M v (nth_error_In _ _ Hk)). lra.
Qed.
Print Assumptions C141_angle.
Print Assumptions C141_unambiguous.
