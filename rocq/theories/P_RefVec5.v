(** Lemmas for C97: convex combination with a direction turns a vector towards it. *)
From Verif Require Import Base RVec M_APD M_BaseEA M_Lattice M_RefVec P_RefVec.
From Coq Require Import Reals Lra Psatz.
Open Scope R_scope.

Lemma norm_one_dot v : norm v = 1 -> dot v v = 1.
Proof. intros H. rewrite <- norm_sq, H. ring. Qed.
Lemma unit_cos u v : length u = length v -> norm u = 1 -> norm v = 1 -> -1 <= dot u v <= 1.
Proof. intros L Hu Hv. pose proof (dot_le_norms u v L) as H. rewrite Hu, Hv in H. apply Rabs_le_inv in H || idtac. unfold Rabs in H. destruct (Rcase_abs (dot u v)); lra. Qed.

(** The squared length and the component of [a v + b d]. *)
Lemma comb_sq a b v d : length v = length d -> norm v = 1 -> norm d = 1 ->
  dot (vadd (vscale a v) (vscale b d)) (vadd (vscale a v) (vscale b d)) = a * a + 2 * a * b * dot v d + b * b.
Proof.
  intros L Hv Hd. assert (L2 : length (vscale a v) = length (vscale b d)) by (rewrite !vscale_length; auto).
  rewrite dot_add_l by auto. rewrite !dot_add_r by auto. rewrite !dot_scale_l, !dot_scale_r, (dot_comm d v), (norm_one_dot v Hv), (norm_one_dot d Hd). ring.
Qed.
Lemma comb_dot a b v d : length v = length d -> norm d = 1 -> dot (vadd (vscale a v) (vscale b d)) d = a * dot v d + b.
Proof. intros L Hd. rewrite dot_add_l by (rewrite !vscale_length; auto). rewrite !dot_scale_l, (norm_one_dot d Hd). ring. Qed.

(** For c = cos of the angle and n the length of the combination: the angle does not grow. *)
Lemma turn_real a b c n : 0 < a -> 0 < b -> -1 <= c <= 1 -> 0 < n -> n * n = a * a + 2 * a * b * c + b * b -> c <= (a * c + b) / n /\ (-1 < c < 1 -> c < (a * c + b) / n).
Proof.
  intros Ha Hb Hc Hn E.
  assert (H1 : a * c + b - c * n >= 0 /\ (-1 < c < 1 -> a * c + b - c * n > 0)).
  { destruct (Rle_dec 0 c) as [Hc0|Hc0].
    - assert (AB : a * b > 0) by nra. assert (N0 : n <= a + b).
      { apply Rnot_lt_le. intros H. assert ((a + b) * (a + b) < n * n) by nra. nra. }
      assert (M : -1 < c < 1 -> n < a + b).
      { intros Hs. apply Rnot_le_lt. intros H. assert ((a + b) * (a + b) <= n * n) by nra. nra. }
      split; [nra|]. intros H. specialize (M H). destruct (Req_EM_T c 0) as [->|]; [nra|]. nra.
    - assert (Hc1 : c < 0) by lra. destruct (Rle_dec 0 (a * c + b)) as [Hp|Hp].
      + split; nra.
      + assert (Hq : a * c + b < 0) by lra.
        (* (a c + b)^2 <= c^2 n^2 *)
        assert (D : (c * n) * (c * n) - (a * c + b) * (a * c + b) = (1 - c * c) * (- b) * (2 * a * c + b)).
        { replace ((c * n) * (c * n)) with (c * c * (n * n)) by ring. rewrite E. ring. }
        assert (G : 2 * a * c + b < 0) by nra.
        assert (P1 : 0 <= 1 - c * c) by nra.
        assert (P2 : 0 <= (c * n) * (c * n) - (a * c + b) * (a * c + b)).
        { rewrite D. replace ((1 - c * c) * - b * (2 * a * c + b)) with ((1 - c * c) * (b * - (2 * a * c + b))) by ring. apply Rmult_le_pos; auto. apply Rmult_le_pos; lra. }
        assert (P3 : -1 < c < 1 -> 0 < (c * n) * (c * n) - (a * c + b) * (a * c + b)).
        { intros H. rewrite D. replace ((1 - c * c) * - b * (2 * a * c + b)) with ((1 - c * c) * (b * - (2 * a * c + b))) by ring. apply Rmult_lt_0_compat; [nra|]. apply Rmult_lt_0_compat; lra. }
        assert (Z : c * n < 0) by nra.
        split.
        * destruct (Rlt_dec (a * c + b - c * n) 0); [exfalso|lra]. nra.
        * intros H. specialize (P3 H). destruct (Rlt_dec 0 (a * c + b - c * n)); [lra|exfalso]. nra. }
  destruct H1 as (H1 & H2). assert (I : 0 < / n) by (apply Rinv_0_lt_compat; auto). unfold Rdiv. split.
  - replace c with (c * n * / n) at 1 by (field; lra). apply Rmult_le_compat_r; lra.
  - intros H. replace c with (c * n * / n) at 1 by (field; lra). apply Rmult_lt_compat_r; auto. specialize (H2 H). lra.
Qed.

Lemma dot_map_div r v w : dot (map (fun x => x / r) v) w = dot v w / r.
Proof. revert w. induction v as [|x v IH]; intros [|y w]; simpl; try (unfold Rdiv; ring). rewrite IH. unfold Rdiv. ring. Qed.

Lemma turned a b v d : 0 < a -> 0 < b -> length v = length d -> norm v = 1 -> norm d = 1 ->
  let w := unit_row (vadd (vscale a v) (vscale b d)) in
  dot v d <= dot w d /\ (-1 < dot v d < 1 -> dot v d < dot w d /\ norm w = 1).
Proof.
  intros Ha Hb L Hv Hd w. pose proof (unit_cos v d L Hv Hd) as C. set (p := vadd (vscale a v) (vscale b d)) in *.
  pose proof (comb_sq a b v d L Hv Hd) as Sq. pose proof (comb_dot a b v d L Hd) as Dt. fold p in Sq, Dt. assert (W : dot w d = (a * dot v d + b) / zero_eps (norm p)) by (unfold w, unit_row; rewrite dot_map_div, Dt; reflexivity).
  pose proof (norm_nonneg p) as Np. unfold zero_eps in W. destruct (Req_EM_T (norm p) 0) as [Z|Z].
  - (* zero combination: v = - d *)
    assert (Q : a * a + 2 * a * b * dot v d + b * b = 0) by (rewrite <- Sq, <- norm_sq, Z; ring).
    assert (F : a = b /\ dot v d = -1).
    { assert (AB : 0 < a * b) by (apply Rmult_lt_0_compat; assumption). assert (Q2 : (a - b) * (a - b) + 2 * (a * b) * (1 + dot v d) = 0) by (rewrite <- Q; ring).
      assert (G1 : 0 <= (a - b) * (a - b)) by (apply Rle_0_sqr). assert (G2 : 0 <= 2 * (a * b) * (1 + dot v d)) by (apply Rmult_le_pos; lra).
      assert (G3 : (a - b) * (a - b) = 0) by lra. assert (G4 : 2 * (a * b) * (1 + dot v d) = 0) by lra.
      split; [apply Rmult_integral in G3; destruct G3; lra|]. apply Rmult_integral in G4. destruct G4; lra. }
    destruct F as (F1 & F2). split; [|lra]. rewrite W, F1, F2. replace ((b * -1 + b) / eps) with 0 by (unfold Rdiv; ring). lra.
  - assert (Pp : 0 < norm p) by lra. assert (Q : norm p * norm p = a * a + 2 * a * b * dot v d + b * b) by (rewrite norm_sq; auto).
    destruct (turn_real a b (dot v d) (norm p) Ha Hb C Pp Q) as (T1 & T2). rewrite W. split; auto. intros H. split; [auto|].
    unfold w. rewrite unit_row_scale by auto. rewrite norm_scale, Rabs_right by (apply Rle_ge, Rlt_le, Rinv_0_lt_compat; auto). field. auto.
Qed.
Lemma unit_row_length v : length (unit_row v) = length v.
Proof. apply map_length. Qed.
Lemma vscale_vscale a b v : vscale a (vscale b v) = vscale (a * b) v.
Proof. unfold vscale. rewrite map_map. apply map_ext. intros x. ring. Qed.
Lemma direction_unit r : norm r <> 0 -> norm (map (fun x => x / norm r) r) = 1 /\ r = vscale (norm r) (map (fun x => x / norm r) r).
Proof.
  intros H. pose proof (norm_nonneg r) as N. split.
  - replace (map (fun x => x / norm r) r) with (vscale (/ norm r) r) by (unfold vscale; apply map_ext; intros; unfold Rdiv; ring).
    rewrite norm_scale, Rabs_right by (apply Rle_ge, Rlt_le, Rinv_0_lt_compat; lra). field. auto.
  - unfold vscale. rewrite map_map. rewrite <- (map_id r) at 1. apply map_ext. intros x. field. auto.
Qed.
