(** Proofs about the angle penalized distance in double precision. *)
From Coq Require Import Reals Lra Lia Permutation.
From Flocq Require Import Core.
From Verif Require Import Base RVec M_APD P_APD M_Double P_Double M_RefDouble P_RefDouble Properties_RefDouble Properties_RefDouble2 M_APDDouble.
Open Scope R_scope.
Notation u := (bpow radix2 (-53)).
Notation eta := (bpow radix2 (-1075)).

(** Computed norms. *)
Lemma magnitude_err t v : (length v <= 2 ^ 20)%nat -> Permutation (leaves t) (seq 0 (length v)) -> Forall moderate v -> (exists x, In x v /\ x <> 0) ->
  (1 - INR (length v + 4) * u) * norm v <= magnitude_fl t v <= (1 + 2 * (INR (length v + 4) * u)) * norm v /\ bpow radix2 (-502) <= magnitude_fl t v <= bpow radix2 512.
Proof.
  intros Hn Ht Hm Hz. pose proof (q_range t v Hn Ht Hm Hz) as QR. split; [|exact QR]. pose proof (q_bounds t v Hn Ht Hm Hz) as [B1 B2]. pose proof (s_bounds t v Hn Ht Hm) as [S1 S2]. pose proof (s_range t v Hn Ht Hm Hz) as [S0 _].
  pose proof (u_pos) as U0. pose proof u_small as U1. pose proof (INR_u _ Hn) as N. unfold magnitude_fl. pose proof (bpow_gt_0 radix2 (-1001)) as P1. pose proof (bpow_gt_0 radix2 (-502)) as P2. destruct QR as [Q0 _].
  pose proof (norm_nonneg v) as N0. pose proof (norm_sq v) as Nq.
  pose proof (pow_minus u (length v + 4) ltac:(lra)) as E1. pose proof (pow_plus u (length v + 4) ltac:(lra) ltac:(lra)) as E2.
  pose proof (pow_down (1 - u) (length v + 2) (length v + 4) ltac:(lra) ltac:(lia)) as E3. pose proof (pow_up (1 + u) (length v + 2) (length v + 4) ltac:(lra) ltac:(lia)) as E4.
  rewrite (pow_add (1 - u) (length v) 2) in E3. rewrite (pow_add (1 + u) (length v) 2) in E4. cbn [pow] in E3, E4. rewrite Rmult_1_r in E3, E4.
  set (s := sum_fl t (fun i => fl (nth i v 0 * nth i v 0))) in *. pose proof (sqrt_pos s) as R0. pose proof (sqrt_sqrt s ltac:(lra)) as RR. set (q := fl (sqrt s)) in *. set (r := sqrt s) in *. clearbody q r s.
  assert (D0 : 0 <= dot v v) by (rewrite <- Nq; apply Rmult_le_pos; exact N0).
  assert (C1 : q * q <= (1 + u) * (1 + u) * s) by (rewrite <- RR; apply Rle_trans with (((1 + u) * r) * ((1 + u) * r)); [apply Rmult_le_compat; lra|right; ring]).
  assert (C2 : (1 - u) * (1 - u) * s <= q * q) by (rewrite <- RR; assert (0 <= (1 - u) * r) by (apply Rmult_le_pos; lra); apply Rle_trans with (((1 - u) * r) * ((1 - u) * r)); [right; ring|apply Rmult_le_compat; lra]).
  set (z := INR (length v + 4) * u) in *. assert (Z0 : 0 <= z) by (apply Rmult_le_pos; [apply pos_INR|lra]). set (D := dot v v) in *. set (a := (1 - u) ^ length v) in *. set (b := (1 + u) ^ length v) in *.
  set (N1 := norm v) in *. clearbody z D a b N1. 
  assert (F1 : (1 - u) * (1 - u) * (a * D) <= (1 - u) * (1 - u) * s) by (apply Rmult_le_compat_l; [apply Rmult_le_pos; lra|exact S1]).
  assert (F2 : (1 + u) * (1 + u) * s <= (1 + u) * (1 + u) * (b * D)) by (apply Rmult_le_compat_l; [apply Rmult_le_pos; lra|exact S2]).
  assert (G1 : (1 - z) * D <= q * q).
  { apply Rle_trans with (2 := C2). apply Rle_trans with (2 := F1). replace ((1 - u) * (1 - u) * (a * D)) with (a * ((1 - u) * (1 - u)) * D) by ring. apply Rmult_le_compat_r; [exact D0|lra]. }
  assert (G2 : q * q <= (1 + 2 * z) * D).
  { apply Rle_trans with (1 := C1). apply Rle_trans with (1 := F2). replace ((1 + u) * (1 + u) * (b * D)) with (b * ((1 + u) * (1 + u)) * D) by ring. apply Rmult_le_compat_r; [exact D0|lra]. }
  rewrite <- Nq in G1, G2. split.
  - apply Rsqr_incr_0_var; [unfold Rsqr|lra]. apply Rle_trans with (2 := G1). replace ((1 - z) * N1 * ((1 - z) * N1)) with ((1 - z) * (1 - z) * (N1 * N1)) by ring. apply Rmult_le_compat_r; [apply Rmult_le_pos; exact N0|]. 
    apply Rle_trans with ((1 - z) * 1); [apply Rmult_le_compat_l; lra|lra].
  - apply Rsqr_incr_0_var; [unfold Rsqr|apply Rmult_le_pos; lra]. apply Rle_trans with (1 := G2). replace ((1 + 2 * z) * N1 * ((1 + 2 * z) * N1)) with ((1 + 2 * z) * (1 + 2 * z) * (N1 * N1)) by ring. apply Rmult_le_compat_r; [apply Rmult_le_pos; exact N0|].
    apply Rle_trans with ((1 + 2 * z) * 1); [lra|apply Rmult_le_compat_l; lra].
Qed.

(** Scalar products with a rescaled non-negative vector. *)
Lemma dot_scaled l v w : 0 < l -> (forall x, In x v -> 0 <= x) -> Forall2 (fun x y => Rabs (y - l * x) <= u * (l * Rabs x)) v w -> forall c, (forall x, In x c -> 0 <= x) ->
  (1 - u) * (l * dot v c) <= dot w c <= (1 + u) * (l * dot v c).
Proof.
  intros Hl Hv F. induction F as [|x y v w E F IH]; intros c Hc; [cbn [dot]; lra|]. destruct c as [|z c]; [cbn [dot]; lra|]. cbn [dot].
  specialize (IH (fun x Hx => Hv x (or_intror Hx)) c (fun x Hx => Hc x (or_intror Hx))). pose proof (Hv x (or_introl eq_refl)) as X0. pose proof (Hc z (or_introl eq_refl)) as Z0. rewrite (Rabs_pos_eq x) in E by exact X0. apply Rabs_le_inv in E.
  assert (A : ((1 - u) * (l * x)) * z <= y * z) by (apply Rmult_le_compat_r; lra). assert (B : y * z <= ((1 + u) * (l * x)) * z) by (apply Rmult_le_compat_r; lra). lra.
Qed.
Lemma norm_scaled l v w : 0 < l -> Forall2 (fun x y => Rabs (y - l * x) <= u * (l * Rabs x)) v w -> (1 - u) * (l * norm v) <= norm w <= (1 + u) * (l * norm v).
Proof.
  intros Hl F. pose proof u_pos as U0. pose proof u_small as U1.
  assert (G : Forall2 (fun x y => (1 - u) * l * Rabs x <= Rabs y <= (1 + u) * l * Rabs x) v w).
  { clear - F Hl U0 U1. induction F as [|x y v w E F IH]; constructor; [|exact IH]. assert (E0 : Rabs (l * x) = l * Rabs x) by (rewrite Rabs_mult, (Rabs_pos_eq l) by lra; reflexivity).
    pose proof (Rabs_triang_inv y (l * x)). pose proof (Rabs_triang_inv (l * x) y) as T2. rewrite Rabs_minus_sym in T2. split; lra. }
  pose proof (dot_scaled_bounds ((1 - u) * l) ((1 + u) * l) ltac:(apply Rmult_le_pos; lra) ltac:(apply Rmult_le_pos; lra) _ _ G) as [L H]. rewrite <- !norm_sq in L, H. pose proof (norm_nonneg v) as N0. pose proof (norm_nonneg w) as N1. split.
  - apply Rsqr_incr_0_var; [unfold Rsqr|exact N1]. apply Rle_trans with (2 := L). right; ring.
  - apply Rsqr_incr_0_var; [unfold Rsqr|apply Rmult_le_pos; [lra|apply Rmult_le_pos; lra]]. apply Rle_trans with (1 := H). right; ring.
Qed.
Lemma clip01_range x : 0 <= clip01 x <= 1.
Proof. unfold clip01. destruct (Rlt_dec 1 x), (Rlt_dec x 0); lra. Qed.
Lemma clip01_near x c : 0 <= c <= 1 -> Rabs (clip01 x - c) <= Rabs (x - c).
Proof. intros H. unfold clip01. destruct (Rlt_dec 1 x); [rewrite !Rabs_pos_eq by lra; lra|]. destruct (Rlt_dec x 0); [rewrite !Rabs_left1 by lra; lra|lra]. Qed.

Lemma cosine_chain (z y C m W nw Nv d h : R) : 0 <= z <= / 1000000 -> 0 <= y -> 5 * y <= z -> 0 <= C <= 1 -> 0 <= h <= y -> (1 - y) * m <= nw <= (1 + y) * m -> 1 - 4 * z <= nw <= 1 + 4 * z -> 1 - 4 * z <= Nv <= 1 + 4 * z ->
  (1 - y) * (C * (m * Nv)) <= W <= (1 + y) * (C * (m * Nv)) -> Rabs (d - W) <= 2 * z * W + h -> Rabs (d - C) <= 16 * z.
Proof.
  intros Hz Hy Hyz HC Hh [A1 A2] [B1 B2] [N1 N2] [W1 W2] D.
  assert (M2 : m <= 1 + 5 * z).
  { apply Rmult_le_reg_l with (1 - y); [lra|]. apply Rle_trans with (1 := A1). apply Rle_trans with (1 := B2). assert (y * z <= / 1000000 * y) by (rewrite Rmult_comm; apply Rmult_le_compat_r; lra). lra. }
  assert (M1 : 1 - 5 * z <= m).
  { apply Rmult_le_reg_l with (1 + y); [lra|]. apply Rle_trans with (2 := A2). apply Rle_trans with (2 := B1). assert (0 <= y * z) by (apply Rmult_le_pos; lra). lra. }
  assert (Z2 : 0 <= z * z <= / 1000000 * z) by (split; [apply Rmult_le_pos; lra|apply Rmult_le_compat_r; lra]).
  assert (P2 : m * Nv <= 1 + 10 * z) by (apply Rle_trans with ((1 + 5 * z) * (1 + 4 * z)); [apply Rmult_le_compat; lra|lra]).
  assert (P1 : 1 - 9 * z <= m * Nv) by (apply Rle_trans with ((1 - 5 * z) * (1 - 4 * z)); [lra|apply Rmult_le_compat; lra]).
  set (P := m * Nv) in *. clearbody P. assert (Yz : 0 <= y * z <= / 1000000 * z) by (split; [apply Rmult_le_pos; lra|apply Rmult_le_compat_r; lra]).
  assert (Q2 : (1 + y) * P <= 1 + 11 * z) by (apply Rle_trans with ((1 + y) * (1 + 10 * z)); [apply Rmult_le_compat_l; lra|lra]).
  assert (Q1 : 1 - 10 * z <= (1 - y) * P) by (apply Rle_trans with ((1 - y) * (1 - 9 * z)); [lra|apply Rmult_le_compat_l; lra]).
  replace ((1 + y) * (C * P)) with (C * ((1 + y) * P)) in W2 by ring. replace ((1 - y) * (C * P)) with (C * ((1 - y) * P)) in W1 by ring.
  assert (W2' : W <= C * (1 + 11 * z)) by (apply Rle_trans with (1 := W2); apply Rmult_le_compat_l; lra). assert (W1' : C * (1 - 10 * z) <= W) by (apply Rle_trans with (2 := W1); apply Rmult_le_compat_l; lra).
  assert (Cz : 0 <= C * z <= 1 * z) by (split; [apply Rmult_le_pos; lra|apply Rmult_le_compat_r; lra]). assert (W3 : W <= 1 + 11 * z) by lra.
  assert (D2 : 2 * z * W <= 2 * z * (1 + 11 * z)) by (apply Rmult_le_compat_l; lra). apply Rabs_le_inv in D. apply Rabs_le. lra.
Qed.

Lemma apd_chain (z y p a h q1 q2 q3 q4 m N : R) : 0 <= z <= / 1000000 -> 0 <= y -> 5 * y <= z -> 0 <= p -> 0 <= a -> 0 <= N -> 0 <= h -> p * h <= / 8 * y -> h <= / 8 * y -> (1 - y) * a - h <= q1 <= (1 + y) * a + h ->
  (1 - y) * (p * q1) - h <= q2 <= (1 + y) * (p * q1) + h -> (1 - y) * (1 + q2) <= q3 <= (1 + y) * (1 + q2) -> (1 - z) * N <= m <= (1 + 2 * z) * N -> 0 <= q2 -> (1 - y) * (m * q3) <= q4 <= (1 + y) * (m * q3) ->
  Rabs (q4 - N * (1 + p * a)) <= 4 * z * (N * (1 + p * a)).
Proof.
  intros Hz Hy Hyz Hp Ha HN Hh Hph Hhy [A1 A2] [B1 B2] [C1 C2] [M1 M2] Q20 [E1 E2]. assert (Y6 : y <= / 5000000) by lra. assert (Yy : 0 <= y * y <= / 5000000 * y) by (split; [apply Rmult_le_pos; lra|apply Rmult_le_compat_r; lra]).
  assert (pa : 0 <= p * a) by (apply Rmult_le_pos; assumption). set (A := 1 + p * a). assert (HA : 1 <= A) by (unfold A; lra).
  assert (P1 : p * q1 <= (1 + y) * (p * a) + p * h) by (apply Rle_trans with (p * ((1 + y) * a + h)); [apply Rmult_le_compat_l; lra|lra]).
  assert (P2 : (1 - y) * (p * a) - p * h <= p * q1) by (apply Rle_trans with (p * ((1 - y) * a - h)); [lra|apply Rmult_le_compat_l; lra]).
  assert (F2 : (1 + y) * (p * q1) <= (1 + y) * ((1 + y) * (p * a) + p * h)) by (apply Rmult_le_compat_l; lra). assert (F1 : (1 - y) * ((1 - y) * (p * a) - p * h) <= (1 - y) * (p * q1)) by (apply Rmult_le_compat_l; lra).
  assert (Ypa : 0 <= y * (p * a)) by (apply Rmult_le_pos; lra). assert (YYpa : y * y * (p * a) <= / 5000000 * (y * (p * a))) by (replace (y * y * (p * a)) with (y * (y * (p * a))) by ring; apply Rmult_le_compat_r; lra).
  assert (Yph : 0 <= y * (p * h)) by (apply Rmult_le_pos; [lra|apply Rmult_le_pos; assumption]). assert (Yph2 : y * (p * h) <= y * (/ 8 * y)) by (apply Rmult_le_compat_l; lra).
  assert (ph : 0 <= p * h) by (apply Rmult_le_pos; assumption).
  assert (YYpa0 : 0 <= y * y * (p * a)) by (apply Rmult_le_pos; lra).
  assert (S2 : 1 + q2 <= (1 + 3 * y) * A) by (unfold A; lra). assert (S1 : (1 - 3 * y) * A <= 1 + q2) by (unfold A; lra).
  assert (G2 : q3 <= (1 + 5 * y) * A).
  { apply Rle_trans with (1 := C2). apply Rle_trans with ((1 + y) * ((1 + 3 * y) * A)); [apply Rmult_le_compat_l; lra|]. rewrite <- Rmult_assoc. apply Rmult_le_compat_r; lra. }
  assert (G1 : (1 - 5 * y) * A <= q3).
  { apply Rle_trans with (2 := C1). apply Rle_trans with ((1 - y) * ((1 - 3 * y) * A)); [rewrite <- Rmult_assoc; apply Rmult_le_compat_r; lra|apply Rmult_le_compat_l; lra]. }
  assert (NA : 0 <= N * A) by (apply Rmult_le_pos; lra). assert (q30 : 0 <= q3) by (apply Rle_trans with (2 := G1); apply Rmult_le_pos; lra). assert (m0 : 0 <= m) by (apply Rle_trans with (2 := M1); apply Rmult_le_pos; lra).
  assert (Zz : 0 <= z * z <= / 1000000 * z) by (split; [apply Rmult_le_pos; lra|apply Rmult_le_compat_r; lra]). assert (Zy : 0 <= z * y <= / 1000000 * y) by (split; [apply Rmult_le_pos; lra|apply Rmult_le_compat_r; lra]).
  assert (T2 : m * q3 <= (1 + 3 * z + / 2 * z) * (N * A)).
  { apply Rle_trans with ((1 + 2 * z) * N * ((1 + 5 * y) * A)); [apply Rmult_le_compat; assumption|]. replace ((1 + 2 * z) * N * ((1 + 5 * y) * A)) with ((1 + 2 * z) * (1 + 5 * y) * (N * A)) by ring. apply Rmult_le_compat_r; lra. }
  assert (T1 : (1 - 3 * z) * (N * A) <= m * q3).
  { apply Rle_trans with ((1 - z) * N * ((1 - 5 * y) * A)); [|apply Rmult_le_compat; try assumption; apply Rmult_le_pos; lra]. replace ((1 - z) * N * ((1 - 5 * y) * A)) with ((1 - z) * (1 - 5 * y) * (N * A)) by ring. apply Rmult_le_compat_r; lra. }
  assert (U2 : q4 <= (1 + 4 * z) * (N * A)).
  { apply Rle_trans with (1 := E2). apply Rle_trans with ((1 + y) * ((1 + 3 * z + / 2 * z) * (N * A))); [apply Rmult_le_compat_l; lra|]. rewrite <- Rmult_assoc. apply Rmult_le_compat_r; lra. }
  assert (U1 : (1 - 4 * z) * (N * A) <= q4).
  { apply Rle_trans with (2 := E1). apply Rle_trans with ((1 - y) * ((1 - 3 * z) * (N * A))); [replace ((1 - y) * ((1 - 3 * z) * (N * A))) with ((1 - y) * (1 - 3 * z) * (N * A)) by ring; apply Rmult_le_compat_r; lra|apply Rmult_le_compat_l; lra]. }
  apply Rabs_le. fold A. lra.
Qed.
