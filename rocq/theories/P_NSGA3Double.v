(** Lemmas for C142: error of a computed perpendicular distance. *)
From Coq Require Import Reals Lra Lia Permutation.
From Flocq Require Import Core.
From Verif Require Import Base RVec M_NSGA3 M_Double P_Double M_RefDouble P_RefDouble Properties_RefDouble Properties_RefDouble2 M_NbDouble Properties_NbDouble M_APDDouble P_APDDouble M_NSGA3Double.
Open Scope R_scope.
Notation u := (bpow radix2 (-53)).
Notation eta := (bpow radix2 (-1075)).

(** ** Vectors *)
Lemma norm_le_sum a b : length a = length b -> Rabs (norm a - norm b) <= norm (vsub a b).
Proof.
  intros L. pose proof (dot_le_norms a b L) as C. apply Rabs_le_inv in C. pose proof (norm_sq a) as A. pose proof (norm_sq b) as B. pose proof (norm_sq (vsub a b)) as D. pose proof (norm_nonneg (vsub a b)) as N.
  rewrite dot_sub_l, !dot_sub_r, (dot_comm b a) in D by congruence. rewrite <- A, <- B in D. rewrite <- (Rabs_pos_eq (norm (vsub a b))) by exact N. apply Rsqr_le_abs_0. unfold Rsqr. lra.
Qed.
Lemma sqrt_le_intro a b : 0 <= b -> a <= b * b -> sqrt a <= b.
Proof. intros B H. apply Rle_trans with (sqrt (b * b)); [apply sqrt_le_1_alt; exact H|rewrite sqrt_square; lra]. Qed.
Lemma norm_cons a l : norm (a :: l) = sqrt (a * a + norm l * norm l).
Proof. rewrite norm_sq. reflexivity. Qed.
Lemma norm_close k h x y : 0 <= k -> 0 <= h -> Forall2 (fun a b => Rabs (b - a) <= k * Rabs a + h) x y -> norm (vsub y x) <= k * norm x + INR (length x) * h.
Proof.
  intros K H. induction 1 as [|a b x y E F IH]; [unfold norm; cbn; rewrite sqrt_0; lra|]. unfold vsub. cbn [vmap2]. fold (vsub y x). rewrite !norm_cons. cbn [length]. rewrite S_INR.
  pose proof (norm_nonneg x) as X0. pose proof (norm_nonneg (vsub y x)) as V0. set (m := INR (length x)) in *. assert (M0 : 0 <= m) by apply pos_INR. set (X := norm x) in *. set (V := norm (vsub y x)) in *. set (S := sqrt (a * a + X * X)).
  assert (S0 : 0 <= S) by apply sqrt_pos. assert (SS : S * S = a * a + X * X) by (apply sqrt_sqrt; nra). set (A := Rabs a) in *. assert (A0 : 0 <= A) by apply Rabs_pos. assert (AA : A * A = a * a) by (unfold A, Rabs; destruct (Rcase_abs a); ring).
  assert (AS : A <= S) by (apply Rsqr_incr_0_var; [unfold Rsqr; nra|exact S0]). assert (XS : X <= S) by (apply Rsqr_incr_0_var; [unfold Rsqr; nra|exact S0]).
  set (B := Rabs (b - a)) in *. assert (B0 : 0 <= B) by apply Rabs_pos. assert (BB : (b - a) * (b - a) = B * B) by (unfold B, Rabs; destruct (Rcase_abs (b - a)); ring). rewrite BB. clearbody S A B X V m.
  assert (KH : 0 <= k * h) by (apply Rmult_le_pos; assumption). assert (MH : 0 <= m * h) by (apply Rmult_le_pos; assumption). assert (KA : 0 <= k * A) by (apply Rmult_le_pos; assumption). assert (KX : 0 <= k * X) by (apply Rmult_le_pos; assumption).
  assert (KS : 0 <= k * S) by (apply Rmult_le_pos; assumption). apply sqrt_le_intro; [lra|].
  assert (P1 : B * B <= (k * A + h) * (k * A + h)) by (apply Rmult_le_compat; lra). assert (P2 : V * V <= (k * X + m * h) * (k * X + m * h)) by (apply Rmult_le_compat; lra).
  assert (Q1 : k * h * A <= k * h * S) by (apply Rmult_le_compat_l; assumption). assert (Q2 : k * h * (m * X) <= k * h * (m * S)) by (apply Rmult_le_compat_l; [assumption|apply Rmult_le_compat_l; assumption]).
  assert (Q3 : 0 <= m * (h * h)) by (apply Rmult_le_pos; [assumption|apply Rmult_le_pos; assumption]).
  assert (E1 : (k * S + (m + 1) * h) * (k * S + (m + 1) * h) = k * k * (S * S) + 2 * (k * h * S) + 2 * (k * h * (m * S)) + m * h * (m * h) + 2 * (m * (h * h)) + h * h) by ring.
  assert (E2 : (k * A + h) * (k * A + h) = k * k * (A * A) + 2 * (k * h * A) + h * h) by ring. assert (E3 : (k * X + m * h) * (k * X + m * h) = k * k * (X * X) + 2 * (k * h * (m * X)) + m * h * (m * h)) by ring.
  assert (E4 : k * k * (S * S) = k * k * (A * A) + k * k * (X * X)) by (rewrite SS, <- AA; ring). lra.
Qed.

(** ** Scalars: x is X up to the factor 1 + k and the amount h *)
Definition near (k h x X : R) : Prop := Rabs (x - X) <= k * X + h.
Lemma quotient_near z k h x X N M : 0 <= z <= / 1000000 -> 5 * u <= z -> 0 <= k <= 20 * z -> 2 * eta <= h -> 0 <= x -> 0 <= X -> near k h x X -> / 2 <= M -> (1 - z) * M <= N <= (1 + 2 * z) * M ->
  near (k + 4 * z) (4 * h) (fl (x / N)) (X / M) /\ 0 <= fl (x / N).
Proof.
  unfold near. intros Z Zu K H x0 X0 E M0 HN. assert (N0 : 0 < N) by nra. pose proof (bpow_gt_0 radix2 (-1075)) as Et. pose proof u_pos as U0.
  set (y := x / N). set (Y := X / M). assert (Ex : x = y * N) by (unfold y; field; lra). assert (EX : X = Y * M) by (unfold Y; field; lra).
  assert (y0 : 0 <= y) by (unfold y; apply Rmult_le_pos; [lra|apply Rlt_le, Rinv_0_lt_compat; lra]). assert (Y0 : 0 <= Y) by (unfold Y; apply Rmult_le_pos; [lra|apply Rlt_le, Rinv_0_lt_compat; lra]).
  pose proof (fl_nonneg_err y y0) as F. split; [|rewrite <- fl_0; apply fl_mono; exact y0]. clearbody y Y. subst x X.
  assert (D : Rabs (y - Y) * M <= (k * Y + 2 * h + 2 * z * y) * M).
  { rewrite <- (Rabs_pos_eq M) at 1 by lra. rewrite <- Rabs_mult. replace ((y - Y) * M) with ((y * N - Y * M) + y * (M - N)) by ring. apply Rle_trans with (1 := Rabs_triang _ _). rewrite (Rabs_mult y), (Rabs_pos_eq y) by exact y0.
    assert (R1 : Rabs (M - N) <= 2 * z * M) by (apply Rabs_le; split; nra). assert (R2 : y * Rabs (M - N) <= y * (2 * z * M)) by (apply Rmult_le_compat_l; assumption). assert (h <= 2 * h * M) by nra. nra. }
  apply Rmult_le_reg_r in D; [|lra]. assert (Dy : y <= Y + Rabs (y - Y)) by (pose proof (Rle_abs (y - Y)); lra). set (d := Rabs (y - Y)) in *. assert (d0 : 0 <= d) by apply Rabs_pos.
  assert (D2 : d <= (k + 3 * z) * Y + 3 * h).
  { assert (z * y <= z * (Y + d)) by (apply Rmult_le_compat_l; lra). assert ((1 - 2 * z) * d <= (k + 2 * z) * Y + 2 * h) by lra.
    assert (zY : 0 <= z * Y) by (apply Rmult_le_pos; lra). assert (kY : 0 <= k * Y) by (apply Rmult_le_pos; lra). assert (z * (z * Y) <= / 1000000 * (z * Y)) by (apply Rmult_le_compat_r; lra). assert (z * (k * Y) <= / 1000000 * (k * Y)) by (apply Rmult_le_compat_r; lra).
    assert (k * Y <= 20 * z * Y) by (apply Rmult_le_compat_r; lra). assert (z * (k * Y) <= z * (20 * z * Y)) by (apply Rmult_le_compat_l; lra). assert (z * (20 * z * Y) = 20 * (z * (z * Y))) by ring. assert (z * h <= / 1000000 * h) by (apply Rmult_le_compat_r; lra).
    apply Rmult_le_reg_l with (1 - 2 * z); [lra|]. lra. }
  assert (uy : u * y <= u * Y + u * d) by nra. assert (uY : 5 * (u * Y) <= z * Y) by nra. assert (ud : u * d <= / 1000000 * d) by (apply Rmult_le_compat_r; [exact d0|exact u_small]).
  assert (T : Rabs (fl y - Y) <= d + (u * y + eta)). { replace (fl y - Y) with ((y - Y) + (fl y - y)) by ring. apply Rle_trans with (1 := Rabs_triang _ _). apply Rplus_le_compat_l, Rabs_le. lra. }
  assert (uk : u * d <= u * ((k + 3 * z) * Y + 3 * h)) by (apply Rmult_le_compat_l; lra).
  assert (uk2 : u * ((k + 3 * z) * Y + 3 * h) <= u * Y + / 1000 * h). { assert ((k + 3 * z) * Y <= 1 * Y) by (apply Rmult_le_compat_r; lra). pose proof u_small. nra. }
  apply Rle_trans with (1 := T). nra.
Qed.
Lemma product_near z k h x X a : 0 <= z <= / 1000000 -> 5 * u <= z -> 0 <= k <= 20 * z -> 2 * eta <= h -> 0 <= x -> 0 <= X -> near k h x X -> 0 <= a <= 2 -> near (k + 2 * z) (4 * h) (fl (x * a)) (X * a) /\ 0 <= fl (x * a).
Proof.
  unfold near. intros Z Zu K H x0 X0 E A. assert (p0 : 0 <= x * a) by (apply Rmult_le_pos; lra). assert (P0 : 0 <= X * a) by (apply Rmult_le_pos; lra). pose proof (fl_nonneg_err _ p0) as F. pose proof (bpow_gt_0 radix2 (-1075)) as Et. pose proof u_pos as U0. pose proof u_small as U1.
  split; [|rewrite <- fl_0; apply fl_mono; exact p0].
  assert (D : Rabs (x * a - X * a) <= k * (X * a) + 2 * h). { replace (x * a - X * a) with ((x - X) * a) by ring. rewrite Rabs_mult, (Rabs_pos_eq a) by lra. apply Rle_trans with ((k * X + h) * a); [apply Rmult_le_compat_r; lra|]. assert (h * a <= h * 2) by (apply Rmult_le_compat_l; lra). lra. }
  set (p := x * a) in *. set (P := X * a) in *. clearbody p P. apply Rabs_le_inv in D. assert (kP : k * P <= 1 * P) by (apply Rmult_le_compat_r; lra). assert (up : u * p <= u * (2 * P + 2 * h)) by (apply Rmult_le_compat_l; lra).
  assert (uP : 5 * u * P <= z * P) by (apply Rmult_le_compat_r; lra). assert (uh : u * h <= / 1000000 * h) by (apply Rmult_le_compat_r; lra). assert (zP : 0 <= z * P) by (apply Rmult_le_pos; lra). assert (uP0 : 0 <= u * p) by (apply Rmult_le_pos; lra). apply Rabs_le. split; lra.
Qed.
Lemma sqrt_sum a b : 0 <= a -> 0 <= b -> sqrt (a + b) <= sqrt a + sqrt b.
Proof. intros A B. pose proof (sqrt_pos a). pose proof (sqrt_pos b). apply sqrt_le_intro; [lra|]. pose proof (sqrt_sqrt a A). pose proof (sqrt_sqrt b B). nra. Qed.
(** Computed root of a computed sum of squares. *)
Lemma root_near z s D e q : 0 <= z <= / 1000000 -> 5 * u <= z -> 0 <= D -> 0 <= e -> 0 <= s -> (1 - z) * D - e <= s <= (1 + 2 * z) * (D + e) -> (1 - u) * sqrt s <= q <= (1 + u) * sqrt s -> Rabs (q - sqrt D) <= 3 * z * sqrt D + 2 * sqrt e.
Proof.
  intros Z Zu D0 E0 S0 HS HQ. pose proof (sqrt_pos D) as a0. pose proof (sqrt_pos e) as b0. pose proof (sqrt_sqrt D D0) as aa. pose proof (sqrt_sqrt e E0) as bb. pose proof (sqrt_pos s) as s0. pose proof (sqrt_sqrt s S0) as ss. pose proof u_pos as U0. pose proof u_small as U1.
  set (a := sqrt D) in *. set (b := sqrt e) in *. set (r := sqrt s) in *. clearbody a b r.
  assert (Up : r <= (1 + 2 * z) * (a + b)).
  { apply Rsqr_incr_0_var; [|apply Rmult_le_pos; lra]. unfold Rsqr. rewrite ss. apply Rle_trans with (1 := proj2 HS). assert (P : 0 <= (1 + 2 * z) * (a + b)) by (apply Rmult_le_pos; lra). assert (Y : D + e <= (a + b) * (a + b)) by nra.
    apply Rle_trans with ((1 + 2 * z) * ((a + b) * (a + b))); [apply Rmult_le_compat_l; lra|]. replace ((1 + 2 * z) * (a + b) * ((1 + 2 * z) * (a + b))) with ((1 + 2 * z) * ((1 + 2 * z) * ((a + b) * (a + b)))) by ring.
    apply Rmult_le_compat_l; [lra|]. assert (T0 : 0 <= (a + b) * (a + b)) by nra. set (T := (a + b) * (a + b)) in *. clearbody T. assert (0 <= z * T) by (apply Rmult_le_pos; lra). lra. }
  assert (Lo : (1 - z) * a - b <= r).
  { destruct (Rle_or_lt ((1 - z) * a - b) 0) as [G|G]; [lra|]. apply Rsqr_incr_0_var; [|exact s0]. unfold Rsqr. rewrite ss. apply Rle_trans with (2 := proj1 HS). set (c := (1 - z) * a) in *. assert (c0 : b < c) by lra.
    assert (C1 : c * c <= (1 - z) * D). { unfold c. replace ((1 - z) * a * ((1 - z) * a)) with ((1 - z) * ((1 - z) * (a * a))) by ring. rewrite aa. apply Rmult_le_compat_l; [lra|]. nra. }
    assert (C2 : b * b <= c * b) by (apply Rmult_le_compat_r; lra). rewrite <- bb. lra. }
  assert (ur : 5 * (u * r) <= z * r) by nra. assert (za : 0 <= z * a) by nra. assert (zb : z * b <= / 1000000 * b) by (apply Rmult_le_compat_r; lra). assert (zr : z * r <= z * ((1 + 2 * z) * (a + b))) by (apply Rmult_le_compat_l; lra).
  assert (zza : z * (z * a) <= / 1000000 * (z * a)) by (apply Rmult_le_compat_r; lra). assert (zzb : z * (z * b) <= / 1000000 * (z * b)) by (apply Rmult_le_compat_r; nra). apply Rabs_le. split; nra.
Qed.
