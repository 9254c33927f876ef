(** C143, continued: preferred solutions of moderate size keep the reference vectors apart. *)
From Coq Require Import Reals Lra Lia.
From Flocq Require Import Core.
From Verif Require Import Base RVec M_RefVec M_Double P_Double M_RefDouble P_RefDouble M_PrefDouble Properties_PrefDouble.
Open Scope R_scope.

Lemma nth_vmap2 (f : R -> R -> R) v : forall w i d, length v = length w -> (i < length v)%nat ->
  nth i (vmap2 f v w) d = f (nth i v 0) (nth i w 0).
Proof.
  induction v as [|x v IH]; intros [|y w] i d Hl Hi; cbn in *; try lia.
  destruct i as [|i]; [reflexivity|]. apply IH; lia.
Qed.

(** C143. Two vectors stay different when some coordinate tells them apart by more than 2^-50 times (their entries + 8 times the preferred solution's). *)
Theorem C143_distinct : forall z rows a b i,
  (forall y, In y z -> 0 <= y) ->
  (forall v, In v rows -> length v = length z /\ forall x, In x v -> 0 <= x) ->
  (a < length rows)%nat -> (b < length rows)%nat -> (i < length z)%nat ->
  let x := nth i (nth a rows []) 0 in let x' := nth i (nth b rows []) 0 in let y := nth i z 0 in
  bpow radix2 (-50) * (x + x' + 8 * y) + bpow radix2 (-1069) < Rabs (x - x') ->
  nth a (shifted_fl z rows) [] <> nth b (shifted_fl z rows) [].
Proof.
  intros z rows a b i Hz Hr Ha Hb Hi x x' y Hd Heq.
  assert (Hrow : forall k, (k < length rows)%nat -> nth i (nth k (shifted_fl z rows) []) 0
    = fl (fl (param_fl * nth i (nth k rows []) 0) + fl (rest_fl * nth i z 0))).
  { intros k Hk. unfold shifted_fl.
    pose (g := fun v => vmap2 (fun x y => fl (fl (param_fl * x) + fl (rest_fl * y))) v z).
    fold g. rewrite (nth_indep (map g rows) [] (g [])) by (rewrite map_length; exact Hk). rewrite map_nth.
    destruct (Hr (nth k rows [])) as [Hl _]; [apply nth_In; exact Hk|].
    unfold g. rewrite nth_vmap2 by (try exact Hl; rewrite Hl; exact Hi). reflexivity. }
  assert (H0 : forall k, (k < length rows)%nat -> 0 <= nth i (nth k rows []) 0).
  { intros k Hk. destruct (Hr (nth k rows [])) as [Hl Hp]; [apply nth_In; exact Hk|].
    apply Hp, nth_In. rewrite Hl. exact Hi. }
  pose proof (H0 a Ha) as Hx. pose proof (H0 b Hb) as Hx'. fold x in Hx. fold x' in Hx'.
  assert (Hy : 0 <= y) by (apply Hz, nth_In; exact Hi).
  pose proof (entry_err x y Hx Hy) as E1. pose proof (entry_err x' y Hx' Hy) as E2. cbv zeta in E1, E2.
  pose proof (Hrow a Ha) as Ra. pose proof (Hrow b Hb) as Rb. fold x y in Ra. fold x' y in Rb.
  rewrite <- Ra in E1. rewrite <- Rb, <- Heq in E2.
  set (r := nth i (nth a (shifted_fl z rows) []) 0) in *.
  assert (Hb1 : 16 * bpow radix2 (-1073) = bpow radix2 (-1069)).
  { change 16 with (bpow radix2 4). rewrite <- bpow_plus. reflexivity. }
  pose proof (bpow_gt_0 radix2 (-1073)). pose proof (bpow_gt_0 radix2 (-50)).
  set (B := bpow radix2 (-50)) in *. set (D := bpow radix2 (-1073)) in *.
  apply Rabs_le_inv in E1. apply Rabs_le_inv in E2.
  assert (HB : 0 <= B * x /\ 0 <= B * x' /\ 0 <= B * y) by (repeat split; apply Rmult_le_pos; lra).
  assert (Rabs (x - x') <= B * (x + x' + 8 * y) + bpow radix2 (-1069)); [|lra].
  apply Rabs_le. rewrite <- Hb1. split; lra.
Qed.

(** The hypothesis is met: the axes, and a preferred solution with objectives up to a million. *)
Example ex_distinct : let x := nth 0 (nth 0 [[1; 0]; [0; 1]] []) 0 in let x' := nth 0 (nth 1 [[1; 0]; [0; 1]] []) 0 in let y := nth 0 [1000000; 0] 0 in
  bpow radix2 (-50) * (x + x' + 8 * y) + bpow radix2 (-1069) < Rabs (x - x').
Proof.
  cbn -[bpow]. rewrite Rminus_0_r, Rabs_R1.
  assert (H1 : bpow radix2 (-1069) <= bpow radix2 (-50)) by (apply bpow_le; lia).
  assert (H2 : bpow radix2 (-50) * 16777216 = bpow radix2 (-26)).
  { change 16777216 with (bpow radix2 24). rewrite <- bpow_plus. reflexivity. }
  assert (H3 : bpow radix2 (-26) < 1) by (change 1 with (bpow radix2 0); apply bpow_lt; lia).
  pose proof (bpow_gt_0 radix2 (-50)). nra.
Qed.

Print Assumptions C143_distinct.
