(** Lemmas for C139: lattice vectors in double precision. *)
From Coq Require Import Reals Lra Lia Permutation ZArith.
From Flocq Require Import Core.
From Verif Require Import Base RVec M_RefVec M_Double P_Double M_RefDouble P_RefDouble Properties_RefDouble M_LatDouble.
Open Scope R_scope.
Notation zsum := (fold_right Z.add 0%Z).
(** Two different rows of the same sum: each has a larger entry somewhere. *)
Lemma le_or_larger (k : list Z) : forall j, length j = length k -> Forall2 Z.le k j \/ exists i a b, nth_error k i = Some a /\ nth_error j i = Some b /\ (b < a)%Z.
Proof.
  induction k as [|a k IH]; intros [|b j] L; try discriminate; [left; constructor|]. injection L as L. destruct (Z_le_gt_dec a b) as [G|G]; [|right; exists 0%nat, a, b; repeat split; lia].
  destruct (IH j L) as [F|(i & x & y & A & B & C)]; [left; constructor; assumption|right; exists (S i), x, y; auto].
Qed.
Lemma le_same_sum (k j : list Z) : Forall2 Z.le k j -> (zsum k <= zsum j)%Z /\ (zsum j <= zsum k -> k = j)%Z.
Proof.
  induction 1 as [|a b k j H F [IH1 IH2]]; cbn [fold_right]; [split; [lia|reflexivity]|]. split; [lia|]. intros G. assert (a = b) by lia. subst b. f_equal. apply IH2. lia.
Qed.
Lemma larger_entry (k j : list Z) : length j = length k -> zsum k = zsum j -> k <> j -> exists i a b, nth_error k i = Some a /\ nth_error j i = Some b /\ (b < a)%Z.
Proof. intros L E N. destruct (le_or_larger k j L) as [F|G]; [|exact G]. exfalso. apply N, (proj2 (le_same_sum k j F)). lia. Qed.
Lemma entry_le_sum (k : list Z) i a : Forall (fun z => (0 <= z)%Z) k -> nth_error k i = Some a -> (0 <= a <= zsum k)%Z.
Proof.
  intros F. revert i. induction F as [|x k Hx F IH]; intros [|i] E; try discriminate; cbn [fold_right].
  - injection E as ->. assert (0 <= zsum k)%Z; [|lia]. clear - F. induction F; cbn [fold_right]; lia.
  - specialize (IH i E). lia.
Qed.
Lemma entry_sq_le (v : list R) i x : nth_error v i = Some x -> x * x <= dot v v.
Proof.
  revert i. induction v as [|y v IH]; intros [|i] E; try discriminate; cbn [dot].
  - injection E as ->. assert (0 <= dot v v); [|lra]. clear. induction v as [|y v IH]; cbn [dot]; [lra|nra].
  - specialize (IH i E). nra.
Qed.
(** [near_multiple l k x]: x is l times the integers k, up to a relative error of 3 * 2^-53 per entry. *)
Definition near_multiple (l : R) (k : list Z) (x : list R) : Prop := Forall2 (fun a y => Rabs (y - l * IZR a) <= 3 * u * (l * IZR a)) k x.
Lemma near_entry l k x i a : near_multiple l k x -> nth_error k i = Some a -> exists y, nth_error x i = Some y /\ (1 - 3 * u) * (l * IZR a) <= y <= (1 + 3 * u) * (l * IZR a).
Proof.
  intros F. revert i. induction F as [|b y k x H F IH]; intros [|i] E; try discriminate; [|exact (IH i E)]. injection E as ->. exists y. split; [reflexivity|]. apply Rabs_le_inv in H. lra.
Qed.
(** The row with the larger factor exceeds the other one somewhere, by half that factor. *)
Lemma apart_one l m k j x y (H : Z) : (1 <= H <= 2 ^ 22)%Z -> 0 < m <= l -> length j = length k -> Forall (fun z => (0 <= z)%Z) j -> zsum k = H -> zsum j = H -> k <> j ->
  near_multiple l k x -> near_multiple m j y -> (l / 2) * (l / 2) <= dot (vsub x y) (vsub x y).
Proof.
  intros HH Hlm L Pj Sk Sj N Fx Fy. destruct (larger_entry k j L ltac:(congruence) N) as (i & a & b & A & B & C). destruct (near_entry _ _ _ _ _ Fx A) as (xi & Xi & X1 & X2). destruct (near_entry _ _ _ _ _ Fy B) as (yi & Yi & Y1 & Y2).
  apply Rle_trans with ((xi - yi) * (xi - yi)); [|apply (entry_sq_le _ i); unfold vsub; rewrite vmap2_nth, Xi, Yi; reflexivity].
  pose proof (entry_le_sum j i b Pj B) as [B0 B1]. assert (Ca : IZR b + 1 <= IZR a) by (rewrite <- plus_IZR; apply IZR_le; lia). apply IZR_le in B0. assert (B2 : IZR b <= 4194304) by (apply IZR_le; lia).
  pose proof u_pos as U0. assert (U1 : u <= / 1000000000000) by (rewrite u_eq; apply Rinv_le_contravar; [lra|apply IZR_le; vm_compute; discriminate]).
  set (a' := IZR a) in *. set (b' := IZR b) in *. set (y0 := u) in *. clearbody a' b' y0. assert (M1 : (1 - 3 * y0) * (l * (b' + 1)) <= xi). { apply Rle_trans with (2 := X1). apply Rmult_le_compat_l; [lra|]. apply Rmult_le_compat_l; lra. }
  assert (M2 : yi <= (1 + 3 * y0) * (l * b')). { apply Rle_trans with (1 := Y2). apply Rmult_le_compat_l; [lra|]. apply Rmult_le_compat_r; lra. }
  assert (M3 : 0 <= y0 * (4194304 - b')) by (apply Rmult_le_pos; lra). assert (M4 : l * (1 - 3 * y0 - 6 * (y0 * b')) <= xi - yi) by lra. assert (M5 : l * / 2 <= l * (1 - 3 * y0 - 6 * (y0 * b'))) by (apply Rmult_le_compat_l; lra).
  apply Rmult_le_compat; unfold Rdiv; lra.
Qed.
Lemma dot_vsub_comm x y : dot (vsub x y) (vsub x y) = dot (vsub y x) (vsub y x).
Proof. unfold vsub. revert y. induction x as [|a x IH]; intros [|b y]; cbn [vmap2 dot]; try reflexivity. rewrite (IH y). ring. Qed.
(** The norm is at most the factor times the sum. *)
Lemma near_norm l k x : 0 < l -> Forall (fun z => (0 <= z)%Z) k -> near_multiple l k x -> dot x x <= ((1 + 3 * u) * (l * IZR (zsum k))) * ((1 + 3 * u) * (l * IZR (zsum k))).
Proof.
  intros L P F. pose proof u_pos as U0. pose proof u_small as U1. assert (C : exists c, c = 1 + 3 * u) by eauto. destruct C as [c Ec]. rewrite <- Ec. assert (C1 : 1 <= c) by lra. induction F as [|a y k x H F IH]; cbn [dot fold_right].
  - rewrite !Rmult_0_r. lra.
  - inversion P as [|? ? Ha Pk]; subst. specialize (IH Pk). rewrite plus_IZR. apply IZR_le in Ha. assert (S0 : 0 <= IZR (zsum k)). { apply IZR_le. clear - Pk. induction Pk; cbn [fold_right]; lia. }
    apply Rabs_le_inv in H. set (a' := IZR a) in *. set (s := IZR (zsum k)) in *. assert (A0 : 0 <= l * a') by (apply Rmult_le_pos; lra). assert (S1 : 0 <= l * s) by (apply Rmult_le_pos; lra).
    assert (U3 : 0 <= u * (l * a')) by (apply Rmult_le_pos; lra). assert (U4 : u * (l * a') <= / 1000000 * (l * a')) by (apply Rmult_le_compat_r; lra). assert (Y : 0 <= y <= (1 + 3 * u) * (l * a')) by lra. set (c := 1 + 3 * u) in *. assert (Yy : y * y <= (c * (l * a')) * (c * (l * a'))) by (apply Rmult_le_compat; lra).
    assert (Q : 0 <= (c * (l * a')) * (c * (l * s))) by (apply Rmult_le_pos; apply Rmult_le_pos; lra). replace (c * (l * (a' + s)) * (c * (l * (a' + s)))) with ((c * (l * a')) * (c * (l * a')) + 2 * ((c * (l * a')) * (c * (l * s))) + (c * (l * s)) * (c * (l * s))) by ring. lra.
Qed.
