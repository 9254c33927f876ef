(** C143, continued: reference points. *)
From Coq Require Import Reals Lra Lia Permutation.
From Flocq Require Import Core.
From Verif Require Import Base RVec M_RefVec M_Double P_Double M_RefDouble P_RefDouble Properties_RefDouble M_PrefDouble Properties_PrefDouble Properties_PrefDouble2.
Open Scope R_scope.

Lemma abs_le_norm x v : In x v -> Rabs x <= norm v.
Proof.
  intros Hx. unfold norm. rewrite <- sqrt_Rsqr_abs. apply sqrt_le_1_alt. unfold Rsqr. revert Hx.
  induction v as [|y v IH]; [intros []|]. cbn [dot]. intros [->|H].
  - assert (0 <= dot v v); [|lra]. clear. induction v as [|a v IH]; cbn [dot]; [lra|nra].
  - specialize (IH H). nra.
Qed.

(** C143. A reference point's direction from the ideal point has entries up to 2 whatever the scale of the objectives, so that initial vectors which differ by more than 2^-44 in some entry stay different.
    [d]: the computed differences from the ideal point. *)
Theorem C143_reference_point : forall t ref mult ideal,
  let d := vmap2 (fun x i => fl (x - i)) (map fl (vmap2 Rmult ref mult)) ideal in
  (length d <= 2 ^ 20)%nat -> Permutation (leaves t) (seq 0 (length d)) -> Forall moderate d -> (exists x, In x d /\ x <> 0) -> (forall x, In x d -> 0 <= x) ->
  exists r, ref_direction_fl t ref mult ideal = Some r /\ length r = length d /\ (forall y, In y r -> 0 <= y <= 2) /\
  forall init a b i, (forall v, In v init -> length v = length d /\ forall x, In x v -> 0 <= x <= 2) ->
    (a < length init)%nat -> (b < length init)%nat -> (i < length d)%nat ->
    bpow radix2 (-44) < Rabs (nth i (nth a init []) 0 - nth i (nth b init []) 0) ->
    nth a (shifted_fl r init) [] <> nth b (shifted_fl r init) [].
Proof.
  intros t ref mult ideal d Hn Ht Hm Hz Hp.
  exists (unit_row_fl t d).
  assert (E : ref_direction_fl t ref mult ideal = Some (unit_row_fl t d)).
  { unfold ref_direction_fl. fold d. unfold unit_row_fl.
    pose proof (unit_row_eq t d Hn Ht Hm Hz) as U. pose proof (q_range t d Hn Ht Hm Hz) as [Q _].
    unfold unit_row_fl, norm_fl in *. cbv zeta in *.
    destruct (Rlt_dec _ _) as [L|L]; [|reflexivity].
    destruct (Req_EM_T _ 0) as [Z|Z]; [|reflexivity].
    exfalso. rewrite Z in Q. pose proof (bpow_gt_0 radix2 (-502)). lra. }
  assert (L : length (unit_row_fl t d) = length d) by (rewrite (unit_row_eq t d Hn Ht Hm Hz); apply map_length).
  assert (B : forall y, In y (unit_row_fl t d) -> 0 <= y <= 2).
  { intros y Hy. split.
    - pose proof (q_range t d Hn Ht Hm Hz) as [Q _]. pose proof (bpow_gt_0 radix2 (-502)).
      rewrite (unit_row_eq t d Hn Ht Hm Hz) in Hy. apply in_map_iff in Hy. destruct Hy as (x & <- & Hx).
      apply Rle_trans with (fl 0); [rewrite fl_0; lra|]. apply fl_mono. apply Rmult_le_pos; [apply Hp; exact Hx|]. apply Rlt_le, Rinv_0_lt_compat. lra.
    - pose proof (norm_err t d Hn Ht Hm Hz) as N. apply Rabs_le_inv in N.
      pose proof (INR_u (length d) Hn) as I.
      assert (X : bpow radix2 (-51) = 4 * bpow radix2 (-53)) by (change 4 with (bpow radix2 2); rewrite <- bpow_plus; reflexivity).
      pose proof (abs_le_norm y _ Hy). pose proof (Rle_abs y). rewrite X in N.
      set (m := INR (length d + 4)) in *. set (w := bpow radix2 (-53)) in *.
      replace (m * (4 * w)) with (4 * (m * w)) in N by ring. destruct N as [_ N].
      match goal with H : Rabs y <= ?b |- _ => set (nn := b) in * end. fold nn in N. generalize dependent nn. intros nn Hnn N. lra. }
  split; [exact E|]. split; [exact L|]. split; [exact B|].
  intros init a b i Hi Ha Hb Hl Hd.
  apply C143_distinct with (i := i); try assumption.
  - intros y Hy. apply (B y Hy).
  - intros v Hv. destruct (Hi v Hv) as [A C]. split; [rewrite L; exact A|]. intros x Hx. apply (C x Hx).
  - rewrite L. exact Hl.
  - apply Rle_lt_trans with (2 := Hd).
    assert (G : forall k, (k < length init)%nat -> 0 <= nth i (nth k init []) 0 <= 2).
    { intros k Hk. destruct (Hi (nth k init [])) as [A C]; [apply nth_In; exact Hk|]. apply C, nth_In. rewrite A. exact Hl. }
    pose proof (G a Ha). pose proof (G b Hb).
    assert (Y : 0 <= nth i (unit_row_fl t d) 0 <= 2) by (apply B, nth_In; rewrite L; exact Hl).
    assert (H1 : bpow radix2 (-1069) <= bpow radix2 (-45)) by (apply bpow_le; lia).
    assert (H2 : bpow radix2 (-45) = 32 * bpow radix2 (-50)) by (change 32 with (bpow radix2 5); rewrite <- bpow_plus; reflexivity).
    assert (H3 : bpow radix2 (-44) = 64 * bpow radix2 (-50)) by (change 64 with (bpow radix2 6); rewrite <- bpow_plus; reflexivity).
    pose proof (bpow_gt_0 radix2 (-50)). rewrite H3. rewrite H2 in H1. nra.
Qed.

Lemma sum_zero t f : (forall i, f i = 0) -> sum_fl t f = 0.
Proof. intros H. induction t as [i|l IHl r IHr]; cbn; [apply H|]. rewrite IHl, IHr, Rplus_0_l. apply fl_0. Qed.

(** C143 (false of the code). A reference point is divided by its computed distance from the ideal point also when that is 0: at the ideal point and within 2^-538 of it in every objective, there is no direction. *)
Theorem C143_near_ideal_refuted : forall t ref mult ideal,
  (forall x, In x (vmap2 (fun x i => fl (x - i)) (map fl (vmap2 Rmult ref mult)) ideal) -> Rabs x <= bpow radix2 (-538)) ->
  ref_direction_fl t ref mult ideal = None.
Proof.
  intros t ref mult ideal H. unfold ref_direction_fl. set (d := vmap2 _ _ ideal) in *. unfold norm_fl. cbv zeta.
  rewrite sum_zero.
  - destruct (Rlt_dec 0 (bpow radix2 1024)) as [_|N]; [|exfalso; apply N, bpow_gt_0].
    rewrite sqrt_0, fl_0. destruct (Req_EM_T 0 0) as [_|N]; [reflexivity|exfalso; apply N; reflexivity].
  - intros i.
    assert (A : Rabs (nth i d 0) <= bpow radix2 (-538)).
    { destruct (nth_in_or_default i d 0) as [Hi|Hi]; [apply H; exact Hi|]. rewrite Hi, Rabs_R0. apply bpow_ge_0. }
    assert (P : Rabs (nth i d 0 * nth i d 0) < / 2 * bpow radix2 (-1074)).
    { rewrite Rabs_mult. apply Rle_lt_trans with (bpow radix2 (-538) * bpow radix2 (-538)).
      - apply Rmult_le_compat; try apply Rabs_pos; exact A.
      - replace (/ 2 * bpow radix2 (-1074)) with (bpow radix2 (-1075)) by (change (-1075)%Z with (-1 + -1074)%Z; rewrite bpow_plus; reflexivity).
        rewrite <- bpow_plus. apply bpow_lt. lia. }
    rewrite (fl_grid 0); [apply Rmult_0_l|lia|]. rewrite Rmult_0_l, Rminus_0_r. exact P.
Qed.

(** The hypotheses are met: a reference point at the ideal point, ... *)
Example ex_near : ref_direction_fl (Node (Leaf 0) (Leaf 1)) [1; 2] [1; 1] [fl (1 * 1); fl (2 * 1)] = None.
Proof.
  apply C143_near_ideal_refuted. cbn [vmap2 map]. intros x [<-|[<-|[]]];
  rewrite Rminus_diag_eq by reflexivity; rewrite fl_0, Rabs_R0; apply bpow_ge_0.
Qed.
(** ... and one a unit away from it in both objectives. *)
Example ex_ref : let d := vmap2 (fun x i => fl (x - i)) (map fl (vmap2 Rmult [1; 1] [1; 1])) [0; 0] in
  Forall moderate d /\ (exists x, In x d /\ x <> 0) /\ forall x, In x d -> 0 <= x.
Proof.
  assert (F : fl 1 = 1) by (change 1 with (bpow radix2 0); apply fl_id, double_bpow; lia).
  cbn [vmap2 map]. rewrite Rmult_1_r, F, Rminus_0_r, F. split; [|split].
  - assert (M : moderate 1). { right. rewrite Rabs_R1. change 1 with (bpow radix2 0). split; apply bpow_le; lia. }
    constructor; [exact M|]. constructor; [exact M|]. constructor.
  - exists 1. split; [left; reflexivity|lra].
  - intros x [<-|[<-|[]]]; lra.
Qed.

Print Assumptions C143_reference_point.
Print Assumptions C143_near_ideal_refuted.
