(** C142 on reference directions adapted to a population. *)
From Coq Require Import Reals Lra Lia Permutation ZArith.
From Flocq Require Import Core.
From Verif Require Import Base RVec M_NSGA3 P_APD M_Double P_Double M_RefDouble P_RefDouble Properties_RefDouble Properties_RefDouble2 Properties_RefDouble3 M_LatDouble P_LatDouble Properties_LatDouble M_APDDouble P_APDDouble Properties_APDDouble M_NSGA3Double P_NSGA3Double Properties_NSGA3Double Properties_InitDouble.
Open Scope R_scope.
Notation u := (bpow radix2 (-53)).

Lemma dot_bounded (B : R) a : (forall x, In x a -> 0 <= x <= B) -> dot a a <= INR (length a) * (B * B).
Proof.
  induction a as [|x a IH]; intros H; [cbn; lra|]. cbn [dot length]. rewrite S_INR. pose proof (H x (or_introl eq_refl)) as X. assert (x * x <= B * B) by (apply Rmult_le_compat; lra). specialize (IH (fun y Hy => H y (or_intror Hy))). lra.
Qed.
(** A vector a positive multiple of moderate entries up to rounding, of length about 1, has moderate entries. *)
Lemma adapted_moderate n (a w : list R) l : (n <= 2 ^ 20)%nat -> length a = n -> 0 < l -> (forall x, In x a -> x = 0 \/ bpow radix2 (-226) <= x <= bpow radix2 201) -> / 2 <= norm w <= 2 ->
  Forall2 (fun x y => Rabs (y - l * x) <= bpow radix2 (-50) * (l * Rabs x)) a w -> Forall moderate w /\ forall x, In x w -> 0 <= x.
Proof.
  intros Hn La Hl Ha Nw F. assert (B50 : bpow radix2 (-50) <= / 2) by (change (/ 2) with (bpow radix2 (-1)); apply bpow_le; lia). assert (Ap : forall x, In x a -> 0 <= x <= bpow radix2 201) by (intros x Hx; destruct (Ha x Hx) as [->|X]; [split; [lra|apply bpow_ge_0]|pose proof (bpow_gt_0 radix2 (-226)); lra]).
  assert (F2 : Forall2 (fun x y => l * / 2 * Rabs x <= Rabs y <= l * 2 * Rabs x) a w).
  { clear - F Hl B50. induction F as [|x y a w E F IH]; [apply Forall2_nil|apply Forall2_cons; [|exact IH]]. assert (P : 0 <= l * Rabs x) by (apply Rmult_le_pos; [lra|apply Rabs_pos]). assert (Q : bpow radix2 (-50) * (l * Rabs x) <= / 2 * (l * Rabs x)) by (apply Rmult_le_compat_r; assumption).
    assert (L : Rabs (l * x) = l * Rabs x) by (rewrite Rabs_mult, (Rabs_pos_eq l) by lra; reflexivity). pose proof (Rabs_triang_inv y (l * x)) as T1. pose proof (Rabs_triang_inv (l * x) y) as T2. rewrite (Rabs_minus_sym (l * x) y) in T2. rewrite L in *. lra. }
  destruct (dot_scaled_bounds (l * / 2) (l * 2) ltac:(lra) ltac:(lra) a w F2) as (_ & D). pose proof (dot_bounded (bpow radix2 201) a Ap) as DB. rewrite La in DB. pose proof (INR_2pow20 n Hn) as I20.
  assert (DB2 : dot a a <= bpow radix2 422). { apply Rle_trans with (1 := DB). rewrite <- bpow_plus. apply Rle_trans with (bpow radix2 20 * bpow radix2 402); [apply Rmult_le_compat_r; [apply bpow_ge_0|exact I20]|]. rewrite <- bpow_plus. apply bpow_le. lia. }
  assert (l0 : bpow radix2 (-213) <= l).
  { assert (S : / 2 <= l * 2 * bpow radix2 211). { apply Rle_trans with (1 := proj1 Nw). unfold norm. apply sqrt_le_intro; [apply Rmult_le_pos; [lra|apply bpow_ge_0]|]. apply Rle_trans with (1 := D). replace (l * 2 * bpow radix2 211 * (l * 2 * bpow radix2 211)) with (l * 2 * (l * 2) * (bpow radix2 211 * bpow radix2 211)) by ring.
      rewrite <- bpow_plus. apply Rmult_le_compat_l; [apply Rmult_le_pos; lra|exact DB2]. }
    apply Rmult_le_reg_r with (bpow radix2 211); [apply bpow_gt_0|]. rewrite <- bpow_plus. change (bpow radix2 (-213 + 211)) with (/ 4). lra. }
  assert (G : forall y, In y w -> y = 0 \/ bpow radix2 (-440) <= y).
  { clear - F Hl Ha B50 l0. induction F as [|x y a w E F IH]; [intros y []|]. intros q [<-|Hq]; [|apply IH; [intros z Hz; apply Ha; right; exact Hz|exact Hq]]. destruct (Ha x (or_introl eq_refl)) as [->|X].
    - left. rewrite Rabs_R0, !Rmult_0_r in E. apply Rabs_le_inv in E. lra.
    - right. pose proof (bpow_gt_0 radix2 (-226)) as P. rewrite (Rabs_pos_eq x) in E by lra. apply Rabs_le_inv in E. assert (P0 : 0 <= l * x) by (apply Rmult_le_pos; lra). assert (Q : bpow radix2 (-50) * (l * x) <= / 2 * (l * x)) by (apply Rmult_le_compat_r; assumption).
      assert (W : bpow radix2 (-213) * bpow radix2 (-226) <= l * x) by (apply Rmult_le_compat; try apply bpow_ge_0; lra). rewrite <- bpow_plus in W. assert (H : bpow radix2 (-440) = / 2 * bpow radix2 (-439)) by (change (-440)%Z with (-1 + -439)%Z; rewrite bpow_plus; reflexivity). rewrite H. change (-213 + -226)%Z with (-439)%Z in W. lra. }
  assert (Wp : forall x, In x w -> 0 <= x) by (intros x Hx; destruct (G x Hx) as [->|X]; [lra|pose proof (bpow_gt_0 radix2 (-440)); lra]). split; [|exact Wp].
  apply Forall_forall. intros x Hx. pose proof (entry_le_norm w x Hx (Wp x Hx)) as X1. destruct (G x Hx) as [->|X]; [left; reflexivity|right]. rewrite Rabs_pos_eq by (apply Wp; exact Hx). split; [apply Rle_trans with (2 := X); apply bpow_le; lia|].
  apply Rle_trans with (bpow radix2 1); [change (bpow radix2 1) with 2; lra|apply bpow_le; lia].
Qed.
(** C142. NSGA-III on directions adapted to a population whose objectives spread over ranges from 2^-200 to 2^200. *)
Theorem C142_adapted : forall t t1 t2 t3 n h vs fitness v, (2 <= n <= 2 ^ 20)%nat -> (1 <= h)%nat -> (Z.of_nat (n + 8) * (Z.of_nat h * Z.of_nat h) <= 2 ^ 44)%Z -> Permutation (leaves t) (seq 0 n) ->
  Permutation (leaves t1) (seq 0 n) -> Permutation (leaves t2) (seq 0 n) -> Permutation (leaves t3) (seq 0 n) ->
  initial_vectors_fl t h n = Ok vs -> fitness <> [] -> (forall r, In r fitness -> length r = n /\ Forall double r) -> (forall j r, (j < n)%nat -> range_of fitness j r -> bpow radix2 (-200) <= r <= bpow radix2 200) -> plain_point n v ->
  let dirs := adapt_fl t vs fitness in length dirs = length vs /\
  exists d, nth_error dirs (niche_of_fl t1 t2 t3 dirs v) = Some d /\ Rabs (niche_dist_fl t1 t2 t3 dirs v - perp_dist v d) <= INR (n + 4) * bpow radix2 (-48) * norm v + bpow radix2 (-520) /\
    forall d', In d' dirs -> perp_dist v d <= perp_dist v d' + (INR (n + 4) * bpow radix2 (-47) * norm v + bpow radix2 (-519)).
Proof.
  intros t t1 t2 t3 n h vs fit v Hn Hh Hs Ht H1 H2 H3 Hv NE Hf Hr Hp. cbv zeta.
  assert (Hr' : forall j r, (j < n)%nat -> range_of fit j r -> bpow radix2 (-249) <= r <= bpow radix2 249) by (intros j r Hj Hg; destruct (Hr j r Hj Hg) as (A & B); split; [apply Rle_trans with (2 := A)|apply Rle_trans with (1 := B)]; apply bpow_le; lia).
  destruct (C137_adapt_by_ranges_partial t vs fit n (proj2 Hn) Ht NE Hf Hr' (fun w Hin => initial_for_adapt t n h vs w Hn Hh Hs Ht Hv Hin)) as (rng & Lr & Sr & F). set (ad := adapt_fl t vs fit) in *.
  assert (L : length ad = length vs) by (clear - F; induction F; cbn [length]; congruence). split; [exact L|].
  assert (Rp : forall r, In r rng -> bpow radix2 (-200) <= r <= bpow radix2 200). { intros r Hin. destruct (In_nth rng r 0 Hin) as (j & Hj & <-). rewrite Lr in Hj. exact (Hr j _ Hj (Sr j Hj)). }
  apply (C142_association t1 t2 t3 n ad v); try assumption; try lia.
  - intros X. pose proof (initial_nonempty t n h vs Hn Hh Hs Ht Hv) as G. rewrite X in L. destruct vs; [congruence|discriminate].
  - assert (Iv : forall w, In w vs -> length w = n /\ forall x, In x w -> x = 0 \/ bpow radix2 (-26) <= x <= 2) by (intros w Hin; destruct (initial_entries t n h vs w Hn Hh Hs Ht Hv Hin) as (((A & _) & _) & B); auto).
    destruct (small_units n ltac:(lia) (proj2 Hn)) as (Z & _). clear - F Iv Rp Lr Z Hn. clearbody ad. induction F as [|w x vs ad (N & l & Hl & E) F IH]; [intros x []|]. intros y [<-|Hy]; [|apply IH; [intros q Hq; apply Iv; right; exact Hq|exact Hy]]. destruct (Iv w (or_introl eq_refl)) as (Lw & Pw).
    set (a := vmap2 Rmult w rng) in *. assert (La : length a = n) by (unfold a; rewrite vmap2_length; congruence). assert (Lx : length x = n) by (rewrite <- La; clear - E; induction E; cbn [length]; congruence).
    assert (Pa : forall q, In q a -> q = 0 \/ bpow radix2 (-226) <= q <= bpow radix2 201).
    { unfold a. clear - Pw Rp. revert rng Rp. induction w as [|b w IH]; intros [|r rng] Rp q Hq; try destruct Hq as [Hq|Hq]; try destruct Hq; cbn [vmap2] in *.
      - pose proof (Rp r (or_introl eq_refl)) as (R1 & R2). pose proof (bpow_gt_0 radix2 (-200)) as P. destruct (Pw b (or_introl eq_refl)) as [->|(B1 & B2)]; [left; ring|right]. pose proof (bpow_gt_0 radix2 (-26)) as P'. split.
        + change (-226)%Z with (-26 + -200)%Z. rewrite bpow_plus. apply Rmult_le_compat; lra.
        + change 201%Z with (1 + 200)%Z. rewrite bpow_plus. change (bpow radix2 1) with 2. apply Rmult_le_compat; lra.
      - exact (IH (fun z Hz => Pw z (or_intror Hz)) rng (fun z Hz => Rp z (or_intror Hz)) q Hq). }
    assert (Nx : / 2 <= norm x <= 2). { replace (INR (n + 4) * bpow radix2 (-51)) with (4 * (INR (n + 4) * u)) in N by (change (-51)%Z with (2 + -53)%Z; rewrite bpow_plus; change (bpow radix2 2) with 4; ring). apply Rabs_le_inv in N. lra. }
    destruct (adapted_moderate n a x l (proj2 Hn) La Hl Pa Nx E) as (Mx & Px). exact (conj (conj Lx (conj Px N)) Mx).
Qed.
Print Assumptions C142_adapted.
