(** Proofs about the recombination operators. *)
From Verif Require Import Base M_Recombination.
From Coq Require Import Reals QArith Lra.
Open Scope nat_scope.

(** ** Mating lists *)

(** The individual addressed by one entry of a mating list. *)
Definition row_at {A} (pop : list A) (z : Z) : option A :=
  match norm_idx (length pop) z with Some i => nth_error pop i | None => None end.

Lemma norm_idx_lt n z i : norm_idx n z = Some i -> i < n.
Proof.
  unfold norm_idx.
  destruct ((0 <=? z)%Z && (z <? Z.of_nat n)%Z) eqn:E1.
  - intros H; injection H as <-. apply andb_true_iff in E1. lia.
  - destruct ((- Z.of_nat n <=? z)%Z && (z <? 0)%Z) eqn:E2; [|discriminate].
    intros H; injection H as <-. apply andb_true_iff in E2. lia.
Qed.

Lemma norm_idx_in_range n z : (- Z.of_nat n <= z < Z.of_nat n)%Z -> exists i, norm_idx n z = Some i.
Proof.
  intros H. unfold norm_idx.
  destruct ((0 <=? z)%Z && (z <? Z.of_nat n)%Z) eqn:E1; eauto.
  destruct ((- Z.of_nat n <=? z)%Z && (z <? 0)%Z) eqn:E2; eauto.
  apply andb_false_iff in E1. apply andb_false_iff in E2. lia.
Qed.

Lemma take_rows_ok {A} (pop : list A) ids :
  in_range (length pop) ids ->
  exists mp, take_rows pop ids = Ok mp /\ length mp = length ids /\
    forall j z, nth_error ids j = Some z -> nth_error mp j = row_at pop z /\ row_at pop z <> None.
Proof.
  unfold take_rows. induction ids as [|z t IH]; intros H.
  - exists []. simpl. repeat split; auto; destruct j; discriminate.
  - inversion H as [|? ? Hz Ht]; subst. destruct (IH Ht) as (mp & E & L & P).
    destruct (norm_idx_in_range _ _ Hz) as [i Hi]. simpl. rewrite Hi.
    destruct (norm_idxs (length pop) t) as [l|e] eqn:En; [|discriminate]. simpl in E |- *.
    assert (Hlt := norm_idx_lt _ _ _ Hi).
    destruct (nth_error pop i) as [r|] eqn:Er; [|apply nth_error_None in Er; lia].
    exists (r :: mp). injection E as E. simpl. rewrite E. split; auto. split; [simpl; auto|].
    intros [|j] z' Hz'; simpl in Hz'.
    + injection Hz' as <-. unfold row_at. rewrite Hi. simpl. rewrite Er. split; congruence.
    + simpl. apply P; auto.
Qed.

Lemma take_rows_In {A} (pop : list A) ids mp r :
  take_rows pop ids = Ok mp -> In r mp -> In r pop.
Proof.
  unfold take_rows. destruct (norm_idxs (length pop) ids) as [l|e]; simpl; [|discriminate].
  intros H Hr; injection H as <-. apply in_flat_map in Hr. destruct Hr as (i & _ & Hi).
  destruct (nth_error pop i) as [x|] eqn:E; [|contradiction]. destruct Hi as [<-|[]].
  eapply nth_error_In; eauto.
Qed.

Lemma take_rows_err {A} (pop : list A) ids :
  ~ in_range (length pop) ids -> take_rows pop ids = Err IndexError.
Proof.
  unfold take_rows. intros H.
  assert (E : norm_idxs (length pop) ids = Err IndexError).
  { induction ids as [|z t IH]; [exfalso; apply H; constructor|]. simpl.
    destruct (norm_idx (length pop) z) as [i|] eqn:Ei; auto.
    rewrite IH; auto. intros Ht. apply H. constructor; auto.
    unfold norm_idx in Ei. 
    destruct ((0 <=? z)%Z && (z <? Z.of_nat (length pop))%Z) eqn:E1; [apply andb_true_iff in E1; lia|].
    destruct ((- Z.of_nat (length pop) <=? z)%Z && (z <? 0)%Z) eqn:E2; [|discriminate].
    apply andb_true_iff in E2; lia. }
  rewrite E. reflexivity.
Qed.

Lemma close_odd_length {A} (l : list A) : length (close_odd l) = 2 * ((length l + 1) / 2).
Proof.
  unfold close_odd. destruct (Nat.odd (length l)) eqn:E.
  - apply Nat.odd_spec in E. destruct E as [m Em]. destruct l as [|x t]; [simpl in Em; lia|].
    rewrite app_length. cbn [length]. cbn [length] in Em.
    replace (S (length t) + 1) with ((m + 1) * 2) by lia. rewrite Nat.div_mul by lia. lia.
  - rewrite <- Nat.negb_even in E. apply negb_false_iff in E. apply Nat.even_spec in E. destruct E as [m Em].
    rewrite Em. replace (2 * m + 1) with (1 + m * 2) by lia. rewrite Nat.div_add by lia. simpl; lia.
Qed.

Lemma close_odd_nth {A} (l : list A) j : j < length (close_odd l) ->
  nth_error (close_odd l) j = nth_error l (j mod (length l)).
Proof.
  unfold close_odd. destruct l as [|x t].
  - simpl. lia.
  - set (l := x :: t) in *. assert (Hl : length l <> 0) by (simpl; lia).
    destruct (Nat.odd (length l)) eqn:E.
    + rewrite app_length. cbn [length]. intros Hj.
      destruct (Nat.eq_dec j (length l)) as [->|Hn].
      * rewrite Nat.mod_same by auto. rewrite nth_error_app2, Nat.sub_diag by lia. reflexivity.
      * rewrite nth_error_app1 by lia. rewrite Nat.mod_small by lia. reflexivity.
    + intros Hj. rewrite Nat.mod_small by lia. reflexivity.
Qed.

Lemma pairs_loop_spec {A B} (f : nat -> A -> A -> B * B) : forall m k l, length l = 2 * m ->
  length (pairs_loop f k l) = 2 * m /\
  forall i a b, nth_error l (2 * i) = Some a -> nth_error l (2 * i + 1) = Some b ->
    nth_error (pairs_loop f k l) (2 * i) = Some (fst (f (k + i) a b)) /\
    nth_error (pairs_loop f k l) (2 * i + 1) = Some (snd (f (k + i) a b)).
Proof.
  induction m as [|m IH]; intros k l Hl.
  - destruct l; [|discriminate]. simpl. split; auto. intros i a b H. destruct (i + (i + 0)); discriminate.
  - destruct l as [|a [|b t]]; simpl in Hl; try lia.
    destruct (IH (S k) t ltac:(lia)) as [L P]. cbn [pairs_loop]. split; [cbn [length]; lia|].
    intros [|i] a' b'.
    + simpl. intros H1 H2; injection H1 as <-; injection H2 as <-. rewrite Nat.add_0_r. auto.
    + replace (2 * S i) with (S (S (2 * i))) by lia. replace (S (S (2 * i)) + 1) with (S (S (2 * i + 1))) by lia.
      cbn [nth_error]. intros H1 H2. destruct (P i a' b' H1 H2) as [P1 P2].
      replace (k + S i) with (S k + i) by lia. auto.
Qed.

(** The shape shared by SBX and single point crossover. *)
Lemma pairing {A B} (f : nat -> A -> A -> B * B) (pop : list A) ids :
  in_range (length pop) ids ->
  exists off,
    bind (take_rows pop ids) (fun mp => Ok (pairs_loop f 0 (close_odd mp))) = Ok off /\
    length off = 2 * ((length ids + 1) / 2) /\
    forall k, 2 * k < length ids ->
      exists z1 z2 p q,
        nth_error ids (2 * k) = Some z1 /\ nth_error ids ((2 * k + 1) mod (length ids)) = Some z2 /\
        row_at pop z1 = Some p /\ row_at pop z2 = Some q /\
        nth_error off (2 * k) = Some (fst (f k p q)) /\
        nth_error off (2 * k + 1) = Some (snd (f k p q)).
Proof.
  intros H. destruct (take_rows_ok pop ids H) as (mp & E & L & P). rewrite E. simpl bind.
  exists (pairs_loop f 0 (close_odd mp)). split; auto.
  pose proof (close_odd_length mp) as Lc. rewrite L in Lc.
  destruct (pairs_loop_spec f ((length ids + 1) / 2) 0 (close_odd mp) Lc) as [L2 P2].
  split; auto. intros k Hk.
  assert (Hh : k < (length ids + 1) / 2).
  { apply Nat.div_le_lower_bound; lia. }
  assert (Hm : (2 * k + 1) mod length ids < length ids) by (apply Nat.mod_upper_bound; lia).
  destruct (nth_error ids (2 * k)) as [z1|] eqn:E1; [|apply nth_error_None in E1; lia].
  destruct (nth_error ids ((2 * k + 1) mod length ids)) as [z2|] eqn:E2; [|apply nth_error_None in E2; lia].
  destruct (P _ _ E1) as [Q1 N1]. destruct (P _ _ E2) as [Q2 N2].
  destruct (row_at pop z1) as [p|] eqn:R1; [|congruence].
  destruct (row_at pop z2) as [q|] eqn:R2; [|congruence].
  exists z1, z2, p, q. repeat split; auto; apply (P2 k p q);
    rewrite close_odd_nth, L by lia; rewrite ?(Nat.mod_small (2 * k)) by lia; auto.
Qed.

(** ** npow on non-negative bases *)
Open Scope R_scope.

Lemma npow_pos x y : 0 < x -> npow x y = Some (Rpower x y).
Proof. intros H. unfold npow. destruct (Rlt_dec 0 x); [auto|lra]. Qed.

Lemma npow_zero y : 0 < y -> npow 0 y = Some 0.
Proof.
  intros H. unfold npow. destruct (Rlt_dec 0 0); [lra|]. destruct (Req_EM_T 0 0); [|lra].
  destruct (Rlt_dec 0 y); [auto|lra].
Qed.

Lemma Rpower_base_le x y e : 0 < x -> x <= y -> 0 <= e -> Rpower x e <= Rpower y e.
Proof.
  intros Hx Hxy He. destruct Hxy as [Hlt|Heq]; [|subst; apply Rle_refl].
  unfold Rpower. assert (ln x < ln y) by (apply ln_increasing; auto).
  destruct He as [He|He]; [|subst; rewrite !Rmult_0_l; lra].
  left. apply exp_increasing. apply Rmult_lt_compat_l; auto.
Qed.

Lemma Rpower_1_base e : Rpower 1 e = 1.
Proof. unfold Rpower. rewrite ln_1, Rmult_0_r, exp_0. auto. Qed.

(** Powers of numbers in [0,1] by a positive exponent stay in [0,1]; monotone; inverse. *)
Lemma npow_unit x y : 0 <= x <= 1 -> 0 < y -> exists r, npow x y = Some r /\ 0 <= r <= 1.
Proof.
  intros [H0 H1] Hy. destruct H0 as [Hx|Hx].
  - rewrite npow_pos by auto. exists (Rpower x y). split; auto. split; [left; apply exp_pos|].
    rewrite <- (Rpower_1_base y). apply Rpower_base_le; lra.
  - subst. rewrite npow_zero by auto. exists 0. split; auto; lra.
Qed.

(** The root of a value at least [t^e] is at least [t]. *)
Lemma npow_root_ge t e a b : 0 <= t -> 0 < e -> npow t e = Some a -> a <= b ->
  exists r, npow b (1 / e) = Some r /\ t <= r.
Proof.
  intros Ht He Ha Hab. assert (Hi : 0 < 1 / e) by (apply Rdiv_lt_0_compat; lra).
  destruct Ht as [Ht|Ht].
  - rewrite npow_pos in Ha by auto. injection Ha as <-.
    assert (Hp : 0 < Rpower t e) by apply exp_pos.
    rewrite npow_pos by lra. exists (Rpower b (1 / e)). split; auto.
    replace t with (Rpower (Rpower t e) (1 / e)) at 1.
    + apply Rpower_base_le; lra.
    + rewrite Rpower_mult. replace (e * (1 / e)) with 1 by (field; lra). apply Rpower_1; auto.
  - subst. rewrite npow_zero in Ha by auto. injection Ha as <-. destruct Hab as [Hb|Hb].
    + rewrite npow_pos by auto. eexists; split; eauto. left; apply exp_pos.
    + subst. rewrite npow_zero by auto. exists 0; split; auto; lra.
Qed.

(** ** SBX *)

Lemma sbx_beta_ok ProC DisC d : 0 <= d_miu d < 1 -> 0 < DisC + 1 ->
  exists b, sbx_beta ProC DisC d = Some b /\
    (ProC < d_pr d -> b = 1) /\
    (d_pr d <= ProC -> b = if d_neg d then - Rabs b else Rabs b) /\
    (d_pr d <= ProC -> d_miu d <= 1/2 -> Rabs b <= 1 /\ npow (Rabs b) (DisC + 1) = Some (2 * d_miu d)) /\
    (d_pr d <= ProC -> 1/2 < d_miu d -> 1 < Rabs b /\ npow (Rabs b) (DisC + 1) = Some (/ (2 - 2 * d_miu d))).
Proof.
  intros Hm He. unfold sbx_beta.
  assert (Hi : 0 < 1 / (DisC + 1)) by (apply Rdiv_lt_0_compat; lra).
  set (b0 := if Rle_dec (d_miu d) (1/2) then npow (2 * d_miu d) (1 / (DisC + 1))
           else npow (2 - 2 * d_miu d) (- 1 / (DisC + 1))).
  assert (H0 : exists b, b0 = Some b /\ 0 <= b /\
    (d_miu d <= 1/2 -> b <= 1 /\ npow b (DisC + 1) = Some (2 * d_miu d)) /\
    (1/2 < d_miu d -> 1 < b /\ npow b (DisC + 1) = Some (/ (2 - 2 * d_miu d)))).
  { unfold b0. destruct (Rle_dec (d_miu d) (1/2)) as [Hle|Hgt].
    - destruct (npow_unit (2 * d_miu d) (1 / (DisC + 1)) ltac:(lra) Hi) as (r & Er & Hr).
      exists r. repeat split; try lra; auto.
      destruct (Req_EM_T (d_miu d) 0) as [Hz|Hz].
      + rewrite Hz, Rmult_0_r in *. rewrite npow_zero in Er by auto. injection Er as <-. apply npow_zero; lra.
      + rewrite npow_pos in Er by lra. injection Er as <-. rewrite npow_pos by apply exp_pos.
        f_equal. rewrite Rpower_mult. replace (1 / (DisC + 1) * (DisC + 1)) with 1 by (field; lra).
        apply Rpower_1; lra.
    - assert (Hb : 0 < 2 - 2 * d_miu d < 1) by lra.
      rewrite npow_pos by lra. exists (Rpower (2 - 2 * d_miu d) (-1 / (DisC + 1))).
      split; auto. split; [left; apply exp_pos|]. split; [lra|]. intros _. split.
      + unfold Rpower. rewrite <- exp_0 at 1. apply exp_increasing.
        replace (-1 / (DisC + 1)) with (- (1 / (DisC + 1))) by (unfold Rdiv; ring).
        assert (ln (2 - 2 * d_miu d) < 0) by (rewrite <- ln_1; apply ln_increasing; lra).
        replace (- (1 / (DisC + 1)) * ln (2 - 2 * d_miu d)) with ((1 / (DisC + 1)) * (- ln (2 - 2 * d_miu d))) by ring.
        apply Rmult_lt_0_compat; lra.
      + rewrite npow_pos by apply exp_pos. f_equal. rewrite Rpower_mult.
        replace (-1 / (DisC + 1) * (DisC + 1)) with (- (1)) by (field; lra).
        rewrite Rpower_Ropp, Rpower_1 by lra. auto. }
  destruct H0 as (b & Eb & Hb0 & Hb1 & Hb2). rewrite Eb.
  assert (Hab : Rabs (if d_neg d then - b else b) = b).
  { destruct (d_neg d); rewrite ?Rabs_Ropp; apply Rabs_right; lra. }
  destruct (Rlt_dec ProC (d_pr d)) as [Hp|Hp].
  - exists 1. repeat split; auto; intros; lra.
  - exists (if d_neg d then - b else b). split; [destruct (d_neg d); auto|].
    split; [intros; lra|]. rewrite Hab. split; [intros _; destruct (d_neg d); auto|].
    split; intros; auto.
Qed.

Lemma sbx_row_length ProC DisC dr j p q : length p = length q -> length (sbx_row ProC DisC dr j p q) = length p.
Proof. revert j q; induction p as [|x p IH]; intros j [|y q] H; simpl in *; auto; try discriminate. Qed.

Lemma sbx_row_nth ProC DisC dr p : forall j q i x y,
  nth_error p i = Some x -> nth_error q i = Some y ->
  nth_error (sbx_row ProC DisC dr j p q) i = Some (sbx_gene ProC DisC (dr (j + i)%nat) x y).
Proof.
  induction p as [|a p IH]; intros j [|b q] [|i] x y Hx Hy; simpl in *; try discriminate.
  - injection Hx as ->; injection Hy as ->. rewrite Nat.add_0_r. auto.
  - rewrite (IH (S j) q i x y) by auto. do 3 f_equal. lia.
Qed.

(** ** Polynomial mutation *)

Lemma clamps_in lb ub v : lb <= ub -> exists w, clamp_lo lb (clamp_hi ub (Some v)) = Some w /\ lb <= w <= ub /\
  (lb <= v <= ub -> w = v).
Proof.
  intros H. simpl. destruct (Rlt_dec ub v); simpl.
  - destruct (Rlt_dec ub lb); [lra|]. exists ub; split; auto; split; lra.
  - destruct (Rlt_dec v lb); eexists; split; eauto; split; try lra; auto.
Qed.

Lemma bp_gene_inside ProM DisM lb ub k miu v :
  lb < ub -> 0 < DisM + 1 -> 0 <= miu < 1 -> lb <= v <= ub ->
  exists w, bp_gene ProM DisM lb ub k miu (Some v) = Some w /\ lb <= w <= ub /\
    (ProM < k -> w = v) /\ (k <= ProM -> miu < 1/2 -> w <= v) /\ (k <= ProM -> 1/2 <= miu -> v <= w).
Proof.
  intros Hb He Hm Hv. unfold bp_gene. cbn [obind].
  destruct (Req_EM_T (ub - lb) 0) as [Hz|Hz]; [lra|]. cbn [obind].
  set (s := (v - lb) / (ub - lb)).
  assert (Hs0 : 0 <= s) by (unfold s; apply Rmult_le_pos; [lra|left; apply Rinv_0_lt_compat; lra]).
  assert (Hsv : (ub - lb) * s = v - lb) by (unfold s; field; lra).
  assert (Hs1 : s <= 1).
  { apply Rmult_le_reg_l with (ub - lb); lra. }
  destruct (Rle_dec k ProM) as [Hk|Hk].
  - destruct (Rlt_dec miu (1/2)) as [Hmu|Hmu].
    + destruct (npow_unit (1 - s) (DisM + 1) ltac:(lra) He) as (a & Ea & Ha). rewrite Ea. cbn [obind].
      assert (Hge : a <= 2 * miu + (1 - 2 * miu) * a) by nra.
      destruct (npow_root_ge (1 - s) (DisM + 1) a _ ltac:(lra) He Ea Hge) as (r & Er & Hr). rewrite Er. cbn [obind].
      destruct (npow_unit (2 * miu + (1 - 2 * miu) * a) (1 / (DisM + 1))) as (r' & Er' & Hr').
      { split; nra. } { apply Rdiv_lt_0_compat; lra. }
      rewrite Er in Er'. injection Er' as <-.
      assert (H1 : lb <= v + (ub - lb) * (r - 1) <= v) by (split; nra).
      destruct (clamps_in lb ub (v + (ub - lb) * (r - 1)) ltac:(lra)) as (w & Ew & Hw & Hid).
      exists w. rewrite Ew. specialize (Hid ltac:(lra)). subst w. repeat split; intros; lra.
    + destruct (npow_unit s (DisM + 1) ltac:(lra) He) as (a & Ea & Ha). rewrite Ea. cbn [obind].
      assert (Hge : a <= 2 * (1 - miu) + 2 * (miu - 1/2) * a) by nra.
      destruct (npow_root_ge s (DisM + 1) a _ ltac:(lra) He Ea Hge) as (r & Er & Hr). rewrite Er. cbn [obind].
      destruct (npow_unit (2 * (1 - miu) + 2 * (miu - 1/2) * a) (1 / (DisM + 1))) as (r' & Er' & Hr').
      { split; nra. } { apply Rdiv_lt_0_compat; lra. }
      rewrite Er in Er'. injection Er' as <-.
      assert (H1 : v <= v + (ub - lb) * (1 - r) <= ub) by (split; nra).
      destruct (clamps_in lb ub (v + (ub - lb) * (1 - r)) ltac:(lra)) as (w & Ew & Hw & Hid).
      exists w. rewrite Ew. specialize (Hid ltac:(lra)). subst w. repeat split; intros; lra.
  - destruct (clamps_in lb ub v ltac:(lra)) as (w & Ew & Hw & Hid).
    exists w. rewrite Ew. specialize (Hid ltac:(lra)). subst w. repeat split; intros; lra.
Qed.

(** Whatever the gene: NaN or in bounds; a gene that is not mutated is clamped. *)
Lemma bp_gene_any ProM DisM lb ub k miu x :
  lb <= ub ->
  (bp_gene ProM DisM lb ub k miu x = None \/ exists w, bp_gene ProM DisM lb ub k miu x = Some w /\ lb <= w <= ub) /\
  (ProM < k -> forall v, x = Some v -> bp_gene ProM DisM lb ub k miu x = Some (Rmin ub (Rmax lb v))).
Proof.
  intros H. unfold bp_gene. split.
  - match goal with |- context [clamp_hi ub ?y] => destruct y as [v|] end; [right|left; auto].
    destruct (clamps_in lb ub v H) as (w & Ew & Hw & _). exists w; auto.
  - intros Hk v ->. destruct (Rle_dec k ProM); [lra|]. simpl. unfold Rmin, Rmax.
    destruct (Rlt_dec ub v); simpl.
    + destruct (Rlt_dec ub lb); [lra|]. destruct (Rle_dec lb v); [|lra]. destruct (Rle_dec ub v); f_equal; lra.
    + destruct (Rlt_dec v lb); destruct (Rle_dec lb v); destruct (Rle_dec ub v);
        try destruct (Rle_dec ub lb); try lra; f_equal; lra.
Qed.

(** Without NaN sources: if no base is negative the mutated gene is a number in bounds. *)
Lemma bp_gene_nonneg ProM DisM lb ub k miu v a :
  lb < ub -> 0 < DisM + 1 ->
  (miu < 1/2 -> npow (1 - (v - lb) / (ub - lb)) (DisM + 1) = Some a /\ 0 <= 2 * miu + (1 - 2 * miu) * a) ->
  (1/2 <= miu -> npow ((v - lb) / (ub - lb)) (DisM + 1) = Some a /\ 0 <= 2 * (1 - miu) + 2 * (miu - 1/2) * a) ->
  exists w, bp_gene ProM DisM lb ub k miu (Some v) = Some w /\ lb <= w <= ub.
Proof.
  intros Hb He H1 H2. unfold bp_gene. cbn [obind].
  assert (Hi : 0 < 1 / (DisM + 1)) by (apply Rdiv_lt_0_compat; lra).
  assert (Hn : forall z, 0 <= z -> exists r, npow z (1 / (DisM + 1)) = Some r).
  { intros z [Hz|Hz]; [rewrite npow_pos by auto; eauto|subst; rewrite npow_zero by auto; eauto]. }
  destruct (Req_EM_T (ub - lb) 0) as [Hz|Hz]; [lra|]. cbn [obind].
  destruct (Rle_dec k ProM) as [Hk|Hk].
  - destruct (Rlt_dec miu (1/2)) as [Hmu|Hmu].
    + destruct (H1 Hmu) as [E1 E2]. rewrite E1. cbn [obind]. destruct (Hn _ E2) as [r Er]. rewrite Er. cbn [obind].
      destruct (clamps_in lb ub (v + (ub - lb) * (r - 1)) ltac:(lra)) as (w & Ew & Hw & _). eauto.
    + destruct (H2 ltac:(lra)) as [E1 E2]. rewrite E1. cbn [obind]. destruct (Hn _ E2) as [r Er]. rewrite Er. cbn [obind].
      destruct (clamps_in lb ub (v + (ub - lb) * (1 - r)) ltac:(lra)) as (w & Ew & Hw & _). eauto.
  - destruct (clamps_in lb ub v ltac:(lra)) as (w & Ew & Hw & _). eauto.
Qed.

Lemma bp_row_length ProM DisM dr lbs : forall j ubs xs,
  length xs = length lbs -> length xs = length ubs -> length (bp_row ProM DisM dr j lbs ubs xs) = length xs.
Proof.
  induction lbs as [|l lbs IH]; intros j [|u ubs] [|x xs] H1 H2; simpl in *; try discriminate; auto.
Qed.

Lemma bp_row_nth ProM DisM dr lbs : forall j ubs xs i l u x,
  nth_error lbs i = Some l -> nth_error ubs i = Some u -> nth_error xs i = Some x ->
  nth_error (bp_row ProM DisM dr j lbs ubs xs) i =
    Some (bp_gene ProM DisM l u (fst (dr (j + i)%nat)) (snd (dr (j + i)%nat)) x).
Proof.
  induction lbs as [|l lbs IH]; intros j [|u ubs] [|x xs] [|i] l' u' x' H1 H2 H3; simpl in *; try discriminate.
  - injection H1 as ->; injection H2 as ->; injection H3 as ->. rewrite Nat.add_0_r. auto.
  - rewrite (IH (S j) ubs xs i l' u' x') by auto. replace (S j + i)%nat with (j + S i)%nat by lia. auto.
Qed.

Lemma bp_rows_nth ProM DisM dr lbs ubs m : forall i r row,
  nth_error m r = Some row ->
  nth_error (bp_rows ProM DisM dr i lbs ubs m) r = Some (bp_row ProM DisM (dr (i + r)%nat) 0 lbs ubs row).
Proof.
  induction m as [|x m IH]; intros i [|r] row H; simpl in *; try discriminate.
  - injection H as ->. rewrite Nat.add_0_r. auto.
  - rewrite (IH (S i) r row) by auto. replace (S i + r)%nat with (i + S r)%nat by lia. auto.
Qed.
Lemma bp_rows_length ProM DisM dr lbs ubs m i : length (bp_rows ProM DisM dr i lbs ubs m) = length m.
Proof. revert i; induction m; intros; simpl; auto. Qed.

(** ** Single point *)
Open Scope nat_scope.

Lemma qround_Z z : qround (inject_Z z) = z.
Proof.
  unfold qround, inject_Z. cbn [Qnum Qden]. 
  replace (2 * z + 1)%Z with (z * 2 + 1)%Z by lia. change (2 * 1)%Z with 2%Z.
  rewrite Z.div_add_l by lia. rewrite Z.add_comm, Z.mod_add by lia. simpl. rewrite Z.add_0_r. reflexivity.
Qed.
Lemma rnd_idem q : rnd (rnd q) = rnd q.
Proof. unfold rnd. rewrite qround_Z. auto. Qed.

Lemma sp_loop_pairs pt l : forall k done, Forall (Forall (fun x => rnd x = x)) done ->
  sp_loop pt k done l = done ++ map (map rnd) (pairs_loop (fun k a b => sp_cross (pt k) a b) k l).
Proof.
  enough (forall n l, length l <= n -> forall k done, Forall (Forall (fun x => rnd x = x)) done ->
     sp_loop pt k done l = done ++ map (map rnd) (pairs_loop (fun k a b => sp_cross (pt k) a b) k l)) as H.
  { intros; eapply H; eauto. }
  intros n. induction n as [|n IH]; intros l0 Hl k done Hd.
  - destruct l0; simpl in *; [rewrite app_nil_r; auto|lia].
  - destruct l0 as [|a [|b t]]; try (simpl; rewrite app_nil_r; reflexivity).
    cbn [sp_loop]. destruct (sp_cross (pt k) a b) as [c d] eqn:Ec.
    assert (Hid : forall r, Forall (fun x => rnd x = x) r -> map rnd r = r).
    { intros r Hr. induction Hr as [|x r E _ IHr]; simpl; congruence. }
    assert (Hdone : map (map rnd) done = done).
    { clear -Hd Hid. induction Hd as [|r m Hr _ IHd]; simpl; auto. rewrite Hid by auto. congruence. }
    rewrite map_app, Hdone. rewrite IH.
    + rewrite <- app_assoc. cbn [pairs_loop map]. rewrite Ec. reflexivity.
    + simpl in Hl. lia.
    + apply Forall_app. split; auto. repeat constructor; apply Forall_forall; intros x Hx;
        apply in_map_iff in Hx; destruct Hx as (y & <- & _); apply rnd_idem.
Qed.

Lemma sp_cross_nth pt a b j x y : length a = length b ->
  nth_error a j = Some x -> nth_error b j = Some y ->
  nth_error (fst (sp_cross pt a b)) j = Some (if Nat.ltb j pt then x else y) /\
  nth_error (snd (sp_cross pt a b)) j = Some (if Nat.ltb j pt then y else x).
Proof.
  revert a b j. induction pt as [|pt IH]; intros a b j Hl Ha Hb.
  - unfold sp_cross; simpl. auto.
  - destruct a as [|u a], b as [|v b]; try discriminate; [destruct j; discriminate|].
    destruct j as [|j]; simpl in *.
    + auto.
    + apply IH; auto.
Qed.

Lemma sp_cross_length pt (a b : list Q) : length a = length b ->
  length (fst (sp_cross pt a b)) = length a /\ length (snd (sp_cross pt a b)) = length a.
Proof.
  intros H. unfold sp_cross; simpl. rewrite !app_length, !firstn_length, !skipn_length. lia.
Qed.

Lemma sp_mut_nth ks m : forall i r row, nth_error m r = Some row ->
  nth_error (sp_mut ks i m) r = Some (sp_flip (ks (i + r)) row).
Proof.
  induction m as [|x m IH]; intros i [|r] row H; simpl in *; try discriminate.
  - injection H as ->. rewrite Nat.add_0_r; auto.
  - rewrite (IH (S i) r row) by auto. replace (S i + r) with (i + S r) by lia. auto.
Qed.
Lemma sp_mut_length ks m i : length (sp_mut ks i m) = length m.
Proof. revert i; induction m; intros; simpl; auto. Qed.

(** ** Neural networks *)

Lemma nn_cross_spec ex a : forall i b u v, length a = length b -> nn_cross ex i a b = (u, v) ->
  length u = length a /\ length v = length a /\
  forall c x y, nth_error a c = Some x -> nth_error b c = Some y ->
    nth_error u c = Some (if ex (i + c) then y else x) /\ nth_error v c = Some (if ex (i + c) then x else y).
Proof.
  induction a as [|x a IH]; intros i [|y b] u v Hl; simpl in Hl; try discriminate; simpl.
  - intros H; injection H as <- <-. repeat split; destruct c; discriminate.
  - destruct (nn_cross ex (S i) a b) as [u' v'] eqn:E. destruct (IH (S i) b u' v' ltac:(lia) E) as (L1 & L2 & P).
    intros H. assert (Hu : u = (if ex i then y else x) :: u' /\ v = (if ex i then x else y) :: v').
    { destruct (ex i); injection H as <- <-; auto. }
    destruct Hu as [-> ->]. simpl. repeat split; auto; destruct c as [|c]; simpl in *;
      try (injection H0 as ->; injection H1 as ->; rewrite Nat.add_0_r; auto);
      replace (i + S c) with (S i + c) by lia; eapply P; eauto.
Qed.

Lemma dn_swap_spec ex a : forall i b u v, dn_swap ex i a b = (u, v) ->
  length u = length a /\ length v = length b /\
  forall c,
    nth_error u c = match nth_error a c, nth_error b c with Some x, Some y => Some (if ex (i + c) then y else x) | o, _ => o end /\
    nth_error v c = match nth_error a c, nth_error b c with Some x, Some y => Some (if ex (i + c) then x else y) | _, o => o end.
Proof.
  induction a as [|x a IH]; intros i b u v.
  - simpl. intros H; injection H as <- <-. repeat split; destruct c; auto.
  - destruct b as [|y b]; simpl.
    + intros H; injection H as <- <-. split; auto. split; auto. intros [|c]; simpl; split; auto; destruct (nth_error a c); auto.
    + destruct (dn_swap ex (S i) a b) as [u' v'] eqn:E. destruct (IH (S i) b u' v' E) as (L1 & L2 & P).
      intros H. assert (Hu : u = (if ex i then y else x) :: u' /\ v = (if ex i then x else y) :: v').
      { destruct (ex i); injection H as <- <-; auto. }
      destruct Hu as [-> ->]. simpl. repeat split; auto; destruct c as [|c]; simpl;
        rewrite ?Nat.add_0_r; auto; replace (i + S c) with (S i + c) by lia; apply P.
Qed.

Lemma scale_from_spec mv ws : forall j, length (scale_from mv j ws) = length ws /\
  forall c w, nth_error ws c = Some w ->
    nth_error (scale_from mv j ws) c = Some (match mv (j + c)%nat with Some v => w + w * v | None => w end)%Q.
Proof.
  induction ws as [|w ws IH]; intros j.
  - simpl. split; auto. intros [|c] w; discriminate.
  - destruct (IH (S j)) as [L P]. simpl. split; auto. intros [|c] w' H; simpl in H |- *.
    + injection H as ->. rewrite Nat.add_0_r. auto.
    + replace (j + S c)%nat with (S j + c)%nat by lia. apply P; auto.
Qed.

Lemma nn_mutate_nth mv net : forall i c col, nth_error net c = Some col ->
  nth_error (nn_mutate mv i net) c = Some (scale_from (mv (i + c)) 0 col).
Proof.
  induction net as [|x net IH]; intros i [|c] col H; simpl in *; try discriminate.
  - injection H as ->. rewrite Nat.add_0_r; auto.
  - rewrite (IH (S i) c col) by auto. replace (S i + c) with (i + S c) by lia. auto.
Qed.
Lemma nn_mutate_length mv net i : length (nn_mutate mv i net) = length net.
Proof. revert i; induction net; intros; simpl; auto. Qed.

Lemma dn_layers_spec d a : forall l b us vs, dn_layers d l a b = (us, vs) ->
  length us = length a /\ length vs = length b /\
  forall m,
    nth_error us m = match nth_error a m, nth_error b m with
      | Some x, Some y => Some (scale_from (dn_mv1 d (l + m)) 0 (fst (dn_swap (dn_ex d (l + m)) 0 x y)))
      | Some x, None => Some (scale_from (dn_mv1 d (l + m)) 0 x)
      | None, _ => None end /\
    nth_error vs m = match nth_error a m, nth_error b m with
      | Some x, Some y => Some (scale_from (dn_mv2 d (l + m)) 0 (snd (dn_swap (dn_ex d (l + m)) 0 x y)))
      | None, Some y => Some (scale_from (dn_mv2 d (l + m)) 0 y)
      | _, None => None end.
Proof.
  induction a as [|x a IH]; intros l b us vs.
  - simpl. intros H; injection H as <- <-. split; auto.
    split.
    + revert l; induction b as [|y b IHb]; intros l; simpl; auto.
    + revert l; induction b as [|y b IHb]; intros l [|m]; simpl; auto.
      * rewrite Nat.add_0_r; auto.
      * replace (l + S m) with (S l + m) by lia. destruct (IHb (S l) m) as [_ I2].
        destruct (nth_error b m); simpl in I2; rewrite I2; destruct m; auto.
  - destruct b as [|y b]; simpl.
    + destruct (dn_layers d (S l) a []) as [us' vs'] eqn:E. destruct (IH (S l) [] us' vs' E) as (L1 & L2 & P).
      intros H; injection H as <- <-. simpl. split; auto. split; auto.
      intros [|m]; simpl.
      * rewrite Nat.add_0_r. destruct vs'; simpl in *; auto; discriminate.
      * replace (l + S m) with (S l + m) by lia. destruct (P m) as [P1 P2]. rewrite P1.
        split; [destruct (nth_error a m); destruct m; auto|].
        destruct vs'; [destruct (nth_error a m); auto|discriminate].
    + destruct (dn_swap (dn_ex d l) 0 x y) as [u v] eqn:Es.
      destruct (dn_layers d (S l) a b) as [us' vs'] eqn:E. destruct (IH (S l) b us' vs' E) as (L1 & L2 & P).
      intros H; injection H as <- <-. simpl. split; auto. split; auto.
      intros [|m]; simpl.
      * rewrite Nat.add_0_r, Es. auto.
      * replace (l + S m) with (S l + m) by lia. apply P.
Qed.
