(** C112: the selection_type option replaces the retired selection operators. *)
From Verif Require Import Base RVec M_APD P_APD M_APDold.
From Coq Require Import Reals Lra Lia.
Open Scope R_scope.

(** ** Specification: a history of generations as the population produces it. All rows have [n] entries; every generation has a
    member; the ideal point of the population is the component-wise minimum of the fitness values of this and all earlier
    generations ([z]: before the first one). *)
Definition lower (n : nat) (z : list R) (rows : list (list R)) (z' : list R) : Prop :=
  length z' = n /\ forall j, (j < n)%nat ->
    nth j z' 0 <= nth j z 0 /\ (forall f, In f rows -> nth j z' 0 <= nth j f 0) /\
    (nth j z' 0 = nth j z 0 \/ exists f, In f rows /\ nth j z' 0 = nth j f 0).
Fixpoint history (n : nat) (z : list R) (gs : list generation) : Prop :=
  match gs with
  | [] => True
  | g :: gs' => g_fit g <> [] /\ (forall f, In f (g_fit g) -> length f = n) /\ lower n z (g_fit g) (g_pop_ideal g) /\ history n (g_pop_ideal g) gs'
  end.
(** Every generation comes with a non-negative uncertainty for every fitness value. *)
Definition uncertain (g : generation) : Prop :=
  exists u, g_unc g = Some u /\ length u = length (g_fit g) /\
    forall i f d, nth_error (g_fit g) i = Some f -> nth_error u i = Some d -> length d = length f /\ forall x, In x d -> 0 <= x.

(** ** Proofs *)
Lemma list_ext_nth n (u v : list R) : length u = n -> length v = n -> (forall j, (j < n)%nat -> nth j u 0 = nth j v 0) -> u = v.
Proof.
  intros Lu Lv H. apply nth_ext with (d := 0) (d' := 0); [congruence|]. intros k Hk. apply H. lia.
Qed.
Lemma vmin_nth u : forall v j, length u = length v -> (j < length u)%nat -> nth j (vmin u v) 0 = Rmin (nth j u 0) (nth j v 0).
Proof.
  induction u as [|x u IH]; intros [|y v] j L Hj; try discriminate; [cbn in Hj; lia|]. destruct j; cbn [vmin vmap2 nth]; auto.
  apply IH; [injection L; auto|cbn in Hj; lia].
Qed.
Lemma vmin_len n u v : length u = n -> length v = n -> length (vmin u v) = n.
Proof. intros A B. rewrite vmin_length; congruence. Qed.

Lemma colmin_spec n rows : rows <> [] -> (forall f, In f rows -> length f = n) ->
  exists m, colmin rows = Some m /\ length m = n /\
    forall j, (j < n)%nat -> (forall f, In f rows -> nth j m 0 <= nth j f 0) /\ exists f, In f rows /\ nth j m 0 = nth j f 0.
Proof.
  destruct rows as [|r rows]; [congruence|]. intros _ L. exists (fold_left vmin rows r). split; auto.
  assert (Lr : length r = n) by (apply L; left; auto).
  assert (L' : forall f, In f rows -> length f = n) by (intros; apply L; right; auto). clear L.
  revert r Lr. induction rows as [|s rows IH]; intros r Lr.
  - cbn [fold_left]. split; auto. intros j Hj. split; [intros f [<-|[]]; lra|]. exists r. split; [left|]; auto.
  - cbn [fold_left]. assert (Ls : length s = n) by (apply L'; left; auto).
    assert (Lm : length (vmin r s) = n) by (apply vmin_len; auto).
    destruct (IH (fun f Hf => L' f (or_intror Hf)) (vmin r s) Lm) as (A & B). split; auto.
    intros j Hj. destruct (B j Hj) as (B1 & f & Hf & Ef).
    assert (M : nth j (vmin r s) 0 = Rmin (nth j r 0) (nth j s 0)) by (apply vmin_nth; congruence || lia).
    pose proof (B1 _ (or_introl eq_refl)) as B2. rewrite M in B2.
    pose proof (Rmin_l (nth j r 0) (nth j s 0)). pose proof (Rmin_r (nth j r 0) (nth j s 0)).
    split.
    + intros g [<-|[<-|Hg]]; [lra|lra|]. apply B1. right; auto.
    + destruct Hf as [<-|Hf].
      * rewrite M in Ef. unfold Rmin in Ef. destruct (Rle_dec _ _).
        { exists r. split; [left|]; auto. }
        { exists s. split; [right; left|]; auto. }
      * exists f. split; [right; right|]; auto.
Qed.

Lemma choose_same penalty vecs trs gam k : choose penalty vecs trs gam None k = legacy_choose penalty vecs trs gam k.
Proof.
  unfold choose, legacy_choose. cbn [constraint_filter]. destruct (niche vecs trs k) as [|i [|j l]]; auto.
Qed.

Lemma lower_min n z rows z' m : length z = n -> lower n z rows z' -> colmin rows = Some m -> length m = n ->
  (forall j, (j < n)%nat -> (forall f, In f rows -> nth j m 0 <= nth j f 0) /\ exists f, In f rows /\ nth j m 0 = nth j f 0) -> z' = vmin z m.
Proof.
  intros Lz (Lz' & H) _ Lm Hm. apply (list_ext_nth n); auto; [apply vmin_len; auto|]. intros j Hj.
  rewrite vmin_nth by (congruence || lia). destruct (H j Hj) as (H1 & H2 & H3), (Hm j Hj) as (M1 & f & Hf & Mf).
  assert (X : nth j z' 0 <= nth j m 0) by (rewrite Mf; auto).
  unfold Rmin. destruct (Rle_dec _ _).
  - destruct H3 as [E|(g & Hg & E)]; auto. apply Rle_antisym; auto. pose proof (M1 g Hg). lra.
  - destruct H3 as [E|(g & Hg & E)]; [lra|]. pose proof (M1 g Hg). lra.
Qed.

Lemma vmap2_In {A B C} (f : A -> B -> C) : forall u v x, In x (vmap2 f u v) -> exists i a b, nth_error u i = Some a /\ nth_error v i = Some b /\ x = f a b.
Proof.
  induction u as [|a u IH]; intros [|b v] x H; cbn [vmap2] in H; try contradiction. destruct H as [<-|H].
  - exists 0%nat, a, b. auto.
  - destruct (IH _ _ H) as (i & a' & b' & P & Q & E). exists (S i), a', b'. auto.
Qed.
Lemma vsub_nth u : forall v j, length u = length v -> (j < length u)%nat -> nth j (vsub u v) 0 = nth j u 0 - nth j v 0.
Proof.
  induction u as [|x u IH]; intros [|y v] j L Hj; try discriminate; [cbn in Hj; lia|]. destruct j; cbn [vsub vmap2 nth]; auto.
  apply IH; [injection L; auto|cbn in Hj; lia].
Qed.

(** ** C112. With selection_type "mean", the current operator makes in every generation of every history the selections that
    APD_Select.py makes ... *)
Theorem C112_mean_as_before (n : nat) (z : list R) (gs : list generation) : length z = n -> history n z gs ->
  exists l, selections (current_do SelMean) z gs = Ok l /\ selections (legacy_do LegacyMean) (Some z) gs = Ok l.
Proof.
  intros Lz. cut (forall own, history n z gs -> exists l, selections (current_do SelMean) z gs = Ok l /\ selections (legacy_do LegacyMean) own gs = Ok l); auto.
  revert z Lz. induction gs as [|g gs IH]; intros z Lz own H; [exists []; auto|]. destruct H as (Hne & Hl & Hlow & H).
  destruct (colmin_spec n _ Hne Hl) as (m & Em & Lm & Hm).
  pose proof (lower_min n z _ _ m Lz Hlow Em Lm Hm) as Ez.
  assert (Lz' : length (g_pop_ideal g) = n) by apply Hlow.
  assert (E2 : vmin (vmin z m) (g_pop_ideal g) = g_pop_ideal g).
  { rewrite <- Ez. apply (list_ext_nth n); auto; [apply vmin_len; auto|]. intros j Hj. rewrite vmin_nth by (congruence || lia).
    unfold Rmin. destruct (Rle_dec _ _); auto. }
  destruct (IH (g_pop_ideal g) Lz' own H) as (l & A & B).
  eexists. cbn [selections]. unfold current_do at 1, legacy_do at 1, apd_select, legacy_select, new_ideal, legacy_ideal.
  cbn [calc_fitness legacy_fitness bind]. rewrite Em. cbn [bind fst snd]. rewrite E2, A, B. cbn [bind]. split; [reflexivity|].
  f_equal. f_equal. apply flat_map_ext. intros k. symmetry. apply choose_same.
Qed.

(** ... and with "optimistic" (fitness minus a non-negative uncertainty) the selections that oAPD.py makes. *)
Theorem C112_optimistic_as_before (n : nat) (z : list R) (gs : list generation) : length z = n -> history n z gs -> Forall uncertain gs ->
  exists l, selections (current_do SelOptimistic) z gs = Ok l /\ selections (legacy_do LegacyOptimistic) (Some z) gs = Ok l.
Proof.
  intros Lz.
  cut (forall own, length own = n -> (forall j, (j < n)%nat -> nth j own 0 <= nth j z 0) -> history n z gs -> Forall uncertain gs ->
    exists l, selections (current_do SelOptimistic) own gs = Ok l /\ selections (legacy_do LegacyOptimistic) (Some own) gs = Ok l).
  { intros C. apply C; auto. intros; lra. }
  revert z Lz. induction gs as [|g gs IH]; intros z Lz own Lo Hle H HU; [exists []; auto|]. destruct H as (Hne & Hl & Hlow & H).
  inversion HU as [|? ? (u & Eu & Lu & Hu) HU']; subst.
  set (n := length z) in *. set (fit := vmap2 vsub (g_fit g) u).
  assert (Hne' : fit <> []). { unfold fit. destruct (g_fit g), u; try congruence; try discriminate. }
  assert (Hl' : forall f, In f fit -> length f = n).
  { intros f Hf. apply vmap2_In in Hf. destruct Hf as (i & a & b & Ea & Eb & ->).
    destruct (Hu i a b Ea Eb) as (Lb & _). rewrite vsub_length by congruence. apply Hl. eapply nth_error_In; eauto. }
  destruct (colmin_spec n _ Hne' Hl') as (m & Em & Lm & Hm).
  destruct Hlow as (Lz' & Hlow).
  assert (M : forall j, (j < n)%nat -> nth j (vmin own m) 0 <= nth j (g_pop_ideal g) 0).
  { intros j Hj. rewrite vmin_nth by (congruence || lia). destruct (Hlow j Hj) as (H1 & H2 & H3). destruct H3 as [E|(f & Hf & E)]; rewrite E.
    - apply Rle_trans with (nth j own 0); [apply Rmin_l|auto].
    - apply Rle_trans with (nth j m 0); [apply Rmin_r|]. destruct (Hm j Hj) as (M1 & _).
      apply In_nth_error in Hf. destruct Hf as (i & Hi).
      destruct (nth_error u i) as [d|] eqn:Ed.
      2:{ apply nth_error_None in Ed. assert (i < length (g_fit g))%nat by (apply nth_error_Some; congruence). lia. }
      destruct (Hu i f d Hi Ed) as (Ld & Pd). assert (Lf : length f = n) by (apply Hl; eapply nth_error_In; eauto).
      apply Rle_trans with (nth j (vsub f d) 0).
      + apply M1. apply (nth_error_In fit i). unfold fit. rewrite vmap2_nth, Hi, Ed. auto.
      + rewrite vsub_nth by (congruence || lia). assert (0 <= nth j d 0) by (apply Pd, nth_In; lia). lra. }
  assert (Lo' : length (vmin own m) = n) by (apply vmin_len; auto).
  assert (E2 : vmin (vmin own m) (g_pop_ideal g) = vmin own m).
  { apply (list_ext_nth n); auto; [apply vmin_len; auto|]. intros j Hj. rewrite (vmin_nth _ (g_pop_ideal g)) by (congruence || lia).
    apply Rmin_left. auto. }
  destruct (IH (g_pop_ideal g) Lz' (vmin own m) Lo' M) as (l & A & B); auto.
  eexists. cbn [selections]. unfold current_do at 1, legacy_do at 1, apd_select, legacy_select, new_ideal, legacy_ideal. rewrite Eu.
  cbn [calc_fitness legacy_fitness bind]. fold fit. rewrite Em. cbn [bind fst snd]. rewrite E2, A, B. cbn [bind]. split; [reflexivity|].
  f_equal. f_equal. apply flat_map_ext. intros k. symmetry. apply choose_same.
Qed.

(** For "robust" (fitness plus uncertainty) "the option replaces the retired operator" fails: the current operator also measures from the
    ideal point of the population, which is computed without the uncertainty, robust_APD.py does not. Two individuals that
    robust_APD.py gives to different reference vectors (and selects both) then share one, and only one of them survives. *)
Definition ex_gen : generation :=
  mkGen [[-5; 0]; [1; 2]] (Some [[6; 0]; [0; 0]]) [-5; 0] 0 [[1; 0]; [0; 1]] [1; 1].
Lemma ex_history : history 2 [0; 0] [ex_gen].
Proof.
  cbn [history ex_gen g_fit g_pop_ideal]. split; [discriminate|]. split; [intros f [<-|[<-|[]]]; auto|]. split; [|auto].
  split; auto. intros j Hj. destruct j as [|[|j]]; [| |lia]; cbn [nth]; split; try lra; split.
  - intros f [<-|[<-|[]]]; cbn [nth]; lra.
  - right. exists [-5; 0]. split; [left; auto|]. auto.
  - intros f [<-|[<-|[]]]; cbn [nth]; lra.
  - left. auto.
Qed.
Lemma ex_uncertain : uncertain ex_gen.
Proof.
  exists [[6; 0]; [0; 0]]. split; auto. split; auto.
  intros [|[|i]] f d Hf Hd; cbn in Hf, Hd; try (destruct i; discriminate); injection Hf as <-; injection Hd as <-; split; auto;
    intros x [<-|[<-|[]]]; lra.
Qed.

Lemma cos_clip tr v c : cosine_raw tr v = c -> 0 <= c <= 1 -> cosine tr v = c.
Proof. intros E H. unfold cosine, clip01. rewrite E. destruct (Rlt_dec 1 c); [lra|]. destruct (Rlt_dec c 0); [lra|auto]. Qed.
Lemma cos_axes x y s : 0 <= x -> 0 <= y -> s * s = x * x + y * y -> 0 < s ->
  cosine [x; y] [1; 0] = x / s /\ cosine [x; y] [0; 1] = y / s.
Proof.
  intros Hx Hy Hs Ps.
  assert (N : norm [x; y] = s). { unfold norm. cbn [dot]. replace (x * x + (y * y + 0)) with (s * s) by lra. apply sqrt_square. lra. }
  assert (Z : zero_eps (norm [x; y]) = s). { rewrite N. unfold zero_eps. destruct (Req_EM_T s 0); lra. }
  assert (Ex : 0 <= x / s <= 1).
  { split; [apply Rmult_le_pos; [lra|left; apply Rinv_0_lt_compat; lra]|]. apply Rmult_le_reg_r with s; auto. unfold Rdiv.
    rewrite Rmult_assoc, Rinv_l, Rmult_1_r, Rmult_1_l by lra. nra. }
  assert (Ey : 0 <= y / s <= 1).
  { split; [apply Rmult_le_pos; [lra|left; apply Rinv_0_lt_compat; lra]|]. apply Rmult_le_reg_r with s; auto. unfold Rdiv.
    rewrite Rmult_assoc, Rinv_l, Rmult_1_r, Rmult_1_l by lra. nra. }
  split; apply cos_clip; auto; unfold cosine_raw; rewrite Z; cbn [map dot]; field; lra.
Qed.
Lemma assigned_axes x y : 0 <= x -> 0 <= y -> 0 < x * x + y * y ->
  assigned [[1; 0]; [0; 1]] [x; y] = if Rlt_dec x y then 1%nat else 0%nat.
Proof.
  intros Hx Hy Hp. set (s := sqrt (x * x + y * y)).
  assert (Ps : 0 < s) by (apply sqrt_lt_R0; auto).
  destruct (cos_axes x y s) as (A & B); auto; [apply sqrt_sqrt; lra|].
  unfold assigned. cbn [map]. rewrite A, B. unfold argmax. cbn [map argmin argmin_from].
  assert (Ip : 0 < / s) by (apply Rinv_0_lt_compat; auto).
  destruct (Rlt_dec (- (y / s)) (- (x / s))) as [C|C], (Rlt_dec x y) as [D|D]; auto; exfalso; unfold Rdiv in C; nra.
Qed.

Lemma ex_robust_old : exists i j, selections (legacy_do LegacyRobust) (Some [0; 0]) [ex_gen] = Ok [[i; j]].
Proof.
  cbn [selections]. unfold legacy_do, legacy_select, ex_gen. cbn [g_fit g_unc g_pop_ideal g_penalty g_vecs g_gam legacy_fitness bind].
  cbn [vmap2 vadd legacy_ideal colmin fold_left]. cbn [bind fst snd]. cbn [length seq flat_map map vsub vmap2 vmin].
  assert (E1 : Rmin 0 (Rmin (-5 + 6) (1 + 0)) = 0) by (unfold Rmin; repeat destruct (Rle_dec _ _); lra).
  assert (E2 : Rmin 0 (Rmin (0 + 0) (2 + 0)) = 0) by (unfold Rmin; repeat destruct (Rle_dec _ _); lra).
  unfold vadd. cbn [vmap2]. unfold vmin. cbn [vmap2]. rewrite E1, E2.
  replace (-5 + 6 - 0) with 1 by lra. replace (0 + 0 - 0) with 0 by lra. replace (1 + 0 - 0) with 1 by lra. replace (2 + 0 - 0) with 2 by lra.
  assert (N0 : niche [[1; 0]; [0; 1]] [[1; 0]; [1; 2]] 0 = [0%nat]).
  { unfold niche, row. cbn [length seq filter nth]. rewrite !assigned_axes by lra.
    destruct (Rlt_dec 1 0); [lra|]. destruct (Rlt_dec 1 2); [|lra]. auto. }
  assert (N1 : niche [[1; 0]; [0; 1]] [[1; 0]; [1; 2]] 1 = [1%nat]).
  { unfold niche, row. cbn [length seq filter nth]. rewrite !assigned_axes by lra.
    destruct (Rlt_dec 1 0); [lra|]. destruct (Rlt_dec 1 2); [|lra]. auto. }
  unfold legacy_choose. rewrite N0, N1. cbn [map argmin argmin_from nth app]. exists 0%nat, 1%nat. auto.
Qed.
Lemma ex_robust_new : exists i, selections (current_do SelRobust) [0; 0] [ex_gen] = Ok [[i]].
Proof.
  cbn [selections]. unfold current_do, ex_gen. cbn [g_fit g_unc g_pop_ideal g_penalty g_vecs g_gam calc_fitness bind].
  unfold apd_select, new_ideal. cbn [vmap2]. unfold vadd. cbn [vmap2 colmin fold_left]. unfold vmin. cbn [vmap2].
  assert (E1 : Rmin (Rmin 0 (Rmin (-5 + 6) (1 + 0))) (-5) = -5) by (unfold Rmin; repeat destruct (Rle_dec _ _); lra).
  assert (E2 : Rmin (Rmin 0 (Rmin (0 + 0) (2 + 0))) 0 = 0) by (unfold Rmin; repeat destruct (Rle_dec _ _); lra).
  rewrite E1, E2. cbn [bind fst snd length seq flat_map map]. unfold vsub. cbn [vmap2].
  replace (-5 + 6 - -5) with 6 by lra. replace (0 + 0 - 0) with 0 by lra. replace (1 + 0 - -5) with 6 by lra. replace (2 + 0 - 0) with 2 by lra.
  assert (N0 : niche [[1; 0]; [0; 1]] [[6; 0]; [6; 2]] 0 = [0%nat; 1%nat]).
  { unfold niche, row. cbn [length seq filter nth]. rewrite !assigned_axes by lra.
    destruct (Rlt_dec 6 0); [lra|]. destruct (Rlt_dec 6 2); [lra|]. auto. }
  assert (N1 : niche [[1; 0]; [0; 1]] [[6; 0]; [6; 2]] 1 = []).
  { unfold niche, row. cbn [length seq filter nth]. rewrite !assigned_axes by lra.
    destruct (Rlt_dec 6 0); [lra|]. destruct (Rlt_dec 6 2); [lra|]. auto. }
  rewrite !choose_same. unfold legacy_choose. rewrite N0, N1. cbn [map argmin]. eexists. cbn [app]. reflexivity.
Qed.

Theorem C112_robust_refuted :
  exists (n : nat) (z : list R) (gs : list generation), length z = n /\ history n z gs /\ Forall uncertain gs /\
    exists l l', selections (current_do SelRobust) z gs = Ok l /\ selections (legacy_do LegacyRobust) (Some z) gs = Ok l' /\
      map (@length nat) l = [1%nat] /\ map (@length nat) l' = [2%nat].
Proof.
  exists 2%nat, [0; 0], [ex_gen]. split; auto. split; [apply ex_history|]. split; [constructor; [apply ex_uncertain|auto]|].
  destruct ex_robust_new as (i & E). destruct ex_robust_old as (j & k & F). exists [[i]], [[j; k]]. auto.
Qed.

(** The hypotheses of the two positive theorems hold of this generation (and of any longer history built from it). *)
Example C112_example : history 2 [0; 0] [ex_gen; ex_gen] /\ Forall uncertain [ex_gen; ex_gen].
Proof.
  split; [|constructor; [apply ex_uncertain|constructor; [apply ex_uncertain|auto]]].
  destruct ex_history as (A & B & C & _). cbn [history]. split; auto. split; auto. split; auto. split; auto. split; auto. split; auto.
  destruct C as (L & C). split; auto. intros j Hj. destruct (C j Hj) as (C1 & C2 & C3). split; [lra|]. split; auto.
Qed.

Print Assumptions C112_mean_as_before.
Print Assumptions C112_optimistic_as_before.
Print Assumptions C112_robust_refuted.
