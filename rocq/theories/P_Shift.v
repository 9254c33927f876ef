(** Lemmas for C121: moving the origin of the objectives, and changing their common unit. *)
From Verif Require Import Base RVec M_APD M_NSGA3 Spec_Fronts.
From Coq Require Import Reals Lra Lia Permutation Sorted.
Open Scope R_scope.

Lemma vmin_shift c : forall a b, vmin (vadd a c) (vadd b c) = vadd (vmin a b) c.
Proof. unfold vmin, vadd. induction c as [|k c IH]; intros [|x a] [|y b]; cbn [vmap2]; try reflexivity. rewrite IH. f_equal. unfold Rmin. destruct (Rle_dec (x + k) (y + k)), (Rle_dec x y); lra. Qed.
Lemma vmax_shift c : forall a b, vmax (vadd a c) (vadd b c) = vadd (vmax a b) c.
Proof. unfold vmax, vadd. induction c as [|k c IH]; intros [|x a] [|y b]; cbn [vmap2]; try reflexivity. rewrite IH. f_equal. unfold Rmax. destruct (Rle_dec (x + k) (y + k)), (Rle_dec x y); lra. Qed.
Lemma vsub_shift c : forall f z, (length f <= length c)%nat -> vsub (vadd f c) (vadd z c) = vsub f z.
Proof. unfold vsub, vadd. induction c as [|k c IH]; intros [|x f] [|y z] H; cbn [vmap2 length] in *; try reflexivity; try lia. rewrite IH by lia. f_equal. lra. Qed.
Lemma vsub_shift_l c : forall f u, vsub (vadd f c) u = vadd (vsub f u) c.
Proof. unfold vsub, vadd. induction c as [|k c IH]; intros [|x f] [|y u]; cbn [vmap2]; try reflexivity. rewrite IH. f_equal. lra. Qed.
Lemma vadd_shift_l c : forall f u, vadd (vadd f c) u = vadd (vadd f u) c.
Proof. unfold vadd. induction c as [|k c IH]; intros [|x f] [|y u]; cbn [vmap2]; try reflexivity. rewrite IH. f_equal. lra. Qed.
Lemma vadd_len (a c : list R) : length (vadd a c) = Nat.min (length a) (length c).
Proof. unfold vadd. revert c. induction a as [|x a IH]; intros [|y c]; cbn [vmap2 length]; auto. rewrite IH. reflexivity. Qed.
Notation shift c rows := (map (fun f => vadd f c) rows).
Lemma colmin_shift c rows : colmin (shift c rows) = option_map (fun z => vadd z c) (colmin rows).
Proof.
  destruct rows as [|r t]; [reflexivity|]. cbn [map colmin option_map]. f_equal. revert r. induction t as [|x t IH]; intros r; cbn [map fold_left]; [reflexivity|]. rewrite vmin_shift. apply IH.
Qed.
Lemma colmax_shift c rows : colmax (shift c rows) = option_map (fun z => vadd z c) (colmax rows).
Proof.
  destruct rows as [|r t]; [reflexivity|]. cbn [map colmax option_map]. f_equal. revert r. induction t as [|x t IH]; intros r; cbn [map fold_left]; [reflexivity|]. rewrite vmax_shift. apply IH.
Qed.
Lemma calc_shift t c fit unc : calc_fitness t (shift c fit) unc = bind (calc_fitness t fit unc) (fun f => Ok (shift c f)).
Proof.
  assert (E : forall u, vmap2 vsub (shift c fit) u = shift c (vmap2 vsub fit u)) by (induction fit as [|f fit IH]; intros [|x u]; cbn [map vmap2]; [reflexivity..|]; rewrite IH, vsub_shift_l; reflexivity).
  assert (E' : forall u, vmap2 vadd (shift c fit) u = shift c (vmap2 vadd fit u)) by (clear E; induction fit as [|f fit IH]; intros [|x u]; cbn [map vmap2]; [reflexivity..|]; rewrite IH, vadd_shift_l; reflexivity).
  destruct t, unc as [u|]; cbn [calc_fitness bind]; rewrite ?E, ?E'; reflexivity.
Qed.
Lemma row_shift c rows i : (i < length rows)%nat -> row (shift c rows) i = vadd (row rows i) c.
Proof. intros H. unfold row. rewrite (nth_indep _ [] (vadd [] c)) by (rewrite map_length; auto). apply (map_nth (fun f => vadd f c)). Qed.

Lemma apd_select_shift p ideal pi fit cons vecs gam c : (forall f, In f fit -> (length f <= length c)%nat) ->
  apd_select p (vadd ideal c) (vadd pi c) (shift c fit) cons vecs gam = bind (apd_select p ideal pi fit cons vecs gam) (fun zs => Ok (vadd (fst zs) c, snd zs)).
Proof.
  intros H. unfold apd_select, new_ideal. rewrite colmin_shift. destruct (colmin fit) as [m|]; cbn [option_map bind]; [|reflexivity]. rewrite !vmin_shift. cbn [fst snd].
  assert (E : map (fun f => vsub f (vadd (vmin (vmin ideal m) pi) c)) (shift c fit) = map (fun f => vsub f (vmin (vmin ideal m) pi)) fit) by (rewrite map_map; apply map_ext_in; intros f Hf; apply vsub_shift; auto).
  rewrite E. reflexivity.
Qed.

(** ** A common positive factor *)
Lemma vmin_scale k : 0 < k -> forall a b, vmin (vscale k a) (vscale k b) = vscale k (vmin a b).
Proof. intros K. unfold vmin, vscale. induction a as [|x a IH]; intros [|y b]; cbn [vmap2 map]; try reflexivity. rewrite IH. f_equal. unfold Rmin. destruct (Rle_dec (k * x) (k * y)), (Rle_dec x y); try nra. Qed.
Lemma vsub_scale k : forall a b, vsub (vscale k a) (vscale k b) = vscale k (vsub a b).
Proof. unfold vsub, vscale. induction a as [|x a IH]; intros [|y b]; cbn [vmap2 map]; try reflexivity. rewrite IH. f_equal. ring. Qed.
Lemma vadd_scale k : forall a b, vadd (vscale k a) (vscale k b) = vscale k (vadd a b).
Proof. unfold vadd, vscale. induction a as [|x a IH]; intros [|y b]; cbn [vmap2 map]; try reflexivity. rewrite IH. f_equal. ring. Qed.
Lemma colmin_scale k rows : 0 < k -> colmin (map (vscale k) rows) = option_map (vscale k) (colmin rows).
Proof.
  intros K. destruct rows as [|r t]; [reflexivity|]. cbn [map colmin option_map]. f_equal. revert r. induction t as [|x t IH]; intros r; cbn [map fold_left]; [reflexivity|]. rewrite vmin_scale by auto. apply IH.
Qed.
Lemma argmin_from_mono (f : R -> R) : (forall x y, f x < f y <-> x < y) -> forall l b v i, argmin_from b (f v) i (map f l) = argmin_from b v i l.
Proof. intros H. induction l as [|x l IH]; intros b v i; cbn [map argmin_from]; [reflexivity|]. pose proof (H x v). destruct (Rlt_dec (f x) (f v)), (Rlt_dec x v); try tauto; apply IH. Qed.
Lemma argmin_mono (f : R -> R) l : (forall x y, f x < f y <-> x < y) -> argmin (map f l) = argmin l.
Proof. intros H. destruct l as [|x l]; [reflexivity|]. cbn [map argmin]. f_equal. apply argmin_from_mono; auto. Qed.
Lemma cosine_scale k tr v : 0 < k -> cosine (vscale k tr) v = cosine tr v.
Proof.
  intros K. unfold cosine, cosine_raw. f_equal. f_equal. unfold vscale at 2. rewrite map_map, norm_scale, Rabs_right by lra. unfold zero_eps.
  pose proof (norm_nonneg tr). destruct (Req_EM_T (norm tr) 0) as [Z|Z].
  - rewrite Z, Rmult_0_r. destruct (Req_EM_T 0 0) as [_|B]; [|congruence]. apply map_ext_in. intros x Hx. rewrite (norm_zero tr Z x Hx). unfold Rdiv. rewrite !Rmult_0_r, !Rmult_0_l. reflexivity.
  - destruct (Req_EM_T (k * norm tr) 0) as [Z'|Z']; [exfalso; apply Z; nra|]. apply map_ext. intros x. field. split; lra.
Qed.
Lemma apd_select_scale p ideal pi fit cons vecs gam k : 0 < k ->
  apd_select p (vscale k ideal) (vscale k pi) (map (vscale k) fit) cons vecs gam = bind (apd_select p ideal pi fit cons vecs gam) (fun zs => Ok (vscale k (fst zs), snd zs)).
Proof.
  intros K. unfold apd_select, new_ideal. rewrite colmin_scale by auto. destruct (colmin fit) as [m|]; cbn [option_map bind]; [|reflexivity]. rewrite !vmin_scale by auto. cbn [fst snd].
  set (z := vmin (vmin ideal m) pi).
  assert (E : map (fun f => vsub f (vscale k z)) (map (vscale k) fit) = map (vscale k) (map (fun f => vsub f z) fit)) by (rewrite !map_map; apply map_ext; intros f; apply vsub_scale).
  rewrite E. set (trs := map (fun f => vsub f z) fit). f_equal. f_equal. apply flat_map_ext. intros j. unfold choose.
  assert (Rw : forall i, row (map (vscale k) trs) i = vscale k (row trs i)) by (intros i; unfold row; apply (map_nth (vscale k) trs [])).
  assert (N : niche vecs (map (vscale k) trs) j = niche vecs trs j).
  { unfold niche. rewrite map_length. apply filter_ext. intros i. f_equal. rewrite Rw. unfold assigned. rewrite (map_ext (cosine (vscale k (row trs i))) (cosine (row trs i))) by (intros v; apply cosine_scale; auto). reflexivity. }
  rewrite N. destruct (constraint_filter cons (niche vecs trs j)) as [|a [|b sub]]; [reflexivity..|].
  assert (A : map (apd p vecs (map (vscale k) trs) gam j) (a :: b :: sub) = map (Rmult k) (map (apd p vecs trs gam j) (a :: b :: sub))).
  { rewrite map_map. apply map_ext. intros i. unfold apd. rewrite Rw, cosine_scale, norm_scale, Rabs_right by lra. ring. }
  rewrite A, argmin_mono; [reflexivity|]. intros x y. split; intros; nra.
Qed.
Lemma calc_scale t k fit unc : calc_fitness t (map (vscale k) fit) (option_map (map (vscale k)) unc) = bind (calc_fitness t fit unc) (fun f => Ok (map (vscale k) f)).
Proof.
  assert (E : forall u, vmap2 vsub (map (vscale k) fit) (map (vscale k) u) = map (vscale k) (vmap2 vsub fit u)) by (induction fit as [|f fit IH]; intros [|x u]; cbn [map vmap2]; [reflexivity..|]; rewrite IH, vsub_scale; reflexivity).
  assert (E' : forall u, vmap2 vadd (map (vscale k) fit) (map (vscale k) u) = map (vscale k) (vmap2 vadd fit u)) by (clear E; induction fit as [|f fit IH]; intros [|x u]; cbn [map vmap2]; [reflexivity..|]; rewrite IH, vadd_scale; reflexivity).
  destruct t, unc as [u|]; cbn [calc_fitness bind option_map]; rewrite ?E, ?E'; reflexivity.
Qed.

(** ** The non-dominated sorting is unique *)
Lemma fronts_rank n dom F1 F2 : sorted_fronts n dom F1 -> sorted_fronts n dom F2 ->
  forall a b f1 f2 j, nth_error F1 a = Some f1 -> nth_error F2 b = Some f2 -> In j f1 -> In j f2 -> (a <= b)%nat.
Proof.
  intros S1 S2. induction a as [|a IH]; intros b f1 f2 j H1 H2 J1 J2; [lia|].
  destruct (nth_error F1 a) as [f0|] eqn:E0; [|apply nth_error_None in E0; assert (S a < length F1)%nat by (apply nth_error_Some; congruence); lia].
  destruct (sf_prev _ _ _ S1 a f0 f1 j E0 H1 J1) as (i & I1 & D).
  assert (In i (concat F2)) as Hi. { apply (Permutation_in _ (Permutation_sym (sf_perm _ _ _ S2))). apply (Permutation_in _ (sf_perm _ _ _ S1)). apply in_concat. exists f0. split; auto. eapply nth_error_In; eauto. }
  apply in_concat in Hi as (g & G1 & G2). destruct (In_nth_error _ _ G1) as [b' G3]. pose proof (IH b' f0 g i eq_refl G3 I1 G2). pose proof (sf_order _ _ _ S2 b' b g f2 i j G3 H2 G2 J2 D). lia.
Qed.
Lemma fronts_member n dom F1 F2 : sorted_fronts n dom F1 -> sorted_fronts n dom F2 ->
  forall a f1 j, nth_error F1 a = Some f1 -> In j f1 -> exists f2, nth_error F2 a = Some f2 /\ In j f2.
Proof.
  intros S1 S2 a f1 j H1 J1.
  assert (In j (concat F2)) as Hj. { apply (Permutation_in _ (Permutation_sym (sf_perm _ _ _ S2))). apply (Permutation_in _ (sf_perm _ _ _ S1)). apply in_concat. exists f1. split; auto. eapply nth_error_In; eauto. }
  apply in_concat in Hj as (g & G1 & G2). destruct (In_nth_error _ _ G1) as [b G3].
  pose proof (fronts_rank _ _ _ _ S1 S2 a b f1 g j H1 G3 J1 G2). pose proof (fronts_rank _ _ _ _ S2 S1 b a g f1 j G3 H1 G2 J1). assert (a = b) by lia. subst. eauto.
Qed.
Lemma increasing_eq (l l' : list nat) : StronglySorted lt l -> StronglySorted lt l' -> (forall x, In x l <-> In x l') -> l = l'.
Proof.
  intros H. revert l'. induction H as [|x l Hl IH Hx]; intros l' H' E.
  - destruct l' as [|y t]; [reflexivity|]. exfalso. apply (E y). left; auto.
  - destruct H' as [|y l' Hl' Hy]; [exfalso; apply (E x); left; auto|]. rewrite Forall_forall in Hx, Hy.
    assert (x = y). { destruct (proj1 (E x) (or_introl eq_refl)) as [|A]; [auto|]. destruct (proj2 (E y) (or_introl eq_refl)) as [|B]; [auto|]. pose proof (Hx _ B). pose proof (Hy _ A). lia. }
    subst y. f_equal. apply IH; auto. intros z. split; intros Hz.
    + destruct (proj1 (E z) (or_intror Hz)) as [<-|A]; [pose proof (Hx _ Hz); lia|auto].
    + destruct (proj2 (E z) (or_intror Hz)) as [<-|A]; [pose proof (Hy _ Hz); lia|auto].
Qed.
Lemma fronts_unique n dom F1 F2 : sorted_fronts n dom F1 -> sorted_fronts n dom F2 -> (forall f, In f F1 -> StronglySorted lt f) -> (forall f, In f F2 -> StronglySorted lt f) -> F1 = F2.
Proof.
  intros S1 S2 I1 I2. assert (M : forall F1 F2, sorted_fronts n dom F1 -> sorted_fronts n dom F2 -> forall a f1, nth_error F1 a = Some f1 -> exists f2, nth_error F2 a = Some f2 /\ incl f1 f2).
  { clear. intros F1 F2 S1 S2 a f1 H. assert (f1 <> []) as NE by (apply (sf_nonempty _ _ _ S1); eapply nth_error_In; eauto). destruct f1 as [|j f1]; [congruence|].
    destruct (fronts_member _ _ _ _ S1 S2 a _ j H (or_introl eq_refl)) as (f2 & G & _). exists f2. split; auto. intros x Hx. destruct (fronts_member _ _ _ _ S1 S2 a _ x H Hx) as (f2' & G' & Hx'). congruence. }
  assert (N : forall a, nth_error F1 a = nth_error F2 a).
  { intros a. destruct (nth_error F1 a) as [f1|] eqn:E1.
    - destruct (M _ _ S1 S2 a f1 E1) as (f2 & E2 & L). rewrite E2. destruct (M _ _ S2 S1 a f2 E2) as (f1' & E1' & L'). assert (f1' = f1) by congruence. subst. f_equal. apply increasing_eq; [apply I1; eapply nth_error_In; eauto|apply I2; eapply nth_error_In; eauto|]. intros x. split; auto.
    - destruct (nth_error F2 a) as [f2|] eqn:E2; auto. destruct (M _ _ S2 S1 a f2 E2) as (f1' & E1' & L'). congruence. }
  clear - N. revert F2 N. induction F1 as [|x F1 IH]; intros [|y F2] N; [reflexivity|specialize (N 0%nat); discriminate..|]. pose proof (N 0%nat) as N0. cbn in N0. injection N0 as ->. f_equal. apply IH. intros a. apply (N (S a)).
Qed.
Lemma rdominates_shift c a b : length a = length c -> length b = length c -> rdominates (vadd a c) (vadd b c) <-> rdominates a b.
Proof.
  intros La Lb. unfold rdominates. assert (F : Forall2 Rle (vadd a c) (vadd b c) <-> Forall2 Rle a b).
  { unfold vadd. revert a b La Lb. induction c as [|k c IH]; intros [|x a] [|y b] La Lb; cbn [vmap2 length] in *; try discriminate; [tauto|]. injection La as La. injection Lb as Lb. specialize (IH a b La Lb).
    split; intros H; inversion H; subst; constructor; [lra|apply IH; auto|lra|apply IH; auto]. }
  assert (Nt : forall u, length u = length c -> forall i x, nth_error (vadd u c) i = Some x <-> exists v k, nth_error u i = Some v /\ nth_error c i = Some k /\ x = v + k).
  { clear. unfold vadd. induction c as [|k c IH]; intros [|x u] L i y; cbn [vmap2 length] in *; try discriminate.
    - split; [destruct i; discriminate|intros (v & k & H & _); destruct i; discriminate].
    - injection L as L. destruct i as [|i]; cbn [nth_error]; [|apply IH; auto]. split; [intros H; injection H as <-; exists x, k; auto|intros (v & k' & H1 & H2 & ->); congruence]. }
  rewrite F. split; intros (H1 & i & x & y & H2 & H3 & H4); (split; [auto|]).
  - apply Nt in H2; auto. apply Nt in H3; auto. destruct H2 as (v & k & A1 & A2 & ->). destruct H3 as (v' & k' & B1 & B2 & ->). exists i, v, v'. assert (k = k') by congruence. subst. split; [auto|]. split; [auto|lra].
  - assert (exists k, nth_error c i = Some k) as (k & Hk). { destruct (nth_error c i) eqn:E; eauto. apply nth_error_None in E. assert (i < length a)%nat by (apply nth_error_Some; congruence). lia. }
    exists i, (x + k), (y + k). split; [apply Nt; eauto 6|]. split; [apply Nt; eauto 6|lra].
Qed.
Lemma row_dom_shift c fit i j : (forall f, In f fit -> length f = length c) -> row_dom (shift c fit) i j <-> row_dom fit i j.
Proof.
  intros H. unfold row_dom. split.
  - intros (a & b & A & B & D). rewrite nth_error_map in A, B. destruct (nth_error fit i) as [a0|] eqn:Ea; [|discriminate]. destruct (nth_error fit j) as [b0|] eqn:Eb; [|discriminate]. injection A as <-. injection B as <-.
    exists a0, b0. split; [auto|]. split; [auto|]. apply rdominates_shift in D; auto; apply H; eapply nth_error_In; eauto.
  - intros (a & b & A & B & D). exists (vadd a c), (vadd b c). rewrite !nth_error_map, A, B. split; [auto|]. split; [auto|]. apply rdominates_shift; auto; apply H; eapply nth_error_In; eauto.
Qed.
Lemma sorted_dom n (d d' : nat -> nat -> Prop) F : (forall i j, d i j <-> d' i j) -> sorted_fronts n d F -> sorted_fronts n d' F.
Proof. intros H [A B C D]. constructor; auto. - intros a b fa fb i j H1 H2 H3 H4 H5. apply (C a b fa fb i j); auto. apply H; auto. - intros a fa fb j H1 H2 H3. destruct (D a fa fb j H1 H2 H3) as (i & I1 & I2). exists i. split; auto. apply H; auto. Qed.

(** ** NSGA-III *)
Lemma extreme_shift c front ideal old : (forall f, In f front -> length f = length c) -> length ideal = length c -> (forall e, old = Some e -> forall f, In f e -> length f = length c) ->
  extreme_points (shift c front) (vadd ideal c) (option_map (map (fun f => vadd f c)) old) = shift c (extreme_points front ideal old).
Proof.
  intros H1 H2 H3. unfold extreme_points. set (rows := match old with Some e => e ++ front | None => front end).
  assert (Er : match option_map (map (fun f => vadd f c)) old with Some e => e ++ shift c front | None => shift c front end = shift c rows) by (unfold rows; destruct old as [e|]; cbn [option_map]; [rewrite map_app|]; reflexivity).
  rewrite Er. assert (Hr : forall f, In f rows -> length f = length c) by (intros f Hf; unfold rows in Hf; destruct old as [e|]; [apply in_app_iff in Hf as [Hf|Hf]; [apply (H3 e); auto|auto]|auto]).
  assert (Lm : length (vadd ideal c) = length ideal) by (rewrite vadd_len; lia). rewrite Lm.
  assert (A : forall k, map (asf k (vadd ideal c)) (shift c rows) = map (asf k ideal) rows).
  { intros k. rewrite map_map. apply map_ext_in. intros f Hf. pose proof (Hr f Hf) as Lf. unfold asf. rewrite vsub_shift by lia. rewrite vadd_len, Lf, Nat.min_id. reflexivity. }
  induction (seq 0 (length ideal)) as [|k l IH]; cbn [flat_map map]; [reflexivity|]. rewrite map_app, IH, A. f_equal.
  destruct (argmin (map (asf k ideal) rows)) as [i|] eqn:E; [|reflexivity]. cbn [map]. f_equal. apply argmin_lt in E. rewrite map_length in E. apply (row_shift c rows i E).
Qed.
Lemma extreme_len (c : list R) front ideal old : (forall f, In f front -> length f = length c) -> (forall e, old = Some e -> forall f, In f e -> length f = length c) ->
  forall f, In f (extreme_points front ideal old) -> length f = length c.
Proof.
  intros H1 H3 f Hf. unfold extreme_points in Hf. set (rows := match old with Some e => e ++ front | None => front end) in *.
  assert (Hr : forall f, In f rows -> length f = length c) by (intros g Hg; unfold rows in Hg; destruct old as [e|]; [apply in_app_iff in Hg as [Hg|Hg]; [apply (H3 e); auto|auto]|auto]).
  apply in_flat_map in Hf as (k & _ & Hf). destruct (argmin _) as [i|] eqn:E; [|destruct Hf]. apply argmin_lt in E. rewrite map_length in E. destruct Hf as [<-|[]]. apply Hr. apply nth_In; auto.
Qed.
Lemma nadir_shift c solve ext ideal worst wf wp : length ideal = length c -> length worst = length c -> length wf = length c -> length wp = length c -> (forall f, In f ext -> length f = length c) ->
  (forall (M : list (list R)) (b x : list R), solve M b = Some x -> length x = length b) ->
  nadir_point solve (shift c ext) (vadd ideal c) (vadd worst c) (vadd wf c) (vadd wp c) = vadd (nadir_point solve ext ideal worst wf wp) c.
Proof.
  intros Li Lw Lf Lp He Hs. unfold nadir_point.
  assert (EM : map (fun e => vsub e (vadd ideal c)) (shift c ext) = map (fun e => vsub e ideal) ext) by (rewrite map_map; apply map_ext_in; intros f Hf; apply vsub_shift; rewrite He; auto).
  rewrite EM. assert (Lm : length (vadd ideal c) = length ideal) by (rewrite vadd_len; lia). rewrite Lm.
  assert (Fin : forall nd, length nd = length c -> vmap2 (fun n iw => if Rle_dec (n - fst iw) (1 / 1000000) then snd iw else n) (vadd nd c) (combine (vadd ideal c) (vadd wp c)) =
                 vadd (vmap2 (fun n iw => if Rle_dec (n - fst iw) (1 / 1000000) then snd iw else n) nd (combine ideal wp)) c).
  { clear - Li Lp. revert ideal wp Li Lp. unfold vadd. induction c as [|k c IH]; intros [|i ideal] [|w wp] Li Lp [|n nd] L; cbn [length vmap2 combine] in *; try discriminate; [reflexivity|].
    injection Li as Li. injection Lp as Lp. injection L as L. rewrite IH by auto. f_equal. cbn [fst snd]. destruct (Rle_dec (n + k - (i + k)) (1 / 1000000)), (Rle_dec (n - i) (1 / 1000000)); lra. }
  destruct (solve _ _) as [plane|] eqn:Es; [|apply Fin; auto].
  pose proof (Hs _ _ _ Es) as Lpl. rewrite repeat_length in Lpl. destruct (existsb (fun x => is_zero x) plane); [apply Fin; auto|].
  set (ints := map (fun x => 1 / x) plane). assert (Lin : length ints = length c) by (unfold ints; rewrite map_length; congruence).
  rewrite vadd_shift_l. set (nd := vadd ideal ints). assert (Lnd : length nd = length c) by (unfold nd; rewrite vadd_len; lia).
  assert (Ew : existsb (fun p => if Rlt_dec (snd p) (fst p) then true else false) (combine (vadd nd c) (vadd worst c)) = existsb (fun p => if Rlt_dec (snd p) (fst p) then true else false) (combine nd worst)).
  { clearbody nd. clear - Lnd Lw. revert nd worst Lnd Lw. unfold vadd. induction c as [|k c IH]; intros [|n nd] [|w ws] L1 L2; cbn [length vmap2 combine existsb] in *; try discriminate; [reflexivity|]. injection L1 as L1. injection L2 as L2. rewrite IH by auto. f_equal.
    cbn [fst snd]. destruct (Rlt_dec (w + k) (n + k)), (Rlt_dec w n); auto; lra. }
  rewrite Ew. destruct (_ || _ || _); apply Fin; auto.
Qed.
Lemma vmap2_len {A B C} (f : A -> B -> C) : forall l l', length (vmap2 f l l') = Nat.min (length l) (length l').
Proof. induction l as [|x l IH]; intros [|y l']; cbn [vmap2 length]; auto. rewrite IH. reflexivity. Qed.
Lemma nadir_len solve (ext : list (list R)) (ideal worst wf wp : list R) m : length ideal = m -> length wf = m -> length wp = m -> (forall (M : list (list R)) (b x : list R), solve M b = Some x -> length x = length b) ->
  length (nadir_point solve ext ideal worst wf wp) = m.
Proof.
  intros Li Lf Lp Hs. unfold nadir_point. rewrite vmap2_len, combine_length, Li, Lp, Nat.min_id. destruct (solve _ _) as [plane|] eqn:Es; [|lia].
  pose proof (Hs _ _ _ Es) as Lpl. rewrite repeat_length in Lpl. destruct (existsb (fun x => is_zero x) plane); [lia|]. destruct (_ || _ || _); [lia|]. rewrite vadd_len, map_length. lia.
Qed.
Lemma fold_len (op : R -> R -> R) m t : forall r, length r = m -> (forall f, In f t -> length f = m) -> length (fold_left (vmap2 op) t r) = m.
Proof. induction t as [|x t IH]; intros r Lr H; cbn [fold_left]; [auto|]. apply IH; [rewrite vmap2_len, Lr, (H x) by (left; auto); lia|intros; apply H; right; auto]. Qed.
Lemma colmin_len rows m z : (forall f, In f rows -> length f = m) -> colmin rows = Some z -> length z = m.
Proof. intros H E. destruct rows as [|r t]; [discriminate|]. injection E as <-. apply (fold_len Rmin); [apply H; left; auto|intros; apply H; right; auto]. Qed.
Lemma colmax_len rows m z : (forall f, In f rows -> length f = m) -> colmax rows = Some z -> length z = m.
Proof. intros H E. destruct rows as [|r t]; [discriminate|]. injection E as <-. apply (fold_len Rmax); [apply H; left; auto|intros; apply H; right; auto]. Qed.
