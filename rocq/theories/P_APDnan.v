(** Proofs about APD selection with infinite and NaN fitness values. *)
From Coq Require Import Reals Lra Lia.
From Verif Require Import Base RVec M_APD M_APDnan.
Open Scope R_scope.

(** ** Finite values: the model of M_APD.v *)
Lemma xdot_fin u : forall v, xdot (map Fin u) (map Fin v) = Fin (dot u v).
Proof. induction u as [|x u IH]; intros [|y v]; cbn [map xdot dot]; try reflexivity. rewrite IH. reflexivity. Qed.
Lemma xnorm_fin v : xnorm (map Fin v) = Fin (norm v).
Proof. unfold xnorm. rewrite xdot_fin. cbn [xsqrt]. pose proof (dot_self_nonneg v). destruct (Rlt_dec (dot v v) 0); [lra|reflexivity]. Qed.
Lemma xvsub_fin u : forall v, xvsub (map Fin u) (map Fin v) = map Fin (vsub u v).
Proof. unfold xvsub, vsub. induction u as [|x u IH]; intros [|y v]; cbn [map vmap2]; try reflexivity. rewrite IH. reflexivity. Qed.
Lemma xmin_fin x y : xmin (Fin x) (Fin y) = Fin (Rmin x y).
Proof. unfold xmin. cbn [is_nan orb xltb]. unfold Rmin. destruct (Rlt_dec y x), (Rle_dec x y); try lra; try reflexivity. Qed.
Lemma xvmin_fin u : forall v, xvmin (map Fin u) (map Fin v) = map Fin (vmin u v).
Proof. unfold xvmin, vmin. induction u as [|x u IH]; intros [|y v]; cbn [map vmap2]; try reflexivity. rewrite IH, xmin_fin. reflexivity. Qed.
Lemma xcolmin_fin rows : xcolmin (map (map Fin) rows) = option_map (map Fin) (colmin rows).
Proof.
  destruct rows as [|r t]; [reflexivity|]. cbn [map xcolmin colmin option_map]. f_equal. revert r. induction t as [|x t IH]; intros r; cbn [map fold_left]; [reflexivity|].
  rewrite xvmin_fin. apply IH.
Qed.
Lemma zero_eps_nonzero x : zero_eps x <> 0.
Proof. unfold zero_eps, eps. destruct (Req_EM_T x 0); auto. apply Rinv_neq_0_compat. apply pow_nonzero. lra. Qed.
Lemma cosine_x_fin tr v : cosine_x (map Fin tr) v = Fin (cosine tr v).
Proof.
  unfold cosine_x, cosine, cosine_raw_x, cosine_raw. rewrite xnorm_fin. cbn [zero_eps_x].
  assert (E : map (fun x => xdiv x (Fin (zero_eps (norm tr)))) (map Fin tr) = map Fin (map (fun x => x / zero_eps (norm tr)) tr)).
  { rewrite !map_map. apply map_ext. intros x. cbn [xdiv]. destruct (Req_EM_T (zero_eps (norm tr)) 0) as [B|_]; [exfalso; revert B; apply zero_eps_nonzero|reflexivity]. }
  rewrite E, xdot_fin. reflexivity.
Qed.
Lemma first_pos_none {A} (p : A -> bool) l : (forall x, In x l -> p x = false) -> first_pos p l = None.
Proof. induction l as [|x l IH]; intros H; cbn [first_pos]; [reflexivity|]. rewrite (H x) by (left; auto). rewrite IH; [reflexivity|]. intros; apply H; right; auto. Qed.
Lemma assigned_x_fin vecs tr : assigned_x vecs (map Fin tr) = assigned vecs tr.
Proof.
  unfold assigned_x, assigned, xargmax.
  rewrite (map_ext (cosine_x (map Fin tr)) (fun v => Fin (cosine tr v))) by (intros v; apply cosine_x_fin).
  rewrite first_pos_none by (intros x Hx; apply in_map_iff in Hx as (v & <- & _); reflexivity).
  rewrite map_map. reflexivity.
Qed.
Lemma nanmin_from_fin l : forall i b v, exists w, nanmin_from (Some (b, Fin v)) i (map Fin l) = Some (argmin_from b v i l, Fin w).
Proof.
  induction l as [|x l IH]; intros i b v; cbn [map nanmin_from argmin_from is_nan xltb]; [eexists; reflexivity|].
  destruct (Rlt_dec x v); apply IH.
Qed.
Lemma nanmin_pos_fin l : nanmin_pos (map Fin l) = argmin l.
Proof.
  unfold nanmin_pos, argmin. destruct l as [|x l]; [reflexivity|]. cbn [map nanmin_from is_nan].
  destruct (nanmin_from_fin l 1 0 x) as [w ->]. reflexivity.
Qed.
Lemma row_x_fin trs i : row_x (map (map Fin) trs) i = map Fin (row trs i).
Proof. unfold row_x, row. apply (map_nth (map Fin) trs []). Qed.
Lemma apd_x_fin p vecs trs gam k i : apd_x p vecs (map (map Fin) trs) gam k i = Fin (apd p vecs trs gam k i).
Proof.
  unfold apd_x, apd. rewrite row_x_fin, xnorm_fin, cosine_x_fin. cbn [xacos xdiv].
  destruct (Req_EM_T (zero_eps (nth k gam 0)) 0) as [B|_]; [exfalso; revert B; apply zero_eps_nonzero|]. reflexivity.
Qed.
Lemma niche_x_fin vecs trs k : niche_x vecs (map (map Fin) trs) k = niche vecs trs k.
Proof. unfold niche_x, niche. rewrite map_length. apply filter_ext. intros i. rewrite row_x_fin, assigned_x_fin. reflexivity. Qed.
Lemma choose_x_fin p vecs trs gam cons k : choose_x p vecs (map (map Fin) trs) gam cons k = choose p vecs trs gam cons k.
Proof.
  unfold choose_x, choose. rewrite niche_x_fin. destruct (constraint_filter cons (niche vecs trs k)) as [|a [|b sub]]; try reflexivity.
  rewrite (map_ext (apd_x p vecs (map (map Fin) trs) gam k) (fun i => Fin (apd p vecs trs gam k i))) by (intros i; apply apd_x_fin).
  rewrite <- (map_map (apd p vecs trs gam k) Fin), nanmin_pos_fin. reflexivity.
Qed.
Lemma apd_select_x_fin p ideal pi fit cons vecs gam :
  apd_select_x p (map Fin ideal) (map Fin pi) (map (map Fin) fit) cons vecs gam =
  bind (apd_select p ideal pi fit cons vecs gam) (fun zs => Ok (map Fin (fst zs), snd zs)).
Proof.
  unfold apd_select_x, apd_select, new_ideal_x, new_ideal. rewrite xcolmin_fin. destruct (colmin fit) as [f|]; cbn [option_map bind]; [|reflexivity].
  rewrite !xvmin_fin. cbn [fst snd]. f_equal. f_equal. apply flat_map_ext. intros k. set (z := vmin (vmin ideal f) pi).
  assert (E : map (fun f => xvsub f (map Fin z)) (map (map Fin) fit) = map (map Fin) (map (fun f => vsub f z) fit)) by (rewrite !map_map; apply map_ext; intros g; apply xvsub_fin).
  rewrite E. apply choose_x_fin.
Qed.

(** ** NaN spreads *)
Definition nan_at (j : nat) (v : list xr) : Prop := nth_error v j = Some NaN.
Lemma xadd_nan_r a : xadd a NaN = NaN. Proof. destruct a; reflexivity. Qed.
Lemma xmul_nan_r a : xmul a NaN = NaN. Proof. destruct a; reflexivity. Qed.
Lemma xmin_nan_r a : xmin a NaN = NaN. Proof. destruct a; reflexivity. Qed.
Lemma xsub_nan_r a : xsub a NaN = NaN. Proof. destruct a; reflexivity. Qed.
Lemma xdiv_nan_r a : xdiv a NaN = NaN. Proof. destruct a; reflexivity. Qed.
Lemma xdot_nan_l u : forall v j, nan_at j u -> (j < length v)%nat -> xdot u v = NaN.
Proof.
  unfold nan_at. induction u as [|x u IH]; intros [|y v] [|j] H L; cbn [nth_error length xdot] in *; try discriminate; try lia.
  - injection H as ->. reflexivity.
  - rewrite (IH v j) by (auto; lia). apply xadd_nan_r.
Qed.
Lemma vmap2_nan (f : xr -> xr -> xr) u v j : (forall a, f a NaN = NaN) -> (forall a, f NaN a = NaN) -> (j < length u)%nat -> (j < length v)%nat ->
  nan_at j u \/ nan_at j v -> nan_at j (vmap2 f u v).
Proof.
  intros F1 F2 Lu Lv H. unfold nan_at in *. rewrite vmap2_nth.
  destruct (nth_error u j) as [x|] eqn:Eu; [|apply nth_error_None in Eu; lia]. destruct (nth_error v j) as [y|] eqn:Ev; [|apply nth_error_None in Ev; lia].
  destruct H as [H|H]; injection H as ->; rewrite ?F1, ?F2; reflexivity.
Qed.
Lemma vmap2_len3 {A B C} (f : A -> B -> C) u v : length (vmap2 f u v) = Nat.min (length u) (length v).
Proof. revert v. induction u as [|x u IH]; intros [|y v]; cbn [vmap2 length]; auto. rewrite IH. reflexivity. Qed.
Lemma fold_xvmin_len m rows : forall r, length r = m -> (forall f, In f rows -> length f = m) -> length (fold_left xvmin rows r) = m.
Proof.
  induction rows as [|x t IH]; intros r Hr Hf; cbn [fold_left]; auto. apply IH; [|intros; apply Hf; right; auto].
  unfold xvmin. rewrite vmap2_len3, Hr, (Hf x) by (left; auto). lia.
Qed.
Lemma fold_xvmin_nan m j rows : (j < m)%nat -> forall r, length r = m -> (forall f, In f rows -> length f = m) -> nan_at j r \/ (exists f, In f rows /\ nan_at j f) -> nan_at j (fold_left xvmin rows r).
Proof.
  intros Hj. induction rows as [|x t IH]; intros r Hr Hf H; cbn [fold_left].
  - destruct H as [H|(f & [] & _)]. exact H.
  - assert (Lx : length x = m) by (apply Hf; left; auto).
    apply IH; [unfold xvmin; rewrite vmap2_len3; lia|intros; apply Hf; right; auto|].
    destruct H as [H|(f & [<-|Hin] & Hn)]; [left|left|right; eauto]; unfold xvmin; apply vmap2_nan; auto; try lia; try (apply xmin_nan_r).
Qed.
Lemma new_ideal_x_total ideal pi fit : fit <> [] -> exists z, new_ideal_x ideal pi fit = Ok z.
Proof. destruct fit; [congruence|]. intros _. unfold new_ideal_x. cbn [xcolmin]. eexists; reflexivity. Qed.
Lemma new_ideal_x_nan m j ideal pi fit z : (j < m)%nat -> length ideal = m -> length pi = m -> (forall f, In f fit -> length f = m) ->
  new_ideal_x ideal pi fit = Ok z -> nan_at j ideal \/ nan_at j pi \/ (exists f, In f fit /\ nan_at j f) -> nan_at j z /\ length z = m.
Proof.
  intros Hj Hi Hp Hf H Hn. unfold new_ideal_x, xcolmin in H. destruct fit as [|r t]; [discriminate|]. injection H as <-.
  assert (Lr : length r = m) by (apply Hf; left; auto).
  assert (Lt : forall f, In f t -> length f = m) by (intros; apply Hf; right; auto).
  pose proof (fold_xvmin_len m t r Lr Lt) as Lf.
  assert (L1 : length (xvmin ideal (fold_left xvmin t r)) = m) by (unfold xvmin at 1; rewrite vmap2_len3; lia).
  split; [|unfold xvmin at 1; rewrite vmap2_len3; lia].
  unfold xvmin at 1. apply vmap2_nan; auto; try lia; try apply xmin_nan_r.
  destruct Hn as [Hn|[Hn|(f & Hin & Hn)]]; [left| right; auto|left]; unfold xvmin at 1; apply vmap2_nan; auto; try lia; try apply xmin_nan_r.
  right. apply (fold_xvmin_nan m j); auto. destruct Hin as [<-|Hin]; [left; auto|right; eauto].
Qed.

(** A translated row with a NaN: everything computed from it is NaN. *)
Lemma xnorm_nan j tr : nan_at j tr -> xnorm tr = NaN.
Proof. intros H. unfold xnorm. rewrite (xdot_nan_l tr tr j); auto. apply nth_error_Some. congruence. Qed.
Lemma cosine_x_nan j tr v : nan_at j tr -> v <> [] -> cosine_x tr v = NaN.
Proof.
  intros H Hv. unfold cosine_x, cosine_raw_x. rewrite (xnorm_nan j tr H). cbn [zero_eps_x].
  rewrite (xdot_nan_l _ _ 0).
  - reflexivity.
  - unfold nan_at. destruct tr as [|x tr]; [destruct j; discriminate|]. cbn [map nth_error]. rewrite xdiv_nan_r. reflexivity.
  - rewrite map_length. destruct v; [congruence|cbn [length]; lia].
Qed.
Lemma assigned_x_nan vecs tr : (forall v, In v vecs -> cosine_x tr v = NaN) -> assigned_x vecs tr = 0%nat.
Proof.
  intros H. unfold assigned_x, xargmax. destruct vecs as [|v t]; cbn [map]; [reflexivity|]. rewrite (H v) by (left; auto). reflexivity.
Qed.
Lemma nanmin_from_nan l : (forall x, In x l -> x = NaN) -> forall best i, nanmin_from best i l = best.
Proof.
  induction l as [|x l IH]; intros H best i; cbn [nanmin_from]; [reflexivity|]. rewrite (H x) by (left; auto). cbn [is_nan]. apply IH. intros; apply H; right; auto.
Qed.
Lemma nanmin_pos_nan l : (forall x, In x l -> x = NaN) -> nanmin_pos l = None.
Proof. intros H. unfold nanmin_pos. rewrite nanmin_from_nan by auto. reflexivity. Qed.
Lemma filter_all {A} (p : A -> bool) l : (forall x, In x l -> p x = true) -> filter p l = l.
Proof. induction l as [|x l IH]; intros H; cbn [filter]; [reflexivity|]. rewrite (H x) by (left; auto). f_equal. apply IH. intros; apply H; right; auto. Qed.
Lemma filter_none {A} (p : A -> bool) l : (forall x, In x l -> p x = false) -> filter p l = [].
Proof. induction l as [|x l IH]; intros H; cbn [filter]; [reflexivity|]. rewrite (H x) by (left; auto). apply IH. intros; apply H; right; auto. Qed.

Lemma constraint_filter_nil cons : constraint_filter cons [] = [].
Proof. destruct cons; reflexivity. Qed.
Lemma constraint_filter_incl cons sub i : In i (constraint_filter cons sub) -> In i sub.
Proof.
  unfold constraint_filter. destruct cons as [c|]; auto. destruct (Nat.ltb 1 (length sub)); auto.
  destruct (existsb _ sub); [intros H; apply filter_In in H; tauto|].
  destruct (map _ sub); [intros []|]. intros H; apply filter_In in H; tauto.
Qed.

Lemma poisoned_choice m j p vecs trs gam cons : (j < m)%nat -> vecs <> [] -> (forall v, In v vecs -> length v = m) -> (forall t, In t trs -> nan_at j t) ->
  flat_map (choose_x p vecs trs gam cons) (seq 0 (length vecs)) = match constraint_filter cons (seq 0 (length trs)) with [i] => [i] | _ => [] end.
Proof.
  intros Hj Hv Lv Ht.
  assert (A : forall i, (i < length trs)%nat -> nan_at j (row_x trs i)) by (intros i Hi; apply Ht; unfold row_x; apply nth_In; auto).
  assert (N : forall i v, (i < length trs)%nat -> In v vecs -> cosine_x (row_x trs i) v = NaN).
  { intros i v Hi Hin. apply cosine_x_nan with j; auto. intros ->. specialize (Lv [] Hin). cbn [length] in Lv. lia. }
  assert (A0 : forall i, In i (seq 0 (length trs)) -> assigned_x vecs (row_x trs i) = 0%nat).
  { intros i Hi. apply in_seq in Hi. apply assigned_x_nan. intros v Hin. apply N; auto. lia. }
  assert (N0 : niche_x vecs trs 0 = seq 0 (length trs)).
  { unfold niche_x. apply filter_all. intros i Hi. rewrite A0 by auto. reflexivity. }
  assert (Nk : forall k, (0 < k)%nat -> niche_x vecs trs k = []).
  { intros k Hk. unfold niche_x. apply filter_none. intros i Hi. rewrite A0 by auto. apply Nat.eqb_neq. lia. }
  destruct vecs as [|v0 vt] eqn:Ev; [congruence|]. cbn [length seq flat_map].
  assert (Z : flat_map (choose_x p (v0 :: vt) trs gam cons) (seq 1 (length vt)) = []).
  { assert (G : forall l, (forall k, In k l -> (0 < k)%nat) -> flat_map (choose_x p (v0 :: vt) trs gam cons) l = []).
    { induction l as [|k l IH]; intros Hl; cbn [flat_map]; [reflexivity|]. rewrite IH by (intros; apply Hl; right; auto). rewrite app_nil_r.
      unfold choose_x. rewrite Nk by (apply Hl; left; auto). rewrite constraint_filter_nil. reflexivity. }
    apply G. intros k Hk. apply in_seq in Hk. lia. }
  rewrite Z, app_nil_r. unfold choose_x. rewrite N0.
  destruct (constraint_filter cons (seq 0 (length trs))) as [|a [|b sub]] eqn:E; try reflexivity.
  rewrite nanmin_pos_nan; [reflexivity|]. intros x Hx. apply in_map_iff in Hx as (i & <- & Hi).
  unfold apd_x. rewrite (xnorm_nan j); [reflexivity|]. apply A. rewrite <- E in Hi. apply constraint_filter_incl in Hi. apply in_seq in Hi. lia.
Qed.

(** ** Positive infinity stays where it is *)
Definition up (a : xr) : Prop := a = PInf \/ exists x, a = Fin x.
Definition is_fin (a : xr) : bool := match a with Fin _ => true | _ => false end.
Lemma xdot_up t : (forall a, In a t -> up a) -> (exists s, xdot t t = Fin s) \/ xdot t t = PInf.
Proof.
  induction t as [|a t IH]; intros H; cbn [xdot]; [left; eexists; reflexivity|].
  destruct (IH (fun b Hb => H b (or_intror Hb))) as [[s ->]| ->]; destruct (H a (or_introl eq_refl)) as [->|[x ->]]; cbn [xmul xadd]; eauto.
Qed.
Lemma xdot_up_inf t : (forall a, In a t -> up a) -> In PInf t -> xdot t t = PInf.
Proof.
  induction t as [|a t IH]; intros H Hi; [destruct Hi|]. cbn [xdot].
  destruct (xdot_up t (fun b Hb => H b (or_intror Hb))) as [[s E]|E].
  - destruct Hi as [->|Hi]; [rewrite E; reflexivity|]. rewrite (IH (fun b Hb => H b (or_intror Hb)) Hi) in E. discriminate.
  - rewrite E. destruct (H a (or_introl eq_refl)) as [->|[x ->]]; reflexivity.
Qed.
Lemma xnorm_inf t : (forall a, In a t -> up a) -> In PInf t -> xnorm t = PInf.
Proof. intros H Hi. unfold xnorm. rewrite xdot_up_inf by auto. reflexivity. Qed.
Lemma cosine_x_inf t v : (forall a, In a t -> up a) -> In PInf t -> length v = length t -> cosine_x t v = NaN.
Proof.
  intros H Hi L. unfold cosine_x, cosine_raw_x. rewrite xnorm_inf by auto. cbn [zero_eps_x].
  destruct (In_nth_error _ _ Hi) as [j Hj]. rewrite (xdot_nan_l _ _ j); [reflexivity| |].
  - unfold nan_at. rewrite nth_error_map, Hj. reflexivity.
  - rewrite map_length, L. apply nth_error_Some. congruence.
Qed.
Lemma fin_row_map f : forallb is_fin f = true -> f = map Fin (map fin_part f).
Proof.
  induction f as [|a f IH]; cbn [forallb map]; intros H; [reflexivity|]. apply andb_prop in H as [H1 H2]. destruct a; try discriminate. cbn [fin_part]. rewrite <- IH by auto. reflexivity.
Qed.
Lemma not_fin_row f : (forall a, In a f -> up a) -> forallb is_fin f = false -> In PInf f.
Proof.
  induction f as [|a f IH]; cbn [forallb]; intros H E; [discriminate|]. destruct (H a (or_introl eq_refl)) as [->|[x ->]]; [left; auto|].
  right. apply IH; [intros; apply H; right; auto|exact E].
Qed.
Lemma fin_row_noinf f : forallb is_fin f = true -> ~ In PInf f.
Proof. intros H Hi. rewrite forallb_forall in H. specialize (H _ Hi). discriminate. Qed.

(** The translated rows. *)
Lemma sub_up f z : (forall a, In a f -> up a) -> forall b, In b (xvsub f (map Fin z)) -> up b.
Proof.
  unfold xvsub. revert z. induction f as [|a f IH]; intros [|y z] H b Hb; cbn [map vmap2 In] in Hb; try tauto.
  destruct Hb as [<-|Hb]; [|apply (IH z (fun c Hc => H c (or_intror Hc)) b Hb)].
  destruct (H a (or_introl eq_refl)) as [->|[x ->]]; [left; reflexivity|right; eexists; reflexivity].
Qed.
Lemma sub_inf f z : length f = length z -> In PInf f -> In PInf (xvsub f (map Fin z)).
Proof.
  unfold xvsub. revert z. induction f as [|a f IH]; intros [|y z] L Hi; cbn [length] in L; try discriminate; [destruct Hi|].
  cbn [map vmap2]. destruct Hi as [->|Hi]; [left; reflexivity|right; apply IH; auto].
Qed.

(** The ideal point is finite. *)
Lemma xvmin_up u : forall v, (forall b, In b v -> up b) -> length v = length u -> exists w, xvmin (map Fin u) v = map Fin w /\ length w = length u.
Proof.
  unfold xvmin. induction u as [|x u IH]; intros [|b v] H L; cbn [length] in L; try discriminate; cbn [map vmap2]; [exists []; auto|].
  destruct (IH v (fun c Hc => H c (or_intror Hc)) ltac:(lia)) as (w & E & Lw). rewrite E.
  destruct (H b (or_introl eq_refl)) as [->|[y ->]].
  - exists (x :: w). cbn [length map]. split; [reflexivity|lia].
  - exists (Rmin x y :: w). rewrite xmin_fin. cbn [length map]. split; [reflexivity|lia].
Qed.
Lemma up_min a b : up a -> up b -> up (xmin a b).
Proof. intros [->|[x ->]] [->|[y ->]]; [left; reflexivity|right; exists y; reflexivity|right; exists x; reflexivity|right; exists (Rmin x y); apply xmin_fin]. Qed.
Lemma xvmin_up2 u : forall v, (forall b, In b u -> up b) -> (forall b, In b v -> up b) -> forall b, In b (xvmin u v) -> up b.
Proof.
  unfold xvmin. induction u as [|x u IH]; intros [|y v] Hu Hv b Hb; cbn [vmap2 In] in Hb; try tauto.
  destruct Hb as [<-|Hb]; [apply up_min; [apply Hu|apply Hv]; left; auto|]. apply (IH v); auto; intros c Hc; [apply Hu|apply Hv]; right; auto.
Qed.
Lemma fold_xvmin_up rows : forall r, (forall b, In b r -> up b) -> (forall f b, In f rows -> In b f -> up b) -> forall b, In b (fold_left xvmin rows r) -> up b.
Proof.
  induction rows as [|x t IH]; intros r Hr Hf; cbn [fold_left]; auto. apply IH; [|intros f b Hin; apply Hf; right; auto].
  apply xvmin_up2; auto. intros b Hb. apply (Hf x b); [left; auto|auto].
Qed.
Lemma new_ideal_x_up m ideal pi fit : length ideal = m -> length pi = m -> (forall b, In b pi -> up b) ->
  (forall f, In f fit -> length f = m) -> (forall f b, In f fit -> In b f -> up b) -> fit <> [] ->
  exists z, new_ideal_x (map Fin ideal) pi fit = Ok (map Fin z) /\ length z = m.
Proof.
  intros Hi Hp Hpu Hf Hu Hne. destruct fit as [|r t]; [congruence|]. unfold new_ideal_x. cbn [xcolmin].
  assert (Lf : length (fold_left xvmin t r) = m) by (apply fold_xvmin_len; [apply Hf; left; auto|intros; apply Hf; right; auto]).
  destruct (xvmin_up ideal (fold_left xvmin t r)) as (w & E & Lw); [|lia|].
  - apply fold_xvmin_up; [intros b Hb; apply (Hu r); [left; auto|auto]|intros f b Hin; apply Hu; right; auto].
  - rewrite E. destruct (xvmin_up w pi Hpu) as (w' & E' & Lw'); [lia|]. rewrite E'. exists w'. split; [reflexivity|lia].
Qed.
(** It is at most every value. *)
Definition lex (a b : xr) : Prop := b = PInf \/ exists x y, a = Fin x /\ b = Fin y /\ x <= y.
Lemma lex_refl a : up a -> lex a a.
Proof. intros [->|[x ->]]; [left; auto|right; exists x, x; split; auto; split; auto; lra]. Qed.
Lemma lex_trans a b c : lex a b -> lex b c -> lex a c.
Proof.
  intros [->|(x & y & -> & -> & H)] [->|(x' & y' & E & -> & H')]; [left; auto|discriminate|left; auto|].
  injection E as ->. right. exists x, y'. split; auto. split; auto. lra.
Qed.
Lemma lex_min a b : up a -> up b -> lex (xmin a b) a /\ lex (xmin a b) b.
Proof.
  intros [->|[x ->]] [->|[y ->]]; [split; left; auto|split; [left; auto|right; exists y, y; split; [reflexivity|split; [reflexivity|lra]]]|split; [right; exists x, x; split; [reflexivity|split; [reflexivity|lra]]|left; auto]|].
  rewrite xmin_fin. split; right; [exists (Rmin x y), x|exists (Rmin x y), y]; (split; [reflexivity|split; [reflexivity|]]); [apply Rmin_l|apply Rmin_r].
Qed.
Lemma lexs_min u : forall v, length u = length v -> (forall b, In b u -> up b) -> (forall b, In b v -> up b) -> Forall2 lex (xvmin u v) u /\ Forall2 lex (xvmin u v) v.
Proof.
  unfold xvmin. induction u as [|x u IH]; intros [|y v] L Hu Hv; cbn [length] in L; try discriminate; cbn [vmap2]; [split; constructor|].
  destruct (IH v ltac:(lia) (fun c Hc => Hu c (or_intror Hc)) (fun c Hc => Hv c (or_intror Hc))) as [A B].
  destruct (lex_min x y (Hu x (or_introl eq_refl)) (Hv y (or_introl eq_refl))). split; constructor; auto.
Qed.
Lemma lexs_trans u : forall v w, Forall2 lex u v -> Forall2 lex v w -> Forall2 lex u w.
Proof.
  induction u as [|x u IH]; intros v w H1 H2; inversion H1; subst; inversion H2; subst; constructor; [eapply lex_trans; eauto|eapply IH; eauto].
Qed.
Lemma lexs_refl u : (forall b, In b u -> up b) -> Forall2 lex u u.
Proof. induction u as [|x u IH]; intros H; constructor; [apply lex_refl, H; left; auto|apply IH; intros; apply H; right; auto]. Qed.
Lemma fold_lexs m rows : forall r, length r = m -> (forall f, In f rows -> length f = m) -> (forall b, In b r -> up b) -> (forall f b, In f rows -> In b f -> up b) ->
  Forall2 lex (fold_left xvmin rows r) r /\ forall f, In f rows -> Forall2 lex (fold_left xvmin rows r) f.
Proof.
  induction rows as [|x t IH]; intros r Hr Hf Hu Hfu; cbn [fold_left]; [split; [apply lexs_refl; auto|intros f []]|].
  assert (Lx : length x = m) by (apply Hf; left; auto).
  assert (Ux : forall b, In b x -> up b) by (intros b; apply (Hfu x); left; auto).
  destruct (IH (xvmin r x)) as [A B].
  - unfold xvmin. rewrite vmap2_len3. lia.
  - intros; apply Hf; right; auto.
  - apply xvmin_up2; auto.
  - intros f b Hin. apply Hfu. right; auto.
  - destruct (lexs_min r x ltac:(lia) Hu Ux) as [C D]. split; [eapply lexs_trans; eauto|]. intros f [<-|Hin]; [eapply lexs_trans; eauto|auto].
Qed.
Lemma new_ideal_x_below m ideal pi fit z : length ideal = m -> length pi = m -> (forall b, In b pi -> up b) ->
  (forall f, In f fit -> length f = m) -> (forall f b, In f fit -> In b f -> up b) ->
  new_ideal_x (map Fin ideal) pi fit = Ok z -> forall f, In f fit -> Forall2 lex z f.
Proof.
  intros Hi Hp Hpu Hf Hu H f Hin. unfold new_ideal_x, xcolmin in H. destruct fit as [|r t]; [destruct Hin|]. injection H as <-.
  assert (Lr : length r = m) by (apply Hf; left; auto).
  assert (Lt : forall f, In f t -> length f = m) by (intros; apply Hf; right; auto).
  assert (Ur : forall b, In b r -> up b) by (intros b; apply (Hu r); left; auto).
  assert (Ut : forall f b, In f t -> In b f -> up b) by (intros g b Hg; apply Hu; right; auto).
  assert (Lf : length (fold_left xvmin t r) = m) by (apply fold_xvmin_len; auto).
  assert (Uf : forall b, In b (fold_left xvmin t r) -> up b) by (apply fold_xvmin_up; auto).
  assert (Ui : forall b, In b (map Fin ideal) -> up b) by (intros b Hb; apply in_map_iff in Hb as (x & <- & _); right; eauto).
  destruct (lexs_min (map Fin ideal) (fold_left xvmin t r)) as [_ A]; auto; [rewrite map_length; lia|].
  assert (L2 : length (xvmin (map Fin ideal) (fold_left xvmin t r)) = m) by (unfold xvmin at 1; rewrite vmap2_len3, map_length; lia).
  destruct (lexs_min (xvmin (map Fin ideal) (fold_left xvmin t r)) pi) as [B _]; auto; [lia|apply xvmin_up2; auto|].
  destruct (fold_lexs m t r Lr Lt Ur Ut) as [C D].
  eapply lexs_trans; [exact B|]. eapply lexs_trans; [exact A|]. destruct Hin as [<-|Hin]; auto.
Qed.
Lemma lexs_fin z : forall f, Forall2 lex (map Fin z) (map Fin f) -> Forall2 Rle z f.
Proof.
  induction z as [|x z IH]; intros [|y f] H; cbn [map] in H; inversion H as [|a b c d H1 H2]; subst; constructor; auto.
  destruct H1 as [|(p & q & E1 & E2 & L)]; [discriminate|]. injection E1 as ->. injection E2 as ->. exact L.
Qed.
Lemma vmin_absorb z : forall f, Forall2 Rle z f -> vmin z f = z.
Proof. unfold vmin. induction z as [|x z IH]; intros f H; inversion H; subst; cbn [vmap2]; [reflexivity|]. rewrite IH by auto. rewrite Rmin_left by auto. reflexivity. Qed.
Lemma vmin_comm2 z : forall f, vmin z f = vmin f z.
Proof. unfold vmin. induction z as [|x z IH]; intros [|y f]; cbn [vmap2]; try reflexivity. rewrite IH, Rmin_comm. reflexivity. Qed.
Lemma vmin_assoc2 a : forall b c, vmin a (vmin b c) = vmin (vmin a b) c.
Proof. unfold vmin. induction a as [|x a IH]; intros [|y b] [|w c]; cbn [vmap2]; try reflexivity. rewrite IH, Rmin_assoc. reflexivity. Qed.
Lemma new_ideal_absorb z fit : fit <> [] -> (forall f, In f fit -> Forall2 Rle z f) -> new_ideal z z fit = Ok z.
Proof.
  intros Hne H. destruct fit as [|r t]; [congruence|]. unfold new_ideal. cbn [colmin].
  assert (E : forall t r, Forall2 Rle z r -> (forall f, In f t -> Forall2 Rle z f) -> vmin z (fold_left vmin t r) = z).
  { clear. induction t as [|x t IH]; intros r Hr Ht; cbn [fold_left]; [apply vmin_absorb; auto|]. apply IH; [|intros; apply Ht; right; auto].
    specialize (Ht x (or_introl eq_refl)). clear - Hr Ht. revert r x Hr Ht. induction z as [|a z IH]; intros r x H1 H2; inversion H1; subst; inversion H2; subst; cbn [vmin vmap2]; constructor; [apply Rmin_glb; auto|apply IH; auto]. }
  rewrite (E t r (H r (or_introl eq_refl)) (fun f Hf => H f (or_intror Hf))).
  assert (Z : vmin z z = z). { apply vmin_absorb. clear. induction z; constructor; auto. lra. }
  rewrite Z. reflexivity.
Qed.

(** ** The choice per vector, on the rows themselves (no constraints) *)
Lemma filter_index {A} (d : A) (P : A -> bool) l : map (fun i => nth i l d) (filter (fun i => P (nth i l d)) (seq 0 (length l))) = filter P l.
Proof.
  assert (G : forall pre l, map (fun i => nth i (pre ++ l) d) (filter (fun i => P (nth i (pre ++ l) d)) (seq (length pre) (length l))) = filter P l).
  { clear. intros pre l. revert pre. induction l as [|x l IH]; intros pre; cbn [length seq filter]; [reflexivity|].
    assert (E : nth (length pre) (pre ++ x :: l) d = x) by (rewrite app_nth2, Nat.sub_diag by lia; reflexivity).
    rewrite E. specialize (IH (pre ++ [x])). rewrite <- app_assoc, app_length in IH. cbn [app length] in IH. replace (length pre + 1)%nat with (S (length pre)) in IH by lia.
    destruct (P x); cbn [map]; rewrite ?E, IH; reflexivity. }
  apply (G []).
Qed.

Section Rows.
Context (p : R) (vecs : list (list R)) (gam : list R) (z : list xr).
Definition near_x (k : nat) (f : list xr) : bool := Nat.eqb (assigned_x vecs (xvsub f z)) k.
Definition value_x (k : nat) (f : list xr) : xr := apd_x p vecs [xvsub f z] gam k 0.
Definition pickx (k : nat) (l : list (list xr)) : list (list xr) :=
  match l with
  | [] => []
  | [r] => [r]
  | _ => match nanmin_pos (map (value_x k) l) with Some j => [nth j l []] | None => [] end
  end.
Lemma choose_rows fit k : map (row_x fit) (choose_x p vecs (map (fun f => xvsub f z) fit) gam None k) = pickx k (filter (near_x k) fit).
Proof.
  set (trs := map (fun f => xvsub f z) fit).
  assert (T : forall i, (i < length fit)%nat -> row_x trs i = xvsub (row_x fit i) z).
  { intros i Hi. unfold row_x, trs. rewrite (nth_indep _ [] (xvsub [] z)) by (rewrite map_length; auto). apply (map_nth (fun f => xvsub f z)). }
  assert (N : niche_x vecs trs k = filter (fun i => near_x k (row_x fit i)) (seq 0 (length fit))).
  { unfold niche_x. replace (length trs) with (length fit) by (unfold trs; rewrite map_length; reflexivity).
    apply filter_ext_in. intros i Hi. apply in_seq in Hi. unfold near_x. rewrite T by lia. reflexivity. }
  pose proof (filter_index [] (near_x k) fit) as F. fold (row_x fit) in F.
  unfold choose_x. cbn [constraint_filter].
  assert (Hin : forall i, In i (niche_x vecs trs k) -> (i < length fit)%nat) by (intros i Hi; rewrite N in Hi; apply filter_In in Hi as [Hi _]; apply in_seq in Hi; lia).
  change (fun i => nth i fit []) with (row_x fit) in F. change (fun i => near_x k (nth i fit [])) with (fun i => near_x k (row_x fit i)) in F. rewrite <- N in F.
  rewrite <- F. clear F N. revert Hin. generalize (niche_x vecs trs k) as sub. intros sub Hin.
  destruct sub as [|a [|b sub]]; cbn [map]; [reflexivity|reflexivity|]. unfold pickx.
  assert (V : map (apd_x p vecs trs gam k) (a :: b :: sub) = map (value_x k) (row_x fit a :: row_x fit b :: map (row_x fit) sub)).
  { change (row_x fit a :: row_x fit b :: map (row_x fit) sub) with (map (row_x fit) (a :: b :: sub)). rewrite map_map. apply map_ext_in. intros i Hi.
    unfold value_x, apd_x. cbn [row_x nth]. rewrite (T i) by auto. reflexivity. }
  cbn [map] in V. cbn [map]. rewrite V. destruct (nanmin_pos _) as [j|] eqn:E; [|reflexivity]. cbn [map]. f_equal.
  change (row_x fit a :: row_x fit b :: map (row_x fit) sub) with (map (row_x fit) (a :: b :: sub)).
  assert (Hj : (j < length (a :: b :: sub))%nat).
  { unfold nanmin_pos in E. 
    assert (B : forall l best i j w, (forall b v, best = Some (b, v) -> (b < i)%nat) -> nanmin_from best i l = Some (j, w) -> (j < i + length l)%nat).
    { clear. induction l as [|x l IH]; intros best i j w Hb H; cbn [nanmin_from length] in *; [specialize (Hb j w H); lia|].
      apply IH in H; [lia|]. intros b v. destruct (is_nan x); [intros E; specialize (Hb b v E); lia|]. destruct best as [[b0 v0]|].
      - destruct (xltb x v0); intros E; [injection E as <- <-; lia|]. specialize (Hb b v E). lia.
      - intros E. injection E as <- <-. lia. }
    destruct (nanmin_from None 0 _) as [[j' w]|] eqn:E'; [|discriminate]. cbn [option_map fst] in E. injection E as ->.
    apply B in E'; [|discriminate]. cbn [length] in *. rewrite !map_length in E'. lia. }
  rewrite (nth_indep _ [] (row_x fit 0)) by (rewrite map_length; auto). symmetry. apply (map_nth (row_x fit)).
Qed.

(** Ignoring NaN: the same as leaving those rows out. *)
Fixpoint nrow (k : nat) (best : option (list xr * xr)) (l : list (list xr)) : option (list xr * xr) :=
  match l with
  | [] => best
  | f :: t => nrow k (if is_nan (value_x k f) then best else match best with
                                                             | None => Some (f, value_x k f)
                                                             | Some (_, b) => if xltb (value_x k f) b then Some (f, value_x k f) else best
                                                             end) t
  end.
Definition at_row (L : list (list xr)) (o : option (nat * xr)) : option (list xr * xr) := option_map (fun bv => (nth (fst bv) L [], snd bv)) o.
Lemma nrow_index k l : forall pre best, (forall b v, best = Some (b, v) -> (b < length pre)%nat) ->
  at_row (pre ++ l) (nanmin_from best (length pre) (map (value_x k) l)) = nrow k (at_row (pre ++ l) best) l.
Proof.
  induction l as [|f l IH]; intros pre best Hb; cbn [map nanmin_from nrow]; [reflexivity|].
  set (best' := if is_nan (value_x k f) then best else _).
  assert (Hb' : forall b v, best' = Some (b, v) -> (b < length (pre ++ [f]))%nat).
  { intros b v E. rewrite app_length. cbn [length]. unfold best' in E. destruct (is_nan (value_x k f)); [specialize (Hb b v E); lia|].
    destruct best as [[b0 v0]|]; [destruct (xltb _ v0); [injection E as <- <-; lia|specialize (Hb b v E); lia]|injection E as <- <-; lia]. }
  specialize (IH (pre ++ [f]) best' Hb'). rewrite <- app_assoc, app_length in IH. cbn [app length] in IH. replace (length pre + 1)%nat with (S (length pre)) in IH by lia.
  rewrite IH. f_equal. unfold best'. destruct (is_nan (value_x k f)); [reflexivity|].
  assert (E : nth (length pre) (pre ++ f :: l) [] = f) by (rewrite app_nth2, Nat.sub_diag by lia; reflexivity).
  destruct best as [[b0 v0]|]; unfold at_row; cbn [option_map fst snd]; [destruct (xltb (value_x k f) v0); cbn [option_map fst snd]; rewrite ?E; reflexivity|rewrite E; reflexivity].
Qed.
Lemma nrow_pos k l : match nanmin_pos (map (value_x k) l) with Some j => [nth j l []] | None => [] end = match nrow k None l with Some (f, _) => [f] | None => [] end.
Proof.
  pose proof (nrow_index k l [] None ltac:(discriminate)) as H. cbn [app length at_row option_map] in H. rewrite <- H. unfold nanmin_pos.
  destruct (nanmin_from None 0 (map (value_x k) l)) as [[j w]|]; reflexivity.
Qed.
Lemma nrow_skip k l : forall best, nrow k best l = nrow k best (filter (fun f => negb (is_nan (value_x k f))) l).
Proof.
  induction l as [|f l IH]; intros best; cbn [nrow filter]; [reflexivity|]. destruct (is_nan (value_x k f)) eqn:E; cbn [negb]; [apply IH|]. cbn [nrow]. rewrite E. apply IH.
Qed.
Lemma pickx_row k l : (forall f, l = [f] -> is_nan (value_x k f) = false) -> pickx k l = match nrow k None l with Some (f, _) => [f] | None => [] end.
Proof.
  intros H. destruct l as [|f [|g l]]; [reflexivity| |].
  - cbn [pickx nrow]. rewrite (H f eq_refl). reflexivity.
  - unfold pickx. apply nrow_pos.
Qed.
Lemma pickx_skip k l : filter (fun f => negb (is_nan (value_x k f))) l <> [] -> pickx k l = pickx k (filter (fun f => negb (is_nan (value_x k f))) l).
Proof.
  intros H. rewrite pickx_row.
  - rewrite nrow_skip. rewrite pickx_row; [reflexivity|]. intros f E. assert (Hin : In f (filter (fun f => negb (is_nan (value_x k f))) l)) by (rewrite E; left; auto).
    apply filter_In in Hin as [_ Hn]. destruct (is_nan (value_x k f)); [discriminate|reflexivity].
  - intros f ->. cbn [filter] in H. destruct (is_nan (value_x k f)); [exfalso; apply H; reflexivity|reflexivity].
Qed.
Lemma pickx_none k l : (forall f, In f l -> value_x k f = NaN) -> pickx k l = match l with [f] => [f] | _ => [] end.
Proof.
  intros H. destruct l as [|f [|g l]]; [reflexivity|reflexivity|]. unfold pickx. rewrite nanmin_pos_nan; [reflexivity|].
  intros x Hx. apply in_map_iff in Hx as (a & <- & Ha). apply H; auto.
Qed.
End Rows.
