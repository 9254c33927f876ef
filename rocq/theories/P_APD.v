From Verif Require Import Base RVec M_APD Spec_APD.
From Coq Require Import Reals Lra Sorted.
Open Scope R_scope.

(** ** Ideal point *)
Lemma vmin_length u v : length u = length v -> length (vmin u v) = length u.
Proof. apply vmap2_length. Qed.
Lemma vmin_le u v : length u = length v -> Forall2 Rle (vmin u v) u /\ Forall2 Rle (vmin u v) v.
Proof.
  unfold vmin. revert v; induction u as [|x u IH]; intros [|y v] H; simpl in *; try discriminate.
  - split; constructor.
  - destruct (IH v ltac:(lia)). split; constructor; auto; [apply Rmin_l|apply Rmin_r].
Qed.
Lemma Forall2_Rle_trans u v w : Forall2 Rle u v -> Forall2 Rle v w -> Forall2 Rle u w.
Proof.
  intros H; revert w; induction H; intros w' H'; inversion H'; subst; constructor; auto. eapply Rle_trans; eauto.
Qed.
Lemma Forall2_Rle_refl u : Forall2 Rle u u.
Proof. induction u; constructor; auto; lra. Qed.

Lemma fold_vmin rows : forall r, (forall f, In f rows -> length f = length r) ->
  length (fold_left vmin rows r) = length r /\ Forall2 Rle (fold_left vmin rows r) r /\
  forall f, In f rows -> Forall2 Rle (fold_left vmin rows r) f.
Proof.
  induction rows as [|x t IH]; intros r H; simpl.
  - split; [auto|]. split; [apply Forall2_Rle_refl|]. intros f [].
  - assert (L : length r = length x) by (symmetry; apply H; left; auto).
    destruct (IH (vmin r x)) as (A & B & C).
    { intros f Hf. rewrite vmin_length by auto. apply H. right; auto. }
    destruct (vmin_le r x L) as [D1 D2]. rewrite vmin_length in A by auto.
    split; [auto|]. split; [eapply Forall2_Rle_trans; eauto|].
    intros f [<-|Hf]; auto. eapply Forall2_Rle_trans; eauto.
Qed.

(** Each component of a minimum is a component of one of the arguments. *)
Lemma vmin_comp u v j x : nth_error (vmin u v) j = Some x -> nth_error u j = Some x \/ nth_error v j = Some x.
Proof.
  unfold vmin. rewrite vmap2_nth. destruct (nth_error u j), (nth_error v j); try discriminate.
  intros H; injection H as <-. unfold Rmin. destruct (Rle_dec r r0); auto.
Qed.
Lemma fold_vmin_comp rows : forall r j x, nth_error (fold_left vmin rows r) j = Some x ->
  nth_error r j = Some x \/ exists f, In f rows /\ nth_error f j = Some x.
Proof.
  induction rows as [|y t IH]; intros r j x H; simpl in *; auto.
  apply IH in H. destruct H as [H|(f & Hf & H)]; [|right; eauto].
  apply vmin_comp in H. destruct H as [H|H]; [auto|right; exists y; auto].
Qed.

Lemma new_ideal_total ideal pi fit : fit <> [] -> exists z, new_ideal ideal pi fit = Ok z.
Proof. destruct fit; [congruence|]. unfold new_ideal, colmin. eauto. Qed.

Lemma new_ideal_spec m ideal pi fit z : length ideal = m -> length pi = m -> (forall f, In f fit -> length f = m) ->
  new_ideal ideal pi fit = Ok z ->
  length z = m /\ Forall2 Rle z ideal /\ Forall2 Rle z pi /\ (forall f, In f fit -> Forall2 Rle z f) /\
  (forall j x, nth_error z j = Some x ->
     nth_error ideal j = Some x \/ nth_error pi j = Some x \/ exists f, In f fit /\ nth_error f j = Some x).
Proof.
  intros H1 H2 H3. unfold new_ideal, colmin. destruct fit as [|r t]; [discriminate|]. intros H; injection H as <-.
  assert (Lr : length r = m) by (apply H3; left; auto).
  destruct (fold_vmin t r) as (A & B & C). { intros f Hf. rewrite Lr. apply H3. right; auto. }
  set (fm := fold_left vmin t r) in *.
  destruct (vmin_le ideal fm) as [D1 D2]; [lia|].
  destruct (vmin_le (vmin ideal fm) pi) as [E1 E2]; [rewrite vmin_length; lia|].
  split; [rewrite !vmin_length; rewrite ?vmin_length; lia|].
  split; [eapply Forall2_Rle_trans; [exact E1|exact D1]|]. split; [auto|]. split.
  - intros f [<-|Hf]; (eapply Forall2_Rle_trans; [exact E1|]; eapply Forall2_Rle_trans; [exact D2|]); auto.
  - intros j x Hx. apply vmin_comp in Hx. destruct Hx as [Hx|Hx]; auto. apply vmin_comp in Hx.
    destruct Hx as [Hx|Hx]; auto. apply fold_vmin_comp in Hx. destruct Hx as [Hx|(f & Hf & Hx)]; right; right.
    + exists r; split; [left|]; auto.
    + exists f; split; [right|]; auto.
Qed.

Lemma vsub_nonneg z f : Forall2 Rle z f -> forall x, In x (vsub f z) -> 0 <= x.
Proof.
  unfold vsub. induction 1; simpl; [tauto|]. intros w [<-|Hw]; [lra|auto].
Qed.

(** ** Cosines *)
Lemma dot_nonneg u v : (forall x, In x u -> 0 <= x) -> (forall x, In x v -> 0 <= x) -> 0 <= dot u v.
Proof.
  revert v; induction u as [|x u IH]; intros [|y v] Hu Hv; simpl; try lra.
  assert (0 <= x) by (apply Hu; left; auto). assert (0 <= y) by (apply Hv; left; auto).
  assert (0 <= dot u v) by (apply IH; intros; [apply Hu|apply Hv]; right; auto).
  assert (0 <= x * y) by (apply Rmult_le_pos; auto). lra.
Qed.
Lemma dot_zero_l u v : (forall x, In x u -> x = 0) -> dot u v = 0.
Proof.
  revert v; induction u as [|x u IH]; intros [|y v] H; simpl; auto.
  rewrite (H x) by (left; auto). rewrite IH by (intros; apply H; right; auto). ring.
Qed.

Lemma map_div_scale tr s : map (fun x => x / s) tr = vscale (/ s) tr.
Proof. unfold vscale, Rdiv. apply map_ext. intros; ring. Qed.

Lemma cosine_spec tr v : length tr = length v -> (forall x, In x tr -> 0 <= x) -> (forall x, In x v -> 0 <= x) ->
  norm v = 1 -> cosine tr v = cos_between tr v /\ 0 <= cos_between tr v <= 1.
Proof.
  intros L Ht Hv Hn. unfold cosine, cosine_raw, cos_between. rewrite map_div_scale, dot_scale_l, Hn, Rmult_1_r.
  unfold zero_eps. pose proof (dot_nonneg tr v Ht Hv) as D.
  destruct (Req_EM_T (norm tr) 0) as [E|E].
  - rewrite (dot_zero_l tr v) by (apply norm_zero; auto). rewrite Rmult_0_r. unfold Rdiv. rewrite Rmult_0_l.
    unfold clip01. destruct (Rlt_dec 1 0); [lra|]. destruct (Rlt_dec 0 0); lra.
  - assert (P : 0 < norm tr) by (pose proof (norm_nonneg tr); lra).
    pose proof (dot_le_norms tr v L) as C. rewrite Hn, Rmult_1_r, Rabs_pos_eq in C by auto.
    assert (B : 0 <= dot tr v / norm tr <= 1).
    { split; [apply Rmult_le_pos; auto; left; apply Rinv_0_lt_compat; auto|].
      apply (Rmult_le_reg_r (norm tr)); auto. unfold Rdiv. rewrite Rmult_assoc, Rinv_l by auto. lra. }
    replace (/ norm tr * dot tr v) with (dot tr v / norm tr) by (unfold Rdiv; ring).
    split; [|exact B]. unfold clip01. destruct (Rlt_dec 1 (dot tr v / norm tr)); [lra|].
    destruct (Rlt_dec (dot tr v / norm tr) 0); lra.
Qed.

(** ** Violations *)
Lemma feasible_row_spec c : feasible_row c = true <-> feasible c.
Proof.
  unfold feasible_row, violation, feasible. rewrite forallb_forall. split.
  - intros H x Hx. specialize (H (Rmax 0 x) (in_map (Rmax 0) c x Hx)). unfold is_zero in H.
    destruct (Req_EM_T (Rmax 0 x) 0) as [E|]; [|discriminate]. pose proof (Rmax_r 0 x). lra.
  - intros H y Hy. apply in_map_iff in Hy. destruct Hy as (x & <- & Hx). specialize (H x Hx).
    unfold is_zero. destruct (Req_EM_T (Rmax 0 x) 0) as [E|E]; auto. exfalso. apply E. apply Rmax_left; auto.
Qed.

Section Niche.
Context (penalty : R) (m : nat) (ideal pop_ideal : list R) (fit : list (list R)) (cons : option (list (list R)))
  (vecs : list (list R)) (gam : list R) (z : list R).
Hypothesis SI : selection_input m ideal pop_ideal fit cons vecs gam.
Hypothesis Hz : new_ideal ideal pop_ideal fit = Ok z.
Let trs := map (fun f => vsub f z) fit.

Lemma trs_len : length trs = length fit.
Proof. unfold trs. apply map_length. Qed.
Lemma trs_nth i f : nth_error fit i = Some f -> row trs i = vsub f z.
Proof.
  intros H. unfold row. apply nth_error_nth with (d := []). unfold trs. rewrite nth_error_map, H. reflexivity.
Qed.
Lemma z_facts : length z = m /\ forall f, In f fit -> Forall2 Rle z f.
Proof.
  destruct SI. destruct (new_ideal_spec m ideal pop_ideal fit z) as (A & _ & _ & B & _); auto; tauto.
Qed.
Lemma tr_facts f : In f fit -> length (vsub f z) = m /\ forall x, In x (vsub f z) -> 0 <= x.
Proof.
  intros H. destruct z_facts as [L Z]. split.
  - rewrite vsub_length; [apply (proj2 (si_fit _ _ _ _ _ _ _ SI)); auto|].
    rewrite L. apply (proj2 (si_fit _ _ _ _ _ _ _ SI)); auto.
  - apply vsub_nonneg, Z; auto.
Qed.
Lemma cosine_ok f v : In f fit -> In v vecs ->
  cosine (vsub f z) v = cos_between (vsub f z) v /\ 0 <= cos_between (vsub f z) v <= 1.
Proof.
  intros Hf Hv. destruct (tr_facts f Hf) as [L P].
  destruct (proj2 (si_vecs _ _ _ _ _ _ _ SI) v Hv) as (Lv & Nv & Pv). apply cosine_spec; auto. congruence.
Qed.

Lemma assigned_some tr : exists k, argmax (map (cosine tr) vecs) = Some k.
Proof. apply argmax_some. pose proof (proj1 (si_vecs _ _ _ _ _ _ _ SI)). destruct vecs; [congruence|discriminate]. Qed.

Lemma assigned_closest i f : nth_error fit i = Some f ->
  assigned vecs (row trs i) = assigned vecs (vsub f z) /\ closest z fit vecs i (assigned vecs (vsub f z)).
Proof.
  intros H. rewrite (trs_nth i f H). split; [auto|]. unfold assigned.
  destruct (assigned_some (vsub f z)) as (k & E). rewrite E.
  destruct (argmax_spec _ _ E) as (w & Hw & Hall & Hfirst). rewrite nth_error_map in Hw.
  destruct (nth_error vecs k) as [v|] eqn:Ev; [|discriminate]. injection Hw as <-.
  exists f, v. split; [auto|]. split; [auto|]. intros k' v' Hk'.
  assert (Hf : In f fit) by (eapply nth_error_In; eauto).
  assert (Hv : In v vecs) by (eapply nth_error_In; eauto).
  assert (Hv' : In v' vecs) by (eapply nth_error_In; eauto).
  rewrite <- (proj1 (cosine_ok f v Hf Hv)), <- (proj1 (cosine_ok f v' Hf Hv')). split.
  - apply Hall. apply in_map; auto.
  - intros Hlt. apply (Hfirst k'); auto. rewrite nth_error_map, Hk'. reflexivity.
Qed.

Lemma closest_unique i k k' : closest z fit vecs i k -> closest z fit vecs i k' -> k = k'.
Proof.
  intros (f & v & Hf & Hv & A) (f' & v' & Hf' & Hv' & B). rewrite Hf in Hf'. injection Hf' as <-.
  destruct (Nat.lt_trichotomy k k') as [L|[E|L]]; auto; exfalso.
  - destruct (A _ _ Hv') as [A1 _]. destruct (B _ _ Hv) as [_ B2]. specialize (B2 L). lra.
  - destruct (B _ _ Hv) as [B1 _]. destruct (A _ _ Hv') as [_ A2]. specialize (A2 L). lra.
Qed.

Lemma In_niche i k : In i (niche vecs trs k) <-> closest z fit vecs i k.
Proof.
  unfold niche. rewrite filter_In, in_seq, trs_len, Nat.eqb_eq. split.
  - intros [[_ Hi] E]. simpl in Hi. destruct (nth_error fit i) as [f|] eqn:Ef; [|apply nth_error_None in Ef; lia].
    destruct (assigned_closest i f Ef) as [A B]. rewrite A in E. subst k. exact B.
  - intros C. pose proof C as (f & v & Hf & _). split.
    + split; [lia|]. simpl. apply nth_error_Some. congruence.
    + destruct (assigned_closest i f Hf) as [A B]. rewrite A. eapply closest_unique; eauto.
Qed.

Lemma niche_sorted k : StronglySorted lt (niche vecs trs k).
Proof.
  unfold niche. generalize (fun i => Nat.eqb (assigned vecs (row trs i)) k). intros g. generalize 0%nat, (length trs).
  intros a n; revert a; induction n as [|n IH]; intros a; simpl; [constructor|].
  destruct (g a); auto. constructor; auto. apply Forall_forall. intros y Hy. apply filter_In in Hy.
  destruct Hy as [Hy _]. apply in_seq in Hy. lia.
Qed.

Lemma StronglySorted_filter {A} (R' : A -> A -> Prop) g l : StronglySorted R' l -> StronglySorted R' (filter g l).
Proof.
  induction 1 as [|x l S IH F]; simpl; [constructor|]. destruct (g x); auto. constructor; auto.
  rewrite Forall_forall in *. intros y Hy. apply filter_In in Hy. apply F, Hy.
Qed.

Lemma filter_cons_sorted k : StronglySorted lt (constraint_filter cons (niche vecs trs k)).
Proof.
  pose proof (niche_sorted k) as S. unfold constraint_filter. case_eq cons; [intros c Hc|auto].
  destruct (Nat.ltb 1 _); auto. destruct (existsb _ _); [apply StronglySorted_filter; auto|].
  destruct (map (fun i => rsum (violation (row c i))) (niche vecs trs k)); [constructor|apply StronglySorted_filter; auto].
Qed.

Lemma cons_row c i : cons = Some c -> (i < length fit)%nat -> nth_error c i = Some (row c i).
Proof.
  intros Hc Hi. unfold row. apply nth_error_nth'. destruct SI as [_ _ _ _ E]. rewrite Hc in E. lia.
Qed.
Lemma closest_lt i k : closest z fit vecs i k -> (i < length fit)%nat.
Proof. intros (f & v & Hf & _). apply nth_error_Some. congruence. Qed.

Lemma In_filtered i k : In i (constraint_filter cons (niche vecs trs k)) <-> admissible z fit cons vecs k i.
Proof.
  unfold admissible, constraint_filter. case_eq cons; [intros c Hc|intros Hc; rewrite In_niche; tauto].
  assert (CR := fun i => cons_row c i Hc).
  destruct (Nat.ltb_spec 1 (length (niche vecs trs k))) as [Hl|Hl].
  - destruct (existsb (fun i => feasible_row (row c i)) (niche vecs trs k)) eqn:Ex.
    + apply existsb_exists in Ex. destruct Ex as (i0 & Hi0 & F0). apply feasible_row_spec in F0.
      rewrite filter_In, In_niche, feasible_row_spec. split.
      * intros [C F]. split; [exact C|]. exists (row c i). split; [apply CR; eauto using closest_lt|]. left; auto.
      * intros [C (ci & Hci & D)]. split; [exact C|]. rewrite (CR i (closest_lt _ _ C)) in Hci. injection Hci as <-.
        destruct D as [D|D]; [auto|]. apply In_niche in Hi0.
        destruct (D i0 _ Hi0 (CR i0 (closest_lt _ _ Hi0))) as [D1 _]. contradiction.
    + assert (NF : forall j, closest z fit vecs j k -> ~ feasible (row c j)).
      { intros j Hj Fj. apply In_niche in Hj. apply feasible_row_spec in Fj.
        assert (T : existsb (fun i => feasible_row (row c i)) (niche vecs trs k) = true) by (apply existsb_exists; eauto).
        congruence. }
      destruct (map (fun i => rsum (violation (row c i))) (niche vecs trs k)) as [|v vs] eqn:Em.
      { apply map_eq_nil in Em. rewrite Em in Hl. simpl in Hl. lia. }
      pose proof (rmin_list_le v vs) as (M1 & M2 & M3).
      assert (MI : forall x, In x (v :: vs) -> rmin_list v vs <= x) by (intros x [<-|]; auto).
      rewrite filter_In, In_niche.
      assert (LE : forall j, closest z fit vecs j k -> rmin_list v vs <= total_violation (row c j)).
      { intros j Hj. apply MI. rewrite <- Em. apply In_niche in Hj.
        apply (in_map (fun i => rsum (violation (row c i)))) in Hj. exact Hj. }
      destruct (Req_EM_T (rsum (violation (row c i))) (rmin_list v vs)) as [E|E].
      * split; [|intros [C _]; auto]. intros [C _]. split; [exact C|]. exists (row c i).
        split; [apply CR; eauto using closest_lt|]. right. intros j cj Hj Hcj.
        rewrite (CR j (closest_lt _ _ Hj)) in Hcj. injection Hcj as <-. split; [auto|].
        unfold total_violation. fold (violation (row c i)). rewrite E. apply LE; auto.
      * split; [intros [_ H]; discriminate|]. intros [C (ci & Hci & D)]. exfalso.
        rewrite (CR i (closest_lt _ _ C)) in Hci. injection Hci as <-.
        destruct D as [D|D]; [apply (NF i C D)|].
        assert (IV : In (rmin_list v vs) (v :: vs)) by (destruct M3 as [->|]; [left|right]; auto).
        rewrite <- Em in IV. apply in_map_iff in IV. destruct IV as (j & Ej & Hj). apply In_niche in Hj.
        destruct (D j _ Hj (CR j (closest_lt _ _ Hj))) as [_ D2]. unfold total_violation in D2.
        change (map (Rmax 0) (row c j)) with (violation (row c j)) in D2. rewrite Ej in D2.
        change (map (Rmax 0) (row c i)) with (violation (row c i)) in D2.
        specialize (LE i C). unfold total_violation in LE. change (map (Rmax 0) (row c i)) with (violation (row c i)) in LE. lra.
  - rewrite In_niche. split; [|tauto]. intros C. split; [exact C|]. exists (row c i).
    split; [apply CR; eauto using closest_lt|].
    destruct (feasible_row (row c i)) eqn:F; [left; apply feasible_row_spec; auto|]. right. intros j cj Hj Hcj.
    assert (j = i).
    { apply In_niche in C, Hj. destruct (niche vecs trs k) as [|a [|b t]]; simpl in *; try lia; intuition congruence. }
    subst j. rewrite (CR i (closest_lt _ _ C)) in Hcj. injection Hcj as <-. split; [|lra].
    intros Hf. apply feasible_row_spec in Hf. congruence.
Qed.

Lemma filtered_nonempty k : (exists i, closest z fit vecs i k) -> constraint_filter cons (niche vecs trs k) <> [].
Proof.
  intros (i & Hi) E. apply In_niche in Hi. revert E. unfold constraint_filter. case_eq cons; [intros c Hc E|intros Hc E].
  - destruct (Nat.ltb_spec 1 (length (niche vecs trs k))) as [Hl|Hl]; [|rewrite E in Hi; destruct Hi].
    destruct (existsb (fun i => feasible_row (row c i)) (niche vecs trs k)) eqn:Ex.
    + apply existsb_exists in Ex. destruct Ex as (i0 & Hi0 & F0).
      assert (I : In i0 (filter (fun i => feasible_row (row c i)) (niche vecs trs k))) by (apply filter_In; auto).
      rewrite E in I. destruct I.
    + destruct (map (fun i => rsum (violation (row c i))) (niche vecs trs k)) as [|v vs] eqn:Em.
      { apply map_eq_nil in Em. rewrite Em in Hl. simpl in Hl. lia. }
      pose proof (rmin_list_le v vs) as (M1 & M2 & M3).
      assert (IV : In (rmin_list v vs) (v :: vs)) by (destruct M3 as [->|]; [left|right]; auto).
      rewrite <- Em in IV. apply in_map_iff in IV. destruct IV as (j & Ej & Hj).
      assert (I : In j (filter (fun i => if Req_EM_T (rsum (violation (row c i))) (rmin_list v vs) then true else false) (niche vecs trs k))).
      { apply filter_In. split; [auto|]. destruct (Req_EM_T (rsum (violation (row c j))) (rmin_list v vs)); auto. }
      rewrite E in I. destruct I.
  - rewrite E in Hi. destruct Hi.
Qed.

Lemma sorted_nth_lt l a b x y : StronglySorted lt l -> nth_error l a = Some x -> nth_error l b = Some y -> (x < y)%nat -> (a < b)%nat.
Proof.
  intros S; revert a b; induction S as [|h l S IH F]; intros [|a] [|b] Ha Hb Hxy; simpl in *; try discriminate; try lia.
  - injection Ha as <-. injection Hb as <-. lia.
  - injection Hb as <-. rewrite Forall_forall in F. apply nth_error_In in Ha. specialize (F _ Ha). lia.
  - specialize (IH a b Ha Hb Hxy). lia.
Qed.

(** What is chosen for vector [k]. *)
Lemma choose_spec k : 
  (choose penalty vecs trs gam cons k = [] /\ ~ exists i, closest z fit vecs i k) \/
  (exists i, choose penalty vecs trs gam cons k = [i] /\ admissible z fit cons vecs k i /\
     forall j, admissible z fit cons vecs k j ->
       apd penalty vecs trs gam k i <= apd penalty vecs trs gam k j /\
       ((j < i)%nat -> apd penalty vecs trs gam k i < apd penalty vecs trs gam k j)).
Proof.
  unfold choose. pose proof (In_filtered) as IF. pose proof (filter_cons_sorted k) as SS.
  pose proof (filtered_nonempty k) as NE.
  remember (constraint_filter cons (niche vecs trs k)) as sub eqn:Es.
  destruct sub as [|i [|i' t]].
  - left. split; [auto|]. intros H. apply NE in H. congruence.
  - right. exists i. split; [auto|]. split; [apply IF; rewrite <- Es; left; auto|].
    intros j Hj. apply IF in Hj. rewrite <- Es in Hj. destruct Hj as [<-|[]]. split; [lra|lia].
  - set (l := i :: i' :: t) in *.
    destruct (argmin_some (map (apd penalty vecs trs gam k) l)) as (q & E); [discriminate|]. rewrite E.
    destruct (argmin_spec _ _ E) as (w & Hw & Hall & Hfirst). rewrite nth_error_map in Hw.
    destruct (nth_error l q) as [x|] eqn:Ex; [|discriminate]. injection Hw as <-.
    rewrite (nth_error_nth l q 0%nat Ex). right. exists x. split; [auto|].
    split; [apply IF; rewrite <- Es; eapply nth_error_In; eauto|].
    intros j Hj. apply IF in Hj. rewrite <- Es in Hj. split.
    + apply Hall. apply in_map; auto.
    + intros Hlt. apply In_nth_error in Hj. destruct Hj as (b & Hb).
      pose proof (sorted_nth_lt l b q j x SS Hb Ex Hlt). apply (Hfirst b); auto. rewrite nth_error_map, Hb. reflexivity.
Qed.

Definition sel := flat_map (choose penalty vecs trs gam cons) (seq 0 (length vecs)).

Lemma closest_vec i k : closest z fit vecs i k -> (k < length vecs)%nat.
Proof. intros (f & v & _ & Hv & _). apply nth_error_Some. congruence. Qed.

Lemma In_sel i : In i sel <-> exists k, In i (choose penalty vecs trs gam cons k).
Proof.
  unfold sel. rewrite in_flat_map. split; [intros (k & _ & H); eauto|].
  intros (k & H). exists k. split; [|auto]. apply in_seq. split; [lia|]. simpl.
  destruct (choose_spec k) as [[E _]|(i0 & E & A & _)]; rewrite E in H; [destruct H|].
  destruct H as [->|[]]. destruct A as [A _]. eapply closest_vec; eauto.
Qed.

Lemma choose_closest i k : In i (choose penalty vecs trs gam cons k) -> closest z fit vecs i k.
Proof.
  intros H. destruct (choose_spec k) as [[E _]|(i0 & E & A & _)]; rewrite E in H; [destruct H|].
  destruct H as [->|[]]. apply A.
Qed.

Lemma flat_map_NoDup {A B} (g : A -> list B) l :
  NoDup l -> (forall a, In a l -> NoDup (g a)) -> (forall a a' b, In b (g a) -> In b (g a') -> a = a') -> NoDup (flat_map g l).
Proof.
  induction 1 as [|a l Ha N IH]; intros H1 H2; simpl; [constructor|].
  assert (N1 := H1 a (or_introl eq_refl)). assert (N2 : NoDup (flat_map g l)) by (apply IH; auto; intros; apply H1; right; auto).
  assert (D : forall b, In b (g a) -> ~ In b (flat_map g l)).
  { intros b Hb Hf. apply in_flat_map in Hf. destruct Hf as (a' & Ha' & Hb'). rewrite (H2 _ _ _ Hb Hb') in Ha. contradiction. }
  clear -N1 N2 D. induction N1 as [|b gl Hb N1 IH]; simpl; auto. constructor.
  - rewrite in_app_iff. intros [|]; [auto|]. apply (D b); [left|]; auto.
  - apply IH. intros; apply D; right; auto.
Qed.

Lemma sel_NoDup : NoDup sel.
Proof.
  unfold sel. apply flat_map_NoDup.
  - apply seq_NoDup.
  - intros k _. destruct (choose_spec k) as [[E _]|(i & E & _)]; rewrite E; constructor; auto. constructor.
  - intros k k' i H H'. eapply closest_unique; eapply choose_closest; eauto.
Qed.

Lemma apd_APD k i f v g : nth_error fit i = Some f -> nth_error vecs k = Some v -> nth_error gam k = Some g ->
  apd penalty vecs trs gam k i = APD penalty (zero_eps g) z f v.
Proof.
  intros Hf Hv Hg. unfold apd, APD. rewrite (trs_nth i f Hf).
  rewrite (nth_error_nth gam k 0 Hg). unfold row. rewrite (nth_error_nth vecs k [] Hv).
  rewrite (proj1 (cosine_ok f v (nth_error_In _ _ Hf) (nth_error_In _ _ Hv))). reflexivity.
Qed.
End Niche.
