From Verif Require Import Base Pareto M_Archive.

Section P.
Context {V : Type} (dom : V -> V -> bool) (Hso : strict_order dom).

Lemma inner_length x arch alive : length alive = length arch -> length (snd (inner dom x arch alive)) = length arch.
Proof.
  revert alive; induction arch as [|a arch IH]; intros [|al alive] H; simpl in *; try discriminate; auto.
  injection H as H. destruct al; simpl.
  - destruct (dom a x); simpl; auto.
    specialize (IH alive H). destruct (inner dom x arch alive); simpl in *; auto.
  - specialize (IH alive H). destruct (inner dom x arch alive); simpl in *; auto.
Qed.

Lemma check_loop_length new arch alive : length alive = length arch ->
  length (fst (check_loop dom new arch alive)) = length new /\
  length (snd (check_loop dom new arch alive)) = length arch.
Proof.
  revert alive; induction new as [|x new IH]; intros alive H; simpl; auto.
  pose proof (inner_length x arch alive H) as Hi.
  destruct (inner dom x arch alive) as [b alive1]; simpl in *.
  destruct (IH alive1 Hi) as [H1 H2]. destruct (check_loop dom new arch alive1) as [bs alive2]; simpl in *.
  split; auto.
Qed.

(** What one inner loop does, by position. *)
Lemma inner_spec x arch alive : length alive = length arch ->
  let (b, alive') := inner dom x arch alive in
  (* the flag *)
  (b = false -> exists j a, nth_error arch j = Some a /\ nth_error alive j = Some true /\ nth_error alive' j = Some true /\ dom a x = true) /\
  (b = true -> forall j a, nth_error arch j = Some a -> nth_error alive j = Some true ->
      dom a x = false /\ (nth_error alive' j = Some (negb (dom x a)))) /\
  (* the alive flags only go from true to false, and only for rows [x] dominates *)
  (forall j a, nth_error arch j = Some a -> nth_error alive j = Some false -> nth_error alive' j = Some false) /\
  (forall j a, nth_error arch j = Some a -> nth_error alive j = Some true ->
      nth_error alive' j = Some true \/ (nth_error alive' j = Some false /\ dom x a = true)).
Proof.
  revert alive; induction arch as [|a arch IH]; intros [|al alive] H; simpl in *; try discriminate.
  - split; [discriminate|]. split; [|split]; intros; destruct j; discriminate.
  - injection H as H. specialize (IH alive H).
    destruct al; simpl.
    + destruct (dom a x) eqn:Eax.
      * split; [|split; [|split]].
        -- intros _. exists 0, a. simpl. auto.
        -- discriminate.
        -- intros [|j] a0 Hj Hal; simpl in *; auto.
        -- intros [|j] a0 Hj Hal; simpl in *; auto.
      * destruct (inner dom x arch alive) as [b alive'].
        destruct IH as (I1 & I2 & I3 & I4). split; [|split; [|split]].
        -- intros Hb. destruct (I1 Hb) as (j & a0 & J1 & J2 & J3 & J4). exists (S j), a0; auto.
        -- intros Hb [|j] a0 Hj Hal; simpl in *.
           ++ injection Hj as <-. destruct (dom x a); auto.
           ++ apply I2; auto.
        -- intros [|j] a0 Hj Hal; simpl in *; [discriminate|eauto].
        -- intros [|j] a0 Hj Hal; simpl in *.
           ++ injection Hj as <-. destruct (dom x a) eqn:E; auto.
           ++ eauto.
    + destruct (inner dom x arch alive) as [b alive'].
      destruct IH as (I1 & I2 & I3 & I4). split; [|split; [|split]].
      * intros Hb. destruct (I1 Hb) as (j & a0 & J1 & J2 & J3 & J4). exists (S j), a0; auto.
      * intros Hb [|j] a0 Hj Hal; simpl in *; [discriminate|]. apply I2; auto.
      * intros [|j] a0 Hj Hal; simpl in *; auto. eauto.
      * intros [|j] a0 Hj Hal; simpl in *; [discriminate|eauto].
Qed.

(** What the whole double loop does, by position. *)
Lemma check_loop_spec new arch alive : length alive = length arch ->
  let (bs, alive') := check_loop dom new arch alive in
  (forall i x, nth_error new i = Some x -> nth_error bs i = Some false ->
     exists j a, nth_error arch j = Some a /\ nth_error alive j = Some true /\ dom a x = true) /\
  (* a kept new row is incomparable with every surviving archive row *)
  (forall i x, nth_error new i = Some x -> nth_error bs i = Some true ->
     forall j a, nth_error arch j = Some a -> nth_error alive' j = Some true -> dom a x = false /\ dom x a = false) /\
  (forall j a, nth_error arch j = Some a -> nth_error alive' j = Some true -> nth_error alive j = Some true) /\
  (forall j a, nth_error arch j = Some a -> nth_error alive j = Some true -> nth_error alive' j = Some false ->
     exists x, In x new /\ dom x a = true).
Proof.
  revert alive; induction new as [|x new IH]; intros alive H; simpl.
  - split; [|split; [|split]]; auto.
    + intros [|i]; discriminate.
    + intros [|i]; discriminate.
    + intros j a _ H1 H2. rewrite H1 in H2; discriminate.
  - pose proof (inner_length x arch alive H) as Hl. pose proof (inner_spec x arch alive H) as Hin.
    destruct (inner dom x arch alive) as [b alive1]. simpl in Hl.
    destruct Hin as (N1 & N2 & N3 & N4).
    specialize (IH alive1 Hl). destruct (check_loop dom new arch alive1) as [bs alive2].
    destruct IH as (I1 & I2 & I3 & I4).
    assert (Hmono : forall j a, nth_error arch j = Some a -> nth_error alive1 j = Some true -> nth_error alive j = Some true).
    { intros j a Hj H1. destruct (nth_error alive j) as [[|]|] eqn:E; auto.
      - rewrite (N3 _ _ Hj E) in H1; discriminate.
      - apply nth_error_None in E. assert (nth_error arch j <> None) as Hn by congruence.
        apply nth_error_Some in Hn. lia. }
    split; [|split; [|split]].
    + intros [|i] y Hy Hb; simpl in *.
      * injection Hy as <-. injection Hb as ->. destruct (N1 eq_refl) as (j & a & J1 & J2 & _ & J4). exists j, a; auto.
      * destruct (I1 i y Hy Hb) as (j & a & J1 & J2 & J3). exists j, a. split; auto. split; auto. eapply Hmono; eauto.
    + intros [|i] y Hy Hb j a Hj Hal; simpl in *.
      * injection Hy as <-. injection Hb as ->.
        pose proof (I3 _ _ Hj Hal) as Hal1. pose proof (Hmono _ _ Hj Hal1) as Hal0.
        destruct (N2 eq_refl j a Hj Hal0) as [D1 D2]. split; auto.
        rewrite D2 in Hal1. destruct (dom x a); simpl in *; congruence.
      * eapply I2; eauto.
    + intros j a Hj Hal. eapply Hmono; eauto.
    + intros j a Hj H0 H2. destruct (nth_error alive1 j) as [[|]|] eqn:E.
      * destruct (I4 _ _ Hj E H2) as (y & Hy & Hd). exists y; split; [right|]; auto.
      * destruct (N4 _ _ Hj H0) as [E'|[_ Hd]]; [congruence|]. exists x; split; [left|]; auto.
      * apply nth_error_None in E. assert (nth_error arch j <> None) as Hn by congruence.
        apply nth_error_Some in Hn. lia.
Qed.

Lemma In_mask_sel {A} (m : list bool) (l : list A) x : length m = length l ->
  (In x (mask_sel m l) <-> exists i, nth_error l i = Some x /\ nth_error m i = Some true).
Proof.
  revert l; induction m as [|b m IH]; intros [|y l] H; simpl in *; try discriminate.
  - split; [contradiction|]. intros ([|i] & H1 & _); discriminate.
  - injection H as H. specialize (IH l H). destruct b; simpl; rewrite IH; split.
    + intros [->|(i & H1 & H2)]; [exists 0|exists (S i)]; auto.
    + intros ([|i] & H1 & H2); simpl in *; [left; congruence|right; eauto].
    + intros (i & H1 & H2); exists (S i); auto.
    + intros ([|i] & H1 & H2); simpl in *; [discriminate|eauto].
Qed.

Lemma nth_total {A B} (l : list A) (m : list B) i x : length m = length l -> nth_error l i = Some x -> exists b, nth_error m i = Some b.
Proof.
  intros H Hx. destruct (nth_error m i) eqn:E; eauto. apply nth_error_None in E.
  assert (nth_error l i <> None) as Hn by congruence. apply nth_error_Some in Hn. lia.
Qed.

(** Fitness column after one batch. *)
Definition fit_after (arch new : list V) : list V :=
  let (n, o) := check_domination dom new arch in mask_sel o arch ++ mask_sel n new.

Lemma check_facts arch new :
  exists n o, check_domination dom new arch = (n, o) /\ length n = length new /\ length o = length arch /\
  (forall i x, nth_error new i = Some x -> nth_error n i = Some false -> exists a, In a arch /\ dom a x = true) /\
  (forall i x j a, nth_error new i = Some x -> nth_error n i = Some true ->
      nth_error arch j = Some a -> nth_error o j = Some true -> dom a x = false /\ dom x a = false) /\
  (forall j a, nth_error arch j = Some a -> nth_error o j = Some false -> exists x, In x new /\ dom x a = true).
Proof.
  unfold check_domination.
  assert (Hl : length (repeat true (length arch)) = length arch) by apply repeat_length.
  pose proof (check_loop_length new arch _ Hl) as [L1 L2].
  pose proof (check_loop_spec new arch _ Hl) as S.
  destruct (check_loop dom new arch (repeat true (length arch))) as [n o]; simpl in *.
  destruct S as (S1 & S2 & S3 & S4). exists n, o.
  split; auto. split; auto. split; auto. split; [|split].
  - intros i x Hx Hn. destruct (S1 i x Hx Hn) as (j & a & J1 & J2 & J3). exists a. split; auto. eapply nth_error_In; eauto.
  - intros. eapply S2; eauto.
  - intros j a Hj Ho. apply (S4 j a); auto.
    rewrite nth_error_repeat'. assert (nth_error arch j <> None) as Hn by congruence.
    apply nth_error_Some in Hn. apply Nat.ltb_lt in Hn. rewrite Hn; auto.
Qed.

Lemma fit_after_incl arch new v : In v (fit_after arch new) -> In v arch \/ In v new.
Proof.
  unfold fit_after. destruct (check_facts arch new) as (n & o & -> & L1 & L2 & _).
  intros H. apply in_app_or in H. destruct H as [H|H]; apply In_mask_sel in H; auto;
  destruct H as (i & H & _); [left|right]; eapply nth_error_In; eauto.
Qed.

Lemma fit_after_cover arch new v : In v arch \/ In v new ->
  exists k, In k (fit_after arch new) /\ (k = v \/ dom k v = true).
Proof.
  intros Hv.
  destruct (cover_by_kept dom Hso (arch ++ new) (fun e => In e (fit_after arch new))) with (e := v) as (k & K1 & K2 & K3).
  - intros e He. unfold fit_after.
    destruct (check_facts arch new) as (n & o & -> & L1 & L2 & F1 & F2 & F3).
    apply in_app_or in He. destruct He as [He|He].
    + apply In_nth_error in He. destruct He as [j Hj].
      destruct (nth_total arch o j e L2 Hj) as [[|] Hb].
      * left. apply in_or_app; left. apply In_mask_sel; eauto.
      * right. destruct (F3 _ _ Hj Hb) as (x & Hx & Hd). exists x; split; auto. apply in_or_app; auto.
    + apply In_nth_error in He. destruct He as [i Hi].
      destruct (nth_total new n i e L1 Hi) as [[|] Hb].
      * left. apply in_or_app; right. apply In_mask_sel; eauto.
      * right. destruct (F1 _ _ Hi Hb) as (x & Hx & Hd). exists x; split; auto. apply in_or_app; auto.
  - apply in_or_app; auto.
  - exists k; auto.
Qed.

Definition mutual (l : list V) : Prop := forall a b, In a l -> In b l -> dom a b = false.

(** Domination inside the new archive comes from inside the old archive or inside the batch. *)
Lemma fit_after_pairs arch new a b :
  In a (fit_after arch new) -> In b (fit_after arch new) -> dom a b = true ->
  (In a arch /\ In b arch) \/ (In a new /\ In b new).
Proof.
  unfold fit_after. destruct (check_facts arch new) as (n & o & -> & L1 & L2 & F1 & F2 & F3).
  intros Ha Hb Hd. apply in_app_or in Ha; apply in_app_or in Hb.
  destruct Ha as [Ha|Ha]; destruct Hb as [Hb|Hb]; apply In_mask_sel in Ha; auto; apply In_mask_sel in Hb; auto;
  destruct Ha as (i & Ha1 & Ha2); destruct Hb as (j & Hb1 & Hb2).
  - left; split; eapply nth_error_In; eauto.
  - exfalso. destruct (F2 j b i a Hb1 Hb2 Ha1 Ha2). congruence.
  - exfalso. destruct (F2 i a j b Ha1 Ha2 Hb1 Hb2). congruence.
  - right; split; eapply nth_error_In; eauto.
Qed.

Lemma fit_after_mutual arch new : mutual arch -> mutual new -> mutual (fit_after arch new).
Proof.
  intros Ha Hn a b HA HB. destruct (dom a b) eqn:E; auto.
  destruct (fit_after_pairs _ _ _ _ HA HB E) as [[X Y]|[X Y]].
  - rewrite <- (Ha a b X Y). auto.
  - rewrite <- (Hn a b X Y). auto.
Qed.

(** Exact membership of old rows when the archive is mutually non-dominated. *)
Lemma old_kept_iff arch new a : mutual arch -> In a arch ->
  ((exists x, In x new /\ dom x a = true) -> ~ (exists b, In b arch /\ exists x, In x new /\ dom b x = true /\ dom x a = true)) .
Proof.
  intros Hm Ha _ (b & Hb & x & Hx & H1 & H2).
  pose proof (proj2 Hso _ _ _ H1 H2) as H3. rewrite (Hm b a Hb Ha) in H3. discriminate.
Qed.

Lemma old_removed_if_dominated arch new j a x n o :
  mutual arch -> check_domination dom new arch = (n, o) ->
  nth_error arch j = Some a -> In x new -> dom x a = true -> nth_error o j = Some false.
Proof.
  intros Hm Hc Hj Hx Hd.
  destruct (check_facts arch new) as (n' & o' & Hc' & L1 & L2 & F1 & F2 & F3).
  rewrite Hc in Hc'. injection Hc' as <- <-.
  destruct (nth_total arch o j a L2 Hj) as [[|] Hb]; auto.
  apply In_nth_error in Hx. destruct Hx as [i Hi].
  destruct (nth_total new n i x L1 Hi) as [[|] Hn].
  - destruct (F2 i x j a Hi Hn Hj Hb). congruence.
  - destruct (F1 i x Hi Hn) as (b & Hb1 & Hb2).
    pose proof (proj2 Hso _ _ _ Hb2 Hd) as H3. rewrite (Hm b a Hb1) in H3; [discriminate|]. eapply nth_error_In; eauto.
Qed.

Lemma nd_mask_spec l x : In x (mask_sel (nd_mask dom l) l) <-> In x l /\ forall y, In y l -> dom y x = false.
Proof.
  rewrite In_mask_sel by (unfold nd_mask; apply map_length).
  unfold nd_mask. split.
  - intros (i & H1 & H2). rewrite nth_error_map, H1 in H2. simpl in H2. injection H2 as H2.
    split; [eapply nth_error_In; eauto|]. intros y Hy.
    apply negb_true_iff in H2. destruct (dom y x) eqn:E; auto.
    assert (existsb (fun y => dom y x) l = true) by (apply existsb_exists; eauto). congruence.
  - intros [H1 H2]. apply In_nth_error in H1. destruct H1 as [i Hi]. exists i. split; auto.
    rewrite nth_error_map, Hi. simpl. f_equal. apply negb_true_iff.
    destruct (existsb (fun y => dom y x) l) eqn:E; auto.
    apply existsb_exists in E. destruct E as (y & Hy & Hd). rewrite H2 in Hd by auto. discriminate.
Qed.

Lemma nd_cover l v : In v l -> exists k, In k (mask_sel (nd_mask dom l) l) /\ (k = v \/ dom k v = true).
Proof.
  intros Hv.
  destruct (cover_by_kept dom Hso l (fun e => In e (mask_sel (nd_mask dom l) l))) with (e := v) as (k & _ & K2 & K3); eauto.
  intros e He. destruct (existsb (fun y => dom y e) l) eqn:E.
  - right. apply existsb_exists in E. exact E.
  - left. apply nd_mask_spec. split; auto. intros y Hy. destruct (dom y e) eqn:D; auto.
    assert (existsb (fun y => dom y e) l = true) by (apply existsb_exists; eauto). congruence.
Qed.

Lemma nd_mutual l : mutual (mask_sel (nd_mask dom l) l).
Proof. intros a b Ha Hb. apply nd_mask_spec in Ha. apply nd_mask_spec in Hb. apply Hb; apply Ha. Qed.

(** ** The archive with its three columns *)
Context {I O : Type}.
Notation row := (@row I O V).

Definition holds (A : arch I O V) (rows : list row) : Prop :=
  a_ind A = map r_i rows /\ a_obj A = map r_o rows /\ a_fit A = map r_f rows.

Definition rows_after (rows batch : list row) : list row :=
  let (n, o) := check_domination dom (map r_f batch) (map r_f rows) in
  mask_sel o rows ++ mask_sel n batch.

Lemma submit_holds A rows batch : holds A rows -> holds (submit dom A batch) (rows_after rows batch).
Proof.
  intros (H1 & H2 & H3). unfold submit, archive_add, rows_after. rewrite H1, H2, H3.
  destruct (check_domination dom (map r_f batch) (map r_f rows)) as [n o].
  unfold holds; simpl. rewrite !map_app, !mask_sel_map. auto.
Qed.

Lemma rows_after_fit rows batch : map r_f (rows_after rows batch) = fit_after (map r_f rows) (map r_f batch).
Proof.
  unfold rows_after, fit_after. destruct (check_domination dom (map r_f batch) (map r_f rows)).
  rewrite map_app, !mask_sel_map; auto.
Qed.

Lemma mask_sel_incl {A} m (l : list A) x : In x (mask_sel m l) -> In x l.
Proof.
  revert l; induction m as [|b m IH]; intros [|y l]; simpl; try contradiction.
  destruct b; simpl; intuition.
Qed.

Lemma rows_after_incl rows batch r : In r (rows_after rows batch) -> In r rows \/ In r batch.
Proof.
  unfold rows_after. destruct (check_domination dom (map r_f batch) (map r_f rows)).
  intros H. apply in_app_or in H. destruct H as [H|H]; apply mask_sel_incl in H; auto.
Qed.

Definition start_rows (init : list row) := mask_sel (nd_mask dom (map r_f init)) init.

Lemma run_invariant init batches :
  exists rows, holds (archive_run dom init batches) rows /\
    (forall r, In r rows -> In r (init ++ concat batches)) /\
    (forall r, In r (init ++ concat batches) -> exists k, In k rows /\ (r_f k = r_f r \/ dom (r_f k) (r_f r) = true)) /\
    ((forall b, In b batches -> mutual (map r_f b)) -> mutual (map r_f rows)) /\
    (forall a b, In a rows -> In b rows -> dom (r_f a) (r_f b) = true ->
        exists batch a' b', In batch batches /\ In a' batch /\ In b' batch /\ r_f a' = r_f a /\ r_f b' = r_f b).
Proof.
  induction batches as [|batch batches IH] using rev_ind.
  - exists (start_rows init). unfold archive_run; simpl.
    split; [unfold holds, archive_start, start_rows; simpl; rewrite !mask_sel_map; auto|].
    rewrite app_nil_r. split; [|split; [|split]].
    + intros r Hr. eapply mask_sel_incl; eauto.
    + intros r Hr. destruct (nd_cover (map r_f init) (r_f r)) as (k & K1 & K2); [apply in_map; auto|].
      rewrite mask_sel_map in K1. apply in_map_iff in K1. destruct K1 as (k0 & <- & K1). exists k0; auto.
    + intros _. unfold start_rows. rewrite <- mask_sel_map. apply nd_mutual.
    + intros a b Ha Hb Hd. exfalso.
      assert (In (r_f a) (mask_sel (nd_mask dom (map r_f init)) (map r_f init))) as Ha'.
      { rewrite mask_sel_map. apply in_map; auto. }
      assert (In (r_f b) (mask_sel (nd_mask dom (map r_f init)) (map r_f init))) as Hb'.
      { rewrite mask_sel_map. apply in_map; auto. }
      rewrite (nd_mutual _ _ _ Ha' Hb') in Hd. discriminate.
  - destruct IH as (rows & Hh & Hincl & Hcov & Hmut & Hpair).
    exists (rows_after rows batch). unfold archive_run. rewrite fold_left_app; simpl.
    split; [apply submit_holds; exact Hh|].
    rewrite concat_app; simpl. rewrite app_nil_r.
    split; [|split; [|split]].
    + intros r Hr. apply rows_after_incl in Hr. rewrite app_assoc. apply in_or_app.
      destruct Hr as [Hr|Hr]; auto.
    + intros r Hr. rewrite app_assoc in Hr. apply in_app_or in Hr.
      assert (exists f0, (In f0 (map r_f rows) \/ In f0 (map r_f batch)) /\ (f0 = r_f r \/ dom f0 (r_f r) = true)) as (f0 & Hf0 & Hf1).
      { destruct Hr as [Hr|Hr].
        - destruct (Hcov r Hr) as (k & Hk & Hk'). exists (r_f k). split; auto. left; apply in_map; auto.
        - exists (r_f r). split; auto. right; apply in_map; auto. }
      destruct (fit_after_cover _ _ _ Hf0) as (k & K1 & K2).
      rewrite <- rows_after_fit in K1. apply in_map_iff in K1. destruct K1 as (k0 & <- & K1).
      exists k0. split; auto.
      destruct K2 as [K2|K2], Hf1 as [Hf1|Hf1]; [left; congruence|right; congruence|right; congruence|].
      right. eapply (proj2 Hso); eauto.
    + intros Hb. rewrite rows_after_fit. apply fit_after_mutual.
      * apply Hmut. intros b Hin. apply Hb. apply in_or_app; auto.
      * apply Hb. apply in_or_app; right; left; auto.
    + intros a b Ha Hb Hd.
      assert (In (r_f a) (fit_after (map r_f rows) (map r_f batch))) as Ha' by (rewrite <- rows_after_fit; apply in_map; auto).
      assert (In (r_f b) (fit_after (map r_f rows) (map r_f batch))) as Hb' by (rewrite <- rows_after_fit; apply in_map; auto).
      destruct (fit_after_pairs _ _ _ _ Ha' Hb' Hd) as [[X Y]|[X Y]];
      apply in_map_iff in X; destruct X as (x & X1 & X2); apply in_map_iff in Y; destruct Y as (y & Y1 & Y2).
      * destruct (Hpair x y X2 Y2) as (bt & a' & b' & B1 & B2 & B3 & B4 & B5); [congruence|].
        exists bt, a', b'. split; [apply in_or_app; auto|]. repeat split; auto; congruence.
      * exists batch, x, y. split; [apply in_or_app; right; left; auto|]. auto.
Qed.

End P.

(** [end] *)
Lemma mask_sel_filter {A B} (g : A -> bool) (h : A -> B) (l : list A) :
  mask_sel (map g l) (map h l) = map h (filter g l).
Proof. induction l as [|x l IH]; simpl; auto. destruct (g x); simpl; rewrite IH; auto. Qed.

Lemma end_exact {I O V} (dom : V -> V -> bool) (rows : list (I * O)) (f : O -> V) :
  let nd := fun r => negb (existsb (fun r' => dom (f (snd r')) (f (snd r))) rows) in
  end_result dom (map fst rows) (map snd rows) f = (map fst (filter nd rows), map snd (filter nd rows)).
Proof.
  intros nd. unfold end_result, nd_mask.
  assert (E : map (fun x => negb (existsb (fun y => dom y x) (map f (map snd rows)))) (map f (map snd rows))
              = map nd rows).
  { rewrite !map_map. apply map_ext. intros a. unfold nd. f_equal.
    induction rows as [|r l IH]; simpl; auto. rewrite IH. reflexivity. }
  rewrite E, !mask_sel_filter. reflexivity.
Qed.
