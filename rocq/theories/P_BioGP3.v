(** Lemmas for C61, C62: grafting, uniqueness, cells. *)
From Verif Require Import Base M_BioGP Spec_BioGP P_BioGP P_BioGP2.
From Coq Require Import Permutation.
Open Scope nat_scope.

Section Graft.
Context {F T : Type}.
Notation heap := (heap F T).
Notation tree := (tree F T).
Implicit Types (h : heap) (t : itree).

Lemma graft h h' t a ka kb n : linked h t -> NoDup (ids t) -> isub (Ob a ka) n t ->
  c_roots (h' a) = map oid kb -> (forall k, In k kb -> linked h' k) -> NoDup (a :: flat_map ids kb) ->
  (forall i, In i (flat_map ids kb) -> ~ In i (ids t) \/ In i (flat_map ids ka)) ->
  agree h h' (filter (fun i => negb (existsb (Nat.eqb i) (a :: flat_map ids ka))) (ids t)) ->
  exists t' rest, linked h' t' /\ NoDup (ids t') /\ oid t' = oid t /\ isub (Ob a kb) n t' /\
    replaced (read h (Ob a ka)) (read h' (Ob a kb)) n (read h t) (read h' t') /\
    Permutation (ids t) (ids (Ob a ka) ++ rest) /\ Permutation (ids t') (ids (Ob a kb) ++ rest).
Proof.
  intros L ND Sb Er Lk NDk Dj Ag. destruct (isub_replace _ (Ob a kb) _ _ Sb) as (t' & R). destruct (ireplaced_rest _ _ _ _ _ R) as (rest & P1 & P2). exists t', rest.
  assert (NDr : NoDup (ids (Ob a ka) ++ rest)) by (eapply Permutation_NoDup; eauto). apply NoDup_app_parts in NDr. destruct NDr as (N1 & N2 & N3).
  assert (Ag' : agree h h' rest).
  { intros i Hi. apply Ag. apply filter_In. split; [eapply Permutation_in; [apply Permutation_sym; exact P1|apply in_or_app; auto]|].
    apply negb_true_iff. apply not_true_iff_false. intros X. apply existsb_exists in X. destruct X as (j & Hj & E). apply Nat.eqb_eq in E. subst j. exact (N3 i Hj Hi). }
  assert (Ls : linked h' (Ob a kb)) by (constructor; auto).
  split; [apply (ireplaced_linked h h' (Ob a ka) (Ob a kb) n t t' rest R); auto|].
  split. { eapply Permutation_NoDup; [apply Permutation_sym; exact P2|].
    assert (D2 : forall i, In i (ids (Ob a kb)) -> ~ In i rest).
    { cbn [ids]. intros i [<-|Hi] Hr; [apply (N3 a); auto; simpl; auto|]. destruct (Dj i Hi) as [X|X]; [apply X; eapply Permutation_in; [apply Permutation_sym; exact P1|apply in_or_app; auto]|]. apply (N3 i); auto. simpl; auto. }
    change (ids (Ob a kb)) with (a :: flat_map ids kb) in D2 |- *. revert NDk D2. generalize (a :: flat_map ids kb) as l. induction l as [|x l IHl]; intros A B; simpl; auto.
    inversion A; subst. constructor; [|apply IHl; auto; intros i Hi; apply B; right; auto]. intros X. apply in_app_or in X. destruct X as [X|X]; auto. apply (B x); simpl; auto. }
  split; [apply (ireplaced_oid (Ob a ka) (Ob a kb) n); auto|].
  split. { clear - R. induction R; constructor; auto. }
  split; [apply (ireplaced_read h h' _ _ _ _ _ rest R); auto|]. auto.
Qed.

Lemma linked_unique h : forall x, linked h x -> forall y, linked h y -> oid x = oid y -> x = y.
Proof.
  apply (itree_ind' (fun x => linked h x -> forall y, linked h y -> oid x = oid y -> x = y)). intros i kx IH Lx [j ky] Ly E. simpl in E. subst j. apply linked_kids in Lx. apply linked_kids in Ly.
  destruct Lx as (E1 & L1). destruct Ly as (E2 & L2). f_equal. rewrite E1 in E2. clear E1. revert ky E2 L2. induction kx as [|x kx IHk]; intros [|y ky] E2 L2; simpl in E2; try discriminate; auto. injection E2 as Ex E2. f_equal.
  - apply IH; [left; auto|apply L1; left; auto|apply L2; left; auto|auto].
  - apply IHk; auto; intros k Hk; [apply IH|apply L1|apply L2]; right; auto.
Qed.
Lemma values_read h : forall t, values (read h t) = map (fun i => c_val (h i)) (ids t).
Proof.
  apply (itree_ind' (fun t => values (read h t) = map (fun i => c_val (h i)) (ids t))). intros i kids IH. cbn [read values ids map]. f_equal.
  induction kids as [|k kids IHk]; auto. cbn [map flat_map]. rewrite map_app. f_equal; [apply IH; left; auto|apply IHk; intros x Hx; apply IH; right; auto].
Qed.
Lemma isub_ids s n t : isub s n t -> forall i, In i (ids s) -> In i (ids t).
Proof. induction 1 as [|n i pre k post H IH]; auto. intros j Hj. cbn [ids]. right. apply in_flat_map. exists k. split; auto. apply in_or_app; right; left; auto. Qed.
Lemma at_level_isub h : forall t n s, at_level (read h t) n s -> exists x, isub x n t /\ s = read h x.
Proof.
  intros t n s H. remember (read h t) as g eqn:E. revert t E. induction H as [g|g k n s Hk H IH]; intros t E; [exists t; split; [constructor|auto]|].
  subst g. destruct t as [i kids]. simpl in Hk. apply in_map_iff in Hk. destruct Hk as (c & <- & Hc). destruct (IH c eq_refl) as (x & Hx & ->). exists x. split; auto. destruct (in_split _ _ Hc) as (pre & post & ->). constructor; auto.
Qed.
Lemma read_cell h x : linked h x -> value (read h x) = c_val (h (oid x)) /\ length (children (read h x)) = length (c_roots (h (oid x))).
Proof. destruct x as [i kids]. intros L. apply linked_kids in L. destruct L as (E & _). simpl. rewrite E, !map_length. auto. Qed.
Lemma wf_cells arity fs ts h t : linked h t -> (well_formed arity fs ts (read h t) <-> forall i, In i (ids t) -> node_ok arity fs ts (c_val (h i)) (length (c_roots (h i)))).
Proof.
  intros L. split.
  - intros W i Hi. destruct (ids_isub i t Hi) as (ka & n & Sb). pose proof (W n _ (isub_read h _ _ _ Sb)) as Hn. destruct (read_cell h (Ob i ka)) as (E1 & E2); [eapply isub_linked; eauto|]. rewrite E1, E2 in Hn. exact Hn.
  - intros C n s Hs. destruct (at_level_isub h t n s Hs) as (x & Sb & ->). destruct (read_cell h x) as (E1 & E2); [eapply isub_linked; eauto|]. rewrite E1, E2. apply C. eapply isub_ids; eauto. apply In_ids.
Qed.
(** An individual, cell by cell. *)
Lemma individual_cells arity fs ts h t : linked h t -> NoDup (ids t) ->
  (individual arity fs ts (read h t) <-> c_val (h (oid t)) = VLin /\ forall i, In i (ids t) -> i <> oid t -> node_ok arity fs ts (c_val (h i)) (length (c_roots (h i)))).
Proof.
  intros L ND. destruct t as [r kids]. pose proof L as L0. apply linked_kids in L. destruct L as (E & Lk). cbn [ids] in ND. inversion ND as [|? ? Nr ND']; subst. unfold individual. simpl. split.
  - intros (V & W). split; auto. intros i [->|Hi] Ne; [congruence|]. apply in_flat_map in Hi. destruct Hi as (k & Hk & Hi). apply (wf_cells arity fs ts h k); auto. apply W. apply in_map; auto.
  - intros (V & C). split; auto. intros k Hk. apply in_map_iff in Hk. destruct Hk as (x & <- & Hx). apply wf_cells; auto. intros i Hi. assert (Hi' : In i (flat_map ids kids)) by (apply in_flat_map; eauto). apply C; auto. intros ->. auto.
Qed.
Lemma level_isub : forall t n i, In i (level_of t n) -> exists ka, isub (Ob i ka) n t.
Proof.
  apply (itree_ind' (fun t => forall n i, In i (level_of t n) -> exists ka, isub (Ob i ka) n t)). intros r kids IH [|n] i H; cbn [level_of] in H.
  - destruct H as [<-|[]]. exists kids. constructor.
  - apply in_flat_map in H. destruct H as (k & Hk & H). destruct (IH k Hk n i H) as (ka & Sb). destruct (in_split _ _ Hk) as (pre & post & ->). exists ka. constructor; auto.
Qed.
Lemma up_to_date_isub h t nodes a ka n : up_to_date h t nodes -> isub (Ob a ka) n t -> c_depth (h a) = n.
Proof. intros (_ & _ & D) Sb. apply D. eapply isub_level; eauto. Qed.
(** Heap cells equal on the tree: nothing changes. *)
Lemma same_forms h h' r t : forms h r t -> (forall i, In i (ids t) -> h' i = h i) -> forms h' r t.
Proof. intros (A & B & C) E. split; auto. split; auto. apply (linked_frame h); auto. intros i Hi. rewrite E; auto. Qed.
Lemma same_up h h' t l : up_to_date h t l -> (forall i, In i (ids t) -> h' i = h i) -> up_to_date h' t l.
Proof. intros (A & B & C) E. split; auto. split; auto. intros n i Hi. rewrite E; [auto|eapply level_ids; eauto]. Qed.
Lemma same_read h h' t : (forall i, In i (ids t) -> h' i = h i) -> read h' t = read h t.
Proof. intros E. apply read_frame. intros i Hi. rewrite E; auto. Qed.
Lemma forms_up_depth h r t l : forms h r t -> up_to_date h t l -> c_depth (h r) = 0.
Proof. intros (E & _) (_ & _ & D). apply D. subst r. destruct t; simpl; auto. Qed.
Lemma up_In h t l i : up_to_date h t l -> (In i l <-> In i (ids t)).
Proof. intros (P & _). split; apply Permutation_in; auto. apply Permutation_sym; auto. Qed.
Lemma up_tl h r t l i : forms h r t -> up_to_date h t l -> (In i (tl l) <-> In i (ids t) /\ i <> r).
Proof.
  intros (E & _ & ND) (P & Hh & _). destruct l as [|x l]; [discriminate|]. simpl in Hh. injection Hh as ->. rewrite E in *. simpl. assert (ND' : NoDup (r :: l)) by (eapply Permutation_NoDup; [apply Permutation_sym; exact P|auto]).
  inversion ND'; subst. split.
  - intros Hi. split; [eapply Permutation_in; [exact P|right; auto]|]. congruence.
  - intros (Hi & Ne). apply (Permutation_in _ (Permutation_sym P)) in Hi. destruct Hi as [Hi|Hi]; [congruence|auto].
Qed.
Lemma choose_node_In k l a : choose_node k l = Ok a -> In a l.
Proof. unfold choose_node. destruct (nth_error l (k mod length l)) eqn:E; [|discriminate]. intros H; injection H as <-. eapply nth_error_In; eauto. Qed.
Lemma choose_node_total k l : l <> [] -> exists a, choose_node k l = Ok a.
Proof.
  intros H. unfold choose_node. destruct (nth_error l (k mod length l)) as [x|] eqn:E; [eauto|]. apply nth_error_None in E.
  assert (k mod length l < length l) by (apply Nat.mod_upper_bound; destruct l; [congruence|simpl; lia]). lia.
Qed.
Lemma flat_nodup_kids i kids : NoDup (ids (Ob i kids)) -> NoDup (flat_map ids kids) /\ ~ In i (flat_map ids kids).
Proof. cbn [ids]. intros H. inversion H; auto. Qed.
Lemma isub_nodup s n t : isub s n t -> NoDup (ids t) -> NoDup (ids s).
Proof.
  induction 1 as [|n i pre k post H IH]; auto. intros ND. apply IH. apply flat_nodup_kids in ND. destruct ND as (ND & _). rewrite flat_map_app' in ND. apply NoDup_app_parts in ND. destruct ND as (_ & ND & _). simpl in ND. apply NoDup_app_parts in ND. tauto.
Qed.
Lemma existsb_not (i : nat) l : negb (existsb (Nat.eqb i) l) = true -> ~ In i l.
Proof. intros H X. apply negb_true_iff in H. assert (existsb (Nat.eqb i) l = true); [|congruence]. apply existsb_exists. exists i. split; auto. apply Nat.eqb_refl. Qed.

(** *** One exchange between two disjoint trees *)
Lemma exchange h t1 t2 a b ka kb n1 n2 : linked h t1 -> linked h t2 -> NoDup (ids t1 ++ ids t2) -> isub (Ob a ka) n1 t1 -> isub (Ob b kb) n2 t2 ->
  exists t1' t2', linked (swap h a b) t1' /\ linked (swap h a b) t2' /\ NoDup (ids t1' ++ ids t2') /\ oid t1' = oid t1 /\ oid t2' = oid t2 /\
    Permutation (ids t1' ++ ids t2') (ids t1 ++ ids t2) /\
    replaced (read h (Ob a ka)) (read h (Ob b kb)) n1 (read h t1) (read (swap h a b) t1') /\
    replaced (read h (Ob b kb)) (read h (Ob a ka)) n2 (read h t2) (read (swap h a b) t2').
Proof.
  intros L1 L2 ND S1 S2. pose proof (NoDup_app_parts _ _ ND) as (ND1 & ND2 & Dj).
  assert (Ia : forall i, In i (a :: flat_map ids ka) -> In i (ids t1)) by (intros i Hi; apply (isub_ids _ _ _ S1); exact Hi).
  assert (Ib : forall i, In i (b :: flat_map ids kb) -> In i (ids t2)) by (intros i Hi; apply (isub_ids _ _ _ S2); exact Hi).
  assert (Nab : a <> b) by (intros ->; apply (Dj b); [apply Ia; left; auto|apply Ib; left; auto]).
  pose proof (flat_nodup_kids a ka (isub_nodup _ _ _ S1 ND1)) as (NDa & Na). pose proof (flat_nodup_kids b kb (isub_nodup _ _ _ S2 ND2)) as (NDb & Nb).
  pose proof (isub_linked h _ _ _ S1 L1) as La. pose proof (isub_linked h _ _ _ S2 L2) as Lb. apply linked_kids in La. apply linked_kids in Lb. destruct La as (Ea & La). destruct Lb as (Eb & Lb).
  assert (Fa : forall i, In i (flat_map ids ka) -> swap h a b i = h i).
  { intros i Hi. apply swap_other; intros ->; [auto|]. apply (Dj b); [apply Ia; right; auto|apply Ib; left; auto]. }
  assert (Fb : forall i, In i (flat_map ids kb) -> swap h a b i = h i).
  { intros i Hi. apply swap_other; intros ->; [|auto]. apply (Dj a); [apply Ia; left; auto|apply Ib; right; auto]. }
  assert (Fk : forall kids, (forall i, In i (flat_map ids kids) -> swap h a b i = h i) -> map (read (swap h a b)) kids = map (read h) kids).
  { intros kids Hk. apply map_ext_in. intros k Hin. apply same_read. intros i Hi. apply Hk. apply in_flat_map; eauto. }
  assert (Lk : forall kids, (forall i, In i (flat_map ids kids) -> swap h a b i = h i) -> (forall k, In k kids -> linked h k) -> forall k, In k kids -> linked (swap h a b) k).
  { intros kids Hk Hl k Hin. apply (linked_frame h); auto. intros i Hi. rewrite Hk; auto. apply in_flat_map; eauto. }
  destruct (graft h (swap h a b) t1 a ka kb n1) as (t1' & rest1 & A1 & A2 & A3 & _ & A4 & A5 & A6); auto.
  { rewrite swap_a by auto. exact Eb. } { apply Lk; auto. }
  { constructor; auto. intros X. apply (Dj a); [apply Ia; left; auto|apply Ib; right; auto]. }
  { intros i Hi. left. intros X. apply (Dj i X). apply Ib; right; auto. }
  { intros i Hi. apply filter_In in Hi. destruct Hi as (Hi & Hn). apply existsb_not in Hn. rewrite swap_other; auto; intros ->; [apply Hn; left; auto|]. apply (Dj b Hi). apply Ib; left; auto. }
  destruct (graft h (swap h a b) t2 b kb ka n2) as (t2' & rest2 & B1 & B2 & B3 & _ & B4 & B5 & B6); auto.
  { rewrite swap_b by auto. exact Ea. } { apply Lk; auto. }
  { constructor; auto. intros X. apply (Dj b); [apply Ia; right; auto|apply Ib; left; auto]. }
  { intros i Hi. left. intros X. apply (Dj i); auto. apply Ia; right; auto. }
  { intros i Hi. apply filter_In in Hi. destruct Hi as (Hi & Hn). apply existsb_not in Hn. rewrite swap_other; auto; intros ->; [|apply Hn; left; auto]. apply (Dj a); auto. apply Ia; left; auto. }
  exists t1', t2'. split; auto. split; auto.
  assert (P : Permutation (ids t1' ++ ids t2') (ids t1 ++ ids t2)).
  { rewrite A5, A6, B5, B6. cbn [ids]. cbn [app]. rewrite <- !app_assoc. cbn [app]. constructor.
    transitivity (b :: (flat_map ids kb ++ rest1) ++ flat_map ids ka ++ rest2).
    { rewrite (app_assoc (flat_map ids kb) rest1). apply Permutation_sym, Permutation_middle. }
    transitivity (b :: (flat_map ids ka ++ rest1) ++ flat_map ids kb ++ rest2).
    2:{ rewrite (app_assoc (flat_map ids ka) rest1). apply Permutation_middle. }
    constructor. rewrite (Permutation_app_comm (flat_map ids kb) rest1), (Permutation_app_comm (flat_map ids ka) rest1), <- !app_assoc. apply Permutation_app_head. rewrite !app_assoc. apply Permutation_app_tail. apply Permutation_app_comm. }
  split; [eapply Permutation_NoDup; [apply Permutation_sym; exact P|auto]|]. split; auto. split; auto. split; auto. split.
  - replace (read h (Ob b kb)) with (read (swap h a b) (Ob a kb)); auto. cbn [read]. rewrite (Fk kb Fb), swap_a by auto. reflexivity.
  - replace (read h (Ob a ka)) with (read (swap h a b) (Ob b ka)); auto. cbn [read]. rewrite (Fk ka Fa), swap_b by auto. reflexivity.
Qed.
End Graft.
