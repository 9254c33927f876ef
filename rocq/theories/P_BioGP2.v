(** More lemmas for C60-C62: breadth-first traversal, allocation, replacements in trees. *)
From Verif Require Import Base M_BioGP Spec_BioGP P_BioGP.
From Coq Require Import Permutation.
Open Scope nat_scope.

Section Walk.
Context {F T : Type}.
Notation heap := (heap F T).
Notation tree := (tree F T).
Implicit Types (h : heap) (t : itree).

Lemma fold_depth d l : forall h x, c_val (fold_left (set_depth d) l h x) = c_val (h x) /\ c_roots (fold_left (set_depth d) l h x) = c_roots (h x) /\
  (In x l -> c_depth (fold_left (set_depth d) l h x) = d) /\ (~ In x l -> fold_left (set_depth d) l h x = h x).
Proof.
  induction l as [|y l IH]; intros h x; cbn [fold_left]; [simpl; tauto|]. destruct (IH (set_depth d h y) x) as (A & B & C & D).
  assert (E : c_val (set_depth d h y x) = c_val (h x) /\ c_roots (set_depth d h y x) = c_roots (h x)).
  { unfold set_depth, upd. destruct (Nat.eqb x y) eqn:E; [apply Nat.eqb_eq in E; subst; auto|auto]. }
  destruct E as (E1 & E2). split; [congruence|]. split; [congruence|]. split.
  - intros [->|H]; auto. destruct (in_dec Nat.eq_dec x l) as [Hi|Hi]; auto. rewrite (D Hi). unfold set_depth, upd. rewrite Nat.eqb_refl. auto.
  - intros N. rewrite D by (intros H; apply N; right; auto). unfold set_depth, upd. destruct (Nat.eqb x y) eqn:E; auto. apply Nat.eqb_eq in E. exfalso. apply N. left; auto.
Qed.
Lemma oid_in_ids ts x : In x (map oid ts) -> In x (flat_map ids ts).
Proof. intros H. apply in_map_iff in H. destruct H as (t & <- & Ht). apply in_flat_map. exists t. split; auto. apply In_ids. Qed.
Lemma NoDup_app_parts {A} (l l' : list A) : NoDup (l ++ l') -> NoDup l /\ NoDup l' /\ forall x, In x l -> ~ In x l'.
Proof.
  induction l as [|y l IH]; simpl; intros H; [split; [constructor|split; [auto|intros x []]]|]. inversion H; subst. destruct (IH H3) as (A1 & A2 & A3). split; [constructor; auto; intros X; apply H2, in_or_app; auto|]. split; auto.
  intros x [<-|Hx]; auto. intros X. apply H2, in_or_app; auto.
Qed.
Lemma walk_spec : forall fuel h ts, length (flat_map ids ts) <= fuel -> (forall t, In t ts -> linked h t) -> NoDup (flat_map ids ts) ->
  exists h' l, walk fuel h (map oid ts) = Some (h', l) /\ Permutation l (flat_map ids ts) /\ hd_error l = hd_error (map oid ts) /\
    (forall i, c_val (h' i) = c_val (h i) /\ c_roots (h' i) = c_roots (h i)) /\
    (forall t n i, In t ts -> In i (level_of t n) -> c_depth (h' i) = c_depth (h (oid t)) + n) /\
    (forall i, ~ In i (flat_map ids ts) -> h' i = h i).
Proof.
  induction fuel as [|f IH]; intros h [|[x kids] ts] Hf L ND; cbn [walk map oid].
  - exists h, []. split; auto. split; auto. split; auto. split; auto. split; [intros ? ? ? []|auto].
  - simpl in Hf. lia.
  - exists h, []. split; auto. split; auto. split; auto. split; auto. split; [intros ? ? ? []|auto].
  - pose proof (L _ (or_introl eq_refl)) as Lx. apply linked_kids in Lx. destruct Lx as (Er & Lk). rewrite Er.
    set (h1 := fold_left (set_depth (S (c_depth (h x)))) (map oid kids) h).
    assert (P : Permutation (flat_map ids (Ob x kids :: ts)) (x :: flat_map ids (ts ++ kids))).
    { simpl. constructor. rewrite flat_map_app'. apply Permutation_app_comm. }
    assert (ND1 : NoDup (x :: flat_map ids (ts ++ kids))) by (eapply Permutation_NoDup; eauto). inversion ND1 as [|? ? Nx ND2]; subst.
    assert (Hv : forall i, c_val (h1 i) = c_val (h i) /\ c_roots (h1 i) = c_roots (h i)) by (intros i; unfold h1; split; apply fold_depth).
    destruct (IH h1 (ts ++ kids)) as (h' & l & W & Pl & _ & V & Dp & Fr).
    { apply Permutation_length in P. rewrite P in Hf. simpl in Hf. lia. }
    { intros t Ht. apply (linked_frame h); [|intros i _; apply Hv]. apply in_app_or in Ht. destruct Ht as [Ht|Ht]; [apply L; right; auto|apply Lk; auto]. }
    { auto. }
    rewrite <- map_app, W. exists h', (x :: l). split; auto. split; [rewrite Pl; apply Permutation_sym; auto|]. split; auto.
    split; [intros i; destruct (V i) as (V1 & V2); destruct (Hv i) as (V3 & V4); split; congruence|].
    assert (Nk : forall i, In i (flat_map ids ts) -> ~ In i (map oid kids)).
    { intros i Hi Hk. rewrite flat_map_app' in ND2. apply NoDup_app_parts in ND2. destruct ND2 as (_ & _ & N3). apply (N3 i Hi). apply oid_in_ids; auto. }
    split.
    + intros t n i [<-|Ht] Hi.
      * destruct n as [|n]; cbn [level_of] in Hi.
        -- destruct Hi as [<-|[]]. rewrite Fr by auto. cbn [oid]. rewrite Nat.add_0_r. unfold h1.
           f_equal. apply fold_depth. intros Hk. apply Nx. rewrite flat_map_app'. apply in_or_app; right. apply oid_in_ids; auto.
        -- apply in_flat_map in Hi. destruct Hi as (k & Hk & Hi). rewrite (Dp k n i); auto; [|apply in_or_app; auto]. cbn [oid]. unfold h1.
           destruct (fold_depth (S (c_depth (h x))) (map oid kids) h (oid k)) as (_ & _ & C & _). rewrite C by (apply in_map; auto). lia.
      * rewrite (Dp t n i); auto; [|apply in_or_app; auto]. f_equal. unfold h1. f_equal. apply fold_depth. apply Nk. apply in_flat_map. exists t. split; auto. apply In_ids.
    + intros i Hi. assert (Hi' : ~ In i (x :: flat_map ids (ts ++ kids))) by (intros X; apply Hi; eapply Permutation_in; [apply Permutation_sym; exact P|exact X]).
      rewrite Fr by (intros X; apply Hi'; right; auto). unfold h1. apply fold_depth. intros Hk. apply Hi'. right. rewrite flat_map_app'. apply in_or_app; right. apply oid_in_ids; auto.
Qed.
(** get_sub_nodes brings depth attributes and the node list up to date, and changes nothing else. *)
Lemma get_sub_nodes_spec h r t fuel : forms h r t -> length (ids t) <= fuel -> c_depth (h r) = 0 ->
  exists h' l, get_sub_nodes fuel h r = Some (h', l) /\ forms h' r t /\ up_to_date h' t l /\ read h' t = read h t /\
    (forall i, ~ In i (ids t) -> h' i = h i) /\ (forall i, c_val (h' i) = c_val (h i) /\ c_roots (h' i) = c_roots (h i)).
Proof.
  intros (E & L & ND) Hf Hd. destruct (walk_spec fuel h [t]) as (h' & l & W & Pl & Hh & V & Dp & Fr).
  { simpl. rewrite app_nil_r. auto. } { intros t' [<-|[]]; auto. } { simpl. rewrite app_nil_r. auto. }
  simpl in Pl, Fr. rewrite app_nil_r in Pl, Fr. exists h', l. unfold get_sub_nodes. simpl in W. rewrite E in W. split; auto.
  split; [split; auto; split; auto; apply (linked_frame h); auto; intros i _; apply V|].
  split; [|split; [apply read_frame; intros i _; apply V|split; auto]].
  split; [auto|]. split; [rewrite Hh; auto|]. intros n i Hi. rewrite (Dp t n i) by (auto; left; auto). rewrite E, Hd. auto.
Qed.

(** *** Allocation *)
Fixpoint allocs (h : heap) (n depth : nat) (l : list tree) : heap * nat * list nat :=
  match l with
  | [] => (h, n, [])
  | k :: l' => let '(h1, n1) := alloc h n depth k in let '(h2, n2, is) := allocs h1 n1 depth l' in (h2, n2, n :: is)
  end.
Lemma alloc_eq h next depth v kids : alloc h next depth (Tr v kids) =
  (let '(h1, n1, is) := allocs h (S next) (S depth) kids in (upd h1 next (mkCell v depth is), n1)).
Proof.
  cbn [alloc]. enough (E : forall l h n, (fix go (h : heap) (n : nat) (l : list tree) : heap * nat * list nat :=
         match l with
         | [] => (h, n, [])
         | k :: l' => let '(h1, n1) := alloc h n (S depth) k in let '(h2, n2, ids) := go h1 n1 l' in (h2, n2, n :: ids)
         end) h n l = allocs h n (S depth) l) by (rewrite E; reflexivity).
  induction l as [|k l IH]; intros h0 n; [reflexivity|]. cbn [allocs]. destruct (alloc h0 n (S depth) k) as (h1, n1). rewrite IH. reflexivity.
Qed.
Lemma tree_ind' (P : tree -> Prop) : (forall v kids, (forall k, In k kids -> P k) -> P (Tr v kids)) -> forall g, P g.
Proof.
  intros H. fix IH 1. intros [v kids]. apply H. induction kids as [|k kids IHk]; [intros k' []|]. intros k' [E|Hk]; [rewrite <- E; apply IH|apply IHk; auto].
Qed.
Definition fresh_tree h next (h' : heap) next' (t : itree) : Prop :=
  oid t = next /\ linked h' t /\ NoDup (ids t) /\ next < next' /\ (forall i, In i (ids t) -> next <= i < next') /\ (forall i, i < next \/ next' <= i -> h' i = h i).
Lemma alloc_spec : forall g h next depth, exists h' next' t, alloc h next depth g = (h', next') /\ fresh_tree h next h' next' t /\ read h' t = g.
Proof.
  apply (tree_ind' (fun g => forall h next depth, exists h' next' t, alloc h next depth g = (h', next') /\ fresh_tree h next h' next' t /\ read h' t = g)).
  intros v kids IH h next depth. rewrite alloc_eq.
  assert (A : forall h n, exists h' n' kt, allocs h n (S depth) kids = (h', n', map oid kt) /\ (forall t, In t kt -> linked h' t) /\ NoDup (flat_map ids kt) /\ n <= n' /\
    (forall i, In i (flat_map ids kt) -> n <= i < n') /\ (forall i, i < n \/ n' <= i -> h' i = h i) /\ map (read h') kt = kids).
  { clear h next. induction kids as [|k kids IHk]; intros h n; cbn [allocs].
    - exists h, n, []. simpl. split; auto. split; [intros t []|]. split; [constructor|]. split; [lia|]. split; [intros i []|]. auto.
    - destruct (IH k (or_introl eq_refl) h n (S depth)) as (h1 & n1 & t1 & -> & (F1 & F2 & F3 & F4 & F5 & F6) & F7).
      destruct (IHk (fun k' Hk => IH k' (or_intror Hk)) h1 n1) as (h2 & n2 & kt & -> & G1 & G2 & G3 & G4 & G5 & G6).
      assert (Fr : forall i, In i (ids t1) -> h2 i = h1 i) by (intros i Hi; apply G5; apply F5 in Hi; lia).
      exists h2, n2, (t1 :: kt). simpl. rewrite F1. split; auto. split.
      { intros t [<-|Ht]; auto. apply (linked_frame h1); auto. intros i Hi. rewrite Fr; auto. }
      split. { assert (Dj : forall i, In i (ids t1) -> ~ In i (flat_map ids kt)) by (intros i Hi Hj; apply F5 in Hi; apply G4 in Hj; lia).
        clear - F3 G2 Dj. induction (ids t1) as [|x l IHl]; simpl; auto. inversion F3; subst. constructor.
        - intros X. apply in_app_or in X. destruct X as [X|X]; [auto|]. apply (Dj x); [left; auto|auto].
        - apply IHl; auto. intros i Hi. apply Dj. right; auto. }
      split; [lia|]. split. { intros i Hi. apply in_app_or in Hi. destruct Hi as [Hi|Hi]; [apply F5 in Hi; lia|apply G4 in Hi; lia]. }
      split. { intros i Hi. rewrite G5 by lia. apply F6. lia. }
      f_equal; auto. rewrite <- F7. apply read_frame. intros i Hi. rewrite Fr; auto. }
  destruct (A h (S next)) as (h' & n' & kt & -> & A1 & A2 & A3 & A4 & A5 & A6).
  assert (Fr : forall i, In i (flat_map ids kt) -> upd h' next (mkCell v depth (map oid kt)) i = h' i).
  { intros i Hi. unfold upd. assert (Nat.eqb i next = false) by (apply Nat.eqb_neq; apply A4 in Hi; lia). rewrite H; auto. }
  eexists _, n', (Ob next kt). split; [reflexivity|]. split.
  - split; auto. split. { constructor; [unfold upd; rewrite Nat.eqb_refl; auto|]. intros k Hk. apply (linked_frame h'); auto. intros i Hi. rewrite Fr; auto. apply in_flat_map; eauto. }
    split. { simpl. constructor; auto. intros X. apply A4 in X. lia. }
    split; [lia|]. split. { simpl. intros i [<-|Hi]; [lia|]. apply A4 in Hi. lia. }
    intros i Hi. unfold upd. assert (Nat.eqb i next = false) by (apply Nat.eqb_neq; lia). rewrite H. apply A5. lia.
  - simpl. f_equal; [unfold upd; rewrite Nat.eqb_refl; auto|]. rewrite <- A6. apply map_ext_in. intros k Hk. apply read_frame. intros i Hi. rewrite Fr; auto. apply in_flat_map; eauto.
Qed.

(** *** Replacement in trees *)
Lemma replaced_level (s s' g g' : tree) n : replaced s s' n g g' -> at_level g n s /\ at_level g' n s'.
Proof.
  induction 1 as [|n v pre k k' post H (I1 & I2)]; [split; constructor|]. split; (eapply at_kid; [|eassumption]); simpl; apply in_or_app; right; left; auto.
Qed.
(** A node of the new tree is a node of the old one with the same value and number of children, at the same level, or a node of what was put in. *)
Lemma replaced_nodes (s s' g g' : tree) n : replaced s s' n g g' -> forall m x, at_level g' m x ->
  (exists m', m = n + m' /\ at_level s' m' x) \/ (exists y, at_level g m y /\ value y = value x /\ length (children y) = length (children x)).
Proof.
  induction 1 as [|n v pre k k' post H IH]; intros m x Hx; [left; exists m; auto|]. inversion Hx as [|? c m0 ? Hc Hx']; subst.
  - right. exists (Tr v (pre ++ k :: post)). split; [constructor|]. simpl. rewrite !app_length. auto.
  - simpl in Hc. apply in_app_or in Hc. destruct Hc as [Hc|[<-|Hc]].
    + right. exists x. split; auto. eapply at_kid; [|exact Hx']. simpl. apply in_or_app; auto.
    + destruct (IH m0 x Hx') as [(m' & -> & Hm)|(y & Hy & E1 & E2)]; [left; exists m'; auto|]. right. exists y. split; auto. eapply at_kid; [|exact Hy]. simpl. apply in_or_app; right; left; auto.
    + right. exists x. split; auto. eapply at_kid; [|exact Hx']. simpl. apply in_or_app; right; right; auto.
Qed.
Lemma replaced_values (s s' g g' : tree) n : replaced s s' n g g' -> Permutation (values g' ++ values s) (values g ++ values s').
Proof.
  induction 1 as [|n v pre k k' post H IH]; [apply Permutation_app_comm|]. cbn [values]. rewrite !flat_map_app'. simpl. constructor.
  rewrite <- !app_assoc. apply Permutation_app_head.
  rewrite (Permutation_app_comm (flat_map values post) (values s)), (Permutation_app_comm (flat_map values post) (values s')), !app_assoc, IH. auto.
Qed.
Lemma at_level_trans (g s x : tree) n m : at_level g n s -> at_level s m x -> at_level g (n + m) x.
Proof. induction 1; intros H1; auto. simpl. eapply at_kid; eauto. Qed.
Lemma replaced_depth (s s' g g' : tree) n d : replaced s s' n g g' -> depth_within d g -> (forall m x, at_level s' m x -> n + m <= d) -> depth_within d g'.
Proof.
  intros H D D' m x Hx. destruct (replaced_nodes _ _ _ _ _ H m x Hx) as [(m' & -> & Hm)|(y & Hy & _)]; eauto.
Qed.
End Walk.
