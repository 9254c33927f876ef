(** Lemmas for C62: the mutations. *)
From Verif Require Import Base M_BioGP Spec_BioGP P_BioGP P_BioGP2 P_BioGP3 P_BioGP4.
From Coq Require Import Permutation.
Open Scope nat_scope.

Section Mono.
Context {F T : Type}.
Notation heap := (heap F T).
Notation tree := (tree F T).
Implicit Types (h : heap) (t : itree).

Lemma agree_refl_on h h' l : (forall i, In i l -> h' i = h i) -> agree h h' l.
Proof. intros H i Hi. rewrite H; auto. Qed.
Lemma kids_linked_in h h' kids : (forall k, In k kids -> linked h k) -> (forall i, In i (flat_map ids kids) -> c_val (h' i) = c_val (h i) /\ c_roots (h' i) = c_roots (h i)) -> forall k, In k kids -> linked h' k.
Proof. intros L A k Hk. apply (linked_frame h); auto. intros i Hi. apply A. apply in_flat_map; eauto. Qed.
Lemma isub_pos a ka n t : isub (Ob a ka) n t -> a <> oid t -> 0 < n.
Proof. intros Sb N. destruct n; [|lia]. inversion Sb; subst. simpl in N. congruence. Qed.

(** An ancestor takes value and roots of a descendant: its subtree becomes that of the descendant. *)
Lemma hoist h h' t a ka n b kb : linked h t -> NoDup (ids t) -> isub (Ob a ka) n t -> linked h (Ob b kb) -> In b (flat_map ids ka) ->
  c_val (h' a) = c_val (h b) -> c_roots (h' a) = c_roots (h b) -> (forall i, i <> a -> i <> b -> h' i = h i) ->
  exists t' m, linked h' t' /\ NoDup (ids t') /\ oid t' = oid t /\ (forall i, In i (ids t') -> In i (ids t)) /\ ~ In b (ids t') /\
    at_level (read h (Ob a ka)) m (read h (Ob b kb)) /\ 0 < m /\ replaced (read h (Ob a ka)) (read h (Ob b kb)) n (read h t) (read h' t').
Proof.
  intros L ND Sa Lb Hb Ev Er Fr. pose proof (isub_linked h _ _ _ Sa L) as La. pose proof La as La0. apply linked_kids in La. destruct La as (Ea & La). pose proof (isub_nodup _ _ _ Sa ND) as NDa. apply flat_nodup_kids in NDa as (NDk & Na).
  assert (Nab : a <> b) by (intros ->; auto).
  assert (Sb : exists m, isub (Ob b kb) m (Ob a ka)).
  { destruct (ids_isub b (Ob a ka)) as (kb' & m & Sb). { simpl; auto. } exists m. replace kb with kb'; auto. assert (E : Ob b kb' = Ob b kb) by (apply (linked_unique h); auto; eapply isub_linked; eauto). congruence. }
  destruct Sb as (m & Sb). assert (Hm : 0 < m) by (apply (isub_pos _ _ _ _ Sb); simpl; auto).
  pose proof (isub_nodup _ _ _ Sb (isub_nodup _ _ _ Sa ND)) as NDb. apply flat_nodup_kids in NDb as (NDkb & Nb).
  assert (Ik : forall i, In i (flat_map ids kb) -> In i (flat_map ids ka)).
  { intros i Hi. assert (X : In i (ids (Ob a ka))) by (apply (isub_ids _ _ _ Sb); simpl; auto). simpl in X. destruct X as [<-|X]; auto. exfalso.
    (* a occurs below b, which occurs below a *)
    destruct m as [|m]; [lia|]. inversion Sb as [|? ? pre k post Sk]; subst. apply Na. rewrite flat_map_app'. apply in_or_app; right. simpl. apply in_or_app; left. apply (isub_ids _ _ _ Sk). simpl; auto. }
  apply linked_kids in Lb. destruct Lb as (Eb & Lb).
  assert (Fk : forall i, In i (flat_map ids kb) -> h' i = h i) by (intros i Hi; apply Fr; intros ->; auto).
  destruct (graft h h' t a ka kb n) as (t' & rest & G1 & G2 & G3 & _ & G4 & G5 & G6); auto.
  { congruence. } { apply (kids_linked_in h); auto. intros i Hi. rewrite Fk; auto. } { constructor; auto. }
  { intros i Hi. apply filter_In in Hi. destruct Hi as (Hi & Hn). apply existsb_not in Hn. rewrite Fr; auto; intros ->; apply Hn; [left; auto|right; auto]. }
  exists t', m. split; auto. split; auto. split; auto.
  assert (NDr : NoDup (ids (Ob a ka) ++ rest)) by (eapply Permutation_NoDup; eauto). apply NoDup_app_parts in NDr. destruct NDr as (_ & _ & N3).
  split. { intros i Hi. apply (Permutation_in _ G6) in Hi. apply (Permutation_in _ (Permutation_sym G5)). apply in_app_or in Hi. apply in_or_app. destruct Hi as [Hi|Hi]; auto. left. simpl in Hi |- *. destruct Hi; auto. }
  split. { intros X. apply (Permutation_in _ G6) in X. apply in_app_or in X. destruct X as [X|X]; [simpl in X; destruct X as [X|X]; [congruence|auto]|]. apply (N3 b); auto. simpl; auto. }
  split; [apply isub_read; auto|]. split; auto. replace (read h (Ob b kb)) with (read h' (Ob a kb)); auto. cbn [read]. f_equal; auto. apply map_ext_in. intros k Hk. apply same_read. intros i Hi. apply Fk. apply in_flat_map; eauto.
Qed.

Lemma perm_map_swap {A} (f g : nat -> A) a b l : a <> b -> NoDup l -> In a l -> In b l -> g a = f b -> g b = f a -> (forall i, i <> a -> i <> b -> g i = f i) -> Permutation (map g l) (map f l).
Proof.
  intros N ND Ha Hb Ea Eb Fr. destruct (in_split _ _ Ha) as (p & q & ->). assert (P : Permutation (p ++ a :: q) (a :: p ++ q)) by (apply Permutation_sym, Permutation_middle).
  rewrite P. assert (ND' : NoDup (a :: p ++ q)) by (eapply Permutation_NoDup; eauto). inversion ND' as [|? ? Na NDr]; subst. assert (Hb' : In b (p ++ q)). { apply in_app_or in Hb. apply in_or_app. destruct Hb as [Hb|[Hb|Hb]]; auto. congruence. }
  destruct (in_split _ _ Hb') as (u & v & E). rewrite E in *. assert (P2 : Permutation (u ++ b :: v) (b :: u ++ v)) by (apply Permutation_sym, Permutation_middle). rewrite P2. assert (ND2 : NoDup (b :: u ++ v)) by (eapply Permutation_NoDup; eauto). inversion ND2 as [|? ? Nb NDr2]; subst.
  cbn [map]. rewrite Ea, Eb. replace (map g (u ++ v)) with (map f (u ++ v)); [apply perm_swap|]. apply map_ext_in. intros i Hi. symmetry. apply Fr; intros ->; [|auto]. apply Na. apply (Permutation_in _ (Permutation_sym P2)). right; auto.
Qed.

(** Two subtrees, neither inside the other, change places. *)
Lemma exchange_inside h t a ka n b kb m : linked h t -> NoDup (ids t) -> isub (Ob a ka) n t -> isub (Ob b kb) m t -> a <> b -> ~ In b (flat_map ids ka) -> ~ In a (flat_map ids kb) ->
  exists t', linked (swap h a b) t' /\ NoDup (ids t') /\ oid t' = oid t /\ Permutation (ids t') (ids t).
Proof.
  intros L ND Sa Sb Nab Nb Na. pose proof (isub_linked h _ _ _ Sa L) as La. pose proof (isub_linked h _ _ _ Sb L) as Lb. pose proof La as La0. pose proof Lb as Lb0. apply linked_kids in La. apply linked_kids in Lb. destruct La as (Ea & La). destruct Lb as (Eb & Lb).
  pose proof (isub_nodup _ _ _ Sa ND) as NDa. apply flat_nodup_kids in NDa as (NDka & Naa). pose proof (isub_nodup _ _ _ Sb ND) as NDb. apply flat_nodup_kids in NDb as (NDkb & Nbb).
  set (h' := swap h a b). set (h1 := upd h a (mkCell (c_val (h a)) (c_depth (h a)) [])). set (h2 := upd h' a (h1 a)).
  assert (H1 : forall i, i <> a -> h1 i = h i) by (intros i Hi; unfold h1, upd; apply Nat.eqb_neq in Hi; rewrite Hi; auto).
  assert (H2 : forall i, i <> a -> h2 i = h' i) by (intros i Hi; unfold h2, upd; apply Nat.eqb_neq in Hi; rewrite Hi; auto).
  assert (H1a : c_roots (h1 a) = []) by (unfold h1, upd; rewrite Nat.eqb_refl; auto).
  assert (H2a : h2 a = h1 a) by (unfold h2, upd; rewrite Nat.eqb_refl; auto).
  assert (H'a : c_roots (h' a) = c_roots (h b)) by (unfold h'; rewrite swap_a; auto).
  assert (H'b : c_roots (h' b) = c_roots (h a)) by (unfold h'; rewrite swap_b; auto).
  assert (H'o : forall i, i <> a -> i <> b -> h' i = h i) by (intros i X Y; unfold h'; apply swap_other; auto).
  clearbody h1 h2. 
  (* the objects of ka taken out *)
  destruct (graft h h1 t a ka [] n) as (t1 & r1 & A1 & A2 & A3 & A4 & _ & A5 & A6); auto.
  { intros k []. } { simpl. constructor; [simpl; tauto|constructor]. }
  { apply agree_refl_on. intros i Hi. apply filter_In in Hi. destruct Hi as (Hi & Hn). apply existsb_not in Hn. apply H1. intros ->. apply Hn. left; auto. }
  change (ids (Ob a [])) with ([a] ++ []) in A6. rewrite app_nil_r in A6. cbn [app] in A6.
  assert (NDp : NoDup (ids (Ob a ka) ++ r1)) by (eapply Permutation_NoDup; eauto). apply NoDup_app_parts in NDp. destruct NDp as (_ & NDr1 & Nr1).
  assert (Ib : In b (ids t)) by (apply (isub_ids _ _ _ Sb); simpl; auto).
  assert (Ib1 : In b (ids t1)).
  { apply (Permutation_in _ (Permutation_sym A6)). right. apply (Permutation_in _ A5) in Ib. apply in_app_or in Ib. destruct Ib as [Ib|Ib]; auto. simpl in Ib. destruct Ib; [congruence|contradiction]. }
  assert (Sb1 : exists m1, isub (Ob b kb) m1 t1).
  { destruct (ids_isub b t1 Ib1) as (kb' & m1 & Sb1). exists m1. replace kb with kb'; auto. assert (E : Ob b kb' = Ob b kb); [|congruence]. apply (linked_unique h1); auto; [eapply isub_linked; eauto|].
    apply (linked_frame h); auto. apply agree_refl_on. intros i Hi. apply H1. intros ->. simpl in Hi. destruct Hi; [congruence|auto]. }
  destruct Sb1 as (m1 & Sb1).
  assert (Ka1 : forall i, In i (flat_map ids ka) -> ~ In i (ids t1)).
  { intros i Hi X. apply (Permutation_in _ A6) in X. destruct X as [<-|X]; [auto|]. apply (Nr1 i); auto. simpl; auto. }
  assert (Kb1 : forall i, In i (flat_map ids kb) -> In i (ids t1)) by (intros i Hi; apply (isub_ids _ _ _ Sb1); simpl; auto).
  (* ... and put under b *)
  destruct (graft h1 h2 t1 b kb ka m1) as (t2 & r2 & B1 & B2 & B3 & B4 & _ & B5 & B6); auto.
  { rewrite H2 by auto. rewrite H'b. auto. }
  { apply (kids_linked_in h); auto. intros i Hi. rewrite H2 by (intros ->; auto). rewrite H'o; auto; intros ->; auto. }
  { constructor; auto. }
  { intros i Hi. apply filter_In in Hi. destruct Hi as (Hi & Hn). apply existsb_not in Hn. destruct (Nat.eq_dec i a) as [->|Ne].
    - rewrite H2a; auto.
    - rewrite H1, H2 by auto. rewrite H'o; auto. intros ->. apply Hn. left; auto. }
  assert (NDp2 : NoDup (ids (Ob b kb) ++ r2)) by (eapply Permutation_NoDup; eauto). apply NoDup_app_parts in NDp2. destruct NDp2 as (_ & NDr2 & Nr2).
  assert (Ia1 : In a (ids t1)) by (apply (Permutation_in _ (Permutation_sym A6)); left; auto).
  assert (Ia2 : In a (ids t2)).
  { apply (Permutation_in _ (Permutation_sym B6)). apply in_or_app; right. apply (Permutation_in _ B5) in Ia1. apply in_app_or in Ia1. destruct Ia1 as [X|X]; auto. simpl in X. destruct X; [congruence|contradiction]. }
  assert (Sa2 : exists n2, isub (Ob a []) n2 t2).
  { destruct (ids_isub a t2 Ia2) as (ka' & n2 & Sa2). exists n2. replace (@nil itree) with ka'; auto. pose proof (isub_linked h2 _ _ _ Sa2 B1) as X. apply linked_kids in X. destruct X as (X & _). rewrite H2a, H1a in X. destruct ka'; [auto|discriminate]. }
  destruct Sa2 as (n2 & Sa2).
  assert (Kb2 : forall i, In i (flat_map ids kb) -> ~ In i (ids t2)).
  { intros i Hi X. apply (Permutation_in _ B6) in X. apply in_app_or in X. destruct X as [X|X]; [|apply (Nr2 i); auto; simpl; auto]. simpl in X. destruct X as [<-|X]; [auto|]. apply (Ka1 i X). auto. }
  (* the objects of kb, taken out by this, put under a *)
  destruct (graft h2 h' t2 a [] kb n2) as (t3 & r3 & C1 & C2 & C3 & C4 & _ & C5 & C6); auto.
  { congruence. }
  { apply (kids_linked_in h); auto. intros i Hi. rewrite H'o; auto; intros ->; auto. }
  { constructor; auto. }
  { apply agree_refl_on. intros i Hi. apply filter_In in Hi. destruct Hi as (Hi & Hn). apply existsb_not in Hn. symmetry. apply H2. intros ->. apply Hn. left; auto. }
  exists t3. split; auto. split; auto. split; [congruence|].
  change (ids (Ob a [])) with ([a] ++ []) in C5. rewrite app_nil_r in C5. cbn [app ids] in *.
  assert (Permutation (ids t3) (flat_map ids kb ++ ids t2)). { rewrite C6, C5. apply Permutation_middle. }
  rewrite H, B6. assert (Permutation (ids t) (flat_map ids ka ++ ids t1)). { rewrite A5, A6. apply Permutation_middle. }
  rewrite H0, B5. cbn [app]. transitivity (b :: flat_map ids kb ++ flat_map ids ka ++ r2); [apply Permutation_sym, Permutation_middle|].
  transitivity (b :: flat_map ids ka ++ flat_map ids kb ++ r2); [|apply Permutation_middle]. constructor. rewrite !app_assoc. apply Permutation_app_tail, Permutation_app_comm.
Qed.

(** The swap inside a tree: the objects still form a tree; either all of them, or the subtree of the upper node was replaced by the one of the lower node. *)
Lemma swap_inside h t a b : linked h t -> NoDup (ids t) -> In a (ids t) -> In b (ids t) -> a <> b -> a <> oid t -> b <> oid t ->
  exists t', linked (swap h a b) t' /\ NoDup (ids t') /\ oid t' = oid t /\ (forall i, In i (ids t') -> In i (ids t)) /\
    (Permutation (values (read (swap h a b) t')) (values (read h t)) \/
     exists n m s s', at_level s m s' /\ 0 < m /\ 0 < n /\ replaced s s' n (read h t) (read (swap h a b) t')).
Proof.
  intros L ND Ia Ib Nab Ra Rb. destruct (ids_isub a t Ia) as (ka & n & Sa). destruct (ids_isub b t Ib) as (kb & m & Sb).
  pose proof (isub_linked h _ _ _ Sa L) as La. pose proof (isub_linked h _ _ _ Sb L) as Lb.
  destruct (in_dec Nat.eq_dec b (flat_map ids ka)) as [Hb|Hb]; [|destruct (in_dec Nat.eq_dec a (flat_map ids kb)) as [Ha|Ha]].
  - destruct (hoist h (swap h a b) t a ka n b kb L ND Sa Lb Hb) as (t' & q & G1 & G2 & G3 & G4 & _ & G5 & G6 & G7).
    { rewrite swap_a; auto. } { rewrite swap_a; auto. } { intros; apply swap_other; auto. }
    exists t'. split; auto. split; auto. split; auto. split; auto. right. exists n, q, (read h (Ob a ka)), (read h (Ob b kb)). split; auto. split; auto. split; auto. eapply isub_pos; eauto.
  - destruct (hoist h (swap h a b) t b kb m a ka L ND Sb La Ha) as (t' & q & G1 & G2 & G3 & G4 & _ & G5 & G6 & G7).
    { rewrite swap_b; auto. } { rewrite swap_b; auto. } { intros; apply swap_other; auto. }
    exists t'. split; auto. split; auto. split; auto. split; auto. right. exists m, q, (read h (Ob b kb)), (read h (Ob a ka)). split; auto. split; auto. split; auto. eapply isub_pos; eauto.
  - destruct (exchange_inside h t a ka n b kb m L ND Sa Sb Nab Hb Ha) as (t' & G1 & G2 & G3 & G4). exists t'. split; auto. split; auto. split; auto. split; [intros i; apply Permutation_in; auto|]. left.
    rewrite !values_read. rewrite (Permutation_map _ G4). apply (perm_map_swap _ _ a b); auto.
    { rewrite swap_a; auto. } { rewrite swap_b; auto. } { intros i X Y. rewrite swap_other; auto. }
Qed.

(** *** The three mutations *)
Context (arity : F -> nat) (fs : list F) (ts : list T).
Notation individual := (individual arity fs ts).
Lemma swap_individual h t t' a b : linked h t -> NoDup (ids t) -> linked (swap h a b) t' -> NoDup (ids t') -> oid t' = oid t -> (forall i, In i (ids t') -> In i (ids t)) ->
  In a (ids t) -> In b (ids t) -> a <> b -> a <> oid t -> b <> oid t -> individual (read h t) -> individual (read (swap h a b) t').
Proof.
  intros L ND L' ND' E Inc Ia Ib Nab Ra Rb W. apply (individual_cells arity fs ts h t L ND) in W. destruct W as (V & C). apply (individual_cells arity fs ts _ t' L' ND'). rewrite E. split; [rewrite swap_other; auto|].
  intros i Hi Ne. destruct (Nat.eq_dec i a) as [->|N1]; [rewrite swap_a by auto; apply C; auto|]. destruct (Nat.eq_dec i b) as [->|N2]; [rewrite swap_b by auto; apply C; auto|]. rewrite swap_other by auto. apply C; auto.
Qed.
Lemma mono_spec fuel h x t i j : held h x t -> length (ids t) <= fuel -> i <> j -> i < length (tl (snd x)) -> j < length (tl (snd x)) ->
  exists h' x' t', mutate_mono fuel h x i j = Ok (h', x') /\ held h' x' t' /\ fst x' = fst x /\ (individual (read h t) -> individual (read h' t')) /\ (forall k, ~ In k (ids t) -> h' k = h k) /\ (forall k, In k (ids t') -> In k (ids t)) /\ (Permutation (values (read h' t')) (values (read h t)) \/
     exists n m s s', at_level s m s' /\ 0 < m /\ 0 < n /\ replaced s s' n (read h t) (read h' t')).
Proof.
  intros (A & B) Hf Nij Hi Hj. pose proof A as (E & L & ND). unfold mutate_mono. destruct (nth_error (tl (snd x)) i) as [a|] eqn:Ei; [|apply nth_error_None in Ei; lia]. destruct (nth_error (tl (snd x)) j) as [b|] eqn:Ej; [|apply nth_error_None in Ej; lia].
  assert (Nab : a <> b).
  { intros ->. apply Nij. destruct B as (P & _). assert (NDx : NoDup (tl (snd x))). { assert (X : NoDup (snd x)) by (eapply Permutation_NoDup; [apply Permutation_sym; exact P|auto]). destruct (snd x); [constructor|]. inversion X; auto. }
    eapply NoDup_nth_error; eauto. congruence. }
  pose proof (proj1 (up_tl h _ t _ a A B) (nth_error_In _ _ Ei)) as (Ia & Ra). pose proof (proj1 (up_tl h _ t _ b A B) (nth_error_In _ _ Ej)) as (Ib & Rb). rewrite <- E in Ra, Rb.
  destruct (swap_inside h t a b L ND Ia Ib Nab Ra Rb) as (t' & G1 & G2 & G3 & G4 & G5).
  assert (Len : length (ids t') <= length (ids t)) by (apply NoDup_incl_length; auto).
  destruct (refresh fuel (swap h a b) (fst x) t') as (h' & l & K1 & K2 & K3 & K4 & K5). { split; [congruence|split; auto]. } { lia. } { rewrite swap_depth. eapply forms_up_depth; eauto. }
  rewrite K1. exists h', (fst x, l), t'. split; auto. split; auto. split; auto. split. { intros W. rewrite K3. apply (swap_individual h t t' a b); auto. }
  split. { intros k Hk. rewrite K4 by auto. apply swap_other; intros ->; auto. } split; auto. rewrite K3. exact G5.
Qed.

(** Standard mutation. *)
Lemma standard_spec (pick : nat -> nat -> nat) (coin : nat -> bool) max_depth h next x t k q : held h x t -> in_range 0 next t -> 1 < length (ids t) -> fs <> [] -> ts <> [] ->
  exists need, (forall fuel, need <= fuel -> exists h' next' x' q' t' n s g, mutate_standard arity pick coin fs ts fuel max_depth h next x k q = Ok (h', next', x', q') /\ held h' x' t' /\ fst x' = fst x /\ in_range 0 next' t' /\ next < next' /\
    0 < n /\ replaced s g n (read h t) (read h' t') /\ good arity fs ts false (max_depth - n) g /\
    (forall i, ~ In i (ids t) -> i < next -> h' i = h i) /\ (forall i, In i (ids t') -> In i (ids t) \/ next <= i < next')).
Proof.
  intros (A & B) Rg Z Hf Ht. pose proof A as (E & L & ND). unfold mutate_standard.
  assert (Ne : tl (snd x) <> []). { destruct B as (P & _). apply Permutation_length in P. destruct (snd x) as [|y [|z l]]; simpl in *; [lia|lia|congruence]. }
  destruct (choose_node_total k (tl (snd x)) Ne) as (a & Ea). rewrite Ea. cbn [bind]. apply choose_node_In in Ea. apply (up_tl h _ t _ a A B) in Ea. destruct Ea as (Ia & Ra).
  destruct (ids_isub a t Ia) as (ka & n & Sa). pose proof (up_to_date_isub _ _ _ _ _ _ B Sa) as Dn. rewrite Dn.
  destruct (grow_total arity pick coin fs ts false Hf Ht (max_depth - n) q) as (g & q' & Eg). rewrite Eg. cbn [bind fst snd]. pose proof (grow_good arity pick coin fs ts false _ _ _ _ Eg) as Good.
  destruct (alloc_spec g h next n) as (h1 & n1 & tg & El & (G1 & G2 & G3 & G4 & G5 & G6) & G7). rewrite El.
  destruct tg as [o kg]. simpl in G1. subst o. pose proof (Rg a Ia) as Ra'. assert (Na : a <> next) by lia.
  set (h2 := upd h1 a (mkCell (c_val (h1 next)) (c_depth (h1 a)) (c_roots (h1 next)))).
  assert (H2 : forall i, i <> a -> h2 i = h1 i) by (intros i Hi; unfold h2, upd; apply Nat.eqb_neq in Hi; rewrite Hi; auto).
  assert (H2a : c_val (h2 a) = c_val (h1 next) /\ c_roots (h2 a) = c_roots (h1 next) /\ c_depth (h2 a) = c_depth (h1 a)) by (unfold h2, upd; rewrite Nat.eqb_refl; auto). destruct H2a as (Va & Roa & Da). clearbody h2.
  pose proof G2 as G2'. apply linked_kids in G2'. destruct G2' as (Eg1 & Lg). apply flat_nodup_kids in G3 as (NDg & Ng).
  assert (Bg : forall i, In i (flat_map ids kg) -> next < i < n1). { intros i Hi. assert (X : next <= i < n1) by (apply G5; simpl; auto). assert (i <> next) by (intros ->; auto). lia. }
  assert (Fk : forall i, In i (flat_map ids kg) -> h2 i = h1 i) by (intros i Hi; apply H2; apply Bg in Hi; lia).
  destruct (graft h h2 t a ka kg n) as (t' & rest & C1 & C2 & C3 & C4 & C5 & C6 & C7); auto.
  { congruence. } { apply (kids_linked_in h1); auto. intros i Hi. rewrite Fk; auto. } { constructor; auto. intros X. apply Bg in X. lia. }
  { intros i Hi. left. intros X. pose proof (Rg i X). apply Bg in Hi. lia. }
  { apply agree_refl_on. intros i Hi. apply filter_In in Hi. destruct Hi as (Hi & Hn). apply existsb_not in Hn. rewrite H2 by (intros ->; apply Hn; left; auto). apply G6. left. apply (Rg i Hi). }
  exists (length (ids t')). intros fuel Hfu.
  destruct (refresh fuel h2 (fst x) t') as (h3 & l & K1 & K2 & K3 & K4 & K5). { split; [congruence|split; auto]. } { auto. }
  { assert (X : fst x <> a) by auto. rewrite H2 by auto. rewrite G6. { eapply forms_up_depth; eauto. } left. rewrite <- E. apply (Rg (oid t)). apply In_ids. }
  rewrite K1. assert (Inc : forall i, In i (ids t') -> In i (ids t) \/ next <= i < n1).
  { intros i Hi. apply (Permutation_in _ C7) in Hi. apply in_app_or in Hi. destruct Hi as [Hi|Hi]; [|left; apply (Permutation_in _ (Permutation_sym C6)), in_or_app; auto]. simpl in Hi. destruct Hi as [<-|Hi]; [auto|]. right. apply Bg in Hi. lia. }
  exists h3, n1, (fst x, l), q', t', n, (read h (Ob a ka)), g. split; auto. split; auto. split; auto. split. { intros i Hi. destruct (Inc i Hi) as [X|X]; [pose proof (Rg i X); lia|lia]. }
  split; auto. split. { apply (isub_pos _ _ _ _ Sa). congruence. }
  split. { rewrite K3. replace g with (read h2 (Ob a kg)); auto. rewrite <- G7. cbn [read]. f_equal; auto. apply map_ext_in. intros c Hc. apply same_read. intros i Hi. apply Fk. apply in_flat_map; eauto. }
  split; auto. split; [|auto]. intros i Hi Hlt. rewrite K4. { rewrite H2 by (intros ->; auto). apply G6. auto. } intros X. destruct (Inc i X) as [Y|Y]; [auto|lia].
Qed.

(** Small mutation. *)
Definition drop_free (h : heap) (draw : nat -> small_draw F T) (l : list nat) : Prop :=
  forall i f, In i l -> c_val (h i) = VFun f -> d_c1 (draw i) = false -> d_c2 (draw i) = false \/ c_roots (h i) = [].
Lemma mutate_node_other h x d i : i <> x -> mutate_node arity h x d i = h i.
Proof. intros N. apply Nat.eqb_neq in N. unfold mutate_node. destruct (c_val (h x)); destruct (d_c1 d), (d_c2 d); try destruct (Nat.eqb (arity (d_f d)) (arity f)); unfold upd; rewrite ?N; auto. Qed.
Lemma mutate_node_same h x d i : c_roots (mutate_node arity h x d i) = c_roots (h i) /\ c_depth (mutate_node arity h x d i) = c_depth (h i).
Proof.
  destruct (Nat.eq_dec i x) as [->|N]; [|rewrite mutate_node_other; auto]. unfold mutate_node. destruct (c_val (h x)); destruct (d_c1 d), (d_c2 d); try destruct (Nat.eqb (arity (d_f d)) (arity f)); unfold upd; rewrite ?Nat.eqb_refl; auto.
Qed.
Lemma mutate_node_local h h' x d : h' x = h x -> mutate_node arity h' x d x = mutate_node arity h x d x.
Proof. intros E. unfold mutate_node. rewrite E. destruct (c_val (h x)); destruct (d_c1 d), (d_c2 d); try destruct (Nat.eqb (arity (d_f d)) (arity f)); unfold upd; rewrite ?Nat.eqb_refl; auto. Qed.
Lemma mutate_fold draw l : forall h i, c_roots (fold_left (fun h y => mutate_node arity h y (draw y)) l h i) = c_roots (h i) /\ c_depth (fold_left (fun h y => mutate_node arity h y (draw y)) l h i) = c_depth (h i) /\
  (~ In i l -> fold_left (fun h y => mutate_node arity h y (draw y)) l h i = h i).
Proof.
  induction l as [|y l IH]; intros h i; cbn [fold_left]; [auto|]. destruct (IH (mutate_node arity h y (draw y)) i) as (A & B & C). destruct (mutate_node_same h y (draw y) i) as (D & E). split; [congruence|]. split; [congruence|].
  intros N. rewrite C by (intros X; apply N; right; auto). apply mutate_node_other. intros ->. apply N. left; auto.
Qed.
Lemma mutate_fold_in draw l : NoDup l -> forall h i, In i l -> fold_left (fun h y => mutate_node arity h y (draw y)) l h i = mutate_node arity h i (draw i) i.
Proof.
  induction 1 as [|y l Ny ND IH]; intros h i Hi; [destruct Hi|]. cbn [fold_left]. destruct Hi as [->|Hi].
  - destruct (mutate_fold draw l (mutate_node arity h i (draw i)) i) as (_ & _ & C). auto.
  - rewrite IH by auto. apply mutate_node_local. apply mutate_node_other. intros ->. auto.
Qed.
Lemma small_spec fuel h x t draw : held h x t -> length (ids t) <= fuel ->
  exists h' x', mutate_small arity fuel h x draw = Ok (h', x') /\ held h' x' t /\ fst x' = fst x /\ (forall i, ~ In i (ids t) -> h' i = h i) /\
    (forall i, c_roots (h' i) = c_roots (h i)) /\ (forall i, In i (ids t) -> i <> oid t -> c_val (h' i) = c_val (mutate_node arity h i (draw i) i)) /\ c_val (h' (oid t)) = c_val (h (oid t)).
Proof.
  intros (A & B) Hf. pose proof A as (E & L & ND). unfold mutate_small. set (h1 := fold_left _ (tl (snd x)) h).
  assert (M : forall i, c_roots (h1 i) = c_roots (h i) /\ c_depth (h1 i) = c_depth (h i) /\ (~ In i (tl (snd x)) -> h1 i = h i)) by (intros i; apply mutate_fold).
  assert (NDx : NoDup (tl (snd x))). { destruct B as (P & _). assert (X : NoDup (snd x)) by (eapply Permutation_NoDup; [apply Permutation_sym; exact P|auto]). destruct (snd x); [constructor|]. inversion X; auto. }
  assert (M2 : forall i, In i (tl (snd x)) -> h1 i = mutate_node arity h i (draw i) i) by (intros i Hi; apply mutate_fold_in; auto).
  assert (L1 : linked h1 t). { clear - M L. revert L. revert t. apply (itree_ind' (fun t => linked h t -> linked h1 t)). intros i kids IH L. apply linked_kids in L. destruct L as (Er & L). apply linked_kids. split; [rewrite (proj1 (M i)); auto|]. intros k Hk. apply IH; auto. }
  destruct (refresh fuel h1 (fst x) t) as (h2 & l & K1 & K2 & K3 & K4 & K5). { split; auto. } { auto. } { rewrite (proj1 (proj2 (M (fst x)))). eapply forms_up_depth; eauto. }
  rewrite K1. exists h2, (fst x, l). split; auto. split; auto. split; auto. split. { intros i Hi. rewrite K4 by auto. apply M. intros X. apply (up_tl h _ t _ i A B) in X. tauto. }
  split. { intros i. destruct (K5 i) as (_ & ->). apply M. } split.
  - intros i Hi Ne. destruct (K5 i) as (-> & _). rewrite M2; auto. apply (up_tl h _ t _ i A B). split; auto. congruence.
  - destruct (K5 (oid t)) as (-> & _). destruct (M (oid t)) as (_ & _ & X). rewrite X; auto. intros Y. apply (up_tl h _ t _ _ A B) in Y. destruct Y as (_ & Y). congruence.
Qed.
End Mono.
