(** Lemmas for C60-C62. *)
From Verif Require Import Base M_BioGP Spec_BioGP.
From Coq Require Import Permutation.
Open Scope nat_scope.

(** *** Grown trees *)
Section Grow.
Context {F T : Type} (arity : F -> nat) (pick : nat -> nat -> nat) (coin : nat -> bool) (fs : list F) (ts : list T).
Notation tree := (tree F T).
Notation grow := (grow arity pick coin fs ts).
Notation grow_terminal := (@grow_terminal F T pick ts).

Lemma choose_In {A} t (l : list A) x t' : choose pick t l = Ok (x, t') -> In x l.
Proof. unfold choose. destruct (nth_error l (pick t (length l) mod length l)) eqn:E; [|discriminate]. intros H; injection H as <- _. eapply nth_error_In; eauto. Qed.
Lemma choose_total {A} t (l : list A) : l <> [] -> exists x, choose pick t l = Ok (x, S t).
Proof.
  intros H. unfold choose. destruct (nth_error l (pick t (length l) mod length l)) as [x|] eqn:E; [eauto|]. apply nth_error_None in E.
  assert (pick t (length l) mod length l < length l) by (apply Nat.mod_upper_bound; destruct l; [congruence|simpl; lia]). lia.
Qed.
Lemma times_spec {A} (P : A -> Prop) n (g : nat -> res (A * nat)) : (forall t x t', g t = Ok (x, t') -> P x) ->
  forall t l t', times n g t = Ok (l, t') -> length l = n /\ Forall P l.
Proof.
  intros H. induction n as [|n IH]; intros t l t' E; cbn [times] in E.
  - injection E as <- <-. split; auto.
  - destruct (g t) as [[x t1]|] eqn:E1; [|discriminate]. cbn [bind fst snd] in E. destruct (times n g t1) as [[l' t2]|] eqn:E2; [|discriminate]. cbn [bind fst snd] in E.
    injection E as <- <-. destruct (IH _ _ _ E2) as (L & Fa). split; [simpl; lia|]. constructor; eauto.
Qed.
Lemma times_total {A} n (g : nat -> res (A * nat)) : (forall t, exists x t', g t = Ok (x, t')) -> forall t, exists l t', times n g t = Ok (l, t').
Proof.
  intros H. induction n as [|n IH]; intros t; cbn [times]; [eauto|]. destruct (H t) as (x & t1 & ->). cbn [bind fst snd]. destruct (IH t1) as (l & t2 & ->). cbn [bind fst snd]. eauto.
Qed.

Definition terminal (s : tree) : Prop := match s with Tr (VTerm _) _ => True | _ => False end.
Definition good (full : bool) (rem : nat) (g : tree) : Prop :=
  forall n s, at_level g n s -> node_ok arity fs ts (value s) (length (children s)) /\ n <= rem /\ (full = true -> terminal s -> n = rem).
Lemma grow_terminal_good full t g t' : grow_terminal t = Ok (g, t') -> good full 0 g.
Proof.
  unfold M_BioGP.grow_terminal. destruct (choose pick t ts) as [[x t1]|] eqn:E; [|discriminate]. cbn [bind fst snd]. intros H; injection H as <- <-. apply choose_In in E.
  intros n s A. inversion A; subst; [|simpl in *; contradiction]. simpl. auto.
Qed.
Lemma good_false_mono rem g : good false 0 g -> good false rem g.
Proof. intros H n s A. destruct (H n s A) as (H1 & H2 & _). split; auto. split; [lia|discriminate]. Qed.
Lemma grow_good full : forall rem t g t', grow full rem t = Ok (g, t') -> good full rem g.
Proof.
  induction rem as [|r IH]; intros t g t' E; cbn [M_BioGP.grow] in E.
  - eapply grow_terminal_good; eauto.
  - assert (Go : forall t1, bind (choose pick t1 fs) (fun p => bind (times (arity (fst p)) (grow full r) (snd p)) (fun q => Ok (Tr (VFun (fst p)) (fst q), snd q))) = Ok (g, t') -> good full (S r) g).
    { intros t1 E1. destruct (choose pick t1 fs) as [[f t2]|] eqn:E2; [|discriminate]. cbn [bind fst snd] in E1. destruct (times (arity f) (grow full r) t2) as [[kids t3]|] eqn:E3; [|discriminate]. cbn [bind fst snd] in E1. injection E1 as <- <-.
      destruct (times_spec (good full r) _ _ IH _ _ _ E3) as (L & Fa). apply choose_In in E2. intros n s A. inversion A as [|? k m ? Hk Hm]; subst.
      - simpl. split; [auto|]. split; [lia|tauto].
      - simpl in Hk. rewrite Forall_forall in Fa. destruct (Fa k Hk m s Hm) as (H1 & H2 & H3). split; auto. split; [lia|]. intros Hf Ht. rewrite (H3 Hf Ht). auto. }
    destruct full; [eauto|]. destruct (coin t); [|eauto]. apply good_false_mono. eapply grow_terminal_good; eauto.
Qed.
Lemma grow_total full : fs <> [] -> ts <> [] -> forall rem t, exists g t', grow full rem t = Ok (g, t').
Proof.
  intros Hf Ht. assert (Tm : forall t, exists g t', grow_terminal t = Ok (g, t')).
  { intros t. unfold M_BioGP.grow_terminal. destruct (choose_total t ts Ht) as (x & ->). cbn [bind fst snd]. eauto. }
  induction rem as [|r IH]; intros t; cbn [M_BioGP.grow]; [apply Tm|].
  assert (Go : forall t1, exists g t', bind (choose pick t1 fs) (fun p => bind (times (arity (fst p)) (grow full r) (snd p)) (fun q => Ok (Tr (T := T) (VFun (fst p)) (fst q), snd q))) = Ok (g, t')).
  { intros t1. destruct (choose_total t1 fs Hf) as (f & ->). cbn [bind fst snd]. destruct (times_total (arity f) _ IH (S t1)) as (l & t2 & ->). cbn [bind fst snd]. eauto. }
  destruct full; auto. destruct (coin t); auto.
Qed.
End Grow.

(** *** Objects *)
Section Heap.
Context {F T : Type}.
Notation heap := (heap F T).
Notation tree := (tree F T).
Implicit Types (h : heap) (t : itree).

Lemma itree_ind' (P : itree -> Prop) : (forall i kids, (forall k, In k kids -> P k) -> P (Ob i kids)) -> forall t, P t.
Proof.
  intros H. fix IH 1. intros [i kids]. apply H. induction kids as [|k kids IHk]; [intros k' []|]. intros k' [E|Hk]; [rewrite <- E; apply IH|apply IHk; auto].
Qed.
Lemma In_ids t : In (oid t) (ids t). Proof. destruct t; simpl; auto. Qed.

(** Heaps that agree on values and roots of the objects of a tree. *)
Definition agree h h' (l : list nat) : Prop := forall i, In i l -> c_val (h' i) = c_val (h i) /\ c_roots (h' i) = c_roots (h i).
Lemma agree_kid h h' i kids k : agree h h' (ids (Ob i kids)) -> In k kids -> agree h h' (ids k).
Proof. intros A Hk j Hj. apply A. simpl. right. apply in_flat_map. eauto. Qed.
Lemma linked_frame h h' : forall t, linked h t -> agree h h' (ids t) -> linked h' t.
Proof.
  apply (itree_ind' (fun t => linked h t -> agree h h' (ids t) -> linked h' t)). intros i kids IH L A. inversion L as [? ? E K]; subst. constructor.
  - destruct (A i) as (_ & E2); [simpl; auto|]. congruence.
  - intros k Hk. apply IH; auto. eapply agree_kid; eauto.
Qed.
Lemma read_frame h h' : forall t, agree h h' (ids t) -> read h' t = read h t.
Proof.
  apply (itree_ind' (fun t => agree h h' (ids t) -> read h' t = read h t)). intros i kids IH A. simpl. f_equal; [apply A; simpl; auto|]. apply map_ext_in. intros k Hk. apply IH; auto. eapply agree_kid; eauto.
Qed.

(** Replacing a subtree of objects. *)
Inductive ireplaced (s s' : itree) : nat -> itree -> itree -> Prop :=
| irep_here : ireplaced s s' 0 s s'
| irep_kid n i pre k k' post : ireplaced s s' n k k' -> ireplaced s s' (S n) (Ob i (pre ++ k :: post)) (Ob i (pre ++ k' :: post)).
(** [s] occurs at level n of t. *)
Inductive isub (s : itree) : nat -> itree -> Prop :=
| isub_here : isub s 0 s
| isub_kid n i pre k post : isub s n k -> isub s (S n) (Ob i (pre ++ k :: post)).
Lemma isub_replace s s' n t : isub s n t -> exists t', ireplaced s s' n t t'.
Proof. induction 1 as [|n i pre k post H (k' & IH)]; [eexists; constructor|]. eexists. econstructor. eauto. Qed.
Lemma ids_isub a : forall t, In a (ids t) -> exists ka n, isub (Ob a ka) n t.
Proof.
  apply (itree_ind' (fun t => In a (ids t) -> exists ka n, isub (Ob a ka) n t)). intros i kids IH [<-|H]; [exists kids, 0; constructor|]. apply in_flat_map in H. destruct H as (k & Hk & H).
  destruct (IH k Hk H) as (ka & n & S0). destruct (in_split _ _ Hk) as (pre & post & ->). exists ka, (S n). constructor; auto.
Qed.
Lemma isub_level a ka n t : isub (Ob a ka) n t -> In a (level_of t n).
Proof.
  induction 1 as [|n i pre k post H IH]; [simpl; auto|]. cbn [level_of]. apply in_flat_map. exists k. split; auto. apply in_or_app; right; left; auto.
Qed.
Lemma level_ids a : forall t n, In a (level_of t n) -> In a (ids t).
Proof.
  apply (itree_ind' (fun t => forall n, In a (level_of t n) -> In a (ids t))). intros i kids IH [|n] H; cbn [level_of] in H; [simpl in *; tauto|]. apply in_flat_map in H. destruct H as (k & Hk & H). simpl. right. apply in_flat_map. eauto.
Qed.
Lemma flat_map_app' {A B} (f : A -> list B) l l' : flat_map f (l ++ l') = flat_map f l ++ flat_map f l'.
Proof. induction l as [|x l IH]; simpl; auto. rewrite IH, app_assoc. auto. Qed.
Lemma kids_ids pre k post : Permutation (flat_map ids (pre ++ k :: post)) (ids k ++ (flat_map ids pre ++ flat_map ids post)).
Proof. rewrite flat_map_app'. simpl. rewrite !app_assoc. apply Permutation_app_tail. apply Permutation_app_comm. Qed.
Lemma ireplaced_rest s s' n t t' : ireplaced s s' n t t' -> exists rest, Permutation (ids t) (ids s ++ rest) /\ Permutation (ids t') (ids s' ++ rest).
Proof.
  induction 1 as [|n i pre k k' post H (rest & P1 & P2)]; [exists []; rewrite !app_nil_r; auto|].
  exists (i :: rest ++ flat_map ids pre ++ flat_map ids post). cbn [ids]. split.
  - rewrite kids_ids, P1, <- app_assoc. apply Permutation_middle.
  - rewrite kids_ids, P2, <- app_assoc. apply Permutation_middle.
Qed.
Lemma ireplaced_oid s s' n t t' : oid s' = oid s -> ireplaced s s' n t t' -> oid t' = oid t.
Proof. intros E H. destruct H; auto. Qed.
Lemma linked_kids h i kids : linked h (Ob i kids) <-> c_roots (h i) = map oid kids /\ forall k, In k kids -> linked h k.
Proof. split; [intros L; inversion L; auto|intros (A & B); constructor; auto]. Qed.
Lemma ireplaced_linked h h' s s' n t t' rest : ireplaced s s' n t t' -> oid s' = oid s -> Permutation (ids t) (ids s ++ rest) -> NoDup (ids t) ->
  agree h h' rest -> linked h t -> linked h' s' -> linked h' t'.
Proof.
  intros H E. revert rest. induction H as [|n i pre k k' post H IH]; intros rest P ND A L L'; auto.
  destruct (ireplaced_rest _ _ _ _ _ H) as (r & P1 & P2). apply linked_kids in L. destruct L as (L1 & L2).
  assert (Q : forall x, In x rest <-> In x (i :: r ++ flat_map ids pre ++ flat_map ids post)).
  { assert (P3 : Permutation (ids s ++ rest) (ids s ++ (i :: r ++ flat_map ids pre ++ flat_map ids post))).
    { rewrite <- P. cbn [ids]. rewrite kids_ids, P1, <- app_assoc. apply Permutation_middle. }
    apply Permutation_app_inv_l in P3. intros x. split; apply Permutation_in; [|apply Permutation_sym]; auto. }
  apply linked_kids. split.
  - destruct (A i) as (_ & E2); [apply Q; left; auto|]. rewrite E2, L1, !map_app. simpl. rewrite (ireplaced_oid _ _ _ _ _ E H). auto.
  - assert (NDk : NoDup (ids k)).
    { cbn [ids] in ND. inversion ND; subst. eapply Permutation_NoDup in H3; [|apply kids_ids]. clear - H3. induction (ids k); [constructor|]. inversion H3; subst. constructor; auto. intros X. apply H1, in_or_app; auto. }
    intros x Hx. apply in_app_or in Hx. destruct Hx as [Hx|[<-|Hx]].
    + apply (linked_frame h); [apply L2, in_or_app; auto|]. intros j Hj. apply A, Q. right. apply in_or_app; right; apply in_or_app; left. apply in_flat_map; eauto.
    + apply (IH r P1); auto. { intros j Hj. apply A, Q. right. apply in_or_app; auto. } apply L2, in_or_app; right; left; auto.
    + apply (linked_frame h); [apply L2, in_or_app; right; right; auto|]. intros j Hj. apply A, Q. right. apply in_or_app; right; apply in_or_app; right. apply in_flat_map; eauto.
Qed.
Lemma ireplaced_read h h' s s' n t t' rest : ireplaced s s' n t t' -> Permutation (ids t) (ids s ++ rest) -> agree h h' rest ->
  replaced (read h s) (read h' s') n (read h t) (read h' t').
Proof.
  intros H. revert rest. induction H as [|n i pre k k' post H IH]; intros rest P A; [constructor|].
  destruct (ireplaced_rest _ _ _ _ _ H) as (r & P1 & P2).
  assert (Q : forall x, In x (i :: r ++ flat_map ids pre ++ flat_map ids post) -> In x rest).
  { assert (P3 : Permutation (ids s ++ rest) (ids s ++ (i :: r ++ flat_map ids pre ++ flat_map ids post))).
    { rewrite <- P. cbn [ids]. rewrite kids_ids, P1, <- app_assoc. apply Permutation_middle. }
    apply Permutation_app_inv_l in P3. intros x. apply Permutation_in. apply Permutation_sym; auto. }
  simpl. rewrite !map_app. simpl. destruct (A i) as (Ev & _); [apply Q; left; auto|]. rewrite Ev.
  replace (map (read h') pre) with (map (read h) pre).
  2:{ apply map_ext_in. intros x Hx. symmetry. apply read_frame. intros j Hj. apply A, Q. right. apply in_or_app; right; apply in_or_app; left. apply in_flat_map; eauto. }
  replace (map (read h') post) with (map (read h) post).
  2:{ apply map_ext_in. intros x Hx. symmetry. apply read_frame. intros j Hj. apply A, Q. right. apply in_or_app; right; apply in_or_app; right. apply in_flat_map; eauto. }
  constructor. apply (IH r P1). intros j Hj. apply A, Q. right. apply in_or_app; auto.
Qed.
Lemma isub_linked h s n t : isub s n t -> linked h t -> linked h s.
Proof. induction 1 as [|n i pre k post H IH]; auto. intros L. apply linked_kids in L. apply IH, L, in_or_app. right; left; auto. Qed.
Lemma isub_read h s n t : isub s n t -> at_level (read h t) n (read h s).
Proof. induction 1 as [|n i pre k post H IH]; [constructor|]. eapply at_kid; [|exact IH]. simpl. rewrite map_app. apply in_or_app; right; left; auto. Qed.

(** The swap. *)
Lemma swap_a h a b : a <> b -> swap h a b a = mkCell (c_val (h b)) (c_depth (h a)) (c_roots (h b)).
Proof. intros N. apply Nat.eqb_neq in N as N1. assert (N2 : Nat.eqb b a = false) by (rewrite Nat.eqb_sym; auto). unfold swap, upd. rewrite ?Nat.eqb_refl, ?N1, ?N2, ?Nat.eqb_refl. simpl. rewrite ?N1, ?N2, ?Nat.eqb_refl. simpl. reflexivity. Qed.
Lemma swap_b h a b : a <> b -> swap h a b b = mkCell (c_val (h a)) (c_depth (h b)) (c_roots (h a)).
Proof. intros N. apply Nat.eqb_neq in N as N1. assert (N2 : Nat.eqb b a = false) by (rewrite Nat.eqb_sym; auto). unfold swap, upd. rewrite ?Nat.eqb_refl, ?N1, ?N2, ?Nat.eqb_refl. simpl. rewrite ?N1, ?N2, ?Nat.eqb_refl. simpl. reflexivity. Qed.
Lemma swap_other h a b x : x <> a -> x <> b -> swap h a b x = h x.
Proof. intros N1 N2. apply Nat.eqb_neq in N1, N2. unfold swap, upd. rewrite N1, N2. reflexivity. Qed.
End Heap.
