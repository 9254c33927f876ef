(** Specification: Pareto dominance (minimisation) on rational objective vectors, and the
    abstract strict-order interface it satisfies. This is the contract assumed of
    desdeo_tools.utilities.dominates (external code). *)
From Verif Require Import Base.
From Coq Require Import QArith.
Open Scope Q_scope.

(** [a] is nowhere worse and somewhere strictly better than [b]. *)
Definition pareto (a b : list Q) : Prop :=
  Forall2 Qle a b /\ exists i x y, nth_error a i = Some x /\ nth_error b i = Some y /\ x < y.

Fixpoint all_le (a b : list Q) : bool :=
  match a, b with
  | [], [] => true
  | x :: a', y :: b' => Qle_bool x y && all_le a' b'
  | _, _ => false
  end.
Fixpoint some_lt (a b : list Q) : bool :=
  match a, b with
  | x :: a', y :: b' => negb (Qle_bool y x) || some_lt a' b'
  | _, _ => false
  end.
Definition dominates (a b : list Q) : bool := all_le a b && some_lt a b.

Lemma all_le_spec a b : all_le a b = true <-> Forall2 Qle a b.
Proof.
  revert b; induction a as [|x a IH]; intros [|y b]; simpl; split; intros H; try discriminate; auto; try (inversion H; fail).
  - apply andb_true_iff in H. destruct H as [H1 H2]. constructor; [apply Qle_bool_iff; auto|apply IH; auto].
  - inversion H; subst. apply andb_true_iff. split; [apply Qle_bool_iff; auto|apply IH; auto].
Qed.

Lemma some_lt_spec a b : some_lt a b = true <->
  exists i x y, nth_error a i = Some x /\ nth_error b i = Some y /\ x < y.
Proof.
  revert b; induction a as [|x a IH]; intros [|y b]; simpl.
  - split; [discriminate|]. intros ([|i] & u & v & H & _); discriminate.
  - split; [discriminate|]. intros ([|i] & u & v & H & _); discriminate.
  - split; [discriminate|]. intros ([|i] & u & v & _ & H & _); discriminate.
  - rewrite orb_true_iff, negb_true_iff, IH. split.
    + intros [H|(i & u & v & H)].
      * exists 0%nat, x, y. repeat split; auto. apply Qnot_le_lt. intros Hl.
        apply Qle_bool_iff in Hl. congruence.
      * exists (S i), u, v. exact H.
    + intros ([|i] & u & v & H1 & H2 & H3); simpl in *.
      * injection H1 as ->; injection H2 as ->. left.
        destruct (Qle_bool v u) eqn:E; auto. apply Qle_bool_iff in E.
        exfalso; apply (Qlt_not_le _ _ H3); auto.
      * right. exists i, u, v; auto.
Qed.

Lemma dominates_spec a b : dominates a b = true <-> pareto a b.
Proof. unfold dominates, pareto. rewrite andb_true_iff, all_le_spec, some_lt_spec. tauto. Qed.

Lemma Forall2_nth {A B} (R : A -> B -> Prop) l l' :
  Forall2 R l l' -> forall i x y, nth_error l i = Some x -> nth_error l' i = Some y -> R x y.
Proof.
  induction 1 as [|a b l l' HR H IH]; intros [|i] x y Hx Hy; simpl in *; try discriminate.
  - congruence.
  - eapply IH; eauto.
Qed.

Lemma Forall2_len {A B} (R : A -> B -> Prop) l l' : Forall2 R l l' -> length l = length l'.
Proof. induction 1; simpl; auto. Qed.

Lemma Forall2_Qle_trans a b c : Forall2 Qle a b -> Forall2 Qle b c -> Forall2 Qle a c.
Proof.
  intros H; revert c; induction H as [|x y a b Hxy H IH]; intros c Hc; inversion Hc; subst; constructor; auto.
  eapply Qle_trans; eauto.
Qed.

Lemma pareto_irrefl a : ~ pareto a a.
Proof.
  intros [_ (i & x & y & H1 & H2 & H3)]. rewrite H1 in H2. injection H2 as ->.
  exact (Qlt_irrefl _ H3).
Qed.

Lemma pareto_trans a b c : pareto a b -> pareto b c -> pareto a c.
Proof.
  intros [H1 (i & x & y & Hx & Hy & Hlt)] [H2 _]. split; [eapply Forall2_Qle_trans; eauto|].
  assert (exists z, nth_error c i = Some z) as [z Hz].
  { pose proof (Forall2_len _ _ _ H2) as Hl.
    destruct (nth_error c i) eqn:E; eauto. apply nth_error_None in E.
    assert (nth_error b i <> None) as Hn by congruence. apply nth_error_Some in Hn. lia. }
  exists i, x, z. repeat split; auto.
  eapply Qlt_le_trans; [exact Hlt|]. exact (Forall2_nth _ _ _ H2 i y z Hy Hz).
Qed.

(** Strict partial order given by a boolean test. *)
Definition strict_order {V} (dom : V -> V -> bool) : Prop :=
  (forall a, dom a a = false) /\
  (forall a b c, dom a b = true -> dom b c = true -> dom a c = true).

Lemma dominates_strict_order : strict_order dominates.
Proof.
  split.
  - intros a. destruct (dominates a a) eqn:E; auto. apply dominates_spec in E.
    exfalso; exact (pareto_irrefl a E).
  - intros a b c. rewrite !dominates_spec. apply pareto_trans.
Qed.

Lemma strict_asym {V} (dom : V -> V -> bool) a b :
  strict_order dom -> dom a b = true -> dom b a = false.
Proof.
  intros [Hi Ht] H. destruct (dom b a) eqn:E; auto.
  pose proof (Ht _ _ _ H E) as X. rewrite Hi in X. discriminate.
Qed.

(** In a finite list, if everything outside [keep] is dominated by something in the list then
    everything in the list is kept or dominated by something kept. *)
Section Cover.
Context {V : Type} (dom : V -> V -> bool) (Hso : strict_order dom).

Lemma filter_count_lt (L : list V) a b :
  In a L -> dom a b = true ->
  (length (filter (fun x => dom x a) L) < length (filter (fun x => dom x b) L))%nat.
Proof.
  intros Hin Hab.
  assert (Hle : forall M, (length (filter (fun x => dom x a) M) <= length (filter (fun x => dom x b) M))%nat).
  { induction M as [|y M IH]; simpl; auto.
    destruct (dom y a) eqn:E; simpl.
    - rewrite (proj2 Hso _ _ _ E Hab); simpl; lia.
    - destruct (dom y b); simpl; lia. }
  induction L as [|y L IH]; [contradiction|].
  destruct Hin as [->|Hin]; simpl.
  - rewrite (proj1 Hso), Hab; simpl. specialize (Hle L). lia.
  - specialize (IH Hin). destruct (dom y a) eqn:E; simpl.
    + rewrite (proj2 Hso _ _ _ E Hab); simpl; lia.
    + destruct (dom y b); simpl; lia.
Qed.

Lemma cover_by_kept (L : list V) (kept : V -> Prop) :
  (forall e, In e L -> kept e \/ exists e', In e' L /\ dom e' e = true) ->
  forall e, In e L -> exists k, In k L /\ kept k /\ (k = e \/ dom k e = true).
Proof.
  intros H e.
  remember (length (filter (fun x => dom x e) L)) as n eqn:En.
  revert e En. induction n as [n IH] using lt_wf_ind. intros e En Hin.
  destruct (H e Hin) as [Hk|(e' & Hin' & Hd)].
  - exists e; auto.
  - destruct (IH (length (filter (fun x => dom x e') L))) with (e := e') as (k & H1 & H2 & H3); auto.
    + subst n. apply filter_count_lt; auto.
    + exists k. split; auto. split; auto. right.
      destruct H3 as [->|H3]; auto. eapply (proj2 Hso); eauto.
Qed.
End Cover.
