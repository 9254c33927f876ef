(** Lemmas for C134. *)
From Coq Require Import QArith Lia Permutation.
From Verif Require Import Base M_BioGP Spec_BioGP P_BioGP P_BioGP2 P_BioGP3 P_BioGP4 P_BioGP5 M_GPmut.
Import ListNotations.
Open Scope nat_scope.

Section S.
Context {F T : Type} (arity : F -> nat) (pick : nat -> nat -> nat) (coin : nat -> bool) (fs : list F) (ts : list T).
Notation heap := (heap F T).
Notation tree := (tree F T).

(** ** More fuel gives the same *)
Lemma walk_more : forall f (h : heap) st r, walk f h st = Some r -> forall f', f <= f' -> walk f' h st = Some r.
Proof.
  induction f as [|f IH]; intros h st r H f' Hf; destruct st as [|x q]; cbn [walk] in H; try discriminate.
  - destruct f'; exact H.
  - destruct f'; exact H.
  - destruct f' as [|f']; [lia|]. cbn [walk].
    destruct (walk f (fold_left (set_depth (S (c_depth (h x)))) (c_roots (h x)) h) (q ++ c_roots (h x))) as [[h2 l]|] eqn:E; [|discriminate].
    rewrite (IH _ _ _ E f') by lia. exact H.
Qed.
Lemma standard_more max_depth (h : heap) next x k q : forall f r, mutate_standard arity pick coin fs ts f max_depth h next x k q = Ok r ->
  forall f', f <= f' -> mutate_standard arity pick coin fs ts f' max_depth h next x k q = Ok r.
Proof.
  intros f r H f' Hf. unfold mutate_standard in *. destruct (choose_node k (tl (snd x))) as [a|e]; [|discriminate]. cbn [bind] in *.
  destruct (grow arity pick coin fs ts false (max_depth - c_depth (h a)) q) as [p|e]; [|discriminate]. cbn [bind] in *.
  destruct (alloc h next (c_depth (h a)) (fst p)) as [h1 next']. unfold get_sub_nodes in *.
  destruct (walk f _ _) as [[h3 l]|] eqn:E; [|discriminate]. rewrite (walk_more _ _ _ _ E f' Hf). exact H.
Qed.

(** ** The loop, for a mutation [one] of a single individual *)
Section Loop.
Context (m : mmode).
Context (max_depth : nat).
Context (dr : nat -> mdraw F T).
(** What offspring number k must satisfy, and how its tree changes. *)
Context (Pre : nat -> heap -> ind -> itree -> Prop).
Context (R : nat -> tree -> tree -> Prop).
Context (Pre_frame : forall k h h' x t, Pre k h x t -> (forall i, In i (ids t) -> h' i = h i) -> Pre k h' x t).
Context (one_spec : forall k h next x t q, held h x t -> (forall i, In i (ids t) -> i < next) -> Pre k h x t ->
  exists need h' next' x' q' t', (forall fuel, need <= fuel -> mutate_one arity pick coin fs ts m max_depth (dr k) fuel h next x q = Ok (h', next', x', q')) /\
    held h' x' t' /\ fst x' = fst x /\ next <= next' /\ (forall i, i < next -> ~ In i (ids t) -> h' i = h i) /\
    (forall i, In i (ids t') -> In i (ids t) \/ next <= i < next') /\ R k (read h t) (read h' t')).

Lemma each_spec : forall xs ts0 k h next q, Forall2 (held h) xs ts0 -> NoDup (flat_map ids ts0) -> (forall i, In i (flat_map ids ts0) -> i < next) ->
  (forall j x t, nth_error xs j = Some x -> nth_error ts0 j = Some t -> Pre (k + j) h x t) ->
  exists need h' next' q' xs' ts', (forall fuel, need <= fuel -> mutate_each arity pick coin fs ts m max_depth dr k fuel h next xs q = Ok (h', next', xs', q')) /\
    Forall2 (held h') xs' ts' /\ map fst xs' = map fst xs /\ next <= next' /\ NoDup (flat_map ids ts') /\
    (forall i, i < next -> ~ In i (flat_map ids ts0) -> h' i = h i) /\
    (forall i, In i (flat_map ids ts') -> In i (flat_map ids ts0) \/ next <= i < next') /\
    (forall j t, nth_error ts0 j = Some t -> exists t', nth_error ts' j = Some t' /\ R (k + j) (read h t) (read h' t')).
Proof.
  induction xs as [|x xs IH]; intros ts0 k h next q H ND Rg P; inversion H as [|x0 t xs0 tr Hx Hr]; subst.
  - exists 0, h, next, q, [], []. split; [reflexivity|]. split; [constructor|]. split; [reflexivity|]. split; [lia|]. split; [constructor|]. split; [auto|]. split; [intros i []|].
    intros j t Hj. destruct j; discriminate.
  - cbn [flat_map] in ND, Rg. destruct (NoDup_app_parts _ _ ND) as (ND1 & ND2 & Dis).
    assert (Pk : Pre k h x t). { pose proof (P 0 x t eq_refl eq_refl) as P0. rewrite Nat.add_0_r in P0. exact P0. }
    destruct (one_spec k h next x t q Hx) as (need1 & h1 & next1 & x1 & q1 & t1 & E1 & H1 & R1 & L1 & F1 & I1 & Rel1).
    { intros i Hi. apply Rg. apply in_or_app; auto. } { exact Pk. }
    assert (Fr : forall i, In i (flat_map ids tr) -> h1 i = h i).
    { intros i Hi. apply F1; [apply Rg; apply in_or_app; auto|]. intros Hc. exact (Dis i Hc Hi). }
    assert (Hr1 : Forall2 (held h1) xs tr).
    { clear -Hr Fr. induction Hr as [|y u ys us Hy Hr IH]; constructor.
      - apply (held_frame h); auto. intros i Hi. apply Fr. cbn [flat_map]. apply in_or_app; auto.
      - apply IH. intros i Hi. apply Fr. cbn [flat_map]. apply in_or_app; auto. }
    destruct (IH tr (S k) h1 next1 q1 Hr1 ND2) as (need2 & h2 & next2 & q2 & xs2 & ts2 & E2 & H2 & R2 & L2 & N2 & F2 & I2 & Rel2).
    { intros i Hi. assert (i < next) by (apply Rg; apply in_or_app; auto). lia. }
    { intros j y u Hy Hu. apply (Pre_frame _ h).
      - replace (S k + j) with (k + S j) by lia. apply P; auto.
      - intros i Hi. apply Fr. apply in_flat_map. exists u. split; auto. eapply nth_error_In; eauto. }
    assert (Fr2 : forall i, In i (ids t1) -> h2 i = h1 i).
    { intros i Hi. destruct (I1 i Hi) as [Hi'|Hi'].
      - apply F2; [|intros Hc; exact (Dis i Hi' Hc)]. assert (i < next) by (apply Rg; apply in_or_app; auto). lia.
      - apply F2; [lia|]. intros Hc. assert (i < next) by (apply Rg; apply in_or_app; auto). lia. }
    exists (Nat.max need1 need2), h2, next2, q2, (x1 :: xs2), (t1 :: ts2). split.
    { intros fuel Hf. cbn [mutate_each]. rewrite E1 by lia. cbn [bind]. rewrite E2 by lia. reflexivity. }
    split. { constructor; auto. apply (held_frame h1); auto. }
    split. { cbn [map]. rewrite R1, R2. reflexivity. }
    split. { lia. }
    split.
    { cbn [flat_map]. assert (N1 : NoDup (ids t1)) by (apply H1). clear -N1 N2 I1 I2 Rg Dis L1.
      induction (ids t1) as [|a l IHl]; [exact N2|]. cbn [app]. inversion N1 as [|a0 l0 Ha Hl]; subst. constructor.
      - intros Hc. apply in_app_or in Hc. destruct Hc as [Hc|Hc]; [auto|]. destruct (I2 a Hc) as [G|G]; destruct (I1 a (or_introl eq_refl)) as [G'|G'].
        + exact (Dis a G' G).
        + assert (a < next) by (apply Rg; apply in_or_app; auto). lia.
        + assert (a < next) by (apply Rg; apply in_or_app; auto). lia.
        + lia.
      - apply IHl; auto. intros i Hi. apply I1. right; auto. }
    split.
    { intros i Hi Hc. cbn [flat_map] in Hc. rewrite F2; [apply F1; auto; intros G; apply Hc; apply in_or_app; auto|lia|intros G; apply Hc; apply in_or_app; auto]. }
    split.
    { intros i Hi. cbn [flat_map] in *. apply in_app_or in Hi. destruct Hi as [Hi|Hi].
      - destruct (I1 i Hi); [left; apply in_or_app; auto|right; lia].
      - destruct (I2 i Hi); [left; apply in_or_app; auto|right; lia]. }
    intros [|j] u Hu; cbn [nth_error] in *.
    + injection Hu as <-. exists t1. split; [reflexivity|]. rewrite Nat.add_0_r.
      replace (read h2 t1) with (read h1 t1); [exact Rel1|]. symmetry. apply read_frame. intros i Hi. rewrite (Fr2 i Hi). auto.
    + destruct (Rel2 j u Hu) as (t' & Ht & Hrel). exists t'. split; auto. replace (k + S j) with (S k + j) by lia.
      replace (read h u) with (read h1 u); [exact Hrel|]. apply read_frame. intros i Hi. rewrite Fr; auto. apply in_flat_map. exists u. split; auto. eapply nth_error_In; eauto.
Qed.
End Loop.
End S.
