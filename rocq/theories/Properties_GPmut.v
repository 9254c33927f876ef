(** C134: BioGP mutation of a whole list of offspring, and breeding (crossover, then mutation). *)
From Coq Require Import QArith Lia Lqa Permutation.
From Verif Require Import Base M_BioGP Spec_BioGP P_BioGP P_BioGP2 P_BioGP3 P_BioGP4 P_BioGP5 Properties_BioGP M_GPmut P_GPmut.
Import ListNotations.
Open Scope nat_scope.

Lemma qle_true a b : (a <= b)%Q -> Qle_bool a b = true.
Proof. apply Qle_bool_iff. Qed.
Lemma qle_false a b : (b < a)%Q -> Qle_bool a b = false.
Proof. intros H. apply Bool.not_true_iff_false. rewrite Qle_bool_iff. apply Qlt_not_le. auto. Qed.

(** ** Which mutation *)
(** C134. The function mutate acts on every list of offspring exactly as the operator object of the same probability (0.3 when the parameter is omitted). *)
Theorem C134_function_as_operator : forall (F T : Type) (arity : F -> nat) pick coin fs (ts : list T) r max_depth dr fuel h next xs q,
  (forall p, mutate_fn arity pick coin fs ts (Some p) r max_depth dr fuel h next xs q = mutate_do arity pick coin fs ts p r max_depth dr fuel h next xs q) /\
  mutate_fn arity pick coin fs ts None r max_depth dr fuel h next xs q = mutate_do arity pick coin fs ts (3 # 10) r max_depth dr fuel h next xs q.
Proof.
  intros F T arity pick coin fs ts r max_depth dr fuel h next xs q.
  assert (E : forall p, fn_mut_mode p r = class_mut_mode p r).
  { intros p. unfold fn_mut_mode, class_mut_mode. cbv zeta.
    assert (B : forall a b, (a == b)%Q -> Qle_bool r a = Qle_bool r b) by (intros a b Hab; apply Bool.eq_true_iff_eq; rewrite !Qle_bool_iff, Hab; reflexivity).
    rewrite (B ((1 # 3) * p) (p / 3))%Q by field. rewrite (B ((1 # 3) * p + (1 # 3) * p) (p / 3 + p / 3))%Q by field.
    rewrite (B (p - (1 # 3) * p - (1 # 3) * p + (1 # 3) * p + (1 # 3) * p) p)%Q by ring. reflexivity. }
  unfold mutate_fn, mutate_do. split; [intros p|]; rewrite E; reflexivity.
Qed.

Section S.
Context {F T : Type} (arity : F -> nat) (pick : nat -> nat -> nat) (coin : nat -> bool) (fs : list F) (ts : list T).
Notation heap := (heap F T).
Notation individual := (individual arity fs ts).
Notation mutate_do := (mutate_do arity pick coin fs ts).
Implicit Types (h : heap).

(** A list of offspring: individuals made of objects of their own, all allocated. *)
Definition offspring_list h (next : nat) (xs : list ind) (ts0 : list itree) : Prop :=
  Forall2 (held h) xs ts0 /\ NoDup (flat_map ids ts0) /\ (forall i, In i (flat_map ids ts0) -> i < next) /\ forall t, In t ts0 -> individual (read h t).
(** The offspring afterwards: again such a list, the same (root) objects in the same order; no object is touched that neither belongs to the offspring nor is new. *)
Definition mutated_list h next (xs : list ind) ts0 h' next' (xs' : list ind) ts' : Prop :=
  offspring_list h' next' xs' ts' /\ map fst xs' = map fst xs /\ (forall i, i < next -> ~ In i (flat_map ids ts0) -> h' i = h i) /\
  (forall i, In i (flat_map ids ts') -> In i (flat_map ids ts0) \/ next <= i < next').

(** C134. When the number drawn exceeds the probability, no offspring is touched. *)
Theorem C134_not_mutated : forall p r max_depth dr fuel h next xs q, (0 <= p)%Q -> (p < r)%Q ->
  mutate_do p r max_depth dr fuel h next xs q = Ok (h, next, xs, q).
Proof.
  intros p r max_depth dr fuel h next xs q Hp Hr. unfold M_GPmut.mutate_do, class_mut_mode.
  assert (p / 3 == (1 # 3) * p)%Q as E by field.
  rewrite !qle_false; [|lra|rewrite E; lra|rewrite E; lra]. generalize 0 as k. induction xs as [|x xs IH]; intros k; [reflexivity|]. cbn [mutate_each mutate_one bind]. rewrite IH. reflexivity.
Qed.

(** C134. Up to a third of the probability: every offspring (with at least one subtree and not deeper than max_depth) has one subtree replaced by a newly grown one; all of them are
    well formed and not deeper than max_depth. *)
Theorem C134_standard : forall p r max_depth dr h next xs ts0 q, (0 <= p)%Q -> (r <= p / 3)%Q -> fs <> [] -> ts <> [] ->
  offspring_list h next xs ts0 -> (forall t, In t ts0 -> 1 < length (ids t) /\ depth_within max_depth (read h t)) ->
  exists need h' next' q' xs' ts', (forall fuel, need <= fuel -> mutate_do p r max_depth dr fuel h next xs q = Ok (h', next', xs', q')) /\
    mutated_list h next xs ts0 h' next' xs' ts' /\
    (forall j t, nth_error ts0 j = Some t -> exists t', nth_error ts' j = Some t' /\ depth_within max_depth (read h' t') /\ exists n s g, 0 < n /\ replaced s g n (read h t) (read h' t')).
Proof.
  intros p r max_depth dr h next xs ts0 q Hp Hr Hf Ht (H & ND & Rg & W) Z.
  set (Pre := fun (_ : nat) (h : heap) (x : ind) (t : itree) => individual (read h t) /\ 1 < length (ids t) /\ depth_within max_depth (read h t)).
  set (R := fun (_ : nat) (g g' : tree F T) => individual g' /\ depth_within max_depth g' /\ exists n s s', 0 < n /\ replaced s s' n g g').
  destruct (each_spec arity pick coin fs ts MutStandard max_depth dr Pre R) with (xs := xs) (ts0 := ts0) (k := 0) (h := h) (next := next) (q := q)
    as (need & h' & next' & q' & xs' & ts' & E & A1 & A2 & A3 & A4 & A5 & A6 & A7); auto.
  - intros k h0 h1 x t (P1 & P2 & P3) Hfr. assert (read h1 t = read h0 t) as Er by (apply read_frame; intros i Hi; rewrite Hfr; auto). unfold Pre. rewrite Er. auto.
  - intros k h0 next0 x t q0 Hx Rx (P1 & P2 & P3).
    destruct (standard_spec arity fs ts pick coin max_depth h0 next0 x t (md_node (dr k)) q0 Hx) as (need & Sp); auto. { intros i Hi. split; [lia|auto]. }
    destruct (Sp need (Nat.le_refl _)) as (h1 & next1 & x1 & q1 & t1 & n & s & g & E & B1 & B2 & B3 & B4 & B5 & B6 & B7 & B8 & B9).
    exists need, h1, next1, x1, q1, t1. split. { intros fuel Hfu. cbn [mutate_one]. eapply standard_more; eauto. }
    split; auto. split; auto. split; [lia|]. split; [intros i Hi Hn; apply B8; auto|]. split; auto.
    split. { eapply replaced_individual; eauto. intros m y Hy. apply (B7 m y Hy). }
    split. { eapply replaced_depth; eauto. intros m y Hy. destruct (B7 m y Hy) as (_ & X & _). pose proof (replaced_level _ _ _ _ _ B6) as (L & _). pose proof (P3 n s L). lia. }
    eauto.
  - intros j x t Hx Htj. pose proof (nth_error_In _ _ Htj) as Hin. destruct (Z t Hin). split; auto.
  - exists need, h', next', q', xs', ts'. split. { intros fuel Hfu. unfold M_GPmut.mutate_do, class_mut_mode. rewrite qle_true by auto. auto. }
    assert (Rall : forall t', In t' ts' -> individual (read h' t')).
    { intros t' Hin. apply In_nth_error in Hin. destruct Hin as (j & Hj).
      assert (Hlt : j < length ts0).
      { assert (Lx : length xs' = length xs) by (pose proof (f_equal (@length nat) A2) as X; rewrite !map_length in X; exact X).
        rewrite <- (Forall2_len _ _ _ H), <- Lx, (Forall2_len _ _ _ A1). apply nth_error_Some. congruence. }
      destruct (nth_error ts0 j) as [t|] eqn:Et; [|apply nth_error_None in Et; lia]. destruct (A7 j t Et) as (t2 & E2 & R2 & _). congruence. }
    split; [split; [split; auto; split; auto; split; auto|split; auto]|].
    { intros i Hi. destruct (A6 i Hi) as [G|G]; [specialize (Rg i G); lia|lia]. }
    intros j t Hj. destruct (A7 j t Hj) as (t2 & E2 & _ & R2 & R3). exists t2. split; auto.
Qed.

(** C134 (partial). Between one and two thirds of the probability: node values are redrawn in place; the offspring keep their shape and depth, and stay well formed if no function node with
    arguments is turned into a terminal (whenever the first of the two draws of such a node fails, so does the second). Missing: that condition is not enforced (C62_small_mutation_refuted). *)
Theorem C134_small_partial : forall p r max_depth dr h next xs ts0 q, (0 <= p)%Q -> (p / 3 < r)%Q -> (r <= p / 3 + p / 3)%Q ->
  offspring_list h next xs ts0 ->
  (forall k y, In (d_f (md_small (dr k) y)) fs /\ In (d_t (md_small (dr k) y)) ts) ->
  (forall k t i f, nth_error ts0 k = Some t -> In i (ids t) -> c_val (h i) = VFun f -> arity f <> 0 -> d_c1 (md_small (dr k) i) = false -> d_c2 (md_small (dr k) i) = false) ->
  exists need h' next' q' xs' ts', (forall fuel, need <= fuel -> mutate_do p r max_depth dr fuel h next xs q = Ok (h', next', xs', q')) /\
    mutated_list h next xs ts0 h' next' xs' ts' /\
    (forall j t, nth_error ts0 j = Some t -> exists t', nth_error ts' j = Some t' /\ length (values (read h' t')) = length (values (read h t)) /\
       forall d, depth_within d (read h t) -> depth_within d (read h' t')).
Proof.
  intros p r max_depth dr h next xs ts0 q Hp Hr1 Hr2 (H & ND & Rg & W) Hd Z.
  set (Pre := fun (k : nat) (h : heap) (x : ind) (t : itree) => individual (read h t) /\
    forall i f, In i (ids t) -> c_val (h i) = VFun f -> arity f <> 0 -> d_c1 (md_small (dr k) i) = false -> d_c2 (md_small (dr k) i) = false).
  set (R := fun (_ : nat) (g g' : tree F T) => individual g' /\ length (values g') = length (values g) /\ forall d, depth_within d g -> depth_within d g').
  assert (Mode : class_mut_mode p r = MutSmall).
  { unfold class_mut_mode. rewrite (qle_false r (p / 3)) by auto. rewrite qle_true by auto. reflexivity. }
  destruct (each_spec arity pick coin fs ts MutSmall max_depth dr Pre R) with (xs := xs) (ts0 := ts0) (k := 0) (h := h) (next := next) (q := q)
    as (need & h' & next' & q' & xs' & ts' & E & A1 & A2 & A3 & A4 & A5 & A6 & A7); auto.
  - intros k h0 h1 x t (P1 & P2) Hfr. assert (read h1 t = read h0 t) as Er by (apply read_frame; intros i Hi; rewrite Hfr; auto). split; [rewrite Er; auto|].
    intros i f Hi. rewrite (Hfr i Hi). apply P2; auto.
  - intros k h0 next0 x t q0 Hx Rx (P1 & P2).
    destruct (C62_small_mutation_partial arity fs ts (length (ids t)) h0 x t (md_small (dr k)) Hx P1 (Nat.le_refl _) (Hd k) P2) as (h1 & x1 & E & B1 & B2 & B3 & B4 & B5).
    exists (length (ids t)), h1, next0, x1, q0, t. split.
    { intros fuel Hfu. cbn [mutate_one]. replace (mutate_small arity fuel h0 x (md_small (dr k))) with (Ok (h1, x1)); [reflexivity|]. symmetry.
      unfold mutate_small in *. unfold get_sub_nodes in *. destruct (walk (length (ids t)) _ _) as [[h3 l]|] eqn:Ew; [|discriminate]. rewrite (walk_more _ _ _ _ Ew fuel Hfu). exact E. }
    split; auto. split; auto. split; [lia|]. split; [intros i Hi Hn; apply B5; auto|]. split; [intros i Hi; left; auto|]. split; auto.
    split; auto. rewrite !read_size. reflexivity.
  - intros j x t Hx Htj. pose proof (nth_error_In _ _ Htj) as Hin. split; [apply W; auto|]. intros i f. apply (Z j t i f Htj).
  - exists need, h', next', q', xs', ts'. split. { intros fuel Hfu. unfold M_GPmut.mutate_do. rewrite Mode. auto. }
    assert (Rall : forall t', In t' ts' -> individual (read h' t')).
    { intros t' Hin. apply In_nth_error in Hin. destruct Hin as (j & Hj).
      assert (Hlt : j < length ts0).
      { assert (Lx : length xs' = length xs) by (pose proof (f_equal (@length nat) A2) as X; rewrite !map_length in X; exact X).
        rewrite <- (Forall2_len _ _ _ H), <- Lx, (Forall2_len _ _ _ A1). apply nth_error_Some. congruence. }
      destruct (nth_error ts0 j) as [t|] eqn:Et; [|apply nth_error_None in Et; lia]. destruct (A7 j t Et) as (t2 & E2 & R2 & _). congruence. }
    split; [split; [split; auto; split; auto; split; auto|split; auto]|].
    { intros i Hi. destruct (A6 i Hi) as [G|G]; [specialize (Rg i G); lia|lia]. }
    intros j t Hj. destruct (A7 j t Hj) as (t2 & E2 & _ & R2 & R3). exists t2. split; auto.
Qed.

(** C134 (partial). Above two thirds of the probability: two nodes below the linear node of every offspring change places (their positions differ and exist); all stay well formed.
    Missing: the depth (C62_mono_parental_refuted). *)
Theorem C134_mono_parental_partial : forall p r max_depth dr h next xs ts0 q, (0 <= p)%Q -> (p / 3 + p / 3 < r)%Q -> (r <= p)%Q ->
  offspring_list h next xs ts0 ->
  (forall k t, nth_error ts0 k = Some t -> md_i (dr k) <> md_j (dr k) /\ S (md_i (dr k)) < length (ids t) /\ S (md_j (dr k)) < length (ids t)) ->
  exists need h' q' xs' ts', (forall fuel, need <= fuel -> mutate_do p r max_depth dr fuel h next xs q = Ok (h', next, xs', q')) /\
    mutated_list h next xs ts0 h' next xs' ts' /\
    (forall j t, nth_error ts0 j = Some t -> exists t', nth_error ts' j = Some t' /\
       (Permutation (values (read h' t')) (values (read h t)) \/ exists n m s s', at_level s m s' /\ 0 < m /\ 0 < n /\ replaced s s' n (read h t) (read h' t'))).
Proof.
  intros p r max_depth dr h next xs ts0 q Hp Hr1 Hr2 (H & ND & Rg & W) Z.
  set (Pre := fun (k : nat) (h : heap) (x : ind) (t : itree) => individual (read h t) /\ md_i (dr k) <> md_j (dr k) /\ S (md_i (dr k)) < length (ids t) /\ S (md_j (dr k)) < length (ids t)).
  set (R := fun (_ : nat) (g g' : tree F T) => individual g' /\ (Permutation (values g') (values g) \/ exists n m s s', at_level s m s' /\ 0 < m /\ 0 < n /\ replaced s s' n g g')).
  assert (Mode : class_mut_mode p r = MutMono).
  { unfold class_mut_mode. assert (p / 3 == (1 # 3) * p)%Q as E by field. rewrite E in Hr1. rewrite (qle_false r (p / 3)) by (rewrite E; lra). rewrite (qle_false r (p / 3 + p / 3)) by (rewrite E; lra). rewrite qle_true by auto. reflexivity. }
  assert (G : exists need h' next' q' xs' ts', (forall fuel, need <= fuel -> mutate_do p r max_depth dr fuel h next xs q = Ok (h', next', xs', q')) /\ next' = next /\
    mutated_list h next xs ts0 h' next xs' ts' /\
    (forall j t, nth_error ts0 j = Some t -> exists t', nth_error ts' j = Some t' /\ R j (read h t) (read h' t'))).
  { destruct (each_spec arity pick coin fs ts MutMono max_depth dr Pre R) with (xs := xs) (ts0 := ts0) (k := 0) (h := h) (next := next) (q := q)
      as (need & h' & next' & q' & xs' & ts' & E & A1 & A2 & A3 & A4 & A5 & A6 & A7); auto.
    - intros k h0 h1 x t (P1 & P2) Hfr. assert (read h1 t = read h0 t) as Er by (apply read_frame; intros i Hi; rewrite Hfr; auto). unfold Pre. rewrite Er. auto.
    - intros k h0 next0 x t q0 Hx Rx (P1 & P2 & P3 & P4).
      assert (Lx : length (tl (snd x)) = length (ids t) - 1).
      { destruct Hx as (_ & (Pm & _)). pose proof (Permutation_length Pm) as Pl. destruct (snd x); cbn in *; lia. }
      assert (Sp : forall fuel, length (ids t) <= fuel -> exists h' x' t', mutate_mono fuel h0 x (md_i (dr k)) (md_j (dr k)) = Ok (h', x') /\ held h' x' t' /\ fst x' = fst x /\ (individual (read h0 t) -> individual (read h' t')) /\
         (forall k, ~ In k (ids t) -> h' k = h0 k) /\ (forall k, In k (ids t') -> In k (ids t)) /\ (Permutation (values (read h' t')) (values (read h0 t)) \/
         exists n m s s', at_level s m s' /\ 0 < m /\ 0 < n /\ replaced s s' n (read h0 t) (read h' t'))).
      { intros fuel Hfu. apply (mono_spec arity fs ts); auto; lia. }
      destruct (Sp (length (ids t)) (Nat.le_refl _)) as (h1 & x1 & t1 & E & B1 & B2 & B3 & B4 & B5 & B6).
      exists (length (ids t)), h1, next0, x1, q0, t1. split.
      { intros fuel Hfu. cbn [mutate_one]. replace (mutate_mono fuel h0 x (md_i (dr k)) (md_j (dr k))) with (Ok (h1, x1)); [reflexivity|]. symmetry.
        unfold mutate_mono in *. destruct (nth_error (tl (snd x)) (md_i (dr k))); [|discriminate]. destruct (nth_error (tl (snd x)) (md_j (dr k))); [|discriminate].
        unfold get_sub_nodes in *. destruct (walk (length (ids t)) _ _) as [[h3 l]|] eqn:Ew; [|discriminate]. rewrite (walk_more _ _ _ _ Ew fuel Hfu). exact E. }
      split; auto. split; auto. split; [lia|]. split; [intros i Hi Hn; apply B4; auto|]. split; [intros i Hi; left; auto|]. split; auto.
    - intros j x t Hx Htj. pose proof (nth_error_In _ _ Htj) as Hin. destruct (Z j t Htj) as (Z1 & Z2 & Z3). split; [apply W; auto|]. auto.
    - assert (Hn : next' = next).
      { specialize (E need (Nat.le_refl _)). clear -E. revert E. generalize 0 as k. revert h q h' next' q' xs'. induction xs as [|x xs IH]; intros h q h' next' q' xs' k E; cbn [mutate_each] in E.
        - congruence.
        - cbn [mutate_one] in E. destruct (mutate_mono need h x (md_i (dr k)) (md_j (dr k))) as [[h1 x1]|e]; [|discriminate]. cbn [bind] in E.
          destruct (mutate_each arity pick coin fs ts MutMono max_depth dr (S k) need h1 next xs q) as [[[[h2 n2] xs2] t2]|e] eqn:E2; [|discriminate]. cbn [bind] in E. apply IH in E2. congruence. }
      subst next'. exists need, h', next, q', xs', ts'. split. { intros fuel Hfu. unfold M_GPmut.mutate_do. rewrite Mode. auto. }
      split; [reflexivity|].
      assert (Rall : forall t', In t' ts' -> individual (read h' t')).
      { intros t' Hin. apply In_nth_error in Hin. destruct Hin as (j & Hj).
        assert (Hlt : j < length ts0).
        { assert (Lx : length xs' = length xs) by (pose proof (f_equal (@length nat) A2) as X; rewrite !map_length in X; exact X).
        rewrite <- (Forall2_len _ _ _ H), <- Lx, (Forall2_len _ _ _ A1). apply nth_error_Some. congruence. }
        destruct (nth_error ts0 j) as [t|] eqn:Et; [|apply nth_error_None in Et; lia]. destruct (A7 j t Et) as (t2 & E2 & R2 & _). congruence. }
      split; [split; [split; auto; split; auto; split; auto|split; auto]|auto].
      intros i Hi. destruct (A6 i Hi) as [G|G]; [specialize (Rg i G); lia|lia]. }
  destruct G as (need & h' & next' & q' & xs' & ts' & G1 & -> & G2 & G3). exists need, h', q', xs', ts'. split; auto. split; auto.
  intros j t Hj. destruct (G3 j t Hj) as (t' & E' & _ & R'). exists t'. auto.
Qed.

(** C134 (false of the code). Mutation can fail: an offspring with a single node below its linear node (grown when max_subtrees is 1 and the first node is a terminal) makes the mono-parental
    mutation of the whole list raise, whatever is drawn; the offspring before it have then been mutated already. *)
Theorem C134_single_node_refuted : forall p r max_depth dr h next xs ts0 x t rest q, (0 <= p)%Q -> (p / 3 + p / 3 < r)%Q -> (r <= p)%Q ->
  offspring_list h next xs ts0 ->
  (forall k u, nth_error ts0 k = Some u -> md_i (dr k) <> md_j (dr k) /\ S (md_i (dr k)) < length (ids u) /\ S (md_j (dr k)) < length (ids u)) ->
  held h x t -> (forall i, In i (ids t) -> i < next /\ ~ In i (flat_map ids ts0)) -> length (ids t) <= 2 -> md_i (dr (length xs)) <> md_j (dr (length xs)) ->
  exists need, forall fuel, need <= fuel -> mutate_do p r max_depth dr fuel h next (xs ++ x :: rest) q = Err ValueError.
Proof.
  intros p r max_depth dr h next xs ts0 x t rest q Hp Hr1 Hr2 HO Z Hx Hd Ht Nij.
  destruct (C134_mono_parental_partial p r max_depth dr h next xs ts0 q Hp Hr1 Hr2 HO Z) as (need & h' & q' & xs' & ts' & E & (_ & _ & Fr & _) & _).
  assert (Mode : class_mut_mode p r = MutMono).
  { unfold class_mut_mode. assert (p / 3 == (1 # 3) * p)%Q as Ep by field. rewrite Ep in Hr1. rewrite (qle_false r (p / 3)) by (rewrite Ep; lra). rewrite (qle_false r (p / 3 + p / 3)) by (rewrite Ep; lra). rewrite qle_true by auto. reflexivity. }
  exists need. intros fuel Hfu. specialize (E fuel Hfu). unfold M_GPmut.mutate_do in *. rewrite Mode in *. clear Mode.
  assert (Lx : length (tl (snd x)) <= 1).
  { destruct Hx as (_ & (Pm & _)). pose proof (Permutation_length Pm) as Pl. destruct (snd x); cbn in *; lia. }
  assert (App : forall l k h0 q0 h1 n1 l1 q1 l2, mutate_each arity pick coin fs ts MutMono max_depth dr k fuel h0 next l q0 = Ok (h1, n1, l1, q1) ->
     mutate_each arity pick coin fs ts MutMono max_depth dr k fuel h0 next (l ++ l2) q0 =
     bind (mutate_each arity pick coin fs ts MutMono max_depth dr (k + length l) fuel h1 n1 l2 q1) (fun '(h2, n2, l3, q2) => Ok (h2, n2, l1 ++ l3, q2))).
  { clear. induction l as [|y l IH]; intros k h0 q0 h1 n1 l1 q1 l2 E; cbn [mutate_each app] in *.
    - injection E as <- <- <- <-. cbn [length]. rewrite Nat.add_0_r. destruct (mutate_each _ _ _ _ _ _ _ _ _ _ _ _ _ _) as [[[[? ?] ?] ?]|]; reflexivity.
    - cbn [mutate_one] in *. destruct (mutate_mono fuel h0 y (md_i (dr k)) (md_j (dr k))) as [[h2 x2]|e]; [|discriminate]. cbn [bind] in *.
      destruct (mutate_each arity pick coin fs ts MutMono max_depth dr (S k) fuel h2 next l q0) as [[[[h3 n3] l3] q3]|e] eqn:E3; [|discriminate]. cbn [bind] in E. injection E as <- <- <- <-.
      rewrite (IH _ _ _ _ _ _ _ l2 E3). cbn [length]. replace (k + S (length l)) with (S k + length l) by lia.
      destruct (mutate_each arity pick coin fs ts MutMono max_depth dr (S k + length l) fuel h3 n3 l2 q3) as [[[[? ?] ?] ?]|]; reflexivity. }
  rewrite (App _ _ _ _ _ _ _ _ (x :: rest) E). cbn [mutate_each mutate_one Nat.add]. unfold mutate_mono.
  destruct (nth_error (tl (snd x)) (md_i (dr (length xs)))) as [a|] eqn:E1; [|reflexivity].
  destruct (nth_error (tl (snd x)) (md_j (dr (length xs)))) as [b|] eqn:E2; [|reflexivity].
  assert (md_i (dr (length xs)) < length (tl (snd x))) by (apply nth_error_Some; congruence).
  assert (md_j (dr (length xs)) < length (tl (snd x))) by (apply nth_error_Some; congruence). lia.
Qed.

(** ** Breeding: BioGP_xover.do, then BioGP_mutation.do on the offspring (Population.mate) *)
Lemma replaced_root_size s s' n (g g' : tree F T) : replaced s s' n g g' -> 0 < n -> 1 < length (values g').
Proof.
  intros H Hn. destruct H as [|n v pre k k' post H]; [lia|]. cbn [values length]. rewrite flat_map_app, app_length. cbn [flat_map]. rewrite app_length. destruct k'. cbn [values length]. lia.
Qed.
Lemma exchanged_size m (g1 g2 g1' g2' : tree F T) : exchanged m g1 g2 g1' g2' -> 1 < length (values g1) -> 1 < length (values g2) -> 1 < length (values g1') /\ 1 < length (values g2').
Proof.
  intros H L1 L2. destruct m; cbn [exchanged] in H.
  - destruct H as (n1 & n2 & s1 & s2 & R1 & R2 & E & _). specialize (E eq_refl). subst n2. destruct n1 as [|n].
    + inversion R1; subst. inversion R2; subst. auto.
    + split; eapply replaced_root_size; eauto; lia.
  - destruct H as (n1 & n2 & s1 & s2 & R1 & R2 & _ & E). destruct (E eq_refl). split; eapply replaced_root_size; eauto.
  - destruct H as (-> & ->). auto.
Qed.
(** C134. Breeding from well-formed individuals with any kind of crossover, followed by no or by standard mutation: two offspring per mating pair, every one a well-formed individual with objects of
    its own; the parents are not touched. (The depth is not bounded here: C92.) *)
Theorem C134_breeding : forall fuel m ks pairs p r dr h next pop ts0 max_depth q, (0 <= p)%Q -> (r <= p / 3)%Q \/ (p < r)%Q -> fs <> [] -> ts <> [] ->
  Forall2 (held h) pop ts0 -> (forall t, In t ts0 -> individual (read h t)) -> (forall t, In t ts0 -> 1 < length (ids t)) -> (forall t i, In t ts0 -> In i (ids t) -> i < next) ->
  2 * length (flat_map ids ts0) <= fuel -> (forall pr, In pr pairs -> fst pr < length pop /\ snd pr < length pop) ->
  exists h1 next1 off, xover_do fuel m h next pop pairs ks 0 = Ok (h1, next1, off) /\
    exists need h' next' q' xs' ts', (forall fuel', need <= fuel' -> mutate_do p r max_depth dr fuel' h1 next1 off q = Ok (h', next', xs', q')) /\
      offspring_list h' next' xs' ts' /\ length xs' = 2 * length pairs /\ (forall i, i < next -> h' i = h i) /\
      (forall t i, In t ts' -> In i (ids t) -> next <= i).
Proof.
  intros fuel m ks pairs p r dr h next pop ts0 max_depth q Hp Hr Hf Ht H W Z Rg Hfu Hpairs.
  assert (Sz : forall t, In t ts0 -> length (ids t) <= length (flat_map ids ts0)).
  { intros t Hin. apply in_split in Hin. destruct Hin as (a & b & ->). rewrite flat_map_app, app_length. cbn [flat_map]. rewrite app_length. lia. }
  destruct (xover_do_spec fuel m ks pop ts0 pairs h next 0 H) as (h1 & next1 & off & ts1 & E & O1 & O2 & O3 & O4 & O5 & O6 & O7); auto.
  { intros t Hin. specialize (Sz t Hin). split; [auto|lia]. } { intros t Hin i Hi. split; [lia|eauto]. }
  { intros pr qr t1 t2 Hin -> E1 E2. pose proof (Sz t1 (nth_error_In _ _ E1)). pose proof (Sz t2 (nth_error_In _ _ E2)). lia. }
  exists h1, next1, off. split; [exact E|].
  assert (Each : forall t, In t ts1 -> individual (read h1 t) /\ 1 < length (ids t)).
  { intros t Hin. apply In_nth_error in Hin. destruct Hin as (j & Hj). assert (Lj : j < 2 * length pairs) by (rewrite <- O2, (Forall2_len _ _ _ O1); apply nth_error_Some; congruence).
    assert (Hk : j / 2 < length pairs) by (apply Nat.div_lt_upper_bound; lia). destruct (nth_error pairs (j / 2)) as [pr|] eqn:Ep; [|apply nth_error_None in Ep; lia].
    destruct (O7 _ _ Ep) as (g1 & g2 & g1' & g2' & G1 & G2 & G3 & G4 & G5). rewrite nth_error_map in G1, G2, G3, G4.
    destruct (nth_error ts0 (fst pr)) as [a|] eqn:Ea; [|discriminate]. destruct (nth_error ts0 (snd pr)) as [b|] eqn:Eb; [|discriminate]. cbn in G1, G2. injection G1 as <-. injection G2 as <-.
    destruct (nth_error ts1 (2 * (j / 2))) as [a'|] eqn:Ea'; [|discriminate]. destruct (nth_error ts1 (2 * (j / 2) + 1)) as [b'|] eqn:Eb'; [|discriminate]. cbn in G3, G4. injection G3 as <-. injection G4 as <-.
    pose proof (nth_error_In _ _ Ea) as Ina. pose proof (nth_error_In _ _ Eb) as Inb.
    destruct (exchanged_individuals arity fs ts _ _ _ _ _ G5 (W a Ina) (W b Inb)) as (I1 & I2).
    destruct (exchanged_size _ _ _ _ _ G5) as (S1 & S2). { rewrite read_size. auto. } { rewrite read_size. auto. } rewrite read_size in S1, S2.
    pose proof (Nat.div_mod j 2 ltac:(lia)) as Dj. pose proof (Nat.mod_upper_bound j 2 ltac:(lia)) as Mj.
    assert (t = a' \/ t = b') as [-> | ->]; auto. destruct (Nat.eq_dec (j mod 2) 0) as [M0|M0].
    - left. replace j with (2 * (j / 2)) in Hj by lia. congruence.
    - right. replace j with (2 * (j / 2) + 1) in Hj by lia. congruence. }
  assert (OL : offspring_list h1 next1 off ts1).
  { split; auto. split; auto. split; [|intros t Hin; apply Each; auto]. intros i Hi. apply in_flat_map in Hi. destruct Hi as (t & Hin & Hi). apply (O5 t Hin i Hi). }
  destruct Hr as [Hr|Hr].
  - set (D := list_max (map (fun t => length (ids t)) ts1)).
    destruct (each_spec arity pick coin fs ts MutStandard max_depth dr
       (fun _ h _ t => individual (read h t) /\ 1 < length (ids t)) (fun _ _ g' => individual g')) with (xs := off) (ts0 := ts1) (k := 0) (h := h1) (next := next1) (q := q)
      as (need & h' & next' & q' & xs' & ts' & E' & A1 & A2 & A3 & A4 & A5 & A6 & A7); try apply OL.
    + intros k h0 h2 x t (P1 & P2) Hfr. assert (read h2 t = read h0 t) as Er by (apply read_frame; intros i Hi; rewrite Hfr; auto). rewrite Er. auto.
    + intros k h0 next0 x t q0 Hx Rx (P1 & P2).
      destruct (standard_spec arity fs ts pick coin max_depth h0 next0 x t (md_node (dr k)) q0 Hx) as (need & Sp); auto. { intros i Hi. split; [lia|auto]. }
      destruct (Sp need (Nat.le_refl _)) as (h2 & next2 & x1 & q1 & t1 & n & s & g & E2 & B1 & B2 & B3 & B4 & B5 & B6 & B7 & B8 & B9).
      exists need, h2, next2, x1, q1, t1. split. { intros fuel0 Hfu0. cbn [mutate_one]. eapply standard_more; eauto. }
      split; auto. split; auto. split; [lia|]. split; [intros i Hi Hn; apply B8; auto|]. split; auto.
      eapply replaced_individual; eauto. intros mm y Hy. apply (B7 mm y Hy).
    + intros j x t _ Htj. apply Each. eapply nth_error_In; eauto.
    + exists need, h', next', q', xs', ts'. split. { intros fuel' Hfu'. unfold M_GPmut.mutate_do, class_mut_mode. rewrite qle_true by auto. auto. }
      assert (Lx : length xs' = length off) by (pose proof (f_equal (@length nat) A2) as X; rewrite !map_length in X; exact X).
      assert (Old : forall i, In i (flat_map ids ts1) -> next <= i < next1) by (intros i Hi; apply in_flat_map in Hi; destruct Hi as (t & Hin & Hi); apply (O5 t Hin i Hi)).
      split. { split; auto. split; auto. split; [intros i Hi; destruct (A6 i Hi) as [G|G]; [specialize (Old i G)|]; lia|].
        intros t' Hin. apply In_nth_error in Hin. destruct Hin as (j & Hj).
        assert (Hlt : j < length ts1) by (rewrite <- (Forall2_len _ _ _ O1), <- Lx, (Forall2_len _ _ _ A1); apply nth_error_Some; congruence).
        destruct (nth_error ts1 j) as [t|] eqn:Et; [|apply nth_error_None in Et; lia]. destruct (A7 j t Et) as (t2 & E2 & R2). congruence. }
      split; [congruence|]. split.
      { intros i Hi. rewrite A5; [apply O4; auto|lia|]. intros G. specialize (Old i G). lia. }
      intros t i Hin Hi. destruct (A6 i) as [G|G]; [apply in_flat_map; eauto|specialize (Old i G); lia|lia].
  - exists 0, h1, next1, q, off, ts1. split; [intros fuel' _; apply C134_not_mutated; auto|]. split; auto. split; auto. split; [intros i Hi; apply O4; auto|].
    intros t i Hin Hi. apply (O5 t Hin i Hi).
Qed.
End S.

(** ** Non-vacuity *)
Example ex_offspring : offspring_list ar fns tms hx 8 [x1; x2] [t1; t2].
Proof.
  split; [constructor; [apply held1|constructor; [apply held2|constructor]]|]. split; [cbn; repeat constructor; cbn; intuition lia|].
  split; [cbn; intros i Hi; intuition lia|]. intros t [<-|[<-|[]]]; [apply ind1|apply ind2].
Qed.
Example ex_mutated : exists h' n' xs' q', mutate_do ar (fun t n => t) (fun t => Nat.even t) fns tms (3 # 10) (1 # 20) 3 (fun _ => mkMd 1 (fun _ => mkDraw true true Neg 0) 0 1) 100 hx 8 [x1; x2] 0 = Ok (h', n', xs', q').
Proof. eexists _, _, _, _. vm_compute. reflexivity. Qed.
(** A single terminal below the linear node is what growing gives when the first coin says so. *)
Example ex_single_node : grow_root ar (fun t n => t) (fun t => true) fns tms false 3 1 [] 0 = Ok ([Tr (VTerm 1) []], 2).
Proof. vm_compute. reflexivity. Qed.

Print Assumptions C134_function_as_operator.
Print Assumptions C134_not_mutated.
Print Assumptions C134_standard.
Print Assumptions C134_small_partial.
Print Assumptions C134_mono_parental_partial.
Print Assumptions C134_single_node_refuted.
Print Assumptions C134_breeding.
