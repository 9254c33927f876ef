(** C58, C59: model management of interactive K-RVEA. *)
From Verif Require Import Base M_Mgmt.
From Coq Require Import QArith Qminmax Permutation Sorting.Sorted.
Open Scope nat_scope.

Lemma nth_error_firstn' {B} (l : list B) : forall i j, j < i -> nth_error (firstn i l) j = nth_error l j.
Proof. induction l as [|x l IH]; intros [|i] [|j] H; simpl; auto; try lia. apply IH. lia. Qed.
Lemma seq_sorted n : forall a, StronglySorted lt (seq a n).
Proof. induction n as [|n IH]; intros a; simpl; constructor; auto. apply Forall_forall. intros x Hx. apply in_seq in Hx. lia. Qed.
Lemma filter_sorted f l : StronglySorted lt l -> StronglySorted lt (filter f l).
Proof.
  induction 1 as [|x l Hs IH Hf]; simpl; [constructor|]. destruct (f x); auto. constructor; auto. apply Forall_forall. intros y Hy. apply filter_In in Hy. destruct Hy as (Hy & _).
  rewrite Forall_forall in Hf. auto.
Qed.
Lemma sorted_NoDup l : StronglySorted lt l -> NoDup l.
Proof. induction 1 as [|x l Hs IH Hf]; constructor; auto. intros Hx. rewrite Forall_forall in Hf. apply Hf in Hx. lia. Qed.

(** [m] is the largest entry of [r]. *)
Definition is_max (r : list Q) (m : Q) : Prop := In m r /\ forall x, In x r -> (x <= m)%Q.
Lemma qmax_list_spec l : forall x, is_max (x :: l) (qmax_list x l).
Proof.
  induction l as [|y l IH]; intros x; cbn [qmax_list]; [split; [left; auto|intros z [->|[]]; apply Qle_refl]|].
  destruct (IH (if Qle_bool x y then y else x)) as (H1 & H2). split.
  - destruct H1 as [<-|H1]; [|right; right; exact H1]. destruct (Qle_bool x y); [right; left; auto|left; auto].
  - assert (B : (x <= (if Qle_bool x y then y else x) /\ y <= (if Qle_bool x y then y else x))%Q).
    { destruct (Qle_bool x y) eqn:E; [apply Qle_bool_iff in E; split; [exact E|apply Qle_refl]|].
      split; [apply Qle_refl|]. destruct (Qlt_le_dec x y) as [L|L]; [|exact L]. apply Qlt_le_weak, Qle_bool_iff in L. congruence. }
    pose proof (H2 _ (or_introl eq_refl)) as H3. intros z [<-|[<-|Hz]].
    + eapply Qle_trans; [apply B|exact H3].
    + eapply Qle_trans; [apply B|exact H3].
    + apply H2. right; exact Hz.
Qed.
Lemma row_max_spec r m : is_max r m -> (row_max r == m)%Q.
Proof.
  destruct r as [|x l]; [intros ([] & _)|]. intros (H1 & H2). destruct (qmax_list_spec l x) as (H3 & H4).
  apply Qle_antisym; auto.
Qed.

Section S.
Context {A : Type} (eqb : A -> A -> bool).
Hypothesis eqb_ok : forall x y, eqb x y = true <-> x = y.

(** The row at position i already occurs earlier. *)
Definition repeats (l : list A) (i : nat) : Prop := exists x j, nth_error l i = Some x /\ j < i /\ nth_error l j = Some x.
Lemma repeated_spec l i : repeated_at eqb l i = true <-> repeats l i.
Proof.
  unfold repeated_at, repeats. destruct (nth_error l i) as [x|] eqn:E.
  - rewrite existsb_exists. split.
    + intros (y & Hy & He). apply eqb_ok in He. subst y. apply In_nth_error in Hy. destruct Hy as (j & Hj). exists x, j. split; auto.
      assert (j < length (firstn i l)) by (apply nth_error_Some; congruence). rewrite firstn_length in H. split; [lia|].
      rewrite nth_error_firstn' in Hj by lia. auto.
    + intros (y & j & Hy & Hj & Hx). injection Hy as <-. exists x. split; [|apply eqb_ok; auto]. eapply (nth_error_In _ j).
      rewrite nth_error_firstn' by lia. exact Hx.
  - split; [discriminate|]. intros (x & j & H & _). discriminate.
Qed.
Lemma delete_spec n zs l : np_delete_arange n zs = Ok l ->
  in_range n zs /\ StronglySorted lt l /\ forall j, In j l <-> j < n /\ listed n zs j = false.
Proof.
  unfold np_delete_arange. destruct (norm_idxs n zs) as [ix|] eqn:E; [|discriminate]. cbn [bind]. intros H; injection H as <-.
  destruct (norm_idxs_Ok n zs ix E) as (R1 & R2 & R3). split; auto. split; [apply filter_sorted, seq_sorted|].
  intros j. rewrite filter_In, in_seq. split.
  - intros (H1 & H2). split; [lia|]. rewrite <- R3 by lia. apply negb_true_iff in H2. auto.
  - intros (H1 & H2). split; [lia|]. rewrite R3 by lia. rewrite H2. auto.
Qed.
Lemma listed_iff n zs j : listed n zs j = true <-> In (Z.of_nat j) zs \/ In (Z.of_nat j - Z.of_nat n)%Z zs.
Proof.
  unfold listed. rewrite existsb_exists. split.
  - intros (z & Hz & H). apply orb_true_iff in H. rewrite !Z.eqb_eq in H. destruct H as [->| ->]; auto.
  - intros [H|H]; eexists; (split; [exact H|]); rewrite Z.eqb_refl; auto. rewrite orb_true_r; auto.
Qed.
Lemma repeated_list l : exists r, np_delete_arange (length l) (map Z.of_nat (unique_indices eqb l)) = Ok r /\ forall i, In i r <-> repeats l i.
Proof.
  assert (Rg : in_range (length l) (map Z.of_nat (unique_indices eqb l))).
  { apply Forall_forall. intros z Hz. apply in_map_iff in Hz. destruct Hz as (i & <- & Hi). apply filter_In in Hi. destruct Hi as (Hi & _). apply in_seq in Hi. lia. }
  destruct (norm_idxs_in_range _ _ Rg) as (ix & E). unfold np_delete_arange. rewrite E. cbn [bind]. eexists; split; [reflexivity|].
  intros i. rewrite filter_In, in_seq. destruct (norm_idxs_Ok _ _ _ E) as (_ & _ & R3). split.
  - intros (H1 & H2). rewrite R3 in H2 by lia. apply negb_true_iff in H2. apply repeated_spec. destruct (repeated_at eqb l i) eqn:Er; auto. exfalso.
    assert (X : listed (length l) (map Z.of_nat (unique_indices eqb l)) i = true).
    { apply listed_iff. left. apply in_map. apply filter_In. split; [apply in_seq; lia|]. rewrite Er; auto. }
    congruence.
  - intros H. assert (Hi : i < length l) by (destruct H as (x & j & Hx & _); apply nth_error_Some; congruence). split; [lia|]. rewrite R3 by lia. apply negb_true_iff.
    destruct (listed _ _ i) eqn:El; auto. exfalso. apply listed_iff in El. destruct El as [El|El]; apply in_map_iff in El; destruct El as (k & Ek & Hk).
    + apply Nat2Z.inj in Ek. subst k. apply filter_In in Hk. destruct Hk as (_ & Hk). apply repeated_spec in H. rewrite H in Hk. discriminate.
    + lia.
Qed.

(** The candidate at position i is new: not in the archive and not an earlier candidate. *)
Definition is_new (X archive : list A) (i : nat) : Prop := exists x, nth_error X i = Some x /\ ~ In x archive /\ forall j, j < i -> nth_error X j <> Some x.
Lemma repeats_app archive X i : i < length X -> (repeats (archive ++ X) (length archive + i) <-> ~ is_new X archive i).
Proof.
  intros Hi. destruct (nth_error X i) as [x|] eqn:Ex; [|apply nth_error_None in Ex; lia]. unfold repeats, is_new.
  assert (E : nth_error (archive ++ X) (length archive + i) = Some x) by (rewrite nth_error_app2 by lia; rewrite <- Ex; f_equal; lia).
  split.
  - intros (y & j & Hy & Hj & Hxj) (x' & Hx' & N1 & N2). assert (y = x) by congruence. assert (x' = x) by congruence. subst y x'.
    destruct (Nat.lt_ge_cases j (length archive)) as [L|L].
    + rewrite nth_error_app1 in Hxj by auto. apply nth_error_In in Hxj. auto.
    + rewrite nth_error_app2 in Hxj by auto. apply (N2 (j - length archive)); [lia|auto].
  - intros N. exists x.
    assert (D : In x archive \/ ~ In x archive).
    { destruct (existsb (eqb x) archive) eqn:B; [left|right].
      - apply existsb_exists in B. destruct B as (y & Hy & B). apply eqb_ok in B. subst; auto.
      - intros Hin. assert (existsb (eqb x) archive = true) by (apply existsb_exists; exists x; split; [auto|apply eqb_ok; auto]). congruence. }
    destruct D as [D|D].
    + apply In_nth_error in D. destruct D as (j & Hj). exists j. split; auto. assert (j < length archive) by (apply nth_error_Some; congruence). split; [lia|]. rewrite nth_error_app1; auto.
    + destruct (repeated_at eqb X i) eqn:B.
      * apply repeated_spec in B. destruct B as (y & j & Hy & Hj & Hxj). exists (length archive + j). split; auto. split; [lia|].
        rewrite nth_error_app2 by lia. replace (length archive + j - length archive) with j by lia. congruence.
      * exfalso. apply N. exists x. split; auto. split; auto. intros j Hj Hxj. assert (repeated_at eqb X i = true) by (apply repeated_spec; exists x, j; auto). congruence.
Qed.
Lemma remove_unfold X archive : exists r, (forall i, In i r <-> repeats (archive ++ X) i) /\
  remove_duplicate eqb X archive = np_delete_arange (length X) (map (fun i => (Z.of_nat i - Z.of_nat (length archive))%Z) r).
Proof.
  destruct (repeated_list (archive ++ X)) as (r & E & H). exists r. split; auto. unfold remove_duplicate. rewrite E. reflexivity.
Qed.

(** C58. Whatever the archive, every returned position is that of a new candidate, and they are in increasing order. *)
Theorem C58_returned_are_new : forall X archive l, remove_duplicate eqb X archive = Ok l ->
  StronglySorted lt l /\ forall i, In i l -> is_new X archive i.
Proof.
  intros X archive l H. destruct (remove_unfold X archive) as (r & Hr & E). rewrite E in H. destruct (delete_spec _ _ _ H) as (_ & S1 & S2). split; auto.
  intros i Hi. apply S2 in Hi. destruct Hi as (Hi & Hl).
  assert (D : ~ repeats (archive ++ X) (length archive + i)).
  { intros Rp. apply Hr in Rp. assert (listed (length X) (map (fun i => (Z.of_nat i - Z.of_nat (length archive))%Z) r) i = true); [|congruence].
    apply listed_iff. left. apply in_map_iff. exists (length archive + i). split; [lia|auto]. }
  rewrite repeats_app in D by auto.
  destruct (nth_error X i) as [x|] eqn:Ex; [|apply nth_error_None in Ex; lia]. exists x. split; auto. split.
  - intros Hin. apply D. intros (x' & Hx' & N & _). congruence.
  - intros j Hj Hxj. apply D. intros (x' & Hx' & _ & N). apply (N j Hj). congruence.
Qed.
(** C58. If the archive has no repeated row, exactly the new candidates are returned. *)
Theorem C58_exact_partial : forall X archive, NoDup archive ->
  exists l, remove_duplicate eqb X archive = Ok l /\ StronglySorted lt l /\ forall i, In i l <-> is_new X archive i.
Proof.
  intros X archive ND. destruct (remove_unfold X archive) as (r & Hr & E). rewrite E.
  assert (Lo : forall i, In i r -> length archive <= i < length archive + length X).
  { intros i Hi. apply Hr in Hi. destruct Hi as (x & j & Hx & Hj & Hxj). assert (i < length (archive ++ X)) by (apply nth_error_Some; congruence). rewrite app_length in H. split; [|lia].
    destruct (Nat.lt_ge_cases i (length archive)) as [L|L]; auto. exfalso. rewrite nth_error_app1 in Hx, Hxj by lia.
    assert (j = i); [|lia]. eapply (proj1 (NoDup_nth_error archive)); eauto; [lia|congruence]. }
  assert (Rg : in_range (length X) (map (fun i => (Z.of_nat i - Z.of_nat (length archive))%Z) r)).
  { apply Forall_forall. intros z Hz. apply in_map_iff in Hz. destruct Hz as (i & <- & Hi). apply Lo in Hi. lia. }
  destruct (norm_idxs_in_range _ _ Rg) as (ix & Ei).
  destruct (np_delete_arange (length X) (map (fun i => (Z.of_nat i - Z.of_nat (length archive))%Z) r)) as [l|e] eqn:Ed; [|unfold np_delete_arange in Ed; rewrite Ei in Ed; discriminate].
  exists l. split; auto. assert (C : remove_duplicate eqb X archive = Ok l) by congruence. destruct (C58_returned_are_new X archive l C) as (S1 & S2). split; auto.
  intros i. split; auto. intros N. assert (Hi : i < length X) by (destruct N as (x & Hx & _); apply nth_error_Some; congruence).
  destruct (delete_spec _ _ _ Ed) as (_ & _ & S3). apply S3. split; auto. destruct (listed _ _ i) eqn:El; auto. exfalso. apply listed_iff in El.
  destruct El as [El|El]; apply in_map_iff in El; destruct El as (k & Ek & Hk).
  - pose proof (Lo k Hk). assert (k = length archive + i) by lia. subst k. apply Hr in Hk. apply repeats_app in Hk; auto.
  - apply Lo in Hk. lia.
Qed.
(** In particular, with distinct candidates: exactly those not in the archive. *)
Theorem C58_not_in_archive_partial : forall X archive, NoDup archive -> NoDup X ->
  exists l, remove_duplicate eqb X archive = Ok l /\ StronglySorted lt l /\ forall i x, nth_error X i = Some x -> (In i l <-> ~ In x archive).
Proof.
  intros X archive NA NX. destruct (C58_exact_partial X archive NA) as (l & E & S1 & S2). exists l. split; auto. split; auto. intros i x Hx. rewrite S2. split.
  - intros (y & Hy & N & _). congruence.
  - intros N. exists x. split; auto. split; auto. intros j Hj Hxj. assert (j = i); [|lia]. eapply (proj1 (NoDup_nth_error X)); eauto; [|congruence].
    assert (i < length X) by (apply nth_error_Some; congruence). lia.
Qed.
(** C58 fails when the archive repeats a row at position p (an evaluated row may be evaluated again): either IndexError, or the candidate
    as far from the end of X as p is from the end of the archive is dropped, new or not. *)
Theorem C58_repeated_archive_refuted : forall X archive p, p < length archive -> repeats archive p ->
  (length X < length archive - p -> remove_duplicate eqb X archive = Err IndexError) /\
  (forall l, remove_duplicate eqb X archive = Ok l -> ~ In (length X - (length archive - p)) l).
Proof.
  intros X archive p Hp (x & j & Hx & Hj & Hxj). destruct (remove_unfold X archive) as (r & Hr & E). rewrite E.
  assert (Hin : In p r) by (apply Hr; exists x, j; rewrite !nth_error_app1 by lia; auto).
  assert (Hz : In (Z.of_nat p - Z.of_nat (length archive))%Z (map (fun i => (Z.of_nat i - Z.of_nat (length archive))%Z) r)) by (apply in_map_iff; exists p; auto).
  split.
  - intros L. unfold np_delete_arange. destruct (norm_idxs (length X) (map (fun i => (Z.of_nat i - Z.of_nat (length archive))%Z) r)) as [ix|e] eqn:En.
    + exfalso. apply norm_idxs_Ok in En. destruct En as (Rg & _). unfold in_range in Rg. rewrite Forall_forall in Rg. apply Rg in Hz. lia.
    + apply norm_idxs_Err in En. destruct En as (-> & _). reflexivity.
  - intros l El. destruct (delete_spec _ _ _ El) as (Rg & _ & S2). rewrite S2. intros (Hi & Hl).
    assert (listed (length X) (map (fun i => (Z.of_nat i - Z.of_nat (length archive))%Z) r) (length X - (length archive - p)) = true); [|congruence].
    unfold in_range in Rg. rewrite Forall_forall in Rg. apply Rg in Hz as Hz'. apply listed_iff. right. replace (Z.of_nat (length X - (length archive - p)) - Z.of_nat (length X))%Z with (Z.of_nat p - Z.of_nat (length archive))%Z by lia. auto.
Qed.

(** ** C59 *)
(** Contract of np.argpartition: a permutation of the positions, the entries before kth having values at most those from kth on. *)
Definition partition_ok (part : list Q -> nat -> list nat) : Prop := forall v k, k < length v ->
  Permutation (part v k) (seq 0 (length v)) /\
  forall a b i j, a < k -> k <= b -> nth_error (part v k) a = Some i -> nth_error (part v k) b = Some j -> (nth i v 0 <= nth j v 0)%Q.

Variables (part : list Q -> nat -> list nat) (asf : list Q -> Q) (d : A).
Hypothesis PO : partition_ok part.

Lemma part_facts v k : k < length v -> length (part v k) = length v /\ NoDup (part v k) /\ forall i, In i (part v k) <-> i < length v.
Proof.
  intros H. destruct (PO v k H) as (P & _). pose proof (Permutation_length P) as L. rewrite seq_length in L. split; auto. split.
  - eapply Permutation_NoDup; [apply Permutation_sym; eauto|apply seq_NoDup].
  - intros i. split; intros Hi.
    + eapply Permutation_in in Hi; [|eauto]. apply in_seq in Hi. lia.
    + eapply Permutation_in; [apply Permutation_sym; eauto|]. apply in_seq. lia.
Qed.
Lemma firstn_NoDup {B} (l : list B) k : NoDup l -> NoDup (firstn k l).
Proof. intros H. rewrite <- (firstn_skipn k l) in H. revert H. generalize (firstn k l) (skipn k l). intros a b. induction a as [|x a IH]; intros H; [constructor|]. inversion H; subst. constructor; auto. intros Hx. apply H2. apply in_or_app; auto. Qed.
Lemma firstn_In {B} (l : list B) k x : In x (firstn k l) -> In x l.
Proof. intros H. rewrite <- (firstn_skipn k l). apply in_or_app; auto. Qed.

(** C59, what holds: with an archive without repetitions and more than 2u new candidates, exactly u distinct new candidates are evaluated. *)
Theorem C59_u_new_candidates_partial : forall individuals objectives uncertainty archive u nd, 0 < u ->
  NoDup archive -> remove_duplicate eqb individuals archive = Ok nd -> 2 * u < length nd ->
  exists rows, ikrvea_mm eqb part asf d individuals objectives uncertainty archive u = Ok (Some rows) /\ length rows = u /\ NoDup rows /\
    forall x, In x rows -> In x individuals /\ ~ In x archive.
Proof.
  intros individuals objectives uncertainty archive u nd Hu NA Hnd Hlen. unfold ikrvea_mm. rewrite Hnd. cbn [bind].
  destruct nd as [|n0 nd0]; [simpl in Hlen; lia|]. set (nd := n0 :: nd0) in *.
  set (vals := map asf (at_rows [] objectives nd)). assert (Lv : length vals = length nd) by (unfold vals, at_rows; rewrite !map_length; auto).
  unfold argpartition at 1. rewrite (proj2 (Nat.ltb_lt (2 * u) (length vals))) by lia. cbn [bind].
  destruct (part_facts vals (2 * u)) as (L1 & N1 & I1); [lia|].
  set (au := map row_max (at_rows [] (at_rows [] uncertainty nd) (firstn (2 * u) (part vals (2 * u))))).
  assert (La : length au = 2 * u) by (unfold au, at_rows; rewrite !map_length, firstn_length, L1; lia).
  unfold argpartition. rewrite (proj2 (Nat.ltb_lt u (length au))) by lia. cbn [bind]. destruct (part_facts au u) as (L2 & N2 & I2); [lia|].
  destruct (C58_returned_are_new individuals archive nd Hnd) as (S1 & S2).
  assert (Low : forall i, In i (firstn u (part au u)) -> i < length nd) by (intros i Hi; apply firstn_In in Hi; apply I2 in Hi; lia).
  assert (Dv : forall i, i < length nd -> exists k x, nth_error nd i = Some k /\ nth i (at_rows d individuals nd) d = x /\ nth_error individuals k = Some x /\ ~ In x archive /\ forall j, j < k -> nth_error individuals j <> Some x).
  { intros i Hi. destruct (nth_error nd i) as [k|] eqn:Ek; [|apply nth_error_None in Ek; lia]. destruct (S2 k (nth_error_In _ _ Ek)) as (x & Hx & N & F). exists k, x. split; auto. split; [|split; auto].
    unfold at_rows. rewrite (nth_indep _ d (nth 0 individuals d)) by (rewrite map_length; auto). rewrite (nth_error_nth (map (fun i => nth i individuals d) nd) i (nth 0 individuals d) (x := nth k individuals d)); [apply nth_error_nth; auto|].
    rewrite nth_error_map, Ek; auto. }
  eexists; split; [reflexivity|]. unfold at_rows at 1. split; [rewrite map_length, firstn_length, L2; lia|]. split.
  - unfold at_rows at 1. assert (G : forall l, NoDup l -> (forall i, In i l -> i < length nd) -> NoDup (map (fun i => nth i (at_rows d individuals nd) d) l)).
    { induction l as [|i l IH]; intros Hn Hl; simpl; [constructor|]. inversion Hn; subst. constructor; [|apply IH; auto; intros; apply Hl; right; auto].
      intros Hc. apply in_map_iff in Hc. destruct Hc as (i' & Ec & Hi').
      destruct (Dv i (Hl i (or_introl eq_refl))) as (k & x & K1 & K2 & K3 & _ & K5). destruct (Dv i' (Hl i' (or_intror Hi'))) as (k' & x' & K1' & K2' & K3' & _ & K5').
      assert (x' = x) by (rewrite <- K2, <- K2'; exact Ec). subst x'. assert (k = k').
      { destruct (Nat.lt_trichotomy k k') as [Q|[Q|Q]]; auto; exfalso; [apply (K5' k Q); auto; congruence|apply (K5 k' Q); congruence]. }
      subst k'. assert (i = i'); [|congruence]. apply (proj1 (NoDup_nth_error nd)); [apply sorted_NoDup; auto|apply Hl; left; auto|congruence]. }
    apply G; [apply firstn_NoDup; auto|auto].
  - intros x Hx. apply in_map_iff in Hx. destruct Hx as (i & Ex & Hi). destruct (Dv i (Low i Hi)) as (k & y & _ & K2 & K3 & K4 & _). rewrite Ex in K2. subst y. split; [eapply nth_error_In; exact K3|exact K4].
Qed.
(** Nothing new: nothing is evaluated. *)
Theorem C59_nothing_new : forall individuals objectives uncertainty archive u, NoDup archive -> (forall x, In x individuals -> In x archive) ->
  ikrvea_mm eqb part asf d individuals objectives uncertainty archive u = Ok None.
Proof.
  intros individuals objectives uncertainty archive u NA H. unfold ikrvea_mm. destruct (C58_exact_partial individuals archive NA) as (l & E & _ & S2). rewrite E. cbn [bind].
  destruct l as [|i l]; auto. exfalso. destruct (proj1 (S2 i) (or_introl eq_refl)) as (x & Hx & N & _). apply N, H. eapply nth_error_In; eauto.
Qed.
(** C59 fails: with at least one but at most 2u new candidates nothing is evaluated either, an exception is raised. *)
Theorem C59_too_few_candidates_refuted : forall individuals objectives uncertainty archive u nd,
  remove_duplicate eqb individuals archive = Ok nd -> 0 < length nd <= 2 * u ->
  ikrvea_mm eqb part asf d individuals objectives uncertainty archive u = Err ValueError.
Proof.
  intros individuals objectives uncertainty archive u nd E H. unfold ikrvea_mm. rewrite E. cbn [bind]. destruct nd as [|n0 nd0]; [simpl in H; lia|].
  unfold argpartition at 1. replace (Nat.ltb _ _) with false; [reflexivity|]. symmetry. apply Nat.ltb_ge. unfold at_rows. rewrite !map_length. lia.
Qed.
(** C59 fails: the evaluated candidates are always among the first 2u new ones, however bad their preference value is. *)
Theorem C59_first_candidates_refuted : forall individuals objectives uncertainty archive u nd rows,
  remove_duplicate eqb individuals archive = Ok nd ->
  ikrvea_mm eqb part asf d individuals objectives uncertainty archive u = Ok (Some rows) ->
  forall x, In x rows -> exists i k, i < 2 * u /\ nth_error nd i = Some k /\ x = nth k individuals d.
Proof.
  intros individuals objectives uncertainty archive u nd rows E H x Hx. unfold ikrvea_mm in H. rewrite E in H. cbn [bind] in H. destruct nd as [|n0 nd0]; [discriminate|]. set (nd := n0 :: nd0) in *.
  set (vals := map asf (at_rows [] objectives nd)) in *. unfold argpartition at 1 in H. destruct (Nat.ltb (2 * u) (length vals)) eqn:L; [|discriminate]. cbn [bind] in H. apply Nat.ltb_lt in L.
  assert (Lv : length vals = length nd) by (unfold vals, at_rows; rewrite !map_length; auto).
  destruct (part_facts vals (2 * u) L) as (L1 & _ & _).
  set (au := map row_max (at_rows [] (at_rows [] uncertainty nd) (firstn (2 * u) (part vals (2 * u))))) in *.
  assert (La : length au = 2 * u) by (unfold au, at_rows; rewrite !map_length, firstn_length, L1; lia).
  unfold argpartition in H. destruct (Nat.ltb u (length au)) eqn:L'; [|discriminate]. cbn [bind] in H. apply Nat.ltb_lt in L'. injection H as <-.
  destruct (part_facts au u L') as (_ & _ & I2). apply in_map_iff in Hx. destruct Hx as (i & <- & Hi). apply firstn_In in Hi. apply I2 in Hi. rewrite La in Hi.
  destruct (nth_error nd i) as [k|] eqn:Ek; [|apply nth_error_None in Ek; lia]. exists i, k. split; auto. split; auto.
  unfold at_rows. apply nth_error_nth. change (nth_error (map (fun j => nth j individuals d) nd) i = Some (nth k individuals d)); rewrite nth_error_map, Ek; reflexivity.
Qed.
(** C59, what else holds: if the 2u preferred new candidates happen to come first, in the order the partition gives them, then the evaluated ones are u
    of them with the smallest largest-uncertainty. *)
Theorem C59_preferred_and_certain_partial : forall individuals objectives uncertainty archive u nd rows,
  remove_duplicate eqb individuals archive = Ok nd ->
  firstn (2 * u) (part (map asf (at_rows [] objectives nd)) (2 * u)) = seq 0 (2 * u) ->
  ikrvea_mm eqb part asf d individuals objectives uncertainty archive u = Ok (Some rows) ->
  exists chosen, length chosen = u /\ NoDup chosen /\ rows = map (fun k => nth k individuals d) chosen /\
    (forall k, In k chosen -> In k (firstn (2 * u) nd)) /\
    (forall k k', In k (firstn (2 * u) nd) -> In k' (skipn (2 * u) nd) -> (asf (nth k objectives []) <= asf (nth k' objectives []))%Q) /\
    (forall k k' m m', In k chosen -> In k' (firstn (2 * u) nd) -> ~ In k' chosen ->
       is_max (nth k uncertainty []) m -> is_max (nth k' uncertainty []) m' -> (m <= m')%Q).
Proof.
  intros individuals objectives uncertainty archive u nd rows E F H. unfold ikrvea_mm in H. rewrite E in H. cbn [bind] in H. destruct nd as [|n0 nd0]; [discriminate|]. set (nd := n0 :: nd0) in *. clearbody nd.
  set (vals := map asf (at_rows [] objectives nd)) in *. unfold argpartition at 1 in H. destruct (Nat.ltb (2 * u) (length vals)) eqn:L; [|discriminate]. cbn [bind] in H. apply Nat.ltb_lt in L.
  assert (Lv : length vals = length nd) by (unfold vals, at_rows; rewrite !map_length; auto).
  rewrite F in H. set (au := map row_max (at_rows [] (at_rows [] uncertainty nd) (seq 0 (2 * u)))) in *.
  assert (La : length au = 2 * u) by (unfold au, at_rows; rewrite !map_length, seq_length; auto).
  unfold argpartition in H. destruct (Nat.ltb u (length au)) eqn:L'; [|discriminate]. cbn [bind] in H. apply Nat.ltb_lt in L'. injection H as <-.
  destruct (part_facts au u L') as (L2 & N2 & I2). destruct (PO au u L') as (_ & PO2). destruct (PO vals (2 * u) L) as (_ & PO1). destruct (part_facts vals (2 * u) L) as (L1 & N1 & I1).
  assert (Sn : StronglySorted lt nd) by (eapply C58_returned_are_new; eauto). assert (Nn : NoDup nd) by (apply sorted_NoDup; auto).
  exists (map (fun i => nth i nd O) (firstn u (part au u))).
  assert (Low : forall i, In i (firstn u (part au u)) -> i < 2 * u) by (intros i Hi; apply firstn_In in Hi; apply I2 in Hi; lia).
  assert (Fn : forall k, In k (firstn (2 * u) nd) <-> exists i, i < 2 * u /\ nth i nd O = k).
  { intros k. split.
    - intros Hk. apply In_nth_error in Hk. destruct Hk as (i & Hi). assert (i < length (firstn (2 * u) nd)) by (apply nth_error_Some; congruence). rewrite firstn_length in H. exists i. split; [lia|].
      rewrite nth_error_firstn' in Hi by lia. apply nth_error_nth; auto.
    - intros (i & Hi & <-). eapply (nth_error_In _ i). rewrite nth_error_firstn' by auto. apply nth_error_nth'. lia. }
  assert (Inj : forall i i', i < 2 * u -> i' < 2 * u -> nth i nd O = nth i' nd O -> i = i').
  { intros i i' Hi Hi' Eq. apply (proj1 (NoDup_nth nd O) Nn i i'); [lia|lia|auto]. }
  assert (Val : forall i, i < length nd -> nth i vals 0%Q = asf (nth (nth i nd O) objectives [])).
  { intros i Hi. apply nth_error_nth. unfold vals, at_rows. rewrite !nth_error_map. rewrite (nth_error_nth' nd O Hi). reflexivity. }
  assert (Unc : forall i, i < 2 * u -> nth i au 0%Q = row_max (nth (nth i nd O) uncertainty [])).
  { intros i Hi. apply nth_error_nth. unfold au, at_rows. rewrite !nth_error_map. rewrite (nth_error_nth' (seq 0 (2 * u)) O) by (rewrite seq_length; auto). rewrite seq_nth by auto. cbn [option_map Nat.add]. f_equal. f_equal.
    apply nth_error_nth. rewrite nth_error_map. rewrite (nth_error_nth' nd O) by lia. reflexivity. }
  split; [rewrite map_length, firstn_length, L2; lia|]. split.
  { assert (G : forall l, NoDup l -> (forall i, In i l -> i < 2 * u) -> NoDup (map (fun i => nth i nd O) l)).
    { induction l as [|i l IH]; intros Hn Hl; simpl; [constructor|]. inversion Hn; subst. constructor; [|apply IH; auto; intros; apply Hl; right; auto].
      intros Hc. apply in_map_iff in Hc. destruct Hc as (i' & Ec & Hi'). apply Inj in Ec; [subst i'; contradiction|apply Hl; right; auto|apply Hl; left; auto]. }
    apply G; [apply firstn_NoDup; auto|auto]. }
  split.
  { rewrite map_map. unfold at_rows at 1. apply map_ext_in. intros i Hi. apply nth_error_nth. unfold at_rows. rewrite nth_error_map. rewrite (nth_error_nth' nd O) by (apply Low in Hi; lia). reflexivity. }
  split. { intros k Hk. apply in_map_iff in Hk. destruct Hk as (i & <- & Hi). apply Fn. eauto. }
  split.
  - intros k k' Hk Hk'. apply Fn in Hk. destruct Hk as (i & Hi & <-). apply In_nth_error in Hk'. destruct Hk' as (b & Hb).
    assert (Hb' : nth_error nd (2 * u + b) = Some k') by (rewrite <- (firstn_skipn (2 * u) nd), nth_error_app2; rewrite firstn_length; [|lia]; replace (2 * u + b - Nat.min (2 * u) (length nd)) with b by lia; auto).
    assert (Hlt : 2 * u + b < length nd) by (apply nth_error_Some; congruence). apply nth_error_nth with (d := O) in Hb'. subst k'. rewrite <- !Val by lia.
    assert (P1 : nth_error (part vals (2 * u)) i = Some i).
    { rewrite <- (nth_error_firstn' _ (2 * u)) by auto. rewrite F. rewrite (nth_error_nth' _ O) by (rewrite seq_length; auto). rewrite seq_nth; auto. }
    assert (P2 : In (2 * u + b) (part vals (2 * u))) by (apply I1; lia). apply In_nth_error in P2. destruct P2 as (c & Hc).
    apply (PO1 i c); auto. destruct (Nat.lt_ge_cases c (2 * u)) as [Q|Q]; auto. exfalso.
    rewrite <- (nth_error_firstn' _ (2 * u)) in Hc by auto. rewrite F in Hc. rewrite (nth_error_nth' _ O) in Hc by (rewrite seq_length; auto). rewrite seq_nth in Hc by auto. injection Hc as Hc. lia.
  - intros k k' m m' Hk Hk' Nk Mk Mk'. rewrite <- (row_max_spec _ _ Mk), <- (row_max_spec _ _ Mk'). clear Mk Mk'. apply in_map_iff in Hk. destruct Hk as (i & <- & Hi). apply Fn in Hk'. destruct Hk' as (i' & Hi' & <-). rewrite <- !Unc; auto.
    assert (P2 : In i' (part au u)) by (apply I2; lia). apply In_nth_error in P2. destruct P2 as (c & Hc). apply In_nth_error in Hi. destruct Hi as (a & Ha).
    assert (a < length (firstn u (part au u))) by (apply nth_error_Some; congruence). rewrite firstn_length in H. rewrite nth_error_firstn' in Ha by lia.
    apply (PO2 a c); auto; [lia|]. destruct (Nat.lt_ge_cases c u) as [Q|Q]; auto. exfalso. apply Nk. apply in_map_iff. exists i'. split; auto. eapply (nth_error_In _ c). rewrite nth_error_firstn'; auto.
Qed.
End S.

(** C59, concretely: whatever partition is used, with these four new candidates the evaluated one has a worse preference value than two others. *)
Theorem C59_worst_evaluated_refuted : forall part, partition_ok part ->
  exists x, ikrvea_mm Nat.eqb part (fun o => hd 0%Q o) 0 [10; 11; 12; 13] [[8]; [9]; [1]; [2]]%Q [[1]; [1]; [1]; [1]]%Q [] 1 = Ok (Some [x]) /\ (x = 10 \/ x = 11).
Proof.
  intros part PO. assert (E : remove_duplicate Nat.eqb [10; 11; 12; 13] [] = Ok [0; 1; 2; 3]) by reflexivity.
  destruct (C59_u_new_candidates_partial Nat.eqb Nat.eqb_eq part (fun o => hd 0%Q o) 0 PO [10; 11; 12; 13] [[8]; [9]; [1]; [2]]%Q [[1]; [1]; [1]; [1]]%Q [] 1 [0; 1; 2; 3]) as (rows & R1 & R2 & _); [lia|constructor|exact E|simpl; lia|].
  destruct rows as [|x [|y rows]]; try discriminate. exists x. split; auto.
  destruct (C59_first_candidates_refuted Nat.eqb part (fun o => hd 0%Q o) 0 PO [10; 11; 12; 13] [[8]; [9]; [1]; [2]]%Q [[1]; [1]; [1]; [1]]%Q [] 1 [0; 1; 2; 3] [x] E R1 x (or_introl eq_refl)) as (i & k & Hi & Hk & ->).
  destruct i as [|[|i]]; [| |lia]; simpl in Hk; injection Hk as <-; simpl; auto.
Qed.
Theorem C58_new_candidate_dropped_refuted : exists X archive l, remove_duplicate Nat.eqb X archive = Ok l /\ exists i, is_new X archive i /\ ~ In i l.
Proof.
  exists [3; 4], [1; 1], [0]. split; [reflexivity|]. exists 1. split; [|intros [H|[]]; discriminate].
  exists 4. split; [reflexivity|]. split; [intros [H|[H|[]]]; discriminate|]. intros [|j] Hj H; [discriminate|lia].
Qed.

Print Assumptions C58_exact_partial.
Print Assumptions C58_repeated_archive_refuted.
Print Assumptions C59_preferred_and_certain_partial.
Print Assumptions C59_worst_evaluated_refuted.

Example ex_new : remove_duplicate Nat.eqb [5; 1; 7; 5] [1; 2] = Ok [0; 2] /\ NoDup [1; 2].
Proof. split; [reflexivity|]. repeat constructor; simpl; lia. Qed.
(** A partition satisfying the contract exists: insertion sort of the positions by value. *)
Fixpoint ins (v : list Q) (i : nat) (l : list nat) : list nat := match l with [] => [i] | j :: t => if Qle_bool (nth i v 0%Q) (nth j v 0%Q) then i :: l else j :: ins v i t end.
Definition sort_part (v : list Q) (_ : nat) : list nat := fold_right (ins v) [] (seq 0 (length v)).
Lemma ins_perm v i l : Permutation (ins v i l) (i :: l).
Proof. induction l as [|j l IH]; simpl; auto. destruct (Qle_bool _ _); auto. rewrite IH. apply perm_swap. Qed.
Lemma ins_sorted v i l : StronglySorted (fun a b => (nth a v 0 <= nth b v 0)%Q) l -> StronglySorted (fun a b => (nth a v 0 <= nth b v 0)%Q) (ins v i l).
Proof.
  induction 1 as [|j l Hs IH Hf]; simpl; [repeat constructor|]. destruct (Qle_bool (nth i v 0%Q) (nth j v 0%Q)) eqn:E.
  - apply Qle_bool_iff in E. constructor; [constructor; auto|]. constructor; auto. rewrite Forall_forall in *. intros x Hx. eapply Qle_trans; eauto.
  - constructor; auto. rewrite Forall_forall in *. intros x Hx. eapply Permutation_in in Hx; [|apply ins_perm]. destruct Hx as [<-|Hx]; auto.
    destruct (Qlt_le_dec (nth j v 0%Q) (nth i v 0%Q)) as [Q|Q]; [apply Qlt_le_weak; auto|]. apply Qle_bool_iff in Q. congruence.
Qed.
Example sort_part_ok : partition_ok sort_part.
Proof.
  intros v k Hk. unfold sort_part. split.
  - induction (seq 0 (length v)) as [|i l IH]; simpl; auto. rewrite ins_perm, IH. auto.
  - intros a b i j Ha Hb Hi Hj.
    assert (G : forall l, StronglySorted (fun a b => (nth a v 0 <= nth b v 0)%Q) l -> forall a b i j, a < b -> nth_error l a = Some i -> nth_error l b = Some j -> (nth i v 0 <= nth j v 0)%Q).
    { clear. induction 1 as [|x l Hs IH Hf]; intros [|a] [|b] i j L Hi Hj; simpl in *; try lia; try discriminate.
      - injection Hi as <-. rewrite Forall_forall in Hf. apply Hf. eapply nth_error_In; eauto.
      - apply (IH a b); auto; lia. }
    eapply (G (fold_right (ins v) [] (seq 0 (length v)))); [|assert (L : a < b) by lia; exact L|eauto|eauto].
    generalize (seq 0 (length v)). intros l. induction l as [|x l IH]; simpl; [constructor|]. apply ins_sorted; auto.
Qed.
Example ex_evaluated : ikrvea_mm Nat.eqb sort_part (fun o => hd 0%Q o) 0 [10; 11; 12; 13; 14] [[1]; [2]; [8]; [9]; [3]]%Q [[5]; [1]; [1]; [1]; [1]]%Q [12] 1 = Ok (Some [11]) /\
  remove_duplicate Nat.eqb [10; 11; 12; 13; 14] [12] = Ok [0; 1; 3; 4] /\ firstn 2 (sort_part [1; 2; 9; 3]%Q 2) = seq 0 2.
Proof. split; [|split]; vm_compute; reflexivity. Qed.
