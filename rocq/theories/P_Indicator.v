(** Proofs about tournament selection and the indicator based generation. *)
From Verif Require Import Base RVec Spec_Indicator M_Indicator.
From Coq Require Import Reals Lra Permutation.
Open Scope R_scope.

Lemma nth_error_without {A} k (l : list A) i :
  nth_error (without k l) i = nth_error l (if Nat.ltb i k then i else S i).
Proof.
  unfold without. revert k i. induction l as [|x t IH]; intros [|k] [|i]; try reflexivity.
  - simpl. destruct (Nat.ltb (S i) (S k)); reflexivity.
  - specialize (IH k i). cbn [firstn skipn app nth_error] in *. rewrite IH.
    change (Nat.ltb (S i) (S k)) with (Nat.ltb i k). destruct (Nat.ltb i k); reflexivity.
Qed.

Lemma length_without {A} k (l : list A) : (k < length l)%nat -> length (without k l) = (length l - 1)%nat.
Proof. intros H. unfold without. rewrite app_length, firstn_length, skipn_length. lia. Qed.

Lemma rsum_app l1 l2 : rsum (l1 ++ l2) = rsum l1 + rsum l2.
Proof. induction l1 as [|x t IH]; simpl; [lra|]. rewrite IH; lra. Qed.

Lemma split_nth {A} (l : list A) k x : nth_error l k = Some x -> l = firstn k l ++ x :: skipn (S k) l.
Proof.
  revert k; induction l as [|y t IH]; intros [|k] H; simpl in *; try discriminate.
  - congruence.
  - f_equal. apply IH; auto.
Qed.

Lemma rsum_without {A} (g : A -> R) (l : list A) k x : nth_error l k = Some x ->
  rsum (map g (without k l)) = rsum (map g l) - g x.
Proof.
  intros H. pose proof (split_nth _ _ _ H) as E. unfold without.
  rewrite E at 3. rewrite !map_app, !rsum_app. cbn [map rsum]. lra.
Qed.

Section P.
Context {M : Type} (ind : M -> M -> R) (kappa : R).

Lemma nth_error_combine {A B} (l : list A) (l' : list B) i :
  nth_error (combine l l') i = match nth_error l i, nth_error l' i with Some a, Some b => Some (a, b) | _, _ => None end.
Proof.
  revert l' i; induction l as [|x t IH]; intros [|y t'] [|i]; simpl; auto.
  destruct (nth_error t i); auto.
Qed.

Lemma nth_error_seq s n i : nth_error (seq s n) i = if Nat.ltb i n then Some (s + i)%nat else None.
Proof.
  revert s i; induction n as [|n IH]; intros s [|i]; cbn [seq nth_error]; auto.
  - change (Nat.ltb 0 (S n)) with true. cbn iota. f_equal; lia.
  - rewrite IH. change (Nat.ltb (S i) (S n)) with (Nat.ltb i n). destruct (Nat.ltb i n); auto. f_equal; lia.
Qed.

Lemma assign_fold (m : M) i : forall (l : list M) k acc,
  fold_left (fun acc p => if Nat.eqb (fst p) i then acc else acc + - exp (- ind m (snd p) / kappa))
    (combine (seq k (length l)) l) acc =
  acc + (if Nat.leb k i then - rsum (map (fun x => exp (- ind m x / kappa)) (without (i - k) l))
         else - rsum (map (fun x => exp (- ind m x / kappa)) l)).
Proof.
  induction l as [|x t IH]; intros k acc.
  - simpl. destruct (Nat.leb k i); unfold without; rewrite ?firstn_nil, ?skipn_nil; simpl; lra.
  - cbn [length seq combine fold_left fst snd]. destruct (Nat.eqb_spec k i) as [->|Hn].
    + rewrite IH. replace (Nat.leb (S i) i) with false by (symmetry; apply Nat.leb_gt; lia).
      rewrite Nat.leb_refl, Nat.sub_diag. reflexivity.
    + rewrite IH. destruct (Nat.leb_spec k i) as [Hl|Hl].
      * replace (Nat.leb (S k) i) with true by (symmetry; apply Nat.leb_le; lia).
        replace (i - k)%nat with (S (i - S k)) by lia.
        unfold without. cbn [firstn skipn app map rsum]. lra.
      * replace (Nat.leb (S k) i) with false by (symmetry; apply Nat.leb_gt; lia). cbn [map rsum]. lra.
Qed.

Lemma assignment_exact pop : exact ind kappa pop (fitness_assignment ind kappa pop).
Proof.
  unfold exact, fitness_assignment. split.
  - rewrite map_length, combine_length, seq_length. lia.
  - intros i m H. rewrite nth_error_map, nth_error_combine, nth_error_seq, H.
    assert (Hl : (i < length pop)%nat) by (apply nth_error_Some; congruence).
    replace (Nat.ltb i (length pop)) with true by (symmetry; apply Nat.ltb_lt; auto). simpl.
    unfold assign_one. rewrite assign_fold. simpl. rewrite Nat.sub_0_r. unfold loss. f_equal; lra.
Qed.

Lemma step_exact pop fit k w : exact ind kappa pop fit -> nth_error pop k = Some w ->
  exact ind kappa (without k pop) (without k (env_update ind kappa pop fit k w)).
Proof.
  intros [L E] Hw. assert (Hk : (k < length pop)%nat) by (apply nth_error_Some; congruence).
  assert (Lu : length (env_update ind kappa pop fit k w) = length pop).
  { unfold env_update. rewrite map_length, !combine_length, seq_length. lia. }
  split.
  - rewrite !length_without by lia. lia.
  - intros i m H. rewrite nth_error_without in H. rewrite nth_error_without.
    set (i' := if Nat.ltb i k then i else S i) in *.
    assert (Hi' : i' <> k) by (unfold i'; destruct (Nat.ltb_spec i k); lia).
    assert (Hl' : (i' < length pop)%nat) by (apply nth_error_Some; congruence).
    unfold env_update. rewrite nth_error_map, !nth_error_combine, nth_error_seq, H, (E _ _ H).
    replace (Nat.ltb i' (length pop)) with true by (symmetry; apply Nat.ltb_lt; auto).
    cbn [option_map fst snd Nat.add]. rewrite (proj2 (Nat.eqb_neq k i')) by auto. f_equal.
    unfold loss. rewrite (rsum_without _ _ _ _ H).
    assert (H2 : nth_error (without k pop) i = Some m) by (rewrite nth_error_without; exact H).
    rewrite (rsum_without _ _ _ _ H2), (rsum_without _ _ _ _ Hw). lra.
Qed.


Lemma env_loop_spec fuel pop_size : forall pop fit, exact ind kappa pop fit -> (length pop - pop_size <= fuel)%nat ->
  exists pop' fit', env_loop ind kappa fuel pop_size pop fit = Some (Ok (pop', fit')) /\ trims ind kappa pop_size pop pop' /\ exact ind kappa pop' fit'.
Proof.
  induction fuel as [|fuel IH]; intros pop fit Hx Hf; cbn [env_loop].
  - replace (Nat.ltb pop_size (length pop)) with false by (symmetry; apply Nat.ltb_ge; lia).
    exists pop, fit. split; auto. split; auto. constructor. lia.
  - destruct (Nat.ltb_spec pop_size (length pop)) as [Hl|Hl].
    + destruct Hx as [L E].
      destruct (argmin_some fit) as [k Hk]; [intros ->; simpl in L; lia|]. rewrite Hk.
      assert (Hkl : (k < length pop)%nat) by (rewrite <- L; eapply argmin_lt; eauto).
      destruct (nth_error pop k) as [w|] eqn:Ew; [|apply nth_error_None in Ew; lia].
      destruct (IH (without k pop) (without k (env_update ind kappa pop fit k w))) as (pop' & fit' & R1 & R2 & R3).
      { apply step_exact; auto. split; auto. }
      { rewrite length_without by auto. lia. }
      exists pop', fit'. split; auto. split; auto.
      apply trims_step with k w; auto.
      intros i m Hm. destruct (argmin_spec _ _ Hk) as (v & V1 & V2 & _).
      rewrite (E _ _ Ew) in V1. injection V1 as <-. apply V2. eapply nth_error_In. apply (E _ _ Hm).
    + exists pop, fit. split; auto. split; auto. constructor; auto.
Qed.

Lemma subseq_refl {A} (l : list A) : subseq l l.
Proof. induction l; [apply sub_nil|apply sub_keep; auto]. Qed.
Lemma subseq_trans {A} (a b c : list A) : subseq a b -> subseq b c -> subseq a c.
Proof.
  intros H1 H2. revert a H1. induction H2; intros a H1; auto.
  - apply sub_skip; auto.
  - inversion H1; subst; [apply sub_skip|apply sub_keep]; auto.
Qed.
Lemma subseq_delete {A} k (l : list A) : subseq (without k l) l.
Proof.
  unfold without. revert k; induction l as [|x t IH]; intros [|k]; simpl.
  - apply sub_nil.
  - apply sub_nil.
  - apply sub_skip, subseq_refl.
  - apply sub_keep, IH.
Qed.

Lemma trims_size pop_size pop pop' : trims ind kappa pop_size pop pop' ->
  length pop' = Nat.min pop_size (length pop) /\ subseq pop' pop.
Proof.
  induction 1 as [pop H|pop k w pop' H1 H2 H3 H4 [IH1 IH2]].
  - split; [lia|apply subseq_refl].
  - rewrite length_without in IH1 by (apply nth_error_Some; congruence). split; [lia|].
    eapply subseq_trans; [exact IH2|apply subseq_delete].
Qed.
End P.

(** ** Tournament *)

Lemma tour_select_ok ts fit asp w : tour_select ts fit asp = Ok w ->
  In w asp /\ forall i, In i asp -> nth w fit 0 <= nth i fit 0.
Proof.
  unfold tour_select. destruct (Nat.ltb (length fit - 1) ts); [discriminate|].
  destruct (argmin (map (fun i => nth i fit 0) asp)) as [k|] eqn:E; [|discriminate].
  intros H; injection H as <-. pose proof (argmin_lt _ _ E) as L. rewrite map_length in L.
  split; [apply nth_In; auto|]. intros i Hi. destruct (argmin_spec _ _ E) as (v & V1 & V2 & _).
  rewrite nth_error_map, (nth_error_nth' _ 0%nat L) in V1. simpl in V1. injection V1 as V1. rewrite V1.
  apply V2. apply in_map_iff. exists i; auto.
Qed.

Lemma tournaments_ok ts fit draws k : forall n r, tournaments ts fit draws n k = Ok r ->
  length r = k /\ forall i w, nth_error r i = Some w ->
    In w (draws (n + 2 * i)%nat) /\ forall j, In j (draws (n + 2 * i)%nat) -> nth w fit 0 <= nth j fit 0.
Proof.
  induction k as [|k IH]; intros n r; cbn [tournaments].
  - intros H; injection H as <-. split; auto. intros [|i]; discriminate.
  - destruct (tour_select ts fit (draws n)) as [a|e] eqn:E1; cbn [bind]; [|discriminate].
    destruct (tour_select ts fit (draws (S n))) as [b|e] eqn:E2; cbn [bind]; [|discriminate].
    destruct (tournaments ts fit draws (S (S n)) k) as [r'|e] eqn:E3; cbn [bind]; [|discriminate].
    intros H; injection H as <-. destruct (IH _ _ E3) as [L S]. split; [simpl; lia|].
    intros [|i] w; simpl.
    + intros H; injection H as <-. rewrite Nat.add_0_r. apply tour_select_ok in E1. auto.
    + intros H. specialize (S _ _ H). replace (n + Datatypes.S (i + Datatypes.S (i + 0)))%nat with (Datatypes.S (Datatypes.S n) + 2 * i)%nat by lia. auto.
Qed.

Lemma tour_select_total ts fit asp : (0 < ts)%nat -> (ts <= length fit - 1)%nat -> length asp = ts -> exists w, tour_select ts fit asp = Ok w.
Proof.
  intros H1 H2 H3. unfold tour_select. replace (Nat.ltb (length fit - 1) ts) with false by (symmetry; apply Nat.ltb_ge; auto).
  destruct (argmin_some (map (fun i => nth i fit 0) asp)) as [k Hk].
  { destruct asp; simpl in *; [lia|discriminate]. }
  rewrite Hk. eauto.
Qed.

Lemma tournaments_total ts fit draws k : (0 < ts)%nat -> (ts <= length fit - 1)%nat -> (forall n, length (draws n) = ts) ->
  forall n, exists r, tournaments ts fit draws n k = Ok r.
Proof.
  intros H1 H2 H3. induction k as [|k IH]; intros n; cbn [tournaments]; [eauto|].
  destruct (tour_select_total ts fit (draws n) H1 H2 (H3 _)) as [a ->].
  destruct (tour_select_total ts fit (draws (S n)) H1 H2 (H3 _)) as [b ->].
  destruct (IH (S (S n))) as [r ->]. cbn [bind]. eauto.
Qed.
