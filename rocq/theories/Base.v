(** Shared vocabulary: Python exceptions as values, numpy index conventions,
    and list helpers with their elementary lemmas. *)
From Coq Require Export List Arith ZArith Lia Bool.
From Coq Require Import Permutation.
Export ListNotations.

(** Python exceptions raised by the modelled code. *)
Inductive exn :=
| IndexError | ValueError | TypeError | AttributeError | EaError
| ZeroDivisionError | UnboundLocalError | KeyError | ModelError | Unmodelled.

Inductive res (A : Type) := Ok (a : A) | Err (e : exn).
Arguments Ok {A} a.
Arguments Err {A} e.

Definition bind {A B} (r : res A) (f : A -> res B) : res B :=
  match r with Ok a => f a | Err e => Err e end.

(** numpy integer indexing along an axis of length [n]: [0 <= i < n] addresses
    [i], [-n <= i < 0] addresses [n + i], anything else is an IndexError. *)
Definition norm_idx (n : nat) (z : Z) : option nat :=
  if ((0 <=? z) && (z <? Z.of_nat n))%Z then Some (Z.to_nat z)
  else if ((- Z.of_nat n <=? z) && (z <? 0))%Z then Some (Z.to_nat (Z.of_nat n + z))
  else None.

(** All indices of a list normalised, or IndexError. *)
Fixpoint norm_idxs (n : nat) (zs : list Z) : res (list nat) :=
  match zs with
  | [] => Ok []
  | z :: t => match norm_idx n z with
              | None => Err IndexError
              | Some i => bind (norm_idxs n t) (fun l => Ok (i :: l))
              end
  end.

(** [l[i] = x] on a Python list / array axis (no effect out of range). *)
Fixpoint set_nth {A} (i : nat) (x : A) (l : list A) : list A :=
  match l, i with
  | [], _ => []
  | _ :: t, O => x :: t
  | y :: t, S j => y :: set_nth j x t
  end.

(** numpy boolean-mask selection [l[mask]]. *)
Fixpoint mask_sel {A} (m : list bool) (l : list A) : list A :=
  match m, l with
  | b :: m', x :: l' => if b then x :: mask_sel m' l' else mask_sel m' l'
  | _, _ => []
  end.

(** [mask[idxs] = v] *)
Definition mask_set (m : list bool) (idxs : list nat) (v : bool) : list bool :=
  fold_left (fun acc i => set_nth i v acc) idxs m.

(** The sublist of [l] at the positions satisfying [f], in order
    (specification-side notion, independent of masks). *)
Fixpoint select_pos_from {A} (k : nat) (f : nat -> bool) (l : list A) : list A :=
  match l with
  | [] => []
  | x :: t => if f k then x :: select_pos_from (S k) f t else select_pos_from (S k) f t
  end.
Definition select_pos {A} (f : nat -> bool) (l : list A) : list A := select_pos_from 0 f l.

Definition mem_nat (i : nat) (l : list nat) : bool := existsb (Nat.eqb i) l.

Lemma mem_nat_In i l : mem_nat i l = true <-> In i l.
Proof.
  unfold mem_nat. rewrite existsb_exists. split.
  - intros [x [Hx He]]. apply Nat.eqb_eq in He. subst; auto.
  - intros H. exists i. split; auto. apply Nat.eqb_refl.
Qed.

(** Listed positions, spelled out. *)
Definition listed (n : nat) (zs : list Z) (j : nat) : bool :=
  existsb (fun z => (z =? Z.of_nat j)%Z || (z =? Z.of_nat j - Z.of_nat n)%Z) zs.

Definition in_range (n : nat) (zs : list Z) : Prop :=
  Forall (fun z => (- Z.of_nat n <= z < Z.of_nat n)%Z) zs.

Lemma length_set_nth {A} i (x : A) l : length (set_nth i x l) = length l.
Proof. revert i; induction l as [|y t IH]; intros [|i]; simpl; auto. Qed.

Lemma nth_error_set_nth {A} i (x : A) l j :
  nth_error (set_nth i x l) j =
  if Nat.eqb i j then (if Nat.ltb j (length l) then Some x else None) else nth_error l j.
Proof.
  revert i j; induction l as [|y t IH]; intros [|i] [|j]; simpl; auto.
  - destruct (Nat.eqb i j); auto.
  - rewrite IH. destruct (Nat.eqb i j); auto.
Qed.

Lemma length_mask_set m idxs v : length (mask_set m idxs v) = length m.
Proof.
  revert m; unfold mask_set; induction idxs as [|i t IH]; intros m; simpl; auto.
  rewrite IH, length_set_nth; auto.
Qed.

Lemma nth_error_mask_set m idxs v j :
  nth_error (mask_set m idxs v) j =
  if mem_nat j idxs then (if Nat.ltb j (length m) then Some v else None) else nth_error m j.
Proof.
  revert m; unfold mask_set; induction idxs as [|i t IH]; intros m; simpl; auto.
  rewrite IH, length_set_nth, nth_error_set_nth.
  rewrite (Nat.eqb_sym j i).
  destruct (Nat.eqb i j) eqn:E; simpl; auto.
  destruct (mem_nat j t); auto.
Qed.

Lemma nth_error_ext {A} (l l' : list A) :
  (forall i, nth_error l i = nth_error l' i) -> l = l'.
Proof.
  revert l'; induction l as [|x t IH]; intros [|y t'] H; auto.
  - specialize (H 0); discriminate.
  - specialize (H 0); discriminate.
  - pose proof (H 0) as H0; simpl in H0. injection H0 as ->.
    f_equal. apply IH. intros i. apply (H (S i)).
Qed.

Lemma nth_error_repeat' {A} (x : A) n j :
  nth_error (repeat x n) j = if Nat.ltb j n then Some x else None.
Proof.
  revert j; induction n as [|n IH]; intros [|j]; simpl; auto.
  rewrite IH; auto.
Qed.

Lemma mask_sel_select {A} (m : list bool) (l : list A) (f : nat -> bool) k :
  length m = length l ->
  (forall i b, nth_error m i = Some b -> b = f (k + i)) ->
  mask_sel m l = select_pos_from k f l.
Proof.
  revert l k; induction m as [|b m IH]; intros [|x l] k Hl Hf; simpl in *; try discriminate; auto.
  assert (b = f k) as ->.
  { rewrite (Hf 0 b eq_refl), Nat.add_0_r; auto. }
  rewrite (IH l (S k)); auto.
  intros i b Hi. rewrite (Hf (S i) b Hi). f_equal; lia.
Qed.

Lemma mask_sel_map {A B} (g : A -> B) m l : mask_sel m (map g l) = map g (mask_sel m l).
Proof.
  revert l; induction m as [|b m IH]; intros [|x l]; simpl; auto.
  destruct b; simpl; rewrite IH; auto.
Qed.

Lemma mask_sel_repeat {A} (x : A) m n : length m = n ->
  mask_sel m (repeat x n) = repeat x (length (mask_sel m (repeat x n))).
Proof.
  revert n; induction m as [|b m IH]; intros [|n] H; simpl in *; try discriminate; auto.
  destruct b; simpl; [f_equal|]; apply IH; lia.
Qed.

Lemma select_pos_from_map {A B} (g : A -> B) k f l :
  select_pos_from k f (map g l) = map g (select_pos_from k f l).
Proof.
  revert k; induction l as [|x t IH]; intros k; simpl; auto.
  destruct (f k); simpl; rewrite IH; auto.
Qed.

Lemma select_pos_from_ext {A} k f g (l : list A) :
  (forall i, k <= i < k + length l -> f i = g i) -> select_pos_from k f l = select_pos_from k g l.
Proof.
  revert k; induction l as [|x t IH]; intros k H; simpl; auto.
  rewrite (H k) by (simpl; lia).
  destruct (g k); [f_equal|]; apply IH; intros i Hi; apply H; simpl in *; lia.
Qed.

Lemma In_select_pos_from {A} k f (l : list A) x :
  In x (select_pos_from k f l) <-> exists i, nth_error l i = Some x /\ f (k + i) = true.
Proof.
  revert k; induction l as [|y t IH]; intros k; simpl.
  - split; [intros []|intros [i [H _]]; destruct i; discriminate].
  - destruct (f k) eqn:E; simpl; rewrite IH; split.
    + intros [->|[i [H1 H2]]].
      * exists 0; simpl; rewrite Nat.add_0_r; auto.
      * exists (S i); simpl; split; auto. rewrite <- H2; f_equal; lia.
    + intros [[|i] [H1 H2]]; simpl in *.
      * injection H1; auto.
      * right; exists i; split; auto. rewrite <- H2; f_equal; lia.
    + intros [i [H1 H2]]. exists (S i); simpl; split; auto. rewrite <- H2; f_equal; lia.
    + intros [[|i] [H1 H2]]; simpl in *.
      * rewrite Nat.add_0_r in H2; congruence.
      * exists i; split; auto. rewrite <- H2; f_equal; lia.
Qed.

Lemma length_select_partition {A} k f (l : list A) :
  length (select_pos_from k f l) + length (select_pos_from k (fun i => negb (f i)) l) = length l.
Proof.
  revert k; induction l as [|x t IH]; intros k; simpl; auto.
  specialize (IH (S k)). destruct (f k); simpl; lia.
Qed.

Lemma Permutation_select_partition {A} k f (l : list A) :
  Permutation (select_pos_from k f l ++ select_pos_from k (fun i => negb (f i)) l) l.
Proof.
  revert k; induction l as [|x t IH]; intros k; simpl; auto.
  specialize (IH (S k)). destruct (f k); simpl.
  - constructor; auto.
  - etransitivity; [symmetry; apply Permutation_middle|]. constructor; auto.
Qed.

Lemma norm_idx_spec n z i :
  norm_idx n z = Some i <->
  i < n /\ (z = Z.of_nat i \/ z = Z.of_nat i - Z.of_nat n)%Z.
Proof.
  unfold norm_idx.
  destruct ((0 <=? z) && (z <? Z.of_nat n))%Z eqn:E1.
  - apply andb_true_iff in E1; destruct E1 as [E1 E2].
    apply Z.leb_le in E1; apply Z.ltb_lt in E2. split.
    + intros H; injection H as <-. lia.
    + intros [H1 [H2|H2]]; f_equal; lia.
  - destruct ((- Z.of_nat n <=? z) && (z <? 0))%Z eqn:E2.
    + apply andb_true_iff in E2; destruct E2 as [E2 E3].
      apply Z.leb_le in E2; apply Z.ltb_lt in E3. split.
      * intros H; injection H as <-. lia.
      * intros [H1 [H2|H2]]; f_equal; lia.
    + split; [discriminate|].
      intros [H1 H2].
      apply andb_false_iff in E1; apply andb_false_iff in E2.
      rewrite Z.leb_gt, Z.ltb_ge in *. lia.
Qed.

Lemma norm_idx_None n z :
  norm_idx n z = None <-> ~ (- Z.of_nat n <= z < Z.of_nat n)%Z.
Proof.
  unfold norm_idx.
  destruct ((0 <=? z) && (z <? Z.of_nat n))%Z eqn:E1;
  [|destruct ((- Z.of_nat n <=? z) && (z <? 0))%Z eqn:E2].
  - apply andb_true_iff in E1; rewrite Z.leb_le, Z.ltb_lt in E1.
    split; [discriminate|lia].
  - apply andb_true_iff in E2; rewrite Z.leb_le, Z.ltb_lt in E2.
    split; [discriminate|lia].
  - apply andb_false_iff in E1; apply andb_false_iff in E2.
    rewrite Z.leb_gt, Z.ltb_ge in *. split; [lia|auto].
Qed.

Lemma norm_idxs_Ok n zs l :
  norm_idxs n zs = Ok l ->
  in_range n zs /\ (forall j, In j l -> j < n) /\ (forall j, j < n -> mem_nat j l = listed n zs j).
Proof.
  revert l; induction zs as [|z t IH]; intros l; simpl.
  - intros H; injection H as <-. split; [constructor|]. split; [intros j []|auto].
  - destruct (norm_idx n z) as [i|] eqn:E; [|discriminate].
    destruct (norm_idxs n t) as [l'|e] eqn:E'; simpl; [|discriminate].
    intros H; injection H as <-.
    destruct (IH l' eq_refl) as [H1 [H2 H3]].
    apply norm_idx_spec in E. destruct E as [E1 E2].
    split; [|split].
    + constructor; auto. lia.
    + intros j [<-|Hj]; auto.
    + intros j Hj. simpl. rewrite H3 by auto.
      unfold mem_nat; simpl. f_equal.
      destruct (Nat.eqb_spec j i) as [->|Hn].
      * destruct E2 as [->| ->]; rewrite Z.eqb_refl; auto. rewrite orb_true_r; auto.
      * symmetry. apply orb_false_iff. rewrite !Z.eqb_neq. lia.
Qed.

Lemma norm_idxs_Err n zs e :
  norm_idxs n zs = Err e -> e = IndexError /\ ~ in_range n zs.
Proof.
  revert e; induction zs as [|z t IH]; intros e; simpl; [discriminate|].
  destruct (norm_idx n z) as [i|] eqn:E.
  - destruct (norm_idxs n t) as [l'|e'] eqn:E'; simpl; [discriminate|].
    intros H; injection H as <-.
    destruct (IH e' eq_refl) as [-> Hn]. split; auto.
    intros H; apply Hn. inversion H; auto.
  - intros H; injection H as <-. split; auto.
    intros H. apply norm_idx_None in E. inversion H; auto.
Qed.

Lemma norm_idxs_in_range n zs : in_range n zs -> exists l, norm_idxs n zs = Ok l.
Proof.
  intros H. destruct (norm_idxs n zs) as [l|e] eqn:E; eauto.
  apply norm_idxs_Err in E. tauto.
Qed.

Lemma listed_spec n zs j :
  listed n zs j = true <-> In (Z.of_nat j) zs \/ In (Z.of_nat j - Z.of_nat n)%Z zs.
Proof.
  unfold listed. rewrite existsb_exists. split.
  - intros [z [Hz H]]. apply orb_true_iff in H. rewrite !Z.eqb_eq in H.
    destruct H as [-> | ->]; auto.
  - intros [H|H]; eexists; (split; [exact H|]); apply orb_true_iff; rewrite !Z.eqb_eq; auto.
Qed.
