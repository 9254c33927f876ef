(** Model of desdeo_emo/utilities/model_management.py. Rows of decision variables are values of a type with decidable
    equality; np.unique(axis=0, return_index=True) gives the positions of the first occurrences of the distinct rows. *)
From Verif Require Import Base.
From Coq Require Import QArith Sorting.Permutation.
Open Scope nat_scope.

Section Rows.
Context {A : Type} (eqb : A -> A -> bool).

(** Is the row at position [i] equal to an earlier one? *)
Definition repeated_at (l : list A) (i : nat) : bool :=
  match nth_error l i with
  | Some x => existsb (eqb x) (firstn i l)
  | None => false
  end.
(** model_management.py:34 np.unique(..., return_index=True)[1] (the order, by value, does not matter below). *)
Definition unique_indices (l : list A) : list nat := filter (fun i => negb (repeated_at l i)) (seq 0 (length l)).
(** numpy.delete(np.arange(n), idxs) with numpy's index conventions. *)
Definition np_delete_arange (n : nat) (idxs : list Z) : res (list nat) :=
  bind (norm_idxs n idxs) (fun l => Ok (filter (fun i => negb (mem_nat i l)) (seq 0 n))).

(** model_management.py:17-43. *)
Definition remove_duplicate (X archive : list A) : res (list nat) :=
  let all := archive ++ X in
  bind (np_delete_arange (length all) (map Z.of_nat (unique_indices all))) (fun repeated =>
  let repeated_in_X := map (fun i => (Z.of_nat i - Z.of_nat (length archive))%Z) repeated in
  np_delete_arange (length X) repeated_in_X).

(** np.argpartition(values, kth): an oracle; kth outside the array raises ValueError. *)
Definition argpartition (part : list Q -> nat -> list nat) (values : list Q) (kth : nat) : res (list nat) :=
  if Nat.ltb kth (length values) then Ok (part values kth) else Err ValueError.

Fixpoint qmax_list (x : Q) (l : list Q) : Q := match l with [] => x | y :: t => qmax_list (if Qle_bool x y then y else x) t end.
(** np.max(row) *)
Definition row_max (r : list Q) : Q := match r with [] => 0%Q | x :: t => qmax_list x t end.

Definition at_rows {B} (d : B) (rows : list B) (idx : list nat) : list B := map (fun i => nth i rows d) idx.

(** model_management.py:47-91: the rows given to problem.evaluate; [None]: nothing to do (line 74-75). [asf]: the scalarisation value of an
    objective vector with respect to the reference point (external). [dv], [obj], [unc]: one row per individual. Training the surrogate is not modelled. *)
Definition ikrvea_mm (part : list Q -> nat -> list nat) (asf : list Q -> Q) (d : A)
    (individuals : list A) (objectives uncertainty : list (list Q)) (archive : list A) (u : nat) : res (option (list A)) :=
  bind (remove_duplicate individuals archive) (fun nd =>
  match nd with
  | [] => Ok None
  | _ =>
      let dv := at_rows d individuals nd in
      let obj := at_rows [] objectives nd in
      let unc := at_rows [] uncertainty nd in
      bind (argpartition part (map asf obj) (2 * u)) (fun idx =>
      let asf_unc := map row_max (at_rows [] unc (firstn (2 * u) idx)) in
      bind (argpartition part asf_unc u) (fun p =>
      let lowest := firstn u p in
      Ok (Some (at_rows d dv lowest))))
  end).
End Rows.
