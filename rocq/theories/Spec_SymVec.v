(** Vocabulary for moving a set of vectors: its mean, its shape, angles. *)
From Verif Require Import Base RVec.
From Coq Require Import Reals.
Open Scope R_scope.

(** [c] is the column-wise mean of the rows [xs] of length [n]. *)
Definition is_mean (n : nat) (xs : list (list R)) (c : list R) : Prop :=
  length c = n /\ forall j, (j < n)%nat -> nth j c 0 * INR (length xs) = rsum (map (fun v => nth j v 0) xs).

(** [phi] is the angle between [u] and [v]. *)
Definition angle (u v : list R) (phi : R) : Prop := 0 <= phi <= PI /\ cos phi * (norm u * norm v) = dot u v.

(** Corresponding rows have the same inner products (so the same lengths and mutual angles). *)
Definition same_shape (xs ys : list (list R)) : Prop :=
  length ys = length xs /\
  forall i j xi xj, nth_error xs i = Some xi -> nth_error xs j = Some xj ->
    exists yi yj, nth_error ys i = Some yi /\ nth_error ys j = Some yj /\ dot yi yj = dot xi xj.
