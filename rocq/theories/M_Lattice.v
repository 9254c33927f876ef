(** Model of the simplex lattice of desdeo_emo/utilities/ReferenceVectors.py: the resolution search 150-167 and the
    "Uniform" branch of [_create] 190-212. scipy's comb is [binom]; itertools.combinations is [combinations]. *)
From Verif Require Import Base M_BaseEA.
From Coq Require Import QArith.
Open Scope nat_scope.

(** ReferenceVectors.py:157-167. [None]: still searching when the fuel runs out. *)
Fixpoint search_resolution (fuel : nat) (n_obj number_of_vectors temp : nat) : option nat :=
  match fuel with
  | O => None
  | S f =>
      let temp := temp + 1 in
      if Nat.ltb number_of_vectors (binom (temp + n_obj - 1) (n_obj - 1)) then Some (temp - 1)
      else search_resolution f n_obj number_of_vectors temp
  end.
Definition find_resolution (fuel n_obj number_of_vectors : nat) : option nat := search_resolution fuel n_obj number_of_vectors 0.

(** itertools.combinations(l, k): in lexicographic order. *)
Fixpoint combinations {A} (k : nat) (l : list A) : list (list A) :=
  match k, l with
  | O, _ => [[]]
  | S _, [] => []
  | S k', x :: t => map (cons x) (combinations k' t) ++ combinations k t
  end.

(** ReferenceVectors.py:198-202: [temp1 - temp2 - 1], one row. *)
Definition shift_row (c : list nat) : list Z := map (fun p => (Z.of_nat (snd p) - Z.of_nat (fst p) - 1)%Z) (combine (seq 0 (length c)) c).
(** ReferenceVectors.py:206-209, one row: first entry, differences, last entry. *)
Fixpoint diffs (prev : Z) (l : list Z) : list Z :=
  match l with [] => [] | x :: t => (x - prev)%Z :: diffs x t end.
Definition weight_row (h : nat) (temp : list Z) : list Z :=
  match temp with
  | [] => []
  | x :: t => (x :: diffs x t) ++ [(Z.of_nat h - last (x :: t) 0)%Z]
  end.

(** ReferenceVectors.py:190-209: the integer weights. [temp[:, 0]] (line 206) fails for a single objective, where the
    combinations are one empty tuple; line 202 needs as many combinations as [comb] said. *)
Definition lattice_weights (h n_obj : nat) : res (list (list Z)) :=
  let number_of_vectors := binom (h + n_obj - 1) (n_obj - 1) in
  let temp1 := combinations (n_obj - 1) (seq 1 (n_obj + h - 1)) in
  if negb (Nat.eqb (length temp1) number_of_vectors) then Err ValueError
  else if Nat.eqb (n_obj - 1) 0 then Err IndexError
  else Ok (map (fun c => weight_row h (shift_row c)) temp1).

(** ReferenceVectors.py:210: division by the resolution; with resolution 0 every entry is 0/0 (NaN), i.e. [None]. *)
Definition lattice_values (h n_obj : nat) : res (list (list (option Q))) :=
  bind (lattice_weights h n_obj) (fun ws =>
    Ok (map (map (fun z => if Nat.eqb h 0 then None else Some (z # Pos.of_nat h)%Q)) ws)).
