(** Independent vocabulary for C29-C32: angles, niches, constraint violation, the angle penalised
    distance. Uses only vectors (RVec), nothing of the model. *)
From Verif Require Import Base RVec.
From Coq Require Import Reals.
Open Scope R_scope.

(** Cosine of the angle between two vectors (0 if one of them is 0). *)
Definition cos_between (a b : list R) : R := dot a b / (norm a * norm b).

(** Individual [i]'s closest vector is number [k]: no other one has a larger cosine, and no earlier
    one an equal cosine. *)
Definition closest (ideal : list R) (fit vecs : list (list R)) (i k : nat) : Prop :=
  exists f v, nth_error fit i = Some f /\ nth_error vecs k = Some v /\
    forall k' v', nth_error vecs k' = Some v' ->
      cos_between (vsub f ideal) v' <= cos_between (vsub f ideal) v /\
      ((k' < k)%nat -> cos_between (vsub f ideal) v' < cos_between (vsub f ideal) v).

(** Constraint values: at most 0 means satisfied. *)
Definition feasible (c : list R) : Prop := forall x, In x c -> x <= 0.
Definition total_violation (c : list R) : R := rsum (map (Rmax 0) c).

(** Admissible in niche [k]: with constraints, feasible, or - when nobody in the niche is - with the
    smallest total violation of the niche. *)
Definition admissible (ideal : list R) (fit : list (list R)) (cons : option (list (list R))) (vecs : list (list R)) (k i : nat) : Prop :=
  closest ideal fit vecs i k /\
  match cons with
  | None => True
  | Some c => exists ci, nth_error c i = Some ci /\
      (feasible ci \/
       forall j cj, closest ideal fit vecs j k -> nth_error c j = Some cj -> ~ feasible cj /\ total_violation ci <= total_violation cj)
  end.

(** |f - ideal| * (1 + penalty * angle to the vector / gamma). *)
Definition APD (penalty gamma : R) (ideal f v : list R) : R :=
  norm (vsub f ideal) * (1 + penalty * (acos (cos_between (vsub f ideal) v) / gamma)).

(** Well-formed input of a selection with [m] objectives: a non-empty population of m-vectors, at
    least one reference vector, all of unit length without negative entries, one
    neighbouring angle per vector, one constraint row per individual. *)
Record selection_input (m : nat) (ideal pop_ideal : list R) (fit : list (list R)) (cons : option (list (list R)))
    (vecs : list (list R)) (gam : list R) : Prop := {
  si_fit : fit <> [] /\ forall f, In f fit -> length f = m;
  si_ideal : length ideal = m /\ length pop_ideal = m;
  si_vecs : vecs <> [] /\ forall v, In v vecs -> length v = m /\ norm v = 1 /\ forall x, In x v -> 0 <= x;
  si_gam : length gam = length vecs;
  si_cons : match cons with Some c => length c = length fit | None => True end }.
