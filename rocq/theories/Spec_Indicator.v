(** Specification vocabulary for tournament selection and indicator based environmental selection. *)
From Verif Require Import Base RVec.
From Coq Require Import Reals.
Open Scope R_scope.

(** The list without its [i]-th entry. *)
Definition without {A} (i : nat) (l : list A) : list A := firstn i l ++ skipn (S i) l.

(** [l] is obtained from [l'] by leaving out entries. *)
Inductive subseq {A} : list A -> list A -> Prop :=
| sub_nil : subseq [] []
| sub_skip x l l' : subseq l l' -> subseq l (x :: l')
| sub_keep x l l' : subseq l l' -> subseq (x :: l) (x :: l').

Section Spec.
Context {M : Type} (ind : M -> M -> R) (kappa : R).
(** IBEA fitness of a member among the others: minus the sum of exp(-I/kappa). *)
Definition loss (m : M) (others : list M) : R := - rsum (map (fun x => exp (- ind m x / kappa)) others).
(** [fit] holds every member's fitness computed from scratch. *)
Definition exact (pop : list M) (fit : list R) : Prop :=
  length fit = length pop /\ forall i m, nth_error pop i = Some m -> nth_error fit i = Some (loss m (without i pop)).
(** Greedy removal: as long as there are too many members, one with the smallest from-scratch fitness goes. *)
Inductive trims (pop_size : nat) : list M -> list M -> Prop :=
| trims_done pop : (length pop <= pop_size)%nat -> trims pop_size pop pop
| trims_step pop k w pop' : (pop_size < length pop)%nat -> nth_error pop k = Some w ->
    (forall i m, nth_error pop i = Some m -> loss w (without k pop) <= loss m (without i pop)) ->
    trims pop_size (without k pop) pop' -> trims pop_size pop pop'.
End Spec.

(** A result of np.random.choice(n, k, replace=False). *)
Definition valid_draw (n k : nat) (l : list nat) : Prop := length l = k /\ NoDup l /\ forall i, In i l -> (i < n)%nat.
