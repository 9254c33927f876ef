(** Vocabulary for C88-C91: the value of an expression tree, bare denominators, the subtrees removed by pruning. *)
From Verif Require Import Base M_BioGP M_GPfit Spec_BioGP.
Open Scope nat_scope.

Section S.
Context {V F : Type} (zero_p : V -> bool) (one : V) (is_div : F -> bool) (sem : F -> list (list V) -> list V) (rows : nat).
Notation tree := (tree F (term V)).
(** The mathematical value of an expression on the data: division takes 1 for a zero denominator; nothing is changed. *)
Fixpoint value_on (d : nat -> list V) (g : tree) : list V :=
  match g with
  | Tr (VFun f) kids =>
      let vs := map (value_on d) kids in
      match is_div f, vs with
      | true, [x; y] => sem f [x; map (fun v => if zero_p v then one else v) y]
      | _, _ => sem f vs
      end
  | Tr (VTerm (TVar c)) _ => d c
  | Tr (VTerm (TConst v)) _ => repeat v rows
  | Tr VLin _ => []
  end.
(** Somewhere in [g] the variable [c] alone is the denominator of a division. *)
Definition bare_denominator (g : tree) (c : nat) : Prop :=
  exists n f x k, is_div f = true /\ at_level g n (Tr (VFun f) [x; Tr (VTerm (TVar c)) k]).
Definition no_zero (l : list V) : Prop := forall v, In v l -> zero_p v = false.
(** Positions of the true entries. *)
Definition hits (flags : list bool) : list nat := filter (fun i => nth i flags false) (seq 0 (length flags)).
End S.
