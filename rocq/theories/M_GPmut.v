(** Model of BioGP_mutation.do (desdeo_emo/recombination/biogp_mutation.py:81-142) and of the function mutate (same file, 5-78) on whole lists of offspring; the mutation of one individual is in M_BioGP.v.
    Not modelled: rounding in the three thresholds. *)
From Coq Require Import QArith.
From Verif Require Import Base M_BioGP.
Open Scope nat_scope.

Inductive mmode := MutStandard | MutSmall | MutMono | MutNone.
(** biogp_mutation.py:82-87, 90, 93, 111, 128 (class): one number r for all offspring. *)
Definition class_mut_mode (p r : Q) : mmode :=
  if Qle_bool r (p / 3) then MutStandard else if Qle_bool r (p / 3 + p / 3) then MutSmall else if Qle_bool r p then MutMono else MutNone.
(** biogp_mutation.py:30-35, 38, 54, 66 (function). *)
Definition fn_mut_mode (p r : Q) : mmode :=
  let stand := ((1 # 3) * p)%Q in let point := ((1 # 3) * p)%Q in let mono := (p - stand - point)%Q in
  if Qle_bool r stand then MutStandard else if Qle_bool r (point + stand) then MutSmall else if Qle_bool r (mono + point + stand) then MutMono else MutNone.

Section S.
Context {F T : Type} (arity : F -> nat) (pick : nat -> nat -> nat) (coin : nat -> bool) (fs : list F) (ts : list T).

(** The numbers drawn for one offspring: the node of standard mutation, the draws of small mutation, the two positions of mono-parental mutation. *)
Record mdraw := mkMd { md_node : nat; md_small : nat -> small_draw F T; md_i : nat; md_j : nat }.

(** One offspring; [t]: how many numbers growing trees has used up. *)
Definition mutate_one (m : mmode) (max_depth : nat) (d : mdraw) (fuel : nat) (h : heap F T) (next : nat) (x : ind) (t : nat) : res (heap F T * nat * ind * nat) :=
  match m with
  | MutStandard => mutate_standard arity pick coin fs ts fuel max_depth h next x (md_node d) t
  | MutSmall => bind (mutate_small arity fuel h x (md_small d)) (fun '(h', x') => Ok (h', next, x', t))
  | MutMono => bind (mutate_mono fuel h x (md_i d) (md_j d)) (fun '(h', x') => Ok (h', next, x', t))
  | MutNone => Ok (h, next, x, t)
  end.

(** biogp_mutation.py:92-140, 37-78: the loop over the offspring, which are changed in place. *)
Fixpoint mutate_each (m : mmode) (max_depth : nat) (dr : nat -> mdraw) (k fuel : nat) (h : heap F T) (next : nat) (xs : list ind) (t : nat) : res (heap F T * nat * list ind * nat) :=
  match xs with
  | [] => Ok (h, next, [], t)
  | x :: rest =>
      bind (mutate_one m max_depth (dr k) fuel h next x t) (fun '(h1, n1, x1, t1) =>
      bind (mutate_each m max_depth dr (S k) fuel h1 n1 rest t1) (fun '(h2, n2, xs2, t2) => Ok (h2, n2, x1 :: xs2, t2)))
  end.
(** BioGP_mutation(probability_mutation=p).do(offspring), r the number drawn. *)
Definition mutate_do (p r : Q) (max_depth : nat) (dr : nat -> mdraw) (fuel : nat) (h : heap F T) (next : nat) (xs : list ind) (t : nat) :=
  mutate_each (class_mut_mode p r) max_depth dr 0 fuel h next xs t.
(** mutate(offspring, individuals, params) with params["prob_mutation"] = p ([None]: omitted, 0.3). *)
Definition mutate_fn (p : option Q) (r : Q) (max_depth : nat) (dr : nat -> mdraw) (fuel : nat) (h : heap F T) (next : nat) (xs : list ind) (t : nat) :=
  mutate_each (fn_mut_mode (match p with Some v => v | None => 3 # 10 end) r) max_depth dr 0 fuel h next xs t.
End S.
Arguments mdraw : clear implicits.
