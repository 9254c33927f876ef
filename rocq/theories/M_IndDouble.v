(** Double precision version of the indicator fitness of M_Indicator.v: desdeo_emo/EAs/IBEA.py [_fitness_assignment] 86-96 and
    [_environmental_selection] 99-108, PBEA.py 96-123 (the same loops), and the while loop of BaseIndicatorEA.py 114-119.
    Every addition is rounded to the nearest double ([fl] of M_Double.v; no overflow). [ex a b] is the double that numpy computes for
    np.exp(-indicator(a, b) / kappa); the indicator, the division and np.exp are external. The code keeps one column per objective, all equal; the
    model keeps one. *)
From Coq Require Import Reals.
From Verif Require Import Base RVec M_Indicator M_Double.
Open Scope R_scope.

Section IndDouble.
Context {M : Type} (ex : M -> M -> R).

(** IBEA.py:90-96: the inner loop for one [i]: fitnesses[i] += -exp(...), started from 0 (BaseIndicatorEA.py:111, np.zeros_like). *)
Definition assign_one_fl (pop : list M) (i : nat) (m : M) : R :=
  fold_left (fun acc p => if Nat.eqb (fst p) i then acc else fl (acc + - ex m (snd p)))
    (combine (seq 0 (length pop)) pop) 0.
(** IBEA.py:86-97. *)
Definition fitness_assignment_fl (pop : list M) : list R :=
  map (fun p => assign_one_fl pop (fst p) (snd p)) (combine (seq 0 (length pop)) pop).

(** IBEA.py:99-108. *)
Definition env_update_fl (pop : list M) (fit : list R) (worst : nat) (w : M) : list R :=
  map (fun p => if Nat.eqb worst (fst p) then fst (snd p) else fl (fst (snd p) + ex (snd (snd p)) w))
    (combine (seq 0 (length pop)) (combine fit pop)).

(** BaseIndicatorEA.py:114-119: the while loop. [None]: not finished with this fuel. *)
Fixpoint env_loop_fl (fuel : nat) (pop_size : nat) (pop : list M) (fit : list R) : option (res (list M * list R)) :=
  if Nat.ltb pop_size (length pop) then
    match fuel with
    | O => None
    | S fuel' =>
        match argmin fit with
        | None => Some (Err ValueError)
        | Some worst =>
            match nth_error pop worst with
            | None => Some (Err IndexError)
            | Some w =>
                env_loop_fl fuel' pop_size (delete_row worst pop) (delete_row worst (env_update_fl pop fit worst w))
            end
        end
    end
  else Some (Ok (pop, fit)).
End IndDouble.
