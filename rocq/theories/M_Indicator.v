(** Model of desdeo_emo/selection/TournamentSelection.py and of the generation of the indicator based EAs:
    desdeo_emo/EAs/BaseIndicatorEA.py [_next_gen] 106-128, IBEA.py [_fitness_assignment] 86-96 and
    [_environmental_selection] 99-108 (PBEA.py is the same with an indicator that is fixed during a generation: the
    reference point, delta and the smallest ASF value of the population at the start of the generation are its extra arguments).
    External: the indicator (desdeo_tools), np.random.choice, variation and evaluation. The code keeps one column of
    indicator fitness per objective, all equal; the model keeps one. Floats are reals. *)
From Verif Require Import Base RVec.
From Coq Require Import Reals.
Open Scope R_scope.

(** ** Tournament selection *)
(** TournamentSelection.py:50-74. [aspirants]: what np.random.choice(len(fitness)-1, size, replace=False) returns
    (line 67); it raises ValueError when size > len(fitness) - 1. The stable sort followed by [0] is the first minimum. *)
Definition tour_select (tournament_size : nat) (fitness : list R) (aspirants : list nat) : res nat :=
  if Nat.ltb (length fitness - 1) tournament_size then Err ValueError
  else match argmin (map (fun i => nth i fitness 0) aspirants) with
       | None => Err IndexError
       | Some k => Ok (nth k aspirants 0%nat)
       end.

(** TournamentSelection.py:38-47: one parent per individual. Line 44: np.asarray(first, second) takes its second argument
    as the dtype (a numpy integer's own dtype), so a second tournament is held and its winner is thrown away.
    [draws n]: result of the n-th call of np.random.choice. *)
Fixpoint tournaments (tournament_size : nat) (fitness : list R) (draws : nat -> list nat) (n k : nat) : res (list nat) :=
  match k with
  | O => Ok []
  | S k' => bind (tour_select tournament_size fitness (draws n)) (fun a =>
            bind (tour_select tournament_size fitness (draws (S n))) (fun _ =>
            bind (tournaments tournament_size fitness draws (S (S n)) k') (fun r => Ok (a :: r))))
  end.
Definition tournament_do (tournament_size : nat) (fitness : list R) (draws : nat -> list nat) : res (list nat) :=
  tournaments tournament_size fitness draws 0 (length fitness).

Section Indicator.
Context {M : Type} (ind : M -> M -> R) (kappa : R).

(** IBEA.py:90-96: the inner loop for one [i]. *)
Definition assign_one (pop : list M) (i : nat) (m : M) : R :=
  fold_left (fun acc p => if Nat.eqb (fst p) i then acc else acc + - exp (- ind m (snd p) / kappa))
    (combine (seq 0 (length pop)) pop) 0.
(** IBEA.py:86-97. *)
Definition fitness_assignment (pop : list M) : list R :=
  map (fun p => assign_one pop (fst p) (snd p)) (combine (seq 0 (length pop)) pop).

(** IBEA.py:99-108. *)
Definition env_update (pop : list M) (fit : list R) (worst : nat) (w : M) : list R :=
  map (fun p => if Nat.eqb worst (fst p) then fst (snd p) else fst (snd p) + exp (- ind (snd (snd p)) w / kappa))
    (combine (seq 0 (length pop)) (combine fit pop)).

(** population.delete / np.delete of one row (see C03). *)
Definition delete_row {A} (i : nat) (l : list A) : list A := firstn i l ++ skipn (S i) l.

(** BaseIndicatorEA.py:114-119: the while loop. [None]: not finished with this fuel. *)
Fixpoint env_loop (fuel : nat) (pop_size : nat) (pop : list M) (fit : list R) : option (res (list M * list R)) :=
  if Nat.ltb pop_size (length pop) then
    match fuel with
    | O => None
    | S fuel' =>
        match argmin fit with
        | None => Some (Err ValueError)
        | Some worst =>
            match nth_error pop worst with
            | None => Some (Err IndexError)
            | Some w =>
                env_loop fuel' pop_size (delete_row worst pop) (delete_row worst (env_update pop fit worst w))
            end
        end
    end
  else Some (Ok (pop, fit)).

(** BaseIndicatorEA.py:106-128. [mate chosen pop]: the evaluated offspring. Result: population and number of evaluations added. *)
Context (mate : list nat -> list M -> list M).
Definition ind_next_gen (tournament_size pop_size : nat) (draws : nat -> list nat) (pop : list M) : res (list M * nat) :=
  match env_loop (length pop) pop_size pop (fitness_assignment pop) with
  | None => Err Unmodelled
  | Some r =>
      bind r (fun pf =>
      bind (tournament_do tournament_size (snd pf) draws) (fun chosen =>
      let off := mate chosen (fst pf) in
      Ok (fst pf ++ off, length off)))
  end.
End Indicator.
