(** Model of desdeo_emo/EAs/MOEAD.py [_next_gen] and desdeo_emo/selection/MOEAD_select.py.
    A population is its list of members (the columns stay aligned: C01); a member has a decision
    part and a fitness vector. External: the scalarising function [SF fitness weights ideal]
    (desdeo_tools), evaluation and variation ([offspring]), np.random.choice, np.argsort.
    Fitness values and weights are rationals. *)
From Verif Require Import Base.
From Coq Require Import QArith.
Open Scope nat_scope.

(** Fancy indexing [arr[idxs]] with non-negative indices: IndexError beyond the end. *)
Fixpoint take_all {A} (l : list A) (idxs : list nat) : res (list A) :=
  match idxs with
  | [] => Ok []
  | i :: t => match nth_error l i with
              | None => Err IndexError
              | Some x => bind (take_all l t) (fun r => Ok (x :: r))
              end
  end.

Section MOEAD.
Context {M : Type} (fitness : M -> list Q).
Context (SF : list Q -> list Q -> list Q -> Q).

(** MOEAD_select.py:94-103: zeros in the weights replaced by 0.0001 (in a copy). *)
Definition fix_weights (w : list Q) : list Q := map (fun x => if Qeq_bool x 0 then (1 # 10000)%Q else x) w.

(** MOEAD_select.py:71-92. The lists mapped over (lines 106-108) have min(n_neighbors, number of
    vectors), resp. n_neighbors, rows; [map] stops at the shorter. *)
Fixpoint outperformed (nb : list nat) (cur : list (list Q)) (ws : list (list Q)) (off ideal : list Q) : list nat :=
  match nb, cur, ws with
  | j :: nb', f :: cur', w :: ws' =>
      if negb (Qle_bool (SF f (fix_weights w) ideal) (SF off (fix_weights w) ideal))
      then j :: outperformed nb' cur' ws' off ideal else outperformed nb' cur' ws' off ideal
  | _, _, _ => []
  end.

(** MOEAD_select.py:46-92 [do]; the offspring is the last member (line 72). *)
Definition moead_do (vectors : list (list Q)) (neighborhoods : list (list nat)) (ideal : list Q) (pop : list M) (i : nat) : res (list nat) :=
  match nth_error neighborhoods i with
  | None => Err IndexError
  | Some nb =>
      bind (take_all (map fitness pop) nb) (fun cur =>
      match rev pop with
      | [] => Err IndexError
      | off :: _ => bind (take_all vectors nb) (fun ws => Ok (outperformed nb cur ws (fitness off) ideal))
      end)
  end.

(** Population.replace (253-272) on members. *)
Definition replace_at (idxs : list nat) (x : M) (pop : list M) : list M :=
  fold_left (fun acc i => set_nth i x acc) idxs pop.

(** MOEAD_select.py:111-116: two distinct positions of the neighbourhood; [pick i n] are the two
    positions np.random.choice draws from [n]. *)
Definition choose_parents (pick : nat -> nat * nat) (neighborhoods : list (list nat)) (i : nat) : res (nat * nat) :=
  match nth_error neighborhoods i with
  | None => Err IndexError
  | Some nb => if Nat.ltb (length nb) 2 then Err ValueError
               else match nth_error nb (fst (pick (length nb))), nth_error nb (snd (pick (length nb))) with
                    | Some a, Some b => Ok (a, b)
                    | _, _ => Err ValueError
                    end
  end.

(** One turn of the loop of MOEAD.py:114-143. [offspring i a b pop]: first child of the members
    a and b, repaired and evaluated (Population.mate fails with IndexError for a missing parent);
    [new_ideal]: the problem's ideal after evaluating it. State: ideal and members. *)
Context (vectors : list (list Q)) (neighborhoods : list (list nat)).
Context (pick : nat -> nat -> nat * nat) (offspring : nat -> M -> M -> list M -> M) (new_ideal : list Q -> M -> list Q).

Definition subproblem (i : nat) (s : list Q * list M) : res (list Q * list M) :=
  let (ideal, pop) := s in
  bind (choose_parents (pick i) neighborhoods i) (fun ab =>
  match nth_error pop (fst ab), nth_error pop (snd ab) with
  | Some a, Some b =>
      let off := offspring i a b pop in
      let ideal' := new_ideal ideal off in
      let pop1 := pop ++ [off] in
      bind (moead_do vectors neighborhoods ideal' pop1 i) (fun sel =>
        Ok (ideal', removelast (replace_at sel off pop1)))
  | _, _ => Err IndexError
  end).

(** MOEAD.py:112-146. [pop_size] is the attribute Population.pop_size. *)
Fixpoint subproblems (is : list nat) (s : list Q * list M) : res (list Q * list M) :=
  match is with
  | [] => Ok s
  | i :: t => bind (subproblem i s) (subproblems t)
  end.
Definition moead_gen (pop_size : nat) (s : list Q * list M) : res (list Q * list M) := subproblems (seq 0 pop_size) s.
End MOEAD.

(** MOEAD_select.py:36-43 and 118-127: the [n_neighbors] first entries of the argsort of each row of the
    distance matrix. [dist i j]: Euclidean distance of vectors i and j; [argsort keys]: np.argsort. *)
Definition neighborhoods_of (argsort : list Q -> list nat) (dist : nat -> nat -> Q) (n_vectors n_neighbors : nat) : list (list nat) :=
  map (fun i => firstn n_neighbors (argsort (map (dist i) (seq 0 n_vectors)))) (seq 0 n_vectors).
