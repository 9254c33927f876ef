(** The MOEA/D selection operator over a whole run: desdeo_emo/selection/MOEAD_select.py 25-44 (constructor) and 118-127 (adapt_RVs), with the inherited SelectionBase.py 101-103, 231-301, on
    the planar reference vectors (utilities/ReferenceVectors.py 243-250, 262-325, 327-445, 472-483), which are the only ones MOEA/D reads; EAs/MOEAD.py 112-146 with BaseEA.py 138-152, 439-444.
    Numbers are exact rationals in lowest terms ([Qred]); [M_RefVec] has the same vector operations on reals (the two are related in [Properties_MoeadRef]). Distances are compared by their squares. *)
From Verif Require Import Base M_MOEAD.
From Coq Require Import QArith Qabs.
Open Scope nat_scope.

Definition qsum (v : list Q) : Q := fold_right Qplus 0%Q v.
Fixpoint zip2 {A B C} (f : A -> B -> C) (l : list A) (l' : list B) : list C := match l, l' with a :: t, b :: t' => f a b :: zip2 f t t' | _, _ => [] end.
Definition sqdist (a b : list Q) : Q := qsum (zip2 (fun x y => (x - y) * (x - y))%Q a b).

(** ReferenceVectors.py:247, 250; a row that sums to 0 (NaN in numpy) is left at 0 here. *)
Definition planar_row (v : list Q) : list Q := map (fun x => Qred (x / qsum v)%Q) v.
(** ReferenceVectors.py:302-321, 410-415 [t * rows + (1 - t) * z], with the default translation_param. *)
Definition shifted (z : list Q) (rows : list (list Q)) : list (list Q) := map (fun v => zip2 (fun x y => (1 # 5) * x + (4 # 5) * y)%Q v z) rows.
(** ReferenceVectors.py:363-385, with the default predefined_distance 0.2. *)
Definition norm1 (v : list Q) : Q := qsum (map Qabs v).
Definition far_enough (zs : list (list Q)) (v : list Q) : bool := forallb (fun z => Qle_bool (1 # 25) (sqdist (map (fun x => x / norm1 z)%Q z) v)) zs.
(** ReferenceVectors.py:479. *)
Definition qeye (n : nat) : list (list Q) := map (fun i => map (fun j => if Nat.eqb i j then 1%Q else 0%Q) (seq 0 n)) (seq 0 n).

(** The selection operator: initial_values_planar, values_planar, the number of rows of [values], number_of_objectives, n_neighbors, neighborhoods. *)
Record mop := mkMop { mo_init : list (list Q); mo_planar : list (list Q); mo_rows : nat; mo_nobj : nat; mo_nn : nat; mo_nbs : list (list nat) }.

Section Op.
Context (argsort : list Q -> list nat).
(** MOEAD_select.py:36-43, 121-127. *)
Definition nbs_of (planar : list (list Q)) (n_neighbors : nat) : list (list nat) :=
  neighborhoods_of argsort (fun i j => sqdist (nth i planar []) (nth j planar [])) (length planar) n_neighbors.
(** MOEAD_select.py:25-44. *)
Definition mop_new (vectors : list (list Q)) (n_obj n_neighbors : nat) : mop :=
  mkMop vectors vectors (length vectors) n_obj n_neighbors (nbs_of vectors n_neighbors).
(** MOEAD_select.py:118-127: ReferenceVectors.adapt (262-273) recomputes [values] from their initial copies and normalises both arrays. *)
Definition mop_adapt (s : mop) : mop :=
  let p := map planar_row (mo_planar s) in
  mkMop (mo_init s) p (length (mo_init s)) (mo_nobj s) (mo_nn s) (nbs_of p (mo_nn s)).

(** What the decision maker answers: a reference point (as the unit direction of SelectionBase.py:266-269), preferred or non-preferred solutions (their objective vectors, and the number of
    solutions shown), preferred ranges (as the scaled sample of ReferenceVectors.py:436-439). *)
Inductive answer := APoint (dir : list Q) | ASolutions (z : list (list Q)) (n_solutions : nat) | ANonPreferred (z : list (list Q)) (n_solutions : nat) | ARanges (w : list (list Q)).
Definition mop_set (s : mop) (p : list (list Q)) (rows : nat) : mop := mkMop (mo_init s) p rows (mo_nobj s) (mo_nn s) (mo_nbs s).
(** ReferenceVectors.py:472-483. *)
Definition mop_edges (s : mop) : mop := mop_set s (map planar_row (mo_planar s ++ qeye (mo_nobj s))) (mo_rows s + mo_nobj s).
Definition mop_vectors (a : answer) (s : mop) : res mop :=
  match a with
  | APoint d => Ok (mop_set s (map planar_row (shifted d (mo_init s))) (length (mo_init s)))
  | ASolutions z n =>
      if Nat.eqb (length z) n then Ok (mop_set s (map planar_row (mo_init s)) (length (mo_init s)))
      else if Nat.eqb (length z) 0 then Err ValueError
      else Ok (mop_set s (map planar_row (flat_map (fun zi => shifted zi (mo_init s)) z)) (length z * length (mo_init s)))
  | ANonPreferred z n =>
      if Nat.eqb (length z) n then Ok (mop_set s (map planar_row (mo_init s)) (length (mo_init s)))
      else if negb (Nat.eqb (length (mo_planar s)) (mo_rows s)) then Err IndexError
      else let p := filter (far_enough z) (mo_planar s) in Ok (mop_set s p (length p))
  | ARanges w => Ok (mop_set s (map planar_row w) (length w))
  end.
(** SelectionBase.py:259-301: the neighbourhoods are not recomputed. *)
Definition mop_answer (a : answer) (s : mop) : res mop := bind (mop_vectors a s) (fun s' => Ok (mop_edges s')).
End Op.

Section Run.
Context (argsort : list Q -> list nat).
Context {M : Type} (fitness : M -> list Q) (SF : list Q -> list Q -> list Q -> Q).
(** Random draws and variation may differ from generation to generation (first argument). *)
Context (pick : nat -> nat -> nat -> nat * nat) (offspring : nat -> nat -> M -> M -> list M -> M) (new_ideal : list Q -> M -> list Q).

(** [mr_tried] (ghost): every solution evaluated, with the subproblem it was made for. *)
Record mrun := mkMRun { mr_op : mop; mr_ideal : list Q; mr_pop : list M; mr_gens : nat; mr_tried : list (nat * M) }.

(** One turn of the loop of MOEAD.py:114-143 ([subproblem] of [M_MOEAD]), noting the offspring. *)
Definition the_offspring (g i : nat) (nbs : list (list nat)) (pop : list M) : option M :=
  match choose_parents (pick g i) nbs i with
  | Ok (a, b) => match nth_error pop a, nth_error pop b with Some x, Some y => Some (offspring g i x y pop) | _, _ => None end
  | Err _ => None
  end.
Fixpoint mr_subproblems (is : list nat) (s : mrun) : res mrun :=
  match is with
  | [] => Ok s
  | i :: t =>
      let o := mr_op s in
      bind (subproblem fitness SF (mo_planar o) (mo_nbs o) (pick (mr_gens s)) (offspring (mr_gens s)) new_ideal i (mr_ideal s, mr_pop s)) (fun r =>
        mr_subproblems t (mkMRun o (fst r) (snd r) (mr_gens s)
          (mr_tried s ++ match the_offspring (mr_gens s) i (mo_nbs o) (mr_pop s) with Some x => [(i, x)] | None => [] end)))
  end.
(** MOEAD.py:112-146; [pop_size]: the attribute, fixed at construction. *)
Definition mr_gen (pop_size : nat) (s : mrun) : res mrun :=
  bind (mr_subproblems (seq 0 pop_size) s) (fun s' => Ok (mkMRun (mr_op s') (mr_ideal s') (mr_pop s') (S (mr_gens s')) (mr_tried s'))).
Fixpoint mr_gens_loop (pop_size k : nat) (s : mrun) : res mrun := match k with O => Ok s | S k' => bind (mr_gen pop_size s) (mr_gens_loop pop_size k') end.
(** iterate() (BaseEA.py:138-152) with [k] generations; [None]: no preference. A non-interactive run adapts twice (BaseEA.py:441-444), an interactive one once, or applies the answer. *)
Definition mr_iterate (interact : bool) (pop_size : nat) (a : option answer) (k : nat) (s : mrun) : res mrun :=
  let o := mr_op s in
  bind (if interact then match a with None => Ok (mop_adapt argsort o) | Some a => mop_answer a o end else Ok (mop_adapt argsort (mop_adapt argsort o)))
    (fun o' => mr_gens_loop pop_size k (mkMRun o' (mr_ideal s) (mr_pop s) (mr_gens s) (mr_tried s))).
Fixpoint mr_run (interact : bool) (pop_size : nat) (its : list (option answer * nat)) (s : mrun) : res mrun :=
  match its with [] => Ok s | (a, k) :: t => bind (mr_iterate interact pop_size a k s) (mr_run interact pop_size t) end.
End Run.
Arguments mrun : clear implicits.
