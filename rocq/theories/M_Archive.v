(** Model of the non-dominated archive:
    desdeo_emo/utilities/non_dominated.py [check_domination] and
    desdeo_emo/EAs/BaseEA.py [start] (92-102), [non_dominated_archive] (287-312),
    [BaseDecompositionEA.end] (482-495). *)
From Verif Require Import Base.

Section Archive.
Context {I O V : Type} (dom : V -> V -> bool).

(** non_dominated.py:31-39, inner loop over the archive for one new row [x].
    [alive] is [non_dominated_in_archive]; returns the flag of [x] and the new [alive]. *)
Fixpoint inner (x : V) (arch : list V) (alive : list bool) : bool * list bool :=
  match arch, alive with
  | a :: arch', al :: alive' =>
      if negb al then let (b, r) := inner x arch' alive' in (b, al :: r)      (* continue *)
      else if dom a x then (false, al :: alive')                             (* break *)
      else let (b, r) := inner x arch' alive' in
           (b, (if dom x a then false else al) :: r)
  | _, _ => (true, alive)
  end.

(** non_dominated.py:30-39, outer loop. *)
Fixpoint check_loop (new arch : list V) (alive : list bool) : list bool * list bool :=
  match new with
  | [] => ([], alive)
  | x :: new' => let (b, alive1) := inner x arch alive in
                 let (bs, alive2) := check_loop new' arch alive1 in (b :: bs, alive2)
  end.

(** non_dominated.py:26-40. *)
Definition check_domination (new arch : list V) : list bool * list bool :=
  check_loop new arch (repeat true (length arch)).

(** The archive dictionary: three parallel columns. *)
Record arch := mkArch { a_ind : list I; a_obj : list O; a_fit : list V }.

(** BaseEA.py:287-312 (rows already 2-D; the [ndim == 1] promotion of lines 293-297 turns a
    single row into a one-row batch). *)
Definition archive_add (A : arch) (inds : list I) (objs : list O) (fits : list V) : arch :=
  let (new, old) := check_domination fits (a_fit A) in
  mkArch (mask_sel old (a_ind A) ++ mask_sel new inds)
         (mask_sel old (a_obj A) ++ mask_sel new objs)
         (mask_sel old (a_fit A) ++ mask_sel new fits).

(** External desdeo_tools.utilities.non_dominated: row i is flagged iff no row dominates it. *)
Definition nd_mask (l : list V) : list bool := map (fun x => negb (existsb (fun y => dom y x) l)) l.

(** BaseEA.py:92-102: archive at [start]. *)
Definition archive_start (inds : list I) (objs : list O) (fits : list V) : arch :=
  let m := nd_mask fits in mkArch (mask_sel m inds) (mask_sel m objs) (mask_sel m fits).

(** One submitted batch: rows (individual, objectives, fitness). *)
Definition row := (I * O * V)%type.
Definition r_i (r : row) := fst (fst r).
Definition r_o (r : row) := snd (fst r).
Definition r_f (r : row) := snd r.

Definition submit (A : arch) (b : list row) : arch :=
  archive_add A (map r_i b) (map r_o b) (map r_f b).

Definition archive_run (init : list row) (batches : list (list row)) : arch :=
  fold_left submit batches (archive_start (map r_i init) (map r_o init) (map r_f init)).

(** BaseEA.py:482-495, the first two components returned by [end] ([f] are the minimised
    objective vectors handed to non_dominated by Population.non_dominated_objectives). *)
Definition end_result (inds : list I) (objs : list O) (f : O -> V) : list I * list O :=
  let m := nd_mask (map f objs) in (mask_sel m inds, mask_sel m objs).

End Archive.
Arguments arch : clear implicits.
