(** Model of desdeo_emo/EAs/PPGA.py with failed evaluations: fitness values may be infinite or NaN. As M_PPGA.v otherwise; what does not look at the fitness (prey moves, placing,
    update_lattice) is used from there. New here: the weighted sums 396-404 with IEEE 754 infinities and NaN (0 * inf = NaN), and the repeated [fitness.sort()] of 406, since
    CPython's sort does not order a list with NaN: it is modelled as the sort of CPython 3.7-3.12 for lists of fewer than 64 elements (a neighbourhood radius below 8; the default is 3):
    listobject.c, count_run, then binarysort. The sort compares the tuples (fc, target) lexicographically: the first components decide unless they are ==. *)
From Verif Require Import Base M_PPGA M_MOEADnan.
From Coq Require Import QArith.
Open Scope nat_scope.

(** w * a for a finite w. *)
Definition xqscale (w : Q) (a : xq) : xq :=
  match a with
  | QFin x => QFin (w * x)%Q
  | QNaN => QNaN
  | QPInf => if Qeq_bool w 0 then QNaN else if Qle_bool 0 w then QPInf else QMInf
  | QMInf => if Qeq_bool w 0 then QNaN else if Qle_bool 0 w then QMInf else QPInf
  end.
Definition xqadd (a b : xq) : xq :=
  match a, b with
  | QNaN, _ | _, QNaN => QNaN
  | QFin x, QFin y => QFin (x + y)%Q
  | QPInf, QMInf | QMInf, QPInf => QNaN
  | QPInf, _ | _, QPInf => QPInf
  | QMInf, _ | _, QMInf => QMInf
  end.
(** a == b *)
Definition xqeq (a b : xq) : bool :=
  match a, b with QFin x, QFin y => Qeq_bool x y | QPInf, QPInf | QMInf, QMInf => true | _, _ => false end.
(** (f, t) < (g, u) for Python tuples. *)
Definition tuple_lt (a b : xq * Z) : bool := if xqeq (fst a) (fst b) then (snd a <? snd b)%Z else xqlt (fst a) (fst b).

(** *** list.sort of fewer than 64 elements; [lt]: the < of the elements. *)
Section Sort.
Context {X : Type} (lt : X -> X -> bool).
(** count_run: the longest run at the beginning, ascending (not <) or strictly descending, and the rest. *)
Fixpoint asc_run (prev : X) (l : list X) : list X * list X :=
  match l with
  | [] => ([], [])
  | x :: t => if lt x prev then ([], l) else let (r, rest) := asc_run x t in (x :: r, rest)
  end.
Fixpoint desc_run (prev : X) (l : list X) : list X * list X :=
  match l with
  | [] => ([], [])
  | x :: t => if lt x prev then let (r, rest) := desc_run x t in (x :: r, rest) else ([], l)
  end.
Definition first_run (l : list X) : list X * list X :=
  match l with
  | x :: y :: t => if lt y x then let (r, rest) := desc_run y t in (rev (x :: y :: r), rest)
                   else let (r, rest) := asc_run y t in (x :: y :: r, rest)
  | _ => (l, [])
  end.
(** binarysort: where to insert [pivot] into [a]. *)
Fixpoint bisect (fuel : nat) (pivot : X) (a : list X) (l r : nat) : nat :=
  match fuel with
  | O => l
  | S f => if Nat.ltb l r then
             let p := l + (r - l) / 2 in
             match nth_error a p with
             | Some y => if lt pivot y then bisect f pivot a l p else bisect f pivot a (S p) r
             | None => l
             end
           else l
  end.
Definition insert_sorted (a : list X) (pivot : X) : list X :=
  let k := bisect (length a) pivot a 0 (length a) in firstn k a ++ pivot :: skipn k a.
Definition py_sort (l : list X) : list X := let (run, rest) := first_run l in fold_left insert_sorted rest run.
End Sort.

Section PredatorsX.
Context {A : Type} (fitness : A -> list xq).
Variable pop : list A.
Variables (radius n_predators : nat).
Variable draw : nat -> nat -> nat * nat.

(** 396-404 *)
Definition badness_x (i : nat) (t : Z) : option xq :=
  match nth_error pop (Z.to_nat (t - 1)) with
  | None => None
  | Some m => match fitness m with
              | o1 :: o2 :: _ => Some (xqadd (xqscale (weight n_predators i) o1) (xqscale (1 - weight n_predators i)%Q o2))
              | _ => None
              end
  end.
(** 392-407: [sorted] is the list [fitness]; the result is its last element (weakest_prey = fitness[-1][1] - 1). *)
Fixpoint weakest_x (i : nat) (sorted : list (xq * Z)) (ts : list Z) : res (option (xq * Z)) :=
  match ts with
  | [] => Ok (hd_error (rev sorted))
  | t :: r => match badness_x i t with
              | None => Err IndexError
              | Some f => weakest_x i (py_sort tuple_lt (sorted ++ [(f, t)])) r
              end
  end.
(** 383-453, as in M_PPGA.v. *)
Definition predator_step_x (i : nat) (d : nat * nat) (s : lat) (p : pos) (killed : list nat) : res (lat * pos * list nat) :=
  let targets := filter (fun z => (0 <? z)%Z) (neighbours s p radius) in
  match targets with
  | [] =>
      if (rolled s p d <? 0)%Z then Ok (s, p, killed)
      else let q := dest s d p in
           Ok (set_preds (set_cells s (upd (upd (cells s) q (predator_label i)) p 0)) (set_nth i q (predators_loc s)), q, killed)
  | _ =>
      bind (weakest_x i [] targets) (fun w =>
        match w with
        | None => Err UnboundLocalError
        | Some (_, t) =>
            let prey := Z.to_nat (t - 1) in
            match nth_error (preys_loc s) prey with
            | None => Err IndexError
            | Some None => Err TypeError
            | Some (Some q) =>
                Ok (set_preys (set_preds (set_cells s (upd (upd (cells s) q (predator_label i)) p 0)) (set_nth i q (predators_loc s)))
                              (set_nth prey None (preys_loc s)), q, killed ++ [prey])
            end
        end)
  end.
Fixpoint predator_steps_x (n m : nat) (i : nat) (s : lat) (p : pos) (killed : list nat) : res (lat * list nat) :=
  match n with
  | O => Ok (s, killed)
  | S n' => bind (predator_step_x i (draw i m) s p killed) (fun r => let '(s', p', k') := r in predator_steps_x n' (S m) i s' p' k')
  end.
Fixpoint predator_turns_x (count max_moves i : nat) (s : lat) (killed : list nat) : res (lat * list nat) :=
  match count with
  | O => Ok (s, killed)
  | S c => match nth_error (predators_loc s) i with
           | None => Ok (s, killed)
           | Some p => bind (predator_steps_x max_moves 0 i s p killed) (fun r => predator_turns_x c max_moves (S i) (fst r) (snd r))
           end
  end.
End PredatorsX.

(** 368-456 *)
Definition move_predator_x {A} (fitness : A -> list xq) (radius n_predators target : nat) (draw : nat -> nat -> nat * nat)
  (s : lat) (pop : list A) : res (lat * list A) :=
  if Nat.eqb n_predators 0 then Err ZeroDivisionError
  else bind (predator_turns_x fitness pop radius n_predators draw (length (predators_loc s))
               (max_moves (length pop) target n_predators) 0 s [])
         (fun r => bind (update_lattice None (fst r)) (fun s' => Ok (s', delete_members pop (snd r)))).

(** 117-180 *)
Definition ppga_gen_x {A} (fitness : A -> list xq) (nds : list (list xq) -> list (list nat)) (mate : list A -> list (nat * nat) -> list A)
  (c : ppga_cfg) (r : gen_draws) (st : lat * list A * nat * nat) : res (lat * list A * nat * nat) :=
  let '(s, pop, gen, fe) := st in
  let '(s1, m) := move_prey (gd_prey r) s in
  bind m (fun pairs =>
  let offspring := mate pop pairs in
  let '(s2, placed) := place_offspring (pc_attempts c) (gd_place r) (length offspring) s1 in
  let kept := flat_map (fun e => if existsb (Nat.eqb (fst e)) placed then [snd e] else []) (combine (seq 0 (length offspring)) offspring) in
  let pop1 := pop ++ kept in
  let gen1 := S gen in
  bind (if Nat.eqb (pc_kill_interval c) 0 then Err ZeroDivisionError
        else if Nat.eqb (gen1 mod pc_kill_interval c) 0
        then let selected := ppga_select (nds (map fitness pop1)) (length pop1) (pc_max_rank c) in
             bind (update_lattice (Some selected) s2) (fun s3 => Ok (s3, delete_members pop1 selected))
        else Ok (s2, pop1)) (fun sp =>
  bind (move_predator_x fitness (pc_radius c) (pc_predators c) (pc_target c) (gd_pred r) (fst sp) (snd sp)) (fun sp' =>
  Ok (fst sp', snd sp', gen1, fe + length kept)))).
