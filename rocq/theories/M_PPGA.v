(** Model of desdeo_emo/EAs/PPGA.py: the predator-prey lattice (Lattice, 186-527) and one generation (117-180).
    A population is a list of members of type [A] with a fitness function; Population.mate is an argument. Random draws are explicit
    arguments. Not modelled: Population.delete setting [individuals] to None when nobody is left (the model has the empty list; with a positive target size this state is not reached, C53_never_extinct),
    NaN fitness (see M_PPGAnan.v). *)
From Verif Require Import Base.
From Coq Require Import QArith.
Open Scope nat_scope.

Definition pos := (nat * nat)%type.                    (* row, column *)
Definition pos_eqb (p q : pos) : bool := Nat.eqb (fst p) (fst q) && Nat.eqb (snd p) (snd q).
Definition grid := pos -> Z.
Definition upd (g : grid) (p : pos) (v : Z) : grid := fun q => if pos_eqb p q then v else g q.

Record lat := mkLat {
  size_y : nat; size_x : nat;
  cells : grid;
  predators_loc : list pos;
  preys_loc : list (option pos) }.                     (* None: killed, not yet compacted *)
Definition set_cells (s : lat) (g : grid) := mkLat (size_y s) (size_x s) g (predators_loc s) (preys_loc s).
Definition set_preys (s : lat) (l : list (option pos)) := mkLat (size_y s) (size_x s) (cells s) (predators_loc s) l.
Definition set_preds (s : lat) (l : list pos) := mkLat (size_y s) (size_x s) (cells s) l (preys_loc s).

(** np.nonzero(lattice == 0), row by row. *)
Definition all_cells (sy sx : nat) : list pos := flat_map (fun y => map (fun x => (y, x)) (seq 0 sx)) (seq 0 sy).
Definition free_space (s : lat) : list pos := filter (fun p => Z.eqb (cells s p) 0) (all_cells (size_y s) (size_x s)).

(** The loops of PPGA.py:247-255 and 264-270: write [label i] into the i-th cell. *)
Fixpoint write_labels (label : nat -> Z) (i : nat) (l : list pos) (g : grid) : grid :=
  match l with [] => g | p :: t => write_labels label (S i) t (upd g p (label i)) end.
Definition prey_label (i : nat) : Z := Z.of_nat i + 1.
Definition predator_label (i : nat) : Z := - (Z.of_nat i + 1).

(** PPGA.py:237-255. [sample]: random.sample, which raises ValueError when asked for more elements than there are. *)
Definition init_predators (sample : list pos -> nat -> list pos) (s : lat) (n : nat) : res lat :=
  if Nat.ltb (length (free_space s)) n then Err ValueError
  else let idx := sample (free_space s) n in
       Ok (set_preds (set_cells s (write_labels predator_label 0 idx (cells s))) (predators_loc s ++ idx)).
(** PPGA.py:257-270. *)
Definition init_prey (sample : list pos -> nat -> list pos) (s : lat) (n : nat) : res lat :=
  if Nat.ltb (length (free_space s)) n then Err ValueError
  else let idx := sample (free_space s) n in
       Ok (set_preys (set_cells s (write_labels prey_label 0 idx (cells s))) (preys_loc s ++ map Some idx)).
(** PPGA.py:206-235. *)
Definition new_lattice (sample1 sample2 : list pos -> nat -> list pos) (sy sx n_predators n_prey : nat) : res lat :=
  bind (init_predators sample1 (mkLat sy sx (fun _ => 0%Z) [] []) n_predators) (fun s => init_prey sample2 s n_prey).

(** PPGA.py:482-503, one axis: [(i % s + s) % s] (Python's modulo, for a positive size). *)
Definition wrap1 (i : Z) (s : nat) : Z := ((i mod Z.of_nat s + Z.of_nat s) mod Z.of_nat s)%Z.
(** PPGA.py:297-306, 437-446: [dest - 1 + pos], wrapped when outside. *)
Definition in_range1 (i : Z) (s : nat) : bool := ((0 <=? i) && (i <? Z.of_nat s))%Z.
Definition dest (s : lat) (d : nat * nat) (p : pos) : pos :=
  let y := (Z.of_nat (fst d) - 1 + Z.of_nat (fst p))%Z in
  let x := (Z.of_nat (snd d) - 1 + Z.of_nat (snd p))%Z in
  if negb (in_range1 y (size_y s)) || negb (in_range1 x (size_x s))
  then (Z.to_nat (wrap1 y (size_y s)), Z.to_nat (wrap1 x (size_x s)))
  else (Z.to_nat y, Z.to_nat x).

(** PPGA.py:506-527: element [dy][dx] of the array rolled by 1 - x and 1 - y. *)
Definition rolled (s : lat) (p : pos) (d : nat * nat) : Z :=
  cells s (Z.to_nat ((Z.of_nat (fst d) + Z.of_nat (fst p) - 1) mod Z.of_nat (size_y s)),
           Z.to_nat ((Z.of_nat (snd d) + Z.of_nat (snd p) - 1) mod Z.of_nat (size_x s))).
(** Its upper left n x n part, row by row (slicing stops at the size of the array). *)
Definition offsets (s : lat) (n : nat) : list (nat * nat) :=
  flat_map (fun dy => map (fun dx => (dy, dx)) (seq 0 (Nat.min n (size_x s)))) (seq 0 (Nat.min n (size_y s))).
Definition neighbours (s : lat) (p : pos) (n : nat) : list Z := map (rolled s p) (offsets s n).

Definition set_nth {B} (i : nat) (v : B) (l : list B) : list B :=
  match nth_error l i with None => l | Some _ => firstn i l ++ v :: skipn (S i) l end.

(** *** Prey moves, PPGA.py:272-327. *)
(** 286-313: one attempted move of one prey. *)
Definition prey_step (prey : nat) (d : nat * nat) (s : lat) (p : pos) : lat * pos :=
  if negb (Z.eqb (rolled s p d) 0) then (s, p)
  else let q := dest s d p in
       (set_preys (set_cells s (upd (upd (cells s) q (prey_label prey)) p 0)) (set_nth prey (Some q) (preys_loc s)), q).
Fixpoint prey_steps (prey : nat) (ds : list (nat * nat)) (s : lat) (p : pos) : lat * pos :=
  match ds with
  | [] => (s, p)
  | d :: t => let '(s', p') := prey_step prey d s p in prey_steps prey t s' p'
  end.
(** Draws of one prey: whether it moves (284), the offsets (290-291), the mate (random.choice, 323: an index taken modulo the
    number of mates). *)
Record prey_draw := mkPD { pd_moves : bool; pd_offsets : list (nat * nat); pd_mate : nat }.
(** 315-324 *)
Definition mates (s : lat) (prey : nat) (p : pos) : list Z :=
  filter (fun z => (0 <? z)%Z && negb (Z.eqb z (prey_label prey))) (neighbours s p 3).
Definition choose_mate (d : prey_draw) (ms : list Z) : option nat :=
  match ms with [] => None | _ => Some (Z.to_nat (nth (pd_mate d mod length ms) ms 0 - 1)%Z) end.
Definition prey_turn (prey : nat) (d : prey_draw) (s : lat) (p : pos) : lat * option (nat * nat) :=
  let '(s', p') := if pd_moves d then prey_steps prey (pd_offsets d) s p else (s, p) in
  (s', option_map (fun m => (prey, m)) (choose_mate d (mates s' prey p'))).
(** The loop over [enumerate(self.preys_loc)], from index [prey] on; a killed prey does not occur here. *)
Fixpoint prey_turns (n : nat) (prey : nat) (draws : nat -> prey_draw) (s : lat) : lat * list (nat * nat) :=
  match n with
  | O => (s, [])
  | S n' =>
      match nth_error (preys_loc s) prey with
      | Some (Some p) =>
          let '(s', m) := prey_turn prey (draws prey) s p in
          let '(s'', ms) := prey_turns n' (S prey) draws s' in
          (s'', match m with Some couple => couple :: ms | None => ms end)
      | _ => prey_turns n' (S prey) draws s
      end
  end.
Definition move_prey (draws : nat -> prey_draw) (s : lat) : lat * res (list (nat * nat)) :=
  let '(s', ms) := prey_turns (length (preys_loc s)) 0 draws s in
  (s', match ms with [] => Err EaError | _ => Ok ms end).

(** *** PPGA.py:329-366. [attempts]: offspring_place_attempts; [draw i]: the cell drawn for offspring i (once, before the attempts). *)
Fixpoint attempt (attempts : nat) (i : nat) (c : pos) (s : lat) : lat * list nat :=
  match attempts with
  | O => (s, [])
  | S a =>
      if negb (Z.eqb (cells s c) 0) then attempt a i c s
      else let s1 := set_preys (set_cells s (upd (cells s) c (prey_label (length (preys_loc s))))) (preys_loc s ++ [Some c]) in
           let '(s2, l) := attempt a i c s1 in (s2, i :: l)
  end.
Fixpoint place_from (attempts : nat) (draw : nat -> pos) (n i : nat) (s : lat) : lat * list nat :=
  match n with
  | O => (s, [])
  | S n' => let '(s1, l1) := attempt attempts i (draw i) s in
            let '(s2, l2) := place_from attempts draw n' (S i) s1 in (s2, l1 ++ l2)
  end.
Definition place_offspring (attempts : nat) (draw : nat -> pos) (offspring : nat) (s : lat) : lat * list nat :=
  place_from attempts draw offspring 0 s.

(** *** update_lattice, PPGA.py:458-479. *)
Fixpoint clear_selected (sel : list nat) (s : lat) : res lat :=
  match sel with
  | [] => Ok s
  | i :: t =>
      match nth_error (preys_loc s) i with
      | None => Err IndexError
      | Some None => Err TypeError
      | Some (Some p) => clear_selected t (set_preys (set_cells s (upd (cells s) p 0)) (set_nth i None (preys_loc s)))
      end
  end.
Definition somes {B} (l : list (option B)) : list B := flat_map (fun o => match o with Some x => [x] | None => [] end) l.
Definition compact (s : lat) : lat :=
  let l := somes (preys_loc s) in
  set_preys (set_cells s (write_labels prey_label 0 l (cells s))) (map Some l).
Definition update_lattice (selected : option (list nat)) (s : lat) : res lat :=
  bind (match selected with None => Ok s | Some sel => clear_selected sel s end) (fun s' => Ok (compact s')).

Section Predators.
Context {A : Type} (fitness : A -> list Q).
Variable pop : list A.                                  (* self.population during the predators' turn *)
Variables (radius n_predators : nat).
Variable draw : nat -> nat -> nat * nat.                (* predator, move -> offset (429-430) *)

(** np.linspace(0, 1, num)[i] (242); for a single predator the value is 0. *)
Definition weight (i : nat) : Q := if Nat.ltb 1 n_predators then (Z.of_nat i # Pos.of_nat (n_predators - 1)) else 0%Q.
(** 396-404, for the prey labelled [t] ([None]: IndexError, too few objectives or a label without individual). *)
Definition badness (i : nat) (t : Z) : option Q :=
  match nth_error pop (Z.to_nat (t - 1)) with
  | None => None
  | Some m => match fitness m with
              | o1 :: o2 :: _ => Some (weight i * o1 + (1 - weight i) * o2)%Q
              | _ => None
              end
  end.
(** 392-407: the last element of the sorted list of (badness, label), i.e. the lexicographic maximum. *)
Definition worse (a b : Q * Z) : bool :=          (* a <= b *)
  match (fst a ?= fst b)%Q with Lt => true | Eq => (snd a <=? snd b)%Z | Gt => false end.
Fixpoint weakest (i : nat) (best : option (Q * Z)) (ts : list Z) : res (option (Q * Z)) :=
  match ts with
  | [] => Ok best
  | t :: r => match badness i t with
              | None => Err IndexError
              | Some f => weakest i (match best with
                                     | None => Some (f, t)
                                     | Some b => if worse b (f, t) then Some (f, t) else Some b
                                     end) r
              end
  end.
(** One move of predator [i], 383-453; [killed]: to_be_killed so far. *)
Definition predator_step (i : nat) (d : nat * nat) (s : lat) (p : pos) (killed : list nat) : res (lat * pos * list nat) :=
  let targets := filter (fun z => (0 <? z)%Z) (neighbours s p radius) in
  match targets with
  | [] =>
      if (rolled s p d <? 0)%Z then Ok (s, p, killed)
      else let q := dest s d p in
           Ok (set_preds (set_cells s (upd (upd (cells s) q (predator_label i)) p 0)) (set_nth i q (predators_loc s)), q, killed)
  | _ =>
      bind (weakest i None targets) (fun w =>
        match w with
        | None => Err UnboundLocalError
        | Some (_, t) =>
            let prey := Z.to_nat (t - 1) in
            match nth_error (preys_loc s) prey with
            | None => Err IndexError
            | Some None => Err TypeError
            | Some (Some q) =>
                Ok (set_preys (set_preds (set_cells s (upd (upd (cells s) q (predator_label i)) p 0)) (set_nth i q (predators_loc s)))
                              (set_nth prey None (preys_loc s)), q, killed ++ [prey])
            end
        end)
  end.
Fixpoint predator_steps (n m : nat) (i : nat) (s : lat) (p : pos) (killed : list nat) : res (lat * list nat) :=
  match n with
  | O => Ok (s, killed)
  | S n' => bind (predator_step i (draw i m) s p killed) (fun r => let '(s', p', k') := r in predator_steps n' (S m) i s' p' k')
  end.
Fixpoint predator_turns (count max_moves i : nat) (s : lat) (killed : list nat) : res (lat * list nat) :=
  match count with
  | O => Ok (s, killed)
  | S c => match nth_error (predators_loc s) i with
           | None => Ok (s, killed)
           | Some p => bind (predator_steps max_moves 0 i s p killed) (fun r => predator_turns c max_moves (S i) (fst r) (snd r))
           end
  end.
End Predators.

(** Population.delete with distinct valid indices. *)
Definition delete_members {A} (pop : list A) (killed : list nat) : list A :=
  flat_map (fun e => if existsb (Nat.eqb (fst e)) killed then [] else [snd e]) (combine (seq 0 (length pop)) pop).

(** PPGA.py:368-456. [int(a / b)] truncates towards zero; range of a negative number is empty. *)
Definition max_moves (n_pop target n_predators : nat) : nat := (n_pop - target) / n_predators.
Definition move_predator {A} (fitness : A -> list Q) (radius n_predators target : nat) (draw : nat -> nat -> nat * nat)
  (s : lat) (pop : list A) : res (lat * list A) :=
  if Nat.eqb n_predators 0 then Err ZeroDivisionError
  else bind (predator_turns fitness pop radius n_predators draw (length (predators_loc s))
               (max_moves (length pop) target n_predators) 0 s [])
         (fun r => bind (update_lattice None (fst r)) (fun s' => Ok (s', delete_members pop (snd r)))).

(** *** One generation, PPGA.py:117-180. *)
(** select, 156-180: [rank] of an individual is the index of the last front containing it; [fronts]: result of
    fast_non_dominated_sort. An individual in no front keeps INT_MIN and is not selected. *)
Fixpoint last_front (k : nat) (i : nat) (fronts : list (list nat)) (acc : option nat) : option nat :=
  match fronts with
  | [] => acc
  | f :: t => last_front (S k) i t (if existsb (Nat.eqb i) f then Some k else acc)
  end.
Definition ppga_select (fronts : list (list nat)) (n max_rank : nat) : list nat :=
  filter (fun i => match last_front 0 i fronts None with Some r => Nat.ltb max_rank r | None => false end) (seq 0 n).

Record gen_draws := mkGD {
  gd_prey : nat -> prey_draw; gd_place : nat -> pos; gd_pred : nat -> nat -> nat * nat }.
Record ppga_cfg := mkPC {
  pc_target : nat; pc_predators : nat; pc_attempts : nat; pc_kill_interval : nat; pc_max_rank : nat; pc_radius : nat }.

(** [mate]: Population.mate on index pairs; [nds]: fast_non_dominated_sort. The counters are _current_gen_count and
    _function_evaluation_count. *)
Definition ppga_gen {A} (fitness : A -> list Q) (nds : list (list Q) -> list (list nat)) (mate : list A -> list (nat * nat) -> list A)
  (c : ppga_cfg) (r : gen_draws) (st : lat * list A * nat * nat) : res (lat * list A * nat * nat) :=
  let '(s, pop, gen, fe) := st in
  let '(s1, m) := move_prey (gd_prey r) s in
  bind m (fun pairs =>
  let offspring := mate pop pairs in
  let '(s2, placed) := place_offspring (pc_attempts c) (gd_place r) (length offspring) s1 in
  let kept := flat_map (fun e => if existsb (Nat.eqb (fst e)) placed then [snd e] else []) (combine (seq 0 (length offspring)) offspring) in
  let pop1 := pop ++ kept in
  let gen1 := S gen in
  bind (if Nat.eqb (pc_kill_interval c) 0 then Err ZeroDivisionError
        else if Nat.eqb (gen1 mod pc_kill_interval c) 0
        then let selected := ppga_select (nds (map fitness pop1)) (length pop1) (pc_max_rank c) in
             bind (update_lattice (Some selected) s2) (fun s3 => Ok (s3, delete_members pop1 selected))
        else Ok (s2, pop1)) (fun sp =>
  bind (move_predator fitness (pc_radius c) (pc_predators c) (pc_target c) (gd_pred r) (fst sp) (snd sp)) (fun sp' =>
  Ok (fst sp', snd sp', gen1, fe + length kept)))).
