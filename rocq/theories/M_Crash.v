(** What a generation of PPGA leaves behind when the evaluation of the offspring raises: PPGA.py:128-142. Lines 128-134 have moved the prey and put the offspring on the
    lattice; line 142 (Population.add) raises before it changes the population (Population.py:145), and the counters of lines 143-145 are not reached. *)
From Verif Require Import Base M_PPGA.
Definition ppga_interrupted {A} (mate : list A -> list (nat * nat) -> list A) (c : ppga_cfg) (r : gen_draws) (st : lat * list A * nat * nat) : res (lat * list A * nat * nat) :=
  let '(s, pop, gen, fe) := st in
  let '(s1, m) := move_prey (gd_prey r) s in
  bind m (fun pairs =>
  let '(s2, placed) := place_offspring (pc_attempts c) (gd_place r) (length (mate pop pairs)) s1 in
  Ok (s2, pop, gen, fe)).
