(** Model of the rest of desdeo_emo/recombination/evonn_xover_mutation.py and evodn2_xover_mutation.py: the scale of the mutation
    steps, the "self-adapting" mutation of EvoNN, and the whole EvoDN2 operator. The parts per pair of networks are in
    M_Recombination.v. Not modelled: the final np.asarray (numpy's treatment of ragged lists), rounding. *)
From Verif Require Import Base M_Recombination.
From Coq Require Import QArith.
Open Scope Q_scope.

(** evonn_xover_mutation.py:156: (5/3)(1 - cur/total); evodn2_xover_mutation.py:157-160 also replaces a negative value by 0. *)
Definition nn_std (cur total : Z) : Q := (5 # 3) * (1 - (cur # 1) / (total # 1)).
Definition dn_std (cur total : Z) : Q := if Qle_bool 0 (nn_std cur total) then nn_std cur total else 0.

(** np.random.normal(0, std) * strength (evonn_xover_mutation.py:176-178, 188-190; evodn2_xover_mutation.py:193-197, 214-218) at a drawn
    position, [z] being the standard normal number behind it. *)
Definition step_size (std strength : Q) (z : option Q) : option Q := option_map (fun z => std * z * strength) z.

(** evonn_xover_mutation.py:139-242, mutation_type "gaussian"; the draws of [dr] are standard normal numbers. *)
Definition gauss_draw (std strength : Q) (d : nn_draw) : nn_draw :=
  mkNN (nn_ex d) (fun i j => step_size std strength (nn_mv1 d i j)) (fun i j => step_size std strength (nn_mv2 d i j)).
Definition evonn_gaussian (cur total : Z) (strength : Q) (pop : list (list (list Q))) (dr : nat -> nn_draw) (m : mating_arg) :=
  evonn_do cur total pop (fun k => gauss_draw (nn_std cur total) strength (dr k)) m.

(** ** Self-adapting mutation, evonn_xover_mutation.py:199-235 *)
(** [w.ravel()[mut] = w.ravel()[mut] + c * (s1.ravel()[mut] - s0.ravel()[mut])] on one hidden node; [mut j]: position drawn. *)
Fixpoint adapt_from (mut : nat -> bool) (c : Q) (j : nat) (ws s0 s1 : list Q) : list Q :=
  match ws with
  | [] => []
  | w :: t => (if mut j then w + c * (nth j s1 0 - nth j s0 0) else w) :: adapt_from mut c (S j) t s0 s1
  end.
Fixpoint adapt_nodes (mut : nat -> nat -> bool) (c : Q) (i : nat) (net s0 s1 : list (list Q)) : list (list Q) :=
  match net with
  | [] => []
  | col :: t => adapt_from (mut i) c 0 col (nth i s0 []) (nth i s1 []) :: adapt_nodes mut c (S i) t s0 s1
  end.
(** np.nonzero(pop)[0] (lines 206-208, 222-224): the index of its network once for every non-zero weight. *)
Definition nonzero_rows (pop : list (list (list Q))) : list nat :=
  flat_map (fun p => repeat (fst p) (length (filter (fun w => negb (Qeq_bool w 0)) (concat (snd p))))) (combine (seq 0 (length pop)) pop).
(** np.random.choice(..., 2): two entries with replacement ([c0], [c1]: positions drawn); ValueError on an empty array. *)
Definition pick2 (pop : list (list (list Q))) (c0 c1 : nat) : res (list (list Q) * list (list Q)) :=
  match nonzero_rows pop with
  | [] => Err ValueError
  | (x :: _) as rows => Ok (nth (nth (c0 mod length rows) rows x) pop [], nth (nth (c1 mod length rows) rows x) pop [])
  end.
(** Draws for one pair: crossover, then for each child the positions of the two networks and the positions mutated. *)
Record sa_draw := mkSA { sa_ex : nat -> bool; sa_c1 : nat * nat; sa_mut1 : nat -> nat -> bool; sa_c2 : nat * nat; sa_mut2 : nat -> nat -> bool }.
Fixpoint sa_pairs (c : Q) (pop : list (list (list Q))) (dr : nat -> sa_draw) (k : nat) (ms : list (nat * nat)) : res (list (list (list Q))) :=
  match ms with
  | [] => Ok []
  | (i, j) :: t =>
      match nth_error pop i, nth_error pop j with
      | Some a, Some b =>
          let '(u, v) := nn_cross (sa_ex (dr k)) 0 a b in
          bind (pick2 pop (fst (sa_c1 (dr k))) (snd (sa_c1 (dr k)))) (fun '(s0, s1) =>
          bind (pick2 pop (fst (sa_c2 (dr k))) (snd (sa_c2 (dr k)))) (fun '(t0, t1) =>
          bind (sa_pairs c pop dr (S k) t) (fun r =>
          Ok (adapt_nodes (sa_mut1 (dr k)) c 0 u s0 s1 :: adapt_nodes (sa_mut2 (dr k)) c 0 v t0 t1 :: r))))
      | _, _ => Err IndexError
      end
  end.
(** evonn_xover_mutation.py:139-242, mutation_type "self-adapting"; line 156 divides by [total]. *)
Definition evonn_self_adapting (cur total : Z) (strength : Q) (pop : list (list (list Q))) (dr : nat -> sa_draw) (m : mating_arg) :=
  if (total =? 0)%Z then Err ZeroDivisionError
  else sa_pairs (strength * (1 - (cur # 1) / (total # 1))) pop dr 0 (mating_pairs m).

(** ** EvoDN2, evodn2_xover_mutation.py:139-234. [dr k s]: standard normal draws for subnet [s] of pair [k]. *)
Definition dn_gauss (std strength : Q) (d : dn_draw) : dn_draw :=
  mkDN (dn_ex d) (fun l j => step_size std strength (dn_mv1 d l j)) (fun l j => step_size std strength (dn_mv2 d l j)).
Definition dnet := list (list (list Q)).
Fixpoint dn_pairs (std strength : Q) (pop : list dnet) (dr : nat -> nat -> dn_draw) (k : nat) (ms : list (nat * nat)) : res (list dnet) :=
  match ms with
  | [] => Ok []
  | (i, j) :: t =>
      match nth_error pop i, nth_error pop j with
      | Some a, Some b =>
          bind (dn_subnets (fun s => dn_gauss std strength (dr k s)) 0 a b) (fun '(u, v) =>
          bind (dn_pairs std strength pop dr (S k) t) (fun r => Ok (u :: v :: r)))
      | _, _ => Err IndexError
      end
  end.
Definition evodn2_do (cur total : Z) (strength : Q) (pop : list dnet) (dr : nat -> nat -> dn_draw) (m : mating_arg) : res (list dnet) :=
  if (total =? 0)%Z then Err ZeroDivisionError
  else dn_pairs (dn_std cur total) strength pop dr 0 (mating_pairs m).
