(** Model of the module functions [mate] of desdeo_emo/recombination/evonn_xover_mutation.py, evodn2_xover_mutation.py and biogp_xover.py (the operators as functions
    of a mating list, a list of individuals and a dict of parameters), next to the classes modelled in M_Recombination.v, M_NetRecomb.v and M_BioGP.v.
    Not modelled: negative indices, networks of different shapes within an EvoNN population (as in M_Recombination.v), rounding. *)
From Coq Require Import QArith.
From Verif Require Import Base M_Recombination M_NetRecomb M_BioGP.
Open Scope nat_scope.

(** The dict [params]; an omitted key is [None]. The keys "prob_crossover" and "prob_mutation" of the network functions act through the draws only. *)
Record mate_params := mkParams { mp_cur : option Z; mp_total : option Z; mp_strength : option Q; mp_crossover : option Q }.
Definition get {A} (x : option A) (d : A) : A := match x with Some v => v | None => d end.

(** The argument mutation_type: None, "gaussian", "self-adapting", any other string. *)
Inductive mtype := MDefault | MGaussian | MSelfAdapting | MOther.

(** evonn_xover_mutation.py:36-39, evodn2_xover_mutation.py:37-40, biogp_xover.py:40-43: without a mating list every individual is mated with one drawn by
    np.random.randint(n) ([partner i]: the number drawn for individual i). *)
Definition fn_pairs (mating_pop : option (list (nat * nat))) (n : nat) (partner : nat -> nat) : list (nat * nat) :=
  match mating_pop with Some ms => ms | None => map (fun i => (i, partner i mod n)) (seq 0 n) end.

(** evonn_xover_mutation.py:58-119 with a mutation type that is neither "gaussian" nor "self-adapting": crossover only. *)
Definition no_mutation (d : nn_draw) : nn_draw := mkNN (nn_ex d) (fun _ _ => None) (fun _ _ => None).

(** evonn_xover_mutation.py:5-121. [dr]: the draws of the gaussian (and of no) mutation, [sa]: those of the self-adapting one. *)
Definition evonn_mate (mating_pop : option (list (nat * nat))) (pop : list (list (list Q))) (params : option mate_params) (t : mtype)
    (partner : nat -> nat) (dr : nat -> nn_draw) (sa : nat -> sa_draw) : res (list (list (list Q))) :=
  match params with
  | None => Err AttributeError
  | Some p =>
      let cur := get (mp_cur p) 1%Z in let total := get (mp_total p) 10%Z in let strength := get (mp_strength p) 1%Q in
      if (total =? 0)%Z then Err ZeroDivisionError
      else
        let ms := fn_pairs mating_pop (length pop) partner in
        match t with
        | MDefault | MGaussian => nn_pairs pop (fun k => gauss_draw (dn_std cur total) strength (dr k)) 0 ms
        | MSelfAdapting => sa_pairs (strength * (1 - (cur # 1) / (total # 1))) pop sa 0 ms
        | MOther => nn_pairs pop (fun k => no_mutation (dr k)) 0 ms
        end
  end.

(** evodn2_xover_mutation.py:6-124: with any other mutation type the loop is skipped and the empty list returned. *)
Definition evodn2_mate (mating_pop : option (list (nat * nat))) (pop : list dnet) (params : option mate_params) (t : mtype)
    (partner : nat -> nat) (dr : nat -> nat -> dn_draw) : res (list dnet) :=
  match params with
  | None => Err AttributeError
  | Some p =>
      let cur := get (mp_cur p) 1%Z in let total := get (mp_total p) 10%Z in let strength := get (mp_strength p) 1%Q in
      if (total =? 0)%Z then Err ZeroDivisionError
      else
        let ms := fn_pairs mating_pop (length pop) partner in
        match t with
        | MDefault | MGaussian => dn_pairs (dn_std cur total) strength pop dr 0 ms
        | _ => Ok []
        end
  end.

(** biogp_xover.py:35-38, 53, 67: which crossover the one number r selects in the function; the share of standard crossover is fixed to 0.5. *)
Definition fn_mode (crossover r : Q) : xmode :=
  let height_fair := (crossover - (1 # 2))%Q in
  if Qle_bool r height_fair then HeightFair else if Qle_bool r (height_fair + (1 # 2)) then Standard else NoXover.
(** biogp_xover.py:88-98, 101, 122, 136: the class, which refuses a larger probability of standard crossover. *)
Definition class_mode (crossover standard r : Q) : res xmode :=
  if negb (Qle_bool standard crossover) then Err ValueError
  else Ok (if Qle_bool r (crossover - standard) then HeightFair else if Qle_bool r crossover then Standard else NoXover).
(** biogp_xover.py:7-84. [r]: the one draw; [ks]: the two random nodes of each pair. *)
Definition biogp_mate {F T} (fuel : nat) (mating_pop : option (list (nat * nat))) (h : heap F T) (next : nat) (pop : list ind) (params : option mate_params)
    (r : Q) (partner : nat -> nat) (ks : nat -> nat * nat) : res (heap F T * nat * list ind) :=
  match params with
  | None => Err AttributeError
  | Some p => xover_do fuel (fn_mode (get (mp_crossover p) (9 # 10)) r) h next pop (fn_pairs mating_pop (length pop) partner) ks 0
  end.
