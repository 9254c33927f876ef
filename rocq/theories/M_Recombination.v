(** Model of desdeo_emo/recombination: SimulatedBinaryCrossover.py, BoundedPolynomialMutation.py,
    SinglePointCrossoverMutation.py, and the evolutionary neural network operators
    evonn_xover_mutation.py, evodn2_xover_mutation.py.
    Arithmetic is exact (floating point rounding is not modelled); NaN and the infinities are
    the value [None] of [option R]. Random draws are function arguments. *)
From Verif Require Import Base.
From Coq Require Import Reals QArith.
Open Scope nat_scope.

(** ** Mating lists *)

(** numpy fancy indexing [pop[ids]] (SimulatedBinaryCrossover.py:50, SinglePointCrossoverMutation.py:77). *)
Definition take_rows {A} (pop : list A) (ids : list Z) : res (list A) :=
  bind (norm_idxs (length pop) ids) (fun l =>
    Ok (flat_map (fun i => match nth_error pop i with Some r => [r] | None => [] end) l)).

(** SimulatedBinaryCrossover.py:51-55 (same text in SinglePointCrossoverMutation.py:78-82): an
    odd mating list is closed with its first member. *)
Definition close_odd {A} (l : list A) : list A :=
  if Nat.odd (length l) then match l with x :: _ => l ++ [x] | [] => l end else l.

(** The loop [for i in range(0, mate_size, 2)] (SimulatedBinaryCrossover.py:58,
    SinglePointCrossoverMutation.py:85): [f k] builds the two children of the [k]-th pair. *)
Fixpoint pairs_loop {A B} (f : nat -> A -> A -> B * B) (k : nat) (l : list A) : list B :=
  match l with
  | a :: b :: t => fst (f k a b) :: snd (f k a b) :: pairs_loop f (S k) t
  | _ => []
  end.

(** ** Simulated binary crossover *)

(** numpy [x ** y] on floats: NaN for a negative base with a non-integer exponent, infinite for
    zero to a negative power (both [None]). *)
Definition npow (x y : R) : option R :=
  if Rlt_dec 0 x then Some (Rpower x y)
  else if Req_EM_T x 0 then
         (if Rlt_dec 0 y then Some 0%R else if Req_EM_T y 0 then Some 1%R else None)
       else if Req_EM_T y (IZR (Int_part y)) then Some (powerRZ x (Int_part y)) else None.

(** The three draws made for one gene: [miu] (line 60), the sign (line 63), and the crossover
    probability draw (line 64). *)
Record sbx_draw := mkDraw { d_miu : R; d_neg : bool; d_pr : R }.

(** SimulatedBinaryCrossover.py:59-64 for one gene. *)
Definition sbx_beta (ProC DisC : R) (d : sbx_draw) : option R :=
  let b := if Rle_dec (d_miu d) (1/2) then npow (2 * d_miu d) (1 / (DisC + 1))
           else npow (2 - 2 * d_miu d) (- 1 / (DisC + 1)) in
  let b := if d_neg d then option_map Ropp b else b in
  if Rlt_dec ProC (d_pr d) then Some 1%R else b.

(** SimulatedBinaryCrossover.py:65-68 for one gene. *)
Definition sbx_gene (ProC DisC : R) (d : sbx_draw) (x y : R) : option R * option R :=
  match sbx_beta ProC DisC d with
  | None => (None, None)
  | Some b => (Some ((x + y) / 2 + b * ((x - y) / 2))%R, Some ((x + y) / 2 - b * ((x - y) / 2))%R)
  end.

(** One pair of rows (num_var genes). *)
Fixpoint sbx_row (ProC DisC : R) (dr : nat -> sbx_draw) (j : nat) (p q : list R) : list (option R * option R) :=
  match p, q with
  | x :: p', y :: q' => sbx_gene ProC DisC (dr j) x y :: sbx_row ProC DisC dr (S j) p' q'
  | _, _ => []
  end.

Definition sbx_pair (ProC DisC : R) (dr : nat -> nat -> sbx_draw) (k : nat) (p q : list R)
    : list (option R) * list (option R) :=
  (map fst (sbx_row ProC DisC (dr k) 0 p q), map snd (sbx_row ProC DisC (dr k) 0 p q)).

(** SBX_xover.do (SimulatedBinaryCrossover.py:25-69). With [mating_pop_ids=None] the caller of
    the model passes the shuffled list of all positions (lines 45-47). *)
Definition sbx_do (ProC DisC : R) (dr : nat -> nat -> sbx_draw) (pop : list (list R)) (ids : list Z)
    : res (list (list (option R))) :=
  bind (take_rows pop ids) (fun mp => Ok (pairs_loop (sbx_pair ProC DisC dr) 0 (close_odd mp))).

(** ** Bounded polynomial mutation *)

Definition clamp_hi (ub : R) (x : option R) : option R :=
  match x with Some v => if Rlt_dec ub v then Some ub else Some v | None => None end.
Definition clamp_lo (lb : R) (x : option R) : option R :=
  match x with Some v => if Rlt_dec v lb then Some lb else Some v | None => None end.

Definition obind {A B} (a : option A) (f : A -> option B) : option B :=
  match a with Some x => f x | None => None end.

(** BoundedPolynomialMutation.py:35-64 for one
    gene with draws [k], [miu]: scaling, the two exclusive mutation branches, the two clamps.
    Division by zero (equal bounds) gives NaN or an infinity; as it is multiplied by the zero
    range, the gene becomes NaN when mutated and is left alone otherwise. *)
Definition bp_gene (ProM DisM lb ub k miu : R) (x : option R) : option R :=
  let scaled := obind x (fun v => if Req_EM_T (ub - lb) 0 then None else Some ((v - lb) / (ub - lb))%R) in
  let x1 :=
    if Rle_dec k ProM then
      if Rlt_dec miu (1/2) then
        obind x (fun v => obind scaled (fun s =>
          obind (npow (1 - s) (DisM + 1)) (fun a =>
          obind (npow (2 * miu + (1 - 2 * miu) * a) (1 / (DisM + 1))) (fun r =>
          Some (v + (ub - lb) * (r - 1))%R))))
      else
        obind x (fun v => obind scaled (fun s =>
          obind (npow s (DisM + 1)) (fun a =>
          obind (npow (2 * (1 - miu) + 2 * (miu - 1/2) * a) (1 / (DisM + 1))) (fun r =>
          Some (v + (ub - lb) * (1 - r))%R))))
    else x in
  clamp_lo lb (clamp_hi ub x1).

(** One row; the bounds broadcast over the rows (BoundedPolynomialMutation.py:33-34). *)
Fixpoint bp_row (ProM DisM : R) (dr : nat -> R * R) (j : nat) (lbs ubs : list R) (xs : list (option R)) : list (option R) :=
  match lbs, ubs, xs with
  | l :: lbs', u :: ubs', x :: xs' =>
      bp_gene ProM DisM l u (fst (dr j)) (snd (dr j)) x :: bp_row ProM DisM dr (S j) lbs' ubs' xs'
  | _, _, _ => []
  end.

Fixpoint bp_rows (ProM DisM : R) (dr : nat -> nat -> R * R) (i : nat) (lbs ubs : list R) (m : list (list (option R)))
    : list (list (option R)) :=
  match m with [] => [] | r :: t => bp_row ProM DisM (dr i) 0 lbs ubs r :: bp_rows ProM DisM dr (S i) lbs ubs t end.

(** BP_mutation.do (BoundedPolynomialMutation.py:20-65); rows and bounds of different lengths do
    not broadcast (ValueError; the exception for length-1 axes is not modelled). *)
Definition bp_do (ProM DisM : R) (dr : nat -> nat -> R * R) (lbs ubs : list R) (m : list (list (option R)))
    : res (list (list (option R))) :=
  if forallb (fun r => Nat.eqb (length r) (length lbs) && Nat.eqb (length r) (length ubs)) m
  then Ok (bp_rows ProM DisM dr 0 lbs ubs m) else Err ValueError.

(** The default mutation probability (BoundedPolynomialMutation.py:14-15). *)
Definition bp_default_prob (lbs : list R) : R := (1 / INR (length lbs))%R.

(** Population.mate with the default operators (Population.py:234-239). *)
Definition mate (ProC DisC ProM DisM : R) (dx : nat -> nat -> sbx_draw) (dm : nat -> nat -> R * R)
    (lbs ubs : list R) (pop : list (list R)) (ids : list Z) : res (list (list (option R))) :=
  bind (sbx_do ProC DisC dx pop ids) (bp_do ProM DisM dm lbs ubs).

(** ** Single point operators *)

(** numpy [round] (half to even), on exact rationals. *)
Definition qround (q : Q) : Z :=
  let f := Z.div (2 * Qnum q + QDen q) (2 * QDen q) in
  if ((2 * Qnum q + QDen q) mod (2 * QDen q) =? 0)%Z && Z.odd f then (f - 1)%Z else f.
Definition rnd (q : Q) : Q := inject_Z (qround q).

(** SinglePointCrossoverMutation.py:34-40. *)
Definition sp_cross (point : nat) (a b : list Q) : list Q * list Q :=
  (firstn point a ++ skipn point b, firstn point b ++ skipn point a).

(** SinglePointCrossoverMutation.py:84-90: the children of a pair are written to a zero matrix,
    the whole of which is rounded after every pair. *)
Fixpoint sp_loop (pt : nat -> nat) (k : nat) (done l : list (list Q)) : list (list Q) :=
  match l with
  | a :: b :: t =>
      let '(c, d) := sp_cross (pt k) a b in
      sp_loop pt (S k) (map (map rnd) (done ++ [c; d])) t
  | _ => done
  end.

(** SinglePoint_Xover.do (SinglePointCrossoverMutation.py:52-90); [pt k] is the cut point drawn
    for pair [k] by np.random.randint(len(ind_0)). *)
Definition sp_do (pt : nat -> nat) (pop : list (list Q)) (ids : list Z) : res (list (list Q)) :=
  bind (take_rows pop ids) (fun mp => Ok (sp_loop pt 0 [] (close_odd mp))).

(** SinglePointCrossoverMutation.py:143-144, one row. *)
Definition sp_flip (k : nat) (row : list Q) : list Q :=
  match nth_error row k with Some x => set_nth k (1 - x)%Q row | None => row end.

(** SinglePoint_Mutation.do (SinglePointCrossoverMutation.py:121-146); [ks i] is k[i]. *)
Fixpoint sp_mut (ks : nat -> nat) (i : nat) (m : list (list Q)) : list (list Q) :=
  match m with [] => [] | r :: t => sp_flip (ks i) r :: sp_mut ks (S i) t end.

(** ** EvoNN / EvoDN2 recombination *)

(** evonn_xover_mutation.py:148-155 (same text in evodn2_xover_mutation.py:149-156 and
    biogp_xover.py): the mating list becomes a list of pairs. *)
Inductive mating_arg := Ids1 (l : list nat) | Ids2 (l : list (nat * nat)).
Fixpoint even_pos {A} (l : list A) : list A :=
  match l with x :: y :: t => x :: even_pos t | [x] => [x] | [] => [] end.
Definition mating_pairs (m : mating_arg) : list (nat * nat) :=
  match m with Ids1 l => map (fun x => (x, x)) (even_pos l) | Ids2 l => l end.

(** A network is the list of the columns of its weight matrix (one per hidden node).
    evonn_xover_mutation.py:164-168: node (column) [i] is exchanged when its draw is below ProC. *)
Fixpoint nn_cross (ex : nat -> bool) (i : nat) (a b : list (list Q)) : list (list Q) * list (list Q) :=
  match a, b with
  | x :: a', y :: b' =>
      let '(u, v) := nn_cross ex (S i) a' b' in
      if ex i then (y :: u, x :: v) else (x :: u, y :: v)
  | _, _ => (a, b)
  end.

(** [w.ravel()[mut] += w.ravel()[mut] * mut_val[mut]] (evonn_xover_mutation.py:186, 197;
    evodn2_xover_mutation.py:205, 226): [mv j = Some v] when flat position [j] was drawn, [v] its
    mut_val. *)
Fixpoint scale_from (mv : nat -> option Q) (j : nat) (ws : list Q) : list Q :=
  match ws with
  | [] => []
  | w :: t => (match mv j with Some v => w + w * v | None => w end)%Q :: scale_from mv (S j) t
  end.

(** [mv i j]: draw for hidden node [i] and input [j]. *)
Fixpoint nn_mutate (mv : nat -> nat -> option Q) (i : nat) (net : list (list Q)) : list (list Q) :=
  match net with [] => [] | c :: t => scale_from (mv i) 0 c :: nn_mutate mv (S i) t end.

(** Draws for one pair of parents. *)
Record nn_draw := mkNN { nn_ex : nat -> bool; nn_mv1 : nat -> nat -> option Q; nn_mv2 : nat -> nat -> option Q }.

(** evonn_xover_mutation.py:158-242 with mutation_type "gaussian" (the default); np.random.normal
    raises ValueError for a negative scale (lines 156, 177: (5/3)(1 - cur/total) is not clamped,
    total=0 divides by zero). *)
Fixpoint nn_pairs (pop : list (list (list Q))) (dr : nat -> nn_draw) (k : nat) (ms : list (nat * nat)) : res (list (list (list Q))) :=
  match ms with
  | [] => Ok []
  | (i, j) :: t =>
      match nth_error pop i, nth_error pop j with
      | Some a, Some b =>
          let '(u, v) := nn_cross (nn_ex (dr k)) 0 a b in
          bind (nn_pairs pop dr (S k) t) (fun r => Ok (nn_mutate (nn_mv1 (dr k)) 0 u :: nn_mutate (nn_mv2 (dr k)) 0 v :: r))
      | _, _ => Err IndexError
      end
  end.
Definition evonn_do (cur total : Z) (pop : list (list (list Q))) (dr : nat -> nn_draw) (m : mating_arg) : res (list (list (list Q))) :=
  if (total =? 0)%Z then Err ZeroDivisionError
  else match mating_pairs m with
       | [] => Ok []
       | ms => if Qle_bool 0 (1 - (cur # 1) / (total # 1)) then nn_pairs pop dr 0 ms
               else match ms with (i, j) :: _ =>
                      match nth_error pop i, nth_error pop j with Some _, Some _ => Err ValueError | _, _ => Err IndexError end
                    | [] => Ok [] end
       end.

(** EvoDN2: a subnet is a list of layers, a layer the flat list of its weights.
    evodn2_xover_mutation.py:175-189: positions below the smaller size are exchanged when drawn;
    a layer missing on one side raises IndexError, which is swallowed. *)
Fixpoint dn_swap (ex : nat -> bool) (j : nat) (a b : list Q) : list Q * list Q :=
  match a, b with
  | x :: a', y :: b' =>
      let '(u, v) := dn_swap ex (S j) a' b' in
      if ex j then (y :: u, x :: v) else (x :: u, y :: v)
  | _, _ => (a, b)
  end.
Record dn_draw := mkDN { dn_ex : nat -> nat -> bool; dn_mv1 : nat -> nat -> option Q; dn_mv2 : nat -> nat -> option Q }.

(** evodn2_xover_mutation.py:173-231, one pair of subnets. *)
Fixpoint dn_layers (d : dn_draw) (l : nat) (a b : list (list Q)) : list (list Q) * list (list Q) :=
  match a, b with
  | x :: a', y :: b' =>
      let '(u, v) := dn_swap (dn_ex d l) 0 x y in
      let '(us, vs) := dn_layers d (S l) a' b' in
      (scale_from (dn_mv1 d l) 0 u :: us, scale_from (dn_mv2 d l) 0 v :: vs)
  | x :: a', [] => let '(us, vs) := dn_layers d (S l) a' [] in (scale_from (dn_mv1 d l) 0 x :: us, vs)
  | [], _ => ([], (fix g l ys := match ys with [] => [] | y :: t => scale_from (dn_mv2 d l) 0 y :: g (S l) t end) l b)
  end.

(** evodn2_xover_mutation.py:166-233: all subnets of the first parent; a second parent with fewer
    subnets raises IndexError (not swallowed). *)
Fixpoint dn_subnets (d : nat -> dn_draw) (s : nat) (a b : list (list (list Q))) : res (list (list (list Q)) * list (list (list Q))) :=
  match a, b with
  | x :: a', y :: b' =>
      bind (dn_subnets d (S s) a' b') (fun r =>
        let '(u, v) := dn_layers (d s) 0 x y in Ok (u :: fst r, v :: snd r))
  | [], _ => Ok ([], b)
  | _ :: _, [] => Err IndexError
  end.
