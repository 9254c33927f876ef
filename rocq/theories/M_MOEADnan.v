(** Model of desdeo_emo/EAs/MOEAD.py [_next_gen] 112-146 and desdeo_emo/selection/MOEAD_select.py with failed evaluations: fitness values may be infinite or NaN.
    As M_MOEAD.v otherwise (members, external SF, variation and np.random.choice); comparisons with NaN are false and np.amin propagates NaN. Weights are finite. *)
From Verif Require Import Base M_MOEAD.
From Coq Require Import QArith.
Open Scope nat_scope.

Inductive xq := QFin (q : Q) | QPInf | QMInf | QNaN.
(** a < b *)
Definition xqlt (a b : xq) : bool :=
  match a, b with
  | QFin x, QFin y => negb (Qle_bool y x)
  | QMInf, QFin _ | QMInf, QPInf | QFin _, QPInf => true
  | _, _ => false
  end.
(** np.minimum *)
Definition xqmin (a b : xq) : xq :=
  match a, b with QNaN, _ | _, QNaN => QNaN | _, _ => if xqlt b a then b else a end.
Fixpoint xqmins (u v : list xq) : list xq := match u, v with a :: u', b :: v' => xqmin a b :: xqmins u' v' | _, _ => [] end.

Section MOEADX.
Context {M : Type} (fitness : M -> list xq).
Context (SF : list xq -> list Q -> list xq -> xq).

(** MOEAD_select.py:71-92. *)
Fixpoint outperformed_x (nb : list nat) (cur : list (list xq)) (ws : list (list Q)) (off ideal : list xq) : list nat :=
  match nb, cur, ws with
  | j :: nb', f :: cur', w :: ws' =>
      if xqlt (SF off (fix_weights w) ideal) (SF f (fix_weights w) ideal)
      then j :: outperformed_x nb' cur' ws' off ideal else outperformed_x nb' cur' ws' off ideal
  | _, _, _ => []
  end.

(** MOEAD_select.py:46-92 [do]. *)
Definition moead_do_x (vectors : list (list Q)) (neighborhoods : list (list nat)) (ideal : list xq) (pop : list M) (i : nat) : res (list nat) :=
  match nth_error neighborhoods i with
  | None => Err IndexError
  | Some nb =>
      bind (take_all (map fitness pop) nb) (fun cur =>
      match rev pop with
      | [] => Err IndexError
      | off :: _ => bind (take_all vectors nb) (fun ws => Ok (outperformed_x nb cur ws (fitness off) ideal))
      end)
  end.

Context (vectors : list (list Q)) (neighborhoods : list (list nat)).
Context (pick : nat -> nat -> nat * nat) (offspring : nat -> M -> M -> list M -> M).

(** One turn of the loop of MOEAD.py:114-143. Population.add has the problem update its ideal fitness
    to np.amin over the old one and the offspring's fitness. *)
Definition subproblem_x (i : nat) (s : list xq * list M) : res (list xq * list M) :=
  let (ideal, pop) := s in
  bind (choose_parents (pick i) neighborhoods i) (fun ab =>
  match nth_error pop (fst ab), nth_error pop (snd ab) with
  | Some a, Some b =>
      let off := offspring i a b pop in
      let ideal' := xqmins ideal (fitness off) in
      let pop1 := pop ++ [off] in
      bind (moead_do_x vectors neighborhoods ideal' pop1 i) (fun sel =>
        Ok (ideal', removelast (replace_at sel off pop1)))
  | _, _ => Err IndexError
  end).

(** MOEAD.py:112-146. *)
Fixpoint subproblems_x (is : list nat) (s : list xq * list M) : res (list xq * list M) :=
  match is with
  | [] => Ok s
  | i :: t => bind (subproblem_x i s) (subproblems_x t)
  end.
Definition moead_gen_x (pop_size : nat) (s : list xq * list M) : res (list xq * list M) := subproblems_x (seq 0 pop_size) s.
End MOEADX.

(** Several generations: in each, other parents are drawn and other offspring arise. *)
Fixpoint moead_gens_x {M : Type} (fitness : M -> list xq) (SF : list xq -> list Q -> list xq -> xq) (vectors : list (list Q)) (neighborhoods : list (list nat))
    (pop_size : nat) (gens : list ((nat -> nat -> nat * nat) * (nat -> M -> M -> list M -> M))) (s : list xq * list M) : res (list xq * list M) :=
  match gens with
  | [] => Ok s
  | g :: t => bind (moead_gen_x fitness SF vectors neighborhoods (fst g) (snd g) pop_size s) (moead_gens_x fitness SF vectors neighborhoods pop_size t)
  end.
