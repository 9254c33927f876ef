(** Model of the retired selection operators desdeo_emo/selection/APD_Select.py, oAPD.py and robust_APD.py, over the reals. The three
    files differ only in the fitness values used and in the ideal point; the rest repeats APD_Select_constraints.py without the
    constraint handling, so the definitions of M_APD.v are used for the identical parts. Not modelled: rounding, NaN fitness, and the
    shape of the returned array. [penalty]: _partial_penalty_factor() (APD_Select.py:108-125), [gam]: neighbouring angles. *)
From Verif Require Import Base RVec M_APD.
From Coq Require Import Reals.
Open Scope R_scope.

Inductive legacy := LegacyMean | LegacyOptimistic | LegacyRobust.  (* APD_Select.py, oAPD.py, robust_APD.py *)

(** oAPD.py:51, robust_APD.py:51; [pop.uncertainity] is None unless the problem predicts one: TypeError. *)
Definition legacy_fitness (k : legacy) (fit : list (list R)) (unc : option (list (list R))) : res (list (list R)) :=
  match k, unc with
  | LegacyMean, _ => Ok fit
  | LegacyOptimistic, Some u => Ok (vmap2 vsub fit u)
  | LegacyRobust, Some u => Ok (vmap2 vadd fit u)
  | _, None => Err TypeError
  end.

(** APD_Select.py:49-54; oAPD.py:52-58 (also robust_APD.py). [own]: self.optimistic_ideal before the call (the ideal point of the
    population when the operator was built). No individuals: [np.amin] raises ValueError, and APD_Select.py:57 (row 0) IndexError. *)
Definition legacy_ideal (k : legacy) (own : option (list R)) (pop_ideal : option (list R)) (fit : list (list R)) : res (list R) :=
  match colmin fit with
  | None => Err (match k, pop_ideal with LegacyMean, Some _ => IndexError | _, _ => ValueError end)
  | Some fmin =>
      match k with
      | LegacyMean => Ok (match pop_ideal with Some z => z | None => fmin end)
      | _ => Ok (match own with None => fmin | Some z => vmin z fmin end)
      end
  end.

(** APD_Select.py:83-105: the position chosen for vector [k], if any. *)
Definition legacy_choose (penalty : R) (vecs trs : list (list R)) (gam : list R) (k : nat) : list nat :=
  match argmin (map (apd penalty vecs trs gam k) (niche vecs trs k)) with
  | Some j => [nth j (niche vecs trs k) O]
  | None => []
  end.

(** APD_Select.py:32-106, oAPD.py:33-112, robust_APD.py:33-112: the operator's ideal point after the call and the selected positions. *)
Definition legacy_select (kind : legacy) (penalty : R) (own : option (list R)) (pop_ideal : option (list R)) (fit0 : list (list R))
    (unc : option (list (list R))) (vecs : list (list R)) (gam : list R) : res (option (list R) * list nat) :=
  bind (legacy_fitness kind fit0 unc) (fun fit =>
  bind (legacy_ideal kind own pop_ideal fit) (fun z =>
    let trs := map (fun f => vsub f z) fit in
    Ok (match kind with LegacyMean => own | _ => Some z end, flat_map (legacy_choose penalty vecs trs gam) (seq 0 (length vecs))))).

(** What the operator sees in one generation. *)
Record generation := mkGen {
  g_fit : list (list R); g_unc : option (list (list R)); g_pop_ideal : list R;
  g_penalty : R; g_vecs : list (list R); g_gam : list R }.

(** The selections made in successive generations; the first exception ends the run. *)
Fixpoint selections {S} (do : S -> generation -> res (S * list nat)) (s : S) (gs : list generation) : res (list (list nat)) :=
  match gs with
  | [] => Ok []
  | g :: gs' => bind (do s g) (fun r => bind (selections do (fst r) gs') (fun l => Ok (snd r :: l)))
  end.

(** APD_Select_constraints.py:43-145 without constraints, for one generation. *)
Definition current_do (t : sel_type) (ideal : list R) (g : generation) : res (list R * list nat) :=
  bind (calc_fitness t (g_fit g) (g_unc g)) (fun fit =>
    apd_select (g_penalty g) ideal (g_pop_ideal g) fit None (g_vecs g) (g_gam g)).
Definition legacy_do (k : legacy) (own : option (list R)) (g : generation) : res (option (list R) * list nat) :=
  legacy_select k (g_penalty g) own (Some (g_pop_ideal g)) (g_fit g) (g_unc g) (g_vecs g) (g_gam g).
