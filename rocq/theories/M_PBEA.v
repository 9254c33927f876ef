(** Model of the indicators of IBEA and PBEA as used in desdeo_emo/EAs/IBEA.py 86-108 and PBEA.py 94-125, on the generation of [M_Indicator].
    External and restated here (desdeo_tools, not in this repository): epsilon_indicator(s1, s2), the largest s2_i - s1_i and at least 0; preference_indicator(s1, s2, min_asf, ref, delta),
    epsilon_indicator(s1, s2) / (SimpleASF(s2; ref) + delta - min_asf); SimpleASF with weights 1, the largest f_i - ref_i. Floats are reals; components of ref are numbers (not nan). *)
From Verif Require Import Base RVec M_Indicator.
From Coq Require Import Reals.
Open Scope R_scope.

(** desdeo_tools.utilities.quality_indicator.epsilon_indicator. *)
Definition eps_ind (s1 s2 : list R) : R := fold_left (fun e v => if Rlt_dec e v then v else e) (vmap2 Rminus s2 s1) 0.
(** desdeo_tools.scalarization.SimpleASF(ones); np.max of nothing raises, which is not modelled (0). *)
Fixpoint rmax_list (x : R) (l : list R) : R := match l with [] => x | y :: t => Rmax x (rmax_list y t) end.
Definition simple_asf (f ref : list R) : R := match vmap2 Rminus f ref with [] => 0 | x :: t => rmax_list x t end.
(** desdeo_tools.utilities.quality_indicator.preference_indicator. *)
Definition pref_ind (s1 s2 : list R) (min_asf : R) (ref : list R) (delta : R) : R := eps_ind s1 s2 / (simple_asf s2 ref + delta - min_asf).

(** A row of the population: objectives and fitness (objectives times _max_multiplier, see C01). *)
Record member := mkMember { m_obj : list R; m_fit : list R }.

(** IBEA.py:93, 106. *)
Definition ibea_ind (a b : member) : R := eps_ind (m_fit a) (m_fit b).
(** PBEA.py:97-100: from the objectives, not from the fitness. *)
Definition pbea_min_asf (ref : list R) (pop : list member) : R :=
  match map (fun m => simple_asf (m_obj m) ref) pop with [] => 0 | x :: t => rmin_list x t end.
(** PBEA.py:105-106, 121-123; [pop0]: the population at the start of the generation (min_asf_value is not updated by the removals). *)
Definition pbea_ind (ref : list R) (delta : R) (pop0 : list member) (a b : member) : R :=
  pref_ind (m_fit a) (m_fit b) (pbea_min_asf ref pop0) ref delta.

(** BaseIndicatorEA.py:106-119 of an IBEA and of a PBEA: fitness assignment and environmental selection. *)
Definition ibea_env (kappa : R) (pop_size : nat) (pop : list member) : option (res (list member * list R)) :=
  env_loop ibea_ind kappa (length pop) pop_size pop (fitness_assignment ibea_ind kappa pop).
Definition pbea_env (ref : list R) (delta kappa : R) (pop_size : nat) (pop : list member) : option (res (list member * list R)) :=
  env_loop (pbea_ind ref delta pop) kappa (length pop) pop_size pop (fitness_assignment (pbea_ind ref delta pop) kappa pop).
