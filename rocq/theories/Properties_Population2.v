(** C01: uncertainties. *)
From Verif Require Import Base M_Population Spec_Population P_Population.
Open Scope nat_scope.

Section T.
Context {I O F C U : Type}.
Notation member := (member I O F C U).
(** The complete evaluations requested by a call. *)
Definition evaluations (ops : list (op I O F C U)) : list member :=
  flat_map (fun o => match o with OpAdd o r => members_of (rows_of o) r | OpReplace _ i r => [mkMem i (r1_obj r) (r1_fit r) (r1_con r) (r1_unc r)] | _ => [] end) ops.
(** Every evaluation reports uncertainties. *)
Definition reports (o : op I O F C U) : Prop := match o with OpAdd _ r => r_unc r <> None | OpReplace _ _ r => r1_unc r <> None | _ => True end.

Definition from (ev : list member) (gs : (O -> F) -> Prop) (m : member) : Prop :=
  exists f, In (mkMem (m_ind m) (m_obj m) f (m_con m) (m_unc m)) ev /\ (m_fit m = f \/ exists g, gs g /\ m_fit m = g (m_obj m)).
Lemma from_in ev gs m : In m ev -> from ev gs m.
Proof. intros H. exists (m_fit m). split; [destruct m; exact H|left; reflexivity]. Qed.
Lemma from_mono ev ev' (gs gs' : (O -> F) -> Prop) m : incl ev ev' -> (forall g, gs g -> gs' g) -> from ev gs m -> from ev' gs' m.
Proof. intros H1 H2 (f & A & [B|(g & B & D)]); exists f; (split; [apply H1; exact A|]); [left; exact B|right; exists g; auto]. Qed.

Definition tracked (st : bool * option (list member)) ev gs : Prop := forall ms, snd st = Some ms -> fst st = true /\ forall m, In m ms -> from ev gs m.
Lemma step_tracked st o ev gs : reports o -> tracked st ev gs -> tracked (spec_step st o) (ev ++ evaluations [o]) (fun g => gs g \/ o = OpReeval g).
Proof.
  intros Hr Ht.
  assert (Old : forall m, from ev gs m -> from (ev ++ evaluations [o]) (fun g => gs g \/ o = OpReeval g) m).
  { intros m. apply from_mono; [intros x Hx; apply in_or_app; left; exact Hx|intros g Hg; left; exact Hg]. }
  assert (New : forall m, In m (evaluations [o]) -> from (ev ++ evaluations [o]) (fun g => gs g \/ o = OpReeval g) m).
  { intros m Hm. apply from_in. apply in_or_app. right. exact Hm. }
  destruct st as [h [ms|]].
  - destruct (Ht ms eq_refl) as [Eh Hms]. cbn [fst] in Eh. subst h. destruct o as [o r|zs|zs|zs i r|g]; cbn [spec_step] in *; cbn [reports] in Hr.
    + destruct (r_unc r) as [us|] eqn:Eu; [|contradiction]. intros ms' E. assert (X : fst (spec_step (true, Some ms) (OpAdd o r)) = true /\ ms' = ms ++ members_of (rows_of o) r).
      { cbn [spec_step]. rewrite Eu. destruct o; cbn in E; injection E as <-; auto. }
      destruct X as [_ ->]. split; [destruct o; reflexivity|]. intros m Hm. apply in_app_or in Hm as [Hm|Hm]; [apply Old, Hms, Hm|]. apply New. unfold evaluations. cbn [flat_map]. rewrite app_nil_r. exact Hm.
    + destruct (in_range_b (length ms) zs); intros ms' E; cbn [snd] in E; injection E as <-; (split; [reflexivity|]); intros m Hm; apply Old, Hms; [apply select_pos_incl in Hm|]; exact Hm.
    + destruct (in_range_b (length ms) zs); intros ms' E; cbn [snd] in E; [|injection E as <-; split; [reflexivity|intros m Hm; apply Old, Hms, Hm]].
      destruct (spec_drop zs ms) as [|a l] eqn:Ed; [discriminate|]. injection E as <-. split; [reflexivity|]. intros m Hm. rewrite <- Ed in Hm. apply select_pos_incl in Hm. apply Old, Hms, Hm.
    + destruct (in_range_b (length ms) zs); intros ms' E; cbn [snd] in E; injection E as <-; (split; [reflexivity|]); intros m Hm; [|apply Old, Hms, Hm].
      apply repl_pos_In in Hm. destruct Hm as [->|Hm]; [|apply Old, Hms, Hm]. apply New. left. reflexivity.
    + intros ms' E. cbn [snd] in E. injection E as <-. split; [reflexivity|]. intros m Hm. apply in_map_iff in Hm as (m0 & <- & Hm). destruct (Hms m0 Hm) as (f & A & _). exists f. cbn [refit m_ind m_obj m_con m_unc m_fit].
      split; [apply in_or_app; left; exact A|]. right. exists g. auto.
  - intros ms E. destruct o as [o r|zs|zs|zs i r|g]; cbn [spec_step snd] in E; try discriminate. destruct o as [l|i|]; cbn [spec_step snd] in E; try discriminate. injection E as <-.
    cbn [reports] in Hr. split; [cbn [spec_step fst]; destruct (r_unc r); [reflexivity|contradiction]|]. intros m Hm. apply New. unfold evaluations. cbn [flat_map rows_of]. rewrite app_nil_r. exact Hm.
Qed.
Lemma run_tracked ops : forall st ev gs, Forall reports ops -> tracked st ev gs -> tracked (fold_left spec_step ops st) (ev ++ evaluations ops) (fun g => gs g \/ In (OpReeval g) ops).
Proof.
  induction ops as [|o ops IH]; intros st ev gs Hr Ht; cbn [fold_left].
  - unfold evaluations. cbn [flat_map]. rewrite app_nil_r. intros ms E. destruct (Ht ms E) as [A B]. split; [exact A|]. intros m Hm. apply (from_mono ev ev gs); [apply incl_refl|auto|apply B, Hm].
  - inversion Hr as [|? ? H1 H2]; subst. apply (step_tracked st o ev gs H1) in Ht. apply (IH _ _ _ H2) in Ht. intros ms E. destruct (Ht ms E) as [A B]. split; [exact A|]. intros m Hm.
    specialize (B m Hm). eapply from_mono; [| |exact B].
    + rewrite <- app_assoc. change (o :: ops) with ([o] ++ ops). unfold evaluations. rewrite (flat_map_app _ [o] ops). apply incl_refl.
    + intros g [[G|G]|G]; [left; exact G|right; left; exact G|right; right; exact G].
Qed.

(** C01. When every evaluation reports uncertainties, the uncertainity array too has one row per member, that of the member's own evaluation. *)
Theorem C01_uncertainty_rows : forall nc (ops : list (op I O F C U)), good_history nc ops -> Forall reports ops ->
  p_ind (run (fresh nc) ops) = None \/
  exists ms, p_ind (run (fresh nc) ops) = Some (map m_ind ms) /\ p_obj (run (fresh nc) ops) = Some (map m_obj ms) /\ p_fit (run (fresh nc) ops) = Some (map m_fit ms) /\
    rows_opt (p_con (run (fresh nc) ops)) (length ms) = map m_con ms /\ rows_opt (p_unc (run (fresh nc) ops)) (length ms) = map m_unc ms /\
    forall m, In m ms -> m_unc m <> None /\ exists f, In (mkMem (m_ind m) (m_obj m) f (m_con m) (m_unc m)) (evaluations ops) /\
      (m_fit m = f \/ exists g, In (OpReeval g) ops /\ m_fit m = g (m_obj m)).
Proof.
  intros nc ops Hg Hr. pose proof (population_refines nc ops Hg) as Hp. unfold spec_run in Hp.
  assert (T0 : tracked (false, None) [] (fun _ => False)) by (intros ms E; discriminate). apply (run_tracked ops _ _ _ Hr) in T0. cbn [app] in T0.
  destruct (snd (fold_left spec_step ops (false, None))) as [ms|] eqn:E; [|left; exact Hp]. destruct (T0 ms E) as [Eh Hf]. right.
  destruct Hp as (P1 & P2 & P3 & P4 & P5 & _). exists ms. split; [exact P1|]. split; [exact P2|]. split; [exact P3|]. split; [exact P4|]. split; [exact P5|].
  assert (Hu : forall m, In m (evaluations ops) -> m_unc m <> None).
  { destruct Hg as [Hgo _]. clear - Hr Hgo. induction ops as [|o ops IH]; intros m Hm; [contradiction|]. inversion Hr as [|? ? H1 H2]; subst. inversion Hgo as [|? ? G1 G2]; subst.
    unfold evaluations in Hm. cbn [flat_map] in Hm. apply in_app_or in Hm as [Hm|Hm]; [|apply (IH G2 H2); exact Hm]. destruct o as [o r|zs|zs|zs i r|g]; try contradiction.
    - cbn [reports] in H1. destruct G1 as [_ G1]. destruct (members_of_proj _ _ _ G1) as (_ & _ & _ & _ & X). intros N. apply H1.
      destruct (r_unc r) as [us|] eqn:Er; [|reflexivity]. exfalso. cbn [rows_opt] in X.
      assert (Y : In (m_unc m) (map m_unc (members_of (rows_of o) r))) by (apply in_map; exact Hm). rewrite X in Y. apply in_map_iff in Y as (y & Y & _). congruence.
    - destruct Hm as [<-|[]]. exact H1. }
  intros m Hm. destruct (Hf m Hm) as (f & A & B). split; [exact (Hu _ A)|]. exists f. split; [exact A|]. destruct B as [B|(g & [[]|B] & D)]; [left; exact B|right; exists g; auto].
Qed.
End T.
Print Assumptions C01_uncertainty_rows.

(** ** Non-vacuity: a history with uncertainties throughout. *)
Definition ex_unc_ops : list (op nat nat nat nat nat) :=
  [ OpAdd (OBatch [10; 11; 12]) (mkRes [1; 2; 3] [1; 2; 3] (Some [0; 0; 0]) (Some [5; 6; 7]));
    OpAdd (OSingle 13) (mkRes [4] [4] (Some [1]) (Some [8]));
    OpReplace [0]%Z 20 (mkRes1 8 8 (Some 2) (Some 9)); OpDelete [1]%Z; OpReeval (fun o => 10 * o) ].
Example ex_unc : good_history 1 ex_unc_ops /\ Forall reports ex_unc_ops /\
  run (fresh 1) ex_unc_ops = mkPop 1 (Some [20; 12; 13]) (Some [8; 3; 4]) (Some [80; 30; 40]) (Some [2; 0; 1]) (Some [9; 7; 8]).
Proof.
  split; [|split; [|reflexivity]].
  - split; [|left]; repeat (constructor; cbn; try discriminate; auto).
  - repeat (constructor; cbn; try discriminate; auto).
Qed.
