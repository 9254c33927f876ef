(** Proofs about objects sharing a population (M_Shared). *)
From Verif Require Import Base M_Population Spec_Population P_Population M_Archive M_Run Spec_Run P_Run P_Run2 P_Run3 Properties_Run M_Shared.
From Coq Require Import Lia.
Open Scope nat_scope.

Section P.
Context {I O F C U : Type} (dom : F -> F -> bool) (w : nat -> world I O F C U) (c : nat -> cfg) (nc : nat) (u : bool) (n : nat).
Notation st := (st I O F C U).
Notation op := (op I O F C U).

Lemma good_ops_widen (w0 : world I O F C U) h h' log ops : (forall o, In o h -> In o h') -> good_ops w0 nc u h log ops -> good_ops w0 nc u h' log ops.
Proof.
  intros Sub (A & B & D & E & G & T). split; [exact A|]. split; [exact B|]. split; [exact D|]. split; [|split; [|exact T]].
  - intros e He. apply E in He. apply in_app_or in He. apply in_or_app. destruct He as [He|He]; [left|right; exact He].
    unfold evaluated in *. apply in_flat_map in He as (o & Ho & He). apply in_flat_map. exists o. split; [apply Sub; exact Ho|exact He].
  - intros g Hg. destruct (G g Hg) as [X|X]; [left; apply Sub; exact X|right; exact X].
Qed.
Lemma vch_widen (w0 : world I O F C U) h h' log i o f : (forall o, In o h -> In o h') -> vch w0 h log i o f -> vch w0 h' log i o f.
Proof.
  intros Sub (f0 & con & A & B). exists f0, con. split.
  - apply in_app_or in A. apply in_or_app. destruct A as [A|A]; [left|right; exact A].
    unfold evaluated in *. apply in_flat_map in A as (x & X & A). apply in_flat_map. exists x. split; [apply Sub; exact X|exact A].
  - destruct B as [B|(g & G & B)]; [left; exact B|right]. exists g. split; [|exact B]. destruct G as [G|G]; [left; apply Sub; exact G|right; exact G].
Qed.
Lemma inv_widen (w0 : world I O F C U) h h' (s : st) : (forall o, In o h -> In o h') -> inv w0 nc u h s -> inv w0 nc u h' s.
Proof.
  intros Sub (A & B & D & E). split; [exact A|]. split; [apply (good_ops_widen w0 h h'); assumption|]. split.
  - intros a Ha. destruct (D a Ha) as (rows & R1 & R2 & R3 & R4). exists rows. split; [exact R1|]. split; [exact R2|]. split; [exact R3|].
    intros r Hr. apply (vch_widen w0 h h'); [exact Sub|apply R4; exact Hr].
  - intros k it q Hq. destruct (E k it q Hq) as (ops & X & Y). exists ops. split; [exact X|]. apply (good_ops_widen w0 h h'); assumption.
Qed.

Definition logs (g : group I O F C U) := flat_map (fun i => evals (s_log (g_own g i))) (seq 0 n).
Definition may_refit (ops0 : list op) (h : O -> F) : Prop := In (OpReeval h) ops0 \/ exists i k p, i < n /\ w_prefs (w i) k p = Ok (Some h).
Definition ginv (ops0 : list op) (g : group I O F C U) : Prop :=
  exists h, (forall i, i < n -> inv (w i) nc u h (seen g i)) /\
    (forall e, In e (evaluated h) -> In e (evaluated ops0 ++ logs g)) /\
    (forall r, In (OpReeval r) h -> may_refit ops0 r).

Hypothesis Hw : forall i, i < n -> honest nc u (w i).

Lemma call_inv h (s : st) i k : i < n -> inv (w i) nc u h s -> inv (w i) nc u h (fst (one_call dom w c s i k)).
Proof.
  intros Hi Hs. destruct k; cbn [one_call].
  - pose proof (t_start dom (w i) (c i) nc u h s Hs) as T. destruct (start dom (c i) s) as [s' [a|e]]; exact T.
  - pose proof (t_iterate dom (w i) (c i) nc u (Hw i Hi) h s Hs) as T. destruct (iterate dom (w i) (c i) s) as [s' [a|e]]; exact T.
Qed.
Lemma start_keeps (s : st) i : s_log (fst (start dom (c i) s)) = s_log s /\ s_fe (fst (start dom (c i) s)) = s_fe s /\ s_iter (fst (start dom (c i) s)) = s_iter s /\ s_gen (fst (start dom (c i) s)) = s_gen s.
Proof.
  unfold start. destruct (c_save_nd (c i)); [|auto]. destruct (p_ind (s_pop s)); [|auto]. destruct (p_obj (s_pop s)); [|auto]. destruct (p_fit (s_pop s)); auto.
Qed.
Lemma call_log (s : st) i k : exists lg, s_log (fst (one_call dom w c s i k)) = s_log s ++ lg.
Proof.
  destruct k; cbn [one_call].
  - exists []. rewrite app_nil_r. apply start_keeps.
  - destruct (iterate dom (w i) (c i) s) as [s' [[]|e]] eqn:E; cbn [fst].
    + destruct (C104_iterate_counts dom (w i) (c i) s s' E) as (lg & L & _). exists lg. exact L.
    + destruct (C104_failed_iterate dom (w i) (c i) s s' e E) as (l1 & l2 & L & _). exists (l1 ++ l2). exact L.
Qed.

Lemma group_call_eq g i k : fst (group_call dom w c g (i, k)) =
  let s := fst (one_call dom w c (seen g i) i k) in mkGroup (s_pop s) (s_ops s) (fun j => if Nat.eqb j i then s else g_own g j).
Proof. unfold group_call. cbn [fst snd]. destruct (one_call dom w c (seen g i) i k) as [s out]. reflexivity. Qed.

Lemma seen_self g i k : let g' := fst (group_call dom w c g (i, k)) in seen g' i = fst (one_call dom w c (seen g i) i k).
Proof. cbv zeta. rewrite group_call_eq. cbv zeta. unfold seen at 1. cbn [g_own g_pop g_ops]. rewrite Nat.eqb_refl. destruct (fst (one_call dom w c (seen g i) i k)); reflexivity. Qed.
Lemma seen_other g i k j : j <> i -> let g' := fst (group_call dom w c g (i, k)) in
  g_own g' j = g_own g j /\ s_nd (seen g' j) = s_nd (seen g j) /\ s_snaps (seen g' j) = s_snaps (seen g j) /\ s_log (seen g' j) = s_log (seen g j).
Proof.
  intros N. cbv zeta. rewrite group_call_eq. cbv zeta. unfold seen. cbn [g_own g_pop g_ops]. destruct (Nat.eqb_spec j i) as [E|_]; [contradiction|].
  cbn [s_nd s_snaps s_log]. auto.
Qed.

Lemma logs_grow g i k e : In e (logs g) -> In e (logs (fst (group_call dom w c g (i, k)))).
Proof.
  unfold logs. intros H. apply in_flat_map in H as (j & J & H). apply in_flat_map. exists j. split; [exact J|].
  rewrite group_call_eq. cbv zeta. cbn [g_own]. destruct (Nat.eqb_spec j i) as [->|_]; [|exact H].
  destruct (call_log (seen g i) i k) as (lg & ->). rewrite evals_app. apply in_or_app. left. exact H.
Qed.

Lemma ginv_call ops0 g i k : i < n -> ginv ops0 g -> ginv ops0 (fst (group_call dom w c g (i, k))).
Proof.
  intros Hi (h & A & B & D). set (g' := fst (group_call dom w c g (i, k))). set (s' := fst (one_call dom w c (seen g i) i k)).
  pose proof (call_inv h (seen g i) i k Hi (A i Hi)) as Is. fold s' in Is.
  assert (Gs : g_pop g' = s_pop s' /\ g_ops g' = s_ops s' /\ s_log (g_own g' i) = s_log s').
  { unfold g'. rewrite group_call_eq. cbv zeta. fold s'. cbn [g_pop g_ops g_own]. rewrite Nat.eqb_refl. auto. }
  destruct Gs as (G1 & G2 & G3). pose proof Is as (P1 & (O1 & O2 & O3 & O4 & O5 & O6) & _ & _).
  exists (h ++ s_ops s'). split; [|split].
  - intros j Hj. destruct (Nat.eq_dec j i) as [->|N].
    + unfold g'. rewrite seen_self. fold s'. apply (inv_widen (w i) h); [intros o Ho; apply in_or_app; left; exact Ho|exact Is].
    + destruct (seen_other g i k j N) as (S1 & S2 & S3 & S4). fold g' in S1, S2, S3, S4.
      destruct (inv_widen (w j) h (h ++ s_ops s') (seen g j) ltac:(intros o Ho; apply in_or_app; left; exact Ho) (A j Hj)) as (Q1 & Q2 & Q3 & Q4).
      split; [|split; [|split]].
      * unfold seen. cbn [s_pop s_ops]. rewrite G1, G2. exact P1.
      * rewrite S4. replace (s_ops (seen g' j)) with (s_ops s') by (symmetry; exact G2).
        split; [exact O1|]. split; [exact O2|]. split; [exact O3|]. split; [|split].
        -- intros e He. apply in_or_app. left. unfold evaluated. rewrite flat_map_app. apply in_or_app. right. exact He.
        -- intros r Hr. left. apply in_or_app. right. exact Hr.
        -- apply Q2.
      * rewrite S2, S4. exact Q3.
      * rewrite S3, S4. exact Q4.
  - intros e He. unfold evaluated in He. rewrite flat_map_app in He. apply in_app_or in He. apply in_or_app.
    assert (X : In e (evaluated h) -> In e (evaluated ops0) \/ In e (logs g')).
    { intros Y. apply B in Y. apply in_app_or in Y as [Y|Y]; [left; exact Y|right; apply logs_grow; exact Y]. }
    destruct He as [He|He]; [apply X; exact He|]. apply O4 in He. apply in_app_or in He as [He|He]; [apply X; exact He|].
    right. unfold logs. apply in_flat_map. exists i. split; [apply in_seq; lia|]. rewrite G3. exact He.
  - intros r Hr. apply in_app_or in Hr as [Hr|Hr]; [apply D; exact Hr|]. destruct (O5 r Hr) as [Z|(k0 & p0 & Z)]; [apply D; exact Z|].
    right. exists i, k0, p0. split; assumption.
Qed.

Lemma ginv_run ops0 : forall es g, (forall e, In e es -> fst e < n) -> ginv ops0 g -> ginv ops0 (group_run dom w c g es).
Proof.
  induction es as [|[i k] es IH]; intros g He Hg; [exact Hg|]. apply IH; [intros e E; apply He; right; exact E|].
  apply ginv_call; [apply (He (i, k)); left; reflexivity|exact Hg].
Qed.

Lemma ginv_sharing ops0 s0 : 0 < n -> constructed (w 0) (c 0) nc u ops0 s0 -> ginv ops0 (sharing s0).
Proof.
  intros Hn Hc. assert (H0 : inv (w 0) nc u ops0 s0).
  { destruct Hc as [(-> & rows & ->)|(-> & A & B & D)]; [apply inv_on_problem; apply Hw; exact Hn|apply inv_on_population; assumption]. }
  pose proof H0 as (P1 & (O1 & O2 & O3 & O4 & O5 & O6) & P3 & P4).
  exists (ops0 ++ s_ops s0). split; [|split].
  - intros i Hi. destruct i as [|i].
    + replace (seen (sharing s0) 0) with s0 by (destruct s0; reflexivity). apply (inv_widen (w 0) ops0); [intros o Ho; apply in_or_app; left; exact Ho|exact H0].
    + split; [exact P1|]. split; [|split; [discriminate|intros ? ? ? []]]. 
      split; [exact O1|]. split; [exact O2|]. split; [exact O3|]. split; [|split].
      * intros e He. apply in_or_app. left. unfold evaluated. rewrite flat_map_app. apply in_or_app. right. exact He.
      * intros r Hr. left. apply in_or_app. right. exact Hr.
      * intros ? ? ? [].
  - intros e He. unfold evaluated in He. rewrite flat_map_app in He. apply in_app_or in He as [He|He]; [apply in_or_app; left; exact He|].
    apply O4 in He. apply in_app_or in He. apply in_or_app. destruct He as [He|He]; [left; exact He|right].
    unfold logs. apply in_flat_map. exists 0. split; [apply in_seq; lia|]. exact He.
  - intros r Hr. apply in_app_or in Hr as [Hr|Hr]; [left; exact Hr|]. destruct (O5 r Hr) as [X|(k & p & X)]; [left; exact X|]. right. exists 0, k, p. split; assumption.
Qed.
End P.
