(** C136: what the operators keep - bounds, bits, the shape of a network - holds of everything a run evaluates and reports. *)
From Coq Require Import Reals QArith Lia Lra.
From Verif Require Import Base M_Population Spec_Population P_Population M_Archive M_Recombination P_Recombination Properties_Recombination Properties_NetRecomb M_Run Spec_Run P_Run P_Run2 P_Run3 M_Stop P_Stop P_Stop2 P_Keep.
Import ListNotations.
Open Scope nat_scope.

(** Everything a run has evaluated, has now and reports. *)
Definition everywhere {I O F C U} (G : I -> Prop) (c : cfg) (s : st I O F C U) : Prop :=
  (forall e, In e (s_log s) -> Forall G (snd (fst e))) /\ (forall l, p_ind (s_pop s) = Some l -> Forall G l) /\ (forall a, s_nd s = Some a -> Forall G (a_ind a)) /\
  (forall g it q, In (g, (it, q)) (s_snaps s) -> forall l, p_ind q = Some l -> Forall G l) /\
  (forall (V : Type) (dom' : V -> V -> bool) (f : O -> V) s' is os, finish c dom' f s = (s', Ok (is, os)) -> Forall G is).

Section T.
Context {I O F C U : Type} (dom : F -> F -> bool) (w : world I O F C U) (c : cfg) (nc : nat) (u : bool).
(** C136. Any property of decision vectors: if the initial rows have it and mating a population of rows that have it gives rows that have it (in MOEA/D with use_repair: after repair), then everything evaluated
    and reported has it, after any sequence of start(), iterate() and stopped iterate() calls, also when they raise, for all algorithms. *)
Theorem C136_operators_lift : forall (G : I -> Prop) ops0 s0 (ks : list scall), honest nc u w -> constructed w c nc u ops0 s0 ->
  (forall e, In e (s_log s0) -> Forall G (snd (fst e))) -> (forall i o f x, In (i, o, f, x) (evaluated ops0) -> G i) ->
  (forall k p par rows, (forall l, p_ind p = Some l -> Forall G l) -> w_mate w k p par = Ok rows ->
     Forall (fun x => G (match c_kind c with KMoead _ true => w_repair w x | _ => x end)) rows) ->
  everywhere G c (ssession dom w c s0 ks).
Proof.
  intros G ops0 s0 ks Hw Hc Hlog Hops Hm.
  assert (Hm' : forall k p par rows, (forall l, p_ind p = Some l -> Forall G l) -> w_mate w k p par = Ok rows -> Forall G (map (made w c) rows)).
  { intros k p par rows H1 H2. apply Forall_map. exact (Hm k p par rows H1 H2). }
  assert (Hops' : Forall (fun m => G (fst (fst (fst m)))) (evaluated ops0)) by (apply Forall_forall; intros [[[i o] f] x] Hin; exact (Hops i o f x Hin)).
  assert (H0 : inv w nc u ops0 s0).
  { destruct Hc as [(-> & rows & ->)|(-> & A & B & D)]; [apply inv_on_problem; exact Hw|apply inv_on_population; auto]. }
  pose proof (j_session dom w c nc u Hw ops0 G Hm' Hops' ks s0 (conj H0 Hlog)) as Hs. set (s := ssession dom w c s0 ks) in *.
  assert (Hpop : forall l, p_ind (s_pop s) = Some l -> Forall G l) by (apply (pop_good w nc u ops0 G Hops'); exact Hs).
  destruct Hs as [(A & B & D & E) Hg]. split; [exact Hg|]. split; [exact Hpop|]. split; [|split].
  - intros a Ha. destruct (D a Ha) as (rows & R1 & R2 & R3 & R4). rewrite R1. apply Forall_map, Forall_forall. intros r Hr. eapply (vouched_good w ops0 G Hops'); [exact Hg|]. apply R4. exact Hr.
  - intros g it q Hq l Hl. destruct (E g it q Hq) as (ops & -> & Gd). destruct (run_pop_ok w nc u ops0 _ _ Gd) as [P|(is & os & fs & P1 & P2 & P3 & L1 & L2 & P4)]; [congruence|].
    rewrite Hl in P1. injection P1 as ->. apply Forall_forall. intros i Hi. apply In_nth_error in Hi. destruct Hi as [j Hj].
    assert (Ho : exists o, nth_error os j = Some o). { destruct (nth_error os j) eqn:X; [eauto|]. apply nth_error_None in X. assert (j < length is) by (apply nth_error_Some; congruence). lia. }
    assert (Hf : exists f, nth_error fs j = Some f). { destruct (nth_error fs j) eqn:X; [eauto|]. apply nth_error_None in X. assert (j < length is) by (apply nth_error_Some; congruence). lia. }
    destruct Ho as [o Ho], Hf as [f Hf]. eapply (vouched_good w ops0 G Hops'); [exact Hg|]. eapply P4; eauto.
  - intros V dom' f s' is os Hf. unfold finish in Hf. destruct (p_ind (s_pop s)) as [xi|] eqn:E1; [|discriminate]. destruct (p_obj (s_pop s)) as [xo|] eqn:E2; [|discriminate].
    unfold end_result in Hf. injection Hf as _ H1 H2. subst is. specialize (Hpop xi eq_refl). rewrite Forall_forall in *. intros x Hx. apply Hpop. eapply P_Run.mask_sel_incl. exact Hx.
Qed.
End T.

(** ** Bounds *)
(** One gene per variable, each NaN or a number within the variable's bounds. *)
Definition boxed (lbs ubs : list R) (r : list (option R)) : Prop :=
  length r = length lbs /\ forall j l u x, nth_error lbs j = Some l -> nth_error ubs j = Some u -> nth_error r j = Some x -> x = None \/ exists v, x = Some v /\ (l <= v <= u)%R.
Lemma bp_do_boxed ProM DisM dr lbs ubs m off : bounds_ok lbs ubs -> bp_do ProM DisM dr lbs ubs m = Ok off -> Forall (boxed lbs ubs) off.
Proof.
  intros [Lb Hb] H. unfold bp_do in H. destruct (forallb _ m) eqn:E; [|discriminate]. injection H as <-. rewrite forallb_forall in E. apply Forall_forall. intros r Hr. apply In_nth_error in Hr. destruct Hr as [i Hi].
  assert (Hm : exists row, nth_error m i = Some row). { destruct (nth_error m i) eqn:X; [eauto|]. apply nth_error_None in X. assert (i < length (bp_rows ProM DisM dr 0 lbs ubs m)) by (apply nth_error_Some; congruence). rewrite bp_rows_length in H. lia. }
  destruct Hm as [row Hrow]. rewrite (bp_rows_nth _ _ _ _ _ _ _ _ _ Hrow) in Hi. injection Hi as <-. specialize (E row (nth_error_In _ _ Hrow)). apply andb_prop in E. destruct E as [E1 E2]. apply Nat.eqb_eq in E1, E2.
  split; [rewrite bp_row_length; auto|]. intros j l v x Hl Hv Hx.
  assert (Hg : exists y, nth_error row j = Some y). { destruct (nth_error row j) eqn:X; [eauto|]. apply nth_error_None in X. assert (j < length lbs) by (apply nth_error_Some; congruence). lia. }
  destruct Hg as [y Hy]. rewrite (bp_row_nth _ _ _ _ _ _ _ _ _ _ _ Hl Hv Hy) in Hx. injection Hx as <-. specialize (Hb j l v Hl Hv). destruct (bp_gene_any ProM DisM l v (fst (dr (0 + i) (0 + j))) (snd (dr (0 + i) (0 + j))) y ltac:(lra)) as [H _]. exact H.
Qed.
(** C136. Bounds: mutating with BP_mutation last, whatever the crossover [cross], its settings and all draws: every gene of every row evaluated or reported in any run is NaN or within its bounds, if the initial
    rows are so. *)
Theorem C136_bounds : forall (O F C U : Type) dom (w : world (list (option R)) O F C U) c nc u lbs ubs ProM DisM (cross : nat -> pop _ O F C U -> option (list Z) -> res (list (list (option R)))) (dm : nat -> nat -> nat -> R * R) s0 ops0 ks,
  bounds_ok lbs ubs -> (forall k p par, w_mate w k p par = bind (cross k p par) (bp_do ProM DisM (dm k) lbs ubs)) -> (forall x, boxed lbs ubs x -> boxed lbs ubs (w_repair w x)) ->
  honest nc u w -> constructed w c nc u ops0 s0 -> (forall e, In e (s_log s0) -> Forall (boxed lbs ubs) (snd (fst e))) -> (forall i o f x, In (i, o, f, x) (evaluated ops0) -> boxed lbs ubs i) ->
  everywhere (boxed lbs ubs) c (ssession dom w c s0 ks).
Proof.
  intros O F C U dom w c nc u lbs ubs ProM DisM cross dm s0 ops0 ks Hb Hm Hr Hw Hc Hl Ho. apply (C136_operators_lift dom w c nc u (boxed lbs ubs) ops0 s0 ks Hw Hc Hl Ho). intros k p par rows _ E. rewrite Hm in E.
  destruct (cross k p par) as [m|e]; [|discriminate]. cbn [bind] in E. pose proof (bp_do_boxed _ _ _ _ _ _ _ Hb E) as B. rewrite Forall_forall in *. intros x Hx. specialize (B x Hx). destruct (c_kind c) as [|n [|]|n| |k']; auto.
Qed.
(** C136. ... and a user's initial population may lie anywhere: everything else is within the bounds. *)
Theorem C136_bounds_offspring : forall (O F C U : Type) dom (w : world (list (option R)) O F C U) c nc u lbs ubs ProM DisM (cross : nat -> pop _ O F C U -> option (list Z) -> res (list (list (option R)))) (dm : nat -> nat -> nat -> R * R) s0 ops0 ks,
  bounds_ok lbs ubs -> (forall k p par, w_mate w k p par = bind (cross k p par) (bp_do ProM DisM (dm k) lbs ubs)) -> (forall x, boxed lbs ubs x -> boxed lbs ubs (w_repair w x)) ->
  honest nc u w -> constructed w c nc u ops0 s0 ->
  everywhere (fun x => boxed lbs ubs x \/ (exists e, In e (s_log s0) /\ In x (snd (fst e))) \/ exists o f y, In (x, o, f, y) (evaluated ops0)) c (ssession dom w c s0 ks).
Proof.
  intros O F C U dom w c nc u lbs ubs ProM DisM cross dm s0 ops0 ks Hb Hm Hr Hw Hc. apply (C136_operators_lift dom w c nc u _ ops0 s0 ks Hw Hc).
  - intros e He. apply Forall_forall. intros x Hx. right. left. eauto.
  - intros i o f x Hx. right. right. eauto.
  - intros k p par rows _ E. rewrite Hm in E. destruct (cross k p par) as [m|e]; [|discriminate]. cbn [bind] in E. pose proof (bp_do_boxed _ _ _ _ _ _ _ Hb E) as B. rewrite Forall_forall in *. intros x Hx. specialize (B x Hx).
    left. destruct (c_kind c) as [|n [|]|n| |k']; auto.
Qed.
(** One gene per variable, each NaN or a number within the variable's bounds (exact rationals, as [repair] is modelled). *)
Definition boxed_q (lbs ubs : list Q) (r : list gene) : Prop :=
  length r = length lbs /\ forall j l u x, nth_error lbs j = Some l -> nth_error ubs j = Some u -> nth_error r j = Some x -> x = None \/ exists v, x = Some v /\ (l <= v <= u)%Q.
(** C136. MOEA/D with use_repair needs nothing of its operators but rows of the right length. *)
Theorem C136_moead_repair : forall (O F C U : Type) dom (w : world (list gene) O F C U) c nc u lbs ubs n s0 ops0 ks, c_kind c = KMoead n true ->
  length lbs = length ubs -> (forall j l v, nth_error lbs j = Some l -> nth_error ubs j = Some v -> (l <= v)%Q) -> w_repair w = repair lbs ubs ->
  (forall k p par rows x, w_mate w k p par = Ok rows -> In x rows -> length x = length lbs) ->
  honest nc u w -> constructed w c nc u ops0 s0 -> (forall e, In e (s_log s0) -> Forall (boxed_q lbs ubs) (snd (fst e))) -> (forall i o f x, In (i, o, f, x) (evaluated ops0) -> boxed_q lbs ubs i) ->
  everywhere (boxed_q lbs ubs) c (ssession dom w c s0 ks).
Proof.
  intros O F C U dom w c nc u lbs ubs n s0 ops0 ks Hk Lb Hb Hrep Hlen Hw Hc Hl Ho. apply (C136_operators_lift dom w c nc u (boxed_q lbs ubs) ops0 s0 ks Hw Hc Hl Ho). intros k p par rows _ E. rewrite Hk. apply Forall_forall. intros x Hx.
  specialize (Hlen _ _ _ _ _ E Hx). rewrite Hrep. destruct (repair_correct lbs ubs x (eq_sym Hlen) ltac:(congruence) Hb) as (_ & L & P & _). split; [congruence|]. intros j l v y Hjl Hjv Hy.
  assert (Hg : exists z, nth_error x j = Some z). { destruct (nth_error x j) eqn:X; [eauto|]. apply nth_error_None in X. assert (j < length lbs) by (apply nth_error_Some; congruence). lia. }
  destruct Hg as [z Hz]. destruct (P j l v z Hjl Hjv Hz) as (y' & Y1 & Y2). rewrite Y1 in Hy. injection Hy as <-. destruct z as [q|]; [|left; exact Y2]. right. destruct Y2 as (q' & -> & B & _). eauto.
Qed.

(** ** Binary chromosomes *)
Definition binary (nv : nat) (r : list Q) : Prop := length r = nv /\ forall x, In x r -> x = 0%Q \/ x = 1%Q.
Lemma in_range_dec n zs : in_range n zs \/ ~ in_range n zs.
Proof.
  unfold in_range. induction zs as [|z zs [IH|IH]]; [left; constructor| |right; intros H; apply IH; exact (Forall_inv_tail H)].
  destruct (Z_le_dec (- Z.of_nat n) z) as [A|A]; [destruct (Z_lt_dec z (Z.of_nat n)) as [B|B]|].
  - left. constructor; [lia|exact IH].
  - right. intros H. pose proof (Forall_inv H) as X. cbn beta in X. lia.
  - right. intros H. pose proof (Forall_inv H) as X. cbn beta in X. lia.
Qed.
(** C136. Binary chromosomes: with single point crossover and mutation, every chromosome evaluated or reported in any run has the right length and only zeros and ones, if the initial ones do. *)
Theorem C136_binary : forall (O F C U : Type) dom (w : world (list Q) O F C U) c nc u nv (pt ks : nat -> nat -> nat) (ids : nat -> pop (list Q) O F C U -> option (list Z) -> list Z) s0 ops0 calls,
  (forall k i, ks k i < nv) ->
  (forall k p par, w_mate w k p par = match p_ind p with None => Err TypeError | Some l => bind (sp_do (pt k) l (ids k p par)) (fun m => Ok (sp_mut (ks k) 0 m)) end) -> (forall x, binary nv x -> binary nv (w_repair w x)) ->
  honest nc u w -> constructed w c nc u ops0 s0 -> (forall e, In e (s_log s0) -> Forall (binary nv) (snd (fst e))) -> (forall i o f x, In (i, o, f, x) (evaluated ops0) -> binary nv i) ->
  everywhere (binary nv) c (ssession dom w c s0 calls).
Proof.
  intros O F C U dom w c nc u nv pt ks ids s0 ops0 calls Hks Hm Hr Hw Hc Hl Ho. apply (C136_operators_lift dom w c nc u (binary nv) ops0 s0 calls Hw Hc Hl Ho). intros k p par rows Hp E. rewrite Hm in E.
  destruct (p_ind p) as [l|]; [|discriminate]. specialize (Hp l eq_refl). rewrite Forall_forall in Hp.
  destruct (in_range_dec (length l) (ids k p par)) as [Hin|Hin]; [|unfold sp_do in E; rewrite take_rows_err in E by exact Hin; discriminate].
  assert (Hrect : rect nv l) by (intros r Hr'; apply Hp; exact Hr').
  destruct (C14_single_point_tails (pt k) l (ids k p par) nv Hrect Hin) as (off & E1 & L & P). pose proof (C14_binary_children (pt k) l (ids k p par) nv off Hrect Hin E1 ltac:(intros r x Hr1 Hx; apply (Hp r Hr1); exact Hx)) as Hb.
  rewrite E1 in E. cbn [bind] in E. injection E as <-.
  assert (Ho' : rect nv off).
  { intros r Hr'. apply In_nth_error in Hr'. destruct Hr' as [i Hi]. assert (Hi' : i < length off) by (apply nth_error_Some; congruence). rewrite L in Hi'.
    assert (E2 : i = 2 * (i / 2) \/ i = 2 * (i / 2) + 1) by (pose proof (Nat.div_mod i 2 ltac:(lia)); pose proof (Nat.mod_upper_bound i 2 ltac:(lia)); lia).
    assert (Hk : 2 * (i / 2) < length (ids k p par)).
    { pose proof (Nat.div_mod (length (ids k p par) + 1) 2 ltac:(lia)). pose proof (Nat.mod_upper_bound (length (ids k p par) + 1) 2 ltac:(lia)). lia. }
    destruct (P (i / 2) Hk) as (z1 & z2 & a & b & c1 & c2 & _ & _ & _ & _ & Q1 & Q2 & L1 & L2 & _). destruct E2 as [E2|E2]; rewrite E2 in Hi; congruence. }
  destruct (C15_mutation_flips_one (ks k) off nv Ho' (Hks k)) as [Ll Pm].
  apply Forall_forall. intros r Hr'. assert (B : binary nv r).
  { apply In_nth_error in Hr'. destruct Hr' as [i Hi]. assert (Hi' : i < length off) by (rewrite <- Ll; apply nth_error_Some; congruence). destruct (nth_error off i) as [r0|] eqn:E0; [|apply nth_error_None in E0; lia].
    destruct (Pm i r0 E0) as (r' & j & x & R1 & R2 & R3 & R4 & R5 & _). rewrite R1 in Hi. injection Hi as <-. split; [exact R2|]. intros y Hy. apply In_nth_error in Hy. destruct Hy as [t Ht].
    assert (B0 : forall t y, nth_error r0 t = Some y -> y = 0%Q \/ y = 1%Q) by (intros t0 y0 H0; apply (Hb r0); [eapply nth_error_In; exact E0|eapply nth_error_In; exact H0]).
    destruct (Nat.eq_dec t j) as [->|Hn]; [|rewrite R5 in Ht by exact Hn; eapply B0; exact Ht]. rewrite R4 in Ht. injection Ht as <-. destruct (B0 _ _ R3) as [-> | ->]; [right|left]; reflexivity. }
  destruct (c_kind c) as [|n [|]|n| |k']; auto.
Qed.

(** ** Networks *)
Definition shaped (nodes inputs : nat) (net : list (list Q)) : Prop := length net = nodes /\ forall col, In col net -> length col = inputs.
(** C136. Networks: whatever pairs EvoNNRecombination mates and whatever it draws, every network evaluated or reported in any run has the shape of the initial ones. *)
Theorem C136_networks : forall (O F C U : Type) dom (w : world (list (list Q)) O F C U) c nc u nodes inputs s0 ops0 calls,
  (forall k p par rows, w_mate w k p par = Ok rows -> exists l cur total dr ms, p_ind p = Some l /\ (0 < total)%Z /\ (0 <= cur <= total)%Z /\ valid_pairs l ms /\ evonn_do cur total l dr (Ids2 ms) = Ok rows) ->
  (forall x, shaped nodes inputs x -> shaped nodes inputs (w_repair w x)) ->
  honest nc u w -> constructed w c nc u ops0 s0 -> (forall e, In e (s_log s0) -> Forall (shaped nodes inputs) (snd (fst e))) -> (forall i o f x, In (i, o, f, x) (evaluated ops0) -> shaped nodes inputs i) ->
  everywhere (shaped nodes inputs) c (ssession dom w c s0 calls).
Proof.
  intros O F C U dom w c nc u nodes inputs s0 ops0 calls Hm Hr Hw Hc Hl Ho. apply (C136_operators_lift dom w c nc u (shaped nodes inputs) ops0 s0 calls Hw Hc Hl Ho). intros k p par rows Hp E.
  destruct (Hm k p par rows E) as (l & cur & total & dr & ms & Hpl & T1 & T2 & Hv & E1). specialize (Hp l Hpl). rewrite Forall_forall in Hp.
  destruct (C16_evonn_architecture cur total l dr ms nodes inputs T1 T2 Hp Hv) as (off & E2 & L & P). rewrite E1 in E2. injection E2 as <-.
  apply Forall_forall. intros x Hx. assert (B : shaped nodes inputs x).
  { apply In_nth_error in Hx. destruct Hx as [i Hi]. assert (Hi' : i < length rows) by (apply nth_error_Some; congruence). rewrite L in Hi'.
    pose proof (Nat.div_mod i 2 ltac:(lia)). pose proof (Nat.mod_upper_bound i 2 ltac:(lia)).
    destruct (nth_error ms (i / 2)) as [[a b]|] eqn:Em; [|apply nth_error_None in Em; lia].
    destruct (P (i / 2) a b Em) as (na & nb & x1 & x2 & _ & _ & X1 & X2 & L1 & L2 & Hc').
    assert (Sh : forall col, (In col x1 -> length col = inputs) /\ (In col x2 -> length col = inputs)).
    { intros col. split; intros Hcol; apply In_nth_error in Hcol; destruct Hcol as [t Ht].
      - assert (Ht2 : t < nodes) by (rewrite <- L1; apply nth_error_Some; congruence). destruct (Hc' t Ht2) as (p1 & p2 & p3 & p4 & _ & _ & Y1 & _ & Z1 & _). congruence.
      - assert (Ht2 : t < nodes) by (rewrite <- L2; apply nth_error_Some; congruence). destruct (Hc' t Ht2) as (p1 & p2 & p3 & p4 & _ & _ & _ & Y2 & _ & Z2 & _). congruence. }
    assert (E3 : i = 2 * (i / 2) \/ i = 2 * (i / 2) + 1) by lia. destruct E3 as [E3|E3]; rewrite E3 in Hi; [rewrite X1 in Hi|rewrite X2 in Hi]; injection Hi as <-; (split; [assumption|]; intros col Hcol; first [exact (proj1 (Sh col) Hcol)|exact (proj2 (Sh col) Hcol)]). }
  destruct (c_kind c) as [|n [|]|n| |k']; auto.
Qed.

Print Assumptions C136_operators_lift.
Print Assumptions C136_bounds.
Print Assumptions C136_bounds_offspring.
Print Assumptions C136_moead_repair.
Print Assumptions C136_binary.
Print Assumptions C136_networks.

(** ** The hypotheses are met: worlds that differ in mating and repair only; the problem answers 0 for every row. *)
Definition keep_world {I} (mate : nat -> pop I nat nat unit unit -> option (list Z) -> res (list I)) (rep : I -> I) : world I nat nat unit unit :=
  mkWorld mate rep (fun _ _ rows => mkRes (map (fun _ => 0) rows) (map (fun _ => 0) rows) None None) (fun _ _ _ => None) (fun k _ i => Ok [Z.of_nat i; -1]%Z) (fun _ i => Ok [Z.of_nat i; -1]%Z) (fun _ _ => 0%Z) (fun _ => Ok [0]%Z) (fun _ n => seq 0 n)
    (fun _ _ => [0]%Z) (fun _ _ => Ok []) (fun k _ => Ok None) (fun _ _ => Ok tt).
Example keep_honest : forall I mate rep, honest 0 false (@keep_world I mate rep).
Proof. intros I mate rep k b rows. unfold keep_world. cbn [w_eval]. unfold good_results. cbn [r_obj r_fit r_con r_unc]. rewrite !map_length. split; [tauto|]. split; congruence. Qed.
Definition keep_cfg (k : kind) : cfg := mkCfg k false true true 2 2 0.
Definition keep_start {I} mate rep k (rows : list I) : st I nat nat unit unit := on_problem (keep_world mate rep) (keep_cfg k) 0 rows.
Example keep_constructed : forall I mate rep k (rows : list I), constructed (keep_world mate rep) (keep_cfg k) 0 false [] (keep_start mate rep k rows).
Proof. intros. left. split; [reflexivity|]. exists rows. reflexivity. Qed.
Lemma keep_log : forall I mate rep k (rows : list I) (G : I -> Prop), Forall G rows -> forall e, In e (s_log (keep_start mate rep k rows)) -> Forall G (snd (fst e)).
Proof. intros I mate rep k rows G H e He. assert (E : s_log (keep_start mate rep k rows) = [(false, rows, mkRes (map (fun _ => 0) rows) (map (fun _ => 0) rows) None None)]) by reflexivity. rewrite E in He. destruct He as [<-|[]]. exact H. Qed.

(** Bounds [0,1] x [-1,1], the parents as crossover, and mutation draws that hit the bounds. *)
Definition keep_cross (k : nat) (p : pop (list (option R)) nat nat unit unit) (par : option (list Z)) : res (list (list (option R))) := match p_ind p with Some l => Ok l | None => Err TypeError end.
Example keep_bounds_met : forall ks, let lbs := [0; -1]%R in let ubs := [1; 1]%R in let dm := fun _ i j => (/ 2, IZR (Z.of_nat (i + j)))%R in
  let w := keep_world (fun k p par => bind (keep_cross k p par) (bp_do 1 20 (dm k) lbs ubs)) (fun x => x) in let rows := [[Some (/ 2)%R; None]; [Some 1%R; Some (-1)%R]] in
  everywhere (boxed lbs ubs) (keep_cfg KDecomposition) (ssession (fun a b => Nat.ltb a b) w (keep_cfg KDecomposition) (keep_start (w_mate w) (fun x => x) KDecomposition rows) ks).
Proof.
  intros ks lbs ubs dm w rows.
  assert (Hb : bounds_ok lbs ubs). { split; [reflexivity|]. intros [|[|j]] l v Hl Hv; cbn in Hl, Hv; try (injection Hl as <-; injection Hv as <-; lra). destruct j; discriminate. }
  apply (C136_bounds _ _ _ _ _ w (keep_cfg KDecomposition) 0 false lbs ubs 1%R 20%R keep_cross dm _ [] ks Hb); [reflexivity|auto|apply keep_honest|apply keep_constructed| |intros ? ? ? ? []].
  apply keep_log. apply Forall_cons; [|apply Forall_cons; [|apply Forall_nil]]; (split; [reflexivity|]); intros [|[|j]] l v x Hl Hv Hx; cbn in Hl, Hv, Hx;
    try (injection Hl as <-; injection Hv as <-; injection Hx as <-; first [left; reflexivity|right; eexists; split; [reflexivity|lra]]); destruct j; discriminate.
Qed.
(** MOEA/D with repair, and operators that leave the bounds [0,1]: the run evaluates 1, the bound, and reports it. *)
Definition far_mate (k : nat) (p : pop (list gene) nat nat unit unit) (par : option (list Z)) : res (list (list gene)) := Ok [[Some 5%Q]; [Some (-5)%Q]].
Definition far_run (r : bool) := ssession (fun a b => Nat.ltb a b) (keep_world far_mate (repair [0%Q] [1%Q])) (keep_cfg (KMoead 2 r)) (keep_start far_mate (repair [0%Q] [1%Q]) (KMoead 2 r) [[Some (1 # 2)]; [None]]%Q) [SCall CStart; SCall CIterate].
Example keep_moead_met : everywhere (boxed_q [0%Q] [1%Q]) (keep_cfg (KMoead 2 true)) (far_run true) /\ p_ind (s_pop (far_run true)) = Some [[Some 1%Q]; [Some 1%Q]] /\ p_ind (s_pop (far_run false)) = Some [[Some 5%Q]; [Some 5%Q]].
Proof.
  split; [|split; reflexivity].
  apply (C136_moead_repair _ _ _ _ _ (keep_world far_mate (repair [0%Q] [1%Q])) (keep_cfg (KMoead 2 true)) 0 false [0%Q] [1%Q] 2 _ []); [reflexivity|reflexivity| |reflexivity| |apply keep_honest|apply keep_constructed| |intros ? ? ? ? []].
  - intros [|[|j]] l v Hl Hv; cbn in Hl, Hv; try discriminate. injection Hl as <-. injection Hv as <-. discriminate.
  - intros k p par rows x E Hx. cbn in E. injection E as <-. destruct Hx as [<-|[<-|[]]]; reflexivity.
  - apply keep_log. apply Forall_cons; [|apply Forall_cons; [|apply Forall_nil]]; (split; [reflexivity|]); intros [|[|j]] l v x Hl Hv Hx; cbn in Hl, Hv, Hx; try discriminate; injection Hl as <-; injection Hv as <-; injection Hx as <-;
      first [left; reflexivity|right; eexists; split; [reflexivity|split; discriminate]].
Qed.
(** Bits: three of them, mating all rows in order. *)
Definition bit_ids (k : nat) (p : pop (list Q) nat nat unit unit) (par : option (list Z)) : list Z := match p_ind p with Some l => map Z.of_nat (seq 0 (length l)) | None => [] end.
Definition bit_mate (k : nat) (p : pop (list Q) nat nat unit unit) (par : option (list Z)) : res (list (list Q)) :=
  match p_ind p with None => Err TypeError | Some l => bind (sp_do (fun _ => 1) l (bit_ids k p par)) (fun m => Ok (sp_mut (fun i => i mod 3) 0 m)) end.
Definition bit_run ks := ssession (fun a b => Nat.ltb a b) (keep_world bit_mate (fun x => x)) (keep_cfg (KIndicator 2)) (keep_start bit_mate (fun x => x) (KIndicator 2) [[0; 1; 1]; [1; 0; 0]]%Q) ks.
Example keep_binary_met : (forall ks, everywhere (binary 3) (keep_cfg (KIndicator 2)) (bit_run ks)) /\ map (fun e => snd (fst e)) (firstn 2 (s_log (bit_run [SCall CIterate]))) = [[[0; 1; 1]; [1; 0; 0]]; [[1; 0; 0]; [1; 0; 1]]]%Q.
Proof.
  split; [|reflexivity]. intros ks.
  apply (C136_binary nat nat unit unit (fun a b => Nat.ltb a b) (keep_world bit_mate (fun x => x)) (keep_cfg (KIndicator 2)) 0 false 3 (fun _ _ => 1) (fun _ i => i mod 3) bit_ids _ []);
    [intros k i; apply Nat.mod_upper_bound; lia|reflexivity|auto|apply keep_honest|apply keep_constructed| |intros ? ? ? ? []].
  apply keep_log. apply Forall_cons; [|apply Forall_cons; [|apply Forall_nil]]; (split; [reflexivity|]); intros x Hx; cbn in Hx; intuition.
Qed.
(** Networks of two nodes with one input each; the first two are mated, drawing no changes. *)
Definition net_mate (k : nat) (p : pop (list (list Q)) nat nat unit unit) (par : option (list Z)) : res (list (list (list Q))) :=
  match p_ind p with Some (a :: b :: l) => evonn_do 0 1 (a :: b :: l) (fun _ => mkNN (fun _ => true) (fun _ _ => None) (fun _ _ => None)) (Ids2 [(0, 1)]) | _ => Err IndexError end.
Definition net_run ks := ssession (fun a b => Nat.ltb a b) (keep_world net_mate (fun x => x)) (keep_cfg KTournament) (keep_start net_mate (fun x => x) KTournament [[[1]; [2]]; [[3]; [4]]]%Q) ks.
Example keep_networks_met : (forall ks, everywhere (shaped 2 1) (keep_cfg KTournament) (net_run ks)) /\ p_ind (s_pop (net_run [SCall CIterate])) <> None.
Proof.
  split; [|discriminate]. intros ks.
  apply (C136_networks nat nat unit unit (fun a b => Nat.ltb a b) (keep_world net_mate (fun x => x)) (keep_cfg KTournament) 0 false 2 1 _ []); [|auto|apply keep_honest|apply keep_constructed| |intros ? ? ? ? []].
  - intros k p par rows E. cbn [w_mate keep_world] in E. unfold net_mate in E. destruct (p_ind p) as [[|a [|b l]]|]; try discriminate. eexists _, _, _, _, _. split; [reflexivity|]. split; [|split; [|split; [|exact E]]]; [lia|lia|].
    intros x y [X|[]]. injection X as <- <-. cbn. lia.
  - apply keep_log. apply Forall_cons; [|apply Forall_cons; [|apply Forall_nil]]; (split; [reflexivity|]); intros x Hx; cbn in Hx; intuition (subst; reflexivity).
Qed.
