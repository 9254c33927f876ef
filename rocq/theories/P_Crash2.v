(** Proofs about generations whose evaluation raises. *)
From Verif Require Import Base M_Population Spec_Population P_Population M_Archive P_Archive M_Run Spec_Run P_Run P_Run2 P_Run3 Spec_RunSel P_RunSel P_Crash Spec_Crash.
Open Scope nat_scope.

Section P.
Context {I O F C U : Type} (dom : F -> F -> bool) (w : world I O F C U) (c : cfg).
Notation pop := (pop I O F C U).
Notation st := (st I O F C U).
Notation member := (member I O F C U).

Lemma untouched_ticks (s : st) n : untouched s (Nat.iter n tick s).
Proof. induction n as [|n IH]; [unfold untouched; auto 10|]. cbn. exact IH. Qed.

(** Decomposition. *)
Lemma dec_raises s off e : w_mate w (s_clock s) (s_pop s) None = Ok off -> w_fails w (S (s_clock s)) (c_surrogates c) off = Some e ->
  exists s', dec_gen dom w c s = (s', Err e) /\ untouched s s'.
Proof.
  intros Hm Hf. unfold dec_gen, andthen, ask. rewrite Hm. unfold do_add. cbn [tick s_clock]. rewrite Hf. eexists. split; [reflexivity|]. apply (untouched_ticks s 2).
Qed.

(** MOEA/D. *)
Variables (nc : nat) (u : bool) (ok : F -> Prop).
Hypothesis Hw : honest nc u w.
Hypothesis Hs : steady w.
Hypothesis Hf : fitness_ok ok w.
Lemma never_honest : honest nc u (never_raising w).
Proof. exact Hw. Qed.
Lemma never_steady : steady (never_raising w).
Proof. destruct Hs as [A B D]. constructor; [exact A|exact B|exact D]. Qed.
Lemma never_fitness : fitness_ok ok (never_raising w).
Proof. exact Hf. Qed.
Lemma never_broke (s : st) : broke (never_raising w) s -> False.
Proof. intros (k & b & rows & e & H & _). discriminate. Qed.
Lemma sub_raises n N ur i ms s s' e : moead_contract w nc u ok n N -> 1 <= N -> i < n -> length ms = N -> At c nc u ok ms s -> moead_sub dom w c ur i s = (s', Err e) -> 
  untouched s s' /\ exists off, w_fails w (S (S (s_clock s))) (c_surrogates c) [off] = Some e.
Proof.
  intros Hc H1 Hi Hl HA E. assert (Hne : ms <> []) by (intros ->; cbn in Hl; lia). pose proof Hc as [Hp _]. destruct (Hp (s_clock s) i Hi) as (par & P1 & P2 & P3).
  destruct (mate_of w c nc u ok Hs ms s (S (s_clock s)) (Some par) Hne HA) as (o & rows & Em); [intros zs X; injection X as <-; rewrite Hl; auto|].
  set (off := if ur then w_repair w o else o). destruct (w_fails w (S (S (s_clock s))) (c_surrogates c) [off]) as [e'|] eqn:Ef.
  - unfold moead_sub, andthen, ask in E. rewrite P1 in E. cbn [tick s_clock s_pop] in E. rewrite Em in E. fold off in E. unfold do_add in E. cbn [tick s_clock] in E. rewrite Ef in E. injection E as <- <-.
    split; [apply (untouched_ticks s 3)|eauto].
  - exfalso. assert (E0 : moead_sub dom (never_raising w) c ur i s = (s', Err e)).
    { unfold moead_sub in E |- *. unfold andthen at 1 in E. unfold andthen at 1. unfold ask at 1 in E. unfold ask at 1. cbn [never_raising w_parents]. rewrite P1 in *.
      unfold andthen at 1 in E. unfold andthen at 1. unfold ask at 1 in E. unfold ask at 1. cbn [never_raising w_mate tick s_clock s_pop] in *. rewrite Em in *. cbv zeta in E |- *. cbn [never_raising w_repair].
      fold off in E |- *. unfold andthen at 1 in E. unfold andthen at 1. unfold do_add at 1 in E. unfold do_add at 1. cbn [never_raising w_fails tick s_clock] in *. rewrite Ef in E. exact E. }
    pose proof (T_sub dom (never_raising w) c nc u ok never_honest never_steady never_fitness (fun _ => False) n N ur i ms (fun s0 _ H => never_broke s0 H) Hc H1 Hi Hl s HA) as T. rewrite E0 in T. exact T.
Qed.
Lemma subs_raises n N ur : moead_contract w nc u ok n N -> 1 <= N -> forall is ms s s' e, (forall i, In i is -> i < n) -> length ms = N -> At c nc u ok ms s ->
  moead_subs dom w c ur is s = (s', Err e) -> exists is1 i is2 s1, is = is1 ++ i :: is2 /\ moead_subs dom w c ur is1 s = (s1, Ok tt) /\ untouched s1 s' /\
    exists off, w_fails w (S (S (s_clock s1))) (c_surrogates c) [off] = Some e.
Proof.
  intros Hc H1. induction is as [|i is IH]; intros ms s s' e Hi Hl HA E; [discriminate|]. cbn [moead_subs] in E. unfold andthen in E. destruct (moead_sub dom w c ur i s) as [s1 [[]|e1]] eqn:E1.
  - pose proof (T_sub dom w c nc u ok Hw Hs Hf (fun _ => True) n N ur i ms (fun s0 _ H => Logic.I) Hc H1 (Hi i (or_introl eq_refl)) Hl s HA) as T. rewrite E1 in T. destruct T as (ms1 & HA1 & Hl1).
    destruct (IH ms1 s1 s' e) as (is1 & j & is2 & s2 & A1 & A2 & A3 & A4); auto; [intros x Hx; apply Hi; right; auto|]. exists (i :: is1), j, is2, s2. split; [cbn; congruence|]. split; auto.
    cbn [moead_subs]. unfold andthen. rewrite E1. exact A2.
  - injection E as <- <-. destruct (sub_raises n N ur i ms s s1 e1) as [A1 A2]; auto; [apply Hi; left; auto|]. exists [], i, is, s. auto.
Qed.

(** Indicator-based algorithms. *)
Lemma ind_raises lo n ms s s' e old : worst_in_range w nc u -> picks w nc u ok lo -> 1 <= lo <= n -> lo <= length ms -> At c nc u ok ms s -> p_ind (s_pop s) = Some old -> ind_gen w n s = (s', Err e) ->
  exists kept, p_ind (s_pop s') = Some kept /\ length kept = Nat.min n (length old) /\ incl kept old /\ (NoDup old -> NoDup kept) /\ s_log s' = s_log s /\ counts_of s' = counts_of s /\ s_nd s' = s_nd s.
Proof.
  intros Hz Hpk Hn Hlo HA Ho E. assert (Hne : ms <> []) by (intros ->; cbn in Hlo; lia). unfold ind_gen in E.
  assert (Er : rows_count s = Some (length ms)). { destruct HA as (((Ri & _) & _) & _). unfold rows_count. rewrite Ri. cbn [option_map]. rewrite map_length. auto. }
  rewrite Er in E. unfold andthen at 1 in E.
  pose proof (T_env w c nc u ok (fun _ => False) n Hz ltac:(lia) (length ms) ms Hne ltac:(lia) s HA) as T. pose proof (q_env w (length ms) n s) as Q.
  destruct (env_sel w (length ms) n s) as [s1 [[]|e1]] eqn:Ee; [|contradiction]. cbn [fst] in Q. destruct T as (ms1 & HA1 & Hl1). assert (Hlo1 : lo <= length ms1) by lia. assert (Hne1 : ms1 <> []) by (intros ->; cbn in Hlo1; lia).
  destruct (env_pop w n _ _ _ _ Ee Ho) as (kept & K1 & K2 & K3 & K4 & K5).
  assert (Nd : s_nd s1 = s_nd s).
  { clear -Ee. revert s Ee. induction (length ms) as [|f IH]; intros s; cbn [env_sel]; destruct (rows_count s) as [k|]; try discriminate; destruct (Nat.ltb n k); try discriminate; try (intros X; injection X as <-; reflexivity).
    unfold andthen, ask, do_delete. destruct (delete _ _) as [p [[]|]]; [|discriminate]. intros X. apply IH in X. exact X. }
  assert (UT : untouched s1 s').
  { destruct HA1 as (B1 & B2 & B3). destruct (Hpk (s_clock s1) (s_pop s1) ms1 B1 B2 Hlo1) as (sel & S0 & S1 & S2).
    destruct (mate_of w c nc u ok Hs ms1 s1 (S (s_clock s1)) (Some sel) Hne1 (conj B1 (conj B2 B3))) as (o & rows & Em); [intros zs X; injection X as <-; split; [intros ->; cbn in S1; lia|auto]|].
    unfold andthen at 1 in E. unfold ask at 1 in E. rewrite S0 in E. unfold andthen at 1 in E. unfold ask at 1 in E. cbn [tick s_clock s_pop] in E. rewrite Em in E. unfold andthen at 1 in E.
    unfold do_add at 1 in E. cbn [tick s_clock] in E. destruct (w_fails w (S (S (s_clock s1))) false (o :: rows)) as [e'|]; [injection E as <- <-; apply (untouched_ticks s1 3)|]. exfalso.
    assert (HA2 : At c nc u ok ms1 (tick (tick s1))) by (split; auto).
    pose proof (T_take w c nc u ok Hw Hf (fun _ => False) ms1 false (OBatch (o :: rows)) (o :: rows) eq_refl ltac:(discriminate) (tick (tick s1)) HA2) as T. destruct (take_results w false _ _ _) as [s2 [r|e2]]; [discriminate|exact T]. }
  destruct UT as (V1 & V2 & V3 & V4 & V5 & V6 & V7 & V8). exists kept. rewrite V1. split; auto. split; auto. split; auto. split; auto. split; [congruence|]. split; [|congruence].
  rewrite <- Q. unfold counts_of. congruence.
Qed.

(** TournamentEA: once there is no population, there never is one again. *)
Definition lost (s : st) : Prop := p_ind (s_pop s) = None.
Lemma tour_lost s : lost s -> match tour_gen w s with (s', Ok _) => False | (s', Err _) => lost s' end.
Proof.
  intros H. unfold tour_gen. unfold andthen, ask. destruct (w_select w (s_clock s) (s_pop s) 0) as [sel|e]; [|exact H].
  destruct (w_mate w (s_clock (tick s)) (s_pop (tick s)) (Some sel)) as [off|e]; [|exact H]. unfold rows_count. cbn [tick s_pop]. rewrite H. exact H.
Qed.
Lemma reeval_lost g (s : st) : lost s -> lost (fst (do_reeval g s)).
Proof. unfold lost, do_reeval, reevaluate. destruct (p_obj (s_pop s)); intros H; exact H. Qed.
Lemma iterate_lost s : c_kind c = KTournament -> lost s -> match iterate dom w c s with (s', Ok _) => lost s' /\ (c_n_gen_per_iter c <= 0 \/ check_FE c s = false)%Z | (s', Err _) => lost s' end.
Proof.
  intros Hk H. unfold iterate. unfold andthen at 1, ask at 1. destruct (w_prefs w (s_clock s) (s_pop s)) as [g|e]; [|exact H]. unfold andthen at 1.
  assert (H1 : lost (fst ((match g with None => upd (fun s => s) | Some g => do_reeval g end) (tick s))) /\ check_FE c (fst ((match g with None => upd (fun s => s) | Some g => do_reeval g end) (tick s))) = check_FE c s).
  { destruct g as [g|]; [|split; [exact H|reflexivity]]. split; [apply reeval_lost; exact H|]. unfold do_reeval. destruct (reevaluate _ _). reflexivity. }
  destruct ((match g with None => upd (fun s => s) | Some g => do_reeval g end) (tick s)) as [s1 [[]|e]]; [|exact (proj1 H1)]. cbn [fst] in H1. destruct H1 as [H1 H2].
  unfold andthen at 1, upd at 1. unfold andthen at 1, ask at 1. set (s2 := if c_keep_archive c then snap s1 else s1). assert (L2 : lost s2 /\ check_FE c s2 = check_FE c s) by (unfold s2; destruct (c_keep_archive c); auto).
  clearbody s2. destruct L2 as [L2 F2]. destruct (w_adapt w (s_clock s2) (s_pop s2)) as [[]|e]; [|exact L2]. unfold andthen at 1, upd at 1. unfold andthen at 1. set (s3 := reset_gen (tick s2)).
  assert (L3 : lost s3 /\ check_FE c s3 = check_FE c s) by auto. destruct L3 as [L3 F3]. cbn [gen_loop]. unfold continue_iteration. rewrite F3. destruct (Z.ltb_spec (s_gen_in_iter s3) (c_n_gen_per_iter c)) as [Hlt|Hge].
  - destruct (check_FE c s) eqn:Fe; cbn [andb].
    + unfold andthen at 1. unfold next_gen. rewrite Hk. pose proof (tour_lost s3 L3) as T. destruct (tour_gen w s3) as [s4 [x|e]]; [contradiction|exact T].
    + unfold upd. split; [exact L3|auto].
  - cbn [andb]. unfold upd. split; [exact L3|left]. unfold s3 in Hge. cbn in Hge. lia.
Qed.
Lemma start_lost s : lost s -> lost (fst (start dom c s)).
Proof. unfold lost, start. intros H. destruct (c_save_nd c); auto. rewrite H. auto. Qed.
Lemma session_lost ks : c_kind c = KTournament -> forall s, lost s -> lost (session dom w c s ks).
Proof.
  intros Hk. induction ks as [|k ks IH]; intros s H; [exact H|]. apply IH. destruct k; cbn [do_call]; [apply start_lost; auto|].
  pose proof (iterate_lost s Hk H) as T. destruct (iterate dom w c s) as [s' [x|e]]; [apply T|exact T].
Qed.
Lemma tour_raises ms s sel off e : holds nc u (s_pop s) ms -> w_select w (s_clock s) (s_pop s) 0 = Ok sel -> w_mate w (S (s_clock s)) (s_pop s) (Some sel) = Ok off ->
  w_fails w (S (S (s_clock s))) false off = Some e -> exists s', tour_gen w s = (s', Err e) /\ lost s' /\ s_log s' = s_log s /\ counts_of s' = counts_of s.
Proof.
  intros (R & Hnc & Hu) H1 H2 H3. unfold tour_gen, andthen, ask. rewrite H1. cbn [tick s_clock s_pop]. rewrite H2. pose proof R as (Ri & _). unfold rows_count. cbn [tick s_pop]. rewrite Ri. cbn [option_map]. rewrite map_length.
  unfold do_delete. cbn [tick s_pop]. destruct (delete_ok (s_pop s) ms (map Z.of_nat (seq 0 (length ms))) R) as (p & E & R' & _ & _).
  { apply in_range_nats. intros i Hi. apply in_seq in Hi. lia. }
  rewrite E. unfold do_add. cbn [set_pop tick s_clock]. rewrite H3. eexists. split; [reflexivity|]. split; [|split; reflexivity].
  assert (X : spec_drop (map Z.of_nat (seq 0 (length ms))) ms = []).
  { unfold spec_drop, select_pos. apply select_none. intros i Hi. apply negb_false_iff. apply listed_nats; [intros j Hj; apply in_seq in Hj; lia|lia|apply in_seq; lia]. }
  rewrite X in R'. exact R'.
Qed.
End P.
