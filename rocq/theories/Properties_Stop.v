(** C135: a run that is stopped (Ctrl-C) between two statements of iterate() and then continued with the same object. *)
From Coq Require Import QArith Lia.
From Verif Require Import Base Pareto M_Population Spec_Population P_Population M_Archive P_Archive M_Run Spec_Run P_Run P_Run2 P_Run3 Properties_Run M_Stop P_Stop P_Stop2 P_Stop3.
Import ListNotations.
Open Scope nat_scope.

Section T.
Context {I O F C U : Type} (dom : F -> F -> bool) (w : world I O F C U) (c : cfg) (nc : nat) (u : bool).

(** C135. The statement lists are those of iterate(): not stopped, they do the same; a stop later than the last statement is no stop. *)
Theorem C135_programs : forall s, run_all (iterate_prog dom w c) s = iterate dom w c s /\ exists n, forall m, n <= m -> stopped m (iterate_prog dom w c) s = fst (iterate dom w c s).
Proof.
  intros s. split; [apply run_iterate|]. rewrite <- run_iterate. generalize (iterate_prog dom w c). intros p. revert s. induction p as [a|B m k IH]; intros s.
  - exists 0. intros [|m] _; reflexivity.
  - cbn [run_all]. destruct (m s) as [s' [b|e]] eqn:Em.
    + destruct (IH b s') as [n Hn]. exists (S n). intros [|j] Hj; [lia|]. cbn [stopped]. rewrite Em. apply Hn. lia.
    + exists 1. intros [|j] Hj; [lia|]. cbn [stopped]. rewrite Em. reflexivity.
Qed.

(** C135. Whatever the algorithm and however its object was made, after any sequence of start(), iterate() and stopped iterate() calls: every row of the population, the archive, the snapshots and the
    result of end() was evaluated, with the objectives and fitness it is reported with. *)
Theorem C135_data_intact : forall ops0 s0 (ks : list scall), honest nc u w -> constructed w c nc u ops0 s0 ->
  let s := ssession dom w c s0 ks in let ok := vouched (evaluated ops0 ++ evals (s_log s)) (refits w ops0) in
  answered w (s_log s) /\ pop_ok ok (s_pop s) /\ (forall a, s_nd s = Some a -> table_ok ok (a_ind a) (a_obj a) (a_fit a)) /\
  (forall g it q, In (g, (it, q)) (s_snaps s) -> pop_ok ok q) /\
  (forall (V : Type) (dom' : V -> V -> bool) (f : O -> V) s' is os, finish c dom' f s = (s', Ok (is, os)) ->
     length os = length is /\ forall j i o, nth_error is j = Some i -> nth_error os j = Some o -> exists f0, ok i o f0).
Proof.
  intros ops0 s0 ks Hw Hc s ok.
  assert (H0 : inv w nc u ops0 s0).
  { destruct Hc as [(-> & rows & ->)|(-> & A & B & D)]; [apply inv_on_problem; exact Hw|apply inv_on_population; auto]. }
  pose proof (ssession_inv dom w c nc u Hw ops0 ks s0 H0) as Hs. fold s in Hs. destruct Hs as (A & B & D & E).
  split; [apply B|]. assert (P : pop_ok ok (s_pop s)) by (rewrite A; apply (run_pop_ok w nc u ops0); exact B). split; [exact P|]. split; [|split].
  - intros a Ha. destruct (D a Ha) as (rows & R1 & R2 & R3 & R4). rewrite R1, R2, R3. split; [now rewrite !map_length|]. split; [now rewrite !map_length|].
    intros j i o f Hi Ho Hf. rewrite nth_error_map in Hi, Ho, Hf. unfold row in Hi, Ho, Hf. destruct (nth_error rows j) as [r|] eqn:Er; [|discriminate Hi]. cbn in Hi, Ho, Hf. injection Hi as <-. injection Ho as <-. injection Hf as <-.
    apply R4. eapply nth_error_In; eauto.
  - intros g it q Hq. destruct (E g it q Hq) as (ops & -> & G). apply (run_pop_ok w nc u ops0). exact G.
  - intros V dom' f s' is os Hf. unfold finish in Hf. destruct (p_ind (s_pop s)) as [xi|] eqn:E1; [|discriminate]. destruct (p_obj (s_pop s)) as [xo|] eqn:E2; [|discriminate].
    destruct P as [P|(is' & os' & fs' & P1 & P2 & P3 & L1 & L2 & P4)]; [congruence|]. rewrite E1 in P1. rewrite E2 in P2. injection P1 as <-. injection P2 as <-.
    unfold end_result in Hf. injection Hf as _ H1 H2. subst is os. destruct (zip3 xi xo fs' L1 L2) as (rows & -> & -> & ->). rewrite !P_Run.mask_sel_map', !map_length. split; [reflexivity|].
    intros j i o Hi Ho. rewrite nth_error_map in Hi, Ho. unfold row in Hi, Ho. destruct (nth_error (mask_sel _ rows) j) as [r|] eqn:Er; [|discriminate]. injection Hi as <-. injection Ho as <-.
    apply nth_error_In, P_Run.mask_sel_incl, In_nth_error in Er. destruct Er as [t Ht]. exists (r_f r). apply (P4 t); apply map_nth_error; exact Ht.
Qed.

(** C135. Where the counters stand when an iterate() is stopped: the evaluations of its complete generations are counted; of the generation that was running ([l2]) some or none, in MOEA/D all but at most
    one; never more than were made. The iteration is not counted, and no more generations than allowed (n_gen_per_iter; with a budget no generation begun after it was exceeded). *)
Theorem C135_interrupted_counts : forall n s, let s' := stopped n (iterate_prog dom w c) s in
  iterate dom w c s = (s', Ok tt) \/
  (exists l1 l2, s_log s' = s_log s ++ l1 ++ l2 /\ one_generation c l2 /\ (forall e, In e l1 -> fst (fst e) = by_surrogate c) /\
    (real_evals l1 <= s_fe s' - s_fe s <= real_evals l1 + real_evals l2)%Z /\ (forall m ur, c_kind c = KMoead m ur -> (real_evals l1 + real_evals l2 - 1 <= s_fe s' - s_fe s)%Z) /\
    s_iter s' = s_iter s /\ (0 <= s_gen s' - s_gen s <= Z.max 0 (c_n_gen_per_iter c))%Z) /\
  (c_total_fe c <> 0%Z -> s_log s' = s_log s \/ exists m1 m2, s_log s' = s_log s ++ m1 ++ m2 /\ (s_fe s + real_evals m1 <= c_total_fe c)%Z /\ one_generation c m2).
Proof.
  intros n s s'. destruct (stop_counts dom w c n s) as [(l1 & l2 & A & B & D & E & G & H & K & L)|H]; [|left; exact H]. right. cbn [counts_of n_fe n_log n_gen n_gi n_it] in *. fold s' in A, E, G, H, K, L.
  split; [|exact K]. exists l1, l2. split; [exact A|]. split; [exact D|]. split; [exact B|]. split; [lia|]. split; [|split; [exact E|exact H]]. intros m ur Hk. rewrite Hk in L. lia.
Qed.

(** C135. On the whole, with a problem evaluated directly: however often a run is stopped and continued, the reported number of function evaluations is never more than were made, and in MOEA/D at most
    one less per call. *)
Theorem C135_count_of_a_session : forall rows (ks : list scall), c_surrogates c = false ->
  let s := ssession dom w c (on_problem w c nc rows) ks in
  (Z.of_nat (length rows) <= s_fe s <= real_evals (s_log s))%Z /\ (forall m ur, c_kind c = KMoead m ur -> (real_evals (s_log s) - Z.of_nat (length ks) <= s_fe s)%Z).
Proof.
  intros rows ks Hsu.
  assert (G : forall ks (s : st I O F C U) d, (Z.of_nat (length rows) <= s_fe s <= real_evals (s_log s))%Z -> (forall m ur, c_kind c = KMoead m ur -> (real_evals (s_log s) - d <= s_fe s)%Z) ->
    let s' := ssession dom w c s ks in (Z.of_nat (length rows) <= s_fe s' <= real_evals (s_log s'))%Z /\ (forall m ur, c_kind c = KMoead m ur -> (real_evals (s_log s') - (d + Z.of_nat (length ks)) <= s_fe s')%Z)).
  { clear ks. assert (St : forall n (s : st I O F C U) d, (Z.of_nat (length rows) <= s_fe s <= real_evals (s_log s))%Z -> (forall m ur, c_kind c = KMoead m ur -> (real_evals (s_log s) - d <= s_fe s)%Z) ->
      let s' := stopped n (iterate_prog dom w c) s in (Z.of_nat (length rows) <= s_fe s' <= real_evals (s_log s'))%Z /\ (forall m ur, c_kind c = KMoead m ur -> (real_evals (s_log s') - (d + 1) <= s_fe s')%Z)).
    { intros n s d H1 H2 s'. destruct (C135_interrupted_counts n s) as [H|[(l1 & l2 & L1 & _ & _ & L4 & L5 & _) _]].
      - fold s' in H. destruct (C104_iterate_counts dom w c _ _ H) as (lg & L1 & (L2 & _) & _). pose proof (real_evals_nonneg lg). rewrite L1, real_evals_app. split; [lia|]. intros m ur Hk. specialize (H2 m ur Hk). lia.
      - fold s' in L1, L4, L5. pose proof (real_evals_nonneg l1). rewrite L1, !real_evals_app. split; [lia|]. intros m ur Hk. specialize (H2 m ur Hk). specialize (L5 m ur Hk). lia. }
    induction ks as [|k ks IH]; intros s d H1 H2.
    - cbn [ssession fold_left length]. split; [exact H1|]. intros m ur Hk. specialize (H2 m ur Hk). lia.
    - change (ssession dom w c s (k :: ks)) with (ssession dom w c (do_scall dom w c s k) ks). cbn [length]. replace (d + Z.of_nat (S (length ks)))%Z with (d + 1 + Z.of_nat (length ks))%Z by lia.
      assert (Hs : let s' := do_scall dom w c s k in (Z.of_nat (length rows) <= s_fe s' <= real_evals (s_log s'))%Z /\ (forall m ur, c_kind c = KMoead m ur -> (real_evals (s_log s') - (d + 1) <= s_fe s')%Z)).
      { destruct k as [[|]|n]; cbn [do_scall do_call].
        - assert (Hq : s_fe (fst (start dom c s)) = s_fe s /\ s_log (fst (start dom c s)) = s_log s).
          { unfold start. destruct (c_save_nd c); [|split; reflexivity]. destruct (p_ind _); [|split; reflexivity]. destruct (p_obj _); [|split; reflexivity]. destruct (p_fit _); split; reflexivity. }
          destruct Hq as [Hq1 Hq2]. cbv zeta. rewrite Hq1, Hq2. split; [exact H1|]. intros m ur Hk. specialize (H2 m ur Hk). lia.
        - destruct (run_stopped (iterate_prog dom w c) s) as [n Hn]. rewrite run_iterate in Hn. rewrite <- Hn. apply St; auto.
        - apply St; auto. }
      destruct Hs as [Hs1 Hs2]. apply (IH _ (d + 1)%Z); auto. }
  apply (G ks (on_problem w c nc rows) 0%Z).
  - unfold on_problem, take_results. rewrite Hsu. destruct (add _ _ _) as [p out]. cbn [fst add_fe set_pop logged tick s_fe s_log app]. rewrite real_evals_one. lia.
  - intros m ur _. unfold on_problem, take_results. rewrite Hsu. destruct (add _ _ _) as [p out]. cbn [fst add_fe set_pop logged tick s_fe s_log app]. rewrite real_evals_one. lia.
Qed.

(** C135. A decomposition-based generation that would have succeeded, stopped after [j] of its eight statements: what the population, the log, the counters and the archive are. The offspring are in the
    population from the second statement to the fifth, in the archive from the third, and counted only by the last. *)
Theorem C135_decomposition_stopped : forall s s' old, c_kind c = KDecomposition -> next_gen dom w c s = (s', Ok tt) -> p_ind (s_pop s) = Some old ->
  exists off r kept, p_ind (s_pop s') = Some kept /\ s_log s' = s_log s ++ [(c_surrogates c, off, r)] /\
  forall j, let t := stopped j (next_prog dom w c) s in
    p_ind (s_pop t) = Some (if Nat.ltb j 2 then old else if Nat.ltb j 5 then old ++ off else kept) /\
    s_log t = (if Nat.ltb j 2 then s_log s else s_log s') /\ s_nd t = (if Nat.ltb j 3 then s_nd s else s_nd s') /\
    s_gen t = (s_gen s + (if Nat.ltb j 6 then 0 else 1))%Z /\ s_gen_in_iter t = (s_gen_in_iter s + (if Nat.ltb j 7 then 0 else 1))%Z /\
    s_fe t = (s_fe s + (if Nat.ltb j 8 || c_surrogates c then 0 else Z.of_nat (length off)))%Z.
Proof.
  intros s s' old Hk H Ho. rewrite <- run_next in H. unfold next_prog in *. rewrite Hk in *. unfold dec_prog in *. cbn [run_all] in H.
  destruct (ask (fun k p => w_mate w k p None) s) as [s1 [off|e]] eqn:E1; [|discriminate].
  destruct (do_add w (c_surrogates c) (OBatch off) off s1) as [s2 [r|e]] eqn:E2; [|discriminate].
  destruct ((if c_save_nd c then do_archive dom off r else upd (fun s => s)) s2) as [s3 [x|e]] eqn:E3; [|discriminate].
  destruct (ask (fun k p => w_select w k p 0) s3) as [s4 [sel|e]] eqn:E4; [|discriminate].
  destruct (do_keep sel s4) as [s5 [[]|e]] eqn:E5; [|discriminate].
  pose (s6 := inc_gen s5). pose (s7 := inc_gi s6). pose (s8 := if c_surrogates c then s7 else add_fe s7 (Z.of_nat (length off))).
  assert (Hs' : s' = s8). { revert H. unfold upd at 1 2. rewrite run_one. unfold s8, s7, s6, count, upd. destruct (c_surrogates c); intros H; injection H as <-; reflexivity. }
  assert (E8 : (if c_surrogates c then upd (fun s => s) else count (length off)) s7 = (s8, Ok tt)) by (unfold s8, count, upd; destruct (c_surrogates c); reflexivity).
  pose proof E1 as F1. apply ask_ok in F1. destruct F1 as [F1 _]. pose proof E2 as F2. apply do_add_ok in F2. destruct F2 as (p2 & r0 & A1 & A2 & A3 & A4 & A5). pose proof E4 as F4. apply ask_ok in F4. destruct F4 as [F4 _].
  pose proof E5 as F5. apply do_keep_ok in F5. destruct F5 as (p5 & B1 & B2 & B3 & B4).
  assert (F3 : s_pop s3 = s_pop s2 /\ s_log s3 = s_log s2). { destruct x. destruct (c_save_nd c); [apply do_archive_ok in E3; destruct E3 as (a & _ & _ & X1 & X2)|apply upd_ok in E3; subst s3]; split; congruence. }
  destruct F3 as [C1 C2].
  assert (Q1 : counts_of s1 = counts_of s) by (rewrite F1; reflexivity).
  assert (Q2 : s_fe s2 = s_fe s1 /\ s_gen s2 = s_gen s1 /\ s_gen_in_iter s2 = s_gen_in_iter s1).
  { unfold do_add, take_results in E2. destruct (w_fails w (s_clock s1) (c_surrogates c) off); [discriminate|]. destruct (add _ _ _) as [pp out]. injection E2 as <- _. split; [|split]; reflexivity. }
  assert (Q3 : counts_of s3 = counts_of s2). { pose proof (q_archive dom off r s2) as X. pose proof (q_skip s2) as Y. destruct (c_save_nd c); rewrite E3 in *; auto. }
  assert (Q4 : counts_of s4 = counts_of s3) by (rewrite F4; reflexivity).
  assert (Q5 : counts_of s5 = counts_of s4). { pose proof (q_keep sel s4) as X. rewrite E5 in X. exact X. }
  unfold counts_of in Q1, Q3, Q4, Q5. injection Q1 as Q11 Q12 Q13 Q14 Q15. injection Q3 as Q31 Q32 Q33 Q34 Q35. injection Q4 as Q41 Q42 Q43 Q44 Q45. injection Q5 as Q51 Q52 Q53 Q54 Q55. destruct Q2 as (Q21 & Q22 & Q23).
  assert (P1 : s_pop s1 = s_pop s) by (rewrite F1; reflexivity). assert (N1 : s_nd s1 = s_nd s) by (rewrite F1; reflexivity). rewrite <- P1 in Ho.
  pose proof (add_ind _ _ _ _ _ _ A1 Ho) as P2. cbn [rows_of] in P2.
  assert (P4 : s_pop s4 = p2) by (rewrite F4; cbn [tick s_pop]; congruence). assert (N4 : s_nd s4 = s_nd s3) by (rewrite F4; reflexivity).
  rewrite P4 in B1. destruct (keep_ind _ _ _ _ B1 P2) as [_ P5]. set (kept := select_pos _ _) in P5.
  assert (Z8 : s_pop s8 = s_pop s5 /\ s_log s8 = s_log s5 /\ s_nd s8 = s_nd s5 /\ s_gen s8 = (s_gen s5 + 1)%Z /\ s_gen_in_iter s8 = (s_gen_in_iter s5 + 1)%Z /\
    s_fe s8 = (s_fe s5 + if c_surrogates c then 0 else Z.of_nat (length off))%Z).
  { unfold s8, s7, s6. destruct (c_surrogates c); cbn [inc_gen inc_gi add_fe s_pop s_log s_nd s_gen s_gen_in_iter s_fe]; (split; [reflexivity|]; split; [reflexivity|]; split; [reflexivity|]; split; [reflexivity|]; split; [reflexivity|]); lia. }
  destruct Z8 as (Z81 & Z82 & Z83 & Z84 & Z85 & Z86).
  exists off, r0, kept. rewrite Hs'. split; [congruence|]. split; [congruence|].
  intros j. destruct j as [|[|[|[|[|[|[|[|j]]]]]]]]; cbn [stopped]; rewrite ?E1, ?E2, ?E3, ?E4, ?E5; cbn [Nat.ltb Nat.leb orb].
  1-6: (split; [congruence|]; split; [congruence|]; split; [congruence|]; split; [lia|]; split; lia).
  - cbn [upd stopped]. change (inc_gen s5) with s6. unfold s6. cbn [inc_gen s_pop s_log s_nd s_gen s_gen_in_iter s_fe]. split; [congruence|]; split; [congruence|]; split; [congruence|]; split; [lia|]; split; lia.
  - cbn [upd stopped]. change (inc_gi (inc_gen s5)) with s7. unfold s7, s6. cbn [inc_gi inc_gen s_pop s_log s_nd s_gen s_gen_in_iter s_fe]. split; [congruence|]; split; [congruence|]; split; [congruence|]; split; [lia|]; split; lia.
  - change (upd inc_gen s5) with (s6, Ok tt : res unit). cbv iota beta. change (upd inc_gi s6) with (s7, Ok tt : res unit). cbv iota beta. unfold one. cbn [stopped]. rewrite E8. replace (stopped j (Ret tt) s8) with s8 by (destruct j; reflexivity).
    split; [congruence|]; split; [congruence|]; split; [congruence|]; split; [lia|]; split; [lia|]. rewrite Z86. destruct (c_surrogates c); lia.
Qed.

(** C135. A MOEA/D generation that would have succeeded, stopped [j] statements into subproblem [i] (eight statements each): sizes, evaluations, counter and archive. Between the third and the sixth
    statement the population has one row more than it had. *)
Theorem C135_moead_stopped : forall s s' old n ur, c_kind c = KMoead n ur -> next_gen dom w c s = (s', Ok tt) -> p_ind (s_pop s) = Some old -> old <> [] -> forall i j, i < n -> j < 8 ->
  let t := stopped (8 * i + j) (next_prog dom w c) s in exists l lg,
    p_ind (s_pop t) = Some l /\ length l = length old + (if Nat.leb 3 j && Nat.leb j 6 then 1 else 0) /\
    s_log t = s_log s ++ lg /\ length lg = i + (if Nat.ltb j 3 then 0 else 1) /\ s_nd t = s_nd (stopped (8 * i) (next_prog dom w c) s) /\
    s_fe t = (s_fe s + (if c_surrogates c then 0 else Z.of_nat i + (if Nat.ltb j 4 then 0 else 1)))%Z.
Proof.
  intros s s' old n ur Hk H Ho Hne i j Hi Hj. rewrite !(next_stop dom w c n ur Hk s s' _ H) by lia.
  unfold next_gen in H. rewrite Hk in H. unfold moead_gen in H. apply andthen_ok in H. destruct H as ([] & s1 & H1 & _).
  apply (subs_stop dom w c ur (seq 0 n) s s1 old H1 Ho Hne i j); [rewrite seq_length; exact Hi|exact Hj].
Qed.
(** C135. Refuted: the size of a MOEA/D population. A stop in the four places where the offspring has been appended and not yet removed leaves one row too many, and no later iterate() removes it. *)
Theorem C135_moead_size_refuted : forall s s' old n ur, c_kind c = KMoead n ur -> next_gen dom w c s = (s', Ok tt) -> p_ind (s_pop s) = Some old -> old <> [] -> forall i j, i < n -> 3 <= j <= 6 ->
  forall k s2, ran dom w c k (stopped (8 * i + j) (next_prog dom w c) s) s2 -> exists new, p_ind (s_pop s2) = Some new /\ length new = S (length old).
Proof.
  intros s s' old n ur Hk H Ho Hne i j Hi Hj k s2 Hr. destruct (C135_moead_stopped s s' old n ur Hk H Ho Hne i j Hi ltac:(lia)) as (l & lg & P1 & P2 & _).
  replace (Nat.leb 3 j && Nat.leb j 6) with true in P2 by (symmetry; apply andb_true_intro; split; apply Nat.leb_le; lia).
  destruct (ran_sized dom w c n ur (S (length old)) Hk ltac:(lia) k _ s2 Hr) as (new & N1 & N2); [exists l; split; [exact P1|lia]|]. exists new. auto.
Qed.
(** C135. ... whereas a stop anywhere else in a generation leaves the size right, for good. *)
Theorem C135_moead_size_partial : forall s s' old n ur, c_kind c = KMoead n ur -> next_gen dom w c s = (s', Ok tt) -> p_ind (s_pop s) = Some old -> old <> [] -> forall i j, i < n -> j < 8 -> ~ 3 <= j <= 6 ->
  forall k s2, ran dom w c k (stopped (8 * i + j) (next_prog dom w c) s) s2 -> exists new, p_ind (s_pop s2) = Some new /\ length new = length old.
Proof.
  intros s s' old n ur Hk H Ho Hne i j Hi Hj Hn k s2 Hr. destruct (C135_moead_stopped s s' old n ur Hk H Ho Hne i j Hi Hj) as (l & lg & P1 & P2 & _).
  replace (Nat.leb 3 j && Nat.leb j 6) with false in P2. 2: { symmetry. apply andb_false_iff. destruct (Nat.leb 3 j) eqn:A; [|auto]. destruct (Nat.leb j 6) eqn:B; [|auto]. apply Nat.leb_le in A, B. lia. }
  destruct (ran_sized dom w c n ur (length old) Hk ltac:(destruct old; [congruence|cbn; lia]) k _ s2 Hr) as (new & N1 & N2); [exists l; split; [exact P1|lia]|]. exists new. auto.
Qed.
(** C135. Refuted: going on. TournamentEA deletes the whole population before it adds the offspring: a stop between the two loses it, and whatever is called afterwards it stays lost (with no population
    there is nothing to select from, and every generation raises). *)
Theorem C135_tournament_refuted : forall s s', c_kind c = KTournament -> next_gen dom w c s = (s', Ok tt) -> forall ks,
  p_ind (s_pop (ssession dom w c (stopped 3 (next_prog dom w c) s) ks)) = None.
Proof. intros s s' Hk H ks. apply lost_session; [exact Hk|]. eapply tour_stop_lost; eauto. Qed.
End T.


(** ** The reference run of C102-C105, stopped. *)
Definition ref_w : world Z (list Q) (list Q) unit unit := ref_world ob plain (fun _ => None).
Definition stopped_run (k : kind) (n : nat) (more : list (@scall)) := ssession dominates ref_w (ref_cfg k false 0) (ref_on ob k) (SCall CStart :: SStop n :: more).
(** Six statements come before the first of a generation. Initial population 1, 5, 4; offspring 4, 8, 7; selected 1 and the last. *)
Example ex_stop_decomposition : map (fun j => shown (stopped_run KDecomposition (6 + j) [])) [1; 2; 3; 5; 8] =
  [(Some [1; 5; 4], Some [5], (3, 0, 0), [[1; 5; 4]]); (Some [1; 5; 4; 4; 8; 7], Some [5], (3, 0, 0), [[1; 5; 4]; [4; 8; 7]]); (Some [1; 5; 4; 4; 8; 7], Some [8; 7], (3, 0, 0), [[1; 5; 4]; [4; 8; 7]]);
   (Some [1; 7], Some [8; 7], (3, 0, 0), [[1; 5; 4]; [4; 8; 7]]); (Some [1; 7], Some [8; 7], (6, 1, 0), [[1; 5; 4]; [4; 8; 7]])]%Z.
Proof. vm_compute. reflexivity. Qed.
(** MOEA/D with three subproblems stopped in the first one, and after one more iterate() of two generations: the extra row 3 is still there and was never replaced. *)
Example ex_stop_moead : map (fun j => shown (stopped_run (KMoead 3 true) (6 + j) [])) [2; 3; 4; 6; 7] =
  [(Some [1; 5; 4], Some [5], (3, 0, 0), [[1; 5; 4]]); (Some [1; 5; 4; 3], Some [5], (3, 0, 0), [[1; 5; 4]; [3]]); (Some [1; 5; 4; 3], Some [5], (4, 0, 0), [[1; 5; 4]; [3]]);
   (Some [3; 5; 4; 3], Some [5], (4, 0, 0), [[1; 5; 4]; [3]]); (Some [3; 5; 4], Some [5], (4, 0, 0), [[1; 5; 4]; [3]])]%Z /\
  shown (stopped_run (KMoead 3 true) 9 [SCall CIterate]) = (Some [5; 7; 7; 3], Some [7; 7], (9, 2, 1), [[1; 5; 4]; [3]; [3]; [5]; [5]; [5]; [7]; [7]])%Z.
Proof. split; vm_compute; reflexivity. Qed.
(** The hypotheses of C135_moead_size_refuted, of C135_decomposition_stopped and of C135_tournament_refuted. *)
Example ex_stop_hypotheses : forall k, k = KDecomposition \/ k = KMoead 3 true \/ k = KTournament -> exists s s', fst (start dominates (ref_cfg k false 0) (ref_on ob k)) = s /\
  next_gen dominates ref_w (ref_cfg k false 0) s = (s', Ok tt) /\ p_ind (s_pop s) = Some [1; 5; 4]%Z /\
  (k = KMoead 3 true -> forall j, 3 <= j <= 6 -> exists s2, ran dominates ref_w (ref_cfg k false 0) 2 (stopped (8 * 1 + j) (next_prog dominates ref_w (ref_cfg k false 0)) s) s2).
Proof.
  assert (R2 : forall c0 (s : st Z (list Q) (list Q) unit unit), snd (iterate dominates ref_w c0 s) = Ok tt -> snd (iterate dominates ref_w c0 (fst (iterate dominates ref_w c0 s))) = Ok tt ->
    exists s2, ran dominates ref_w c0 2 s s2).
  { intros c0 s H1 H2. destruct (iterate dominates ref_w c0 s) as [s1 o1] eqn:E1. cbn [fst snd] in H1, H2. subst o1. destruct (iterate dominates ref_w c0 s1) as [s2 o2] eqn:E2. cbn [snd] in H2. subst o2.
    exists s2. econstructor; [exact E1|]. econstructor; [exact E2|]. constructor. }
  intros k [-> | [-> | ->]]; eexists _, _; (split; [reflexivity|]); (split; [vm_compute; reflexivity|]); (split; [vm_compute; reflexivity|]); intros H; try discriminate H.
  intros j Hj. apply R2; (assert (Hj' : j = 3 \/ j = 4 \/ j = 5 \/ j = 6) by lia; destruct Hj' as [-> | [-> | [-> | ->]]]; vm_compute; reflexivity).
Qed.
(** The tournament EA stopped after deletion: no population, then and later; evaluations and counters are still those of the first three rows. *)
Example ex_stop_tournament : shown (stopped_run KTournament 9 []) = (None, Some [5], (3, 0, 0), [[1; 5; 4]])%Z /\ shown (stopped_run KTournament 9 [SCall CIterate; SCall CStart; SStop 7; SCall CIterate]) = (None, Some [5], (3, 0, 0), [[1; 5; 4]])%Z.
Proof. split; vm_compute; reflexivity. Qed.

(** C135. Refuted: the archive of a run that was stopped. In a decomposition-based run stopped after the offspring were added and before they were offered to the archive, and continued by two complete
    iterations: x = 8 was evaluated in this run, nothing in the archive dominates it or is equal to it, and it is not in the archive. *)
Definition once_world : world Z (list Q) (list Q) unit unit :=
  mkWorld (fun k _ _ => if Nat.leb k 3 then Ok [8]%Z else Ok [20]%Z) (fun x => x) (fun _ _ rows => answer ob rows) (fun _ _ _ => None) (fun k _ i => Ok [0]%Z) (fun _ i => Ok [Z.of_nat i]) (fun _ _ => 0%Z) (fun _ => Ok [0]%Z)
    (fun _ n => seq 0 n) (fun _ _ => [0]%Z) (fun _ _ => Ok []) (fun k _ => Ok None) (fun _ _ => Ok tt).
Theorem C135_archive_refuted : exists (w : world Z (list Q) (list Q) unit unit) (c : cfg) s1 s3 a n, honest 0 false w /\ c_save_nd c = true /\ c_kind c = KDecomposition /\
  start dominates c (on_problem w c 0 [1; 5]%Z) = (s1, Ok tt) /\ ran dominates w c 2 (stopped n (iterate_prog dominates w c) s1) s3 /\ s_nd s3 = Some a /\
  (exists e, In e (s_log s3) /\ In 8%Z (snd (fst e))) /\ ~ In 8%Z (a_ind a) /\ (forall o, In o (a_obj a) -> o <> ob 8 /\ ~ pareto o (ob 8)).
Proof.
  exists once_world, (ref_cfg KDecomposition false 0), (fst (start dominates (ref_cfg KDecomposition false 0) (on_problem once_world (ref_cfg KDecomposition false 0) 0 [1; 5]%Z))).
  set (s1 := fst _). set (t := stopped 8 (iterate_prog dominates once_world (ref_cfg KDecomposition false 0)) s1).
  set (s2 := fst (iterate dominates once_world (ref_cfg KDecomposition false 0) t)). set (s3 := fst (iterate dominates once_world (ref_cfg KDecomposition false 0) s2)).
  assert (Ea : exists a, s_nd s3 = Some a /\ a_ind a = [5]%Z /\ a_obj a = [ob 5]) by (eexists; split; [vm_compute; reflexivity|split; vm_compute; reflexivity]).
  destruct Ea as (a & Ea & Ei & Eo). exists s3, a, 8. split.
  { intros k b rows. split; [|split; [intros H; exfalso; apply H; reflexivity|discriminate]]. apply (ref_honest ob plain (fun _ => None) k b rows). }
  split; [reflexivity|]. split; [reflexivity|]. split; [vm_compute; reflexivity|]. split.
  { econstructor; [instantiate (1 := s2); vm_compute; reflexivity|]. econstructor; [instantiate (1 := s3); vm_compute; reflexivity|]. constructor. }
  split; [exact Ea|]. split; [eexists; split; [vm_compute; right; left; reflexivity|left; reflexivity]|]. rewrite Ei, Eo. split; [intros [H|[]]; discriminate|].
  intros o [<-|[]]. split; [intros H; vm_compute in H; discriminate|]. intros H. apply (proj2 (dominates_spec _ _)) in H. vm_compute in H. discriminate.
Qed.

Print Assumptions C135_programs.
Print Assumptions C135_data_intact.
Print Assumptions C135_interrupted_counts.
Print Assumptions C135_count_of_a_session.
Print Assumptions C135_decomposition_stopped.
Print Assumptions C135_moead_stopped.
Print Assumptions C135_moead_size_refuted.
Print Assumptions C135_moead_size_partial.
Print Assumptions C135_tournament_refuted.
Print Assumptions C135_archive_refuted.
