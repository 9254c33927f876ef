(** Lemmas for C135, continued: exactly where a MOEA/D generation stands when it is stopped, and sizes afterwards. *)
From Coq Require Import Lia.
From Verif Require Import Base M_Population Spec_Population P_Population M_Archive P_Archive M_Run Spec_Run P_Run P_Run2 P_Run3 M_Stop P_Stop P_Stop2.
Import ListNotations.
Open Scope nat_scope.

Section P.
Context {I O F C U : Type} (dom : F -> F -> bool) (w : world I O F C U) (c : cfg).
Notation st := (st I O F C U).
Notation prog := (@prog I O F C U).
Notation log_t := (list (bool * list I * results O F C U)).

(** [p] runs to its end from [s], in exactly [n] statements. *)
Inductive exec {A} : nat -> prog A -> st -> st -> A -> Prop :=
| exec_ret : forall a s, exec 0 (Ret a) s s a
| exec_do : forall B (m : st -> st * res B) (k : B -> prog A) s s1 b n s' a, m s = (s1, Ok b) -> exec n (k b) s1 s' a -> exec (S n) (Do B m k) s s' a.
Lemma exec_stopped {A} n (p : prog A) s s' a : exec n p s s' a -> stopped n p s = s'.
Proof. intros H. induction H as [a s|B m k s s1 b n s' a Hm _ IH]; [reflexivity|]. cbn [stopped]. rewrite Hm. exact IH. Qed.
Lemma exec_before {A B} n (p : prog A) s s' a : exec n p s s' a -> forall (f : A -> prog B) j, j <= n -> stopped j (seqp p f) s = stopped j p s.
Proof.
  intros H f. induction H as [a s|X m k s s1 b n s' a Hm _ IH]; intros j Hj.
  - replace j with 0 by lia. cbn [seqp]. rewrite stopped_0. reflexivity.
  - destruct j as [|j]; [reflexivity|]. cbn [seqp stopped]. rewrite Hm. apply IH. lia.
Qed.
Lemma exec_after {A B} n (p : prog A) s s' a : exec n p s s' a -> forall (f : A -> prog B) k, stopped (n + k) (seqp p f) s = stopped k (f a) s'.
Proof. intros H f k. induction H as [a s|X m g s s1 b n s' a Hm _ IH]; [reflexivity|]. cbn [seqp Nat.add stopped]. rewrite Hm. exact IH. Qed.
Lemma exec_seqp {A B} n m (p : prog A) (f : A -> prog B) s s1 s2 a b : exec n p s s1 a -> exec m (f a) s1 s2 b -> exec (n + m) (seqp p f) s s2 b.
Proof. intros H K. induction H as [a s|X g k s s1 x n s' a Hm _ IH]; [exact K|]. cbn [seqp Nat.add]. econstructor; [exact Hm|]. apply IH. exact K. Qed.

Lemma sub_exec ur i s s1 : moead_sub dom w c ur i s = (s1, Ok tt) -> exec 8 (sub_prog dom w c ur i) s s1 tt.
Proof.
  rewrite <- run_sub. unfold sub_prog. cbn [run_all].
  destruct (ask _ s) as [t1 [par|e]] eqn:E1; [|discriminate]. destruct (ask (fun k p => w_mate w k p (Some par)) t1) as [t2 [[|o offs]|e]] eqn:E2; [discriminate| |discriminate].
  cbv zeta. cbn [run_all]. destruct (do_add w _ _ _ t2) as [t3 [r|e]] eqn:E3; [|discriminate]. destruct ((if c_surrogates c then upd (fun s => s) else count 1) t3) as [t4 [x|e]] eqn:E4; [|discriminate].
  destruct (ask (fun k p => w_select w k p i) t4) as [t5 [sel|e]] eqn:E5; [|discriminate]. destruct (do_replace _ _ _ t5) as [t6 [y|e]] eqn:E6; [|discriminate].
  destruct (do_delete _ t6) as [t7 [z|e]] eqn:E7; [|discriminate]. rewrite run_one. destruct ((if c_save_nd c then _ else _) t7) as [t8 [q|e]] eqn:E8; [|discriminate].
  intros H. injection H as <- ->.
  econstructor; [exact E1|]. econstructor; [exact E2|]. cbv zeta beta iota. econstructor; [exact E3|]. econstructor; [exact E4|]. econstructor; [exact E5|]. econstructor; [exact E6|]. econstructor; [exact E7|].
  econstructor; [exact E8|]. constructor.
Qed.
(** Everything observable after [j] statements of a subproblem that succeeds. *)
Lemma sub_stop ur i s s1 old : moead_sub dom w c ur i s = (s1, Ok tt) -> p_ind (s_pop s) = Some old -> old <> [] -> exists off r, s_log s1 = s_log s ++ [(c_surrogates c, [off], r)] /\
  forall j, j <= 8 -> let t := stopped j (sub_prog dom w c ur i) s in
    (exists l, p_ind (s_pop t) = Some l /\ length l = length old + (if Nat.leb 3 j && Nat.leb j 6 then 1 else 0) /\ (3 <= j <= 6 -> nth_error l (length old) = Some off \/ j = 6)) /\
    s_log t = (if Nat.ltb j 3 then s_log s else s_log s1) /\ s_nd t = (if Nat.ltb j 8 then s_nd s else s_nd s1) /\
    s_fe t = (s_fe s + (if Nat.ltb j 4 || c_surrogates c then 0 else 1))%Z.
Proof.
  rewrite <- run_sub. unfold sub_prog. cbn [run_all]. intros H Ho Hne.
  destruct (ask _ s) as [t1 [par|e]] eqn:E1; [|discriminate]. destruct (ask (fun k p => w_mate w k p (Some par)) t1) as [t2 [[|o offs]|e]] eqn:E2; [discriminate| |discriminate].
  revert H. cbv zeta. cbn [run_all]. intros H. destruct (do_add w _ _ _ t2) as [t3 [r|e]] eqn:E3; [|discriminate]. destruct ((if c_surrogates c then upd (fun s => s) else count 1) t3) as [t4 [x|e]] eqn:E4; [|discriminate].
  destruct (ask (fun k p => w_select w k p i) t4) as [t5 [sel|e]] eqn:E5; [|discriminate]. destruct (do_replace _ _ _ t5) as [t6 [y|e]] eqn:E6; [|discriminate].
  destruct (do_delete _ t6) as [t7 [z|e]] eqn:E7; [|discriminate]. rewrite run_one in H. set (off := if ur then w_repair w o else o) in *.
  destruct y, z.
  assert (Ht : t1 = tick s /\ t2 = tick t1 /\ t5 = tick t4) by (apply ask_ok in E1; apply ask_ok in E2; apply ask_ok in E5; destruct E1, E2, E5; auto). destruct Ht as (T1 & T2 & T5).
  pose proof E3 as F3. apply do_add_ok in F3. destruct F3 as (p3 & r0 & A1 & A2 & A3 & A4 & A5).
  assert (Q3 : s_fe t3 = s_fe t2). { unfold do_add, take_results in E3. destruct (w_fails w (s_clock t2) (c_surrogates c) [off]); [discriminate|]. destruct (add _ _ _) as [pp out]. injection E3 as <- _. reflexivity. }
  assert (Q4 : s_pop t4 = s_pop t3 /\ s_log t4 = s_log t3 /\ s_nd t4 = s_nd t3 /\ s_fe t4 = (s_fe t3 + (if c_surrogates c then 0 else 1))%Z).
  { destruct (c_surrogates c); unfold count, upd in E4; injection E4 as <- _; (split; [reflexivity|]; split; [reflexivity|]; split; [reflexivity|]; cbn [add_fe s_fe]; lia). }
  destruct Q4 as (Q41 & Q42 & Q43 & Q44).
  pose proof E6 as F6. apply do_replace_ok in F6. destruct F6 as (p6 & r1 & _ & B1 & B2 & B3 & B4). pose proof E7 as F7. apply do_delete_ok in F7. destruct F7 as (p7 & D1 & D2 & D3 & D4).
  assert (Q6 : s_fe t6 = s_fe t5). { pose proof (q_replace sel off r t5) as X. rewrite E6 in X. unfold counts_of in X. cbn [fst] in X. congruence. }
  assert (Q7 : s_fe t7 = s_fe t6). { pose proof (q_delete [(-1)%Z] t6) as X. rewrite E7 in X. unfold counts_of in X. cbn [fst] in X. congruence. }
  assert (Q8 : s_pop s1 = s_pop t7 /\ s_log s1 = s_log t7 /\ s_fe s1 = s_fe t7).
  { destruct (c_save_nd c); [apply do_archive_ok in H as G; destruct G as (a & _ & _ & X1 & X2); pose proof (q_archive dom [off] r t7) as X; rewrite H in X; unfold counts_of in X; cbn [fst] in X; split; [congruence|split; congruence]|
      apply upd_ok in H; subst s1; auto]. }
  destruct Q8 as (Q81 & Q82 & Q83).
  assert (P2 : p_ind (s_pop t2) = Some old) by (rewrite T2, T1; exact Ho). assert (N2 : s_nd t2 = s_nd s) by (rewrite T2, T1; reflexivity). assert (L2 : s_log t2 = s_log s) by (rewrite T2, T1; reflexivity). assert (G2 : s_fe t2 = s_fe s) by (rewrite T2, T1; reflexivity).
  pose proof (add_ind _ _ _ _ _ _ A1 P2) as P3. cbn [rows_of] in P3. rewrite <- A3 in P3.
  assert (P5 : p_ind (s_pop t5) = Some (old ++ [off])) by (rewrite T5; cbn [tick s_pop]; rewrite Q41; exact P3).
  assert (N5 : s_nd t5 = s_nd t4 /\ s_log t5 = s_log t4 /\ s_fe t5 = s_fe t4) by (rewrite T5; auto). destruct N5 as (N5 & L5 & G5).
  destruct (replace_ind _ _ _ _ _ _ B1 P5) as (l6 & P6 & Len6 & _). rewrite <- B2 in P6. rewrite app_length in Len6. cbn [length] in Len6.
  assert (P7 : exists l7, p_ind (s_pop t7) = Some l7 /\ length l7 = length old).
  { assert (X : l6 <> []) by (intros ->; cbn in Len6; lia). destruct (exists_last X) as (l7 & x7 & ->). rewrite app_length in Len6. cbn [length] in Len6. exists l7. split; [|lia]. rewrite D2.
    eapply delete_last_ind; [exact D1|exact P6|]. intros ->. cbn [length] in Len6. destruct old; [congruence|cbn [length] in Len6; lia]. }
  destruct P7 as (l7 & P7 & Len7).
  assert (P1 : p_ind (s_pop t1) = Some old) by (rewrite T1; exact Ho).
  assert (N1 : s_nd t1 = s_nd s /\ s_log t1 = s_log s /\ s_fe t1 = s_fe s) by (rewrite T1; auto). destruct N1 as (N1 & L1 & G1).
  exists off, r0. split; [congruence|]. intros j Hj.
  destruct j as [|[|[|[|[|[|[|[|[|j]]]]]]]]]; [| | | | | | | | |lia]; cbn [stopped]; rewrite ?E1, ?E2; cbv zeta beta iota; fold off; cbn [stopped]; rewrite ?E3, ?E4, ?E5, ?E6, ?E7; cbn [Nat.ltb Nat.leb andb orb].
  1-3: (split; [eexists; split; [eassumption|split; [lia|intros; lia]]|]; split; [congruence|]; split; [congruence|]; lia).
  - split; [eexists; split; [exact P3|]; split; [rewrite app_length; cbn [length]; lia|intros _; left; rewrite nth_error_app2, Nat.sub_diag by lia; reflexivity]|]. split; [congruence|]. split; [congruence|]. lia.
  - split; [eexists; split; [rewrite Q41; exact P3|]; split; [rewrite app_length; cbn [length]; lia|intros _; left; rewrite nth_error_app2, Nat.sub_diag by lia; reflexivity]|]. split; [congruence|]. split; [congruence|]. destruct (c_surrogates c); lia.
  - split; [eexists; split; [exact P5|]; split; [rewrite app_length; cbn [length]; lia|intros _; left; rewrite nth_error_app2, Nat.sub_diag by lia; reflexivity]|]. split; [congruence|]. split; [congruence|]. destruct (c_surrogates c); lia.
  - split; [eexists; split; [exact P6|]; split; [lia|right; reflexivity]|]. split; [congruence|]. split; [congruence|]. destruct (c_surrogates c); lia.
  - split; [eexists; split; [exact P7|]; split; [lia|intros; lia]|]. split; [congruence|]. split; [congruence|]. destruct (c_surrogates c); lia.
  - unfold one. cbn [stopped]. rewrite H. split; [eexists; split; [rewrite Q81; exact P7|]; split; [lia|intros; lia]|]. split; [congruence|]. split; [congruence|]. destruct (c_surrogates c); lia.
Qed.
Lemma subs_exec ur is : forall s s', moead_subs dom w c ur is s = (s', Ok tt) -> exec (8 * length is) (subs_prog dom w c ur is) s s' tt.
Proof.
  induction is as [|i is IH]; intros s s' H; cbn [moead_subs subs_prog length] in *; [injection H as <-; constructor|].
  apply andthen_ok in H. destruct H as ([] & s1 & H1 & H2). replace (8 * S (length is)) with (8 + 8 * length is) by lia. eapply exec_seqp; [apply sub_exec; exact H1|]. apply IH. exact H2.
Qed.
Lemma subs_stop ur is : forall s s' old, moead_subs dom w c ur is s = (s', Ok tt) -> p_ind (s_pop s) = Some old -> old <> [] -> forall i j, i < length is -> j < 8 ->
  let t := stopped (8 * i + j) (subs_prog dom w c ur is) s in exists l lg,
    p_ind (s_pop t) = Some l /\ length l = length old + (if Nat.leb 3 j && Nat.leb j 6 then 1 else 0) /\
    s_log t = s_log s ++ lg /\ length lg = i + (if Nat.ltb j 3 then 0 else 1) /\ s_nd t = s_nd (stopped (8 * i) (subs_prog dom w c ur is) s) /\
    s_fe t = (s_fe s + (if c_surrogates c then 0 else Z.of_nat i + (if Nat.ltb j 4 then 0 else 1)))%Z.
Proof.
  induction is as [|i0 is IH]; intros s s' old H Ho Hne i j Hi Hj t; cbn [moead_subs length] in *; [lia|].
  apply andthen_ok in H. destruct H as ([] & s1 & H1 & H2). pose proof (sub_exec _ _ _ _ H1) as X. destruct (sub_stop _ _ _ _ _ H1 Ho Hne) as (off & r & Hlog & Hst). subst t. cbn [subs_prog].
  destruct i as [|i].
  - replace (8 * 0 + j) with j by lia. rewrite (exec_before _ _ _ _ _ X) by lia. destruct (Hst j ltac:(lia)) as ((l & P1 & P2 & _) & P3 & P4 & P5). change (8 * 0) with 0. rewrite !stopped_0.
    exists l, (if Nat.ltb j 3 then [] else [(c_surrogates c, [off], r)]). split; [exact P1|]. split; [exact P2|]. split; [rewrite P3; destruct (Nat.ltb j 3); [rewrite app_nil_r; reflexivity|exact Hlog]|].
    split; [destruct (Nat.ltb j 3); reflexivity|]. split; [rewrite P4; replace (Nat.ltb j 8) with true by (symmetry; apply Nat.ltb_lt; lia); reflexivity|]. rewrite P5. destruct (Nat.ltb j 4), (c_surrogates c); cbn [orb]; lia.
  - replace (8 * S i + j) with (8 + (8 * i + j)) by lia. replace (8 * S i) with (8 + 8 * i) by lia. rewrite !(exec_after _ _ _ _ _ X).
    destruct (moead_sub_pop dom w c ur i0 s s1 old H1 Ho Hne) as (_ & new & _ & _ & N1 & N2 & _). assert (Nn : new <> []) by (intros ->; destruct old; [congruence|discriminate]).
    destruct (IH s1 s' new H2 N1 Nn i j ltac:(lia) Hj) as (l & lg & P1 & P2 & P3 & P4 & P5 & P6). exists l, ((c_surrogates c, [off], r) :: lg).
    split; [exact P1|]. split; [lia|]. split; [rewrite P3, Hlog, <- app_assoc; reflexivity|]. split; [cbn [length]; lia|]. split; [exact P5|]. rewrite P6.
    destruct (Hst 8 ltac:(lia)) as (_ & _ & _ & F8). rewrite (exec_stopped _ _ _ _ _ X) in F8. cbn [Nat.ltb Nat.leb orb] in F8. destruct (c_surrogates c); lia.
Qed.
Lemma next_stop n ur : c_kind c = KMoead n ur -> forall s s' k, next_gen dom w c s = (s', Ok tt) -> k <= 8 * n -> stopped k (next_prog dom w c) s = stopped k (subs_prog dom w c ur (seq 0 n)) s.
Proof.
  intros Hk s s' k H Hle. unfold next_gen in H. rewrite Hk in H. unfold moead_gen in H. apply andthen_ok in H. destruct H as ([] & s1 & H1 & _).
  unfold next_prog. rewrite Hk. unfold moead_prog. apply (exec_before _ _ _ _ _ (subs_exec _ _ _ _ H1)). rewrite seq_length. exact Hle.
Qed.

(** MOEA/D keeps its size for good. *)
Definition sized (L : nat) (s : st) : Prop := exists l, p_ind (s_pop s) = Some l /\ length l = L.
Lemma loop_sized n ur L : c_kind c = KMoead n ur -> 0 < L -> forall fuel s s', sized L s -> gen_loop dom w c fuel s = (s', Ok tt) -> sized L s'.
Proof.
  intros Hk HL. induction fuel as [|f IH]; intros s s' (l & P1 & P2) H; cbn [gen_loop] in H; [destruct (continue_iteration c s); [discriminate|]; injection H as <-; exists l; auto|].
  destruct (continue_iteration c s); [|injection H as <-; exists l; auto]. apply andthen_ok in H. destruct H as ([] & s1 & H1 & H2). apply (IH s1 s'); auto.
  unfold next_gen in H1. rewrite Hk in H1. unfold moead_gen in H1. apply andthen_ok in H1. destruct H1 as ([] & s2 & H3 & H4). apply upd_ok in H4. subst s1.
  assert (Hne : l <> []) by (intros ->; cbn in P2; lia). destruct (moead_subs_pop dom w c ur _ _ _ _ H3 P1 Hne) as (lg & new & _ & _ & D & E & _). exists new. cbn [bump_gen s_pop]. split; [exact D|congruence].
Qed.
Lemma iterate_sized n ur L : c_kind c = KMoead n ur -> 0 < L -> forall s s', sized L s -> iterate dom w c s = (s', Ok tt) -> sized L s'.
Proof.
  intros Hk HL s s' (l & P1 & P2) H. unfold iterate in H. apply andthen_ok in H. destruct H as (g & s1 & H1 & H). apply ask_ok in H1. destruct H1 as [-> _].
  apply andthen_ok in H. destruct H as (x & s2 & H2 & H). assert (S2 : sized L s2).
  { exists l. split; [|exact P2]. destruct g as [g|]; [|injection H2 as <- _; exact P1]. unfold do_reeval in H2. unfold reevaluate in H2. cbn [tick s_pop] in H2.
    destruct (p_obj (s_pop s)); injection H2 as <- Hx; try discriminate; cbn [set_pop s_pop p_ind]; exact P1. }
  apply andthen_ok in H. destruct H as (y & s3 & H3 & H). assert (S3 : sized L s3). { injection H3 as <- _. destruct (c_keep_archive c); exact S2. }
  apply andthen_ok in H. destruct H as (z & s4 & H4 & H). apply ask_ok in H4. destruct H4 as [-> _].
  apply andthen_ok in H. destruct H as (v & s5 & H5 & H). injection H5 as <- _.
  apply andthen_ok in H. destruct H as ([] & s6 & H6 & H). apply (loop_sized n ur L Hk HL) in H6; [|exact S3]. injection H as <-. exact H6.
Qed.
Lemma ran_sized n ur L : c_kind c = KMoead n ur -> 0 < L -> forall k s s', ran dom w c k s s' -> sized L s -> sized L s'.
Proof. intros Hk HL k s s' H. induction H as [s|k s s1 s2 H _ IH]; auto. intros Hs. apply IH. eapply iterate_sized; eauto. Qed.

(** A tournament run without a population stays without one. *)
Definition lost (s : st) : Prop := p_ind (s_pop s) = None.
Lemma lost_pop (s t : st) : s_pop t = s_pop s -> lost s -> lost t.
Proof. unfold lost. intros ->. auto. Qed.
Lemma lost_ask {A} (f : nat -> pop I O F C U -> res A) : triple lost (ask f) (fun _ => lost) lost.
Proof. intros s Hs. unfold ask. destruct (f _ _); exact Hs. Qed.
Lemma lost_tour : safe lost (tour_prog w) lost.
Proof.
  unfold tour_prog. apply safe_do with (Q := fun _ => lost); [auto|apply lost_ask|]. intros sel. apply safe_do with (Q := fun _ => lost); [auto|apply lost_ask|]. intros off.
  apply safe_do with (Q := fun _ _ => False); [auto| |intros b n s []]. intros s Hs. cbv beta. unfold rows_count. unfold lost in Hs. rewrite Hs. cbn [option_map]. exact Hs.
Qed.
Lemma lost_run s : lost s -> match run_all (tour_prog w) s with (_, Ok _) => False | (s', Err _) => lost s' end.
Proof.
  intros Hs. unfold tour_prog. cbn [run_all]. destruct (ask _ s) as [s1 [a|e]] eqn:E1; [|injection E1 as <- _; exact Hs]. apply ask_ok in E1. destruct E1 as [-> _].
  destruct (ask _ (tick s)) as [s2 [b|e]] eqn:E2; [|injection E2 as <- _; exact Hs]. apply ask_ok in E2. destruct E2 as [-> _]. unfold rows_count. unfold lost in Hs. cbn [tick s_pop]. rewrite Hs. cbn [option_map]. exact Hs.
Qed.
Lemma lost_loop : c_kind c = KTournament -> forall fuel, safe lost (loop_prog dom w c fuel) lost.
Proof.
  intros Hk. induction fuel as [|f IH]; cbn [loop_prog]; [apply safe_one with (Q := fun _ => lost); auto; intros s Hs; exact Hs|].
  apply safe_do with (Q := fun _ => lost); [auto|intros s Hs; exact Hs|]. intros [|]; [|apply safe_ret; auto]. unfold next_prog. rewrite Hk.
  apply safe_seqp with (Q := fun _ => lost); [apply lost_tour| |auto]. intros s Hs. pose proof (lost_run s Hs) as X. destruct (run_all (tour_prog w) s) as [s' [x|e]]; [contradiction|exact X].
Qed.
Lemma lost_reeval g (s : st) : lost s -> lost (fst (do_reeval g s)).
Proof. unfold lost, do_reeval, reevaluate. intros H. destruct (p_obj (s_pop s)); cbn [fst set_pop s_pop p_ind]; exact H. Qed.
Lemma lost_loop_run : c_kind c = KTournament -> forall fuel s, lost s -> lost (fst (run_all (loop_prog dom w c fuel) s)).
Proof. intros Hk fuel s Hs. apply (safe_end _ _ _ s (lost_loop Hk fuel) Hs). Qed.
Lemma lost_iterate : c_kind c = KTournament -> safe lost (iterate_prog dom w c) lost.
Proof.
  intros Hk. unfold iterate_prog. apply safe_do with (Q := fun _ => lost); [auto|apply lost_ask|]. intros g.
  apply safe_do with (Q := fun _ => lost); [auto|intros s Hs; destruct g as [g|]; [|exact Hs]; pose proof (lost_reeval g s Hs) as X; destruct (do_reeval g s) as [s' [x|e]]; exact X|]. intros ?.
  apply safe_do with (Q := fun _ => lost); [auto|intros s Hs; cbn [upd]; destruct (c_keep_archive c); exact Hs|]. intros ?.
  apply safe_do with (Q := fun _ => lost); [auto|apply lost_ask|]. intros ?.
  apply safe_do with (Q := fun _ => lost); [auto|intros s Hs; exact Hs|]. intros ?.
  apply safe_seqp with (Q := fun _ => lost); [apply lost_loop; exact Hk| |].
  - intros s Hs. pose proof (lost_loop_run Hk (S (Z.to_nat (c_n_gen_per_iter c))) s Hs) as X. destruct (run_all _ s) as [s' [x|e]]; exact X.
  - intros ?. apply safe_one with (Q := fun _ => lost); auto. intros s Hs. exact Hs.
Qed.
Lemma lost_session : c_kind c = KTournament -> forall ks s, lost s -> lost (ssession dom w c s ks).
Proof.
  intros Hk. induction ks as [|k ks IH]; intros s Hs; [exact Hs|]. change (ssession dom w c s (k :: ks)) with (ssession dom w c (do_scall dom w c s k) ks). apply IH. destruct k as [[|]|n]; cbn [do_scall do_call].
  - unfold start. unfold lost in *. destruct (c_save_nd c); [|exact Hs]. rewrite Hs. cbn [fst]. exact Hs.
  - rewrite <- run_iterate. apply (safe_end _ _ _ s (lost_iterate Hk) Hs).
  - apply lost_iterate; auto.
Qed.
Lemma tour_stop_lost s s' : c_kind c = KTournament -> next_gen dom w c s = (s', Ok tt) -> lost (stopped 3 (next_prog dom w c) s).
Proof.
  intros Hk H. rewrite <- run_next in H. unfold next_prog in *. rewrite Hk in *. unfold tour_prog in *. cbn [run_all stopped] in *.
  destruct (ask _ s) as [s1 [sel|e]] eqn:E1; [|discriminate]. destruct (ask (fun k p => w_mate w k p (Some sel)) s1) as [s2 [off|e]] eqn:E2; [|discriminate].
  destruct (rows_count s2) as [n|] eqn:Ec; [|discriminate]. destruct (do_delete _ s2) as [s3 [[]|e]] eqn:E3; [|discriminate].
  destruct (rows_count_some _ _ Ec) as (l & Hl & Hn). apply do_delete_ok in E3. destruct E3 as (p & D1 & D2 & _). destruct (delete_ind _ _ _ _ D1 Hl) as [_ D5]. unfold select_pos in D5. rewrite select_none in D5.
  2: { intros i Hi. apply negb_false_iff. unfold listed. apply existsb_exists. exists (Z.of_nat i). split; [apply in_map, in_seq; lia|]. rewrite Z.eqb_refl. reflexivity. }
  unfold lost. rewrite D2. exact D5.
Qed.
End P.
