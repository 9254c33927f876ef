(** C102-C105: whole runs of the algorithms: what is reported, archived, counted, and how large the population is. *)
From Verif Require Import Base Pareto M_Population Spec_Population P_Population M_Archive P_Archive Properties_Archive M_Run Spec_Run P_Run P_Run2 P_Run3.
From Coq Require Import QArith.
Open Scope nat_scope.

Section T.
Context {I O F C U : Type} (dom : F -> F -> bool) (w : world I O F C U) (c : cfg) (nc : nat) (u : bool).

(** C102. Whatever the algorithm, however its object was made and whatever sequence of start() and iterate() calls follows (exceptions caught, going on): the log is what the
    problem was asked and answered, and every row of the population, of the non-dominated archive, of every snapshot and of the result of end() is a row that was evaluated, with
    its objectives and with the fitness it was evaluated to (or recomputed from those objectives after preferences). *)
Theorem C102_reported_rows_were_evaluated : forall ops0 s0 (ks : list call), honest nc u w -> constructed w c nc u ops0 s0 ->
  let s := session dom w c s0 ks in let ok := vouched (evaluated ops0 ++ evals (s_log s)) (refits w ops0) in
  answered w (s_log s) /\ pop_ok ok (s_pop s) /\ (forall a, s_nd s = Some a -> table_ok ok (a_ind a) (a_obj a) (a_fit a)) /\
  (forall g it q, In (g, (it, q)) (s_snaps s) -> pop_ok ok q) /\
  (forall (V : Type) (dom' : V -> V -> bool) (f : O -> V) s' is os, finish c dom' f s = (s', Ok (is, os)) ->
     length os = length is /\ forall j i o, nth_error is j = Some i -> nth_error os j = Some o -> exists f0, ok i o f0).
Proof.
  intros ops0 s0 ks Hw Hc s ok.
  assert (H0 : inv w nc u ops0 s0).
  { destruct Hc as [(-> & rows & ->)|(-> & A & B & D)]; [apply inv_on_problem; exact Hw|apply inv_on_population; auto]. }
  pose proof (session_inv dom w c nc u Hw ops0 ks s0 H0) as Hs. fold s in Hs. destruct Hs as (A & B & D & E).
  split; [apply B|]. assert (P : pop_ok ok (s_pop s)) by (rewrite A; apply (run_pop_ok w nc u ops0); exact B). split; [exact P|]. split; [|split].
  - intros a Ha. destruct (D a Ha) as (rows & R1 & R2 & R3 & R4). rewrite R1, R2, R3. split; [now rewrite !map_length|]. split; [now rewrite !map_length|].
    intros j i o f Hi Ho Hf. rewrite nth_error_map in Hi, Ho, Hf. unfold row in Hi, Ho, Hf. destruct (nth_error rows j) as [r|] eqn:Er; [|discriminate Hi]. cbn in Hi, Ho, Hf. injection Hi as <-. injection Ho as <-. injection Hf as <-.
    apply R4. eapply nth_error_In; eauto.
  - intros g it q Hq. destruct (E g it q Hq) as (ops & -> & G). apply (run_pop_ok w nc u ops0). exact G.
  - intros V dom' f s' is os Hf. unfold finish in Hf. destruct (p_ind (s_pop s)) as [xi|] eqn:E1; [|discriminate]. destruct (p_obj (s_pop s)) as [xo|] eqn:E2; [|discriminate].
    destruct P as [P|(is' & os' & fs' & P1 & P2 & P3 & L1 & L2 & P4)]; [congruence|]. rewrite E1 in P1. rewrite E2 in P2. injection P1 as <-. injection P2 as <-.
    unfold end_result in Hf. injection Hf as _ H1 H2. subst is os. destruct (zip3 xi xo fs' L1 L2) as (rows & -> & -> & ->). rewrite !P_Run.mask_sel_map', !map_length. split; [reflexivity|].
    intros j i o Hi Ho. rewrite nth_error_map in Hi, Ho. unfold row in Hi, Ho. destruct (nth_error (mask_sel _ rows) j) as [r|] eqn:Er; [|discriminate]. injection Hi as <-. injection Ho as <-.
    apply nth_error_In, P_Run.mask_sel_incl, In_nth_error in Er. destruct Er as [t Ht]. exists (r_f r). apply (P4 t); apply map_nth_error; exact Ht.
Qed.

(** C104. A successful iterate() counts exactly the individuals it evaluated with the problem itself, whatever the algorithm; it is one more iteration, and the number of its generations
    is n_gen_per_iter unless the budget was exceeded first. With surrogates the decomposition algorithms make no evaluation with the problem itself. *)
Theorem C104_iterate_counts : forall s s', iterate dom w c s = (s', Ok tt) -> exists lg, s_log s' = s_log s ++ lg /\
  (s_fe s' - s_fe s = real_evals lg /\ s_iter s' = s_iter s + 1 /\ s_gen s' - s_gen s = s_gen_in_iter s' /\ 0 <= s_gen_in_iter s' <= Z.max 0 (c_n_gen_per_iter c) /\
   (s_gen_in_iter s' = Z.max 0 (c_n_gen_per_iter c) \/ (c_total_fe c <> 0 /\ c_total_fe c < s_fe s')))%Z /\
  (forall e, In e lg -> fst (fst e) = match c_kind c with KDecomposition | KMoead _ _ => c_surrogates c | _ => false end).
Proof.
  intros s s' H. pose proof (iterate_counts dom w c s) as T. rewrite H in T. destruct T as [(lg & A & Fl & B & D & E & G & _) K]. unfold counts_of in *. cbn [n_log n_it n_fe n_gen n_gi] in *.
  exists lg. split; [exact A|]. split; [|exact Fl]. split; [exact D|]. split; [lia|]. split; [exact E|]. split; [exact G|exact K].
Qed.
(** C104. An iterate() that raises never counts more than it evaluated, and fails to count at most (a part of) one generation. *)
Theorem C104_failed_iterate : forall s s' e, iterate dom w c s = (s', Err e) -> exists l1 l2, s_log s' = s_log s ++ l1 ++ l2 /\ one_generation c l2 /\
  (real_evals l1 <= s_fe s' - s_fe s <= real_evals l1 + real_evals l2 /\ s_iter s' = s_iter s)%Z.
Proof.
  intros s s' e H. pose proof (iterate_counts dom w c s) as T. rewrite H in T. destruct T as (l1 & l2 & A & _ & B & D & E & _). unfold counts_of in *. cbn [n_log n_it n_fe n_gen n_gi] in *.
  exists l1, l2. split; [exact A|]. split; [exact B|]. lia.
Qed.
(** C104. With a budget, what one iterate() (successful or not) evaluates beyond it is at most one generation. *)
Theorem C104_budget : forall s s' out, iterate dom w c s = (s', out) -> c_total_fe c <> 0%Z -> s_log s' = s_log s \/
  exists l1 l2, s_log s' = s_log s ++ l1 ++ l2 /\ (s_fe s + real_evals l1 <= c_total_fe c)%Z /\ one_generation c l2.
Proof.
  intros s s' out H Ht. pose proof (iterate_counts dom w c s) as T. rewrite H in T. destruct out as [[]|e].
  - destruct T as [(lg & _ & _ & _ & _ & _ & _ & T) _]. exact (T Ht).
  - destruct T as (l1 & l2 & _ & _ & _ & _ & _ & _ & T). exact (T Ht).
Qed.
(** C104. A run on a problem, without surrogates: the count is the number of rows evaluated since the object was made, the initial ones included. *)
Theorem C104_run_counts_everything : forall rows s1 k s2, c_surrogates c = false ->
  s1 = on_problem w c nc rows \/ start dom c (on_problem w c nc rows) = (s1, Ok tt) -> ran dom w c k s1 s2 ->
  s_fe s2 = real_evals (s_log s2) /\ s_iter s2 = Z.of_nat k /\
  exists r lg, s_log s2 = (false, rows, r) :: lg.
Proof.
  intros rows s1 k s2 Hsu H1 Hr.
  assert (H0 : s_fe s1 = real_evals (s_log s1) /\ s_iter s1 = 0%Z /\ exists r lg, s_log s1 = (false, rows, r) :: lg).
  { assert (H : s_fe (on_problem w c nc rows) = real_evals (s_log (on_problem w c nc rows)) /\ s_iter (on_problem w c nc rows) = 0%Z /\ exists r lg, s_log (on_problem w c nc rows) = (false, rows, r) :: lg).
    { unfold on_problem, take_results. rewrite Hsu. destruct (add _ _ _) as [p out]. cbn [fst add_fe set_pop logged tick s_fe s_log s_iter app]. rewrite real_evals_one. split; [lia|]. split; eauto. }
    destruct H1 as [->|H1]; [exact H|]. unfold start in H1. destruct (c_save_nd c); [|injection H1 as <-; exact H].
    destruct (p_ind _); [|discriminate]. destruct (p_obj _); [|discriminate]. destruct (p_fit _); [|discriminate]. injection H1 as <-. exact H. }
  clear H1. assert (G : forall k s1, ran dom w c k s1 s2 -> s_fe s1 = real_evals (s_log s1) -> (exists r lg, s_log s1 = (false, rows, r) :: lg) ->
    s_fe s2 = real_evals (s_log s2) /\ s_iter s2 = (s_iter s1 + Z.of_nat k)%Z /\ exists r lg, s_log s2 = (false, rows, r) :: lg).
  { clear. intros k s1 Hr. induction Hr as [s|k s sm s2 H _ IH]; intros A B; [split; [auto|split; [lia|auto]]|].
    destruct (C104_iterate_counts _ _ H) as (lg & L1 & (L2 & L3 & _) & _). destruct IH as (X & Y & Z0).
    - rewrite L1, real_evals_app. lia.
    - destruct B as (r & lg0 & B). rewrite L1, B. exists r, (lg0 ++ lg). reflexivity.
    - split; [exact X|]. split; [lia|exact Z0]. }
  destruct H0 as (A & B & D). destruct (G k s1 Hr A D) as (X & Y & Z0). split; [exact X|]. split; [lia|exact Z0].
Qed.
(** C104. An object just made has run no generation and no iteration and has no snapshots; on a given population nothing is counted, later only what it evaluates itself. *)
Theorem C104_fresh_object : forall rows (ops : list (op I O F C U)),
  (let s := on_problem w c nc rows in s_gen s = 0%Z /\ s_gen_in_iter s = 0%Z /\ s_iter s = 0%Z /\ s_snaps s = [] /\ s_nd s = None /\ s_fe s = Z.of_nat (length rows)) /\
  (let s := on_population nc ops in s_gen s = 0%Z /\ s_gen_in_iter s = 0%Z /\ s_iter s = 0%Z /\ s_snaps s = [] /\ s_nd s = None /\ s_fe s = 0%Z /\ s_log s = [] /\ s_pop s = run (fresh nc) ops).
Proof.
  intros rows ops. split; [|cbn; auto 10]. unfold on_problem, take_results. destruct (add _ _ _) as [p out]. cbn. auto 10.
Qed.
Theorem C104_run_on_population : forall (ops : list (op I O F C U)) s1 k s2, c_surrogates c = false ->
  s1 = on_population nc ops \/ start dom c (on_population nc ops) = (s1, Ok tt) -> ran dom w c k s1 s2 -> s_fe s2 = real_evals (s_log s2) /\ s_iter s2 = Z.of_nat k.
Proof.
  intros ops s1 k s2 Hsu H1 Hr.
  assert (H0 : s_fe s1 = real_evals (s_log s1) /\ s_iter s1 = 0%Z).
  { destruct H1 as [->|H1]; [auto|]. unfold start in H1. destruct (c_save_nd c); [|injection H1 as <-; auto].
    destruct (p_ind _); [|discriminate]. destruct (p_obj _); [|discriminate]. destruct (p_fit _); [|discriminate]. injection H1 as <-. auto. }
  clear H1. assert (G : forall k s1, ran dom w c k s1 s2 -> s_fe s1 = real_evals (s_log s1) -> s_fe s2 = real_evals (s_log s2) /\ s_iter s2 = (s_iter s1 + Z.of_nat k)%Z).
  { clear. intros k s1 Hr. induction Hr as [s|k s sm s2 H _ IH]; intros A; [split; [auto|lia]|].
    destruct (C104_iterate_counts _ _ H) as (lg & L1 & (L2 & L3 & _) & _). destruct IH as (X & Y).
    - rewrite L1, real_evals_app. lia.
    - split; [exact X|]. lia. }
  destruct H0 as (A & B). destruct (G k s1 Hr A) as (X & Y). split; [exact X|]. lia.
Qed.
(** The bounds given to the model's loops are no restriction: more changes nothing. *)
Theorem C104_loops_complete : forall s k,
  gen_loop dom w c (S (Z.to_nat (c_n_gen_per_iter c)) + k) (reset_gen s) = gen_loop dom w c (S (Z.to_nat (c_n_gen_per_iter c))) (reset_gen s) /\
  (forall n rows, rows_count s = Some rows -> env_sel w (rows + k) n s = env_sel w rows n s).
Proof.
  intros s k. split; [apply loop_more; cbn [reset_gen s_gen_in_iter]; lia|]. intros n rows H. apply env_more. intros m Hm. rewrite H in Hm. injection Hm as <-. lia.
Qed.

(** C105. Sizes. Decomposition: after a generation the population is exactly the selected rows of parents and offspring, in order. *)
Theorem C105_decomposition_generation : forall s s' old, c_kind c = KDecomposition -> next_gen dom w c s = (s', Ok tt) -> p_ind (s_pop s) = Some old ->
  exists rows sel, (exists k, w_mate w k (s_pop s) None = Ok rows) /\ (exists r, s_log s' = s_log s ++ [(c_surrogates c, rows, r)]) /\ (exists k p, w_select w k p 0 = Ok sel /\ p_ind p = Some (old ++ rows)) /\
    in_range (length (old ++ rows)) sel /\
    p_ind (s_pop s') = Some (select_pos (fun j => existsb (fun z => (z =? Z.of_nat j)%Z || (z =? Z.of_nat j - Z.of_nat (length (old ++ rows)))%Z) sel) (old ++ rows)).
Proof. intros s s' old Hk H Ho. unfold next_gen in H. rewrite Hk in H. exact (dec_pop dom w c s s' old H Ho). Qed.
(** C105. MOEA/D: the population keeps its size; each row is the old one or one evaluated in this generation; per subproblem, in order, exactly one row is evaluated, the first
    (repaired if asked for) offspring of the parents drawn for that subproblem. *)
Theorem C105_moead_generation : forall s s' old n ur, c_kind c = KMoead n ur -> next_gen dom w c s = (s', Ok tt) -> p_ind (s_pop s) = Some old -> old <> [] ->
  exists lg new, s_log s' = s_log s ++ lg /\ Forall2 (fun i e => exists k p par o rest, w_parents w k i = Ok par /\ w_mate w (S k) p (Some par) = Ok (o :: rest) /\
      snd (fst e) = [if ur then w_repair w o else o]) (seq 0 n) lg /\ p_ind (s_pop s') = Some new /\ length new = length old /\
    (forall j x, nth_error new j = Some x -> nth_error old j = Some x \/ exists e, In e lg /\ In x (snd (fst e))).
Proof.
  intros s s' old n ur Hk H Ho Hne. unfold next_gen in H. rewrite Hk in H. unfold moead_gen in H. apply andthen_ok in H. destruct H as ([] & s1 & H1 & H). apply upd_ok in H.
  destruct (moead_subs_pop dom w c ur _ _ _ _ H1 Ho Hne) as (lg & new & A & B & D & E & G). exists lg, new. subst s'. cbn [bump_gen s_log s_pop].
  split; auto. split; auto. split; auto. split; auto. intros j x Hj. destruct (G j x Hj) as [?|Hx]; auto. right. apply in_flat_map in Hx. exact Hx.
Qed.
(** C105. Indicator-based: at most pop_size parents survive (exactly min(pop_size, present)), and all offspring join. *)
Theorem C105_indicator_generation : forall s s' old n, c_kind c = KIndicator n -> next_gen dom w c s = (s', Ok tt) -> p_ind (s_pop s) = Some old ->
  exists kept rows, (exists k p par, w_select w k p 0 = Ok par /\ p_ind p = Some kept /\ w_mate w (S k) p (Some par) = Ok rows) /\
    (exists r, s_log s' = s_log s ++ [(false, rows, r)]) /\ p_ind (s_pop s') = Some (kept ++ rows) /\
    length kept = Nat.min n (length old) /\ incl kept old /\ (NoDup old -> NoDup kept).
Proof. intros s s' old n Hk H Ho. unfold next_gen in H. rewrite Hk in H. exact (ind_pop w n s s' old H Ho). Qed.
(** C105. Tournament EA: the offspring replace everything. *)
Theorem C105_tournament_generation : forall s s', c_kind c = KTournament -> next_gen dom w c s = (s', Ok tt) ->
  exists rows, (exists k par, w_select w k (s_pop s) 0 = Ok par /\ w_mate w (S k) (s_pop s) (Some par) = Ok rows) /\
    (exists r, s_log s' = s_log s ++ [(false, rows, r)]) /\ p_ind (s_pop s') = Some rows.
Proof. intros s s' Hk H. unfold next_gen in H. rewrite Hk in H. exact (tour_pop w s s' H). Qed.
(** C105. PPGA: the placed offspring, and only they, are evaluated; what is left comes from the population and these. *)
Theorem C105_ppga_generation : forall s s' old k, c_kind c = KPpga k -> next_gen dom w c s = (s', Ok tt) -> p_ind (s_pop s) = Some old ->
  exists rows, (exists k prs off, w_prey w k = Ok prs /\ w_mate w (S k) (s_pop s) (Some prs) = Ok off /\
      rows = map snd (filter (fun e => existsb (Nat.eqb (fst e)) (w_placed w (S (S k)) (length off))) (combine (seq 0 (length off)) off))) /\
    (exists r, s_log s' = s_log s ++ [(false, rows, r)]) /\
    forall new, p_ind (s_pop s') = Some new -> length new <= length old + length rows /\ incl new (old ++ rows) /\ new <> [].
Proof. intros s s' old k Hk H Ho. unfold next_gen in H. rewrite Hk in H. exact (ppga_pop w k s s' old H Ho). Qed.
End T.

(** C103. With save_non_dominated, after start() and any number of successful iterate() calls: every solution that was in the population at start() or was evaluated since is in the archive
    (by its fitness) or dominated by an archived one, and in the archive if none of them dominates it; nothing else is archived. In MOEA/D the archive holds exactly the non-dominated ones. *)
Theorem C103_archive_of_a_run : forall (I O C U : Type) (w : world I O (list Q) C U) (c : cfg) nc u ops0 s0 ks s1 k s2, honest nc u w -> constructed w c nc u ops0 s0 ->
  c_save_nd c = true -> (match c_kind c with KDecomposition | KMoead _ _ => True | _ => False end) ->
  let s := session dominates w c s0 ks in start dominates c s = (s1, Ok tt) -> ran dominates w c k s1 s2 ->
  exists is os fs a lg, p_ind (s_pop s) = Some is /\ p_obj (s_pop s) = Some os /\ p_fit (s_pop s) = Some fs /\ s_nd s2 = Some a /\
    s_log s2 = s_log s ++ lg /\ answered w lg /\ let all := combine (combine is os) fs ++ flat_map batch lg in
    (forall r, In r all -> exists x, In x (a_fit a) /\ (x = snd r \/ pareto x (snd r)) /\ ((forall q, In q all -> ~ pareto (snd q) (snd r)) -> In (snd r) (a_fit a))) /\
    (forall i o f j, nth_error (a_ind a) j = Some i -> nth_error (a_obj a) j = Some o -> nth_error (a_fit a) j = Some f -> In (i, o, f) all) /\
    (forall m ur, c_kind c = KMoead m ur -> forall x, In x (a_fit a) <-> exists r, In r all /\ snd r = x /\ forall q, In q all -> ~ pareto (snd q) x).
Proof.
  intros I O C U w c nc u ops0 s0 ks s1 k s2 Hw Hc Hsave Hkind s Hst Hran.
  destruct (C102_reported_rows_were_evaluated dominates w c nc u ops0 s0 ks Hw Hc) as (_ & P & _). fold s in P.
  unfold start in Hst. rewrite Hsave in Hst. destruct (p_ind (s_pop s)) as [is|] eqn:E1; [|discriminate]. destruct (p_obj (s_pop s)) as [os|] eqn:E2; [|discriminate].
  destruct (p_fit (s_pop s)) as [fs|] eqn:E3; [|discriminate]. injection Hst as <-.
  destruct P as [P|(is' & os' & fs' & P1 & P2 & P3 & L1 & L2 & _)]; [congruence|]. rewrite E1 in P1. rewrite E2 in P2. rewrite E3 in P3. injection P1 as <-. injection P2 as <-. injection P3 as <-.
  destruct (ran_follows dominates w c nc u Hw Hsave Hkind k _ s2 Hran _ eq_refl) as (lg & A1 & A2 & A3 & A4). cbn [set_nd s_log] in A1.
  destruct (zip3 is os fs L1 L2) as (init & -> & -> & ->).
  assert (Ec : combine (combine (map r_i init) (map r_o init)) (map r_f init) = init).
  { clear. induction init as [|[[i o] f] l IH]; [reflexivity|]. cbn [map combine r_i r_o r_f fst snd]. f_equal. exact IH. }
  exists (map r_i init), (map r_o init), (map r_f init), (archive_run dominates init (map batch lg)), lg. rewrite Ec, flat_map_concat_map.
  split; auto. split; auto. split; auto. split; [exact A3|]. split; auto. split; auto. cbv zeta. split; [|split].
  - intros r Hr. exact (C24_archive_never_loses I O init (map batch lg) r Hr).
  - intros i o f j Hi Ho Hf. destruct (C26_archive_aligned I O init (map batch lg)) as (rows & R1 & R2 & R3 & R4). rewrite R1, nth_error_map in Hi. rewrite R2, nth_error_map in Ho. rewrite R3, nth_error_map in Hf.
    destruct (nth_error rows j) as [[[i' o'] f']|] eqn:Er; [|discriminate]. cbn [option_map fst snd] in *. injection Hi as <-. injection Ho as <-. injection Hf as <-. apply R4. eapply nth_error_In; eauto.
  - intros m ur Hk x.
    assert (Hmut : forall x y, In x (a_fit (archive_run dominates init (map batch lg))) -> In y (a_fit (archive_run dominates init (map batch lg))) -> ~ pareto x y).
    { apply C25_archive_mutual_partial. intros b Hb y z Hy Hz. apply in_map_iff in Hb. destruct Hb as (e & <- & He). destruct (A4 m ur Hk e He) as [r Er]. rewrite Er in *.
      destruct Hy as [<-|[]]. destruct Hz as [<-|[]]. apply pareto_irrefl. }
    split.
    + intros Hx. destruct (C26_archive_aligned I O init (map batch lg)) as (rows & _ & _ & R3 & R4). rewrite R3 in Hx. apply in_map_iff in Hx. destruct Hx as (r & <- & Hr). exists r. split; [auto|]. split; auto.
      intros q Hq Hd. destruct (C24_archive_never_loses I O init (map batch lg) q Hq) as (y & Y1 & [Y2|Y2] & _).
      * apply (Hmut y (snd r)); [exact Y1|rewrite R3; apply in_map; exact Hr|]. rewrite Y2. exact Hd.
      * apply (Hmut y (snd r)); [exact Y1|rewrite R3; apply in_map; exact Hr|]. eapply pareto_trans; [exact Y2|exact Hd].
    + intros (r & Hr & <- & Hnd). destruct (C24_archive_never_loses I O init (map batch lg) r Hr) as (y & _ & _ & Y3). apply Y3. exact Hnd.
Qed.

(** C103. Without a start() call no generation of such a run succeeds: an iterate() that returns has evaluated nothing. *)
Theorem C103_start_first : forall (I O F C U : Type) (dom : F -> F -> bool) (w : world I O F C U) (c : cfg) s s', c_save_nd c = true ->
  (match c_kind c with KDecomposition | KMoead _ _ => True | _ => False end) -> s_nd s = None -> iterate dom w c s = (s', Ok tt) -> s_log s' = s_log s /\ s_nd s' = None.
Proof.
  intros I O F C U dom w c s s' Hs Hk Hn H. destruct (iterate_needs_start dom w c Hs Hk s s' H Hn) as [A B]. split; [exact A|congruence].
Qed.

(** ** Reference instance: decision vectors are integers x, by default with objectives (x-6)^2 and (x-9)^2. *)
Definition ob (x : Z) : list Q := [inject_Z ((x - 6) * (x - 6)); inject_Z ((x - 9) * (x - 9))].
Definition answer (f : Z -> list Q) (rows : list Z) : results (list Q) (list Q) unit unit := mkRes (map f rows) (map f rows) None None.
Definition ref_world (f : Z -> list Q) (sel : nat -> res (list Z)) (prefs : nat -> option (list Q -> list Q)) : world Z (list Q) (list Q) unit unit :=
  mkWorld (fun _ p par => match p_ind p with
                          | Some l => Ok (match par with None => map (fun x => x + 3)%Z l | Some _ => [nth 0 l 0 + 2]%Z end)
                          | None => Err TypeError end)
    (fun x => x) (fun _ _ rows => answer f rows) (fun _ _ _ => None) (fun k _ i => sel i) (fun _ i => Ok [Z.of_nat i]) (fun _ _ => 0%Z) (fun _ => Ok [0]%Z) (fun _ n => seq 0 n)
    (fun _ _ => [0]%Z) (fun _ _ => Ok []) (fun k _ => Ok (prefs k)) (fun _ _ => Ok tt).
Definition ref_cfg (k : kind) (surr : bool) (total : Z) : cfg := mkCfg k surr true true 2 2 total.
Definition plain (i : nat) : res (list Z) := Ok [Z.of_nat i; -1]%Z.

Example ref_honest : forall f sel prefs, honest 0 false (ref_world f sel prefs).
Proof.
  intros f sel prefs k b rows. unfold ref_world, answer. cbn [w_eval]. unfold good_results. cbn [r_obj r_fit r_con r_unc]. rewrite !map_length. split; [tauto|]. split; congruence.
Qed.
Definition ref_on f k := on_problem (ref_world f plain (fun _ => None)) (ref_cfg k false 0) 0 [1; 5; 4]%Z.
Example ref_constructed : constructed (ref_world ob plain (fun _ => None)) (ref_cfg KDecomposition false 0) 0 false [] (ref_on ob KDecomposition).
Proof. left. split; [reflexivity|]. eexists. reflexivity. Qed.
Definition shown (s : st Z (list Q) (list Q) unit unit) := (p_ind (s_pop s), option_map (@a_ind Z (list Q) (list Q)) (s_nd s), (s_fe s, s_gen s, s_iter s), map (fun e => snd (fst e)) (s_log s)).
(** Decomposition, MOEA/D, indicator, tournament and PPGA: one start() and two iterate() of two generations. *)
Example ex_run_decomposition : shown (session dominates (ref_world ob plain (fun _ => None)) (ref_cfg KDecomposition false 0) (ref_on ob KDecomposition) [CStart; CIterate; CIterate]) =
  (Some [1; 16], Some [8; 7], (12, 4, 2), [[1; 5; 4]; [4; 8; 7]; [4; 10]; [ 4; 13]; [4; 16]])%Z.
Proof. vm_compute. reflexivity. Qed.
Example ex_run_moead : shown (session dominates (ref_world ob plain (fun _ => None)) (ref_cfg (KMoead 3 true) false 0) (ref_on ob (KMoead 3 true)) [CStart; CIterate; CIterate]) =
  (Some [9; 11; 11], Some [7; 7; 7; 9; 9; 9], (15, 4, 2), [[1; 5; 4]; [3]; [5]; [5]; [5]; [7]; [7]; [7]; [9]; [9]; [9]; [11]; [11]])%Z.
Proof. vm_compute. reflexivity. Qed.
Example ex_run_indicator : shown (session dominates (ref_world ob plain (fun _ => None)) (ref_cfg (KIndicator 2) false 0) (ref_on ob (KIndicator 2)) [CIterate; CIterate]) =
  (Some [6; 9; 8], None, (7, 4, 2), [[1; 5; 4]; [7]; [6]; [9]; [8]])%Z.
Proof. vm_compute. reflexivity. Qed.
Example ex_run_tournament : shown (session dominates (ref_world ob plain (fun _ => None)) (ref_cfg KTournament false 0) (ref_on ob KTournament) [CIterate]) =
  (Some [5], None, (5, 2, 1), [[1; 5; 4]; [3]; [5]])%Z.
Proof. vm_compute. reflexivity. Qed.
Example ex_run_ppga : shown (session dominates (ref_world ob plain (fun _ => None)) (ref_cfg (KPpga 2) false 0) (ref_on ob (KPpga 2)) [CIterate; CIterate]) =
  (Some [4; 3; 3; 7; 7], None, (7, 4, 2), [[1; 5; 4]; [3]; [3]; [7]; [7]])%Z.
Proof. vm_compute. reflexivity. Qed.
(** The hypotheses of C103 and C104 for both kinds, with two successful iterate() calls. *)
Example ex_ran : forall k, k = KDecomposition \/ k = KMoead 3 true -> exists s1 s2, start dominates (ref_cfg k false 0) (ref_on ob k) = (s1, Ok tt) /\
  ran dominates (ref_world ob plain (fun _ => None)) (ref_cfg k false 0) 2 s1 s2 /\ s_gen s2 = 4%Z.
Proof.
  intros k [->| ->]; eexists; eexists; (split; [vm_compute; reflexivity|]); (split; [eapply ran_more; [vm_compute; reflexivity|eapply ran_more; [vm_compute; reflexivity|apply ran_none]]|reflexivity]).
Qed.
(** A budget of 6: the first generation is allowed (3 evaluated), the second as well (6 are not more than 6), and then it stops, at 8; MOEA/D likewise. *)
Example ex_budget : shown (session dominates (ref_world ob plain (fun _ => None)) (ref_cfg KDecomposition false 6) (ref_on ob KDecomposition) [CStart; CIterate; CIterate; CIterate]) =
  (Some [1; 10], Some [8; 7], (8, 2, 3), [[1; 5; 4]; [4; 8; 7]; [4; 10]])%Z.
Proof. vm_compute. reflexivity. Qed.

(** C103 does not survive a change of preferences (IOPIS, BaseEA.py:272-276): the fitness of the archive's rows is that of the time they were evaluated, and solutions dropped then are not
    reconsidered. Here x = 5 is dropped at start(); with the new fitness g it is neither archived nor is any archived row as good as it. *)
Theorem C103_changed_preferences_refuted : exists (w : world Z (list Q) (list Q) unit unit) (c : cfg) s1 s2 a g, honest 0 false w /\ c_save_nd c = true /\ c_kind c = KDecomposition /\
  start dominates c (on_problem w c 0 [7; 5]%Z) = (s1, Ok tt) /\ iterate dominates w c s1 = (s2, Ok tt) /\ s_nd s2 = Some a /\ (exists k p, w_prefs w k p = Ok (Some g)) /\
  (exists fs, p_fit (s_pop s1) = Some fs /\ In (ob 5) fs) /\ ~ In 5%Z (a_ind a) /\ forall o, In o (a_obj a) -> pareto (g (ob 5)) (g o).
Proof.
  pose (g := fun o : list Q => match o with x :: y :: _ => [- y] | _ => [] end%Q).
  pose (w := ref_world ob plain (fun k => if Nat.eqb k 1 then Some g else None)). pose (c := mkCfg KDecomposition false true true 1 0 0).
  exists w, c, (fst (start dominates c (on_problem w c 0 [7; 5]%Z))), (fst (iterate dominates w c (fst (start dominates c (on_problem w c 0 [7; 5]%Z))))).
  exists (mkArch [7]%Z [ob 7] [ob 7]), g. split; [apply ref_honest|]. split; [reflexivity|]. split; [reflexivity|]. split; [vm_compute; reflexivity|]. split; [vm_compute; reflexivity|].
  split; [vm_compute; reflexivity|]. split; [exists 1, (s_pop (on_problem w c 0 [7; 5]%Z)); reflexivity|]. split; [eexists; split; [vm_compute; reflexivity|]; right; left; vm_compute; reflexivity|].
  split; [intros [H|[]]; discriminate H|]. intros o [<-|[]]. apply dominates_spec. vm_compute. reflexivity.
Qed.
(** C104 with surrogates: the constructor counts the initial rows although the surrogates evaluated them. *)
Theorem C104_surrogate_constructor_refuted : exists (w : world Z (list Q) (list Q) unit unit) (c : cfg) rows, honest 0 false w /\ c_surrogates c = true /\
  real_evals (s_log (on_problem w c 0 rows)) = 0%Z /\ s_fe (on_problem w c 0 rows) = 3%Z.
Proof. exists (ref_world ob plain (fun _ => None)), (ref_cfg KDecomposition true 0), [1; 5; 4]%Z. split; [apply ref_honest|]. split; [reflexivity|]. split; vm_compute; reflexivity. Qed.
(** C104: an indicator-based algorithm asked to use surrogates evaluates every offspring with the problem itself (BaseIndicatorEA.py:125 does not pass the setting on). *)
Theorem C104_indicator_surrogates_refuted : exists (w : world Z (list Q) (list Q) unit unit) (c : cfg) s s', honest 0 false w /\ c_surrogates c = true /\ c_kind c = KIndicator 2 /\
  s = on_problem w c 0 [1; 5; 4]%Z /\ iterate dominates w c s = (s', Ok tt) /\ real_evals (s_log s) = 0%Z /\ real_evals (s_log s') = 2%Z.
Proof.
  exists (ref_world ob plain (fun _ => None)), (ref_cfg (KIndicator 2) true 0). eexists. eexists. split; [apply ref_honest|]. split; [reflexivity|]. split; [reflexivity|]. split; [reflexivity|].
  split; [vm_compute; reflexivity|]. split; vm_compute; reflexivity.
Qed.
(** C104: offspring evaluated in a generation whose selection raises are not counted. *)
Theorem C104_failed_generation_uncounted_refuted : exists (w : world Z (list Q) (list Q) unit unit) (c : cfg) s s' e, honest 0 false w /\ c_surrogates c = false /\
  s = on_problem w c 0 [1; 5; 4]%Z /\ iterate dominates w c (fst (start dominates c s)) = (s', Err e) /\ s_fe s' = 3%Z /\ real_evals (s_log s') = 6%Z.
Proof.
  exists (ref_world ob (fun _ => Err ValueError) (fun _ => None)), (ref_cfg KDecomposition false 0). eexists. eexists. eexists. split; [apply ref_honest|]. split; [reflexivity|]. split; [reflexivity|].
  split; [vm_compute; reflexivity|]. split; vm_compute; reflexivity.
Qed.

Print Assumptions C102_reported_rows_were_evaluated.
Print Assumptions C103_archive_of_a_run.
Print Assumptions C103_start_first.
Print Assumptions C103_changed_preferences_refuted.
Print Assumptions C104_iterate_counts.
Print Assumptions C104_failed_iterate.
Print Assumptions C104_budget.
Print Assumptions C104_run_counts_everything.
Print Assumptions C104_fresh_object.
Print Assumptions C104_run_on_population.
Print Assumptions C104_loops_complete.
Print Assumptions C104_surrogate_constructor_refuted.
Print Assumptions C104_indicator_surrogates_refuted.
Print Assumptions C104_failed_generation_uncounted_refuted.
Print Assumptions C105_decomposition_generation.
Print Assumptions C105_moead_generation.
Print Assumptions C105_indicator_generation.
Print Assumptions C105_tournament_generation.
Print Assumptions C105_ppga_generation.
