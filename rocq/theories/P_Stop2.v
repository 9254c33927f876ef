(** Lemmas for C135, continued: the counters wherever a run is stopped. *)
From Coq Require Import Lia.
From Verif Require Import Base M_Population Spec_Population P_Population M_Archive P_Archive M_Run Spec_Run P_Run P_Run2 P_Run3 M_Stop P_Stop.
Import ListNotations.
Open Scope Z_scope.

Section P.
Context {I O F C U : Type} (dom : F -> F -> bool) (w : world I O F C U) (c : cfg).
Notation st := (st I O F C U).
Notation prog := (@prog I O F C U).
Notation counts := (@counts I O F C U).
Notation log_t := (list (bool * list I * results O F C U)).

Lemma run_stopped {A} (p : prog A) : forall s, exists n, stopped n p s = fst (run_all p s).
Proof.
  induction p as [x|B m k IH]; intros s; [exists 0%nat; reflexivity|]. cbn [run_all]. destruct (m s) as [s' [b|e]] eqn:Em; [|exists 1%nat; cbn [stopped]; rewrite Em; reflexivity].
  destruct (IH b s') as [n Hn]. exists (S n). cbn [stopped]. rewrite Em. exact Hn.
Qed.
Lemma safe_end {A} (P : st -> Prop) (p : prog A) (E : st -> Prop) s : safe P p E -> P s -> E (fst (run_all p s)).
Proof. intros H Hs. destruct (run_stopped p s) as [n <-]. apply H. exact Hs. Qed.
Definition csafe {A} (P : counts -> Prop) (p : prog A) (E : counts -> Prop) : Prop := safe (fun s => P (counts_of s)) p (fun s => E (counts_of s)).
Definition m2 (a n : counts) (fe : Z) (lg : log_t) (g h : Z) : Prop := n = mkCounts (n_fe a + fe) (n_log a ++ lg) (n_gen a + g) (n_gi a + h) (n_it a).
Definition okp (fe : Z) (lg : log_t) (g : Z) : Prop := 0 <= fe <= real_evals lg /\ one_generation c lg /\ 0 <= g <= 1 /\ (match c_kind c with KMoead _ _ => real_evals lg - 1 <= fe | _ => True end).
Definition part (a n : counts) : Prop := exists fe lg g h, m2 a n fe lg g h /\ okp fe lg g.
Lemma m2_part a n fe lg g h : okp fe lg g -> m2 a n fe lg g h -> part a n.
Proof. intros H1 H2. exists fe, lg, g, h. auto. Qed.
Lemma cs_q {A B} (m : st -> st * res B) (k : B -> prog A) a fe lg g h : quiet m -> okp fe lg g ->
  (forall b, csafe (fun n => m2 a n fe lg g h) (k b) (part a)) -> csafe (fun n => m2 a n fe lg g h) (Do B m k) (part a).
Proof.
  intros Hq Hok Hk. apply safe_do with (Q := fun _ s => m2 a (counts_of s) fe lg g h); [intros s Hs; eapply m2_part; eauto| |exact Hk].
  intros s Hs. specialize (Hq s). destruct (m s) as [s' [b|e]]; cbn [fst] in Hq; rewrite Hq; [exact Hs|eapply m2_part; eauto].
Qed.
Lemma cs_q1 {B} (m : st -> st * res B) a fe lg g h : quiet m -> okp fe lg g -> csafe (fun n => m2 a n fe lg g h) (one m) (part a).
Proof. intros Hq Hok. apply cs_q; auto. intros b. apply safe_ret. intros s Hs. eapply m2_part; eauto. Qed.
Lemma cs_ret {A} (x : A) a fe lg g h : okp fe lg g -> csafe (fun n => m2 a n fe lg g h) (Ret x) (part a).
Proof. intros Hok. apply safe_ret. intros s Hs. eapply m2_part; eauto. Qed.
Lemma cs_add {A} (b : bool) (o : offs I) (rows : list I) (k : _ -> prog A) a fe lg g h : okp fe lg g -> (forall r, okp fe (lg ++ [(b, rows, r)]) g) ->
  (forall r r', csafe (fun n => m2 a n fe (lg ++ [(b, rows, r')]) g h) (k r) (part a)) -> csafe (fun n => m2 a n fe lg g h) (Do _ (do_add w b o rows) k) (part a).
Proof.
  intros H0 H1 Hk. pose (P := fun n => m2 a n fe lg g h).
  assert (HE : forall n r, P n -> m2 a (more_log n (b, rows, r)) fe (lg ++ [(b, rows, r)]) g h) by (intros n r ->; unfold m2, more_log; cbn [n_fe n_log n_gen n_gi n_it]; rewrite app_assoc; reflexivity).
  apply safe_do with (Q := fun (_ : results O F C U) s => exists n r, P n /\ counts_of s = more_log n (b, rows, r)); [intros s Hs; eapply m2_part; eauto| |].
  - apply ct_add with (P := P) (E := part a); [intros n Hn; eapply m2_part; eauto|intros n r Hn; eapply m2_part; [apply H1|apply HE; exact Hn]].
  - intros r n s (n0 & r' & Hn & Hs). apply (Hk r r'). rewrite Hs. apply HE. exact Hn.
Qed.
Lemma cs_upd {A} (f : st -> st) (k : unit -> prog A) a fe lg g h fe' g' h' : okp fe lg g -> (forall s, counts_of (f s) = mkCounts (s_fe s + (fe' - fe)) (s_log s) (s_gen s + (g' - g)) (s_gen_in_iter s + (h' - h)) (s_iter s)) ->
  csafe (fun n => m2 a n fe' lg g' h') (k tt) (part a) -> csafe (fun n => m2 a n fe lg g h) (Do _ (upd f) k) (part a).
Proof.
  intros H0 Hf Hk. apply safe_do with (Q := fun _ s => m2 a (counts_of s) fe' lg g' h'); [intros s Hs; eapply m2_part; eauto| |intros []; exact Hk].
  apply t_upd. intros s Hs. rewrite Hf. unfold m2, counts_of in *. injection Hs as E1 E2 E3 E4 E5. rewrite E1, E2, E3, E4, E5. f_equal; lia.
Qed.
Lemma cf_gen (s : st) fe h g : counts_of (inc_gen s) = mkCounts (s_fe s + (fe - fe)) (s_log s) (s_gen s + (g + 1 - g)) (s_gen_in_iter s + (h - h)) (s_iter s).
Proof. unfold counts_of, inc_gen; cbn. f_equal; lia. Qed.
Lemma cf_gi (s : st) fe h g : counts_of (inc_gi s) = mkCounts (s_fe s + (fe - fe)) (s_log s) (s_gen s + (g - g)) (s_gen_in_iter s + (h + 1 - h)) (s_iter s).
Proof. unfold counts_of, inc_gi; cbn. f_equal; lia. Qed.
Lemma cf_fe (s : st) fe h g n : counts_of (add_fe s n) = mkCounts (s_fe s + (fe + n - fe)) (s_log s) (s_gen s + (g - g)) (s_gen_in_iter s + (h - h)) (s_iter s).
Proof. unfold counts_of, add_fe; cbn. f_equal; lia. Qed.
Lemma cs_count {A} m (k : unit -> prog A) a fe lg g h : okp fe lg g -> csafe (fun n => m2 a n (fe + Z.of_nat m) lg g h) (k tt) (part a) -> csafe (fun n => m2 a n fe lg g h) (Do _ (count m) k) (part a).
Proof. intros H Hk. unfold count. eapply cs_upd; [exact H| |exact Hk]. intros s. apply cf_fe. Qed.
Lemma cs_gen {A} (k : unit -> prog A) a fe lg g h : okp fe lg g -> csafe (fun n => m2 a n fe lg (g + 1) h) (k tt) (part a) -> csafe (fun n => m2 a n fe lg g h) (Do _ (upd inc_gen) k) (part a).
Proof. intros H Hk. eapply cs_upd; [exact H| |exact Hk]. intros s. apply cf_gen. Qed.
Lemma cs_gi {A} (k : unit -> prog A) a fe lg g h : okp fe lg g -> csafe (fun n => m2 a n fe lg g (h + 1)) (k tt) (part a) -> csafe (fun n => m2 a n fe lg g h) (Do _ (upd inc_gi) k) (part a).
Proof. intros H Hk. eapply cs_upd; [exact H| |exact Hk]. intros s. apply cf_gi. Qed.
Lemma m2_0 a : m2 a a 0 [] 0 0.
Proof. unfold m2. destruct a. cbn. rewrite app_nil_r. f_equal; lia. Qed.
Lemma okp_nil : okp 0 [] 0.
Proof. split; [cbn; lia|]. split; [apply one_gen_nil|]. split; [lia|]. destruct (c_kind c); auto; cbn; lia. Qed.
Lemma okp_single fe g (e : bool * list I * results O F C U) : (match c_kind c with KMoead _ _ => False | _ => True end) -> fst (fst e) = by_surrogate c -> 0 <= fe <= real_evals [e] -> 0 <= g <= 1 -> okp fe [e] g.
Proof. intros H1 H2 H3 H4. split; [auto|]. split; [apply one_gen_single; auto|]. split; [auto|]. destruct (c_kind c); auto; contradiction. Qed.
Lemma real_one b rows r : real_evals [(b, rows, r) : bool * list I * results O F C U] = if b then 0 else Z.of_nat (length rows).
Proof. apply real_evals_one. Qed.

Hint Resolve q_ask q_keep q_delete q_replace q_archive q_skip q_env okp_nil : core.

Lemma cs_dec a : c_kind c = KDecomposition -> csafe (fun n => m2 a n 0 [] 0 0) (dec_prog dom w c) (part a).
Proof.
  intros Hk. assert (Hs1 : match c_kind c with KMoead _ _ => False | _ => True end) by (rewrite Hk; auto). assert (Hs2 : c_surrogates c = by_surrogate c) by (unfold by_surrogate; rewrite Hk; auto).
  unfold dec_prog. apply cs_q; auto. intros off. assert (H1 : forall r g, 0 <= g <= 1 -> okp 0 [(c_surrogates c, off, r)] g).
  { intros r g Hg. apply okp_single; auto. rewrite real_one. destruct (c_surrogates c); lia. }
  apply cs_add; auto. { intros r. apply H1. lia. } intros r r'. cbn [app].
  apply cs_q; [destruct (c_save_nd c); auto|apply H1; lia|]. intros ?. apply cs_q; [auto|apply H1; lia|]. intros sel. apply cs_q; [auto|apply H1; lia|]. intros ?.
  apply cs_gen; [apply H1; lia|]. apply cs_gi; [apply H1; lia|]. destruct (c_surrogates c) eqn:Es; [apply cs_q1; [auto|apply H1; lia]|].
  apply cs_count; [apply H1; lia|]. apply cs_ret. apply okp_single; auto. rewrite real_one. lia. lia.
Qed.
Lemma cs_sub a m ur ur' i j : c_kind c = KMoead m ur' -> (S j <= m)%nat -> csafe (fun n => at_sub c a n j) (sub_prog dom w c ur i) (part a).
Proof.
  intros Hk Hj.
  assert (T : forall lg, singles c lg -> length lg = j -> csafe (fun n => m2 a n (real_evals lg) lg 0 0) (sub_prog dom w c ur i) (part a)).
  2: { intros n s (lg & H1 & H2 & H3). apply (T lg H1 H2 n s). exact H3. }
  intros lg Hs Hl. assert (Hg : one_generation c lg) by (eapply singles_one; eauto; lia). pose proof (real_evals_nonneg lg) as Hn.
  assert (Hok : okp (real_evals lg) lg 0). { split; [lia|]. split; auto. split; [lia|]. rewrite Hk. lia. }
  unfold sub_prog. apply cs_q; auto. intros par. apply cs_q; auto. intros [|o offs].
  { apply cs_q1; auto. intros s. reflexivity. }
  cbv zeta. set (off := if ur then w_repair w o else o).
  assert (Hg1 : forall r fe, real_evals lg <= fe <= real_evals (lg ++ [(c_surrogates c, [off], r)]) -> okp fe (lg ++ [(c_surrogates c, [off], r)]) 0).
  { intros r fe. rewrite real_evals_app, real_one. cbn [length]. intros Hf. split; [rewrite real_evals_app, real_one; cbn [length]; lia|]. split.
    - eapply singles_one; eauto; [|rewrite app_length; cbn [length]; lia]. intros e He. apply in_app_or in He. destruct He as [He|[<-|[]]]; auto.
    - split; [lia|]. rewrite Hk, real_evals_app, real_one. cbn [length]. destruct (c_surrogates c); lia. }
  apply cs_add; auto. { intros r. apply Hg1. rewrite real_evals_app, real_one. destruct (c_surrogates c); cbn [length]; lia. } intros r r'.
  specialize (Hg1 r'). set (lg' := lg ++ [(c_surrogates c, [off], r')]) in *.
  assert (Hr : real_evals lg' = real_evals lg + if c_surrogates c then 0 else 1) by (unfold lg'; rewrite real_evals_app, real_one; reflexivity).
  assert (R : forall fe, okp fe lg' 0 -> csafe (fun n => m2 a n fe lg' 0 0) (Do _ (ask (fun k p => w_select w k p i)) (fun sel => Do _ (do_replace sel off r) (fun _ => Do _ (do_delete [-1]) (fun _ =>
      one (if c_save_nd c then do_archive dom [off] r else upd (fun s => s)))))) (part a)).
  { intros fe H. apply cs_q; auto. intros sel. apply cs_q; auto. intros ?. apply cs_q; auto. intros ?. apply cs_q1; auto. destruct (c_save_nd c); auto. }
  destruct (c_surrogates c) eqn:Es.
  - apply cs_q; [auto|apply Hg1; lia|]. intros ?. apply R. apply Hg1. lia.
  - apply cs_count; [apply Hg1; lia|]. apply R. apply Hg1. change (Z.of_nat 1) with 1. lia.
Qed.
Lemma cs_subs a m ur ur' is : c_kind c = KMoead m ur' -> forall j, (j + length is <= m)%nat -> csafe (fun n => at_sub c a n j) (subs_prog dom w c ur is) (part a).
Proof.
  intros Hk. induction is as [|i is IH]; intros j Hj; cbn [subs_prog length] in *.
  - apply safe_ret. intros s (lg & H1 & H2 & H3). apply (m2_part a (counts_of s) (real_evals lg) lg 0 0); [|exact H3]. pose proof (real_evals_nonneg lg). split; [lia|]. split; [eapply singles_one; eauto; lia|]. split; [lia|]. rewrite Hk. lia.
  - apply safe_seqp with (Q := fun _ s => at_sub c a (counts_of s) (S j)); [eapply cs_sub; eauto; lia| |].
    + eapply triple_ext; [apply run_sub|]. intros s Hs. pose proof (ct_sub dom w c a m ur ur' i j Hk ltac:(lia) s Hs) as T. pose proof (safe_end _ _ _ s (cs_sub a m ur ur' i j Hk ltac:(lia)) Hs) as K.
      rewrite run_sub in K. destruct (moead_sub dom w c ur i s) as [s' [x|e]]; [exact T|exact K].
    + intros ?. apply IH. lia.
Qed.

Lemma cs_moead a m ur : c_kind c = KMoead m ur -> csafe (fun n => m2 a n 0 [] 0 0) (moead_prog dom w c m ur) (part a).
Proof.
  intros Hk. unfold moead_prog.
  assert (Hin : forall s : st, m2 a (counts_of s) 0 [] 0 0 -> at_sub c a (counts_of s) 0). { intros s Hs. exists []. split; [intros ? []|]. split; [reflexivity|]. exact Hs. }
  assert (K : csafe (fun n => m2 a n 0 [] 0 0) (subs_prog dom w c ur (seq 0 m)) (part a)).
  { intros n s Hs. apply (cs_subs a m ur ur (seq 0 m) Hk 0); [rewrite seq_length; lia|]. apply Hin. exact Hs. }
  apply safe_seqp with (Q := fun _ s => at_sub c a (counts_of s) m); [exact K| |].
  - eapply triple_ext; [apply run_subs|]. intros s Hs. pose proof (ct_subs dom w c a m ur ur (seq 0 m) Hk 0 ltac:(rewrite seq_length; lia) s (Hin s Hs)) as T.
    pose proof (safe_end _ _ _ s K Hs) as K'. rewrite run_subs in K'. rewrite seq_length in T. destruct (moead_subs dom w c ur (seq 0 m) s) as [s' [x|e]]; [exact T|exact K'].
  - intros ?.
    assert (T : forall lg, singles c lg -> length lg = m -> csafe (fun n => m2 a n (real_evals lg) lg 0 0) (Do _ (upd inc_gen) (fun _ => one (upd inc_gi))) (part a)).
    { intros lg H1 H2. pose proof (real_evals_nonneg lg). assert (Hok : forall g, 0 <= g <= 1 -> okp (real_evals lg) lg g).
      { intros g Hg. split; [lia|]. split; [eapply singles_one; eauto; lia|]. split; [lia|]. rewrite Hk. lia. }
      apply cs_gen; [apply Hok; lia|]. apply cs_gi; [apply Hok; lia|]. apply cs_ret. apply Hok. lia. }
    intros n s (lg & H1 & H2 & H3). apply (T lg H1 H2 n s). exact H3.
Qed.
Lemma cs_env a n : forall fuel, csafe (fun k => m2 a k 0 [] 0 0) (env_prog w fuel n) (part a).
Proof.
  induction fuel as [|f IH]; cbn [env_prog]; (apply cs_q; [intros s; reflexivity|auto|]); intros m; (destruct (Nat.ltb n m); [|apply cs_ret; auto]).
  - apply cs_q1; auto. intros s. reflexivity.
  - apply cs_q; auto. intros z. apply cs_q; auto.
Qed.
(** The common end of the generations that add one batch and count it. *)
Lemma cs_batch {A} a (off : list I) (k : unit -> prog A) : (match c_kind c with KMoead _ _ => False | _ => True end) -> by_surrogate c = false ->
  (forall lg, okp (real_evals lg) lg 1 -> csafe (fun n => m2 a n (real_evals lg) lg 1 1) (k tt) (part a)) ->
  csafe (fun n => m2 a n 0 [] 0 0) (Do _ (do_add w false (OBatch off) off) (fun _ => Do _ (upd inc_gen) (fun _ => Do _ (upd inc_gi) (fun _ => Do _ (count (length off)) k)))) (part a).
Proof.
  intros H1 H2 Hk. assert (Ho : forall fe r g, 0 <= g <= 1 -> 0 <= fe <= Z.of_nat (length off) -> okp fe [(false, off, r)] g) by (intros fe r g Hg Hf; apply okp_single; auto; rewrite real_one; exact Hf).
  apply cs_add; auto. { intros r. apply Ho; lia. } intros r r'. cbn [app]. apply cs_gen; [apply Ho; lia|]. apply cs_gi; [apply Ho; lia|]. apply cs_count; [apply Ho; lia|].
  replace (0 + Z.of_nat (length off)) with (real_evals [(false, off, r')]) by (rewrite real_one; lia). apply Hk. apply Ho; [lia|]. rewrite real_one. lia.
Qed.
Lemma cs_next a : csafe (fun n => m2 a n 0 [] 0 0) (next_prog dom w c) (part a).
Proof.
  unfold next_prog. destruct (c_kind c) as [|m ur|m| |k] eqn:Hk; [apply cs_dec; auto|apply cs_moead; auto| | |].
  - assert (H1 : match c_kind c with KMoead _ _ => False | _ => True end) by (rewrite Hk; auto). assert (H2 : by_surrogate c = false) by (unfold by_surrogate; rewrite Hk; auto).
    unfold ind_prog. apply cs_q; [intros s; reflexivity|auto|]. intros fuel. apply safe_seqp with (Q := fun _ s => m2 a (counts_of s) 0 [] 0 0); [apply cs_env| |].
    { eapply triple_ext; [apply run_env|]. intros s Hs. pose proof (q_env w fuel m s) as Hq. destruct (env_sel w fuel m s) as [s' [x|e]]; cbn [fst] in Hq; rewrite Hq; [exact Hs|eapply m2_part; eauto]. }
    intros ?. apply cs_q; auto. intros ch. apply cs_q; auto. intros off. apply cs_batch; auto. intros lg Hl. apply cs_ret. exact Hl.
  - assert (H1 : match c_kind c with KMoead _ _ => False | _ => True end) by (rewrite Hk; auto). assert (H2 : by_surrogate c = false) by (unfold by_surrogate; rewrite Hk; auto).
    unfold tour_prog. apply cs_q; auto. intros ch. apply cs_q; auto. intros off. apply cs_q; [intros s; destruct (rows_count s); [apply q_delete|reflexivity]|auto|]. intros ?.
    apply cs_batch; auto. intros lg Hl. apply cs_ret. exact Hl.
  - assert (H1 : match c_kind c with KMoead _ _ => False | _ => True end) by (rewrite Hk; auto). assert (H2 : by_surrogate c = false) by (unfold by_surrogate; rewrite Hk; auto).
    unfold ppga_prog. apply cs_q; auto. intros prs. apply cs_q; auto. intros off. apply cs_q; auto. intros placed. cbv zeta. apply cs_batch; auto. intros lg Hl.
    apply cs_q; [intros s; reflexivity|auto|]. intros due. apply safe_seqp with (Q := fun _ s => m2 a (counts_of s) (real_evals lg) lg 1 1).
    + destruct due; [|apply cs_ret; auto]. apply cs_q; auto. intros sel. apply cs_q1; auto.
    + intros s Hs. destruct due; cbn [run_all]; [|exact Hs].
      pose proof (q_ask (fun k p => Ok (w_cull w k p)) s) as Hq. destruct (ask _ s) as [s' [sel|e]]; cbn [fst] in Hq; [|rewrite Hq; eapply m2_part; eauto].
      rewrite run_one. pose proof (q_delete sel s') as Hq'. destruct (do_delete sel s') as [s'' [x|e]]; cbn [fst] in Hq'; rewrite Hq', Hq; [exact Hs|eapply m2_part; eauto].
    + intros ?. apply cs_q; auto. intros dead. apply cs_q1; auto.
Qed.

(** *** iterate() *)
Definition stop_err (a n : counts) : Prop := exists l1 l2, n_log n = n_log a ++ l1 ++ l2 /\ flagged c l1 /\ one_generation c l2 /\
  n_it n = n_it a /\ 0 <= n_fe n - n_fe a - real_evals l1 <= real_evals l2 /\ 0 <= n_gen n - n_gen a <= Z.max 0 (c_n_gen_per_iter c) /\ in_budget c a n /\
  (match c_kind c with KMoead _ _ => real_evals l2 - 1 <= n_fe n - n_fe a - real_evals l1 | _ => True end).
Lemma cs_loop a fuel : forall n0, loop_inv c a n0 -> csafe (fun n => n = n0) (loop_prog dom w c fuel) (stop_err a).
Proof.
  assert (HE : forall n, loop_inv c a n -> stop_err a n).
  { intros n (lg & N0 & Nf & N1 & N3 & N4 & N5 & N6). exists lg, []. rewrite app_nil_r. split; auto. split; auto. split; [apply one_gen_nil|]. split; auto. change (real_evals ([] : log_t)) with 0. split; [lia|]. split; [lia|]. split; auto. destruct (c_kind c); auto. lia. }
  induction fuel as [|f IH]; intros n0 Hn; cbn [loop_prog].
  { apply safe_one with (Q := fun _ s => counts_of s = n0); [intros s ->; auto|intros _ s ->; auto|]. intros s ->. auto. }
  apply safe_do with (Q := fun b s => counts_of s = n0 /\ b = continue_iteration c s); [intros s ->; auto|intros s Hs; split; auto|].
  intros b. destruct b; [|apply safe_ret; intros s (-> & _); auto].
  destruct Hn as (l0 & N0 & Nf & N1 & N3 & N4 & N5 & N6).
  destruct (n_gi n0 <? c_n_gen_per_iter c) eqn:E1.
  2: { intros n s (Hs & Hb). exfalso. unfold continue_iteration in Hb. assert (Hgi : s_gen_in_iter s = n_gi n0) by (rewrite <- Hs; reflexivity). rewrite Hgi, E1 in Hb. discriminate. }
  apply Z.ltb_lt in E1. destruct (if c_total_fe c =? 0 then true else n_fe n0 <=? c_total_fe c) eqn:E2.
  2: { intros n s (Hs & Hb). exfalso. unfold continue_iteration, check_FE in Hb. assert (Hfe : s_fe s = n_fe n0) by (rewrite <- Hs; reflexivity). rewrite Hfe, E2, Bool.andb_false_r in Hb. discriminate. }
  assert (Hb : c_total_fe c <> 0 -> n_fe n0 <= c_total_fe c).
  { intros H. destruct (c_total_fe c =? 0) eqn:E3; [apply Z.eqb_eq in E3; lia|]. apply Z.leb_le in E2. auto. }
  assert (Bud : forall n lg, n_log n = n_log n0 ++ lg -> one_generation c lg -> in_budget c a n).
  { intros n lg W0 Wg Ht. right. exists l0, lg. rewrite W0, N0, app_assoc. split; auto. split; auto. rewrite <- N3. specialize (Hb Ht). lia. }
  assert (PE : forall n, part n0 n -> stop_err a n).
  { intros n (fe & lg & g & h & -> & (O1 & O2 & O3 & O4)). exists l0, lg. cbn [n_fe n_log n_gen n_gi n_it]. rewrite N0, app_assoc. split; auto. split; auto. split; auto. split; auto. split; [lia|]. split; [lia|].
    split; [apply Bud with (lg := lg); [cbn [n_log]; rewrite N0; reflexivity|exact O2]|]. revert O4. destruct (c_kind c); auto. intros O4. lia. }
  assert (K : safe (fun s : st => counts_of s = n0 /\ true = continue_iteration c s) (next_prog dom w c) (fun s => stop_err a (counts_of s))).
  { intros n s (Hs & _). apply PE. apply (cs_next n0 n s). cbv beta. rewrite Hs. apply m2_0. }
  apply safe_seqp with (Q := fun _ s => one_gen c n0 (counts_of s)); [exact K| |].
  - eapply triple_ext; [apply run_next|]. intros s Hs. pose proof (ct_next dom w c n0 s (proj1 Hs)) as T. pose proof (safe_end _ _ _ s K Hs) as K'. rewrite run_next in K'.
    destruct (next_gen dom w c s) as [s' [x|e]]; [exact T|exact K'].
  - intros ? n s Hs. apply (IH (counts_of s)); [|reflexivity].
    destruct Hs as (lg & W0 & Wg & W1 & W2 & W4 & W5). exists (l0 ++ lg). rewrite W0, N0, real_evals_app, app_assoc. split; auto. split; [intros e He; apply in_app_or in He; destruct He; [auto|apply Wg; auto]|]. split; [lia|]. split; [lia|]. split; [lia|]. split; [lia|]. eapply Bud; eauto.
Qed.
(** A stopped iterate() is one that returned, or one that was stopped inside. *)
Lemma stop_counts n s : stop_err (counts_of s) (counts_of (stopped n (iterate_prog dom w c) s)) \/ iterate dom w c s = (stopped n (iterate_prog dom w c) s, Ok tt).
Proof.
  set (a := counts_of s). pose (a0 := mkCounts (n_fe a) (n_log a) (n_gen a) 0 (n_it a)).
  assert (Ba : forall n, n_log n = n_log a -> in_budget c a n) by (intros k Hn Ht; left; exact Hn).
  assert (La0 : loop_inv c a a0).
  { exists []. rewrite app_nil_r. split; auto. split; [intros ? []|]. split; auto. split; [cbn; lia|]. split; [cbn; lia|]. split; [cbn; lia|]. apply Ba. reflexivity. }
  assert (La : forall k, n_fe k = n_fe a -> n_log k = n_log a -> n_gen k = n_gen a -> n_it k = n_it a -> stop_err a k).
  { intros k K1 K2 K3 K4. exists [], []. cbn [app]. rewrite app_nil_r. split; auto. split; [intros ? []|]. split; [apply one_gen_nil|]. split; auto. change (real_evals ([] : log_t)) with 0. split; [lia|]. split; [lia|]. split; auto. destruct (c_kind c); auto; lia. }
  assert (Le : forall k, k = a -> stop_err a k) by (intros k ->; apply La; auto).
  pose (body := Do _ (ask (w_prefs w)) (fun g => Do _ (match g with None => upd (fun s => s) | Some g => do_reeval g end) (fun _ => Do _ (upd (fun s => if c_keep_archive c then snap s else s)) (fun _ =>
    Do _ (ask (w_adapt w)) (fun _ => Do _ (upd reset_gen) (fun _ => loop_prog dom w c (S (Z.to_nat (c_n_gen_per_iter c)))))))) : prog unit).
  assert (Eb : iterate_prog dom w c = seqp body (fun _ => one (upd bump_iter))) by reflexivity.
  assert (Hq : forall {A B} (m : st -> st * res B) (k : B -> prog A), quiet m -> (forall b, csafe (fun k => k = a) (k b) (stop_err a)) -> csafe (fun k => k = a) (Do B m k) (stop_err a)).
  { intros A B m k Hm Hk. apply safe_do with (Q := fun _ s => counts_of s = a); [intros s0 Hs0; apply Le; exact Hs0| |exact Hk]. intros s0 Hs0. specialize (Hm s0).
    destruct (m s0) as [s' [b|e]]; cbn [fst] in Hm; rewrite Hm; [exact Hs0|apply Le; exact Hs0]. }
  assert (Tb : csafe (fun k => k = a) body (stop_err a)).
  { unfold body. apply Hq; [apply q_ask|]. intros g. apply Hq; [destruct g; [apply q_reeval|apply q_skip]|]. intros ?. apply Hq; [intros s0; destruct (c_keep_archive c); reflexivity|]. intros ?.
    apply Hq; [apply q_ask|]. intros ?. apply safe_do with (Q := fun _ s => counts_of s = a0); [intros s0 Hs0; apply Le; exact Hs0| |].
    - apply t_upd. intros s0 Hs0. unfold a0. rewrite <- Hs0. reflexivity.
    - intros ?. apply cs_loop. exact La0. }
  destruct (stopped_seqp (fun _ => one (upd bump_iter)) body n s) as [E|(x & s' & m & Er & E)].
  - left. rewrite Eb, E. apply (Tb n s). reflexivity.
  - destruct m as [|m].
    + left. rewrite Eb, E. rewrite stopped_0. pose proof (safe_end _ _ _ s Tb eq_refl) as K. rewrite Er in K. exact K.
    + right. rewrite Eb, E. rewrite <- run_iterate, Eb, run_seqp, Er. cbn [stopped one run_all]. unfold upd. destruct m; reflexivity.
Qed.
End P.
