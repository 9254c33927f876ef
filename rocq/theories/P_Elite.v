(** Proofs about the best solutions of NSGA-III runs. *)
From Verif Require Import Base RVec M_Population Spec_Population P_Population M_Archive M_Run Spec_Run P_Run P_Run2 P_Run3 Spec_RunSel P_RunSel.
From Verif Require Import M_NSGA3 P_NSGA3 Spec_Fronts Properties_NSGA3 Properties_RunSel Spec_Elite.
From Coq Require Import Reals Lia Permutation.
Open Scope nat_scope.

(** [js]: the positions in [A] of the rows of [P]. *)
Definition at_pos {X : Type} (A : list X) (js : list nat) (P : list X) : Prop := Forall2 (fun j x => nth_error A j = Some x) js P.

Section Abstract.
Context {X : Type} (fit : X -> list R).
Notation unb := (unbeaten fit).

Lemma at_pos_app (A B : list X) js P : at_pos A js P -> at_pos (A ++ B) js P.
Proof. intros H. induction H as [|j x js P H1 H2 IH]; constructor; auto. rewrite nth_error_app1; auto. apply nth_error_Some. congruence. Qed.
Lemma at_pos_new (A B : list X) : at_pos (A ++ B) (seq (length A) (length B)) B.
Proof.
  revert A. induction B as [|b B IH]; intros A; cbn [length seq]; constructor.
  - rewrite nth_error_app2, Nat.sub_diag; [reflexivity|lia].
  - specialize (IH (A ++ [b])). rewrite app_length in IH. cbn [length] in IH. rewrite Nat.add_1_r, <- app_assoc in IH. exact IH.
Qed.
Lemma at_pos_nth (A : list X) js P : at_pos A js P -> forall t x, nth_error P t = Some x -> exists j, nth_error js t = Some j /\ nth_error A j = Some x.
Proof. intros H. induction H as [|j y js P H1 H2 IH]; intros [|t] x Hx; cbn in *; try discriminate; [injection Hx as <-; eauto|eauto]. Qed.
Lemma at_pos_in (A : list X) js P j : at_pos A js P -> In j js -> exists t x, nth_error js t = Some j /\ nth_error P t = Some x /\ nth_error A j = Some x.
Proof.
  intros H Hj. apply In_nth_error in Hj as [t Ht]. exists t. revert t Ht. induction H as [|j' y js P H1 H2 IH]; intros [|t] Ht; cbn in *; try discriminate.
  - injection Ht as <-. exists y. auto.
  - apply IH; exact Ht.
Qed.
Lemma at_pos_lt (A : list X) js P j : at_pos A js P -> In j js -> j < length A.
Proof. intros H Hj. destruct (at_pos_in A js P j H Hj) as (t & x & _ & _ & E). apply nth_error_Some. congruence. Qed.
Lemma select_at (A : list X) js P f : forall k, at_pos A js P -> at_pos A (select_pos_from k f js) (select_pos_from k f P).
Proof. intros k H. revert k. induction H as [|j x js P H1 H2 IH]; intros k; cbn [select_pos_from]; [constructor|]. destruct (f k); [constructor; auto; apply IH|apply IH]. Qed.
Lemma NoDup_select {Y} (l : list Y) f : forall k, NoDup l -> NoDup (select_pos_from k f l).
Proof.
  induction l as [|x l IH]; intros k H; cbn [select_pos_from]; [constructor|]. inversion H as [|? ? N1 N2]; subst. destruct (f k); [|apply IH; exact N2].
  constructor; [|apply IH; exact N2]. intros Hx. apply N1. apply In_select_pos_from in Hx as (i & Hi & _). eapply nth_error_In; eauto.
Qed.

(** Every row is unbeaten or beaten by an unbeaten one. *)
Lemma beaten_by_best (A : list X) y x : In y A -> rdominates (fit y) (fit x) -> exists j z, nth_error A j = Some z /\ unb A j /\ rdominates (fit z) (fit x).
Proof.
  intros Hy D. apply In_nth_error in Hy as [jy Hy].
  assert (Rel : forall i j, row_dom (map fit A) i j <-> exists a b, nth_error A i = Some a /\ nth_error A j = Some b /\ rdominates (fit a) (fit b)).
  { intros i j. unfold row_dom. rewrite !nth_error_map. split.
    - intros (a & b & Ha & Hb & E). destruct (nth_error A i) as [a'|]; [|discriminate]. destruct (nth_error A j) as [b'|]; [|discriminate]. injection Ha as <-. injection Hb as <-. eauto.
    - intros (a & b & -> & -> & E). cbn. eauto. }
  destruct (minimal_below (row_dom (map fit A)) (row_dom_dec (map fit A)) (row_dom_irrefl (map fit A)) (row_dom_trans (map fit A)) (fun _ => True) (seq 0 (length A)) jy) as (j & J1 & _ & J3 & J4); auto.
  { apply in_seq. assert (jy < length A) by (apply nth_error_Some; congruence). lia. }
  assert (Ez : exists z, nth_error A j = Some z). { apply in_seq in J1. destruct (nth_error A j) eqn:E; [eauto|]. apply nth_error_None in E. lia. }
  destruct Ez as (z & Ez). exists j, z. split; [exact Ez|]. split.
  - exists z. split; [exact Ez|]. intros q Hq Dq. apply In_nth_error in Hq as [k Hk]. apply (J4 k).
    + apply in_seq. assert (k < length A) by (apply nth_error_Some; congruence). lia.
    + apply Rel. eauto.
  - destruct J3 as [->|J3]; [congruence|]. apply Rel in J3. destruct J3 as (a & b & Ha & Hb & E). assert (a = z) by congruence. assert (b = y) by congruence. subst. eapply rdominates_trans; eauto.
Qed.

Variable n : nat.
(** The population [P] has all the best rows of [A]. *)
Definition elite (A P : list X) : Prop := exists js, NoDup js /\ at_pos A js P /\ forall j, unb A j -> In j js.

Lemma elite_all A : elite A A.
Proof. exists (seq 0 (length A)). split; [apply seq_NoDup|]. split; [apply (at_pos_new [] A)|]. intros j (x & Hx & _). apply in_seq. assert (j < length A) by (apply nth_error_Some; congruence). lia. Qed.

Lemma elite_step A P B sel : elite A P -> at_most_best fit n (A ++ B) ->
  (forall t, t < length (P ++ B) -> unb (P ++ B) t -> (forall js, NoDup js -> (forall j, In j js -> unb (P ++ B) j) -> length js <= n) -> In t sel) ->
  (forall i, In i sel -> i < length (P ++ B)) ->
  elite (A ++ B) (select_pos (listed (length (P ++ B)) (map Z.of_nat sel)) (P ++ B)).
Proof.
  intros (js & N & At & Ab) Few Sel Rng. set (M := P ++ B) in *. set (ks := js ++ seq (length A) (length B)).
  assert (AtM : at_pos (A ++ B) ks M).
  { unfold ks, M, at_pos. apply Forall2_app; [apply (at_pos_app A B); exact At|apply at_pos_new]. }
  assert (Nk : NoDup ks).
  { unfold ks. apply NoDup_app_intro; [exact N|apply seq_NoDup|]. intros j J1 J2. apply in_seq in J2. pose proof (at_pos_lt A js P j At J1). lia. }
  assert (Up : forall j, unb (A ++ B) j -> In j ks).
  { intros j (x & Hx & Hn). unfold ks. apply in_or_app. destruct (Nat.lt_ge_cases j (length A)) as [L|L].
    - left. apply Ab. exists x. rewrite nth_error_app1 in Hx by exact L. split; [exact Hx|]. intros y Hy. apply Hn. apply in_or_app. left. exact Hy.
    - right. apply in_seq. split; [exact L|]. rewrite <- app_length. apply nth_error_Some. congruence. }
  assert (Sub : forall y, In y M -> In y (A ++ B)).
  { intros y Hy. apply In_nth_error in Hy as [t Ht]. destruct (at_pos_nth _ _ _ AtM t y Ht) as (j & _ & Hj). eapply nth_error_In; eauto. }
  assert (Unb : forall t j, nth_error ks t = Some j -> unb M t -> unb (A ++ B) j).
  { intros t j Hj (x & Hx & Hn). destruct (at_pos_nth _ _ _ AtM t x Hx) as (j' & J1 & J2). assert (j' = j) by congruence. subst j'. exists x. split; [exact J2|]. intros y Hy D.
    destruct (beaten_by_best (A ++ B) y x Hy D) as (jz & z & Z1 & Z2 & Z3). pose proof (Up jz Z2) as Hz. destruct (at_pos_in _ _ _ jz AtM Hz) as (tz & z' & _ & T2 & T3).
    assert (z' = z) by congruence. subst z'. apply (Hn z); [eapply nth_error_In; eauto|exact Z3]. }
  assert (FewM : forall ts, NoDup ts -> (forall t, In t ts -> unb M t) -> length ts <= n).
  { intros ts Nt Ht. rewrite <- (map_length (fun t => nth t ks 0) ts). apply Few.
    - assert (Lk : forall t, In t ts -> t < length ks).
      { intros t T. destruct (Ht t T) as (x & Hx & _). destruct (at_pos_nth _ _ _ AtM t x Hx) as (j & J & _). apply nth_error_Some. congruence. }
      clear - Nt Lk Nk. induction ts as [|t ts IH]; cbn [map]; [constructor|]. inversion Nt as [|? ? N1 N2]; subst. constructor.
      + intros Hx. apply in_map_iff in Hx as (t' & E & T'). apply N1. assert (t' = t); [|congruence].
        apply (proj1 (NoDup_nth ks 0) Nk); [apply Lk; right; exact T'|apply Lk; left; reflexivity|exact E].
      + apply IH; [exact N2|]. intros t' T'. apply Lk. right. exact T'.
    - intros j Hj. apply in_map_iff in Hj as (t & <- & T). pose proof (Ht t T) as U. destruct U as (x & Hx & Hn). destruct (at_pos_nth _ _ _ AtM t x Hx) as (j & J & _).
      rewrite (nth_error_nth ks t 0 J). apply (Unb t); [exact J|exists x; split; assumption]. }
  exists (select_pos (listed (length M) (map Z.of_nat sel)) ks). split; [apply NoDup_select; exact Nk|]. split; [apply select_at; exact AtM|].
  intros j Hj. pose proof (Up j Hj) as K. destruct (at_pos_in _ _ _ j AtM K) as (t & x & K1 & K2 & K3).
  assert (Lt : t < length M) by (apply nth_error_Some; congruence).
  apply In_select_pos_from. exists t. split; [exact K1|]. rewrite Nat.add_0_l. apply listed_nats; [exact Rng|exact Lt|]. apply Sel; [exact Lt| |exact FewM].
  exists x. split; [exact K2|]. intros y Hy D. destruct Hj as (x' & X1 & X2). assert (x' = x) by congruence. subst x'. apply (X2 y); [apply Sub; exact Hy|exact D].
Qed.
End Abstract.

(** NSGAIII_select.do selects every unbeaten row when there are at most [n]. *)
Lemma nsga3_keeps_best {X} (fit : X -> list R) fnds solve rng dirs s rows n s' sel t : fnds_contract fnds -> shuffles rng -> dirs <> [] -> rows <> [] -> n3 s = Some n -> n <= length rows ->
  nsga3_do fnds solve rng dirs s (map fit rows) = Ok (s', sel) -> at_most_best fit n rows -> unbeaten fit rows t -> In t sel.
Proof.
  intros Hf Hsh Hd Hne Hn Hl Hdo Few (x & Hx & Hu).
  assert (Hne' : map fit rows <> []) by (intros E; apply map_eq_nil in E; contradiction). assert (Hl' : n <= length (map fit rows)) by (rewrite map_length; exact Hl).
  destruct (C33_exact_count fnds solve rng dirs s (map fit rows) n Hf Hsh Hd Hne' Hn Hl') as (s0 & sel0 & E0 & L & ND & Rg & _). rewrite Hdo in E0. injection E0 as <- <-.
  destruct (C34_fronts_in_order fnds solve rng dirs s (map fit rows) n s' sel Hf Hsh Hd Hne' Hn Hl' Hdo) as (a & Bef & Aft).
  pose proof (Hf (map fit rows)) as SF. destruct SF as [Pm Ne Or Pr].
  assert (Ht : t < length rows) by (apply nth_error_Some; congruence).
  assert (Wh : forall i, i < length rows -> exists b f, nth_error (fnds (map fit rows)) b = Some f /\ In i f).
  { intros i Hi. assert (Y : In i (concat (fnds (map fit rows)))). { eapply Permutation_in; [apply Permutation_sym; exact Pm|]. apply in_seq. rewrite map_length. lia. }
    apply in_concat in Y as (f & F1 & F2). apply In_nth_error in F1 as [b F1]. eauto. }
  destruct (Wh t Ht) as (b & f & Hb & Htf).
  assert (b = 0).
  { destruct b as [|b]; [reflexivity|]. exfalso. destruct (nth_error (fnds (map fit rows)) b) as [f'|] eqn:Eb.
    - destruct (Pr b f' f t Eb Hb Htf) as (i & _ & (p & q & P1 & P2 & P3)). rewrite nth_error_map, Hx in P2. injection P2 as <-. rewrite nth_error_map in P1.
      destruct (nth_error rows i) as [y|] eqn:Ei; [|discriminate]. injection P1 as <-. apply (Hu y); [eapply nth_error_In; eauto|exact P3].
    - apply nth_error_None in Eb. assert (S b < length (fnds (map fit rows))) by (apply nth_error_Some; congruence). lia. }
  subst b. destruct a as [|a]; [|apply (Bef 0 f); [exact Hb|lia|exact Htf]].
  (* only the first front is used: all of it *)
  assert (Sf : forall i, In i sel -> In i f).
  { intros i Hi. pose proof (Rg i Hi) as Li. rewrite map_length in Li. destruct (Wh i Li) as (b & g & Hg & Hig). destruct b as [|b]; [congruence|]. exfalso. apply (Aft (S b) g i); [exact Hg|lia|exact Hig|exact Hi]. }
  assert (Nf : NoDup f).
  { assert (Nc : NoDup (concat (fnds (map fit rows)))) by (eapply Permutation_NoDup; [apply Permutation_sym; exact Pm|apply seq_NoDup]).
    destruct (fnds (map fit rows)) as [|g gs]; [discriminate|]. injection Hb as ->. cbn [concat] in Nc. clear - Nc. induction f as [|y f IH]; [constructor|]. cbn [app] in Nc. inversion Nc as [|? ? N1 N2]; subst.
    constructor; [intros Y; apply N1; apply in_or_app; left; exact Y|apply IH; exact N2]. }
  assert (Lf : length f <= n).
  { apply Few; [exact Nf|]. intros j Hj. assert (Lj : j < length rows).
    { assert (Y : In j (concat (fnds (map fit rows)))) by (apply in_concat; exists f; split; [eapply nth_error_In; eauto|exact Hj]). eapply Permutation_in in Y; [|exact Pm]. apply in_seq in Y. rewrite map_length in Y. lia. }
    destruct (nth_error rows j) as [y|] eqn:Ej; [|apply nth_error_None in Ej; lia]. exists y. split; [exact Ej|]. intros z Hz D. apply In_nth_error in Hz as [k Hk].
    destruct (Wh k) as (b & g & Hg & Hkg); [apply nth_error_Some; congruence|].
    pose proof (Or b 0 g f k j Hg Hb Hkg Hj) as O0. assert (b < 0); [|lia]. apply O0. exists (fit z), (fit y). rewrite !nth_error_map, Hk, Ej. auto. }
  assert (I2 : incl f sel) by (apply NoDup_length_incl; [exact ND|lia|exact Sf]). apply I2. exact Htf.
Qed.

Section Runs.
Context {I O C U : Type} (dom : list R -> list R -> bool) (w : world I O (list R) C U) (c : cfg) (nc : nat) (u : bool) (n : nat).
Notation st := (st I O (list R) C U).
Notation member := (member I O (list R) C U).
Hypothesis Hw : honest nc u w.
Hypothesis Hn3 : by_nsga3 n w.
Hypothesis Hn : 0 < n.
Hypothesis Hk : c_kind c = KDecomposition.
Hypothesis Hnp : forall k p g, w_prefs w k p <> Ok (Some g).
Notation yes := (fun _ : st => True).

Notation row3 := (I * O * list R)%type.
Definition row_of (m : member) : row3 := (m_ind m, m_obj m, m_fit m).
Definition fit3 (r : row3) : list R := snd r.
Notation entry := (bool * list I * results O (list R) C U)%type.

Lemma batch_rows (b : bool) off (r : results O (list R) C U) : batch (b, off, r) = map row_of (members_of off r).
Proof. reflexivity. Qed.

Definition c' : cfg := mkCfg (c_kind c) (c_surrogates c) false (c_keep_archive c) (c_n_iterations c) (c_n_gen_per_iter c) (c_total_fe c).
Lemma At' (ms : list member) (s : st) : At c' nc u (fun _ => True) ms s <-> holds nc u (s_pop s) ms.
Proof. unfold At, nd_ok, c'. cbn [c_save_nd]. split; [intros [A _]; exact A|]. intros A. split; [exact A|]. split; [apply Forall_forall; auto|discriminate]. Qed.

(** Rows [init] at the state whose log is [log0]; [lg]: what was evaluated since. *)
Definition follows (init : list row3) (log0 : list entry) (s : st) : Prop := exists ms lg, holds nc u (s_pop s) ms /\ n <= length ms /\ s_log s = log0 ++ lg /\ answered w lg /\
  ((forall l1 l2, lg = l1 ++ l2 -> at_most_best fit3 n (init ++ flat_map batch l1)) -> elite fit3 (init ++ flat_map batch lg) (map row_of ms)).

Lemma follows_change init log0 (s s' : st) : s_pop s' = s_pop s -> s_log s' = s_log s -> follows init log0 s -> follows init log0 s'.
Proof. unfold follows. intros -> ->. auto. Qed.

Lemma select_map {A B} (f : A -> B) g (l : list A) : forall k, map f (select_pos_from k g l) = select_pos_from k g (map f l).
Proof. induction l as [|x l IH]; intros k; cbn [select_pos_from map]; [reflexivity|]. destruct (g k); cbn [map]; rewrite IH; reflexivity. Qed.

Lemma add_ret (p : pop I O (list R) C U) o r p' r' : add p o r = (p', Ok r') -> r' = r.
Proof.
  unfold add. destruct (p_ind p).
  - destruct (vstack (p_obj p) (Some (r_obj r))); [|discriminate]. destruct (vstack (p_fit p) (Some (r_fit r))); [|discriminate].
    destruct (if Nat.eqb (p_nc p) 0 then Ok (p_con p) else bind (vstack (p_con p) (r_con r)) (fun c => Ok (Some c))); [|discriminate].
    destruct (r_unc r) as [us|]; [destruct (vstack (p_unc p) (Some us)); [|discriminate]|]; intros E; injection E as _ <-; reflexivity.
  - destruct o; intros E; try discriminate E; injection E as _ <-; reflexivity.
Qed.

(** One generation: what was evaluated, what was selected from, what is left. *)
Lemma G_gen ms (s s' : st) : holds nc u (s_pop s) ms -> n <= length ms -> dec_gen dom w c s = (s', Ok tt) ->
  exists e ms' fnds solve rng dirs s3 s3' sel, s_log s' = s_log s ++ [e] /\ (exists k, snd e = w_eval w k (fst (fst e)) (snd (fst e))) /\ let M := map row_of ms ++ batch e in
    fnds_contract fnds /\ shuffles rng /\ dirs <> [] /\ n3 s3 = Some n /\ nsga3_do fnds solve rng dirs s3 (map fit3 M) = Ok (s3', sel) /\ NoDup sel /\ (forall i, In i sel -> i < length M) /\
    M <> [] /\ n <= length M /\ holds nc u (s_pop s') ms' /\ n <= length ms' /\ map row_of ms' = select_pos (listed (length M) (map Z.of_nat sel)) M.
Proof.
  intros HH HL. unfold dec_gen.
  unfold andthen at 1. unfold ask at 1. destruct (w_mate w (s_clock s) (s_pop s) None) as [off|e]; [|discriminate].
  unfold andthen at 1. unfold do_add at 1. destruct (w_fails w (s_clock (tick s)) (c_surrogates c) off) as [e|]; [discriminate|].
  pose proof (T_take w c' nc u (fun _ => True) Hw (conj (fun _ _ _ _ _ => Logic.I) (fun _ _ _ _ _ => Logic.I)) (fun _ => False) ms (c_surrogates c) (OBatch off) off eq_refl ltac:(discriminate) (tick s)) as Ta.
  specialize (Ta (proj2 (At' ms (tick s)) HH)).
  set (r0 := w_eval w (s_clock (tick s)) (c_surrogates c) off) in *.
  assert (Lg1 : s_log (fst (take_results w (c_surrogates c) (OBatch off) off (tick s))) = s_log s ++ [(c_surrogates c, off, r0)]).
  { unfold take_results. fold r0. destruct (add (s_pop (tick s)) (OBatch off) r0) as [p out]. reflexivity. }
  assert (Er : forall s1 r, take_results w (c_surrogates c) (OBatch off) off (tick s) = (s1, Ok r) -> r = r0).
  { intros s1 r. unfold take_results. fold r0. destruct (add (s_pop (tick s)) (OBatch off) r0) as [p out] eqn:Ea. intros E. injection E as _ ->. apply add_ret in Ea. exact Ea. }
  destruct (take_results w (c_surrogates c) (OBatch off) off (tick s)) as [s1 [r|e]]; [|discriminate]. specialize (Er s1 r eq_refl). subst r. cbn [fst] in Lg1.
  destruct Ta as [_ Ta]. apply At' in Ta. set (ms1 := ms ++ members_of off r0) in *.
  unfold andthen at 1.
  assert (Ar : forall s2 out, (if c_save_nd c then do_archive dom off r0 else upd (fun s => s)) s1 = (s2, out) -> s_pop s2 = s_pop s1 /\ s_log s2 = s_log s1).
  { intros s2 out. destruct (c_save_nd c); unfold do_archive, upd; [destruct (s_nd s1)|]; intros E; injection E as <- _; split; reflexivity. }
  destruct ((if c_save_nd c then do_archive dom off r0 else upd (fun s => s)) s1) as [s2 [[]|e]]; [|discriminate]. destruct (Ar s2 _ eq_refl) as [P2 L2].
  unfold andthen at 1. unfold ask at 1.
  pose proof Ta as ((_ & _ & Rf & _) & _). rewrite <- P2 in Rf.
  destruct (Hn3 (s_clock s2) (s_pop s2) _ Rf) as (fnds & solve & rng & dirs & s3 & A1 & A2 & A3 & A4 & A5). rewrite A5.
  assert (HL1 : n <= length ms1) by (unfold ms1; rewrite app_length; lia).
  assert (Ne1 : map row_of ms1 <> []) by (intros E; apply map_eq_nil in E; rewrite E in HL1; cbn in HL1; lia).
  assert (Ef : map m_fit ms1 = map fit3 (map row_of ms1)) by (rewrite map_map; reflexivity). rewrite Ef in *.
  destruct (C33_exact_count fnds solve rng dirs s3 (map fit3 (map row_of ms1)) n A1 A2 A3) as (s3' & sel & E & L & ND & B & _); [intros E; apply map_eq_nil in E; contradiction|exact A4|rewrite !map_length; exact HL1|].
  rewrite E. cbn [positions]. rewrite !map_length in B.
  unfold andthen at 1.
  assert (Tk : triple (At c' nc u (fun _ => True) ms1) (do_keep (map Z.of_nat sel)) (fun _ => At c' nc u (fun _ => True) (spec_keep (map Z.of_nat sel) ms1)) (fun _ => False)).
  { apply T_keep. apply in_range_nats. exact B. }
  specialize (Tk (tick s2)). assert (HA2 : At c' nc u (fun _ => True) ms1 (tick s2)) by (apply At'; cbn [tick s_pop]; rewrite P2; exact Ta). specialize (Tk HA2).
  assert (Lk : s_log (fst (do_keep (map Z.of_nat sel) (tick s2))) = s_log s2).
  { unfold do_keep. destruct (keep (s_pop (tick s2)) (map Z.of_nat sel)) as [p out]. reflexivity. }
  destruct (do_keep (map Z.of_nat sel) (tick s2)) as [s4 [[]|e]]; [|discriminate]. cbn [fst] in Lk. apply At' in Tk.
  unfold upd. intros Eq. apply (f_equal fst) in Eq. cbn [fst] in Eq.
  assert (Ps : s_pop s' = s_pop s4 /\ s_log s' = s_log s4) by (rewrite <- Eq; destruct (c_surrogates c); split; reflexivity). destruct Ps as [Ps Ls].
  assert (EM : map row_of ms ++ batch (c_surrogates c, off, r0) = map row_of ms1) by (rewrite batch_rows, <- map_app; reflexivity).
  exists (c_surrogates c, off, r0), (spec_keep (map Z.of_nat sel) ms1), fnds, solve, rng, dirs, s3, s3', sel.
  split; [rewrite Ls, Lk, L2, Lg1; reflexivity|]. split; [exists (s_clock (tick s)); reflexivity|]. cbv zeta. rewrite EM.
  split; [exact A1|]. split; [exact A2|]. split; [exact A3|]. split; [exact A4|]. split; [exact E|]. split; [exact ND|]. split; [rewrite map_length; exact B|]. split; [exact Ne1|].
  split; [rewrite map_length; exact HL1|]. split; [rewrite Ps; exact Tk|]. split.
  - unfold spec_keep. rewrite length_select_nats; [lia|exact ND|exact B].
  - unfold spec_keep, select_pos. rewrite select_map, map_length. reflexivity.
Qed.

Lemma F_gen init log0 : triple (follows init log0) (dec_gen dom w c) (fun _ => follows init log0) yes.
Proof.
  intros s Hfol. destruct Hfol as (ms & lg & HH & HL & Hlog & Han & Hel). destruct (dec_gen dom w c s) as [s' [[]|e]] eqn:E; [|exact Logic.I].
  destruct (G_gen ms s s' HH HL E) as (e & ms' & fnds & solve & rng & dirs & s3 & s3' & sel & G1 & (ke & Ge) & A1 & A2 & A3 & A4 & A5 & ND & B & Ne & HLM & HH' & HL' & Er).
  exists ms', (lg ++ [e]). split; [exact HH'|]. split; [exact HL'|]. split; [rewrite G1, Hlog, app_assoc; reflexivity|].
  split. { intros b rows r Hin. apply in_app_or in Hin as [Hin|[Hin|[]]]; [apply (Han b); exact Hin|]. subst e. exists ke. exact Ge. } intros Few.
  assert (Few0 : forall l1 l2, lg = l1 ++ l2 -> at_most_best fit3 n (init ++ flat_map batch l1)).
  { intros l1 l2 El. apply (Few l1 (l2 ++ [e])). rewrite El, <- app_assoc. reflexivity. }
  specialize (Hel Few0). specialize (Few (lg ++ [e]) [] (eq_sym (app_nil_r _))).
  rewrite flat_map_app in *. cbn [flat_map] in *. rewrite app_nil_r in *. rewrite app_assoc in *. rewrite Er.
  apply (elite_step fit3 n); [exact Hel|exact Few| |exact B].
  intros t _ Ut Ft. apply (nsga3_keeps_best fit3 fnds solve rng dirs s3 (map row_of ms ++ batch e) n s3' sel t); assumption.
Qed.

Lemma F_loop init log0 : forall fuel, triple (follows init log0) (gen_loop dom w c fuel) (fun _ => follows init log0) yes.
Proof.
  induction fuel as [|f IH]; intros s Hs; [exact Logic.I|]. cbn [gen_loop]. destruct (continue_iteration c s); [|exact Hs].
  revert s Hs. apply t_andthen with (R := fun _ => follows init log0); [|intros _; exact IH]. unfold next_gen. rewrite Hk. apply F_gen.
Qed.
Lemma F_iterate init log0 : triple (follows init log0) (iterate dom w c) (fun _ => follows init log0) yes.
Proof.
  unfold iterate. eapply t_andthen with (R := fun g s => follows init log0 s /\ g = None).
  { apply t_ask. intros s Hs. destruct (w_prefs w (s_clock s) (s_pop s)) as [[g|]|e] eqn:E; [exfalso; apply (Hnp _ _ _ E)|split; [|reflexivity]|exact Logic.I]. revert Hs. apply follows_change; reflexivity. }
  intros g. eapply t_andthen with (R := fun _ => follows init log0).
  { intros s [Hs ->]. exact Hs. }
  intros a1. eapply t_andthen with (R := fun _ => follows init log0). { apply t_upd. intros s. destruct (c_keep_archive c); [apply follows_change; reflexivity|auto]. }
  intros a2. eapply t_andthen with (R := fun _ => follows init log0). { apply t_ask. intros s Hs. destruct (w_adapt w (s_clock s) (s_pop s)); [|exact Logic.I]. revert Hs. apply follows_change; reflexivity. }
  intros a3. eapply t_andthen with (R := fun _ => follows init log0). { apply t_upd. intros s. apply follows_change; reflexivity. }
  intros a4. eapply t_andthen with (R := fun _ => follows init log0). { apply F_loop. }
  intros a5. apply t_upd. intros s. apply follows_change; reflexivity.
Qed.
Lemma F_ran init log0 : forall k s s', ran dom w c k s s' -> follows init log0 s -> follows init log0 s'.
Proof.
  intros k s s' H. induction H as [s|k s s1 s2 E R IH]; intros Hs; [exact Hs|]. apply IH. pose proof (F_iterate init log0 s Hs) as T. rewrite E in T. exact T.
Qed.
End Runs.
