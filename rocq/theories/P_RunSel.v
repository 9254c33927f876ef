(** Proofs about runs that go on. *)
From Verif Require Import Base M_Population Spec_Population P_Population M_Archive P_Archive M_Run Spec_Run P_Run P_Run2 P_Run3 Spec_RunSel.
Open Scope nat_scope.

(** Distinct positions select as many rows. *)
Lemma length_select_count {A} f k (l : list A) : length (select_pos_from k f l) = length (filter f (seq k (length l))).
Proof. revert k. induction l as [|x l IH]; intros k; cbn [select_pos_from length seq filter]; auto. destruct (f k); cbn [length]; rewrite IH; auto. Qed.
Lemma listed_nats n sel j : (forall i, In i sel -> i < n) -> j < n -> listed n (map Z.of_nat sel) j = true <-> In j sel.
Proof.
  intros Hs Hj. rewrite listed_spec. split.
  - intros [H|H]; apply in_map_iff in H; destruct H as (i & E & Hi); [|specialize (Hs i Hi); lia]. replace j with i by lia. auto.
  - intros H. left. apply in_map. auto.
Qed.
Lemma in_range_nats n sel : (forall i, In i sel -> i < n) -> in_range n (map Z.of_nat sel).
Proof. intros H. unfold in_range. apply Forall_forall. intros z Hz. apply in_map_iff in Hz. destruct Hz as (i & <- & Hi). specialize (H i Hi). lia. Qed.
Lemma length_select_nats {A} (l : list A) sel : NoDup sel -> (forall i, In i sel -> i < length l) -> length (select_pos (listed (length l) (map Z.of_nat sel)) l) = length sel.
Proof.
  intros Hn Hs. unfold select_pos. rewrite length_select_count. apply Permutation.Permutation_length. apply Permutation.NoDup_Permutation; auto; [apply NoDup_filter, seq_NoDup|].
  intros j. rewrite filter_In, in_seq. split.
  - intros [H1 H2]. apply (listed_nats (length l)) in H2; auto. lia.
  - intros H. split; [specialize (Hs j H); lia|]. apply listed_nats; auto.
Qed.

Section P.
Context {I O F C U : Type} (dom : F -> F -> bool) (w : world I O F C U) (c : cfg) (nc : nat) (u : bool) (ok : F -> Prop).
Notation pop := (pop I O F C U).
Notation st := (st I O F C U).
Notation results := (results O F C U).
Notation member := (member I O F C U).
Hypothesis Hw : honest nc u w.
Hypothesis Hs : steady w.
Hypothesis Hf : fitness_ok ok w.

Definition nd_ok (s : st) : Prop := c_save_nd c = true -> s_nd s <> None.
Definition At (ms : list member) (s : st) : Prop := holds nc u (s_pop s) ms /\ Forall (fun m => ok (m_fit m)) ms /\ nd_ok s.
Notation no := (fun _ : st => False).

Lemma At_change ms s s' : s_pop s' = s_pop s -> s_nd s' = s_nd s -> At ms s -> At ms s'.
Proof. unfold At, nd_ok. intros -> ->. auto. Qed.
Lemma members_ok k b rows : Forall (fun m => ok (m_fit m)) (members_of rows (w_eval w k b rows)).
Proof.
  destruct (Hw k b rows) as [G _]. destruct (members_of_proj _ _ _ G) as (_ & _ & A & _). apply Forall_forall. intros m Hm.
  apply (proj1 Hf k b rows). rewrite <- A. apply in_map. auto.
Qed.
Lemma unc_none (p : pop) : (p_unc p <> None <-> u = true) -> (p_unc p = None <-> u = false).
Proof. intros H. destruct (p_unc p); destruct u; split; intros; try discriminate; auto; exfalso; [assert (Some l <> None) by discriminate; apply H in H1; discriminate|apply H; auto]. Qed.

Lemma T_take (E0 : st -> Prop) ms b o rows : rows_of o = rows -> o <> OOther -> triple (At ms) (take_results w b o rows) (fun r s => (exists k, r = w_eval w k b rows) /\ At (ms ++ members_of rows r) s) E0.
Proof.
  intros Hr Ho s ((R & Hnc & Hu) & Hk & Hd). unfold take_results. destruct (Hw (s_clock s) b rows) as [G1 G2]. set (r := w_eval w (s_clock s) b rows) in *.
  assert (HR : rel nc (has (p_unc (s_pop s)), Some ms) (s_pop s)) by (split; auto; split; auto; right; reflexivity).
  assert (HG : good_op nc (OpAdd o r)) by (split; [auto|rewrite Hr; auto]).
  pose proof (add_rel nc _ ms (s_pop s) o r HR HG) as T. rewrite <- Hnc, <- Hr in G1. pose proof (add_eval (s_pop s) ms o r R Ho G1) as E. cbv zeta in E.
  assert (Hcase : (r_unc r = None /\ p_unc (s_pop s) = None) \/ (exists x y, r_unc r = Some x /\ p_unc (s_pop s) = Some y)).
  { pose proof (unc_none _ Hu) as Hu'. destruct (r_unc r) as [x|], (p_unc (s_pop s)) as [y|]; eauto.
    - exfalso. assert (u = true) by (apply G2; discriminate). assert (u = false) by (apply Hu'; auto). congruence.
    - exfalso. assert (u = true) by (apply Hu; discriminate). apply G2 in H; auto. }
  cbn [step] in T. assert (Hspec : spec_step (has (p_unc (s_pop s)), Some ms) (OpAdd o r) =
      match r_unc r, has (p_unc (s_pop s)) with
      | None, _ => (false, Some (map forget_unc ms ++ members_of (rows_of o) r))
      | Some _, true => (true, Some (ms ++ members_of (rows_of o) r))
      | Some _, false => (false, Some (ms ++ map forget_unc (members_of (rows_of o) r)))
      end) by (destruct o; auto).
  rewrite Hspec in T. clear Hspec. destruct (add (s_pop s) o r) as [p out] eqn:Ea. cbn [fst] in T.
  assert (Hk' : Forall (fun m => ok (m_fit m)) (ms ++ members_of rows r)) by (apply Forall_app; split; auto; apply members_ok).
  destruct Hcase as [[E1 E2]|(x & y & E1 & E2)]; rewrite E1, E2 in *; cbn [has] in T.
  - injection E as -> ->. split; [exists (s_clock s); reflexivity|]. split; [|split; auto]. split; [|split; [auto|cbn [set_pop s_pop p_unc]; split; [congruence|intros Hx; apply Hu in Hx; congruence]]].
    destruct T as (_ & T & _). cbn [snd] in T. rewrite Hr in T. cbn [set_pop s_pop]. rewrite Hr. replace (map forget_unc ms) with ms in T; auto. symmetry.
    destruct R as (_ & _ & _ & _ & R & _). rewrite E2 in R. cbn [rows_opt] in R. clear - R. revert R. induction ms as [|m l IH]; intros R; cbn [map] in *; auto. cbn [length repeat] in R. injection R as R1 R2.
    rewrite (IH R2). f_equal. destruct m as [a1 a2 a3 a4 a5]; unfold forget_unc; cbn in R1 |- *; congruence.
  - injection E as -> ->. split; [exists (s_clock s); reflexivity|]. split; [|split; auto]. split; [|split; [auto|cbn [set_pop s_pop p_unc]; split; [intros _; apply Hu; discriminate|discriminate]]].
    destruct T as (_ & T & _). cbn [snd] in T. rewrite Hr in T. cbn [set_pop s_pop]. rewrite Hr. auto.
Qed.
(** An evaluation has just raised. *)
Definition broke (s : st) : Prop := exists k b rows e, w_fails w k b rows = Some e /\ s_clock s = S k.
Lemma T_add (E0 : st -> Prop) ms b o rows : (forall s, At ms s -> broke s -> E0 s) -> rows_of o = rows -> o <> OOther ->
  triple (At ms) (do_add w b o rows) (fun r s => (exists k, r = w_eval w k b rows) /\ At (ms ++ members_of rows r) s) E0.
Proof.
  intros HE Hr Ho s HA. unfold do_add. destruct (w_fails w (s_clock s) b rows) as [e|] eqn:Ef; [|exact (T_take E0 ms b o rows Hr Ho s HA)].
  apply HE; [revert HA; apply At_change; reflexivity|]. exists (s_clock s), b, rows, e. auto.
Qed.
Lemma T_archive (E0 : st -> Prop) ms off r : triple (At ms) (if c_save_nd c then do_archive dom off r else upd (fun s => s)) (fun _ => At ms) E0.
Proof.
  intros s (A & B & D). unfold nd_ok in D. destruct (c_save_nd c) eqn:E; [|split; auto; split; auto; unfold nd_ok; rewrite E; auto].
  unfold do_archive. destruct (s_nd s) as [a|] eqn:En; [|exfalso; apply D; auto]. split; auto. split; auto. unfold nd_ok. cbn [set_nd s_nd]. discriminate.
Qed.
Lemma Forall_select {A} (P : A -> Prop) f (l : list A) : Forall P l -> Forall P (select_pos f l).
Proof. intros H. apply Forall_forall. intros x Hx. apply In_select_pos_from in Hx. destruct Hx as (i & Hi & _). rewrite Forall_forall in H. apply H. eapply nth_error_In; eauto. Qed.
Lemma T_keep (E0 : st -> Prop) ms zs : in_range (length ms) zs -> triple (At ms) (do_keep zs) (fun _ => At (spec_keep zs ms)) E0.
Proof.
  intros Hz s ((R & Hnc & Hu) & Hk & Hd). unfold do_keep. destruct (keep_ok _ _ _ R Hz) as (p & E & R' & Hnc' & Hu'). rewrite E. split; [|split; [apply Forall_select; auto|auto]].
  split; auto. split; [cbn; congruence|]. cbn [set_pop s_pop]. rewrite <- Hu. tauto.
Qed.
Lemma T_delete (E0 : st -> Prop) ms zs : in_range (length ms) zs -> spec_drop zs ms <> [] -> triple (At ms) (do_delete zs) (fun _ => At (spec_drop zs ms)) E0.
Proof.
  intros Hz Hne s ((R & Hnc & Hu) & Hk & Hd). unfold do_delete. destruct (delete_ok _ _ _ R Hz) as (p & E & R' & Hnc' & Hu'). rewrite E. split; [|split; [apply Forall_select; auto|auto]].
  split; [destruct (spec_drop zs ms) eqn:Ed; [congruence|]; exact R'|]. split; [cbn; congruence|]. cbn [set_pop s_pop]. rewrite <- Hu. tauto.
Qed.
Lemma T_reeval (E0 : st -> Prop) ms g k p : w_prefs w k p = Ok (Some g) -> triple (At ms) (do_reeval g) (fun _ => At (map (refit g) ms)) E0.
Proof.
  intros Hg s ((R & Hnc & Hu) & Hk & Hd). unfold do_reeval. destruct (reevaluate_ok _ _ g R) as (p' & E & R' & Hnc' & Hu'). rewrite E. split; [|split; [|auto]].
  - split; auto. split; [cbn; congruence|]. cbn [set_pop s_pop]. rewrite Hu'. auto.
  - apply Forall_forall. intros m Hm. apply in_map_iff in Hm. destruct Hm as (m0 & <- & _). cbn [refit m_fit]. eapply (proj2 Hf); eauto.
Qed.
Lemma first_row_of (x : I) (r : results) : good_results nc 1 r -> exists r1, first_row r = Some r1 /\ (match r1_con r1 with Some _ => nc <> 0 | None => nc = 0 end) /\ (r_unc r <> None -> r1_unc r1 <> None) /\
  (r_unc r = None -> r1_unc r1 = None) /\ In (r1_fit r1) (r_fit r) /\ members_of [x] r = [mkMem x (r1_obj r1) (r1_fit r1) (r1_con r1) (r1_unc r1)].
Proof.
  intros (A & B & D & E). unfold first_row, members_of. destruct (r_obj r) as [|o [|o' os]]; try discriminate. destruct (r_fit r) as [|f [|f' fs]]; try discriminate.
  eexists. split; [reflexivity|]. cbn [r1_con r1_unc r1_fit r1_obj length].
  destruct (r_con r) as [[|x1 [|x2 t]]|]; cbn [length] in D; try (destruct D; discriminate); destruct (r_unc r) as [[|y1 [|y2 t']]|]; cbn [length] in E; try discriminate;
    cbn [rows_opt map repeat zip_members length]; repeat match goal with |- _ /\ _ => split end; try tauto; try discriminate; try congruence; try (now left); try (intros; discriminate).
Qed.
Lemma T_replace (E0 : st -> Prop) ms zs i k b : in_range (length ms) zs -> let r := w_eval w k b [i] in
  triple (At ms) (do_replace zs i r) (fun _ s => exists m, members_of [i] r = [m] /\ At (spec_replace zs m ms) s) E0.
Proof.
  intros Hz r s ((R & Hnc & Hu) & Hk & Hd). unfold do_replace. destruct (Hw k b [i]) as [G1 G2]. fold r in G1, G2.
  destruct (first_row_of i r G1) as (r1 & -> & F1 & F2 & F3 & F4 & F5). 
  assert (HU : (if has (p_unc (s_pop s)) then r1_unc r1 else None) = r1_unc r1).
  { destruct (p_unc (s_pop s)) eqn:Eu; cbn [has]; auto. symmetry. apply F3. destruct (r_unc r); auto. exfalso. assert (X : u = true) by (apply G2; discriminate). apply Hu in X. auto. }
  destruct (replace_ok (s_pop s) ms zs i r1 R Hz) as (p & E & Hnc' & Hu' & R').
  { right. split; [rewrite Hnc; auto|]. destruct (p_unc (s_pop s)) eqn:Eu; [|auto]. right. apply F2. apply G2. apply Hu. discriminate. }
  rewrite E, HU in *. eexists. split; [exact F5|]. split; [|split; [|auto]].
  - split; auto. split; [cbn; congruence|]. cbn [set_pop s_pop]. rewrite <- Hu. destruct (p_unc p), (p_unc (s_pop s)); cbn [has] in Hu'; try discriminate; split; congruence.
  - rewrite spec_replace_eq. apply Forall_forall. intros m Hm. apply In_nth_error in Hm. destruct Hm as [j Hj]. rewrite nth_error_repl_pos in Hj. destruct (nth_error ms j) eqn:Ej; [|discriminate]. injection Hj as <-.
    destruct (listed (length ms) zs j); [cbn [m_fit]; eapply (proj1 Hf); eauto|]. rewrite Forall_forall in Hk. apply Hk. eapply nth_error_In; eauto.
Qed.

(** *** One generation *)
Lemma mate_of ms s k par : ms <> [] -> At ms s -> (forall zs, par = Some zs -> zs <> [] /\ in_range (length ms) zs) -> exists o rows, w_mate w k (s_pop s) par = Ok (o :: rows).
Proof.
  intros Hne ((R & _) & _) Hp. destruct ms as [|m ms]; [congruence|]. destruct R as (Ri & _). cbn [map] in Ri. apply (sm_mate w Hs k _ par _ _ Ri). cbn [length]. rewrite map_length. exact Hp.
Qed.

(** Decomposition: [lo] and [hi] bound what the operator selects. *)
Definition dec_select (lo hi : nat) : Prop := forall k p ms, holds nc u p ms -> Forall (fun m => ok (m_fit m)) ms -> lo <= length ms -> ms <> [] ->
  exists sel, w_select w k p 0 = Ok sel /\ in_range (length ms) sel /\ lo <= length (spec_keep sel ms) <= hi.
Lemma T_dec (E0 : st -> Prop) lo hi ms : (forall s, At ms s -> broke s -> E0 s) -> dec_select lo hi -> 1 <= lo -> lo <= length ms ->
  triple (At ms) (dec_gen dom w c) (fun _ s => exists ms', At ms' s /\ lo <= length ms' <= hi) E0.
Proof.
  intros HE Hsel H1 Hlo. assert (Hne : ms <> []) by (intros ->; cbn in Hlo; lia). unfold dec_gen.
  eapply t_andthen with (R := fun off s => At ms s).
  { apply t_ask. intros s HA. destruct (mate_of ms s (s_clock s) None Hne HA) as (o & rows & ->); [discriminate|]. apply (At_change ms s); auto. }
  intros off. eapply t_andthen; [apply T_add; [first [exact HE|intros; eapply HE; eauto]|reflexivity|discriminate]|]. intros r. cbv beta.
  intros s [_ HA]. revert s HA. set (ms1 := ms ++ members_of off r) in *.
  assert (Hl : lo <= length ms1) by (unfold ms1; rewrite app_length; lia). assert (Hne1 : ms1 <> []) by (intros E; rewrite E in Hl; cbn in Hl; lia).
  eapply t_andthen; [apply T_archive|]. intros a0; cbv beta.
  eapply t_andthen with (R := fun sel s => At ms1 s /\ in_range (length ms1) sel /\ lo <= length (spec_keep sel ms1) <= hi).
  { apply t_ask. intros s (A & B & D). destruct (Hsel (s_clock s) (s_pop s) ms1 A B Hl Hne1) as (sel & -> & S1 & S2). split; [|split; auto]. apply (At_change ms1 s); auto. split; auto. }
  intros sel s (HA & S1 & S2). revert s HA. eapply t_andthen; [apply T_keep; auto|]. intros a1; cbv beta. apply t_upd. intros s HA. exists (spec_keep sel ms1). split; auto.
  revert HA. apply At_change; destruct (c_surrogates c); reflexivity.
Qed.

(** MOEA/D with [n] subproblems on [N] rows. *)
Definition moead_contract (n N : nat) : Prop :=
  (forall k i, i < n -> exists par, w_parents w k i = Ok par /\ par <> [] /\ in_range N par) /\
  (forall k p ms i, i < n -> holds nc u p ms -> Forall (fun m => ok (m_fit m)) ms -> length ms = S N -> exists sel, w_select w k p i = Ok sel /\ in_range (S N) sel).
Lemma drop_last_length (l : list member) N : length l = S N -> length (spec_drop [(-1)%Z] l) = N.
Proof.
  intros H. destruct (exists_last (l := l)) as (l0 & y & ->); [intros ->; discriminate|]. rewrite app_length in H. cbn [length] in H. unfold spec_drop, select_pos. rewrite select_app.
  assert (Hlen : length (l0 ++ [y]) = S (length l0)) by (rewrite app_length; cbn [length]; lia). rewrite Hlen.
  rewrite select_all. 2: { intros i Hi. rewrite listed_last by lia. destruct (Nat.eqb_spec i (length l0)); [lia|reflexivity]. }
  rewrite select_none. 2: { cbn [length]. intros i Hi. rewrite listed_last by lia. destruct (Nat.eqb_spec i (length l0)); [reflexivity|lia]. }
  rewrite app_nil_r. lia.
Qed.
Lemma T_sub (E0 : st -> Prop) n N ur i ms : (forall s, At ms s -> broke s -> E0 s) -> moead_contract n N -> 1 <= N -> i < n -> length ms = N -> triple (At ms) (moead_sub dom w c ur i) (fun _ s => exists ms', At ms' s /\ length ms' = N) E0.
Proof.
  intros HE [Hp Hsel] H1 Hi Hl. assert (Hne : ms <> []) by (intros ->; cbn in Hl; lia). unfold moead_sub.
  eapply t_andthen with (R := fun par s => At ms s /\ par <> [] /\ in_range N par).
  { apply t_ask. intros s HA. destruct (Hp (s_clock s) i Hi) as (par & -> & P1 & P2). split; [apply (At_change ms s); auto|auto]. }
  intros par. eapply t_andthen with (R := fun offs s => At ms s /\ offs <> []).
  { apply t_ask. intros s (HA & P1 & P2). destruct (mate_of ms s (s_clock s) (Some par) Hne HA) as (o & rows & ->); [intros zs E; injection E as <-; rewrite Hl; auto|]. split; [|discriminate]. apply (At_change ms s); auto. }
  intros [|o rows]; [intros s [_ X]; congruence|]. intros s [HA _]. revert s HA. cbv zeta. set (off := if ur then w_repair w o else o).
  eapply t_andthen; [apply T_add; [first [exact HE|intros; eapply HE; eauto]|reflexivity|discriminate]|]. intros r. cbv beta. intros s [(k & Hr) HA]. revert s HA. set (ms1 := ms ++ members_of [off] r).
  assert (Hl1 : length ms1 = S N). { unfold ms1. rewrite app_length, Hr. rewrite (members_of_length nc [off]) by apply Hw. cbn [length]. lia. }
  eapply t_andthen with (R := fun _ => At ms1). { apply t_upd. intros s HA. revert HA. apply At_change; destruct (c_surrogates c); reflexivity. }
  intros a1. eapply t_andthen with (R := fun sel s => At ms1 s /\ in_range (S N) sel).
  { apply t_ask. intros s (A & B & D). destruct (Hsel (s_clock s) (s_pop s) ms1 i Hi A B Hl1) as (sel & -> & S1). split; [apply (At_change ms1 s); auto; split; auto|auto]. }
  intros sel s (HA & Sr). revert s HA. rewrite <- Hl1 in Sr. rewrite Hr. eapply t_andthen; [apply T_replace; auto|]. intros a2. cbv beta. intros s (m & _ & HA). revert s HA.
  set (ms2 := spec_replace sel m ms1). assert (Hl2 : length ms2 = S N) by (unfold ms2; rewrite spec_replace_eq, length_repl_pos; auto).
  pose proof (drop_last_length ms2 N Hl2) as Hl3. eapply t_andthen.
  { apply T_delete; [rewrite Hl2; constructor; [lia|constructor]|]. intros E. rewrite E in Hl3. cbn in Hl3. lia. }
  intros a3. cbv beta. intros s HA. pose proof (T_archive E0 _ [off] (w_eval w k (c_surrogates c) [off]) s HA) as T. destruct ((if c_save_nd c then _ else _) s) as [s1 [x|e]]; [|exact T]. eauto.
Qed.
Lemma T_subs (E0 : st -> Prop) n N ur is : (forall ms' s, length ms' = N -> At ms' s -> broke s -> E0 s) -> moead_contract n N -> 1 <= N -> (forall i, In i is -> i < n) -> forall ms, length ms = N ->
  triple (At ms) (moead_subs dom w c ur is) (fun _ s => exists ms', At ms' s /\ length ms' = N) E0.
Proof.
  intros HE Hc H1. induction is as [|i is IH]; intros Hi ms Hl; cbn [moead_subs].
  - apply t_upd. eauto.
  - eapply t_andthen; [apply (T_sub E0 n N); auto; [intros; eapply HE; eauto|apply Hi; left; auto]|]. intros a s (ms' & HA & Hl'). revert s HA. apply IH; auto. intros j Hj. apply Hi. right. auto.
Qed.
Lemma T_moead (E0 : st -> Prop) n N ur ms : (forall ms' s, length ms' = N -> At ms' s -> broke s -> E0 s) -> moead_contract n N -> 1 <= N -> length ms = N -> triple (At ms) (moead_gen dom w c n ur) (fun _ s => exists ms', At ms' s /\ length ms' = N) E0.
Proof.
  intros HE Hc H1 Hl. unfold moead_gen. eapply t_andthen; [apply (T_subs E0 n N); auto; intros i Hi; apply in_seq in Hi; lia|]. intros a. apply t_upd. intros s (ms' & HA & Hl'). exists ms'. split; auto.
Qed.

(** Indicator-based algorithms. *)
Definition picks (lo : nat) : Prop := forall k p ms, holds nc u p ms -> Forall (fun m => ok (m_fit m)) ms -> lo <= length ms -> exists sel, w_select w k p 0 = Ok sel /\ length sel = length ms /\ in_range (length ms) sel.
Definition as_many : Prop := forall k p zs rows, w_mate w k p (Some zs) = Ok rows -> length zs <= length rows.
Definition worst_in_range : Prop := forall k p ms, holds nc u p ms -> ms <> [] -> (- Z.of_nat (length ms) <= w_worst w k p < Z.of_nat (length ms))%Z.
Lemma drop_one_length (l : list member) z : (- Z.of_nat (length l) <= z < Z.of_nat (length l))%Z -> S (length (spec_drop [z] l)) = length l.
Proof.
  intros H. set (i := Z.to_nat (if (z <? 0)%Z then (z + Z.of_nat (length l))%Z else z)). assert (Hi : i < length l) by (unfold i; destruct (Z.ltb_spec z 0); lia).
  pose proof (length_select_nats l [i]) as L. cbn [length map] in L.
  assert (E : spec_drop [z] l = select_pos (fun j => negb (listed (length l) [Z.of_nat i] j)) l).
  { unfold spec_drop, select_pos. apply select_pos_from_ext. intros j Hj. f_equal. unfold listed. cbn [existsb]. rewrite !orb_false_r.
    apply eq_true_iff_eq. rewrite !orb_true_iff, !Z.eqb_eq. unfold i. destruct (Z.ltb_spec z 0); lia. }
  rewrite E. pose proof (length_select_partition 0 (listed (length l) [Z.of_nat i]) l) as T. unfold select_pos in *. rewrite L in T; [lia|repeat constructor; intros []|intros j [<-|[]]; auto].
Qed.
Lemma T_env (E0 : st -> Prop) n : worst_in_range -> 1 <= n -> forall fuel ms, ms <> [] -> length ms <= fuel + n -> triple (At ms) (env_sel w fuel n) (fun _ s => exists ms', At ms' s /\ length ms' = Nat.min n (length ms)) E0.
Proof.
  intros Hz H1. induction fuel as [|f IH]; intros ms Hne Hl s HA; cbn [env_sel]; pose proof HA as ((R & Hnc & Hu) & Hk & Hd); pose proof R as (Ri & _); unfold rows_count; rewrite Ri; cbn [option_map]; rewrite map_length.
  - destruct (Nat.ltb_spec n (length ms)); [lia|]. exists ms. split; auto. lia.
  - destruct (Nat.ltb_spec n (length ms)) as [Hlt|Hge]; [|exists ms; split; auto; lia].
    assert (T : triple (At ms) (andthen (ask (fun k p => Ok (w_worst w k p))) (fun z => andthen (do_delete [z]) (fun _ => env_sel w f n))) (fun _ s => exists ms', At ms' s /\ length ms' = Nat.min n (length ms)) E0).
    { eapply t_andthen with (R := fun z s => At ms s /\ (- Z.of_nat (length ms) <= z < Z.of_nat (length ms))%Z).
      { apply t_ask. intros s' HA'. split; [apply (At_change ms s'); auto|]. apply Hz with (ms := ms); auto. apply HA'. }
      intros z s' (HA' & Hr). revert s' HA'. pose proof (drop_one_length ms z Hr) as Hd1. assert (Hne1 : spec_drop [z] ms <> []) by (intros E; rewrite E in Hd1; cbn in Hd1; lia).
      eapply t_andthen; [apply T_delete; [constructor; [lia|constructor]|auto]|]. intros a. cbv beta. eapply t_weaken; [apply (IH (spec_drop [z] ms)); [auto|lia]|auto| |auto].
      intros a' s' (ms' & HA' & Hl'). exists ms'. split; auto. lia. }
    exact (T s HA).
Qed.
Lemma T_ind (E0 : st -> Prop) lo n ms : (forall ms' s, length ms' = Nat.min n (length ms) -> At ms' s -> broke s -> E0 s) -> worst_in_range -> picks lo -> 1 <= lo <= n -> lo <= length ms -> triple (At ms) (ind_gen w n) (fun _ s => exists ms', At ms' s /\ lo <= length ms') E0.
Proof.
  intros HE Hz Hpk Hn Hlo s HA. assert (Hne : ms <> []) by (intros ->; cbn in Hlo; lia). assert (H1 : 1 <= n) by lia. unfold ind_gen. assert (Er : rows_count s = Some (length ms)). { destruct HA as (((Ri & _) & _) & _). unfold rows_count. rewrite Ri. cbn [option_map]. rewrite map_length. auto. }
  rewrite Er. revert s HA Er. intros s HA _. revert s HA.
  eapply t_andthen; [apply (T_env E0 n); auto; lia|]. intros a. cbv beta. intros s (ms1 & HA & Hl1). revert s HA. assert (Hlo1 : lo <= length ms1) by lia. assert (Hne1 : ms1 <> []) by (intros ->; cbn in Hlo1; lia).
  eapply t_andthen with (R := fun sel s => At ms1 s /\ length sel = length ms1 /\ in_range (length ms1) sel).
  { apply t_ask. intros s (A & B & D). destruct (Hpk (s_clock s) (s_pop s) ms1 A B Hlo1) as (sel & -> & S1 & S2). split; [|split; auto]. apply (At_change ms1 s); auto. split; auto. }
  intros sel. eapply t_andthen with (R := fun _ s => At ms1 s).
  { apply t_ask. intros s (HA & S1 & S2). destruct (mate_of ms1 s (s_clock s) (Some sel) Hne1 HA) as (o & rows & ->); [intros zs E; injection E as <-; split; [intros ->; cbn in S1; lia|auto]|]. apply (At_change ms1 s); auto. }
  intros off. eapply t_andthen; [apply T_add; [first [exact HE|intros; eapply HE; eauto]|reflexivity|discriminate]|]. intros r. cbv beta. apply t_upd. intros s [_ HA]. exists (ms1 ++ members_of off r). split; [revert HA; apply At_change; reflexivity|].
  rewrite app_length. lia.
Qed.

(** TournamentEA: the population is emptied in between. *)
Definition Gone (s : st) : Prop := p_ind (s_pop s) = None /\ p_nc (s_pop s) = nc /\ nd_ok s.
Lemma T_add_gone (E0 : st -> Prop) b x rows : (forall s, Gone s -> broke s -> E0 s) -> triple Gone (do_add w b (OBatch (x :: rows)) (x :: rows)) (fun r s => At (members_of (x :: rows) r) s /\ length (members_of (x :: rows) r) = length (x :: rows)) E0.
Proof.
  intros HE s (Ei & Hnc & Hd). unfold do_add. destruct (w_fails w (s_clock s) b (x :: rows)) as [e|] eqn:Ef; [apply HE; [split; auto|exists (s_clock s), b, (x :: rows), e; auto]|]. unfold take_results. destruct (Hw (s_clock s) b (x :: rows)) as [G1 G2]. set (r := w_eval w (s_clock s) b (x :: rows)) in *.
  pose proof G1 as G1'. rewrite <- Hnc in G1'. destruct (add_first (s_pop s) (x :: rows) r Ei G1') as [E R]. rewrite E in *. cbn [fst] in R.
  split; [|apply (members_of_length nc); auto]. split; [|split; [apply members_ok|auto]]. split; auto.
Qed.
Lemma T_tour (E0 : st -> Prop) lo ms : (forall s, Gone s -> broke s -> E0 s) -> picks lo -> as_many -> 1 <= lo -> lo <= length ms -> triple (At ms) (tour_gen w) (fun _ s => exists ms', At ms' s /\ lo <= length ms') E0.
Proof.
  intros HE Hpk Hm H1 Hlo. assert (Hne : ms <> []) by (intros ->; cbn in Hlo; lia). unfold tour_gen.
  eapply t_andthen with (R := fun sel s => At ms s /\ length sel = length ms /\ in_range (length ms) sel).
  { apply t_ask. intros s (A & B & D). destruct (Hpk (s_clock s) (s_pop s) ms A B Hlo) as (sel & -> & S1 & S2). split; [|split; auto]. apply (At_change ms s); auto. split; auto. }
  intros sel. eapply t_andthen with (R := fun off s => At ms s /\ lo <= length off).
  { apply t_ask. intros s (HA & S1 & S2). destruct (mate_of ms s (s_clock s) (Some sel) Hne HA) as (o & rows & E); [intros zs E; injection E as <-; split; [intros ->; cbn in S1; lia|auto]|]. rewrite E. split; [apply (At_change ms s); auto|]. apply Hm in E. lia. }
  intros [|x rows]; [intros s [_ X]; cbn in X; lia|]. intros s [HA0 Hx0]. revert s HA0. eapply t_andthen with (R := fun _ => Gone).
  { intros s ((R & Hnc & Hu) & Hk & Hd). pose proof R as (Ri & _). unfold rows_count. rewrite Ri. cbn [option_map]. rewrite map_length. unfold do_delete.
    destruct (delete_ok (s_pop s) ms (map Z.of_nat (seq 0 (length ms))) R) as (p & E & R' & Hnc' & Hu').
    { apply in_range_nats. intros i Hi. apply in_seq in Hi. lia. }
    rewrite E. assert (X : spec_drop (map Z.of_nat (seq 0 (length ms))) ms = []).
    { unfold spec_drop, select_pos. apply select_none. intros i Hi. apply negb_false_iff. apply listed_nats; [intros j Hj; apply in_seq in Hj; lia|lia|apply in_seq; lia]. }
    rewrite X in R'. split; auto. split; [cbn; congruence|auto]. }
  intros a. eapply t_andthen; [apply T_add_gone; exact HE|]. intros r. cbv beta. apply t_upd. intros s [HA Hx]. exists (members_of (x :: rows) r). split; [auto|lia].
Qed.

(** *** Whole runs *)
Section Loop.
Variables (A B : nat -> Prop) (X : st -> Prop) (g0 : Z) (is0 : list I).
Hypothesis BA : forall n, B n -> A n.
Hypothesis Gen : forall ms, A (length ms) -> triple (At ms) (next_gen dom w c) (fun _ s => exists ms', At ms' s /\ B (length ms')) (fun s => broke s /\ X s).
Definition Inv (s : st) : Prop := exists ms, At ms s /\ A (length ms) /\ (g0 <= s_gen s)%Z /\ ((g0 < s_gen s)%Z -> B (length ms)) /\ (s_gen s = g0 -> map m_ind ms = is0).
Lemma Inv_change s s' : s_pop s' = s_pop s -> s_nd s' = s_nd s -> s_gen s' = s_gen s -> Inv s -> Inv s'.
Proof. intros E1 E2 E3 (ms & HA & H). exists ms. rewrite E3. split; auto. apply (At_change ms s); auto. Qed.
Lemma T_loop : forall fuel, triple (fun s => Inv s /\ Z.to_nat (c_n_gen_per_iter c - s_gen_in_iter s) < fuel) (gen_loop dom w c fuel) (fun _ => Inv) (fun s => broke s /\ X s).
Proof.
  induction fuel as [|f IH]; intros s [Hi Hl]; [lia|]. cbn [gen_loop]. unfold continue_iteration. destruct (Z.ltb_spec (s_gen_in_iter s) (c_n_gen_per_iter c)) as [Hlt|]; [|exact Hi].
  cbn [andb]. destruct (check_FE c s); [|exact Hi]. destruct Hi as (ms & HA & Hi1 & Hi2 & _). pose proof (ct_next dom w c (counts_of s) s eq_refl) as T. pose proof (Gen ms Hi1 s HA) as G.
  unfold andthen. destruct (next_gen dom w c s) as [s' [x|e]]; [|exact G]. destruct G as (ms' & HA' & HB). destruct T as (lg & _ & _ & _ & _ & Tg & T). unfold counts_of in T, Tg. cbn [n_gi n_gen] in T, Tg.
  apply IH. split; [|lia]. exists ms'. split; auto. split; auto. split; [lia|]. split; [auto|lia].
Qed.
Lemma T_iterate : triple Inv (iterate dom w c) (fun _ => Inv) (fun s => broke s /\ X s).
Proof.
  unfold iterate. eapply t_andthen with (R := fun g s => Inv s /\ forall g', g = Some g' -> exists k p, w_prefs w k p = Ok (Some g')).
  { apply t_ask. intros s Hi. destruct (sm_prefs w Hs (s_clock s) (s_pop s)) as [g E]. rewrite E. split; [revert Hi; apply Inv_change; reflexivity|]. intros g' ->. eauto. }
  intros g. eapply t_andthen with (R := fun _ => Inv).
  { destruct g as [g|]; [|apply t_upd; intros s [Hi _]; exact Hi]. intros s [(ms & HA & H1 & H2 & H3 & H4) Hg]. destruct (Hg g eq_refl) as (k & p & E). pose proof (T_reeval (fun s => broke s /\ X s) ms g k p E s HA) as T.
    pose proof (q_reeval g s) as Q. destruct (do_reeval g s) as [s' [x|e]]; [|exact T]. cbn [fst] in Q. unfold counts_of in Q. injection Q as _ _ Q _ _. exists (map (refit g) ms). rewrite map_length, map_map, Q. split; auto. }
  intros a1. eapply t_andthen with (R := fun _ => Inv). { apply t_upd. intros s. destruct (c_keep_archive c); auto. }
  intros a2. eapply t_andthen with (R := fun _ => Inv). { apply t_ask. intros s Hi. rewrite (sm_adapt w Hs). revert Hi. apply Inv_change; reflexivity. }
  intros a3. eapply t_andthen with (R := fun _ s => Inv s /\ s_gen_in_iter s = 0%Z). { apply t_upd. intros s Hi. split; [revert Hi; apply Inv_change; reflexivity|reflexivity]. }
  intros a4. eapply t_andthen with (R := fun _ => Inv). { eapply t_weaken; [apply T_loop|intros s [Hi E]; split; [exact Hi|rewrite E; lia]|auto|auto]. }
  intros a5. apply t_upd. intros s. apply Inv_change; reflexivity.
Qed.
Hypothesis Hnf : forall k b rows, w_fails w k b rows = None.
Lemma runs_on : forall k s, Inv s -> exists s', ran dom w c k s s' /\ Inv s'.
Proof.
  induction k as [|k IH]; intros s Hi; [exists s; split; [constructor|auto]|]. pose proof (T_iterate s Hi) as T. destruct (iterate dom w c s) as [s1 [[]|e]] eqn:E; [|destruct T as [(k0 & b & rows & e0 & T & _) _]; rewrite Hnf in T; discriminate].
  destruct (IH s1 T) as (s' & R1 & R2). exists s'. split; auto. econstructor; eauto.
Qed.
End Loop.
End P.
