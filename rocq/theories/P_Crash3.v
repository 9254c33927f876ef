(** A decomposition run disturbed by evaluations that raise passes through the populations of the undisturbed run. *)
From Verif Require Import Base M_Population M_Archive M_Run Spec_Run P_Run P_Run2 P_Run3 P_RunSel P_Crash P_Crash2 Spec_Crash.
Open Scope nat_scope.

Section P.
Context {I O F C U : Type} (dom : F -> F -> bool) (w : world I O F C U) (c : cfg).
Notation st := (st I O F C U).
Hypothesis Hk : c_kind c = KDecomposition.
Hypothesis Ht : timeless w.
Notation w0 := (never_raising w).

Lemma andthen_ask {A B} (f : nat -> pop I O F C U -> res A) (g : A -> st -> st * res B) (s : st) : andthen (ask f) g s = match f (s_clock s) (s_pop s) with Ok a => g a (tick s) | Err e => (tick s, Err e) end.
Proof. unfold andthen, ask. destruct (f (s_clock s) (s_pop s)); reflexivity. Qed.
Lemma andthen_eq {A B} (m : st -> st * res A) (f : A -> st -> st * res B) (s : st) : andthen m f s = match m s with (s', Ok a) => f a s' | (s', Err e) => (s', Err e) end.
Proof. reflexivity. Qed.
(** Two objects that differ only in what the user does not see. *)
Lemma do_add_same b o rows (s1 s2 : st) : same_results s2 s1 ->
  (exists e, snd (do_add w b o rows s1) = Err e /\ same_results s2 (fst (do_add w b o rows s1))) \/
  (snd (do_add w b o rows s1) = snd (do_add w0 b o rows s2) /\ same_results (fst (do_add w0 b o rows s2)) (fst (do_add w b o rows s1))).
Proof.
  intros (E1 & E2 & E3 & E4 & E5). destruct Ht as (_ & T & _). unfold do_add. cbn [never_raising w_fails]. unfold take_results. cbn [never_raising w_eval].
  rewrite (T (s_clock s2) (s_clock s1)), <- E1. destruct (add (s_pop s1) o (w_eval w (s_clock s1) b rows)) as [p out]. destruct (w_fails w (s_clock s1) b rows) as [e|].
  - left. exists e. split; auto. unfold same_results. cbn. auto.
  - right. split; auto. unfold same_results. cbn. rewrite E2, E3, E4, E5. auto.
Qed.
Lemma dec_same (s1 s2 : st) : same_results s2 s1 ->
  (exists e, snd (dec_gen dom w c s1) = Err e /\ same_results s2 (fst (dec_gen dom w c s1))) \/
  (snd (dec_gen dom w c s1) = snd (dec_gen dom w0 c s2) /\ same_results (fst (dec_gen dom w0 c s2)) (fst (dec_gen dom w c s1))).
Proof.
  intros Es. pose proof Es as (E1 & E2 & E3 & E4 & E5). destruct Ht as (T1 & _ & T3). unfold dec_gen. rewrite !andthen_ask. cbn [never_raising w_mate]. rewrite (T1 (s_clock s2) (s_clock s1)), <- E1.
  destruct (w_mate w (s_clock s1) (s_pop s1) None) as [off|e].
  2: { right. split; auto. }
  rewrite !andthen_eq. assert (Es' : same_results (tick s2) (tick s1)) by exact Es. pose proof (do_add_same (c_surrogates c) (OBatch off) off _ _ Es') as A.
  destruct (do_add w0 (c_surrogates c) (OBatch off) off (tick s2)) as [a2 o2], (do_add w (c_surrogates c) (OBatch off) off (tick s1)) as [a1 o1]. cbn [fst snd] in A. destruct A as [(e & -> & A)|[-> A]]; [left; exists e; split; auto|].
  destruct o2 as [r|e]; [|right; auto]. right. clear Es Es' E1 E2 E3 E4 E5. rewrite !andthen_eq.
  assert (B : match (if c_save_nd c then do_archive dom off r else upd (fun s => s)) a2, (if c_save_nd c then do_archive dom off r else upd (fun s => s)) a1 with (b2, o2), (b1, o1) => o1 = o2 /\ same_results b2 b1 end).
  { destruct A as (E1 & E2 & E3 & E4 & E5). destruct (c_save_nd c); [|unfold upd; split; auto; unfold same_results; auto]. unfold do_archive. rewrite E2. destruct (s_nd a2) eqn:En; (split; [reflexivity|unfold same_results; cbn; repeat split; congruence]). }
  destruct ((if c_save_nd c then do_archive dom off r else upd (fun s => s)) a2) as [b2 o2], ((if c_save_nd c then do_archive dom off r else upd (fun s => s)) a1) as [b1 o1].
  destruct B as [-> B]. destruct o2 as [[]|e]; [|auto]. rewrite !andthen_ask. pose proof B as (E1 & E2 & E3 & E4 & E5). cbn [never_raising w_select]. rewrite (T3 (s_clock b2) (s_clock b1)), <- E1.
  destruct (w_select w (s_clock b1) (s_pop b1) 0) as [sel|e]; [|split; auto]. unfold andthen. unfold do_keep. cbn [tick s_pop]. rewrite <- E1. destruct (keep (s_pop b1) sel) as [p [[]|e]]; unfold upd, same_results; destruct (c_surrogates c); cbn; rewrite E2, E3, E4, E5; auto 10.
Qed.

Variable s0 : st.
Hypothesis Good : forall j, exists s, generations dom w0 c j s0 s.
Definition follows_along (s : st) : Prop := exists j s', generations dom w0 c j s0 s' /\ same_results s' s.
Lemma generations_fun j : forall s a b, generations dom w0 c j s a -> generations dom w0 c j s b -> a = b.
Proof.
  induction j as [|j IH]; intros s a b Ha Hb; inversion Ha as [|? ? a1 ? A1 A2]; inversion Hb as [|? ? b1 ? B1 B2]; subst; auto. assert (a1 = b1) by (eapply IH; eauto). congruence.
Qed.
Lemma next_along s : follows_along s -> follows_along (fst (next_gen dom w c s)) /\ forall s', next_gen dom w c s = (s', Ok tt) -> follows_along s'.
Proof.
  intros (j & sj & G & S0). destruct (Good (S j)) as (sk & Gk). inversion Gk as [|? ? sj' ? G1 G2]; subst. assert (sj' = sj) by (eapply generations_fun; eauto). subst sj'.
  unfold next_gen in *. rewrite Hk in *. pose proof (dec_same s sj S0) as D. rewrite G2 in D. destruct (dec_gen dom w c s) as [s1 out]. cbn [fst snd] in *. destruct D as [(e & -> & D)|[-> D]].
  - split; [exists j, sj; auto|intros; discriminate].
  - assert (X : follows_along s1) by (exists (S j), sk; auto). split; auto. intros s' X0. injection X0 as <-. auto.
Qed.
Lemma loop_along fuel : forall s, follows_along s -> follows_along (fst (gen_loop dom w c fuel s)).
Proof.
  induction fuel as [|f IH]; intros s H; cbn [gen_loop]; [exact H|]. destruct (continue_iteration c s); [|exact H]. unfold andthen. destruct (next_along s H) as [A B].
  destruct (next_gen dom w c s) as [s' [x|e]]; [apply IH; exact A|exact A].
Qed.
Hypothesis Hp : forall k p g, w_prefs w k p <> Ok (Some g).
Lemma iterate_along s : follows_along s -> follows_along (fst (iterate dom w c s)).
Proof.
  intros H. unfold iterate. unfold andthen at 1, ask at 1. destruct (w_prefs w (s_clock s) (s_pop s)) as [[g|]|e] eqn:Ep; [exfalso; eapply Hp; eauto| |exact H].
  unfold andthen at 1, upd at 1. unfold andthen at 1, upd at 1. unfold andthen at 1, ask at 1. set (s2 := if c_keep_archive c then snap (tick s) else tick s).
  assert (H2 : follows_along s2) by (unfold s2; destruct (c_keep_archive c); exact H). clearbody s2. destruct (w_adapt w (s_clock s2) (s_pop s2)) as [[]|e]; [|exact H2].
  unfold andthen at 1, upd at 1. unfold andthen at 1. assert (H3 : follows_along (reset_gen (tick s2))) by exact H2. pose proof (loop_along (S (Z.to_nat (c_n_gen_per_iter c))) _ H3) as L.
  destruct (gen_loop dom w c (S (Z.to_nat (c_n_gen_per_iter c))) (reset_gen (tick s2))) as [s4 [[]|e]]; exact L.
Qed.
Lemma session_along n : forall s, follows_along s -> follows_along (session dom w c s (repeat CIterate n)).
Proof. induction n as [|n IH]; intros s H; [exact H|]. cbn [repeat]. unfold session. cbn [fold_left]. apply IH. cbn [do_call]. apply iterate_along. exact H. Qed.
End P.
