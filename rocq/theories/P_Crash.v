(** Proofs about runs whose evaluations may raise. *)
From Verif Require Import Base M_Population Spec_Population P_Population M_Archive P_Archive M_Run Spec_Run P_Run P_Run2 P_Run3 Spec_RunSel P_RunSel.
Open Scope nat_scope.

Section P.
Context {I O F C U : Type} (dom : F -> F -> bool) (w : world I O F C U) (c : cfg).
Notation pop := (pop I O F C U).
Notation st := (st I O F C U).
Notation member := (member I O F C U).

(** *** Time goes on *)
Definition mono {A} (m : st -> st * res A) : Prop := forall s, s_clock s <= s_clock (fst (m s)).
Lemma m_andthen {A B} (m : st -> st * res A) (f : A -> st -> st * res B) : mono m -> (forall a, mono (f a)) -> mono (andthen m f).
Proof. intros H1 H2 s. unfold andthen. specialize (H1 s). destruct (m s) as [s' [a|e]]; cbn [fst] in *; auto. specialize (H2 a s'). lia. Qed.
Lemma m_ask {A} (f : nat -> pop -> res A) : mono (ask f).
Proof. intros s. unfold ask. cbn. lia. Qed.
Lemma m_upd (f : st -> st) : (forall s, s_clock (f s) = s_clock s) -> mono (upd f).
Proof. intros H s. unfold upd. cbn. rewrite H. lia. Qed.
Lemma m_add b o rows : mono (do_add w b o rows).
Proof. intros s. unfold do_add, take_results. destruct (w_fails w (s_clock s) b rows); [cbn; lia|]. destruct (add _ _ _). cbn. lia. Qed.
Lemma m_keep zs : mono (do_keep zs : st -> _).
Proof. intros s. unfold do_keep. destruct (keep _ _). cbn. lia. Qed.
Lemma m_delete zs : mono (do_delete zs : st -> _).
Proof. intros s. unfold do_delete. destruct (delete _ _). cbn. lia. Qed.
Lemma m_reeval g : mono (do_reeval g : st -> _).
Proof. intros s. unfold do_reeval. destruct (reevaluate _ _). cbn. lia. Qed.
Lemma m_replace zs i r : mono (do_replace zs i r : st -> _).
Proof. intros s. unfold do_replace. destruct (first_row r); [destruct (replace _ _ _ _)|]; cbn; lia. Qed.
Lemma m_archive rows r : mono (do_archive dom rows r : st -> _).
Proof. intros s. unfold do_archive. destruct (s_nd s); cbn; lia. Qed.
Lemma m_if_archive (rows : list I) r : mono (if c_save_nd c then do_archive dom rows r else upd (fun s : st => s)).
Proof. destruct (c_save_nd c); [apply m_archive|apply m_upd; auto]. Qed.
Lemma m_env fuel n : mono (env_sel w fuel n).
Proof.
  induction fuel as [|f IH]; intros s; cbn [env_sel]; destruct (rows_count s) as [k|]; auto; destruct (Nat.ltb n k); auto.
  revert s. apply m_andthen; [apply m_ask|]. intros z. apply m_andthen; [apply m_delete|]. intros _. exact IH.
Qed.
Lemma m_fst {A} (m : st -> st * res A) s : mono m -> s_clock s <= s_clock (fst (m s)).
Proof. auto. Qed.
Hint Resolve m_ask m_add m_keep m_delete m_reeval m_replace m_archive m_if_archive m_env : core.
Ltac mo := repeat (apply m_andthen; [solve [auto | apply m_upd; intros; repeat match goal with |- context [if ?b then _ else _] => destruct b end; reflexivity]|intros ?]).
Lemma m_sub ur i : mono (moead_sub dom w c ur i).
Proof.
  unfold moead_sub. mo. destruct a0 as [|o rows]; [intros s; cbn; lia|]. cbv zeta. mo. apply m_if_archive.
Qed.
Lemma m_subs ur is : mono (moead_subs dom w c ur is).
Proof. induction is as [|i is IH]; cbn [moead_subs]; [apply m_upd; auto|]. apply m_andthen; [apply m_sub|auto]. Qed.
Lemma m_next : mono (next_gen dom w c).
Proof.
  unfold next_gen. destruct (c_kind c) as [|n r|n| |k].
  - unfold dec_gen. mo. apply m_upd. intros s. destruct (c_surrogates c); reflexivity.
  - unfold moead_gen. apply m_andthen; [apply m_subs|]. intros _. apply m_upd. reflexivity.
  - intros s. unfold ind_gen. apply m_fst. apply m_andthen; [apply m_env|]. intros ?. mo. apply m_upd. reflexivity.
  - unfold tour_gen. mo. apply m_andthen; [intros s; destruct (rows_count s); [apply m_delete|cbn; lia]|]. intros ?. mo. apply m_upd. reflexivity.
  - unfold ppga_gen. mo. cbv zeta. mo. apply m_andthen; [|intros ?; mo; apply m_delete].
    intros s. destruct (Nat.eqb k 0); [cbn; lia|]. destruct (_ =? 0)%Z; [|cbn; lia]. apply m_fst. mo. apply m_delete.
Qed.
Lemma m_loop fuel : mono (gen_loop dom w c fuel).
Proof.
  induction fuel as [|f IH]; intros s; cbn [gen_loop]; [cbn; lia|]. destruct (continue_iteration c s); [|cbn; lia]. apply m_fst. apply m_andthen; [apply m_next|auto].
Qed.
Lemma m_iterate s s' out : iterate dom w c s = (s', out) -> s_clock s < s_clock s'.
Proof.
  intros E. unfold iterate, andthen at 1 in E. unfold ask at 1 in E. destruct (w_prefs w (s_clock s) (s_pop s)) as [g|e]; [|injection E as <- _; cbn; lia].
  match type of E with ?m (tick s) = _ => assert (M : mono m) end.
  { apply m_andthen; [destruct g; [apply m_reeval|apply m_upd; auto]|]. intros ?. apply m_andthen; [apply m_upd; intros; destruct (c_keep_archive c); reflexivity|]. intros ?.
    apply m_andthen; [apply m_ask|]. intros ?. apply m_andthen; [apply m_upd; reflexivity|]. intros ?. apply m_andthen; [apply m_loop|]. intros ?. apply m_upd. reflexivity. }
  specialize (M (tick s)). rewrite E in M. cbn in M. lia.
Qed.

(** *** Whatever happens, the population stays usable *)
Variables (nc : nat) (u : bool) (ok : F -> Prop).
Hypothesis Hw : honest nc u w.
Hypothesis Hs : steady w.
Hypothesis Hf : fitness_ok ok w.
Notation At := (At c nc u ok).
Variable A : nat -> Prop.
Definition usable (s : st) : Prop := exists ms, At ms s /\ A (length ms).
Hypothesis Gen : forall ms, A (length ms) -> triple (At ms) (next_gen dom w c) (fun _ s => exists ms', At ms' s /\ A (length ms')) (fun s => broke w s /\ usable s).
Lemma usable_iterate s s' out : usable s -> iterate dom w c s = (s', out) -> usable s' /\ (out <> Ok tt -> exists k b rows e, s_clock s <= k /\ w_fails w k b rows = Some e).
Proof.
  intros (ms & HA & Ha) E. pose proof (T_iterate dom w c nc u ok Hs Hf A A usable (s_gen s) (map m_ind ms) (fun n H => H) Gen s) as T. rewrite E in T.
  assert (Iv : Inv c nc u ok A A (s_gen s) (map m_ind ms) s) by (exists ms; split; auto; split; auto; split; [lia|]; split; [lia|auto]).
  specialize (T Iv). apply m_iterate in E. destruct out as [[]|e].
  - destruct T as (ms' & H1 & H2 & _). split; [exists ms'; auto|congruence].
  - destruct T as [(k & b & rows & e0 & T1 & T2) T3]. split; auto. intros _. exists k, b, rows, e0. split; [lia|auto].
Qed.
Lemma usable_start s : usable s -> usable (fst (start dom c s)).
Proof.
  intros (ms & (HA & Hk & Hd) & Ha). unfold start. destruct (c_save_nd c) eqn:Es; [|exists ms; split; auto; split; auto].
  destruct (p_ind (s_pop s)); [|exists ms; split; auto; split; auto]. destruct (p_obj (s_pop s)); [|exists ms; split; auto; split; auto]. destruct (p_fit (s_pop s)); [|exists ms; split; auto; split; auto].
  exists ms. split; auto. split; auto. split; auto. intros _. cbn. discriminate.
Qed.
Lemma usable_session ks : forall s, usable s -> usable (session dom w c s ks).
Proof.
  induction ks as [|k ks IH]; intros s H; [exact H|]. apply IH. destruct k; cbn [do_call]; [apply usable_start; auto|].
  destruct (iterate dom w c s) as [s' out] eqn:E. apply (usable_iterate s s' out); auto.
Qed.
Lemma usable_ran k : forall s, usable s -> (forall t b rows, s_clock s <= t -> w_fails w t b rows = None) -> exists s', ran dom w c k s s' /\ usable s'.
Proof.
  induction k as [|k IH]; intros s H Hc; [exists s; split; [constructor|auto]|]. destruct (iterate dom w c s) as [s1 out] eqn:E. destruct (usable_iterate s s1 out H E) as [H1 H2].
  assert (out = Ok tt) as ->. { destruct out as [[]|e]; auto. destruct H2 as (t & b & rows & e0 & T1 & T2); [discriminate|]. rewrite Hc in T2 by auto. discriminate. }
  pose proof (m_iterate _ _ _ E) as M. destruct (IH s1 H1) as (s2 & R1 & R2); [intros; apply Hc; lia|]. exists s2. split; auto. econstructor; eauto.
Qed.
End P.
