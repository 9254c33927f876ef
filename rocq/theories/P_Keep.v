(** Lemmas for C136: a predicate on decision vectors that initial rows have and operators keep holds of everything a run evaluates, wherever it is stopped. *)
From Coq Require Import Lia.
From Verif Require Import Base M_Population Spec_Population P_Population M_Archive P_Archive M_Run Spec_Run P_Run P_Run2 P_Run3 M_Stop P_Stop P_Stop2.
Import ListNotations.
Open Scope nat_scope.

Section P.
Context {I O F C U : Type} (dom : F -> F -> bool) (w : world I O F C U) (c : cfg) (nc : nat) (u : bool) (Hw : honest nc u w) (ops0 : list (op I O F C U)) (G : I -> Prop).
Notation st := (st I O F C U).
Notation prog := (@prog I O F C U).
Notation inv := (inv w nc u ops0).
Notation added := (added w nc u ops0).
(** What is done to an offspring before it is evaluated. *)
Definition made (x : I) : I := match c_kind c with KMoead _ true => w_repair w x | _ => x end.
Context (Hmate : forall k p par rows, (forall l, p_ind p = Some l -> Forall G l) -> w_mate w k p par = Ok rows -> Forall G (map made rows)).
Context (Hops : Forall (fun m => G (fst (fst (fst m)))) (evaluated ops0)).

Definition glog (s : st) : Prop := forall e, In e (s_log s) -> Forall G (snd (fst e)).
Definition J (s : st) : Prop := inv s /\ glog s.

Lemma zip_in (is : list I) : forall os fs (cs : list (option C)) (us : list (option U)) m, In m (zip_members is os fs cs us) -> In (@m_ind I O F C U m) is.
Proof.
  induction is as [|i is IH]; intros os fs cs us m Hm; [destruct Hm|]. destruct os as [|o os], fs as [|f fs], cs as [|x cs], us as [|y us]; cbn [zip_members] in Hm; try contradiction Hm.
  destruct Hm as [<-|Hm]; [left; reflexivity|right; eapply IH; exact Hm].
Qed.
Lemma evals_rows (log : list (bool * list I * results O F C U)) i o f con : In (i, o, f, con) (evals log) -> exists e, In e log /\ In i (snd (fst e)).
Proof.
  unfold evals. intros H. apply in_flat_map in H. destruct H as (e & He & H). exists e. split; [exact He|]. apply in_map_iff in H. destruct H as (m & E & Hm). injection E as <- _ _ _.
  eapply zip_in. exact Hm.
Qed.
Lemma vouched_good s i o f : glog s -> vouched (evaluated ops0 ++ evals (s_log s)) (refits w ops0) i o f -> G i.
Proof.
  intros Hg (f0 & con & Hin & _). apply in_app_or in Hin. destruct Hin as [Hin|Hin].
  - rewrite Forall_forall in Hops. exact (Hops _ Hin).
  - apply evals_rows in Hin. destruct Hin as (e & He & Hi). specialize (Hg e He). rewrite Forall_forall in Hg. auto.
Qed.
Lemma pop_good s : J s -> forall l, p_ind (s_pop s) = Some l -> Forall G l.
Proof.
  intros [(A & B & _) Hg] l Hl. assert (P : pop_ok (vouched (evaluated ops0 ++ evals (s_log s)) (refits w ops0)) (s_pop s)) by (rewrite A; apply (run_pop_ok w nc u ops0); exact B).
  destruct P as [P|(is & os & fs & P1 & P2 & P3 & L1 & L2 & P4)]; [congruence|]. rewrite Hl in P1. injection P1 as ->. apply Forall_forall. intros i Hi. apply In_nth_error in Hi. destruct Hi as [j Hj].
  assert (Ho : exists o, nth_error os j = Some o). { destruct (nth_error os j) eqn:E; [eauto|]. apply nth_error_None in E. assert (j < length is) by (apply nth_error_Some; congruence). lia. }
  assert (Hf : exists f, nth_error fs j = Some f). { destruct (nth_error fs j) eqn:E; [eauto|]. apply nth_error_None in E. assert (j < length is) by (apply nth_error_Some; congruence). lia. }
  destruct Ho as [o Ho], Hf as [f Hf]. eapply vouched_good; [exact Hg|]. eapply P4; eauto.
Qed.

(** Statements that evaluate nothing keep [glog]. *)
Lemma glog_quiet {A} (m : st -> st * res A) s : quiet m -> glog s -> glog (fst (m s)).
Proof. intros Hq Hg. specialize (Hq s). unfold counts_of in Hq. injection Hq as _ E _ _ _. unfold glog. rewrite E. exact Hg. Qed.
Lemma tq {A} (P E : st -> Prop) (m : st -> st * res A) (Q : A -> st -> Prop) : quiet m -> triple P m Q E -> triple (fun s => P s /\ glog s) m (fun a s => Q a s /\ glog s) (fun s => E s /\ glog s).
Proof. intros Hq T s [Hs Hg]. specialize (T s Hs). pose proof (glog_quiet m s Hq Hg) as X. destruct (m s) as [s' [a|e]]; cbn [fst] in X; auto. Qed.
Lemma tj {A} (m : st -> st * res A) : quiet m -> triple inv m (fun _ => inv) inv -> triple J m (fun _ => J) J.
Proof. apply tq. Qed.
Lemma glog_app s e : glog s -> Forall G (snd (fst e)) -> forall t, s_log t = s_log s ++ [e] -> glog t.
Proof. intros Hg He t Et x Hx. rewrite Et in Hx. apply in_app_or in Hx. destruct Hx as [Hx|[<-|[]]]; auto. Qed.
Lemma tj_mate par : triple J (ask (fun k p => w_mate w k p par)) (fun off s => J s /\ Forall G (map made off)) J.
Proof.
  intros s Hs. unfold ask. assert (Ht : J (tick s)) by (destruct Hs; split; [apply inv_tick; auto|auto]). destruct (w_mate w (s_clock s) (s_pop s) par) as [off|e] eqn:E; [|exact Ht]. split; [exact Ht|].
  eapply Hmate; [|exact E]. apply pop_good. exact Hs.
Qed.
Definition jadded (rows : list I) (r : results O F C U) (s : st) : Prop := added rows r s /\ glog s.
Lemma tj_add surr o rows : rows_of o = rows -> o <> OOther -> Forall G rows -> triple J (do_add w surr o rows) (jadded rows) J.
Proof.
  intros Ho Hn Hg s [Hs Hl]. pose proof (t_add w nc u Hw ops0 surr o rows Ho Hn s Hs) as T.
  assert (X : glog (fst (do_add w surr o rows s))).
  { unfold do_add. destruct (w_fails w (s_clock s) surr rows); [exact Hl|]. unfold take_results. destruct (add _ _ _) as [p out]. cbn [fst]. eapply glog_app; [exact Hl| |reflexivity]. exact Hg. }
  destruct (do_add w surr o rows s) as [s' [r|e]]; cbn [fst] in X; split; auto.
Qed.
Lemma jadded_J rows r s : jadded rows r s -> J s.
Proof. intros [H X]. split; [eapply added_inv; exact H|exact X]. Qed.

Hint Resolve q_ask q_keep q_delete q_replace q_archive q_skip q_env q_reeval : core.
Lemma tj_ask {A} (f : nat -> pop I O F C U -> res A) : triple J (ask f) (fun _ => J) J.
Proof. apply tj; [auto|apply t_ask_inv]. Qed.
Lemma tj_upd (f : st -> st) : (forall s, inv s -> inv (f s)) -> (forall s, s_log (f s) = s_log s) -> triple J (upd f) (fun _ => J) J.
Proof. intros H1 H2 s [Hs Hg]. cbn [upd]. split; [apply H1; exact Hs|]. unfold glog. rewrite H2. exact Hg. Qed.
Lemma tj_count n : triple J (count n) (fun _ => J) J.
Proof. apply tj_upd; [intros s Hs; apply inv_add_fe; auto|reflexivity]. Qed.
Lemma tj_gen : triple J (upd inc_gen) (fun _ => J) J.
Proof. apply tj_upd; [intros s (A & B & D & E); split; auto|reflexivity]. Qed.
Lemma tj_gi : triple J (upd inc_gi) (fun _ => J) J.
Proof. apply tj_upd; [intros s (A & B & D & E); split; auto|reflexivity]. Qed.
Lemma tj_delete zs : triple J (do_delete zs) (fun _ => J) J.
Proof. apply tj; [auto|apply t_delete]. Qed.
Lemma tja_ask {A} rows r (f : nat -> pop I O F C U -> res A) : triple (jadded rows r) (ask f) (fun _ => jadded rows r) J.
Proof. apply tq; [auto|apply t_ask_added]. Qed.
Lemma tja_archive rows r : triple (jadded rows r) (if c_save_nd c then do_archive dom rows r else upd (fun s => s)) (fun _ => J) J.
Proof. destruct (c_save_nd c); [apply tq; [auto|apply t_archive]|]. intros s Hs. apply (jadded_J _ _ _ Hs). Qed.
Lemma tja_add_inv surr o rows : rows_of o = rows -> o <> OOther -> Forall G rows -> triple J (do_add w surr o rows) (fun _ => J) J.
Proof. intros A B D s Hs. pose proof (tj_add surr o rows A B D s Hs) as T. destruct (do_add w surr o rows s) as [s' [r|e]]; [eapply jadded_J; exact T|exact T]. Qed.

(** Not wrapped in repair, and one at a time in it. *)
Lemma made_id off : (match c_kind c with KMoead _ true => False | _ => True end) -> Forall G (map made off) -> Forall G off.
Proof. unfold made. destruct (c_kind c) as [|n [|]|n| |k]; intros H; try contradiction; rewrite map_id; auto. Qed.
Lemma made_first o offs ur n : c_kind c = KMoead n ur -> Forall G (map made (o :: offs)) -> G (if ur then w_repair w o else o).
Proof. intros Hk H. apply Forall_inv in H. unfold made in H. rewrite Hk in H. destruct ur; exact H. Qed.

(** [done]: also what holds at the end. *)
Definition jsafe {A} (p : prog A) : Prop := safe J p J /\ triple J (run_all p) (fun _ => J) J.
Lemma jsafe_of {A} (p : prog A) : safe J p J -> jsafe p.
Proof. intros H. split; [exact H|]. intros s Hs. pose proof (safe_end J p J s H Hs) as X. destruct (run_all p s) as [s' [a|e]]; exact X. Qed.
Lemma jseqp {A B} (p : prog A) (k : A -> prog B) : jsafe p -> (forall a, safe J (k a) J) -> safe J (seqp p k) J.
Proof. intros [H1 H2] H3. apply safe_seqp with (Q := fun _ => J); auto. Qed.
Lemma jdo {A B} (m : st -> st * res B) (k : B -> prog A) : triple J m (fun _ => J) J -> (forall b, safe J (k b) J) -> safe J (Do B m k) J.
Proof. intros H1 H2. apply safe_do with (Q := fun _ => J); auto. Qed.
Lemma jone {B} (m : st -> st * res B) : triple J m (fun _ => J) J -> safe J (one m) J.
Proof. intros H. apply safe_one with (Q := fun _ => J); auto. Qed.
Lemma jmate {A} par (k : list I -> prog A) : (forall off, Forall G (map made off) -> safe J (k off) J) -> safe J (Do _ (ask (fun k p => w_mate w k p par)) k) J.
Proof.
  intros Hk. eapply safe_do; [auto|apply tj_mate|]. intros off n s [Hs Ho]. apply Hk; auto.
Qed.

Lemma j_dec : c_kind c = KDecomposition -> safe J (dec_prog dom w c) J.
Proof.
  intros Hk. unfold dec_prog. apply jmate. intros off Ho. apply made_id in Ho; [|rewrite Hk; exact Logic.I].
  eapply safe_do; [auto|apply tj_add; [reflexivity|discriminate|exact Ho]|]. intros r. eapply safe_do; [apply jadded_J|apply tja_archive|]. intros ?.
  apply jdo; [apply tj_ask|]. intros sel. apply jdo; [apply tj; [auto|apply t_keep]|]. intros ?. apply jdo; [apply tj_gen|]. intros ?. apply jdo; [apply tj_gi|]. intros ?. apply jone.
  destruct (c_surrogates c); [|apply tj_count]. apply tj_upd; auto.
Qed.
Lemma j_sub n ur i : c_kind c = KMoead n ur -> safe J (sub_prog dom w c ur i) J.
Proof.
  intros Hk. unfold sub_prog. apply jdo; [apply tj_ask|]. intros par. apply jmate. intros [|o offs] Ho; [apply jone; intros s Hs; exact Hs|].
  pose proof (made_first o offs ur n Hk Ho) as Hm. cbv zeta. set (off := if ur then w_repair w o else o) in *.
  eapply safe_do; [auto|apply tj_add; [reflexivity|discriminate|constructor; [exact Hm|constructor]]|]. intros r.
  apply safe_do with (Q := fun _ => jadded [off] r); [apply jadded_J| |].
  { intros s [Hs Hg]. destruct (c_surrogates c); cbn [upd count]; (split; [|exact Hg]); [exact Hs|apply added_add_fe; exact Hs]. }
  intros ?. eapply safe_do; [apply jadded_J|apply tja_ask|]. intros sel. eapply safe_do; [apply jadded_J|apply tq; [auto|apply (t_replace dom)]|]. intros ?.
  eapply safe_do; [intros s Hs; apply (jadded_J [off] r); exact Hs|apply tq; [auto|apply t_added_delete]|]. intros ?.
  apply safe_one with (Q := fun _ => J); [intros s Hs; apply (jadded_J [off] r); exact Hs|auto|apply tja_archive].
Qed.
Lemma j_subs n ur is : c_kind c = KMoead n ur -> safe J (subs_prog dom w c ur is) J.
Proof. intros Hk. induction is as [|i is IH]; cbn [subs_prog]; [apply safe_ret; auto|]. apply jseqp; [apply jsafe_of, (j_sub n); exact Hk|auto]. Qed.
Lemma j_env n : forall fuel, safe J (env_prog w fuel n) J.
Proof.
  assert (T : triple J (fun s : st => (s, match rows_count s with None => Err AttributeError | Some n => Ok n end)) (fun _ => J) J) by (intros s Hs; destruct (rows_count s); exact Hs).
  induction fuel as [|f IH]; cbn [env_prog]; (apply jdo; [exact T|]); intros m; (destruct (Nat.ltb n m); [|apply safe_ret; auto]).
  - apply jone. intros s Hs. exact Hs.
  - apply jdo; [apply tj_ask|]. intros z. apply jdo; [apply tj_delete|]. intros ?. exact IH.
Qed.
Lemma j_next : safe J (next_prog dom w c) J.
Proof.
  unfold next_prog. destruct (c_kind c) as [|n ur|n| |k] eqn:Hk; [apply j_dec; exact Hk| | | |].
  - unfold moead_prog. apply jseqp; [apply jsafe_of, (j_subs n); exact Hk|]. intros ?. apply jdo; [apply tj_gen|]. intros ?. apply jone. apply tj_gi.
  - unfold ind_prog. apply jdo; [intros s Hs; exact Hs|]. intros fuel. apply jseqp; [apply jsafe_of, j_env|]. intros ?. apply jdo; [apply tj_ask|]. intros ch. apply jmate. intros off Ho. apply made_id in Ho; [|rewrite Hk; exact Logic.I].
    apply jdo; [apply tja_add_inv; [reflexivity|discriminate|exact Ho]|]. intros r. apply jdo; [apply tj_gen|]. intros ?. apply jdo; [apply tj_gi|]. intros ?. apply jone. apply tj_count.
  - unfold tour_prog. apply jdo; [apply tj_ask|]. intros ch. apply jmate. intros off Ho. apply made_id in Ho; [|rewrite Hk; exact Logic.I].
    apply jdo; [intros s Hs; destruct (rows_count s); [apply tj_delete; exact Hs|exact Hs]|]. intros ?.
    apply jdo; [apply tja_add_inv; [reflexivity|discriminate|exact Ho]|]. intros r. apply jdo; [apply tj_gen|]. intros ?. apply jdo; [apply tj_gi|]. intros ?. apply jone. apply tj_count.
  - unfold ppga_prog. apply jdo; [apply tj_ask|]. intros prs. apply jmate. intros off Ho. apply made_id in Ho; [|rewrite Hk; exact Logic.I]. apply jdo; [apply tj_ask|]. intros placed. cbv zeta.
    assert (Hp : Forall G (pick_rows placed off)).
    { rewrite pick_rows_filter. apply Forall_forall. intros x Hx. apply in_map_iff in Hx. destruct Hx as ([q y] & <- & Hy). apply filter_In in Hy. destruct Hy as [Hy _]. apply in_combine_r in Hy. rewrite Forall_forall in Ho. apply Ho. exact Hy. }
    apply jdo; [apply tja_add_inv; [reflexivity|discriminate|exact Hp]|]. intros r. apply jdo; [apply tj_gen|]. intros ?. apply jdo; [apply tj_gi|]. intros ?. apply jdo; [apply tj_count|]. intros ?.
    apply jdo; [intros s Hs; destruct (Nat.eqb k 0); exact Hs|]. intros due. apply jseqp.
    + apply jsafe_of. destruct due; [|apply safe_ret; auto]. apply jdo; [apply tj_ask|]. intros sel. apply jone. apply tj_delete.
    + intros ?. apply jdo; [apply tj_ask|]. intros dead. apply jone. apply tj_delete.
Qed.
Lemma j_loop : forall fuel, safe J (loop_prog dom w c fuel) J.
Proof.
  induction fuel as [|f IH]; cbn [loop_prog]; [apply jone; intros s Hs; exact Hs|]. apply jdo; [intros s Hs; exact Hs|]. intros [|]; [|apply safe_ret; auto]. apply jseqp; [apply jsafe_of, j_next|auto].
Qed.
Lemma j_iterate : safe J (iterate_prog dom w c) J.
Proof.
  unfold iterate_prog. apply safe_do with (Q := fun g s => J s /\ forall h, g = Some h -> refits w ops0 h); [auto| |].
  { apply t_ask. intros s [Hs Hl]. assert (Ht : J (tick s)) by (split; [apply inv_tick; exact Hs|exact Hl]). destruct (w_prefs w (s_clock s) (s_pop s)) as [g|] eqn:E; [|exact Ht]. split; [exact Ht|]. intros h ->. right. eauto. }
  intros g. apply safe_do with (Q := fun _ => J); [intros s Hs; apply Hs| |].
  { intros s [Hs Hg]. destruct g as [h|]; [apply (tj (do_reeval h)); [auto|apply t_reeval; auto|exact Hs]|exact Hs]. }
  intros ?. apply jdo; [apply tj_upd; [intros s Hs; destruct (c_keep_archive c); auto; apply inv_snap; auto|intros s; destruct (c_keep_archive c); reflexivity]|]. intros ?.
  apply jdo; [apply tj_ask|]. intros ?. apply jdo; [apply tj_upd; [intros s (A & B & D & E); split; auto|reflexivity]|]. intros ?.
  apply jseqp; [apply jsafe_of, j_loop|]. intros ?. apply jone. apply tj_upd; [intros s (A & B & D & E); split; auto|reflexivity].
Qed.
Lemma j_session ks : forall s, J s -> J (ssession dom w c s ks).
Proof.
  induction ks as [|k ks IH]; intros s Hs; [exact Hs|]. change (ssession dom w c s (k :: ks)) with (ssession dom w c (do_scall dom w c s k) ks). apply IH. destruct k as [[|]|n]; cbn [do_scall do_call].
  - destruct Hs as [Hs Hl]. pose proof (t_start dom w c nc u ops0 s Hs) as T. assert (X : s_log (fst (start dom c s)) = s_log s).
    { unfold start. destruct (c_save_nd c); [|reflexivity]. destruct (p_ind _); [|reflexivity]. destruct (p_obj _); [|reflexivity]. destruct (p_fit _); reflexivity. }
    destruct (start dom c s) as [s' [x|e]]; cbn [fst] in *; (split; [exact T|unfold glog; rewrite X; exact Hl]).
  - rewrite <- run_iterate. apply (safe_end _ _ _ s j_iterate Hs).
  - apply j_iterate; auto.
Qed.
End P.
