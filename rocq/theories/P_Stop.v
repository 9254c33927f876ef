(** Lemmas for C135. *)
From Coq Require Import Lia.
From Verif Require Import Base M_Population Spec_Population P_Population M_Archive P_Archive M_Run Spec_Run P_Run P_Run2 P_Run3 M_Stop.
Import ListNotations.
Open Scope nat_scope.

Section P.
Context {I O F C U : Type} (dom : F -> F -> bool) (w : world I O F C U) (c : cfg).
Notation st := (st I O F C U).
Notation prog := (@prog I O F C U).

Lemma run_seqp {A B} (p : prog A) (k : A -> prog B) s : run_all (seqp p k) s = match run_all p s with (s', Ok a) => run_all (k a) s' | (s', Err e) => (s', Err e) end.
Proof.
  revert s. induction p as [a|X m f IH]; intros s; cbn [seqp run_all]; [reflexivity|]. destruct (m s) as [s' [b|e]]; auto.
Qed.
Lemma run_one {B} (m : st -> st * res B) s : run_all (one m) s = m s.
Proof. unfold one. cbn [run_all]. destruct (m s) as [s' [b|e]]; reflexivity. Qed.

Ltac steps := repeat first [ reflexivity | match goal with |- context [match ?m with (_, _) => _ end] => match m with
   | ?f ?s => destruct m as [? [?|?]] end end ].

Lemma run_dec s : run_all (dec_prog dom w c) s = dec_gen dom w c s.
Proof.
  unfold dec_prog, dec_gen, andthen. cbn [run_all]. destruct (ask _ s) as [s1 [off|e]]; [|reflexivity]. destruct (do_add _ _ _ _ s1) as [s2 [r|e]]; [|reflexivity].
  destruct ((if c_save_nd c then do_archive dom off r else upd (fun s => s)) s2) as [s3 [x|e]]; [|reflexivity]. destruct (ask _ s3) as [s4 [sel|e]]; [|reflexivity].
  destruct (do_keep sel s4) as [s5 [y|e]]; [|reflexivity]. unfold upd at 1 2. cbv iota beta. rewrite run_one. destruct (c_surrogates c); reflexivity.
Qed.
Lemma run_sub ur i s : run_all (sub_prog dom w c ur i) s = moead_sub dom w c ur i s.
Proof.
  unfold sub_prog, moead_sub, andthen. cbn [run_all]. destruct (ask _ s) as [s1 [par|e]]; [|reflexivity]. destruct (ask _ s1) as [s2 [[|o offs]|e]]; [reflexivity| |reflexivity].
  cbv zeta. cbn [run_all]. destruct (do_add _ _ _ _ s2) as [s3 [r|e]]; [|reflexivity]. assert (Hc : (if c_surrogates c then upd (fun s => s) else count 1) s3 = upd (fun s => if c_surrogates c then s else add_fe s 1%Z) s3) by (destruct (c_surrogates c); reflexivity).
  rewrite Hc. destruct (upd _ s3) as [s3' [u|e]]; [|reflexivity]. destruct (ask _ s3') as [s4 [sel|e]]; [|reflexivity]; destruct (do_replace _ _ _ s4) as [s5 [x|e]]; [|reflexivity]; destruct (do_delete _ s5) as [s6 [y|e]]; [|reflexivity]; rewrite run_one; reflexivity.
Qed.
Lemma run_subs ur is : forall s, run_all (subs_prog dom w c ur is) s = moead_subs dom w c ur is s.
Proof.
  induction is as [|i is IH]; intros s; cbn [subs_prog moead_subs]; [reflexivity|]. rewrite run_seqp, run_sub. unfold andthen. destruct (moead_sub dom w c ur i s) as [s' [x|e]]; auto.
Qed.
Lemma run_env n : forall fuel s, run_all (env_prog w fuel n) s = env_sel w fuel n s.
Proof.
  induction fuel as [|f IH]; intros s; cbn [env_prog env_sel run_all]; destruct (rows_count s) as [m|]; try reflexivity; destruct (Nat.ltb n m); try reflexivity.
  cbn [run_all]. unfold andthen. destruct (ask _ s) as [s1 [z|e]]; [|reflexivity]. destruct (do_delete _ s1) as [s2 [x|e]]; [|reflexivity]. apply IH.
Qed.
Lemma run_next s : run_all (next_prog dom w c) s = next_gen dom w c s.
Proof.
  unfold next_prog, next_gen. destruct (c_kind c) as [|n ur|n| |k]; [apply run_dec| | | |].
  - unfold moead_prog, moead_gen, andthen. rewrite run_seqp, run_subs. destruct (moead_subs dom w c ur (seq 0 n) s) as [s' [x|e]]; reflexivity.
  - unfold ind_prog, ind_gen, andthen. cbn [run_all]. rewrite run_seqp, run_env. destruct (env_sel w _ n s) as [s' [x|e]]; [|reflexivity]. cbn [run_all].
    destruct (ask _ s') as [s1 [ch|e]]; [|reflexivity]. destruct (ask _ s1) as [s2 [off|e]]; [|reflexivity]. destruct (do_add _ _ _ _ s2) as [s3 [r|e]]; [|reflexivity]. reflexivity.
  - unfold tour_prog, tour_gen, andthen. cbn [run_all]. destruct (ask _ s) as [s1 [ch|e]]; [|reflexivity]. destruct (ask _ s1) as [s2 [off|e]]; [|reflexivity].
    destruct (rows_count s2) as [m|]; [|reflexivity]. destruct (do_delete _ s2) as [s3 [r|e]]; [|reflexivity]. destruct (do_add _ _ _ _ s3) as [s4 [x|e]]; reflexivity.
  - unfold ppga_prog, ppga_gen, andthen. cbn [run_all]. destruct (ask _ s) as [s1 [prs|e]]; [|reflexivity]. destruct (ask _ s1) as [s2 [off|e]]; [|reflexivity].
    destruct (ask _ s2) as [s3 [placed|e]]; [|reflexivity]. cbv zeta. cbn [run_all]. destruct (do_add _ _ _ _ s3) as [s4 [x|e]]; [|reflexivity].
    set (n := length (pick_rows placed off)). unfold count, upd. cbv iota beta.
    change (add_fe (inc_gi (inc_gen s4)) (Z.of_nat n)) with (add_fe (bump_gen s4) (Z.of_nat n)).
    set (s5 := add_fe (bump_gen s4) (Z.of_nat n)). clearbody s5. destruct (Nat.eqb k 0); [reflexivity|]. destruct (Z.eqb _ _).
    + rewrite run_seqp. cbn [run_all]. destruct (ask _ s5) as [s6 [sel|e]]; [|reflexivity]. rewrite run_one. destruct (do_delete _ s6) as [s7 [y|e]]; [|reflexivity]. cbn [run_all].
      destruct (ask _ s7) as [s8 [dead|e]]; [|reflexivity]. apply run_one.
    + rewrite run_seqp. cbn [run_all]. destruct (ask _ s5) as [s8 [dead|e]]; [|reflexivity]. apply run_one.
Qed.
Lemma run_loop : forall fuel s, run_all (loop_prog dom w c fuel) s = gen_loop dom w c fuel s.
Proof.
  induction fuel as [|f IH]; intros s; cbn [loop_prog gen_loop]; [reflexivity|]. cbn [run_all]. destruct (continue_iteration c s); [|reflexivity]. rewrite run_seqp, run_next. unfold andthen.
  destruct (next_gen dom w c s) as [s' [x|e]]; auto.
Qed.
Lemma run_iterate s : run_all (iterate_prog dom w c) s = iterate dom w c s.
Proof.
  unfold iterate_prog, iterate, andthen. cbn [run_all]. destruct (ask _ s) as [s1 [g|e]]; [|reflexivity].
  destruct ((match g with None => upd (fun s => s) | Some g => do_reeval g end) s1) as [s2 [x|e]]; [|reflexivity]. destruct (upd _ s2) as [s2' [x'|e]]; [|reflexivity].
  destruct (ask _ s2') as [s3 [y|e]]; [|reflexivity]. destruct (upd _ s3) as [s3' [y'|e]]; [|reflexivity]. rewrite run_seqp, run_loop. destruct (gen_loop dom w c _ _) as [s4 [z|e]]; [|reflexivity]. reflexivity.
Qed.

(** ** What holds wherever a program is stopped *)
Definition safe {A} (P : st -> Prop) (p : prog A) (E : st -> Prop) : Prop := forall n s, P s -> E (stopped n p s).
Lemma stopped_0 {A} (p : prog A) s : stopped 0 p s = s.
Proof. destruct p; reflexivity. Qed.
Lemma safe_ret {A} (P E : st -> Prop) (a : A) : (forall s, P s -> E s) -> safe P (Ret a) E.
Proof. intros H [|n] s Hs; apply H; exact Hs. Qed.
Lemma safe_do {A B} (P : st -> Prop) (m : st -> st * res B) (Q : B -> st -> Prop) (k : B -> prog A) (E : st -> Prop) : (forall s, P s -> E s) -> triple P m Q E -> (forall b, safe (Q b) (k b) E) -> safe P (Do B m k) E.
Proof.
  intros HP Hm Hk [|n] s Hs; [apply HP; exact Hs|]. cbn [stopped]. specialize (Hm s Hs). destruct (m s) as [s' [b|e]]; [apply Hk; exact Hm|exact Hm].
Qed.
Lemma safe_one {B} (P : st -> Prop) (m : st -> st * res B) (Q : B -> st -> Prop) (E : st -> Prop) : (forall s, P s -> E s) -> (forall b s, Q b s -> E s) -> triple P m Q E -> safe P (one m) E.
Proof. intros HP HQ Hm. apply safe_do with (Q := Q); auto. intros b. apply safe_ret. apply HQ. Qed.
Lemma stopped_seqp {A B} (k : A -> prog B) : forall (p : prog A) n s,
  stopped n (seqp p k) s = stopped n p s \/ exists a s' m, run_all p s = (s', Ok a) /\ stopped n (seqp p k) s = stopped m (k a) s'.
Proof.
  induction p as [a|X m f IH]; intros n s; cbn [seqp].
  - right. exists a, s, n. split; reflexivity.
  - destruct n as [|n]; [left; reflexivity|]. cbn [stopped run_all]. destruct (m s) as [s' [b|e]]; [|left; reflexivity]. apply IH.
Qed.
Lemma safe_seqp {A B} (P : st -> Prop) (p : prog A) (k : A -> prog B) (Q : A -> st -> Prop) (E : st -> Prop) : safe P p E -> triple P (run_all p) Q E -> (forall a, safe (Q a) (k a) E) -> safe P (seqp p k) E.
Proof.
  intros Hp Ht Hk n s Hs. destruct (stopped_seqp k p n s) as [->|(a & s' & m & Er & ->)]; [apply Hp; exact Hs|]. apply Hk. specialize (Ht s Hs). rewrite Er in Ht. exact Ht.
Qed.
Lemma safe_weaken {A} (P P' E E' : st -> Prop) (p : prog A) : safe P p E -> (forall s, P' s -> P s) -> (forall s, E s -> E' s) -> safe P' p E'.
Proof. intros H HP HE n s Hs. apply HE, H, HP, Hs. Qed.
Lemma triple_ext {A} (P : st -> Prop) (m m' : st -> st * res A) (Q : A -> st -> Prop) (E : st -> Prop) : (forall s, m s = m' s) -> triple P m' Q E -> triple P m Q E.
Proof. intros H T s Hs. rewrite H. apply T. exact Hs. Qed.

(** ** Provenance *)
Section Prov.
Context (nc : nat) (u : bool) (Hw : honest nc u w) (ops0 : list (op I O F C U)).
Notation inv := (inv w nc u ops0).
Notation added := (added w nc u ops0).
Lemma inv_gen s : inv s -> inv (inc_gen s).
Proof. intros (A & B & D & E). split; auto. Qed.
Lemma inv_gi s : inv s -> inv (inc_gi s).
Proof. intros (A & B & D & E). split; auto. Qed.
Lemma added_inv rows r s : added rows r s -> inv s.
Proof. intros (H & _). exact H. Qed.
Lemma t_count n : triple inv (count n) (fun _ => inv) inv.
Proof. apply t_upd. intros s Hs. apply inv_add_fe; auto. Qed.
Lemma t_gen : triple inv (upd inc_gen) (fun _ => inv) inv.
Proof. apply t_upd. intros s Hs. apply inv_gen; auto. Qed.
Lemma t_gi : triple inv (upd inc_gi) (fun _ => inv) inv.
Proof. apply t_upd. intros s Hs. apply inv_gi; auto. Qed.
Lemma t_id (P E : st -> Prop) : triple P (upd (fun s => s)) (fun _ => P) E.
Proof. apply t_upd. auto. Qed.

Lemma s_dec : safe inv (dec_prog dom w c) inv.
Proof.
  unfold dec_prog. eapply safe_do; [auto|apply t_ask_inv|]. intros off. eapply safe_do; [auto|apply t_add; [exact Hw|reflexivity|discriminate]|]. intros r.
  eapply safe_do with (Q := fun _ => inv); [apply added_inv| |].
  { destruct (c_save_nd c); [apply t_archive|]. apply t_upd. intros s H. apply H. }
  intros ?. eapply safe_do; [auto|apply t_ask_inv|]. intros sel. eapply safe_do; [auto|apply t_keep|]. intros ?. eapply safe_do; [auto|apply t_gen|]. intros ?. eapply safe_do; [auto|apply t_gi|]. intros ?.
  apply safe_one with (Q := fun _ => inv); auto. destruct (c_surrogates c); [apply t_id|apply t_count].
Qed.
Lemma s_sub ur i : safe inv (sub_prog dom w c ur i) inv.
Proof.
  unfold sub_prog. eapply safe_do; [auto|apply t_ask_inv|]. intros par. eapply safe_do; [auto|apply t_ask_inv|]. intros [|o offs].
  { apply safe_one with (Q := fun _ => inv); auto. intros s Hs. exact Hs. }
  cbv zeta. set (off := if ur then w_repair w o else o). eapply safe_do; [auto|apply t_add; [exact Hw|reflexivity|discriminate]|]. intros r.
  eapply safe_do with (Q := fun _ => added [off] r); [apply added_inv| |].
  { destruct (c_surrogates c); [apply t_id|]. apply t_upd. intros s Hs. apply added_add_fe. exact Hs. }
  intros ?. eapply safe_do; [apply added_inv|apply t_ask_added|]. intros sel. eapply safe_do; [apply added_inv|apply (t_replace dom)|]. intros ?.
  eapply safe_do; [apply added_inv|apply t_added_delete|]. intros ?. apply safe_one with (Q := fun _ => inv); [apply added_inv|auto|].
  destruct (c_save_nd c); [apply t_archive|]. apply t_upd. intros s H. apply H.
Qed.
Lemma s_subs ur is : safe inv (subs_prog dom w c ur is) inv.
Proof.
  induction is as [|i is IH]; cbn [subs_prog]; [apply safe_ret; auto|]. apply safe_seqp with (Q := fun _ => inv); [apply s_sub| |auto].
  eapply triple_ext; [apply run_sub|]. apply t_moead_sub; exact Hw.
Qed.
Lemma s_env n : forall fuel, safe inv (env_prog w fuel n) inv.
Proof.
  assert (G : triple inv (fun s : st => (s, match rows_count s with None => Err AttributeError | Some n => Ok n end)) (fun _ => inv) inv).
  { intros s Hs. destruct (rows_count s); exact Hs. }
  induction fuel as [|f IH]; cbn [env_prog]; (eapply safe_do; [auto|exact G|]); intros m; (destruct (Nat.ltb n m); [|apply safe_ret; auto]).
  - apply safe_one with (Q := fun _ => inv); auto. intros s Hs. exact Hs.
  - eapply safe_do; [auto|apply t_ask_inv|]. intros z. eapply safe_do; [auto|apply t_delete|]. intros ?. exact IH.
Qed.
Lemma s_next : safe inv (next_prog dom w c) inv.
Proof.
  unfold next_prog. destruct (c_kind c) as [|n ur|n| |k]; [apply s_dec| | | |].
  - unfold moead_prog. apply safe_seqp with (Q := fun _ => inv); [apply s_subs|eapply triple_ext; [apply run_subs|]; apply t_moead_subs; exact Hw|]. intros ?.
    eapply safe_do; [auto|apply t_gen|]. intros ?. apply safe_one with (Q := fun _ => inv); auto. apply t_gi.
  - unfold ind_prog. eapply safe_do with (Q := fun _ => inv); [auto|intros s Hs; exact Hs|]. intros fuel.
    apply safe_seqp with (Q := fun _ => inv); [apply s_env|eapply triple_ext; [apply run_env|]; apply t_env|]. intros ?.
    eapply safe_do; [auto|apply t_ask_inv|]. intros ch. eapply safe_do; [auto|apply t_ask_inv|]. intros off. eapply safe_do; [auto|apply t_add_inv; [exact Hw|reflexivity|discriminate]|]. intros r.
    eapply safe_do; [auto|apply t_gen|]. intros ?. eapply safe_do; [auto|apply t_gi|]. intros ?. apply safe_one with (Q := fun _ => inv); auto. apply t_count.
  - unfold tour_prog. eapply safe_do; [auto|apply t_ask_inv|]. intros ch. eapply safe_do; [auto|apply t_ask_inv|]. intros off.
    eapply safe_do with (Q := fun _ => inv); [auto|intros s Hs; destruct (rows_count s); [apply t_delete; auto|exact Hs]|]. intros ?.
    eapply safe_do; [auto|apply t_add_inv; [exact Hw|reflexivity|discriminate]|]. intros r.
    eapply safe_do; [auto|apply t_gen|]. intros ?. eapply safe_do; [auto|apply t_gi|]. intros ?. apply safe_one with (Q := fun _ => inv); auto. apply t_count.
  - unfold ppga_prog. eapply safe_do; [auto|apply t_ask_inv|]. intros prs. eapply safe_do; [auto|apply t_ask_inv|]. intros off. eapply safe_do; [auto|apply t_ask_inv|]. intros placed. cbv zeta.
    eapply safe_do; [auto|apply t_add_inv; [exact Hw|reflexivity|discriminate]|]. intros r.
    eapply safe_do; [auto|apply t_gen|]. intros ?. eapply safe_do; [auto|apply t_gi|]. intros ?. eapply safe_do; [auto|apply t_count|]. intros ?.
    eapply safe_do with (Q := fun _ => inv); [auto|intros s Hs; destruct (Nat.eqb k 0); exact Hs|]. intros due.
    apply safe_seqp with (Q := fun _ => inv).
    + destruct due; [|apply safe_ret; auto]. eapply safe_do; [auto|apply t_ask_inv|]. intros sel. apply safe_one with (Q := fun _ => inv); auto. apply t_delete.
    + destruct due; [|intros s Hs; exact Hs]. intros s Hs. cbn [run_all]. pose proof (t_ask_inv w nc u ops0 (fun k p => Ok (w_cull w k p)) s Hs) as T. destruct (ask _ s) as [s' [sel|e]]; [|exact T].
      rewrite run_one. apply t_delete. exact T.
    + intros ?. eapply safe_do; [auto|apply t_ask_inv|]. intros dead. apply safe_one with (Q := fun _ => inv); auto. apply t_delete.
Qed.
Lemma s_loop : forall fuel, safe inv (loop_prog dom w c fuel) inv.
Proof.
  induction fuel as [|f IH]; cbn [loop_prog]; [apply safe_one with (Q := fun _ => inv); auto; intros s Hs; exact Hs|].
  eapply safe_do with (Q := fun _ => inv); [auto|intros s Hs; exact Hs|]. intros [|]; [|apply safe_ret; auto].
  apply safe_seqp with (Q := fun _ => inv); [apply s_next|eapply triple_ext; [apply run_next|]; apply t_next; exact Hw|auto].
Qed.
Lemma s_iterate : safe inv (iterate_prog dom w c) inv.
Proof.
  unfold iterate_prog. eapply safe_do with (Q := fun g s => inv s /\ forall h, g = Some h -> refits w ops0 h); [auto| |].
  { apply t_ask. intros s Hs. destruct (w_prefs w (s_clock s) (s_pop s)) as [g|] eqn:E; [|apply inv_tick; auto]. split; [apply inv_tick; auto|]. intros h ->. right. eauto. }
  intros g. eapply safe_do with (Q := fun _ => inv); [intros s Hs; apply Hs| |].
  { intros s [Hs Hg]. destruct g as [h|]; [apply t_reeval; auto|exact Hs]. }
  intros ?. eapply safe_do with (Q := fun _ => inv); [auto|apply t_upd; intros s Hs; destruct (c_keep_archive c); auto; apply inv_snap; auto|]. intros ?.
  eapply safe_do; [auto|apply t_ask_inv|]. intros ?. eapply safe_do with (Q := fun _ => inv); [auto|apply t_upd; intros s (A & B & D & E); split; auto|]. intros ?.
  apply safe_seqp with (Q := fun _ => inv); [apply s_loop|eapply triple_ext; [apply run_loop|]; apply t_loop; exact Hw|]. intros ?.
  apply safe_one with (Q := fun _ => inv); auto. apply t_upd. intros s (A & B & D & E); split; auto.
Qed.
Lemma ssession_inv ks : forall s, inv s -> inv (ssession dom w c s ks).
Proof.
  induction ks as [|k ks IH]; intros s Hs; cbn [ssession fold_left]; auto. apply IH. destruct k as [k|n]; cbn [do_scall].
  - apply (session_inv dom w c nc u Hw ops0 [k] s Hs).
  - apply s_iterate. exact Hs.
Qed.
End Prov.
End P.
