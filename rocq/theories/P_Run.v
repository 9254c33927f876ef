(** Proofs about whole runs. *)
From Verif Require Import Base M_Population Spec_Population P_Population M_Archive P_Archive M_Run Spec_Run.
Open Scope nat_scope.

Section P.
Context {I O F C U : Type} (dom : F -> F -> bool) (w : world I O F C U) (c : cfg) (nc : nat) (u : bool).
Notation pop := (pop I O F C U).
Notation st := (st I O F C U).
Notation results := (results O F C U).
Notation op := (op I O F C U).
Notation member := (member I O F C U).

Definition triple {A} (P : st -> Prop) (m : st -> st * res A) (Q : A -> st -> Prop) (E : st -> Prop) : Prop :=
  forall s, P s -> match m s with (s', Ok a) => Q a s' | (s', Err _) => E s' end.

Lemma t_andthen {A B} P (m : st -> st * res A) R (f : A -> st -> st * res B) Q E :
  triple P m R E -> (forall a, triple (R a) (f a) Q E) -> triple P (andthen m f) Q E.
Proof.
  intros H1 H2 s Hs. unfold andthen. specialize (H1 s Hs). destruct (m s) as [s' [a|e]]; [|exact H1]. apply H2. exact H1.
Qed.
Lemma t_upd (P : st -> Prop) f (Q : unit -> st -> Prop) E : (forall s, P s -> Q tt (f s)) -> triple P (upd f) Q E.
Proof. intros H s Hs. exact (H s Hs). Qed.
Lemma t_ask {A} (P : st -> Prop) (f : nat -> pop -> res A) (Q : A -> st -> Prop) (E : st -> Prop) :
  (forall s, P s -> match f (s_clock s) (s_pop s) with Ok a => Q a (tick s) | Err _ => E (tick s) end) -> triple P (ask f) Q E.
Proof. intros H s Hs. unfold ask. specialize (H s Hs). destruct (f (s_clock s) (s_pop s)); exact H. Qed.
Lemma t_weaken {A} (P P' : st -> Prop) (m : st -> st * res A) (Q Q' : A -> st -> Prop) (E E' : st -> Prop) :
  triple P m Q E -> (forall s, P' s -> P s) -> (forall a s, Q a s -> Q' a s) -> (forall s, E s -> E' s) -> triple P' m Q' E'.
Proof. intros H HP HQ HE s Hs. specialize (H s (HP s Hs)). destruct (m s) as [s' [a|e]]; auto. Qed.

(** *** Provenance *)
Section Prov.
Hypothesis Hw : honest nc u w.
Variable ops0 : list op.

Notation refits := (refits w ops0).

(** Calls of the population's methods that the log and the initial history account for. *)
Definition good_ops (log : list (bool * list I * results)) (ops : list op) : Prop :=
  Forall (good_op nc) ops /\ (u = true -> Forall replace_has_unc ops) /\ (u = false -> Forall add_no_unc ops) /\
  (forall e, In e (evaluated ops) -> In e (evaluated ops0 ++ evals log)) /\ (forall g, In (OpReeval g) ops -> refits g) /\ answered w log.

Definition vch (log : list (bool * list I * results)) : I -> O -> F -> Prop := vouched (evaluated ops0 ++ evals log) refits.

Definition cols_ok (log : list (bool * list I * results)) (a : arch I O F) : Prop :=
  exists rows : list (I * O * F), a_ind a = map r_i rows /\ a_obj a = map r_o rows /\ a_fit a = map r_f rows /\
    forall r, In r rows -> vch log (r_i r) (r_o r) (r_f r).

Definition inv (s : st) : Prop :=
  s_pop s = run (fresh nc) (s_ops s) /\ good_ops (s_log s) (s_ops s) /\
  (forall a, s_nd s = Some a -> cols_ok (s_log s) a) /\
  (forall k it q, In (k, (it, q)) (s_snaps s) -> exists ops, q = run (fresh nc) ops /\ good_ops (s_log s) ops).

Lemma evals_app l1 l2 : evals (l1 ++ l2 : list (bool * list I * results)) = evals l1 ++ evals l2.
Proof. unfold evals. apply flat_map_app. Qed.
Lemma good_ops_mono log b rows k ops : good_ops log ops -> good_ops (log ++ [(b, rows, w_eval w k b rows)]) ops.
Proof.
  intros (A & B & D & E & G & T). split; auto. split; auto. split; auto. split; [|split; auto].
  2: { intros b' rows' r' Hin. apply in_app_or in Hin. destruct Hin as [Hin|[Hin|[]]]; [eapply T; eauto|]. injection Hin as <- <- <-. eauto. }
  intros x Hx. specialize (E x Hx). rewrite evals_app. rewrite app_assoc. apply in_or_app. auto.
Qed.
Lemma vch_mono log e i o f : vch log i o f -> vch (log ++ [e]) i o f.
Proof.
  intros (f0 & con & A & B). exists f0, con. split; auto. rewrite evals_app, app_assoc. apply in_or_app. auto.
Qed.
Lemma cols_mono log e a : cols_ok log a -> cols_ok (log ++ [e]) a.
Proof.
  intros (rows & A & B & D & E). exists rows. split; auto. split; auto. split; auto. intros r Hr. apply vch_mono; auto.
Qed.

Lemma run_snoc (p : pop) ops o : run p (ops ++ [o]) = fst (step (run p ops) o).
Proof. unfold run. rewrite fold_left_app. reflexivity. Qed.
Lemma evaluated_snoc (ops : list op) o : evaluated (ops ++ [o]) = evaluated ops ++ evaluated [o].
Proof. unfold evaluated. rewrite flat_map_app. reflexivity. Qed.

Lemma good_ops_snoc log ops o : good_ops log ops -> good_op nc o -> (u = true -> replace_has_unc o) -> (u = false -> add_no_unc o) ->
  (forall e, In e (evaluated [o]) -> In e (evaluated ops0 ++ evals log)) -> (forall g, o = OpReeval g -> refits g) -> good_ops log (ops ++ [o]).
Proof.
  intros (A & B & D & E & G & T) H1 H2 H3 H4 H5.
  assert (Snoc : forall P : op -> Prop, Forall P ops -> P o -> Forall P (ops ++ [o])) by (intros P X Y; apply Forall_app; split; auto).
  split; [apply Snoc; auto|]. split; [intros Hu; apply Snoc; auto|]. split; [intros Hu; apply Snoc; auto|]. split.
  - intros e He. rewrite evaluated_snoc in He. apply in_app_or in He. destruct He; auto.
  - split; auto. intros g Hg. apply in_app_or in Hg. destruct Hg as [Hg|[Hg|[]]]; auto.
Qed.

(** A state changed only by one more call of a population method. *)
Lemma inv_set_pop s o p : inv s -> fst (step (s_pop s) o) = p -> good_op nc o -> (u = true -> replace_has_unc o) -> (u = false -> add_no_unc o) ->
  (forall e, In e (evaluated [o]) -> In e (evaluated ops0 ++ evals (s_log s))) -> (forall g, o = OpReeval g -> refits g) -> inv (set_pop s p o).
Proof.
  intros (A & B & D & E) Hp H1 H2 H3 H4 H5. split; [|split; [|split]]; cbn [set_pop s_pop s_ops s_log s_nd s_snaps]; auto.
  - rewrite run_snoc, <- A. auto.
  - apply good_ops_snoc; auto.
Qed.
Lemma inv_tick s : inv s -> inv (tick s).
Proof. intros (A & B & D & E). split; auto. Qed.
Lemma inv_logged s b rows t : inv s -> inv (logged s (b, rows, w_eval w t b rows)).
Proof.
  intros (A & B & D & E). split; [auto|]. cbn [logged s_pop s_ops s_log s_nd s_snaps]. split; [apply good_ops_mono; auto|]. split.
  - intros a Ha. apply cols_mono. auto.
  - intros k it q Hq. destruct (E k it q Hq) as (ops & X & Y). exists ops. split; auto. apply good_ops_mono; auto.
Qed.

Lemma evals_last log b rows r : evals (log ++ [(b, rows, r)] : list (bool * list I * results)) = evals log ++ map (fun m : member => (m_ind m, m_obj m, m_fit m, m_con m)) (members_of rows r).
Proof. rewrite evals_app. f_equal. unfold evals. cbn [flat_map fst snd]. apply app_nil_r. Qed.

Definition added (rows : list I) (r : results) (s : st) : Prop :=
  inv s /\ (exists b, In (b, rows, r) (s_log s)) /\ good_results nc (length rows) r /\ (r_unc r <> None <-> u = true).

Lemma t_take surr o rows : rows_of o = rows -> o <> OOther -> triple inv (take_results w surr o rows) (added rows) inv.
Proof.
  intros Hr Ho s Hs. unfold take_results. destruct (add (s_pop s) o (w_eval w (s_clock s) surr rows)) as [p out] eqn:E.
  destruct (Hw (s_clock s) surr rows) as [G1 G2]. set (r := w_eval w (s_clock s) surr rows) in *.
  assert (Hi : inv (set_pop (logged (tick s) (surr, rows, r)) p (OpAdd o r))).
  { apply inv_set_pop; auto.
    - apply inv_logged, inv_tick; auto.
    - cbn [step logged tick s_pop]. destruct (add (s_pop s) o r) as [p' o'] eqn:E'. injection E as <- <-. reflexivity.
    - split; auto. rewrite Hr. auto.
    - cbn. auto.
    - intros Hu. cbn. destruct (r_unc r); auto. assert (u = true) by (apply G2; discriminate). congruence.
    - intros e He. cbn [evaluated flat_map] in He. rewrite app_nil_r, Hr in He. cbn [logged tick s_log]. rewrite evals_last, app_assoc. apply in_or_app. auto.
    - intros g Hg. discriminate. }
  assert (Ha : added rows r (set_pop (logged (tick s) (surr, rows, r)) p (OpAdd o r))).
  { split; auto. split; [|split; auto]. exists surr. cbn [set_pop logged s_log tick]. apply in_or_app. right. left. reflexivity. }
  assert (Er : forall r', out = Ok r' -> r' = r).
  { intros r' ->. unfold add in E. destruct (p_ind (s_pop s)); [|destruct o; inversion E; auto].
    destruct (vstack (p_obj (s_pop s)) (Some (r_obj r))); [|inversion E]. destruct (vstack (p_fit (s_pop s)) (Some (r_fit r))); [|inversion E].
    destruct (if Nat.eqb (p_nc (s_pop s)) 0 then _ else _); [|inversion E]. destruct (r_unc r); [destruct (vstack (p_unc (s_pop s)) _)|]; inversion E; auto. }
  destruct out as [r'|e]; [rewrite (Er r' eq_refl); exact Ha|exact Hi].
Qed.
Lemma t_add surr o rows : rows_of o = rows -> o <> OOther -> triple inv (do_add w surr o rows) (added rows) inv.
Proof.
  intros Hr Ho s Hs. unfold do_add. destruct (w_fails w (s_clock s) surr rows) as [e|]; [apply inv_tick; exact Hs|]. apply t_take; auto.
Qed.

Lemma inv_quiet s o p : inv s -> fst (step (s_pop s) o) = p -> (match o with OpKeep _ => True | OpDelete _ => True | _ => False end) -> inv (set_pop s p o).
Proof.
  intros Hs Hp Ho. apply inv_set_pop; [exact Hs|exact Hp| | | | | ]; destruct o; try contradiction; cbn; auto; try (intros ? []; fail); intros ? Hg; discriminate.
Qed.
Lemma t_keep zs : triple inv (do_keep zs) (fun _ => inv) inv.
Proof.
  intros s Hs. unfold do_keep. destruct (keep (s_pop s) zs) as [p out] eqn:E.
  assert (inv (set_pop s p (OpKeep zs))) by (apply inv_quiet; cbn; auto; rewrite E; auto). destruct out; auto.
Qed.
Lemma t_delete zs : triple inv (do_delete zs) (fun _ => inv) inv.
Proof.
  intros s Hs. unfold do_delete. destruct (delete (s_pop s) zs) as [p out] eqn:E.
  assert (inv (set_pop s p (OpDelete zs))) by (apply inv_quiet; cbn; auto; rewrite E; auto). destruct out; auto.
Qed.
Lemma t_reeval g : refits g -> triple inv (do_reeval g) (fun _ => inv) inv.
Proof.
  intros Hg s Hs. unfold do_reeval. destruct (reevaluate (s_pop s) g) as [p out] eqn:E.
  assert (inv (set_pop s p (OpReeval g))).
  { apply inv_set_pop; [exact Hs|cbn [step]; rewrite E; reflexivity|exact Logic.I|intros _; exact Logic.I|intros _; exact Logic.I|intros ? []|intros g' Hg'; injection Hg' as <-; exact Hg]. }
  destruct out; auto.
Qed.

Lemma first_row_spec (r : results) i r1 : first_row r = Some r1 -> good_results nc 1 r ->
  map (fun m : member => (m_ind m, m_obj m, m_fit m, m_con m)) (members_of [i] r) = [(i, r1_obj r1, r1_fit r1, r1_con r1)] /\
  (match r1_con r1 with Some _ => nc <> 0 | None => nc = 0 end) /\ (r_unc r <> None -> r1_unc r1 <> None) /\ (r_unc r = None -> r1_unc r1 = None) /\
  r_obj r = [r1_obj r1] /\ r_fit r = [r1_fit r1].
Proof.
  unfold first_row. intros E (A & B & D & G). destruct (r_obj r) as [|o [|]] eqn:Eo; try discriminate. destruct (r_fit r) as [|f [|]] eqn:Ef; try discriminate.
  injection E as <-. cbn [r1_obj r1_fit r1_con r1_unc]. split; [|split; [|split; [|split; [|split; reflexivity]]]].
  - unfold members_of. rewrite Eo, Ef. cbn [length]. destruct (r_con r) as [[|x [|]]|] eqn:Ec; try (destruct D as [D _]; discriminate D);
    (destruct (r_unc r) as [[|y [|]]|] eqn:Eu; try discriminate); reflexivity.
  - destruct (r_con r) as [[|x [|]]|]; try (destruct D as [D _]; discriminate D); tauto.
  - intros Hn. destruct (r_unc r) as [[|y [|]]|]; try discriminate; congruence.
  - intros Hn. rewrite Hn. reflexivity.
Qed.

Lemma t_replace zs i r : triple (added [i] r) (do_replace zs i r) (fun _ => added [i] r) inv.
Proof.
  intros s (Hs & [b Hb] & Hg & Hu). unfold do_replace. destruct (first_row r) as [r1|] eqn:E1; [|exact Hs].
  destruct (first_row_spec r i r1 E1 Hg) as (F1 & F2 & F3 & F4 & _).
  destruct (replace (s_pop s) zs i r1) as [p out] eqn:E.
  assert (Hi : inv (set_pop s p (OpReplace zs i r1))).
  { apply inv_set_pop; auto; cbn; auto.
    - rewrite E. auto.
    - intros Ht. apply F3, Hu, Ht.
    - intros e [<-|[]]. apply in_or_app. right. unfold evals. apply in_flat_map. exists (b, [i], r). split; auto. cbn [fst snd]. rewrite F1. left. reflexivity.
    - intros g Hgg. discriminate. }
  destruct out; [|exact Hi]. split; auto. split; [exists b; exact Hb|auto].
Qed.

Lemma map_ri_combine {A B D} (l : list (A * B * D)) : map r_i l = map (fun e => fst (fst e)) l.
Proof. reflexivity. Qed.
Lemma zip3 (is : list I) (os : list O) (fs : list F) : length os = length is -> length fs = length is ->
  exists rows : list (I * O * F), is = map r_i rows /\ os = map r_o rows /\ fs = map r_f rows.
Proof.
  revert os fs. induction is as [|i is IH]; intros [|o os] [|f fs] H1 H2; try discriminate.
  - exists []. auto.
  - destruct (IH os fs) as (rows & -> & -> & ->); auto. exists ((i, o, f) :: rows). auto.
Qed.

Lemma mask_sel_map' {A B} (f : A -> B) m l : mask_sel m (map f l) = map f (mask_sel m l).
Proof. revert l. induction m as [|b m IH]; intros [|x l]; auto. cbn [mask_sel map]. destruct b; cbn [map]; rewrite IH; auto. Qed.
Lemma mask_sel_incl {A} m (l : list A) : incl (mask_sel m l) l.
Proof. revert l. induction m as [|b m IH]; intros [|x l] y Hy; auto; try contradiction. cbn in Hy. destruct b; [destruct Hy as [<-|Hy]; [left; auto|]|]; right; apply IH; auto. Qed.

Lemma archive_add_rows a rows old : a_ind a = map r_i old -> a_obj a = map r_o old -> a_fit a = map r_f old ->
  exists rows' : list (I * O * F), a_ind (archive_add dom a (map r_i rows) (map r_o rows) (map r_f rows)) = map r_i rows' /\
    a_obj (archive_add dom a (map r_i rows) (map r_o rows) (map r_f rows)) = map r_o rows' /\
    a_fit (archive_add dom a (map r_i rows) (map r_o rows) (map r_f rows)) = map r_f rows' /\ incl rows' (old ++ rows).
Proof.
  intros A B D. unfold archive_add. destruct (check_domination dom (map r_f rows) (a_fit a)) as [new keepm].
  exists (mask_sel keepm old ++ mask_sel new rows). cbn [a_ind a_obj a_fit]. rewrite A, B, D. rewrite !mask_sel_map', !map_app.
  split; auto. split; auto. split; auto. intros x Hx. apply in_app_or in Hx. apply in_or_app. destruct Hx as [Hx|Hx]; apply mask_sel_incl in Hx; auto.
Qed.

Lemma members_rows rows (r : results) n : n = length rows -> good_results nc n r -> forall j i o f,
  nth_error rows j = Some i -> nth_error (r_obj r) j = Some o -> nth_error (r_fit r) j = Some f ->
  exists m : member, In m (members_of rows r) /\ m_ind m = i /\ m_obj m = o /\ m_fit m = f.
Proof.
  intros -> Hg j i o f Hi Ho Hf. destruct (members_of_proj _ _ _ Hg) as (A1 & A2 & A3 & _ & _).
  destruct (nth_error (members_of rows r) j) as [m|] eqn:Em.
  - exists m. split; [eapply nth_error_In; eauto|]. rewrite <- A1, nth_error_map, Em in Hi. rewrite <- A2, nth_error_map, Em in Ho. rewrite <- A3, nth_error_map, Em in Hf.
    cbn in *. injection Hi as <-. injection Ho as <-. injection Hf as <-. auto.
  - rewrite <- A1, nth_error_map, Em in Hi. discriminate.
Qed.

Lemma t_archive rows r : triple (added rows r) (do_archive dom rows r) (fun _ => inv) inv.
Proof.
  intros s (Hs & [b Hb] & Hg & Hu). unfold do_archive. destruct (s_nd s) as [a|] eqn:Ea; [|exact Hs].
  destruct Hs as (A & B & D & E). split; [exact A|]. cbn [set_nd s_pop s_ops s_log s_nd s_snaps]. split; [exact B|]. split; [|exact E].
  intros a' Ha'. injection Ha' as <-. destruct (D a Ea) as (old & O1 & O2 & O3 & O4).
  pose proof Hg as (G1 & G2 & _). destruct (zip3 rows (r_obj r) (r_fit r) G1 G2) as (new & N1 & N2 & N3).
  rewrite N1 at 1. rewrite N2, N3. destruct (archive_add_rows a new old O1 O2 O3) as (rows' & R1 & R2 & R3 & R4).
  exists rows'. split; auto. split; auto. split; auto. intros x Hx. apply R4, in_app_or in Hx. destruct Hx as [Hx|Hx]; auto.
  apply In_nth_error in Hx. destruct Hx as [j Hj].
  destruct (members_rows rows r (length rows) eq_refl Hg j (r_i x) (r_o x) (r_f x)) as (m & M1 & M2 & M3 & M4).
  { rewrite N1, nth_error_map, Hj. auto. } { rewrite N2, nth_error_map, Hj. auto. } { rewrite N3, nth_error_map, Hj. auto. }
  exists (r_f x), (m_con m). split; auto. apply in_or_app. right. unfold evals. apply in_flat_map. exists (b, rows, r). split; auto. cbn [fst snd].
  apply in_map_iff. exists m. split; auto. congruence.
Qed.

Lemma added_tick rows r s : added rows r s -> added rows r (tick s).
Proof. intros (A & B & D). split; auto. Qed.
Lemma inv_add_fe s n : inv s -> inv (add_fe s n).
Proof. intros (A & B & D & E). split; auto. Qed.
Lemma inv_bump s : inv s -> inv (bump_gen s).
Proof. intros (A & B & D & E). split; auto. Qed.
Lemma added_add_fe rows r s n : added rows r s -> added rows r (add_fe s n).
Proof. intros (A & B & D). split; [apply inv_add_fe; auto|auto]. Qed.
Lemma t_ask_inv {A} (f : nat -> pop -> res A) : triple inv (ask f) (fun _ => inv) inv.
Proof. apply t_ask. intros s Hs. destruct (f (s_clock s) (s_pop s)); apply inv_tick; auto. Qed.
Lemma t_ask_added {A} rows r (f : nat -> pop -> res A) : triple (added rows r) (ask f) (fun _ => added rows r) inv.
Proof. apply t_ask. intros s Hs. destruct (f (s_clock s) (s_pop s)); [apply added_tick; auto|apply inv_tick, Hs]. Qed.
Lemma t_add_inv surr o rows : rows_of o = rows -> o <> OOther -> triple inv (do_add w surr o rows) (fun _ => inv) inv.
Proof. intros H1 H2. apply (t_weaken _ _ _ _ _ _ _ (t_add surr o rows H1 H2)); auto. intros a s H. apply H. Qed.
Lemma t_skip {A} (P : st -> Prop) (Q : A -> st -> Prop) E a : (forall s, P s -> Q a s) -> triple P (fun s => (s, Ok a)) Q E.
Proof. intros H s Hs. exact (H s Hs). Qed.

Lemma t_added_delete rows r zs : triple (added rows r) (do_delete zs) (fun _ => added rows r) inv.
Proof.
  intros s (Hs & Hb & Hg). pose proof (t_delete zs s Hs) as T. destruct (do_delete zs s) as [s' [a|e]] eqn:E; auto. split; auto. split; auto.
  unfold do_delete in E. destruct (delete (s_pop s) zs) as [p out]. injection E as <- _. exact Hb.
Qed.

Lemma t_dec : triple inv (dec_gen dom w c) (fun _ => inv) inv.
Proof.
  unfold dec_gen. eapply t_andthen; [apply t_ask_inv|]. intros off. eapply t_andthen; [apply t_add; [reflexivity|discriminate]|]. intros r.
  eapply t_andthen with (R := fun _ => inv).
  { destruct (c_save_nd c); [apply t_archive|]. apply t_upd. intros s H. apply H. }
  intros ?. eapply t_andthen; [apply t_ask_inv|]. intros sel. eapply t_andthen; [apply t_keep|]. intros ?. apply t_upd. intros s Hs.
  destruct (c_surrogates c); [apply inv_bump; auto|apply inv_add_fe, inv_bump; auto].
Qed.
Lemma t_moead_sub ur i : triple inv (moead_sub dom w c ur i) (fun _ => inv) inv.
Proof.
  unfold moead_sub. eapply t_andthen; [apply t_ask_inv|]. intros par. eapply t_andthen; [apply t_ask_inv|]. intros [|o offs].
  { intros s Hs. exact Hs. }
  cbv zeta. set (off := if ur then w_repair w o else o). eapply t_andthen; [apply t_add; [reflexivity|discriminate]|]. intros r.
  eapply t_andthen with (R := fun _ => added [off] r).
  { apply t_upd. intros s Hs. destruct (c_surrogates c); auto. }
  intros ?. eapply t_andthen; [apply t_ask_added|]. intros sel. eapply t_andthen; [apply t_replace|]. intros ?.
  eapply t_andthen; [apply t_added_delete|]. intros ?. destruct (c_save_nd c); [apply t_archive|]. apply t_upd. intros s H. apply H.
Qed.
Lemma t_moead_subs ur is : triple inv (moead_subs dom w c ur is) (fun _ => inv) inv.
Proof.
  induction is as [|i is IH]; cbn [moead_subs]; [apply t_upd; auto|]. eapply t_andthen; [apply t_moead_sub|]. intros ?. exact IH.
Qed.
Lemma t_env fuel n : triple inv (env_sel w fuel n) (fun _ => inv) inv.
Proof.
  induction fuel as [|f IH]; intros s Hs; cbn [env_sel]; destruct (rows_count s) as [k|]; auto; destruct (Nat.ltb n k); auto.
  revert s Hs. eapply t_andthen; [apply t_ask_inv|]. intros z. eapply t_andthen; [apply t_delete|]. intros ?. exact IH.
Qed.
Lemma t_next : triple inv (next_gen dom w c) (fun _ => inv) inv.
Proof.
  unfold next_gen. destruct (c_kind c) as [|n ur|n| |k].
  - apply t_dec.
  - unfold moead_gen. eapply t_andthen; [apply t_moead_subs|]. intros ?. apply t_upd. intros s. apply inv_bump.
  - intros s Hs. unfold ind_gen. revert Hs. generalize (match rows_count s with Some m => m | None => 0 end). intros fuel. revert s.
    eapply t_andthen; [apply t_env|]. intros ?. eapply t_andthen; [apply t_ask_inv|]. intros ch. eapply t_andthen; [apply t_ask_inv|]. intros off.
    eapply t_andthen; [apply t_add_inv; [reflexivity|discriminate]|]. intros r. apply t_upd. intros s Hs. apply inv_add_fe, inv_bump; auto.
  - unfold tour_gen. eapply t_andthen; [apply t_ask_inv|]. intros sel. eapply t_andthen; [apply t_ask_inv|]. intros off.
    eapply t_andthen with (R := fun _ => inv).
    { intros s Hs. destruct (rows_count s); [apply t_delete; auto|auto]. }
    intros ?. eapply t_andthen; [apply t_add_inv; [reflexivity|discriminate]|]. intros r. apply t_upd. intros s Hs. apply inv_add_fe, inv_bump; auto.
  - unfold ppga_gen. eapply t_andthen; [apply t_ask_inv|]. intros prs. eapply t_andthen; [apply t_ask_inv|]. intros off.
    eapply t_andthen; [apply t_ask_inv|]. intros placed. cbv zeta. eapply t_andthen; [apply t_add_inv; [reflexivity|discriminate]|]. intros r.
    eapply t_andthen with (R := fun _ => inv); [apply t_upd; intros s Hs; apply inv_add_fe, inv_bump; auto|]. intros ?.
    eapply t_andthen with (R := fun _ => inv).
    { intros s Hs. destruct (Nat.eqb k 0); auto. destruct (Z.eqb _ 0); auto. revert s Hs. eapply t_andthen; [apply t_ask_inv|]. intros sel. apply t_delete. }
    intros ?. eapply t_andthen; [apply t_ask_inv|]. intros dead. apply t_delete.
Qed.
Lemma t_loop fuel : triple inv (gen_loop dom w c fuel) (fun _ => inv) inv.
Proof.
  induction fuel as [|f IH]; intros s Hs; cbn [gen_loop]; auto. destruct (continue_iteration c s); auto. revert s Hs. eapply t_andthen; [apply t_next|]. intros ?. exact IH.
Qed.
Lemma inv_snap s : inv s -> inv (snap s).
Proof.
  intros (A & B & D & E). split; [auto|]. split; [auto|]. split; [auto|]. cbn [snap s_snaps s_log]. intros k it q [H|H]; [|eauto].
  injection H as <- <- <-. exists (s_ops s). auto.
Qed.
Lemma t_iterate : triple inv (iterate dom w c) (fun _ => inv) inv.
Proof.
  unfold iterate. eapply t_andthen with (R := fun g s => inv s /\ forall h, g = Some h -> refits h).
  { apply t_ask. intros s Hs. destruct (w_prefs w (s_clock s) (s_pop s)) as [g|] eqn:E; [|apply inv_tick; auto]. split; [apply inv_tick; auto|]. intros h ->. right. eauto. }
  intros g. eapply t_andthen with (R := fun _ => inv).
  { intros s [Hs Hg]. destruct g as [h|]; [apply t_reeval; auto|exact Hs]. }
  intros ?. eapply t_andthen with (R := fun _ => inv); [apply t_upd; intros s Hs; destruct (c_keep_archive c); auto; apply inv_snap; auto|]. intros ?.
  eapply t_andthen; [apply t_ask_inv|]. intros ?. eapply t_andthen with (R := fun _ => inv); [apply t_upd; intros s (A & B & D & E); split; auto|]. intros ?.
  eapply t_andthen; [apply t_loop|]. intros ?. apply t_upd. intros s (A & B & D & E); split; auto.
Qed.

Lemma good_hist log ops : good_ops log ops -> good_history nc ops.
Proof. intros (A & B & D & _). split; auto. destruct (Bool.bool_dec u true) as [e|e]; [left; auto|right; apply D, Bool.not_true_is_false; auto]. Qed.
Lemma run_pop_ok log ops : good_ops log ops -> pop_ok (vch log) (run (fresh nc) ops).
Proof.
  intros G. destruct (population_aligned nc ops (good_hist log ops G)) as [E|(ms & (A & B & D & _) & P)]; [left; exact E|]. right.
  exists (map m_ind ms), (map m_obj ms), (map m_fit ms). split; auto. split; auto. split; auto. split; [now rewrite !map_length|]. split; [now rewrite !map_length|].
  intros j i o f Hi Ho Hf. rewrite nth_error_map in Hi, Ho, Hf. destruct (nth_error ms j) as [m|] eqn:Em; [|discriminate]. cbn in *. injection Hi as <-. injection Ho as <-. injection Hf as <-.
  destruct (P m (nth_error_In _ _ Em)) as (f & P1 & P2). destruct G as (_ & _ & _ & G4 & G5 & _). exists f, (m_con m). split; [apply G4; auto|].
  destruct P2 as [P2|(g & P2 & P3)]; auto. right. exists g. split; auto.
Qed.
Lemma nd_mask_length {V} (d : V -> V -> bool) l : length (nd_mask d l) = length l.
Proof. unfold nd_mask. apply map_length. Qed.

Lemma t_start : triple inv (start dom c) (fun _ => inv) inv.
Proof.
  intros s Hs. unfold start. destruct (c_save_nd c); [|exact Hs]. destruct Hs as (A & B & D & E). pose proof (run_pop_ok _ _ B) as P. rewrite <- A in P.
  destruct (p_ind (s_pop s)) as [i|] eqn:E1; [|split; auto]. destruct (p_obj (s_pop s)) as [o|] eqn:E2; [|split; auto]. destruct (p_fit (s_pop s)) as [f|] eqn:E3; [|split; auto].
  destruct P as [P|(is & os & fs & P1 & P2 & P3 & L1 & L2 & P4)]; [congruence|]. rewrite E1 in P1. rewrite E2 in P2. rewrite E3 in P3. injection P1 as <-. injection P2 as <-. injection P3 as <-.
  split; [exact A|]. split; [exact B|]. split; [|exact E]. cbn [set_nd s_nd s_log]. intros a Ha. injection Ha as <-.
  destruct (zip3 i o f L1 L2) as (rows & -> & -> & ->). unfold archive_start. exists (mask_sel (nd_mask dom (map r_f rows)) rows). cbn [a_ind a_obj a_fit]. rewrite !mask_sel_map'.
  split; auto. split; auto. split; auto. intros r Hr. apply mask_sel_incl in Hr. apply In_nth_error in Hr. destruct Hr as [j Hj].
  apply (P4 j); apply map_nth_error; exact Hj.
Qed.
Lemma session_inv ks : forall s, inv s -> inv (session dom w c s ks).
Proof.
  induction ks as [|k ks IH]; intros s Hs; cbn [session fold_left]; auto. apply IH. destruct k; cbn [do_call].
  - pose proof (t_start s Hs) as T. destruct (start dom c s) as [s' [a|e]]; auto.
  - pose proof (t_iterate s Hs) as T. destruct (iterate dom w c s) as [s' [a|e]]; auto.
Qed.
Lemma inv_on_population : Forall (good_op nc) ops0 -> (u = true -> Forall replace_has_unc ops0) -> (u = false -> Forall add_no_unc ops0) -> inv (on_population nc ops0).
Proof.
  intros A B D. split; [reflexivity|]. split; [|split; [discriminate|intros ? ? ? []]]. split; auto. split; auto. split; auto. split.
  - intros e He. apply in_or_app. auto.
  - split; [intros g Hg; left; auto|intros ? ? ? []].
Qed.
Lemma inv_empty : inv (mkSt (fresh nc) None 0 0 0 0 [] 0 [] []).
Proof.
  split; [reflexivity|]. split; [|split; [discriminate|intros ? ? ? []]]. split; [constructor|]. split; [constructor|]. split; [constructor|]. split; [intros ? []|split; [intros ? []|intros ? ? ? []]].
Qed.
Lemma inv_on_problem rows : inv (on_problem w c nc rows).
Proof.
  unfold on_problem. apply inv_add_fe.
  pose proof (t_take (c_surrogates c) (OBatch rows) rows eq_refl ltac:(discriminate) _ inv_empty) as T.
  destruct (take_results w (c_surrogates c) (OBatch rows) rows _) as [s' [a|e]]; [exact (proj1 T)|exact T].
Qed.
End Prov.
End P.
