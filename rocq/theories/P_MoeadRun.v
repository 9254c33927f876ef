(** Lemmas for C119 and C120. *)
From Verif Require Import Base M_MOEAD P_MOEAD M_MoeadRun.
From Coq Require Import QArith Qabs Permutation.
Open Scope nat_scope.

(** ** Normalisation of the planar rows *)
Definition normal_row (v : list Q) : Prop := (qsum v == 1)%Q /\ Forall (fun x => Qred x = x) v.
Lemma planar_row_normal v : normal_row v -> planar_row v = v.
Proof.
  intros [Hs Hf]. unfold planar_row. rewrite <- (map_id v) at 2. apply map_ext_in. intros x Hx. rewrite Forall_forall in Hf. rewrite <- (Hf x Hx) at 2. apply Qred_complete. rewrite Hs. field.
Qed.
Lemma qsum_map_div s v : ~ (s == 0)%Q -> (qsum (map (fun x => Qred (x / s)) v) == qsum v / s)%Q.
Proof. intros Hs. induction v as [|x v IH]; cbn [map qsum fold_right]; [field; exact Hs|]. unfold qsum in IH. rewrite Qred_correct, IH. field. exact Hs. Qed.
Lemma planar_row_is_normal v : ~ (qsum v == 0)%Q -> normal_row (planar_row v).
Proof.
  intros Hs. split.
  - unfold planar_row. rewrite qsum_map_div by exact Hs. field. exact Hs.
  - unfold planar_row. apply Forall_forall. intros x Hx. apply in_map_iff in Hx. destruct Hx as (y & <- & _). apply Qred_complete. apply Qred_correct.
Qed.
Lemma map_planar_normal rows : Forall normal_row rows -> map planar_row rows = rows.
Proof. intros H. rewrite <- (map_id rows) at 2. apply map_ext_in. intros v Hv. apply planar_row_normal. rewrite Forall_forall in H. auto. Qed.

(** Adapting an operator whose vectors are normal and whose neighbourhoods are current changes neither. *)
Lemma adapt_fixed argsort o : Forall normal_row (mo_planar o) -> mo_nbs o = nbs_of argsort (mo_planar o) (mo_nn o) ->
  mo_planar (mop_adapt argsort o) = mo_planar o /\ mo_nbs (mop_adapt argsort o) = mo_nbs o /\ mo_nn (mop_adapt argsort o) = mo_nn o /\ mo_init (mop_adapt argsort o) = mo_init o.
Proof. intros Hn Hb. unfold mop_adapt. cbn. rewrite (map_planar_normal _ Hn). auto. Qed.

Section P.
Context (argsort : list Q -> list nat).
Context {M : Type} (fitness : M -> list Q) (SF : list Q -> list Q -> list Q -> Q).
Context (pick : nat -> nat -> nat -> nat * nat) (offspring : nat -> nat -> M -> M -> list M -> M) (new_ideal : list Q -> M -> list Q).
Notation mrun := (mrun M).
Notation subs := (mr_subproblems fitness SF pick offspring new_ideal).
Notation gens := (mr_gens_loop fitness SF pick offspring new_ideal).
Notation mgen := (mr_gen fitness SF pick offspring new_ideal).

(** The offspring of a subproblem is the one noted. *)
Lemma subproblem_const g i vectors nbs ideal pop r :
  subproblem fitness SF vectors nbs (pick g) (offspring g) new_ideal i (ideal, pop) = Ok r ->
  exists x, the_offspring pick offspring g i nbs pop = Some x /\ subproblem fitness SF vectors nbs (pick g) (fun _ _ _ _ => x) new_ideal i (ideal, pop) = Ok r.
Proof.
  unfold subproblem, the_offspring. destruct (choose_parents (pick g i) nbs i) as [[a b]|e]; cbn [bind fst snd]; [|discriminate].
  destruct (nth_error pop a) as [x|]; [|discriminate]. destruct (nth_error pop b) as [y|]; [|discriminate]. intros H. eexists. split; [reflexivity|exact H].
Qed.

(** ** The ideal point only moves down *)
Definition lowers : Prop := forall z off, Forall2 Qle (new_ideal z off) z /\ (Forall2 Qle z (new_ideal z off) -> new_ideal z off = z).
Lemma below_refl z : Forall2 Qle z z.
Proof. induction z; constructor; auto. apply Qle_refl. Qed.
Lemma below_trans a b c : Forall2 Qle a b -> Forall2 Qle b c -> Forall2 Qle a c.
Proof. intros H. revert c. induction H as [|x y l l' Hx H IH]; intros c Hc; inversion Hc; subst; constructor; [eapply Qle_trans; eauto|auto]. Qed.
Lemma subs_lower is : lowers -> forall s s', subs is s = Ok s' -> Forall2 Qle (mr_ideal s') (mr_ideal s) /\ mr_op s' = mr_op s /\ mr_gens s' = mr_gens s /\ length (mr_pop s') = length (mr_pop s).
Proof.
  intros HL. induction is as [|i t IH]; intros s s' H; cbn [mr_subproblems] in H; [injection H as <-; repeat (split; [auto using below_refl|]); auto|].
  destruct (subproblem _ _ _ _ _ _ _ i _) as [[z pop]|e] eqn:E; cbn [bind] in H; [|discriminate]. apply IH in H. cbn [mr_ideal mr_op mr_gens mr_pop fst snd] in H. destruct H as (H1 & H2 & H3 & H4).
  destruct (subproblem_spec _ _ _ _ _ _ _ _ _ _ _ _ E) as (nb & pa & pb & a & b & off & _ & _ & _ & _ & _ & _ & Hz & L & _).
  split; [eapply below_trans; [exact H1|]; rewrite Hz; apply HL|]. split; [exact H2|]. split; [exact H3|congruence].
Qed.
Lemma gens_lower k ps : lowers -> forall s s', gens ps k s = Ok s' -> Forall2 Qle (mr_ideal s') (mr_ideal s) /\ mr_op s' = mr_op s /\ mr_gens s' = mr_gens s + k /\ length (mr_pop s') = length (mr_pop s).
Proof.
  intros HL. induction k as [|k IH]; intros s s' H; cbn [mr_gens_loop] in H; [injection H as <-; repeat (split; [auto using below_refl|]); auto|].
  unfold mr_gen in H. destruct (subs (seq 0 ps) s) as [s1|e] eqn:E; cbn [bind] in H; [|discriminate]. apply IH in H. cbn [mr_ideal mr_op mr_gens mr_pop] in H. destruct H as (H1 & H2 & H3 & H4).
  apply subs_lower in E; auto. destruct E as (E1 & E2 & E3 & E4). split; [eapply below_trans; eauto|]. split; [congruence|]. split; [lia|congruence].
Qed.

(** ** The invariant of a run at a fixed ideal: nobody is worse than at the start, or than anything tried in his neighbourhood *)
Section Inv.
Context (planar : list (list Q)) (nbs : list (list nat)) (z : list Q) (pop0 : list M) (tried0 : list (nat * M)).
Definition score (j : nat) (m : M) : Q := SF (fitness m) (fix_weights (nth j planar [])) z.
Definition good (s : mrun) : Prop :=
  mo_planar (mr_op s) = planar /\ mo_nbs (mr_op s) = nbs /\ mr_ideal s = z /\ length (mr_pop s) = length pop0 /\ (exists new, mr_tried s = tried0 ++ new /\
  forall j m, j < length planar -> nth_error (mr_pop s) j = Some m ->
    (forall m0, nth_error pop0 j = Some m0 -> (score j m <= score j m0)%Q) /\
    (forall i x nb, In (i, x) new -> nth_error nbs i = Some nb -> In j nb -> (score j m <= score j x)%Q)).
Lemma subs_good is : lowers -> forall s s', subs is s = Ok s' -> Forall2 Qle z (mr_ideal s') -> good s -> good s'.
Proof.
  intros HL. induction is as [|i t IH]; intros s s' H Hz Hs; cbn [mr_subproblems] in H; [injection H as <-; exact Hs|].
  destruct (subproblem _ _ _ _ _ _ _ i _) as [[z1 pop1]|e] eqn:E; cbn [bind] in H; [|discriminate]. cbn [fst snd] in H.
  destruct (subproblem_const _ _ _ _ _ _ _ E) as (x & Hx & E'). rewrite Hx in H.
  destruct (subproblem_spec _ _ _ _ _ _ _ _ _ _ _ _ E') as (nb & pa & pb & a & b & off & Nb & _ & _ & _ & _ & Hoff & Hz1 & L & Sp). subst off.
  destruct Hs as (S1 & S2 & S3 & S4 & new & S5 & S6). rewrite S1, S2 in *.
  assert (Z1 : z1 = z).
  { pose proof (subs_lower t HL _ _ H) as (Lw & _). cbn [mr_ideal] in Lw. rewrite S3 in Hz1. rewrite Hz1. apply HL. rewrite <- Hz1. eapply below_trans; [exact Hz|exact Lw]. }
  clear E E' Hx Hz1. subst z1.
  apply (IH _ _ H Hz). unfold good. cbn [mr_op mr_ideal mr_pop mr_tried]. split; [exact S1|]. split; [exact S2|]. split; [reflexivity|]. split; [lia|]. exists (new ++ [(i, x)]). split; [rewrite S5, app_assoc; reflexivity|].
  intros j m Hj Hm. destruct (nth_error (mr_pop s) j) as [mo|] eqn:Ho.
  2:{ exfalso. apply nth_error_None in Ho. assert (j < length pop1) by (apply nth_error_Some; congruence). lia. }
  destruct (S6 j mo Hj Ho) as [O1 O2]. assert (Wj : nth_error planar j = Some (nth j planar [])) by (apply nth_error_nth'; exact Hj).
  assert (Le : (score j m <= score j mo)%Q /\ (In j nb -> (score j m <= score j x)%Q)).
  { destruct (Sp j mo Ho) as [(In1 & w & W1 & W2 & W3)|[W3 W4]].
    - assert (w = nth j planar []) by congruence. subst w. assert (m = x) by congruence. subst m. split; [apply Qlt_le_weak; exact W2|intros _; apply Qle_refl].
    - assert (m = mo) by congruence. subst mo. split; [apply Qle_refl|]. intros Inb. apply (W4 Inb _ Wj). }
  destruct Le as [Le1 Le2]. split.
  - intros m0 Hm0. eapply Qle_trans; [exact Le1|auto].
  - intros i' x' nb' Hin Hnb Hjn. apply in_app_or in Hin. destruct Hin as [Hin|[Hin|[]]].
    + eapply Qle_trans; [exact Le1|eapply O2; eauto].
    + injection Hin as <- <-. apply Le2. congruence.
Qed.
Lemma gens_good k ps : lowers -> forall s s', gens ps k s = Ok s' -> Forall2 Qle z (mr_ideal s') -> good s -> good s'.
Proof.
  intros HL. induction k as [|k IH]; intros s s' H Hz Hs; cbn [mr_gens_loop] in H; [injection H as <-; exact Hs|].
  unfold mr_gen in H. destruct (subs (seq 0 ps) s) as [s1|e] eqn:E; cbn [bind] in H; [|discriminate]. apply (IH _ _ H Hz).
  pose proof (gens_lower k ps HL _ _ H) as (Lw & _). cbn [mr_ideal] in Lw.
  pose proof (subs_good _ HL _ _ E (below_trans _ _ _ Hz Lw) Hs) as G. exact G.
Qed.
End Inv.

(** ** Raising and not raising *)
Lemma subs_needs is : forall s s', subs is s = Ok s' -> forall i, In i is -> exists nb, nth_error (mo_nbs (mr_op s)) i = Some nb /\ forall j, In j nb -> j < length (mo_planar (mr_op s)) /\ j <= length (mr_pop s).
Proof.
  induction is as [|i t IH]; intros s s' H k Hk; [destruct Hk|]. cbn [mr_subproblems] in H.
  destruct (subproblem _ _ _ _ _ _ _ i _) as [[z1 pop1]|e] eqn:E; cbn [bind] in H; [|discriminate]. cbn [fst snd] in H.
  destruct (subproblem_spec _ _ _ _ _ _ _ _ _ _ _ _ E) as (_ & _ & _ & _ & _ & _ & _ & _ & _ & _ & _ & _ & _ & L & _).
  destruct Hk as [<-|Hk].
  - unfold subproblem in E. destruct (choose_parents _ _ _) as [[a b]|]; cbn [bind fst snd] in E; [|discriminate]. destruct (nth_error (mr_pop s) a); [|discriminate]. destruct (nth_error (mr_pop s) b); [|discriminate].
    cbv zeta in E. set (x := offspring _ _ _ _ _) in E. destruct (moead_do _ _ _ _ _ _ _) as [sel|] eqn:D; cbn [bind] in E; [|discriminate]. destruct (moead_do_spec _ _ _ _ _ _ _ _ _ D) as (nb & Nb & R & _). eauto.
  - destruct (IH _ _ H k Hk) as (nb & Nb & R). cbn [mr_op mr_pop] in *. rewrite L in R. eauto.
Qed.
Lemma subs_total is : (forall g i n, 2 <= n -> fst (pick g i n) < n /\ snd (pick g i n) < n) -> forall s,
  (forall i, In i is -> exists nb, nth_error (mo_nbs (mr_op s)) i = Some nb /\ 2 <= length nb /\ forall j, In j nb -> j < length (mo_planar (mr_op s)) /\ j < length (mr_pop s)) ->
  exists s', subs is s = Ok s' /\ mr_op s' = mr_op s /\ length (mr_pop s') = length (mr_pop s).
Proof.
  intros Hp. induction is as [|i t IH]; intros s H; cbn [mr_subproblems]; [eauto|].
  destruct (H i (or_introl eq_refl)) as (nb & N1 & N2 & N3).
  destruct (subproblem_total fitness SF (mo_planar (mr_op s)) (mo_nbs (mr_op s)) (pick (mr_gens s)) (offspring (mr_gens s)) new_ideal i (mr_ideal s) (mr_pop s) nb N1 N2 (Hp (mr_gens s) i) N3) as [[id' pop'] E].
  rewrite E; cbn [bind fst snd]. destruct (subproblem_spec _ _ _ _ _ _ _ _ _ _ _ _ E) as (_ & _ & _ & _ & _ & _ & _ & _ & _ & _ & _ & _ & _ & L & _).
  destruct (IH (mkMRun (mr_op s) id' pop' (mr_gens s) (mr_tried s ++ match the_offspring pick offspring (mr_gens s) i (mo_nbs (mr_op s)) (mr_pop s) with Some x => [(i, x)] | None => [] end))) as (s' & E1 & E2 & E3).
  - cbn [mr_op mr_pop]. rewrite L. intros k Hk. apply H. right; exact Hk.
  - exists s'. cbn [mr_op mr_pop] in *. split; [exact E1|]. split; [exact E2|congruence].
Qed.
Lemma gens_total ps k : (forall g i n, 2 <= n -> fst (pick g i n) < n /\ snd (pick g i n) < n) -> forall s,
  (forall i, i < ps -> exists nb, nth_error (mo_nbs (mr_op s)) i = Some nb /\ 2 <= length nb /\ forall j, In j nb -> j < length (mo_planar (mr_op s)) /\ j < length (mr_pop s)) ->
  exists s', gens ps k s = Ok s' /\ mr_op s' = mr_op s /\ length (mr_pop s') = length (mr_pop s).
Proof.
  intros Hp. induction k as [|k IH]; intros s H; cbn [mr_gens_loop]; [eauto|]. unfold mr_gen.
  destruct (subs_total (seq 0 ps) Hp s) as (s1 & E1 & E2 & E3); [intros i Hi; apply in_seq in Hi; apply H; lia|]. rewrite E1. cbn [bind].
  destruct (IH (mkMRun (mr_op s1) (mr_ideal s1) (mr_pop s1) (S (mr_gens s1)) (mr_tried s1))) as (s' & F1 & F2 & F3); [cbn [mr_op mr_pop]; rewrite E2, E3; exact H|].
  exists s'. cbn [mr_op mr_pop] in *. split; [exact F1|]. split; [congruence|congruence].
Qed.

(** ** Only the vectors in the neighbourhoods matter *)
Lemma take_all_same {A} (l l' : list A) nb : (forall j, In j nb -> nth_error l j = nth_error l' j) -> take_all l nb = take_all l' nb.
Proof. induction nb as [|j nb IH]; intros H; cbn [take_all]; [reflexivity|]. rewrite (H j (or_introl eq_refl)), IH; [reflexivity|]. intros k Hk. apply H. right; exact Hk. Qed.
Definition same_but_op (s s' : mrun) : Prop := mr_ideal s' = mr_ideal s /\ mr_pop s' = mr_pop s /\ mr_gens s' = mr_gens s /\ mr_tried s' = mr_tried s.
Definition same_res (r r' : res mrun) : Prop := match r, r' with Ok s, Ok s' => same_but_op s s' | Err e, Err e' => e = e' | _, _ => False end.
Definition agree (o o' : mop) : Prop := mo_nbs o' = mo_nbs o /\ forall nb, In nb (mo_nbs o) -> forall j, In j nb -> nth_error (mo_planar o) j = nth_error (mo_planar o') j.
Lemma subproblem_same pk of o o' i s : agree o o' ->
  subproblem fitness SF (mo_planar o) (mo_nbs o) pk of new_ideal i s = subproblem fitness SF (mo_planar o') (mo_nbs o') pk of new_ideal i s.
Proof.
  intros [A B]. destruct s as [z pop]. unfold subproblem. rewrite A. destruct (choose_parents _ _ _) as [[a b]|]; cbn [bind]; [|reflexivity]. cbn [fst snd].
  destruct (nth_error pop a); [|reflexivity]. destruct (nth_error pop b); [|reflexivity]. cbv zeta. unfold moead_do. destruct (nth_error (mo_nbs o) i) as [nb|] eqn:En; [|reflexivity].
  rewrite (take_all_same (mo_planar o) (mo_planar o') nb); [reflexivity|]. apply B. eapply nth_error_In; eauto.
Qed.
Lemma subs_same is : forall s s', agree (mr_op s) (mr_op s') -> same_but_op s s' -> same_res (subs is s) (subs is s') /\
  (forall t, subs is s = Ok t -> mr_op t = mr_op s) /\ (forall t, subs is s' = Ok t -> mr_op t = mr_op s').
Proof.
  induction is as [|i is IH]; intros s s' A (E1 & E2 & E3 & E4); cbn [mr_subproblems].
  - split; [cbn; unfold same_but_op; auto|]. split; intros t Ht; injection Ht as <-; reflexivity.
  - rewrite E1, E2, E3, E4. rewrite <- (subproblem_same (pick (mr_gens s)) (offspring (mr_gens s)) (mr_op s) (mr_op s') i (mr_ideal s, mr_pop s) A).
    destruct (subproblem _ _ _ _ _ _ _ i _) as [[z pop]|e]; cbn [bind]; [|split; [reflexivity|split; discriminate]]. destruct A as [A1 A2]. rewrite A1.
    match goal with |- same_res (mr_subproblems _ _ _ _ _ is ?a) (mr_subproblems _ _ _ _ _ is ?b) /\ _ => destruct (IH a b) as (I1 & I2 & I3) end; cbn [mr_op]; [split; auto|unfold same_but_op; cbn; auto|].
    split; [exact I1|]. split; [exact I2|exact I3].
Qed.
Lemma gens_same ps k : forall s s', agree (mr_op s) (mr_op s') -> same_but_op s s' -> same_res (gens ps k s) (gens ps k s').
Proof.
  induction k as [|k IH]; intros s s' A E; cbn [mr_gens_loop]; [exact E|]. unfold mr_gen.
  destruct (subs_same (seq 0 ps) s s' A E) as (R & O1 & O2). destruct (subs (seq 0 ps) s) as [t|e], (subs (seq 0 ps) s') as [t'|e']; cbn [same_res] in R; try contradiction; cbn [bind]; [|exact R].
  destruct R as (R1 & R2 & R3 & R4). apply IH; cbn [mr_op]; [rewrite (O1 t eq_refl), (O2 t' eq_refl); exact A|]. unfold same_but_op. cbn. rewrite R1, R2, R3, R4. auto.
Qed.
End P.

(** The log: one solution per subproblem visited. *)
Section Log.
Context {M : Type} (fitness : M -> list Q) (SF : list Q -> list Q -> list Q -> Q).
Context (pick : nat -> nat -> nat -> nat * nat) (offspring : nat -> nat -> M -> M -> list M -> M) (new_ideal : list Q -> M -> list Q).
Lemma subs_log is : forall s s', mr_subproblems fitness SF pick offspring new_ideal is s = Ok s' -> map fst (mr_tried s') = map fst (mr_tried s) ++ is.
Proof.
  induction is as [|i t IH]; intros s s' H; cbn [mr_subproblems] in H; [injection H as <-; rewrite app_nil_r; reflexivity|].
  destruct (subproblem _ _ _ _ _ _ _ i _) as [r|e] eqn:E; cbn [bind] in H; [|discriminate]. destruct (subproblem_const _ _ _ _ _ _ _ _ _ _ _ _ E) as (x & Hx & _). rewrite Hx in H.
  rewrite (IH _ _ H). cbn [mr_tried]. rewrite map_app, <- app_assoc. reflexivity.
Qed.
Lemma gens_log ps k : forall s s', mr_gens_loop fitness SF pick offspring new_ideal ps k s = Ok s' -> map fst (mr_tried s') = map fst (mr_tried s) ++ concat (repeat (seq 0 ps) k).
Proof.
  induction k as [|k IH]; intros s s' H; cbn [mr_gens_loop] in H; [injection H as <-; rewrite app_nil_r; reflexivity|]. unfold mr_gen in H.
  destruct (mr_subproblems _ _ _ _ _ _ _) as [s1|e] eqn:E; cbn [bind] in H; [|discriminate]. rewrite (IH _ _ H). cbn [mr_tried]. rewrite (subs_log _ _ _ E), <- app_assoc. reflexivity.
Qed.
End Log.
