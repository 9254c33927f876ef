(** C125: failed evaluations (infinite or NaN fitness values) in MOEA/D. *)
From Verif Require Import Base M_MOEAD P_MOEAD M_MOEADnan P_MOEADnan.
From Coq Require Import QArith Qabs.
Open Scope nat_scope.

(** ** What is assumed about the scalarising function (desdeo_tools), for m objectives *)
Definition finite_vec (f : list xq) : Prop := forall a, In a f -> exists q, a = QFin q.
(** A failed evaluation reported as +infinity in at least one objective. *)
Definition failed (f : list xq) : Prop := (forall a, In a f -> a = QPInf \/ exists q, a = QFin q) /\ In QPInf f.
Definition SF_finite (SF : list xq -> list Q -> list xq -> xq) (m : nat) : Prop := forall f w z,
  length f = m -> length w = m -> length z = m -> finite_vec f -> finite_vec z -> exists q, SF f w z = QFin q.
Definition SF_nan (SF : list xq -> list Q -> list xq -> xq) (m : nat) : Prop := forall f w z,
  length f = m -> length w = m -> length z = m -> In QNaN f \/ In QNaN z -> SF f w z = QNaN.
(** Of a failed evaluation: +infinity (Tchebycheff, weighted sum); or NaN (penalised boundary intersection, infinity - infinity). *)
Definition SF_failed (SF : list xq -> list Q -> list xq -> xq) (m : nat) (v : xq) : Prop := forall f w z,
  length f = m -> length w = m -> length z = m -> (forall x, In x w -> (0 < x)%Q) -> failed f -> finite_vec z -> SF f w z = v.

Definition nonneg_vectors (m : nat) (vectors : list (list Q)) : Prop := forall w, In w vectors -> length w = m /\ forall x, In x w -> (0 <= x)%Q.

(** ** Finite values only: the generation of C37-C39 *)
Fixpoint qmins (u v : list Q) : list Q := match u, v with a :: u', b :: v' => (if Qle_bool a b then a else b) :: qmins u' v' | _, _ => [] end.
Theorem C125_finite_values {M : Type} (fit : M -> list Q) (SFx : list xq -> list Q -> list xq -> xq) (SF : list Q -> list Q -> list Q -> Q)
  (vectors : list (list Q)) (neighborhoods : list (list nat)) (pick : nat -> nat -> nat * nat) (offspring : nat -> M -> M -> list M -> M)
  (pop_size : nat) (ideal : list Q) (pop : list M) :
  (forall f w z, SFx (map QFin f) w (map QFin z) = QFin (SF f w z)) ->
  moead_gen_x (fun m => map QFin (fit m)) SFx vectors neighborhoods pick offspring pop_size (map QFin ideal, pop) =
  match moead_gen fit SF vectors neighborhoods pick offspring (fun z off => qmins z (fit off)) pop_size (ideal, pop) with
  | Ok (z, p) => Ok (map QFin z, p)
  | Err e => Err e
  end.
Proof.
  intros HSF.
  assert (HM : forall u v, xqmins (map QFin u) (map QFin v) = map QFin (qmins u v)).
  { induction u as [|a u IH]; intros [|b v]; cbn [map xqmins qmins]; auto. rewrite IH. f_equal. cbn [xqmin xqlt]. destruct (Qle_bool a b); reflexivity. }
  assert (HT : forall (l : list (list Q)) nb, take_all (map (map QFin) l) nb = match take_all l nb with Ok r => Ok (map (map QFin) r) | Err e => Err e end).
  { intros l nb. induction nb as [|j nb IH]; cbn [take_all]; [reflexivity|]. rewrite nth_error_map. destruct (nth_error l j) as [x|]; [|reflexivity]. cbn [option_map].
    rewrite IH. destruct (take_all l nb); reflexivity. }
  assert (HO : forall nb cur ws off z, outperformed_x SFx nb (map (map QFin) cur) ws (map QFin off) (map QFin z) = outperformed SF nb cur ws off z).
  { induction nb as [|j nb IH]; intros cur ws off z; [reflexivity|]. destruct cur as [|f cur]; [reflexivity|]. destruct ws as [|w ws]; [reflexivity|].
    cbn [map outperformed_x outperformed]. rewrite !HSF, IH. reflexivity. }
  assert (HD : forall z p i, moead_do_x (fun m => map QFin (fit m)) SFx vectors neighborhoods (map QFin z) p i = moead_do fit SF vectors neighborhoods z p i).
  { intros z p i. unfold moead_do_x, moead_do. destruct (nth_error neighborhoods i) as [nb|]; [|reflexivity].
    rewrite <- (map_map fit (map QFin)), HT. destruct (take_all (map fit p) nb) as [cur|]; [|reflexivity]. cbn [bind]. destruct (rev p) as [|off t]; [reflexivity|].
    destruct (take_all vectors nb) as [ws|]; [|reflexivity]. cbn [bind]. rewrite HO. reflexivity. }
  unfold moead_gen_x, moead_gen. generalize (seq 0 pop_size) as is. intros is. revert ideal pop. induction is as [|i t IH]; intros ideal pop; cbn [subproblems_x subproblems]; [reflexivity|].
  assert (HS : subproblem_x (fun m => map QFin (fit m)) SFx vectors neighborhoods pick offspring i (map QFin ideal, pop) =
    match subproblem fit SF vectors neighborhoods pick offspring (fun z off => qmins z (fit off)) i (ideal, pop) with Ok (z, p) => Ok (map QFin z, p) | Err e => Err e end).
  { unfold subproblem_x, subproblem. destruct (choose_parents (pick i) neighborhoods i) as [[a b]|]; [|reflexivity]. cbn [bind fst snd].
    destruct (nth_error pop a) as [ma|]; [|reflexivity]. destruct (nth_error pop b) as [mb|]; [|reflexivity]. rewrite HM, HD.
    destruct (moead_do fit SF vectors neighborhoods (qmins ideal (fit (offspring i ma mb pop))) (pop ++ [offspring i ma mb pop]) i); reflexivity. }
  rewrite HS. destruct (subproblem fit SF vectors neighborhoods pick offspring (fun z off => qmins z (fit off)) i (ideal, pop)) as [[z p]|]; [|reflexivity].
  cbn [bind]. apply IH.
Qed.

Lemma finite_map (f : list xq) : finite_vec f -> exists q, f = map QFin q.
Proof.
  induction f as [|a f IH]; intros H; [exists []; reflexivity|]. destruct (H a (or_introl eq_refl)) as [q ->]. destruct IH as [l ->]; [intros b Hb; apply H; right; auto|]. exists (q :: l). reflexivity.
Qed.
Lemma xqmins_finite u : forall v, finite_vec u -> (forall a, In a v -> a = QPInf \/ exists q, a = QFin q) -> finite_vec (xqmins u v).
Proof.
  induction u as [|a u IH]; intros [|b v] Hu Hv x; cbn [xqmins]; try (intros []; fail).
  intros [<-|Hin]; [|apply (IH v); auto; intros c Hc; [apply Hu|apply Hv]; right; auto].
  destruct (Hu a (or_introl eq_refl)) as [p ->]. destruct (Hv b (or_introl eq_refl)) as [->|[q ->]]; cbn [xqmin xqlt].
  - exists p. reflexivity.
  - destruct (negb (Qle_bool p q)); eauto.
Qed.

(** C125. Failed evaluations reported as +infinity: started from finitely evaluated members, whatever the run evaluates later (finite values or +infinity, in any objectives, in any
    generation), the population and the ideal point stay finite; and a generation all of whose evaluations fail leaves the population as it is. *)
Theorem C125_population_stays_finite {M : Type} (m : nat) (fitness : M -> list xq) (SF : list xq -> list Q -> list xq -> xq)
  (vectors : list (list Q)) (neighborhoods : list (list nat)) (pop_size : nat) (gens : list ((nat -> nat -> nat * nat) * (nat -> M -> M -> list M -> M)))
  (v : xq) (ideal ideal' : list xq) (pop pop' : list M) :
  SF_failed SF m v -> v = QPInf \/ v = QNaN -> nonneg_vectors m vectors ->
  (forall x, length (fitness x) = m) -> length ideal = m -> finite_vec ideal -> (forall x, In x pop -> finite_vec (fitness x)) ->
  (forall g i a b p, In g gens -> let f := fitness (snd g i a b p) in finite_vec f \/ failed f) ->
  moead_gens_x fitness SF vectors neighborhoods pop_size gens (ideal, pop) = Ok (ideal', pop') ->
  finite_vec ideal' /\ length ideal' = m /\ (forall x, In x pop' -> finite_vec (fitness x)) /\ length pop' = length pop /\
  ((forall g i a b p, In g gens -> failed (fitness (snd g i a b p))) -> pop' = pop).
Proof.
  intros HF Hv HV Hl Hi Hif Hpf Hoff E.
  set (P := fun z p => finite_vec z /\ length z = m /\ (forall x, In x p -> finite_vec (fitness x)) /\ length p = length pop /\
    ((forall g i a b p, In g gens -> failed (fitness (snd g i a b p))) -> p = pop)).
  apply (moead_gens_x_inv fitness SF vectors neighborhoods pop_size P gens ideal pop ideal' pop'); [|unfold P; auto|exact E].
  clear ideal ideal' pop' Hi Hif E. intros g i z p z' p' Hg (P1 & P2 & P3 & P4 & P5) E.
  destruct (subproblem_x_spec _ _ _ _ _ _ _ _ _ _ _ E) as (nb & pa & pb & a & b & off & E1 & E2 & E3 & E4 & E5 & E6 & E7 & E8 & E9).
  assert (Ho : finite_vec (fitness off) \/ failed (fitness off)) by (subst off; apply Hoff; auto).
  assert (Fz : finite_vec z').
  { subst z'. apply xqmins_finite; auto. destruct Ho as [Ho|Ho]; [intros x Hx; right; apply Ho; auto|apply Ho]. }
  assert (Lz : length z' = m) by (subst z'; rewrite xqmins_len, P2, Hl; apply Nat.min_id).
  assert (Hkeep : failed (fitness off) -> p' = p).
  { intros Hf. apply (pop_eq p p'); auto. intros j x Hj. destruct (E9 j x Hj) as [(_ & w & Hw & C & _)|[K _]]; auto. exfalso.
    destruct (HV w (nth_error_In _ _ Hw)) as [Lw Pw].
    rewrite (HF (fitness off) (fix_weights w) z') in C; auto; [|rewrite fix_weights_len; auto|apply fix_weights_pos; auto].
    destruct Hv as [-> | ->]; cbn [xqlt] in C; discriminate C. }
  unfold P. split; [auto|]. split; [auto|]. split; [|split; [lia|]].
  - destruct Ho as [Ho|Ho]; [|rewrite Hkeep by auto; auto]. intros x Hx. destruct (In_nth_error _ _ Hx) as [j Hj].
    assert (Hlt : j < length p) by (rewrite <- E8; apply nth_error_Some; congruence).
    destruct (nth_error p j) as [y|] eqn:Ey; [|apply nth_error_None in Ey; lia].
    destruct (E9 j y Ey) as [(_ & w & _ & _ & K)|[K _]]; rewrite K in Hj; injection Hj as <-; auto. apply P3. eapply nth_error_In; eauto.
  - intros Hall. rewrite Hkeep; auto. subst off. apply Hall. exact Hg.
Qed.

(** C125. A failed member (say of the initial population) gives way to every finitely evaluated offspring of its neighbourhood, if the scalarising function answers +infinity. *)
Theorem C125_failed_member_is_replaced {M : Type} (m : nat) (fitness : M -> list xq) (SF : list xq -> list Q -> list xq -> xq)
  (vectors : list (list Q)) (neighborhoods : list (list nat)) (pick : nat -> nat -> nat * nat) (offspring : nat -> M -> M -> list M -> M)
  (i : nat) (ideal ideal' : list xq) (pop pop' : list M) :
  SF_finite SF m -> SF_failed SF m QPInf -> nonneg_vectors m vectors -> (forall x, length (fitness x) = m) -> length ideal = m -> finite_vec ideal ->
  (forall a b, finite_vec (fitness (offspring i a b pop))) ->
  subproblem_x fitness SF vectors neighborhoods pick offspring i (ideal, pop) = Ok (ideal', pop') ->
  exists nb off, nth_error neighborhoods i = Some nb /\ (exists a b, off = offspring i a b pop) /\
    forall j x, In j nb -> nth_error pop j = Some x -> j < length vectors -> failed (fitness x) -> nth_error pop' j = Some off.
Proof.
  intros HFin HF HV Hl Hi Hif Hoff E.
  destruct (subproblem_x_spec _ _ _ _ _ _ _ _ _ _ _ E) as (nb & pa & pb & a & b & off & E1 & E2 & E3 & E4 & E5 & E6 & E7 & E8 & E9).
  exists nb, off. split; [auto|]. split; [eauto|]. intros j x Hj Hx Hlt Hf. destruct (E9 j x Hx) as [(_ & w & _ & _ & K)|[_ K]]; auto. exfalso.
  destruct (nth_error vectors j) as [w|] eqn:Ew; [|apply nth_error_None in Ew; lia].
  destruct (HV w (nth_error_In _ _ Ew)) as [Lw Pw]. specialize (K Hj w eq_refl).
  assert (Fo : finite_vec (fitness off)) by (subst off; apply Hoff).
  assert (Fz : finite_vec ideal') by (subst ideal'; apply xqmins_finite; auto).
  assert (Lz : length ideal' = m) by (subst ideal'; rewrite xqmins_len, Hi, Hl; apply Nat.min_id).
  rewrite (HF (fitness x) (fix_weights w) ideal') in K; auto; [|rewrite fix_weights_len; auto|apply fix_weights_pos; auto].
  destruct (HFin (fitness off) (fix_weights w) ideal') as [q Eq]; auto; [rewrite fix_weights_len; auto|]. rewrite Eq in K. discriminate.
Qed.

(** C125 (false of the code). With a scalarising function that answers NaN for them, failed members stay for ever: as long as evaluations are finite or +infinity, no generation
    replaces them. *)
Theorem C125_failed_member_stays_refuted {M : Type} (m : nat) (fitness : M -> list xq) (SF : list xq -> list Q -> list xq -> xq)
  (vectors : list (list Q)) (neighborhoods : list (list nat)) (pop_size : nat) (gens : list ((nat -> nat -> nat * nat) * (nat -> M -> M -> list M -> M)))
  (ideal ideal' : list xq) (pop pop' : list M) :
  SF_failed SF m QNaN -> nonneg_vectors m vectors ->
  (forall x, length (fitness x) = m) -> length ideal = m -> finite_vec ideal ->
  (forall g i a b p, In g gens -> let f := fitness (snd g i a b p) in finite_vec f \/ failed f) ->
  moead_gens_x fitness SF vectors neighborhoods pop_size gens (ideal, pop) = Ok (ideal', pop') ->
  forall j x, nth_error pop j = Some x -> failed (fitness x) -> nth_error pop' j = Some x.
Proof.
  intros HF HV Hl Hi Hif Hoff E j x Hx Hfx.
  set (P := fun z p => finite_vec z /\ length z = m /\ @nth_error M p j = Some x).
  apply (moead_gens_x_inv fitness SF vectors neighborhoods pop_size P gens ideal pop ideal' pop'); [|unfold P; auto|exact E].
  clear ideal ideal' pop pop' Hi Hif Hx E. intros g i z p z' p' Hg (P1 & P2 & P3) E.
  destruct (subproblem_x_spec _ _ _ _ _ _ _ _ _ _ _ E) as (nb & pa & pb & a & b & off & E1 & E2 & E3 & E4 & E5 & E6 & E7 & E8 & E9).
  assert (Ho : finite_vec (fitness off) \/ failed (fitness off)) by (subst off; apply Hoff; auto).
  assert (Fz : finite_vec z').
  { subst z'. apply xqmins_finite; auto. destruct Ho as [Ho|Ho]; [intros y Hy; right; apply Ho; auto|apply Ho]. }
  assert (Lz : length z' = m) by (subst z'; rewrite xqmins_len, P2, Hl; apply Nat.min_id).
  unfold P. split; [auto|]. split; [auto|]. destruct (E9 j x P3) as [(_ & w & Hw & C & _)|[K _]]; auto. exfalso.
  destruct (HV w (nth_error_In _ _ Hw)) as [Lw Pw].
  rewrite (HF (fitness x) (fix_weights w) z') in C; auto; [|rewrite fix_weights_len; auto|apply fix_weights_pos; auto]. destruct (SF (fitness off) (fix_weights w) z'); discriminate C.
Qed.

(** C125 (false of the code). "The run recovers from a failed evaluation reported as NaN": the offspring's NaN enters the ideal point; in the same step and for ever after no member of
    the population is replaced, whatever is evaluated. *)
Theorem C125_nan_freezes_the_run_refuted {M : Type} (m k : nat) (fitness : M -> list xq) (SF : list xq -> list Q -> list xq -> xq)
  (vectors : list (list Q)) (neighborhoods : list (list nat)) (pick : nat -> nat -> nat * nat) (offspring : nat -> M -> M -> list M -> M)
  (i pop_size : nat) (gens : list ((nat -> nat -> nat * nat) * (nat -> M -> M -> list M -> M))) (ideal z z' : list xq) (pop p p' : list M) :
  SF_nan SF m -> (forall w, In w vectors -> length w = m) -> (forall x, length (fitness x) = m) -> length ideal = m ->
  (forall a b, nth_error (fitness (offspring i a b pop)) k = Some QNaN) ->
  subproblem_x fitness SF vectors neighborhoods pick offspring i (ideal, pop) = Ok (z, p) ->
  moead_gens_x fitness SF vectors neighborhoods pop_size gens (z, p) = Ok (z', p') ->
  p = pop /\ p' = pop /\ nth_error z k = Some QNaN /\ nth_error z' k = Some QNaN.
Proof.
  intros HN HV Hl Hi Hoff Es E.
  assert (G : forall pick offspring i z p z' p', length z = m -> (nth_error z k = Some QNaN \/ forall a b, nth_error (fitness (offspring i a b p)) k = Some QNaN) ->
    subproblem_x fitness SF vectors neighborhoods pick offspring i (z, p) = Ok (z', p') -> nth_error z' k = Some QNaN /\ length z' = m /\ p' = p).
  { clear - HN HV Hl. intros pick offspring i z p z' p' Lz Hz E.
    destruct (subproblem_x_spec _ _ _ _ _ _ _ _ _ _ _ E) as (nb & pa & pb & a & b & off & E1 & E2 & E3 & E4 & E5 & E6 & E7 & E8 & E9).
    assert (Lz' : length z' = m) by (subst z'; rewrite xqmins_len, Lz, Hl; apply Nat.min_id).
    assert (Nz : nth_error z' k = Some QNaN).
    { subst z'. apply xqmins_nan; [rewrite Hl; auto|]. destruct Hz as [Hz|Hz]; auto. right. subst off. apply Hz. }
    split; [auto|]. split; [auto|]. apply (pop_eq p p'); auto. intros j x Hj. destruct (E9 j x Hj) as [(_ & w & Hw & C & _)|[K _]]; auto. exfalso.
    rewrite (HN (fitness off) (fix_weights w) z') in C; auto; [discriminate|rewrite fix_weights_len; apply HV; eapply nth_error_In; eauto|]. right. eapply nth_error_In; eauto. }
  destruct (G pick offspring i ideal pop z p Hi (or_intror Hoff) Es) as (Nz & Lz & ->). split; [reflexivity|].
  assert (H : nth_error z' k = Some QNaN /\ length z' = m /\ p' = pop).
  { apply (moead_gens_x_inv fitness SF vectors neighborhoods pop_size (fun u q => nth_error u k = Some QNaN /\ length u = m /\ q = pop) gens z pop z' p'); auto.
    intros g h u q u' q' _ (Q1 & Q2 & ->) Eh. apply (G (fst g) (snd g) h u pop u' q'); auto. }
  destruct H as (H1 & _ & H2). auto.
Qed.
Print Assumptions C125_finite_values.
Print Assumptions C125_population_stays_finite.
Print Assumptions C125_failed_member_is_replaced.
Print Assumptions C125_failed_member_stays_refuted.
Print Assumptions C125_nan_freezes_the_run_refuted.

(** ** Instances *)
(** Weighted Tchebycheff max_k w_k |f_k - z_k| with NaN and infinities. *)
Definition xdist (w : Q) (a z : xq) : xq :=
  match a, z with
  | QNaN, _ | _, QNaN => QNaN
  | QFin x, QFin y => QFin (w * Qabs (x - y))
  | QPInf, QPInf | QMInf, QMInf => QNaN
  | _, _ => if Qeq_bool w 0 then QNaN else QPInf
  end.
Definition xmaxq (a b : xq) : xq := match a, b with QNaN, _ | _, QNaN => QNaN | _, _ => if xqlt a b then b else a end.
Fixpoint tcheb_x (f : list xq) (w : list Q) (z : list xq) : xq :=
  match f, w, z with
  | a :: f', x :: w', b :: z' => xmaxq (xdist x a b) (tcheb_x f' w' z')
  | _, _, _ => QFin 0
  end.
Lemma xmaxq_nan_r a : xmaxq a QNaN = QNaN.
Proof. destruct a; reflexivity. Qed.
Example tcheb_nan m : SF_nan tcheb_x m.
Proof.
  intros f. revert m. induction f as [|a f IH]; intros m w z L1 L2 L3 H.
  - cbn in L1. subst m. destruct z; [|discriminate]. destruct H as [[]|[]].
  - destruct w as [|x w]; [cbn in *; lia|]. destruct z as [|b z]; [cbn in *; lia|]. destruct m as [|m]; [discriminate|]. cbn [tcheb_x].
    injection L1 as L1. injection L2 as L2. injection L3 as L3.
    destruct H as [[->|H]|[->|H]].
    + reflexivity.
    + rewrite (IH m w z) by auto. apply xmaxq_nan_r.
    + replace (xdist x a QNaN) with QNaN by (destruct a; reflexivity). reflexivity.
    + rewrite (IH m w z) by auto. apply xmaxq_nan_r.
Qed.
Lemma tcheb_finite m : SF_finite tcheb_x m.
Proof.
  intros f. revert m. induction f as [|a f IH]; intros m w z L1 L2 L3 Hf Hz.
  - exists 0%Q. reflexivity.
  - destruct w as [|x w]; [cbn in *; lia|]. destruct z as [|b z]; [cbn in *; lia|]. destruct m as [|m]; [discriminate|]. cbn [tcheb_x].
    injection L1 as L1. injection L2 as L2. injection L3 as L3.
    destruct (IH m w z L1 L2 L3) as [q ->]; [intros c Hc; apply Hf; right; auto|intros c Hc; apply Hz; right; auto|].
    destruct (Hf a (or_introl eq_refl)) as [u ->]. destruct (Hz b (or_introl eq_refl)) as [v ->]. cbn [xdist xmaxq]. destruct (xqlt _ _); eauto.
Qed.
Lemma tcheb_up f : forall w z, length f = length w -> length f = length z -> (forall x, In x w -> (0 < x)%Q) ->
  (forall a, In a f -> a = QPInf \/ exists q, a = QFin q) -> finite_vec z ->
  (In QPInf f -> tcheb_x f w z = QPInf) /\ (tcheb_x f w z = QPInf \/ exists q, tcheb_x f w z = QFin q).
Proof.
  induction f as [|a f IH]; intros [|x w] [|b z] L1 L2 Hw Hu Hz; try discriminate.
  - split; [intros []|right; exists 0%Q; reflexivity].
  - cbn [tcheb_x]. injection L1 as L1. injection L2 as L2. destruct (Hz b (or_introl eq_refl)) as [v ->].
    destruct (IH w z L1 L2) as [I1 I2]; [intros c Hc; apply Hw; right; auto|intros c Hc; apply Hu; right; auto|intros c Hc; apply Hz; right; auto|].
    assert (Ex : Qeq_bool x 0 = false).
    { destruct (Qeq_bool x 0) eqn:E; auto. apply Qeq_bool_iff in E. pose proof (Hw x (or_introl eq_refl)) as K. rewrite E in K. discriminate. }
    destruct (Hu a (or_introl eq_refl)) as [->|[q ->]]; cbn [xdist].
    + rewrite Ex. destruct I2 as [->|[r ->]]; cbn [xmaxq xqlt]; auto.
    + split.
      * intros [K|K]; [discriminate|]. rewrite (I1 K). reflexivity.
      * destruct I2 as [->|[r ->]]; cbn [xmaxq xqlt]; [auto|]. right. destruct (negb _); eauto.
Qed.
Example tcheb_failed m : SF_failed tcheb_x m QPInf.
Proof. intros f w z L1 L2 L3 Hw [Hu Hf] Hz. apply (tcheb_up f w z); auto; congruence. Qed.
(** A function that is NaN on failed evaluations, as penalised boundary intersection is. *)
Definition pbi_like (f : list xq) (w : list Q) (z : list xq) : xq :=
  if existsb (fun a => match a with QPInf => true | _ => false end) f then QNaN else tcheb_x f w z.
Example pbi_failed m : SF_failed pbi_like m QNaN.
Proof.
  intros f w z _ _ _ _ [_ Hf] _. unfold pbi_like. replace (existsb _ f) with true; [reflexivity|]. symmetry. apply existsb_exists. exists QPInf. auto.
Qed.

(** Three members on a line, each the neighbour of all; member 1 failed. Offspring 0 is finite. *)
Definition ex_fit (x : nat) : list xq := match x with 0 => [QFin 0; QFin 2] | 1 => [QPInf; QFin 1] | 2 => [QFin 2; QFin 0] | 3 => [QFin (1 # 2); QFin (1 # 2)] | _ => [QNaN; QFin 0] end.
Definition ex_vecs : list (list Q) := [[1%Q; 0%Q]; [1 # 2; 1 # 2]%Q; [0%Q; 1%Q]].
Definition ex_nbs : list (list nat) := [[0; 1; 2]; [1; 0; 2]; [2; 1; 0]].
Definition ex_pick (_ _ : nat) : nat * nat := (0, 1).
Example ex_replaced : subproblem_x ex_fit tcheb_x ex_vecs ex_nbs ex_pick (fun _ _ _ _ => 3) 0 ([QFin 0; QFin 0], [0; 1; 2]) = Ok ([QFin 0; QFin 0], [0; 3; 2]).
Proof. reflexivity. Qed.
Example ex_stays : subproblem_x ex_fit pbi_like ex_vecs ex_nbs ex_pick (fun _ _ _ _ => 3) 0 ([QFin 0; QFin 0], [0; 1; 2]) = Ok ([QFin 0; QFin 0], [0; 1; 2]).
Proof. reflexivity. Qed.
Example ex_failed_offspring : subproblem_x ex_fit tcheb_x ex_vecs ex_nbs ex_pick (fun _ _ _ _ => 1) 0 ([QFin 0; QFin 0], [0; 3; 2]) = Ok ([QFin 0; QFin 0], [0; 3; 2]).
Proof. reflexivity. Qed.
(** One NaN, then a generation of good offspring: nothing moves any more. *)
Example ex_nan : subproblem_x ex_fit tcheb_x ex_vecs ex_nbs ex_pick (fun _ _ _ _ => 9) 0 ([QFin 0; QFin 0], [0; 0; 2]) = Ok ([QNaN; QFin 0], [0; 0; 2]) /\
  moead_gens_x ex_fit tcheb_x ex_vecs ex_nbs 3 [(ex_pick, fun _ _ _ _ => 3); (ex_pick, fun _ _ _ _ => 3)] ([QNaN; QFin 0], [0; 0; 2]) = Ok ([QNaN; QFin 0], [0; 0; 2]) /\
  moead_gens_x ex_fit tcheb_x ex_vecs ex_nbs 3 [(ex_pick, fun _ _ _ _ => 3); (ex_pick, fun _ _ _ _ => 3)] ([QFin 0; QFin 0], [0; 0; 2]) = Ok ([QFin 0; QFin 0], [0; 3; 2]).
Proof. split; [reflexivity|split; reflexivity]. Qed.
Example ex_nonneg : nonneg_vectors 2 ex_vecs.
Proof. intros w [<-|[<-|[<-|[]]]]; (split; [reflexivity|]); intros x [<-|[<-|[]]]; discriminate. Qed.
