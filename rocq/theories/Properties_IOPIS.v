(** C56 (ideal point of an IOPIS problem), C83 (stored fitness after preferences), C84 (the IOPIS algorithms). *)
From Verif Require Import Base M_IOPIS.
From Coq Require Import QArith Qminmax.
Open Scope nat_scope.

(** ** Specification vocabulary *)
Definition width {P} (m : nat) (s : iprob P) : Prop :=
  length (ip_mult s) = m /\ length (ip_ideal s) = m /\ (forall x, In x (ip_mult s) -> x == 1 \/ x == -(1))%Q.
(** At least as good in an objective to be minimised (sign 1) or maximised (sign -1). *)
Definition at_least_as_good (sign a b : Q) : Prop := ((sign == 1 -> a <= b) /\ (sign == -(1) -> b <= a))%Q.
(** The arrays of an operation have the right shape. *)
Definition shaped {P} (m k : nat) (o : op P) : Prop :=
  match o with
  | OpUpdate objs fits => (forall r, In r objs -> length r = m) /\ (forall r, In r fits -> length r = k)
  | OpReeval objs => forall r, In r objs -> length r = m
  | _ => True
  end.

(** ** Lemmas *)
Lemma zipq_nth {A B C} (f : A -> B -> C) : forall l l' i x y, nth_error l i = Some x -> nth_error l' i = Some y -> nth_error (zipq f l l') i = Some (f x y).
Proof. induction l as [|a l IH]; intros [|b l'] [|i] x y H1 H2; simpl in *; try discriminate; [injection H1 as ->; injection H2 as ->; auto|auto]. Qed.
Lemma zipq_length {A B C} (f : A -> B -> C) : forall l l', length l = length l' -> length (zipq f l l') = length l.
Proof. induction l as [|a l IH]; intros [|b l'] H; simpl in *; try discriminate; auto. Qed.
Lemma nth_some {A} (l : list A) i m : length l = m -> i < m -> exists x, nth_error l i = Some x.
Proof. intros L H. destruct (nth_error l i) eqn:E; eauto. apply nth_error_None in E. lia. Qed.

Lemma amin_spec m i rows : forall first x, length first = m -> (forall r, In r rows -> length r = m) -> nth_error first i = Some x ->
  exists y, nth_error (amin_rows first rows) i = Some y /\ (y <= x)%Q /\ (forall r z, In r rows -> nth_error r i = Some z -> (y <= z)%Q) /\
    ((y == x)%Q \/ exists r z, In r rows /\ nth_error r i = Some z /\ (y == z)%Q).
Proof.
  induction rows as [|r rows IH]; intros first x L H Hx; cbn [amin_rows fold_left].
  - exists x. split; auto. split; [apply Qle_refl|]. split; [intros r z []|left; reflexivity].
  - assert (Li : i < m) by (rewrite <- L; apply nth_error_Some; congruence).
    destruct (nth_some r i m (H r (or_introl eq_refl)) Li) as (z & Hz).
    destruct (IH (qminv first r) (Qmin x z)) as (y & Hy & Y1 & Y2 & Y3).
    { unfold qminv. rewrite zipq_length; auto. rewrite L. symmetry. apply H; left; auto. }
    { intros r' Hr. apply H; right; auto. }
    { unfold qminv. apply zipq_nth; auto. }
    exists y. split; auto. split; [eapply Qle_trans; [exact Y1|apply Q.le_min_l]|]. split.
    + intros r' z' [<-|Hr] Hz'; [|apply (Y2 r' z'); auto]. rewrite Hz in Hz'. injection Hz' as <-. eapply Qle_trans; [exact Y1|apply Q.le_min_r].
    + destruct Y3 as [Y3|(r' & z' & Hr' & Hz' & E)].
      * destruct (Q.min_spec x z) as [(_ & E)|(_ & E)]; rewrite E in Y3; [left; auto|right]. exists r, z. split; [left; auto|auto].
      * right. exists r', z'. split; [right; auto|auto].
Qed.
Lemma amin_length m rows : forall first, length first = m -> (forall r, In r rows -> length r = m) -> length (amin_rows first rows) = m.
Proof.
  induction rows as [|r rows IH]; intros first L H; cbn [amin_rows fold_left]; auto. apply IH.
  - unfold qminv. rewrite zipq_length; auto. rewrite L. symmetry. apply H; left; auto.
  - intros r' Hr. apply H; right; auto.
Qed.
Lemma sign_sq s : (s == 1 \/ s == -(1))%Q -> (s * s == 1)%Q.
Proof. intros [E|E]; rewrite E; reflexivity. Qed.

Section S.
Context {P : Type} (pis : list Q -> list Q -> P -> list Q -> list Q).

(** One update. *)
Lemma update_ideal_spec m (s : iprob P) objs fits j a sg : width m s -> (forall r, In r objs -> length r = m) ->
  nth_error (ip_ideal s) j = Some a -> nth_error (ip_mult s) j = Some sg ->
  exists b, nth_error (ip_ideal (update_ideal s objs fits)) j = Some b /\ at_least_as_good sg b a /\
    (forall r z, In r objs -> nth_error r j = Some z -> at_least_as_good sg b z) /\
    ((b == a)%Q \/ exists r z, In r objs /\ nth_error r j = Some z /\ (b == z)%Q).
Proof.
  intros (W1 & W2 & W3) Ho Ha Hs. assert (Sg : (sg == 1 \/ sg == -(1))%Q) by (apply W3; eapply nth_error_In; eauto).
  destruct (amin_spec m j (map (fun o => qmulv o (ip_mult s)) objs) (qmulv (ip_ideal s) (ip_mult s)) (a * sg)) as (y & Hy & Y1 & Y2 & Y3).
  { unfold qmulv. rewrite zipq_length; congruence. }
  { intros r Hr. apply in_map_iff in Hr. destruct Hr as (o & <- & Hr). unfold qmulv. rewrite zipq_length; [auto|rewrite W1; auto]. }
  { unfold qmulv. apply zipq_nth; auto. }
  exists (y * sg)%Q. cbn [update_ideal ip_ideal]. split; [unfold qmulv; apply zipq_nth; auto|].
  assert (G : forall z, (y <= z * sg)%Q -> at_least_as_good sg (y * sg) z).
  { intros z Hz. split; intros E.
    - rewrite E in *. rewrite Qmult_1_r in *. auto.
    - rewrite E in *. apply Qopp_le_compat in Hz. setoid_replace (- (z * - (1)))%Q with z in Hz by ring. setoid_replace (y * - (1))%Q with (- y)%Q by ring. auto. }
  split; [apply G; auto|]. split.
  - intros r z Hr Hz. apply G. apply (Y2 (qmulv r (ip_mult s))); [apply in_map_iff; eauto|unfold qmulv; apply zipq_nth; auto].
  - destruct Y3 as [Y3|(r & z & Hr & Hz & E)].
    + left. rewrite Y3. rewrite <- Qmult_assoc, sign_sq by auto. ring.
    + right. apply in_map_iff in Hr. destruct Hr as (o & <- & Hr). assert (Lj : j < m) by (rewrite <- W2; apply nth_error_Some; congruence).
      destruct (nth_some o j m (Ho o Hr) Lj) as (w & Hw). exists o, w. split; auto. split; auto.
      unfold qmulv in Hz. rewrite (zipq_nth _ _ _ _ _ _ Hw Hs) in Hz. injection Hz as <-. rewrite E. rewrite <- Qmult_assoc, sign_sq by auto. ring.
Qed.
Lemma width_update m (s : iprob P) objs fits : width m s -> (forall r, In r objs -> length r = m) -> width m (update_ideal s objs fits).
Proof.
  intros (W1 & W2 & W3) Ho. split; [auto|]. split; [|auto]. cbn [update_ideal ip_ideal].
  assert (L : length (amin_rows (qmulv (ip_ideal s) (ip_mult s)) (map (fun o => qmulv o (ip_mult s)) objs)) = m).
  { apply amin_length. { unfold qmulv. rewrite zipq_length; congruence. }
    intros r Hr. apply in_map_iff in Hr. destruct Hr as (o & <- & Hr). unfold qmulv. rewrite zipq_length; [auto|rewrite W1; auto]. }
  unfold qmulv at 1. rewrite zipq_length; congruence.
Qed.

Lemma good_refl sg a : at_least_as_good sg a a. Proof. split; intros _; apply Qle_refl. Qed.
Lemma good_trans sg a b c : at_least_as_good sg a b -> at_least_as_good sg b c -> at_least_as_good sg a c.
Proof. intros (A1 & A2) (B1 & B2). split; intros E; eapply Qle_trans; eauto. Qed.

Lemma step_spec m k s o j a sg : width m s -> shaped m k o -> nth_error (ip_ideal s) j = Some a -> nth_error (ip_mult s) j = Some sg ->
  width m (apply_op pis s o) /\ ip_mult (apply_op pis s o) = ip_mult s /\ ip_nadir (apply_op pis s o) = ip_nadir s /\
  exists b, nth_error (ip_ideal (apply_op pis s o)) j = Some b /\ at_least_as_good sg b a.
Proof.
  intros W H Ha Hs. destruct o as [objs fits|objs|p|t rt i n p]; cbn [apply_op shaped] in *.
  - destruct H as (H1 & _). destruct (update_ideal_spec m s objs fits j a sg W H1 Ha Hs) as (b & Hb & Gb & _). split; [apply width_update; auto|]. split; auto. split; auto. eauto.
  - unfold reevaluate_fitness. cbn [fst]. set (s1 := mkIP _ _ _ _ _ _ _ _).
    assert (W1 : width m s1) by exact W. destruct (update_ideal_spec m s1 objs (evaluate_fitness pis s objs) j a sg W1 H Ha Hs) as (b & Hb & Gb & _).
    split; [apply width_update; auto|]. split; auto. split; auto. eauto.
  - split; auto. split; auto. split; auto. exists a. split; auto. apply good_refl.
  - assert (X : ip_ideal (fst (manage_preferences t rt s i n p)) = ip_ideal s /\ ip_mult (fst (manage_preferences t rt s i n p)) = ip_mult s /\ ip_nadir (fst (manage_preferences t rt s i n p)) = ip_nadir s)
      by (unfold manage_preferences; destruct t, rt; auto).
    destruct X as (X1 & X2 & X3). split; [unfold width; rewrite X1, X2; exact W|]. split; auto. split; auto. exists a. rewrite X1. split; auto. apply good_refl.
Qed.

(** C56. Over any history of evaluations, re-evaluations and preferences, no component of the ideal point ever becomes worse in its own sense. *)
Theorem C56_ideal_never_worsens : forall m k ops s j a sg, width m s -> (forall o, In o ops -> shaped m k o) ->
  nth_error (ip_ideal s) j = Some a -> nth_error (ip_mult s) j = Some sg ->
  exists b, nth_error (ip_ideal (fold_left (apply_op pis) ops s)) j = Some b /\ at_least_as_good sg b a.
Proof.
  intros m k ops. induction ops as [|o ops IH]; intros s j a sg W H Ha Hs; cbn [fold_left].
  - exists a. split; auto. apply good_refl.
  - destruct (step_spec m k s o j a sg W (H o (or_introl eq_refl)) Ha Hs) as (W' & E1 & _ & b & Hb & Gb).
    destruct (IH (apply_op pis s o) j b sg W') as (c & Hc & Gc); auto.
    { intros o' Ho. apply H; right; auto. } { rewrite E1; auto. }
    exists c. split; auto. eapply good_trans; eauto.
Qed.
(** C56. It is at least as good as every objective vector given to an evaluation or re-evaluation in the history, and each of its components is one of
    those values or of the initial ideal's: nothing better is invented. *)
Definition seen (o : op P) : list (list Q) := match o with OpUpdate objs _ => objs | OpReeval objs => objs | _ => [] end.
Theorem C56_ideal_is_best_seen : forall m k ops s j a sg, width m s -> (forall o, In o ops -> shaped m k o) ->
  nth_error (ip_ideal s) j = Some a -> nth_error (ip_mult s) j = Some sg ->
  exists b, nth_error (ip_ideal (fold_left (apply_op pis) ops s)) j = Some b /\ at_least_as_good sg b a /\
    (forall o r z, In o ops -> In r (seen o) -> nth_error r j = Some z -> at_least_as_good sg b z) /\
    ((b == a)%Q \/ exists o r z, In o ops /\ In r (seen o) /\ nth_error r j = Some z /\ (b == z)%Q).
Proof.
  intros m k ops. induction ops as [|o ops IH]; intros s j a sg W H Ha Hs; cbn [fold_left].
  - exists a. split; auto. split; [apply good_refl|]. split; [intros o r z []|left; reflexivity].
  - assert (St : width m (apply_op pis s o) /\ ip_mult (apply_op pis s o) = ip_mult s /\ exists b, nth_error (ip_ideal (apply_op pis s o)) j = Some b /\ at_least_as_good sg b a /\
       (forall r z, In r (seen o) -> nth_error r j = Some z -> at_least_as_good sg b z) /\ ((b == a)%Q \/ exists r z, In r (seen o) /\ nth_error r j = Some z /\ (b == z)%Q)).
    { pose proof (H o (or_introl eq_refl)) as Ho. destruct (step_spec m k s o j a sg W Ho Ha Hs) as (W' & E1 & _ & _). split; auto. split; auto.
      destruct o as [objs fits|objs|p|t rt i n p]; cbn [seen shaped] in *.
      - destruct Ho as (H1 & _). apply (update_ideal_spec m s objs fits j a sg W H1 Ha Hs).
      - cbn [apply_op]. unfold reevaluate_fitness. cbn [fst]. apply (update_ideal_spec m); auto.
      - exists a. split; auto. split; [apply good_refl|]. split; [intros r z []|left; reflexivity].
      - exists a. assert (X : ip_ideal (apply_op pis s (OpManage t rt i n p)) = ip_ideal s) by (cbn [apply_op]; unfold manage_preferences; destruct t, rt; auto).
        rewrite X. split; auto. split; [apply good_refl|]. split; [intros r z []|left; reflexivity]. }
    destruct St as (W' & E1 & b & Hb & Gb & Sb & Ab).
    destruct (IH (apply_op pis s o) j b sg W') as (c & Hc & Gc & Sc & Ac); auto.
    { intros o' Ho. apply H; right; auto. } { rewrite E1; auto. }
    exists c. split; auto. split; [eapply good_trans; eauto|]. split.
    + intros o' r z [<-|Ho] Hr Hz; [eapply good_trans; eauto|eauto].
    + destruct Ac as [Ac|(o' & r & z & Ho & Hr & Hz & E)]; [|right; exists o', r, z; split; [right; auto|auto]].
      destruct Ab as [Ab|(r & z & Hr & Hz & E)]; [left; rewrite Ac; auto|]. right. exists o, r, z. split; [left; auto|]. split; auto. split; auto. rewrite Ac; auto.
Qed.
(** The nadir point is never changed. *)
Theorem C56_nadir_fixed : forall ops s, ip_nadir (fold_left (apply_op pis) ops s) = ip_nadir s.
Proof.
  induction ops as [|o ops IH]; intros s; cbn [fold_left]; auto. rewrite IH. destruct o as [| | |t rt i n p]; auto. cbn [apply_op]. unfold manage_preferences. destruct t, rt; auto.
Qed.
Lemma mult_fixed : forall ops s, ip_mult (fold_left (apply_op pis) ops s) = ip_mult s.
Proof.
  induction ops as [|o ops IH]; intros s; cbn [fold_left]; auto. rewrite IH. destruct o as [| | |t rt i n p]; auto. cbn [apply_op]. unfold manage_preferences. destruct t, rt; auto.
Qed.
(** C56. When the last thing that happened is an evaluation or a re-evaluation, the next fitness values are those of the preference incorporated space
    spanned by the best value seen so far of every objective and the problem's nadir, whatever points preferences had put there in between. *)
Definition evaluates (o : op P) : bool := match o with OpUpdate _ _ | OpReeval _ => true | _ => false end.
Theorem C56_map_follows_ideal : forall m k ops o s, width m s -> (forall o', In o' (ops ++ [o]) -> shaped m k o') -> evaluates o = true ->
  exists utopian, let s' := fold_left (apply_op pis) (ops ++ [o]) s in
    (forall objs, evaluate_fitness pis s' objs = map (fun r => pis utopian (qmulv (ip_nadir s) (ip_mult s)) (pis_pref s') (qmulv r (ip_mult s))) objs) /\
    forall j a sg, nth_error (ip_ideal s) j = Some a -> nth_error (ip_mult s) j = Some sg ->
      exists b, nth_error utopian j = Some (b * sg)%Q /\ at_least_as_good sg b a /\
        (forall o' r z, In o' (ops ++ [o]) -> In r (seen o') -> nth_error r j = Some z -> at_least_as_good sg b z) /\
        ((b == a)%Q \/ exists o' r z, In o' (ops ++ [o]) /\ In r (seen o') /\ nth_error r j = Some z /\ (b == z)%Q).
Proof.
  intros m k ops o s W H Ev. set (s' := fold_left (apply_op pis) (ops ++ [o]) s).
  assert (X : pis_utopian s' = qmulv (ip_ideal s') (ip_mult s') /\ pis_nadir s' = qmulv (ip_nadir s') (ip_mult s')).
  { unfold s'. rewrite fold_left_app. cbn [fold_left]. generalize (fold_left (apply_op pis) ops s) as s1. intros s1. destruct o; try discriminate; split; reflexivity. }
  destruct X as [X1 X2]. assert (M : ip_mult s' = ip_mult s) by apply mult_fixed. assert (N : ip_nadir s' = ip_nadir s) by apply C56_nadir_fixed.
  rewrite M in X1, X2. rewrite N in X2.
  exists (pis_utopian s'). cbn zeta. split.
  - intros objs. unfold evaluate_fitness. apply map_ext. intros r. unfold space. rewrite X2, M. reflexivity.
  - intros j a sg Ha Hs. destruct (C56_ideal_is_best_seen m k (ops ++ [o]) s j a sg W H Ha Hs) as (b & Hb & R1 & R2 & R3).
    exists b. split; [|auto]. rewrite X1. unfold qmulv. apply zipq_nth; auto.
Qed.
(** The ideal fitness is componentwise at most the fitness of every vector just evaluated or re-evaluated. *)
Theorem C56_ideal_fitness_bounds : forall k (s : iprob P) objs fits j x, length (ip_ideal_fit s) = k -> (forall r, In r fits -> length r = k) ->
  nth_error (ip_ideal_fit s) j = Some x ->
  exists y, nth_error (ip_ideal_fit (update_ideal s objs fits)) j = Some y /\ (y <= x)%Q /\ forall r z, In r fits -> nth_error r j = Some z -> (y <= z)%Q.
Proof.
  intros k s objs fits j x L H Hx. destruct (amin_spec k j fits (ip_ideal_fit s) x L H Hx) as (y & Hy & Y1 & Y2 & _). exists y. cbn [update_ideal ip_ideal_fit]. auto.
Qed.

(** C83. Giving preferences through the EA re-evaluates the population; the stored fitness is what a fresh evaluation gives, provided the population's
    own ideal and nadir vectors coincide with the problem's (updated) ones. *)
Theorem C83_reevaluated_fitness_current_partial : forall t s pi pn p objs s' f,
  ea_preferences pis t true s pi pn p objs = (s', Ok f) ->
  qmulv pi (ip_mult s) = pis_utopian s' -> pn = ip_nadir s -> f = evaluate_fitness pis s' objs.
Proof.
  intros t s pi pn p objs s' f E Hi Hn. subst pn. unfold ea_preferences in E.
  assert (X : s' = update_ideal (mkIP (P := P) (ip_mult s) (ip_nadir s) (ip_ideal s)
      (pis (qmulv pi (ip_mult s)) (qmulv (ip_nadir s) (ip_mult s)) p (qmulv (ip_ideal s) (ip_mult s))) (ip_nadir_fit s) (qmulv pi (ip_mult s)) (qmulv (ip_nadir s) (ip_mult s)) p) objs f /\
      f = map (fun o => pis (qmulv pi (ip_mult s)) (qmulv (ip_nadir s) (ip_mult s)) p (qmulv o (ip_mult s))) objs).
  { destruct t; cbn in E; try discriminate; injection E as <- <-; split; reflexivity. }
  destruct X as (Xs & Xf).
  assert (E1 : pis_nadir s' = qmulv (ip_nadir s) (ip_mult s)) by (rewrite Xs; reflexivity).
  assert (E2 : pis_pref s' = p) by (rewrite Xs; reflexivity).
  assert (E3 : ip_mult s' = ip_mult s) by (rewrite Xs; reflexivity).
  rewrite Xf. unfold evaluate_fitness. apply map_ext. intros o. unfold space. rewrite E1, E2, E3, <- Hi. reflexivity.
Qed.
(** C83. A new problem records the fitness of its ideal and of its nadir point, each as evaluating that point gives. *)
Remark new_problem : forall mult ideal nadir p, let s := new_iprob pis mult ideal nadir p in
  evaluate_fitness pis s [ideal] = [ip_ideal_fit s] /\ evaluate_fitness pis s [nadir] = [ip_nadir_fit s] /\ ip_ideal s = ideal /\ ip_nadir s = nadir.
Proof. intros. split; [reflexivity|]. split; [reflexivity|]. split; reflexivity. Qed.
(** C83. From the moment a preference is accepted (directly, or through the algorithm, which also moves the map to the population's ideal and nadir vectors) every evaluation uses it. *)
Definition changes_preference (o : op P) : bool :=
  match o with OpPref _ => true | OpManage TypeClassification _ _ _ _ => false | OpManage _ rt _ _ _ => rt | _ => false end.
Lemma pref_kept : forall ops s, (forall o, In o ops -> changes_preference o = false) -> pis_pref (fold_left (apply_op pis) ops s) = pis_pref s.
Proof.
  induction ops as [|o ops IH]; intros s H; cbn [fold_left]; auto. rewrite IH by (intros o' Ho; apply H; right; auto).
  specialize (H o (or_introl eq_refl)). destruct o as [| |p|t rt i n p]; auto; try discriminate. cbn [apply_op changes_preference] in *. unfold manage_preferences. destruct t; cbn in *; try (subst rt); auto.
Qed.
Theorem C83_preference_applied : forall s p ops objs, (forall o, In o ops -> changes_preference o = false) ->
  let s' := fold_left (apply_op pis) ops (update_preference s p) in
  evaluate_fitness pis s' objs = map (fun o => pis (pis_utopian s') (pis_nadir s') p (qmulv o (ip_mult s))) objs.
Proof.
  intros s p ops objs H. cbn zeta. unfold evaluate_fitness. apply map_ext. intros r. unfold space. rewrite pref_kept, mult_fixed by auto. reflexivity.
Qed.
Theorem C83_preference_applied_by_algorithm : forall t s pi pn p objs s', manage_preferences t true s pi pn p = (s', Ok tt) ->
  evaluate_fitness pis s' objs = map (fun o => pis (qmulv pi (ip_mult s)) (qmulv pn (ip_mult s)) p (qmulv o (ip_mult s))) objs.
Proof. intros t s pi pn p objs s' E. destruct t; cbn in E; try discriminate; injection E as <-; reflexivity. Qed.
End S.
(** Otherwise it need not be: with the map "distance from the utopian point", a population whose recorded ideal is worse than the problem's
    is left with fitness values that no evaluation of the same solutions gives. *)
Definition demo_pis (u n : list Q) (_ : unit) (o : list Q) : list Q := zipq Qminus o u.
Theorem C83_stale_fitness_refuted : exists s pi pn objs s' f,
  width 2 s /\ ea_preferences demo_pis TypeIOPIS true s pi pn tt objs = (s', Ok f) /\ f <> evaluate_fitness demo_pis s' objs.
Proof.
  exists (new_iprob demo_pis [1; 1]%Q [0; 0]%Q [9; 9]%Q tt), [1; 1]%Q, [9; 9]%Q, [[3; 4]%Q].
  eexists; eexists. split; [split; [reflexivity|]; split; [reflexivity|]; intros x [<-|[<-|[]]]; left; reflexivity|]. split; [reflexivity|]. vm_compute. discriminate.
Qed.

(** C84. The IOPIS algorithms fail in every iteration: the selection operators have no working adapt_RVs, which every iteration calls since the
    interaction location is not "Selection". Nor can they be started: the interaction type cannot be set. *)
Theorem C84_iopis_iterate_fails_refuted : forall manage gens, (exists r, manage = Ok r) ->
  iterate iopis_rvea manage gens = Err AttributeError /\ iterate iopis_nsga3 manage gens = Err AttributeError.
Proof. intros manage gens (r & ->). split; reflexivity. Qed.
Theorem C84_iopis_start_fails_refuted : forall n, start (Nat.iter n set_interaction_type iopis_rvea) = Err EaError /\ start (Nat.iter n set_interaction_type iopis_nsga3) = Err EaError.
Proof.
  intros n. assert (X : Nat.iter n set_interaction_type iopis_rvea = iopis_rvea /\ Nat.iter n set_interaction_type iopis_nsga3 = iopis_nsga3).
  { induction n as [|n (I1 & I2)]; [auto|]. simpl. rewrite I1, I2. auto. }
  destruct X as (-> & ->). split; reflexivity.
Qed.
(** The plain algorithms do not have this problem. *)
Theorem C84_plain_iterates_partial : forall e manage gens, In (ea_op e) [C_APD_Select; C_NSGAIII_select] -> iterate e manage gens = bind manage (fun _ => gens).
Proof.
  intros [o i l b] manage gens H. cbn [ea_op] in H. unfold iterate. destruct manage; cbn [bind]; auto.
  assert (E : pre_iteration (mkEA o i l b) = Ok tt) by (destruct H as [<-|[<-|[]]]; destruct i; destruct l as [[]|]; reflexivity).
  rewrite E. reflexivity.
Qed.

(** C84. When an algorithm's iteration passes its preparation: the selection operator can adapt its vectors, or is never asked to (interactive, with the
    selection operator as the place of interaction); the outcome is then the generations'. *)
Definition adaptable (c : cls) : Prop := c = C_APD_Select \/ c = C_NSGAIII_select.
Theorem C84_iteration_prepared : forall (e : ea) (manage gens : res unit), In (ea_op e) [C_APD_Select; C_NSGAIII_select; C_IOPIS_APD; C_IOPIS_NSGAIII] -> manage = Ok tt ->
  (adaptable (ea_op e) \/ (ea_interact e = true /\ ea_loc e = Some LocSelection) -> iterate e manage gens = gens) /\
  (~ adaptable (ea_op e) -> ea_interact e = false \/ ea_loc e <> Some LocSelection -> iterate e manage gens = Err AttributeError).
Proof.
  intros [o i l b] manage gens H ->. cbn [ea_op ea_interact ea_loc] in *. unfold iterate, pre_iteration. cbn [bind ea_op ea_interact ea_loc]. split.
  - intros [[-> | ->]|(-> & ->)]; [destruct i; destruct l as [[]|]; reflexivity|destruct i; destruct l as [[]|]; reflexivity|]. cbn. destruct gens; reflexivity.
  - intros Na C. unfold adaptable in Na. destruct H as [<-|[<-|[<-|[<-|[]]]]]; try (exfalso; apply Na; tauto);
      (destruct i; [destruct C as [C|C]; [discriminate|]; destruct l as [[]|]; try reflexivity; exfalso; apply C; reflexivity|reflexivity]).
Qed.
(** C84. Setting an interaction type counts unless the place of interaction is the algorithm itself or none; starting needs it exactly when interactive. *)
Theorem C84_interaction_type_set : forall e, ea_op (set_interaction_type e) = ea_op e /\ ea_interact (set_interaction_type e) = ea_interact e /\
  ea_loc (set_interaction_type e) = ea_loc e /\
  (ea_set (set_interaction_type e) = true <-> (exists l, ea_loc e = Some l /\ l <> LocEA) \/ (ea_loc e = None /\ ea_set e = true)).
Proof.
  intros [o i l b]. unfold set_interaction_type. cbn [ea_op ea_interact ea_loc ea_set].
  destruct l as [[]|]; cbn [ea_op ea_interact ea_loc ea_set]; (split; [auto|]; split; [auto|]; split; [auto|]); split; try discriminate; auto;
    try (intros _; left; eexists; split; [reflexivity|discriminate]);
    intros [(l & E & N)|(E & Hb)]; try discriminate; auto. injection E as <-. congruence.
Qed.
Theorem C84_start_needs_type : forall e, start e = Ok tt <-> (ea_interact e = true -> ea_set e = true).
Proof. intros [o i l b]. unfold start. cbn [ea_interact ea_set]. destruct i, b; cbn; split; try discriminate; auto. intros H. specialize (H eq_refl). discriminate. Qed.

Print Assumptions C84_iteration_prepared.
Print Assumptions C56_ideal_is_best_seen.
Print Assumptions C56_nadir_fixed.
Print Assumptions C83_reevaluated_fitness_current_partial.
Print Assumptions C84_iopis_iterate_fails_refuted.

(** A maximised second objective: the ideal moves up there and down in the first. *)
Example ex_history :
  let s := new_iprob demo_pis [1; -(1)]%Q [5; 5]%Q [9; 0]%Q tt in
  width 2 s /\ map Qred (ip_ideal (fold_left (apply_op demo_pis) [OpUpdate [[4; 6]; [7; 2]]%Q []; OpPref tt; OpReeval [[6; 8]%Q]] s)) = [4; 8]%Q.
Proof. cbv zeta. split; [split; [reflexivity|]; split; [reflexivity|]; intros x [<-|[<-|[]]]; [left|right]; reflexivity|]. vm_compute. reflexivity. Qed.
Print Assumptions C56_map_follows_ideal.
Print Assumptions C83_preference_applied.
