(** C121 for MOEA/D (whole runs) and the indicator based algorithms. *)
From Verif Require Import Base RVec M_MOEAD P_MOEAD Properties_MOEAD M_MoeadRun M_Indicator.
From Coq Require Import QArith Reals Lra Lia.
Open Scope nat_scope.

(** [v'] is [v] with c.(j) added to component j. *)
Inductive moved_by : list Q -> list Q -> list Q -> Prop :=
| mb_nil : moved_by [] [] []
| mb_cons : forall k c x v y v', (y == x + k)%Q -> moved_by c v v' -> moved_by (k :: c) (x :: v) (y :: v').

Section Moead.
Context (argsort : list Q -> list nat) {M : Type} (fitness fitness' : M -> list Q) (SF : list Q -> list Q -> list Q -> Q) (c : list Q).
Context (pick : nat -> nat -> nat -> nat * nat) (offspring : nat -> nat -> M -> M -> list M -> M) (new_ideal new_ideal' : list Q -> M -> list Q).
(** The same solutions, every objective with a constant added. *)
Hypothesis fit_moved : forall m, moved_by c (fitness m) (fitness' m).
Hypothesis ideal_moved : forall z z' m, moved_by c z z' -> moved_by c (new_ideal z m) (new_ideal' z' m).
(** The scalarising function depends on the distance from the ideal point only (Tchebycheff, PBI, weighted sum of distances). *)
Hypothesis SF_relative : forall f f' w z z', moved_by c f f' -> moved_by c z z' -> (SF f' w z' == SF f w z)%Q.

Lemma outperformed_moved z z' off off' : moved_by c z z' -> moved_by c off off' -> forall nb cur cur' ws, Forall2 (moved_by c) cur cur' -> outperformed SF nb cur' ws off' z' = outperformed SF nb cur ws off z.
Proof.
  intros Hz Ho. induction nb as [|j nb IH]; intros cur cur' ws H; destruct H as [|f f' cur cur' Hf H]; cbn [outperformed]; try reflexivity. destruct ws as [|w ws]; [reflexivity|].
  rewrite (IH cur cur' ws H). assert (E : Qle_bool (SF f' (fix_weights w) z') (SF off' (fix_weights w) z') = Qle_bool (SF f (fix_weights w) z) (SF off (fix_weights w) z)).
  { pose proof (SF_relative f f' (fix_weights w) z z' Hf Hz) as E1. pose proof (SF_relative off off' (fix_weights w) z z' Ho Hz) as E2.
    destruct (Qle_bool (SF f (fix_weights w) z) (SF off (fix_weights w) z)) eqn:B.
    - apply Qle_bool_iff in B. apply Qle_bool_iff. rewrite E1, E2. exact B.
    - destruct (Qle_bool (SF f' (fix_weights w) z') (SF off' (fix_weights w) z')) eqn:B'; [|reflexivity]. apply Qle_bool_iff in B'. rewrite E1, E2 in B'. apply Qle_bool_iff in B'. congruence. }
  rewrite E. reflexivity.
Qed.
Lemma take_moved nb : forall l, match take_all (map fitness l) nb, take_all (map fitness' l) nb with Ok a, Ok b => Forall2 (moved_by c) a b | Err e, Err e' => e = e' | _, _ => False end.
Proof.
  induction nb as [|j nb IH]; intros l; cbn [take_all]; [constructor|]. rewrite !nth_error_map. destruct (nth_error l j) as [m|]; cbn [option_map]; [|reflexivity]. specialize (IH l).
  destruct (take_all (map fitness l) nb), (take_all (map fitness' l) nb); cbn [bind]; try tauto. constructor; auto.
Qed.
Lemma subproblem_moved g i o z z' (pop : list M) : moved_by c z z' ->
  match subproblem fitness SF (mo_planar o) (mo_nbs o) (pick g) (offspring g) new_ideal i (z, pop), subproblem fitness' SF (mo_planar o) (mo_nbs o) (pick g) (offspring g) new_ideal' i (z', pop) with
  | Ok r, Ok r' => moved_by c (fst r) (fst r') /\ snd r' = snd r
  | Err e, Err e' => e' = e
  | _, _ => False
  end.
Proof.
  intros Hz. unfold subproblem. destruct (choose_parents _ _ _) as [[a b]|e]; cbn [bind fst snd]; [|reflexivity]. destruct (nth_error pop a) as [x|]; [|reflexivity]. destruct (nth_error pop b) as [y|]; [|reflexivity].
  set (off := offspring g i x y pop). pose proof (ideal_moved z z' off Hz) as Hz'. set (pop1 := pop ++ [off]).
  assert (D : moead_do fitness' SF (mo_planar o) (mo_nbs o) (new_ideal' z' off) pop1 i = moead_do fitness SF (mo_planar o) (mo_nbs o) (new_ideal z off) pop1 i).
  { unfold moead_do. destruct (nth_error (mo_nbs o) i) as [nb|]; [|reflexivity]. pose proof (take_moved nb pop1) as T. destruct (take_all (map fitness pop1) nb) as [u|e], (take_all (map fitness' pop1) nb) as [u'|e']; cbn [bind] in *; try tauto; [|congruence].
    destruct (rev pop1) as [|l r]; [reflexivity|]. destruct (take_all (mo_planar o) nb) as [ws|e]; cbn [bind]; [|reflexivity]. f_equal. apply outperformed_moved; auto. }
  rewrite D. clear D. destruct (moead_do fitness SF (mo_planar o) (mo_nbs o) (new_ideal z off) pop1 i) as [sel|e]; cbn [bind]; [|reflexivity]. cbn [fst snd]. auto.
Qed.
Definition moved_run (s s' : mrun M) : Prop := mr_op s' = mr_op s /\ mr_pop s' = mr_pop s /\ mr_gens s' = mr_gens s /\ mr_tried s' = mr_tried s /\ moved_by c (mr_ideal s) (mr_ideal s').
Definition moved_res (r r' : res (mrun M)) : Prop := match r, r' with Ok s, Ok s' => moved_run s s' | Err e, Err e' => e' = e | _, _ => False end.
Lemma subs_moved is : forall s s', moved_run s s' -> moved_res (mr_subproblems fitness SF pick offspring new_ideal is s) (mr_subproblems fitness' SF pick offspring new_ideal' is s').
Proof.
  induction is as [|i is IH]; intros s s' (H1 & H2 & H3 & H4 & H5); cbn [mr_subproblems]; [cbn [moved_res]; unfold moved_run; auto|]. rewrite H1, H2, H3.
  pose proof (subproblem_moved (mr_gens s) i (mr_op s) (mr_ideal s) (mr_ideal s') (mr_pop s) H5) as P.
  destruct (subproblem fitness _ _ _ _ _ _ _ _) as [r|e], (subproblem fitness' _ _ _ _ _ _ _ _) as [r'|e']; cbn [bind]; [|destruct P|destruct P|exact P]. destruct P as [P1 P2]. apply IH. rewrite P2, H4. unfold moved_run. cbn [mr_op mr_pop mr_gens mr_tried mr_ideal]. auto.
Qed.
Lemma gens_moved ps k : forall s s', moved_run s s' -> moved_res (mr_gens_loop fitness SF pick offspring new_ideal ps k s) (mr_gens_loop fitness' SF pick offspring new_ideal' ps k s').
Proof.
  induction k as [|k IH]; intros s s' H; cbn [mr_gens_loop]; [auto|]. unfold mr_gen. pose proof (subs_moved (seq 0 ps) s s' H) as P.
  destruct (mr_subproblems fitness _ _ _ _ _ _) as [t|e], (mr_subproblems fitness' _ _ _ _ _ _) as [t'|e']; cbn [bind moved_res] in *; try tauto. apply IH. destruct P as (P1 & P2 & P3 & P4 & P5). unfold moved_run. cbn [mr_op mr_pop mr_gens mr_tried mr_ideal]. rewrite P3. auto.
Qed.
(** C121. A whole run of MOEA/D, interactive or not: the same population, the same solutions tried, the same exception if any; the ideal point moves along. *)
Theorem C121_moead_origin : forall interact pop_size its s s', moved_run s s' ->
  match mr_run argsort fitness SF pick offspring new_ideal interact pop_size its s, mr_run argsort fitness' SF pick offspring new_ideal' interact pop_size its s' with
  | Ok t, Ok t' => mr_pop t' = mr_pop t /\ mr_tried t' = mr_tried t /\ moved_by c (mr_ideal t) (mr_ideal t')
  | Err e, Err e' => e' = e
  | _, _ => False
  end.
Proof.
  intros interact ps its. assert (X : forall s s', moved_run s s' -> moved_res (mr_run argsort fitness SF pick offspring new_ideal interact ps its s) (mr_run argsort fitness' SF pick offspring new_ideal' interact ps its s')).
  { induction its as [|[a k] its IH]; intros s s' H; cbn [mr_run]; [auto|]. unfold mr_iterate. destruct H as (H1 & H2 & H3 & H4 & H5). rewrite H1.
    destruct (if interact then match a with Some a => mop_answer a (mr_op s) | None => Ok (mop_adapt argsort (mr_op s)) end else Ok (mop_adapt argsort (mop_adapt argsort (mr_op s)))) as [o|e]; cbn [bind]; [|reflexivity].
    pose proof (gens_moved ps k (mkMRun o (mr_ideal s) (mr_pop s) (mr_gens s) (mr_tried s)) (mkMRun o (mr_ideal s') (mr_pop s') (mr_gens s') (mr_tried s'))) as P.
    assert (Q0 : moved_run (mkMRun o (mr_ideal s) (mr_pop s) (mr_gens s) (mr_tried s)) (mkMRun o (mr_ideal s') (mr_pop s') (mr_gens s') (mr_tried s'))) by (unfold moved_run; cbn [mr_op mr_pop mr_gens mr_tried mr_ideal]; auto).
    specialize (P Q0). destruct (mr_gens_loop fitness _ _ _ _ _ _ _) as [t|e], (mr_gens_loop fitness' _ _ _ _ _ _ _) as [t'|e']; cbn [bind moved_res] in *; try tauto. apply IH; auto. }
  intros s s' H. specialize (X s s' H). destruct (mr_run argsort fitness _ _ _ _ _ _ _ _) as [t|e], (mr_run argsort fitness' _ _ _ _ _ _ _ _) as [t'|e']; cbn [moved_res] in X; try tauto. destruct X as (X1 & X2 & X3 & X4 & X5). auto.
Qed.
End Moead.

(** ** IBEA *)
Section Ibea.
Open Scope R_scope.
(** The additive epsilon indicator of two objective vectors: the largest difference. *)
Definition eps_indicator (a b : list R) : R := match map (fun p => fst p - snd p) (combine a b) with [] => 0 | x :: t => fold_left Rmax t x end.
Context {M : Type} (objs : M -> list R) (kappa : R) (c : list R).
Definition plus_c (m : M) : list R := vadd (objs m) c.
Hypothesis shape : forall m, length (objs m) = length c.
Lemma eps_moved a b : eps_indicator (plus_c a) (plus_c b) = eps_indicator (objs a) (objs b).
Proof.
  unfold eps_indicator. assert (E : map (fun p => fst p - snd p) (combine (plus_c a) (plus_c b)) = map (fun p => fst p - snd p) (combine (objs a) (objs b))); [|rewrite E; reflexivity].
  pose proof (shape a) as La. pose proof (shape b) as Lb. unfold plus_c. revert La Lb. generalize (objs a) (objs b). clear. unfold vadd. generalize c. intros cc. induction cc as [|k cc IH]; intros [|x u] [|y v] La Lb; cbn [length vmap2 combine map] in *; try discriminate; [reflexivity|].
  injection La as La. injection Lb as Lb. rewrite (IH u v La Lb). f_equal. cbn [fst snd]. lra.
Qed.
Lemma ext_gen (i i' : M -> M -> R) mate ts ps draws pop : (forall a b, i' a b = i a b) -> ind_next_gen i' kappa mate ts ps draws pop = ind_next_gen i kappa mate ts ps draws pop.
Proof.
  intros E. unfold ind_next_gen.
  assert (A : fitness_assignment i' kappa pop = fitness_assignment i kappa pop).
  { unfold fitness_assignment. apply map_ext. intros p. unfold assign_one. generalize 0. induction (combine (seq 0 (length pop)) pop) as [|q l IH]; intros acc; cbn [fold_left]; [reflexivity|]. rewrite E. apply IH. }
  assert (L : forall n pop fit, env_loop i' kappa n ps pop fit = env_loop i kappa n ps pop fit).
  { clear - E. induction n as [|n IH]; intros pop fit; cbn [env_loop]; [reflexivity|]. destruct (Nat.ltb ps (length pop)); [|reflexivity]. destruct (argmin fit) as [w|]; [|reflexivity]. destruct (nth_error pop w) as [m|]; [|reflexivity].
    rewrite IH. f_equal. f_equal. unfold env_update. apply map_ext. intros p. rewrite E. reflexivity. }
  rewrite A, L. reflexivity.
Qed.
(** C121. A generation of IBEA with the epsilon indicator: the same survivors, parents and offspring. *)
Theorem C121_ibea_origin : forall mate tournament_size pop_size draws pop,
  ind_next_gen (fun a b => eps_indicator (plus_c a) (plus_c b)) kappa mate tournament_size pop_size draws pop =
  ind_next_gen (fun a b => eps_indicator (objs a) (objs b)) kappa mate tournament_size pop_size draws pop.
Proof. intros. apply ext_gen. intros a b. apply eps_moved. Qed.
End Ibea.

Print Assumptions C121_moead_origin.
Print Assumptions C121_ibea_origin.

(** Non-vacuity: the Tchebycheff function and the running minimum meet the hypotheses. *)
Example ex_tcheb : forall c f f' w z z', moved_by c f f' -> moved_by c z z' -> (tcheb f' w z' == tcheb f w z)%Q.
Proof.
  intros c f f' w z z' H. revert w z z'. induction H as [|k c x v y v' E H IH]; intros w z z' H'; inversion H'; subst; [destruct w; reflexivity|]. destruct w as [|a w]; [reflexivity|].
  unfold tcheb in *. cbn [combine fold_right]. cbn [fst snd]. match goal with Hz : moved_by c ?u ?u' |- _ => specialize (IH w u u' Hz) end. cbv zeta in *.
  match goal with |- ((if Qle_bool ?p ?q then _ else _) == (if Qle_bool ?p' ?q' then _ else _))%Q => assert (Ep : (p == p')%Q) by (match goal with Hy : (?y1 == ?x1 + k)%Q, Hy' : (?y2 == ?x2 + k)%Q |- _ => rewrite Hy, Hy' end; ring); assert (Eq : (q == q')%Q) by exact IH; destruct (Qle_bool p q) eqn:B1, (Qle_bool p' q') eqn:B2 end; auto.
  - exfalso. apply Qle_bool_iff in B1. rewrite Ep, Eq in B1. apply Qle_bool_iff in B1. congruence.
  - exfalso. apply Qle_bool_iff in B2. rewrite <- Ep, <- Eq in B2. apply Qle_bool_iff in B2. congruence.
Qed.
Example ex_vmin2 : forall c z z' m m', moved_by c z z' -> moved_by c m m' -> moved_by c (vmin2 z m) (vmin2 z' m').
Proof.
  intros c z z' m m' H. revert m m'. induction H as [|k c x v y v' E H IH]; intros m m' H'; inversion H'; subst; [constructor|]. unfold vmin2 in *. cbn [combine map fst snd]. constructor; [|apply IH; auto].
  match goal with Hy : (?b == ?a + k)%Q |- ((if Qle_bool y ?b then y else ?b) == _)%Q => rename Hy into E2; destruct (Qle_bool y b) eqn:B1, (Qle_bool x a) eqn:B2; auto; exfalso end.
  - apply Qle_bool_iff in B1. rewrite E, E2 in B1. apply Qplus_le_l in B1. apply Qle_bool_iff in B1. congruence.
  - apply Qle_bool_iff in B2. apply (Qplus_le_l _ _ k) in B2. rewrite <- E, <- E2 in B2. apply Qle_bool_iff in B2. congruence.
Qed.
