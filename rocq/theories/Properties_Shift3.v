(** C121, units: a common unit of the objectives changes nothing in a run of MOEA/D; in a generation of IBEA it does, unless kappa is expressed in the same unit. *)
From Verif Require Import Base RVec M_MOEAD P_MOEAD Properties_MOEAD M_MoeadRun M_Indicator Properties_Shift2.
From Coq Require Import QArith Reals Lra Lia.
Open Scope nat_scope.

(** [v'] is [v] with every component multiplied by [a]. *)
Inductive scaled_by (a : Q) : list Q -> list Q -> Prop :=
| sb_nil : scaled_by a [] []
| sb_cons : forall x v y v', (y == a * x)%Q -> scaled_by a v v' -> scaled_by a (x :: v) (y :: v').

Section MoeadUnit.
Context (argsort : list Q -> list nat) {M : Type} (fitness fitness' : M -> list Q) (SF : list Q -> list Q -> list Q -> Q) (a : Q).
Context (pick : nat -> nat -> nat -> nat * nat) (offspring : nat -> nat -> M -> M -> list M -> M) (new_ideal new_ideal' : list Q -> M -> list Q).
(** The same solutions, every objective multiplied by one positive factor. *)
Hypothesis a_pos : (0 < a)%Q.
Hypothesis fit_scaled : forall m, scaled_by a (fitness m) (fitness' m).
Hypothesis ideal_scaled : forall z z' m, scaled_by a z z' -> scaled_by a (new_ideal z m) (new_ideal' z' m).
(** The scalarising function is homogeneous (Tchebycheff, PBI, weighted sum). *)
Hypothesis SF_homogeneous : forall f f' w z z', scaled_by a f f' -> scaled_by a z z' -> (SF f' w z' == a * SF f w z)%Q.

Lemma outperformed_scaled z z' off off' : scaled_by a z z' -> scaled_by a off off' -> forall nb cur cur' ws, Forall2 (scaled_by a) cur cur' -> outperformed SF nb cur' ws off' z' = outperformed SF nb cur ws off z.
Proof.
  intros Hz Ho. induction nb as [|j nb IH]; intros cur cur' ws H; destruct H as [|f f' cur cur' Hf H]; cbn [outperformed]; try reflexivity. destruct ws as [|w ws]; [reflexivity|].
  rewrite (IH cur cur' ws H). assert (E : Qle_bool (SF f' (fix_weights w) z') (SF off' (fix_weights w) z') = Qle_bool (SF f (fix_weights w) z) (SF off (fix_weights w) z)).
  { pose proof (SF_homogeneous f f' (fix_weights w) z z' Hf Hz) as E1. pose proof (SF_homogeneous off off' (fix_weights w) z z' Ho Hz) as E2.
    destruct (Qle_bool (SF f (fix_weights w) z) (SF off (fix_weights w) z)) eqn:B.
    - apply Qle_bool_iff in B. apply Qle_bool_iff. rewrite E1, E2. apply Qmult_le_l; auto.
    - destruct (Qle_bool (SF f' (fix_weights w) z') (SF off' (fix_weights w) z')) eqn:B'; [|reflexivity]. apply Qle_bool_iff in B'. rewrite E1, E2 in B'. apply Qmult_le_l in B'; [|exact a_pos]. apply Qle_bool_iff in B'. congruence. }
  rewrite E. reflexivity.
Qed.
Lemma take_scaled nb : forall l, match take_all (map fitness l) nb, take_all (map fitness' l) nb with Ok u, Ok v => Forall2 (scaled_by a) u v | Err e, Err e' => e = e' | _, _ => False end.
Proof.
  induction nb as [|j nb IH]; intros l; cbn [take_all]; [constructor|]. rewrite !nth_error_map. destruct (nth_error l j) as [m|]; cbn [option_map]; [|reflexivity]. specialize (IH l).
  destruct (take_all (map fitness l) nb), (take_all (map fitness' l) nb); cbn [bind]; try tauto. constructor; auto.
Qed.
Lemma subproblem_scaled g i o z z' (pop : list M) : scaled_by a z z' ->
  match subproblem fitness SF (mo_planar o) (mo_nbs o) (pick g) (offspring g) new_ideal i (z, pop), subproblem fitness' SF (mo_planar o) (mo_nbs o) (pick g) (offspring g) new_ideal' i (z', pop) with
  | Ok r, Ok r' => scaled_by a (fst r) (fst r') /\ snd r' = snd r
  | Err e, Err e' => e' = e
  | _, _ => False
  end.
Proof.
  intros Hz. unfold subproblem. destruct (choose_parents _ _ _) as [[p q]|e]; cbn [bind fst snd]; [|reflexivity]. destruct (nth_error pop p) as [x|]; [|reflexivity]. destruct (nth_error pop q) as [y|]; [|reflexivity].
  set (off := offspring g i x y pop). pose proof (ideal_scaled z z' off Hz) as Hz'. set (pop1 := pop ++ [off]).
  assert (D : moead_do fitness' SF (mo_planar o) (mo_nbs o) (new_ideal' z' off) pop1 i = moead_do fitness SF (mo_planar o) (mo_nbs o) (new_ideal z off) pop1 i).
  { unfold moead_do. destruct (nth_error (mo_nbs o) i) as [nb|]; [|reflexivity]. pose proof (take_scaled nb pop1) as T. destruct (take_all (map fitness pop1) nb) as [u|e], (take_all (map fitness' pop1) nb) as [u'|e']; cbn [bind] in *; try tauto; [|congruence].
    destruct (rev pop1) as [|l r]; [reflexivity|]. destruct (take_all (mo_planar o) nb) as [ws|e]; cbn [bind]; [|reflexivity]. f_equal. apply outperformed_scaled; auto. }
  rewrite D. clear D. destruct (moead_do fitness SF (mo_planar o) (mo_nbs o) (new_ideal z off) pop1 i) as [sel|e]; cbn [bind]; [|reflexivity]. cbn [fst snd]. auto.
Qed.
Definition scaled_run (s s' : mrun M) : Prop := mr_op s' = mr_op s /\ mr_pop s' = mr_pop s /\ mr_gens s' = mr_gens s /\ mr_tried s' = mr_tried s /\ scaled_by a (mr_ideal s) (mr_ideal s').
Definition scaled_res (r r' : res (mrun M)) : Prop := match r, r' with Ok s, Ok s' => scaled_run s s' | Err e, Err e' => e' = e | _, _ => False end.
Lemma subs_scaled is : forall s s', scaled_run s s' -> scaled_res (mr_subproblems fitness SF pick offspring new_ideal is s) (mr_subproblems fitness' SF pick offspring new_ideal' is s').
Proof.
  induction is as [|i is IH]; intros s s' (H1 & H2 & H3 & H4 & H5); cbn [mr_subproblems]; [cbn [scaled_res]; unfold scaled_run; auto|]. rewrite H1, H2, H3.
  pose proof (subproblem_scaled (mr_gens s) i (mr_op s) (mr_ideal s) (mr_ideal s') (mr_pop s) H5) as P.
  destruct (subproblem fitness _ _ _ _ _ _ _ _) as [r|e], (subproblem fitness' _ _ _ _ _ _ _ _) as [r'|e']; cbn [bind]; [|destruct P|destruct P|exact P]. destruct P as [P1 P2]. apply IH. rewrite P2, H4. unfold scaled_run. cbn [mr_op mr_pop mr_gens mr_tried mr_ideal]. auto.
Qed.
Lemma gens_scaled ps k : forall s s', scaled_run s s' -> scaled_res (mr_gens_loop fitness SF pick offspring new_ideal ps k s) (mr_gens_loop fitness' SF pick offspring new_ideal' ps k s').
Proof.
  induction k as [|k IH]; intros s s' H; cbn [mr_gens_loop]; [auto|]. unfold mr_gen. pose proof (subs_scaled (seq 0 ps) s s' H) as P.
  destruct (mr_subproblems fitness _ _ _ _ _ _) as [t|e], (mr_subproblems fitness' _ _ _ _ _ _) as [t'|e']; cbn [bind scaled_res] in *; try tauto. apply IH. destruct P as (P1 & P2 & P3 & P4 & P5). unfold scaled_run. cbn [mr_op mr_pop mr_gens mr_tried mr_ideal]. rewrite P3. auto.
Qed.
(** C121. A whole run of MOEA/D, interactive or not: the same population, the same solutions tried, the same exception if any; the ideal point is rescaled along. *)
Theorem C121_moead_unit : forall interact pop_size its s s', scaled_run s s' ->
  match mr_run argsort fitness SF pick offspring new_ideal interact pop_size its s, mr_run argsort fitness' SF pick offspring new_ideal' interact pop_size its s' with
  | Ok t, Ok t' => mr_pop t' = mr_pop t /\ mr_tried t' = mr_tried t /\ scaled_by a (mr_ideal t) (mr_ideal t')
  | Err e, Err e' => e' = e
  | _, _ => False
  end.
Proof.
  intros interact ps its. assert (X : forall s s', scaled_run s s' -> scaled_res (mr_run argsort fitness SF pick offspring new_ideal interact ps its s) (mr_run argsort fitness' SF pick offspring new_ideal' interact ps its s')).
  { induction its as [|[an k] its IH]; intros s s' H; cbn [mr_run]; [auto|]. unfold mr_iterate. destruct H as (H1 & H2 & H3 & H4 & H5). rewrite H1.
    destruct (if interact then match an with Some w => mop_answer w (mr_op s) | None => Ok (mop_adapt argsort (mr_op s)) end else Ok (mop_adapt argsort (mop_adapt argsort (mr_op s)))) as [o|e]; cbn [bind]; [|reflexivity].
    pose proof (gens_scaled ps k (mkMRun o (mr_ideal s) (mr_pop s) (mr_gens s) (mr_tried s)) (mkMRun o (mr_ideal s') (mr_pop s') (mr_gens s') (mr_tried s'))) as P.
    assert (Q0 : scaled_run (mkMRun o (mr_ideal s) (mr_pop s) (mr_gens s) (mr_tried s)) (mkMRun o (mr_ideal s') (mr_pop s') (mr_gens s') (mr_tried s'))) by (unfold scaled_run; cbn [mr_op mr_pop mr_gens mr_tried mr_ideal]; auto).
    specialize (P Q0). destruct (mr_gens_loop fitness _ _ _ _ _ _ _) as [t|e], (mr_gens_loop fitness' _ _ _ _ _ _ _) as [t'|e']; cbn [bind scaled_res] in *; try tauto. apply IH; auto. }
  intros s s' H. specialize (X s s' H). destruct (mr_run argsort fitness _ _ _ _ _ _ _ _) as [t|e], (mr_run argsort fitness' _ _ _ _ _ _ _ _) as [t'|e']; cbn [scaled_res] in X; try tauto. destruct X as (X1 & X2 & X3 & X4 & X5). auto.
Qed.
End MoeadUnit.

(** ** IBEA *)
Section IbeaUnit.
Open Scope R_scope.
Lemma fold_max_scaled a : 0 < a -> forall l x, fold_left Rmax (map (Rmult a) l) (a * x) = a * fold_left Rmax l x.
Proof. intros Ha. induction l as [|y l IH]; intros x; cbn [map fold_left]; [reflexivity|]. rewrite RmaxRmult by lra. apply IH. Qed.
Lemma eps_scaled a u v : 0 < a -> eps_indicator (vscale a u) (vscale a v) = a * eps_indicator u v.
Proof.
  intros Ha. unfold eps_indicator. assert (E : map (fun p => fst p - snd p) (combine (vscale a u) (vscale a v)) = map (Rmult a) (map (fun p => fst p - snd p) (combine u v))).
  { revert v. induction u as [|x u IH]; intros [|y v]; cbn [vscale map combine]; try reflexivity. cbn [map fst snd]. f_equal; [lra|apply IH]. }
  rewrite E. destruct (map (fun p => fst p - snd p) (combine u v)) as [|x l]; cbn [map]; [lra|]. apply fold_max_scaled; auto.
Qed.
Context {M : Type}.
(** C121. A generation of IBEA with all objectives and kappa multiplied by the same factor: the same survivors, parents and offspring. *)
Theorem C121_ibea_unit_with_kappa : forall (objs : M -> list R) kappa a mate tournament_size pop_size draws pop, 0 < a -> kappa <> 0 ->
  ind_next_gen (fun x y => eps_indicator (vscale a (objs x)) (vscale a (objs y))) (a * kappa) mate tournament_size pop_size draws pop =
  ind_next_gen (fun x y => eps_indicator (objs x) (objs y)) kappa mate tournament_size pop_size draws pop.
Proof.
  intros objs kappa a mate ts ps draws pop Ha Hk.
  set (i' := fun x y => eps_indicator (vscale a (objs x)) (vscale a (objs y))). set (i := fun x y => eps_indicator (objs x) (objs y)).
  assert (E : forall x y, - i' x y / (a * kappa) = - i x y / kappa) by (intros x y; unfold i', i; rewrite eps_scaled by auto; field; split; [auto|lra]). clearbody i' i.
  unfold ind_next_gen.
  assert (A : fitness_assignment i' (a * kappa) pop = fitness_assignment i kappa pop).
  { unfold fitness_assignment. apply map_ext. intros p. unfold assign_one. generalize 0. induction (combine (seq 0 (length pop)) pop) as [|q l IH]; intros acc; cbn [fold_left]; [reflexivity|]. rewrite E. apply IH. }
  assert (L : forall n pop fit, env_loop i' (a * kappa) n ps pop fit = env_loop i kappa n ps pop fit).
  { clear - E. induction n as [|n IH]; intros pop fit; cbn [env_loop]; [reflexivity|]. destruct (Nat.ltb ps (length pop)); [|reflexivity]. destruct (argmin fit) as [w|]; [|reflexivity]. destruct (nth_error pop w) as [m|]; [|reflexivity].
    rewrite IH. f_equal. f_equal. unfold env_update. apply map_ext. intros p. rewrite E. reflexivity. }
  rewrite A, L. reflexivity.
Qed.
(** What environmental selection leaves of a population. *)
Definition survivors (kappa : R) (pop_size : nat) (pop : list (list R)) : option (list (list R)) :=
  match env_loop eps_indicator kappa (length pop) pop_size pop (fitness_assignment eps_indicator kappa pop) with Some (Ok r) => Some (fst r) | _ => None end.
Lemma three (k s : R) : 0 < k -> 0 < s -> let u := exp (- s / k) in
  fitness_assignment eps_indicator k [[0; s]; [3 * s; 0]; [3 * s; 0]] = [- (2 * u); - (u * u * u + 1); - (u * u * u + 1)].
Proof.
  intros Hk Hs u.
  assert (E1 : eps_indicator [0; s] [3 * s; 0] = s) by (unfold eps_indicator; cbn [combine map fst snd fold_left]; rewrite Rmax_right; lra).
  assert (E2 : eps_indicator [3 * s; 0] [0; s] = 3 * s) by (unfold eps_indicator; cbn [combine map fst snd fold_left]; rewrite Rmax_left; lra).
  assert (E3 : eps_indicator [3 * s; 0] [3 * s; 0] = 0) by (unfold eps_indicator; cbn [combine map fst snd fold_left]; rewrite Rmax_left; lra).
  assert (U : exp (- (3 * s) / k) = u * u * u) by (unfold u; rewrite <- !exp_plus; f_equal; field; lra).
  assert (Z : exp (- 0 / k) = 1) by (replace (- 0 / k) with 0 by (field; lra); apply exp_0).
  unfold fitness_assignment, assign_one. cbn [length seq combine map fst snd fold_left Nat.eqb]. rewrite E1, E2, E3, U, Z. fold u.
  f_equal; [lra|]. f_equal; [lra|]. f_equal. lra.
Qed.
(** C121 (false of the code). "Nor on the unit in which the objectives are expressed": whatever kappa, there is a population
    of which IBEA drops one of two copies of a solution, and of which it drops the only different solution when every
    objective is divided by ten. *)
Theorem C121_ibea_units_refuted : forall kappa, 0 < kappa -> exists x y : list R, x <> y /\
  survivors kappa 2 [x; y; y] = Some [x; y] /\
  survivors kappa 2 (map (vscale (1 / 10)) [x; y; y]) = Some [vscale (1 / 10) y; vscale (1 / 10) y].
Proof.
  intros k Hk. exists [0; k], [3 * k; 0]. split; [intros E; injection E as E1 E2; lra|]. split.
  - unfold survivors. rewrite (three k k Hk Hk). cbv zeta. replace (- k / k) with (-1) by (field; lra).
    assert (U0 : 0 < exp (-1)) by apply exp_pos. assert (U1 : exp (-1) <= 1 / 2).
    { pose proof (exp_ineq1 1 ltac:(lra)) as H. assert (exp (-1) * exp 1 = 1) by (rewrite <- exp_plus; replace (-1 + 1) with 0 by lra; apply exp_0). nra. }
    set (u := exp (-1)) in *. clearbody u. cbn [length env_loop Nat.ltb Nat.leb argmin argmin_from].
    destruct (Rlt_dec (- (u * u * u + 1)) (- (2 * u))) as [_|N]; [|exfalso; apply N; assert (0 < u * u * u) by (repeat apply Rmult_lt_0_compat; auto); lra]. destruct (Rlt_dec (- (u * u * u + 1)) (- (u * u * u + 1))) as [B|_]; [lra|].
    cbn [nth_error]. unfold delete_row at 1. cbn [firstn skipn app length Nat.ltb Nat.leb env_loop]. reflexivity.
  - cbn [map vscale]. unfold survivors. replace [1 / 10 * 0; 1 / 10 * k] with [0; k / 10] by (f_equal; [lra|f_equal; lra]). replace [1 / 10 * (3 * k); 1 / 10 * 0] with [3 * (k / 10); 0] by (f_equal; [lra|f_equal; lra]).
    rewrite (three k (k / 10) Hk ltac:(lra)). cbv zeta. replace (- (k / 10) / k) with (- (1 / 10)) by (field; lra).
    assert (U1 : exp (- (1 / 10)) < 1) by (pose proof (exp_increasing (- (1 / 10)) 0 ltac:(lra)) as H0; rewrite exp_0 in H0; exact H0). assert (U0 : 9 / 10 < exp (- (1 / 10))) by (pose proof (exp_ineq1 (- (1 / 10)) ltac:(lra)); lra).
    set (u := exp (- (1 / 10))) in *. clearbody u. cbn [length env_loop Nat.ltb Nat.leb argmin argmin_from].
    assert (N : - (2 * u) <= - (u * u * u + 1)).
    { assert (P : 0 <= (1 - u) * (u * u + u - 1)) by (apply Rmult_le_pos; nra). nra. }
    destruct (Rlt_dec (- (u * u * u + 1)) (- (2 * u))) as [B|_]; [lra|]. destruct (Rlt_dec (- (u * u * u + 1)) (- (2 * u))) as [B|_]; [lra|].
    cbn [nth_error]. unfold delete_row at 1. cbn [firstn skipn app length Nat.ltb Nat.leb env_loop]. reflexivity.
Qed.
End IbeaUnit.

Print Assumptions C121_moead_unit.
Print Assumptions C121_ibea_unit_with_kappa.
Print Assumptions C121_ibea_units_refuted.

(** Non-vacuity: the Tchebycheff function and the running minimum meet the hypotheses. *)
Lemma Qle_bool_scaled a x y x' y' : (0 < a)%Q -> (x' == a * x)%Q -> (y' == a * y)%Q -> Qle_bool x' y' = Qle_bool x y.
Proof.
  intros Ha Ex Ey. destruct (Qle_bool x y) eqn:B.
  - apply Qle_bool_iff in B. apply Qle_bool_iff. rewrite Ex, Ey. apply Qmult_le_l; auto.
  - destruct (Qle_bool x' y') eqn:B'; [|reflexivity]. apply Qle_bool_iff in B'. rewrite Ex, Ey in B'. apply Qmult_le_l in B'; auto. apply Qle_bool_iff in B'. congruence.
Qed.
Example ex_tcheb_unit : forall a f f' w z z', (0 < a)%Q -> scaled_by a f f' -> scaled_by a z z' -> (tcheb f' w z' == a * tcheb f w z)%Q.
Proof.
  intros a f f' w z z' Ha H. revert w z z'. induction H as [|x v y v' E H IH]; intros w z z' H'; [destruct w; unfold tcheb; cbn [combine fold_right]; ring|]. inversion H'; subst; [destruct w; unfold tcheb; cbn [combine fold_right]; ring|]. destruct w as [|b w]; [unfold tcheb; cbn [combine fold_right]; ring|].
  match goal with Hz : scaled_by a ?u ?u' |- (tcheb _ _ (_ :: ?u') == _)%Q => specialize (IH w u u' Hz) end. unfold tcheb in *. cbn [combine fold_right]. cbn [fst snd]. cbv zeta in *.
  match goal with |- ((if Qle_bool ?p ?q then _ else _) == a * (if Qle_bool ?p' ?q' then _ else _))%Q => assert (Ep : (p == a * p')%Q) by (match goal with Hy : (?y2 == a * ?x2)%Q |- (b * (y - ?y2) == _)%Q => rewrite E, Hy end; ring); rewrite (Qle_bool_scaled a p' q' p q Ha Ep IH); destruct (Qle_bool p' q'); auto end.
Qed.
Example ex_vmin2_unit : forall a z z' m m', (0 < a)%Q -> scaled_by a z z' -> scaled_by a m m' -> scaled_by a (vmin2 z m) (vmin2 z' m').
Proof.
  intros a z z' m m' Ha H. revert m m'. induction H as [|x v y v' E H IH]; intros m m' H'; [constructor|]. inversion H'; subst; [constructor|]. unfold vmin2 in *. cbn [combine map fst snd]. constructor; [|apply IH; auto].
  match goal with Hy : (?q == a * ?p)%Q |- ((if Qle_bool y ?q then y else ?q) == _)%Q => rewrite (Qle_bool_scaled a x p y q Ha E Hy); destruct (Qle_bool x p); auto end.
Qed.
(** An objective vector in another unit. *)
Example ex_scaled : scaled_by 10 [1%Q; (1#2)%Q] [10%Q; 5%Q].
Proof. repeat constructor. Qed.
