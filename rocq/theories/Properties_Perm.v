(** C122: selection depends neither on the order of the individuals (up to ties) nor on the order of the objectives. *)
From Verif Require Import Base RVec M_APD Spec_APD P_APD M_RefVec M_Indicator Spec_Indicator P_Indicator Properties_Indicator Properties_Shift P_Perm.
From Coq Require Import Reals Lra Lia Permutation.
Open Scope R_scope.

(** ** RVEA: a population of pairs (fitness, constraint values). *)
Notation member := (list R * list R)%type.
(** The constraint values the operator sees, if the problem has constraints. *)
Definition constraints_of (constrained : bool) (pop : list member) : option (list (list R)) := if constrained then Some (map snd pop) else None.

(** C122. If no two different members of one niche have the same angle penalised distance, a population in another order gives the same ideal point and the same members, vector by vector. *)
Theorem C122_rvea_individuals : forall m penalty ideal pop_ideal (pop pop' : list member) constrained vecs gam z s,
  Permutation pop pop' ->
  selection_input m ideal pop_ideal (map fst pop) (constraints_of constrained pop) vecs gam ->
  apd_select penalty ideal pop_ideal (map fst pop) (constraints_of constrained pop) vecs gam = Ok (z, s) ->
  (forall i j a b k v g, closest z (map fst pop) vecs i k -> closest z (map fst pop) vecs j k -> nth_error pop i = Some a -> nth_error pop j = Some b ->
     nth_error vecs k = Some v -> nth_error gam k = Some g ->
     APD penalty (if Req_EM_T g 0 then / 2 ^ 52 else g) z (fst a) v = APD penalty (if Req_EM_T g 0 then / 2 ^ 52 else g) z (fst b) v -> a = b) ->
  exists s', apd_select penalty ideal pop_ideal (map fst pop') (constraints_of constrained pop') vecs gam = Ok (z, s') /\
    map (nth_error pop') s' = map (nth_error pop) s.
Proof.
  intros m penalty ideal pi pop pop' con vecs gam z s Hp SI H U. unfold apd_select in *.
  destruct (new_ideal ideal pi (map fst pop)) as [z0|e] eqn:Z; cbn [bind] in H; [|discriminate]. injection H as -> <-.
  assert (Z' : new_ideal ideal pi (map fst pop') = Ok z) by (rewrite <- Z; unfold new_ideal; rewrite (colmin_perm _ _ (Permutation_map fst Hp)); reflexivity). rewrite Z'. cbn [bind].
  eexists. split; [reflexivity|].
  assert (G : forall p, (forall k i, In i (choose penalty vecs (trs_of z p) gam (cons_of con p) k) -> (i < length p)%nat)).
  { intros p k i Hi. assert (X : In i (constraint_filter (cons_of con p) (niche vecs (trs_of z p) k))).
    { unfold choose in Hi. destruct (constraint_filter (cons_of con p) (niche vecs (trs_of z p) k)) as [|a [|b l]]; auto. destruct (argmin _) as [j|] eqn:A; [|destruct Hi]. destruct Hi as [<-|[]]. apply nth_In. apply argmin_lt in A. rewrite map_length in A. exact A. }
    apply screened_sub in X. apply niche_range in X. exact X. }
  assert (V : forall p k, map (nth_error p) (choose penalty vecs (trs_of z p) gam (cons_of con p) k) = map Some (winner penalty vecs gam z k (screened con (filter (near vecs z k) p)))).
  { intros p k. rewrite <- choose_values, map_map. apply map_ext_in. intros i Hi. unfold at_. apply nth_error_nth'. apply (G p k i Hi). }
  change (map (fun f => vsub f z) (map fst pop)) with (trs_of z pop). change (map (fun f => vsub f z) (map fst pop')) with (trs_of z pop').
  change (constraints_of con) with (cons_of con). rewrite !flat_map_concat_map, !concat_map, !map_map. f_equal. apply map_ext_in. intros k Hk. apply in_seq in Hk. rewrite !V. f_equal. symmetry. apply winner_perm.
  - apply screened_perm, perm_filter, Hp.
  - intros a b Ha Hb E. apply screened_In, filter_In in Ha. apply screened_In, filter_In in Hb. destruct Ha as (Ha & Na), Hb as (Hb & Nb).
    apply In_nth_error in Ha. apply In_nth_error in Hb. destruct Ha as (i & Ha), Hb as (j & Hb). unfold near in Na, Nb. apply Nat.eqb_eq in Na. apply Nat.eqb_eq in Nb.
    assert (Kv : exists v, nth_error vecs k = Some v) by (destruct (nth_error vecs k) as [v|] eqn:X; [eauto|apply nth_error_None in X; lia]). destruct Kv as (v & Kv).
    assert (Kg : exists g, nth_error gam k = Some g). { destruct (nth_error gam k) as [g|] eqn:X; [eauto|]. apply nth_error_None in X. rewrite (si_gam _ _ _ _ _ _ _ SI) in X. lia. } destruct Kg as (g & Kg).
    assert (Fi : nth_error (map fst pop) i = Some (fst a)) by (rewrite nth_error_map, Ha; reflexivity).
    assert (Fj : nth_error (map fst pop) j = Some (fst b)) by (rewrite nth_error_map, Hb; reflexivity).
    pose proof (assigned_closest m ideal pi (map fst pop) _ vecs gam z SI Z i (fst a) Fi) as [_ Ci]. pose proof (assigned_closest m ideal pi (map fst pop) _ vecs gam z SI Z j (fst b) Fj) as [_ Cj].
    rewrite Na in Ci. rewrite Nb in Cj. apply (U i j a b k v g Ci Cj Ha Hb Kv Kg).
    unfold value, APD in *. unfold row in E. rewrite (nth_error_nth vecs k [] Kv), (nth_error_nth gam k 0 Kg) in E.
    rewrite (proj1 (cosine_ok m ideal pi (map fst pop) _ vecs gam z SI Z (fst a) v (nth_error_In _ _ Fi) (nth_error_In _ _ Kv))) in E.
    rewrite (proj1 (cosine_ok m ideal pi (map fst pop) _ vecs gam z SI Z (fst b) v (nth_error_In _ _ Fj) (nth_error_In _ _ Kv))) in E. exact E.
Qed.

(** ** RVEA: the objectives in another order. [p] lists, for each new position, the old one. *)
Definition reordered (p : list nat) (v : list R) : list R := map (fun j => nth j v 0) p.
Definition reordered_call (p : list nat) (k : apd_call) : apd_call :=
  mkCall (ac_penalty k) (ac_type k) (reordered p (ac_pop_ideal k)) (map (reordered p) (ac_fit k)) (option_map (map (reordered p)) (ac_unc k)) (ac_cons k) (map (reordered p) (ac_vecs k)) (ac_gam k).
Definition m_objectives (m : nat) (k : apd_call) : Prop :=
  length (ac_pop_ideal k) = m /\ (forall f, In f (ac_fit k) -> length f = m) /\ (forall u f, ac_unc k = Some u -> In f u -> length f = m) /\ (forall v, In v (ac_vecs k) -> length v = m).
(** C122. Any sequence of selections: the same rows are selected (or the same exception raised), whatever the order of the objectives. *)
Theorem C122_rvea_objectives : forall m p ideal calls, Permutation p (seq 0 m) -> length ideal = m -> (forall k, In k calls -> m_objectives m k) ->
  apd_calls (reordered p ideal) (map (reordered_call p) calls) = apd_calls ideal calls.
Proof.
  intros m p ideal calls P. revert ideal. induction calls as [|k calls IH]; intros ideal Hi H; cbn [map apd_calls]; [reflexivity|].
  destruct (H k (or_introl eq_refl)) as (H1 & H2 & H3 & H4). cbn [reordered_call ac_penalty ac_type ac_pop_ideal ac_fit ac_unc ac_cons ac_vecs ac_gam].
  change (reordered p) with (relabel p) in *. destruct (calc_relabel p m (ac_type k) (ac_fit k) (ac_unc k) P H2 H3) as (C1 & C2). rewrite C1.
  destruct (calc_fitness (ac_type k) (ac_fit k) (ac_unc k)) as [f|e]; cbn [bind]; [|reflexivity]. specialize (C2 f eq_refl).
  rewrite (apd_select_relabel p m (ac_penalty k) ideal (ac_pop_ideal k) f (ac_cons k) (ac_vecs k) (ac_gam k)) by auto.
  destruct (apd_select (ac_penalty k) ideal (ac_pop_ideal k) f (ac_cons k) (ac_vecs k) (ac_gam k)) as [[z s]|e] eqn:A; cbn [bind fst snd]; [|reflexivity].
  rewrite IH; [reflexivity| |intros k' Hk'; apply H; right; exact Hk'].
  unfold apd_select in A. destruct (new_ideal ideal (ac_pop_ideal k) f) as [z'|e] eqn:Z; cbn [bind] in A; [|discriminate]. injection A as <- _.
  apply (new_ideal_spec m ideal (ac_pop_ideal k) f z' Hi H1 C2 Z).
Qed.
(** C122. The neighbouring angles, which the operator divides by, are those of the vectors in the old order of objectives too. *)
Theorem C122_neighbouring_angles : forall m p vecs, Permutation p (seq 0 m) -> (forall v, In v vecs -> length v = m) ->
  neighbouring_angles (map (reordered p) vecs) = neighbouring_angles vecs.
Proof.
  intros m p vecs P H. unfold neighbouring_angles. rewrite map_map. apply map_ext_in. intros v Hv. unfold neighbouring_angle. f_equal. f_equal. rewrite map_map. apply map_ext_in. intros w Hw. apply (dot_relabel p m); auto.
Qed.

(** ** IBEA and PBEA: survivors. *)
Section Ibea.
Context {M : Type} (ind : M -> M -> R) (kappa : R).
(** No two different members ever have the same indicator fitness, whichever members are left. *)
Definition untied (pop : list M) : Prop := forall left gone a b ra rb, Permutation pop (left ++ gone) -> Permutation left (a :: ra) -> Permutation left (b :: rb) ->
  loss ind kappa a ra = loss ind kappa b rb -> a = b.
Lemma loss_perm a l l' : Permutation l l' -> loss ind kappa a l = loss ind kappa a l'.
Proof. intros H. unfold loss. f_equal. apply rsum_perm, Permutation_map, H. Qed.
Lemma without_perm {A} k (l : list A) x : nth_error l k = Some x -> Permutation l (x :: without k l).
Proof. intros H. rewrite (split_nth l k x H) at 1. unfold without. apply Permutation_sym, Permutation_middle. Qed.
Lemma untied_less pop w rest : Permutation pop (w :: rest) -> untied pop -> untied rest.
Proof.
  intros H U left gone a b ra rb H1 H2 H3 E. apply (U left (w :: gone) a b ra rb); auto. rewrite H, H1. apply Permutation_middle.
Qed.
Lemma trims_perm ps pop out : trims ind kappa ps pop out -> forall pop' out', Permutation pop pop' -> untied pop -> trims ind kappa ps pop' out' -> Permutation out out'.
Proof.
  induction 1 as [pop Hl|pop k w out Hl Hk Mn T IH]; intros pop' out' P U T'.
  - inversion T' as [q Hl'|q k' w' q' Hl' Hk' Mn' T'']; subst; [exact P|]. rewrite (Permutation_length P) in Hl. lia.
  - inversion T' as [q Hl'|q k' w' q' Hl' Hk' Mn' T'']; subst; [rewrite (Permutation_length P) in Hl; lia|].
    pose proof (without_perm k pop w Hk) as Pw. pose proof (without_perm k' pop' w' Hk') as Pw'.
    assert (E : w = w').
    { assert (I1 : In w' pop) by (apply (Permutation_in _ (Permutation_sym P)); apply (nth_error_In _ _ Hk')). assert (I2 : In w pop') by (apply (Permutation_in _ P); apply (nth_error_In _ _ Hk)).
      apply In_nth_error in I1. apply In_nth_error in I2. destruct I1 as (i & I1), I2 as (j & I2). pose proof (Mn i w' I1) as L1. pose proof (Mn' j w I2) as L2.
      assert (Pi : Permutation (without i pop) (without k' pop')) by (apply (Permutation_cons_inv (a := w')); rewrite <- (without_perm i pop w' I1), <- Pw'; exact P).
      assert (Pj : Permutation (without j pop') (without k pop)) by (apply (Permutation_cons_inv (a := w)); rewrite <- (without_perm j pop' w I2), <- Pw; apply Permutation_sym, P).
      rewrite (loss_perm w' _ _ Pi) in L1. rewrite (loss_perm w _ _ Pj) in L2.
      apply (U pop [] w w' (without k pop) (without k' pop')); [rewrite app_nil_r; reflexivity|exact Pw|rewrite P; exact Pw'|]. apply Rle_antisym; auto. }
    subst w'. apply (IH (without k' pop') out'); auto.
    + apply (Permutation_cons_inv (a := w)). rewrite <- Pw, <- Pw'. exact P.
    + apply (untied_less pop w); auto.
Qed.
(** C122. Environmental selection of a population in another order leaves the same members. *)
Theorem C122_ibea_individuals : forall pop_size pop pop' out fit, Permutation pop pop' -> untied pop ->
  env_loop ind kappa (length pop) pop_size pop (fitness_assignment ind kappa pop) = Some (Ok (out, fit)) ->
  exists out' fit', env_loop ind kappa (length pop') pop_size pop' (fitness_assignment ind kappa pop') = Some (Ok (out', fit')) /\ Permutation out out'.
Proof.
  intros ps pop pop' out fit P U H. destruct (C41_environmental_selection ind kappa ps pop) as (o & f & E & T & _). rewrite E in H. injection H as -> ->.
  destruct (C41_environmental_selection ind kappa ps pop') as (o' & f' & E' & T' & _). exists o', f'. split; [exact E'|]. apply (trims_perm ps pop out T pop'); auto.
Qed.
End Ibea.

Print Assumptions C122_rvea_individuals.
Print Assumptions C122_rvea_objectives.
Print Assumptions C122_neighbouring_angles.
Print Assumptions C122_ibea_individuals.

(** ** Non-vacuity *)
Definition ex_pop : list member := [([1; 4], [-1]); ([2; 1], [-1]); ([3; 1], [-2])].
Definition ex_pop' : list member := [([3; 1], [-2]); ([1; 4], [-1]); ([2; 1], [-1])].
Lemma ex_input : selection_input 2 [1; 5] [4; 1] (map fst ex_pop) (constraints_of true ex_pop) [[1; 0]; [0; 1]] [PI / 2; PI / 2].
Proof.
  constructor; cbn.
  - split; [discriminate|]. intros f [<-|[<-|[<-|[]]]]; reflexivity.
  - auto.
  - split; [discriminate|]. intros v [<-|[<-|[]]]; (split; [reflexivity|]; split; [unfold norm; cbn; replace (1 * 1 + (0 * 0 + 0)) with 1 by ring; replace (0 * 0 + (1 * 1 + 0)) with 1 by ring; apply sqrt_1|]); intros x [<-|[<-|[]]]; lra.
  - reflexivity.
  - reflexivity.
Qed.
Example ex_rvea : Permutation ex_pop ex_pop' /\ exists s, apd_select 0 [1; 5] [4; 1] (map fst ex_pop) (constraints_of true ex_pop) [[1; 0]; [0; 1]] [PI / 2; PI / 2] = Ok ([1; 1], s) /\
  forall a b g v, In a ex_pop -> In b ex_pop -> APD 0 g [1; 1] (fst a) v = APD 0 g [1; 1] (fst b) v -> a = b.
Proof.
  split; [unfold ex_pop, ex_pop'; apply Permutation_sym; apply (Permutation_middle [_; _] [] _)|].
  assert (Z : new_ideal [1; 5] [4; 1] (map fst ex_pop) = Ok [1; 1]).
  { cbn. apply f_equal; apply (f_equal2 cons); [|apply (f_equal2 cons); [|reflexivity]]; unfold Rmin; repeat match goal with |- context [Rle_dec ?a ?b] => first [destruct (Rle_dec a b); [exfalso; lra|]|destruct (Rle_dec a b); [|exfalso; lra]] end; lra. }
  unfold apd_select. rewrite Z. cbn [bind]. eexists. split; [reflexivity|].
  assert (N : forall u w g v, APD 0 g [1; 1] u v = APD 0 g [1; 1] w v -> dot (vsub u [1; 1]) (vsub u [1; 1]) = dot (vsub w [1; 1]) (vsub w [1; 1])).
  { intros u w g v H. unfold APD in H. rewrite !Rmult_0_l, !Rplus_0_r, !Rmult_1_r in H. rewrite <- !norm_sq, H. reflexivity. }
  intros a b g v [<-|[<-|[<-|[]]]] [<-|[<-|[<-|[]]]] H; try reflexivity; apply N in H; cbn in H; lra.
Qed.
Example ex_untied : untied (fun a b : R => b - a) 1 [0; 1].
Proof.
  intros left gone a b ra rb P Pa Pb E. destruct (Req_dec a b) as [H|H]; [exact H|exfalso].
  assert (Ia : In a left) by (apply (Permutation_in _ (Permutation_sym Pa)); left; reflexivity). assert (Ib : In b left) by (apply (Permutation_in _ (Permutation_sym Pb)); left; reflexivity).
  assert (La : In a [0; 1]) by (apply (Permutation_in _ (Permutation_sym P)); apply in_or_app; auto). assert (Lb : In b [0; 1]) by (apply (Permutation_in _ (Permutation_sym P)); apply in_or_app; auto).
  assert (Ra : In b ra) by (apply (Permutation_in _ Pa) in Ib; destruct Ib as [Ib|Ib]; [congruence|exact Ib]). assert (Rb : In a rb) by (apply (Permutation_in _ Pb) in Ia; destruct Ia as [Ia|Ia]; [congruence|exact Ia]).
  assert (X : forall c r d, Permutation left (c :: r) -> In d r -> r = [d]).
  { intros c r d Pc Id. pose proof (Permutation_length P) as L1. pose proof (Permutation_length Pc) as L2. rewrite app_length in L1. cbn in L1, L2. destruct r as [|x [|y r]]; [destruct Id|destruct Id as [<-|[]]; reflexivity|cbn in L2; lia]. }
  rewrite (X a ra b Pa Ra), (X b rb a Pb Rb) in E. unfold loss in E. cbn [map rsum] in E.
  assert (E' : exp (- (b - a) / 1) = exp (- (a - b) / 1)) by lra. apply exp_inv in E'. lra.
Qed.
Example ex_reorder : Permutation [2; 0; 1]%nat (seq 0 3) /\ reordered [2; 0; 1]%nat [5; 6; 7] = [7; 5; 6].
Proof. split; [cbn; apply (Permutation_middle [0; 1]%nat [] 2%nat)|reflexivity]. Qed.
