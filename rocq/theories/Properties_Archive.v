(** C24-C26 and C66: non-dominated archive, final result. *)
From Verif Require Import Base Pareto M_Archive P_Archive.
From Coq Require Import QArith.
Open Scope nat_scope.

(** C24. Any history of batches: every submitted solution is archived (by its fitness) or
    dominated by an archived one; a submitted solution that no submitted one dominates is
    archived. *)
Theorem C24_archive_never_loses : forall (I O : Type) (init : list (I * O * list Q)) batches r,
  In r (init ++ concat batches) ->
  exists k, In k (a_fit (archive_run dominates init batches)) /\
    (k = r_f r \/ pareto k (r_f r)) /\
    ((forall s, In s (init ++ concat batches) -> ~ pareto (r_f s) (r_f r)) ->
       In (r_f r) (a_fit (archive_run dominates init batches))).
Proof.
  intros I O init batches r Hr.
  destruct (run_invariant dominates dominates_strict_order init batches)
    as (rows & (_ & _ & Hf) & Hincl & Hcov & _ & _).
  destruct (Hcov r Hr) as (k & Hk & Hd). exists (r_f k). rewrite Hf.
  split; [apply in_map; exact Hk|]. split.
  - destruct Hd as [Hd|Hd]; [left; exact Hd|right; apply dominates_spec; exact Hd].
  - intros Hopt. destruct Hd as [Hd|Hd].
    + rewrite <- Hd. apply in_map; exact Hk.
    + exfalso. apply (Hopt k (Hincl k Hk)). apply dominates_spec; exact Hd.
Qed.

(** C25 (partial): the archive is mutually non-dominated if no batch contains a solution
    dominated by another of the same batch (in particular for one-row batches as in MOEA/D). *)
Theorem C25_archive_mutual_partial : forall (I O : Type) (init : list (I * O * list Q)) batches,
  (forall b, In b batches -> forall x y, In x b -> In y b -> ~ pareto (r_f x) (r_f y)) ->
  forall x y, In x (a_fit (archive_run dominates init batches)) ->
              In y (a_fit (archive_run dominates init batches)) -> ~ pareto x y.
Proof.
  intros I O init batches Hb x y Hx Hy Hd.
  destruct (run_invariant dominates dominates_strict_order init batches)
    as (rows & (_ & _ & Hf) & _ & _ & Hmut & _).
  rewrite Hf in Hx, Hy. apply dominates_spec in Hd.
  rewrite (Hmut (fun b Hin u v Hu Hv => 
    match in_map_iff r_f b u, in_map_iff r_f b v with
    | conj fu _, conj fv _ =>
      match fu Hu, fv Hv with
      | ex_intro _ u' (conj eu iu), ex_intro _ v' (conj ev iv) =>
         match Bool.bool_dec (dominates u v) true with
         | left e => False_ind _ (Hb b Hin u' v' iu iv
              (eq_rect_r (fun t => pareto t (r_f v')) (eq_rect_r (fun t => pareto u t) (proj1 (dominates_spec u v) e) ev) eu))
         | right n => Bool.not_true_is_false _ n
         end
      end
    end) x y Hx Hy) in Hd. discriminate.
Qed.

(** C25 (partial), one-row batches: no further hypothesis. *)
Theorem C25_archive_mutual_single_rows_partial : forall (I O : Type) (init : list (I * O * list Q)) (subs : list (I * O * list Q)),
  forall x y, In x (a_fit (archive_run dominates init (map (fun r => [r]) subs))) ->
              In y (a_fit (archive_run dominates init (map (fun r => [r]) subs))) -> ~ pareto x y.
Proof.
  intros I O init subs. apply C25_archive_mutual_partial. intros b Hb x y Hx Hy.
  apply in_map_iff in Hb. destruct Hb as (r & <- & _).
  destruct Hx as [<-|[]]. destruct Hy as [<-|[]]. apply pareto_irrefl.
Qed.

(** C25 (partial): whenever an archived solution dominates another, both were submitted in
    one and the same batch. *)
Theorem C25_only_same_batch_pairs_partial : forall (I O : Type) (init : list (I * O * list Q)) batches x y,
  In x (a_fit (archive_run dominates init batches)) ->
  In y (a_fit (archive_run dominates init batches)) -> pareto x y ->
  exists b, In b batches /\ In x (map r_f b) /\ In y (map r_f b).
Proof.
  intros I O init batches x y Hx Hy Hd.
  destruct (run_invariant dominates dominates_strict_order init batches)
    as (rows & (_ & _ & Hf) & _ & _ & _ & Hpair).
  rewrite Hf in Hx, Hy. apply in_map_iff in Hx. destruct Hx as (a & <- & Ha).
  apply in_map_iff in Hy. destruct Hy as (b & <- & Hb).
  destruct (Hpair a b Ha Hb (proj2 (dominates_spec _ _) Hd)) as (bt & a' & b' & B1 & B2 & B3 & B4 & B5).
  exists bt. split; [exact B1|]. rewrite <- B4, <- B5. split; apply in_map; assumption.
Qed.

(** C25 in full is false of the code: initial archive {(2,2)}, one generation offering
    (1,1) and (3,3) leaves both in the archive. *)
Theorem C25_archive_mutual_refuted :
  exists (init : list (nat * nat * list Q)) batches x y,
    In x (a_fit (archive_run dominates init batches)) /\
    In y (a_fit (archive_run dominates init batches)) /\ pareto x y.
Proof.
  exists [(0, 0, [2; 2]%Q)], [[(1, 1, [1; 1]%Q); (2, 2, [3; 3]%Q)]], [1; 1]%Q, [3; 3]%Q.
  split; [vm_compute; auto|]. split; [vm_compute; auto|].
  apply dominates_spec. reflexivity.
Qed.

(** C26. The three columns are the projections of one list of submitted rows. *)
Theorem C26_archive_aligned : forall (I O : Type) (init : list (I * O * list Q)) batches,
  exists rows, a_ind (archive_run dominates init batches) = map (fun r => fst (fst r)) rows /\
    a_obj (archive_run dominates init batches) = map (fun r => snd (fst r)) rows /\
    a_fit (archive_run dominates init batches) = map snd rows /\
    (forall r, In r rows -> In r (init ++ concat batches)).
Proof.
  intros I O init batches.
  destruct (run_invariant dominates dominates_strict_order init batches)
    as (rows & (A & B & C) & Hincl & _). exists rows. auto.
Qed.

(** C66. [end] returns exactly the non-dominated members of the final population (every copy of
    each), in population order, decision vectors and objectives aligned, and at least one for a
    non-empty population. [f] is the sign change to minimisation; [nd] any decision procedure for
    "no member of the population dominates r". *)
Theorem C66_end_returns_non_dominated : forall (I O : Type) (rows : list (I * O)) (f : O -> list Q)
    (nd : I * O -> bool),
  (forall r, In r rows -> (nd r = true <-> forall r', In r' rows -> ~ pareto (f (snd r')) (f (snd r)))) ->
  end_result dominates (map fst rows) (map snd rows) f
    = (map fst (filter nd rows), map snd (filter nd rows)) /\
  (rows <> [] -> filter nd rows <> []).
Proof.
  intros I O rows f nd Hnd.
  pose proof (end_exact dominates rows f) as E. cbv zeta in E. rewrite E.
  assert (F : filter (fun r => negb (existsb (fun r' => dominates (f (snd r')) (f (snd r))) rows)) rows
              = filter nd rows).
  { apply filter_ext_in. intros r Hr.
    destruct (nd r) eqn:En.
    - apply negb_true_iff. apply not_true_is_false. intros H. apply existsb_exists in H.
      destruct H as (r' & Hr' & Hd). apply (proj1 (Hnd r Hr) En r' Hr'). apply dominates_spec; auto.
    - apply negb_false_iff. destruct (existsb (fun r' => dominates (f (snd r')) (f (snd r))) rows) eqn:Ex; auto.
      rewrite (proj2 (Hnd r Hr)) in En; [discriminate|]. intros r' Hr' Hp.
      assert (existsb (fun r' => dominates (f (snd r')) (f (snd r))) rows = true); [|congruence].
      apply existsb_exists. exists r'. split; auto. apply dominates_spec; auto. }
  rewrite F. split; auto. intros Hne He.
  destruct rows as [|r0 l]; [congruence|].
  pose (rows := r0 :: l). fold rows in Hnd, He.
  destruct (cover_by_kept dominates dominates_strict_order (map (fun r => f (snd r)) rows)
     (fun v => forall v', In v' (map (fun r => f (snd r)) rows) -> dominates v' v = false)) with (e := f (snd r0))
     as (k & Hk & Hkept & _).
  - intros e He0. destruct (existsb (fun e' => dominates e' e) (map (fun r => f (snd r)) rows)) eqn:Ex.
    + right. apply existsb_exists in Ex. exact Ex.
    + left. intros v' Hv'. destruct (dominates v' e) eqn:Ed; auto.
      assert (existsb (fun e' => dominates e' e) (map (fun r => f (snd r)) rows) = true); [|congruence].
      apply existsb_exists. eauto.
  - left; reflexivity.
  - apply in_map_iff in Hk. destruct Hk as (r & <- & Hr).
    assert (In r (filter nd rows)); [|rewrite He in *; contradiction].
    apply filter_In. split; auto. apply Hnd; auto. intros r' Hr' Hp. apply dominates_spec in Hp.
    rewrite Hkept in Hp; [discriminate|]. apply (in_map (fun r => f (snd r))); auto.
Qed.

(** ** Non-vacuity *)
Example ex_archive :
  a_fit (archive_run dominates [(0, 0, [2; 2]%Q); (1, 1, [3; 3]%Q)]
     [[(2, 2, [1; 4]%Q); (3, 3, [4; 1]%Q)]; [(4, 4, [2; 1]%Q)]])
  = [[1; 4]; [2; 1]]%Q.
Proof. vm_compute. reflexivity. Qed.

Example ex_end : end_result dominates [10; 11; 12] [[1; 2]; [2; 2]; [2; 1]]%Q (fun o => o)
  = ([10; 12], [[1; 2]; [2; 1]]%Q).
Proof. vm_compute. reflexivity. Qed.

Example ex_batch_mutual : forall x y : nat * nat * list Q,
  In x [(2, 2, [1; 4]%Q); (3, 3, [4; 1]%Q)] -> In y [(2, 2, [1; 4]%Q); (3, 3, [4; 1]%Q)] ->
  ~ pareto (r_f x) (r_f y).
Proof.
  intros x y [<-|[<-|[]]] [<-|[<-|[]]] H; apply dominates_spec in H; vm_compute in H; discriminate.
Qed.

Print Assumptions C24_archive_never_loses.
Print Assumptions C25_archive_mutual_partial.
Print Assumptions C25_archive_mutual_single_rows_partial.
Print Assumptions C25_only_same_batch_pairs_partial.
Print Assumptions C25_archive_mutual_refuted.
Print Assumptions C26_archive_aligned.
Print Assumptions C66_end_returns_non_dominated.
