(** Lemmas for C127: the indicators of IBEA and PBEA on failed evaluations. *)
From Coq Require Import Reals Lra Lia Permutation.
From Verif Require Import Base RVec Spec_Indicator Spec_PBEA M_APDnan P_APDnan M_Indicator P_Indicator M_PBEA P_PBEA M_IndNaN P_IndNaN.
Open Scope R_scope.

(** ** The epsilon indicator *)
Lemma eps_fold_x_fin l : forall e, fold_left (fun e v => if xltb e v then v else e) (map Fin l) (Fin e) = Fin (fold_left (fun e v => if Rlt_dec e v then v else e) l e).
Proof. induction l as [|v l IH]; intros e; cbn [map fold_left xltb]; [reflexivity|]. destruct (Rlt_dec e v); apply IH. Qed.
Lemma eps_x_fin u v : eps_ind_x (map Fin u) (map Fin v) = Fin (eps_ind u v).
Proof. unfold eps_ind_x, eps_ind. change (vmap2 xsub) with xvsub. rewrite xvsub_fin. apply eps_fold_x_fin. Qed.
Lemma eps_fold_zero l : (forall v, In v l -> v = MInf \/ v = NaN) -> fold_left (fun e v => if xltb e v then v else e) l (Fin 0) = Fin 0.
Proof. induction l as [|v l IH]; intros H; cbn [fold_left]; [reflexivity|]. destruct (H v) as [-> | ->]; [now left| |]; cbn [xltb]; apply IH; intros; apply H; now right. Qed.
Lemma in_repeat {A} (x y : A) n : In x (repeat y n) -> x = y.
Proof. intros H. apply repeat_spec in H. exact H. Qed.
Lemma in_map_fin x l : In x (map Fin l) -> exists r, x = Fin r.
Proof. intros H. apply in_map_iff in H. destruct H as (r & <- & _). eauto. Qed.
(** A failed first argument. *)
Lemma eps_x_bad_fin c k v : c = PInf \/ c = NaN -> eps_ind_x (repeat c k) (map Fin v) = Fin 0.
Proof.
  intros Hc. apply eps_fold_zero. intros d Hd. apply in_vmap2 in Hd. destruct Hd as (i & x & y & H1 & H2 & ->).
  apply nth_error_In in H1, H2. apply in_repeat in H2. apply in_map_fin in H1. destruct H1 as [r ->]. subst y. destruct Hc as [-> | ->]; cbn; auto.
Qed.
Lemma eps_x_bad_bad c k c' k' : c = c' -> c = PInf \/ c = NaN -> eps_ind_x (repeat c k) (repeat c' k') = Fin 0.
Proof.
  intros <- Hc. apply eps_fold_zero. intros d Hd. apply in_vmap2 in Hd. destruct Hd as (i & x & y & H1 & H2 & ->).
  apply nth_error_In in H1, H2. apply in_repeat in H1, H2. subst. destruct Hc as [-> | ->]; cbn; auto.
Qed.
Lemma eps_x_fin_nan u k : eps_ind_x (map Fin u) (repeat NaN k) = Fin 0.
Proof.
  apply eps_fold_zero. intros d Hd. apply in_vmap2 in Hd. destruct Hd as (i & x & y & H1 & H2 & ->).
  apply nth_error_In in H1. apply in_repeat in H1. subst x. right. reflexivity.
Qed.
Lemma eps_x_fin_inf u k : (0 < k)%nat -> length u = k -> eps_ind_x (map Fin u) (repeat PInf k) = PInf.
Proof.
  intros Hk L. destruct k as [|k]; [lia|]. destruct u as [|x u]; [discriminate|]. injection L as L. unfold eps_ind_x. cbn [repeat map vmap2 fold_left xsub xltb].
  clear Hk. revert u L. induction k as [|k IH]; intros [|y u] L; try discriminate; [reflexivity|]. injection L as L. cbn [repeat map vmap2 fold_left xsub xltb]. apply IH. exact L.
Qed.

(** ** Members *)
Definition successful (m : member_x) : bool := forallb is_fin (x_fit m).
Lemma successful_fin m : successful m = true <-> exists u, x_fit m = map Fin u.
Proof.
  unfold successful. split.
  - intros H. exists (map fin_part (x_fit m)). apply fin_row_map. exact H.
  - intros [u ->]. induction u; cbn; auto.
Qed.
Lemma repeat_not_successful m c k : c = PInf \/ c = NaN -> (0 < k)%nat -> x_fit m = repeat c k -> successful m = false.
Proof. intros Hc Hk E. unfold successful. rewrite E. destruct k; [lia|]. destruct Hc as [-> | ->]; reflexivity. Qed.

Lemma filter_delete {A} (p : A -> bool) i l x : nth_error l i = Some x -> p x = false -> filter p (delete_row i l) = filter p l.
Proof.
  intros H Hp. unfold delete_row. rewrite filter_app. rewrite (split_nth l i x H) at 3. rewrite filter_app. cbn [filter]. rewrite Hp. reflexivity.
Qed.
Lemma filter_len_all {A} (p : A -> bool) l : (length (filter p l) <= length l)%nat.
Proof. induction l as [|x l IH]; cbn [filter length]; [lia|]. destruct (p x); cbn [length]; lia. Qed.
Lemma filter_delete_len {A} (p : A -> bool) i l x : nth_error l i = Some x -> p x = true -> S (length (filter p (delete_row i l))) = length (filter p l).
Proof.
  intros H Hp. unfold delete_row. rewrite filter_app. rewrite (split_nth l i x H) at 3. rewrite filter_app. cbn [filter]. rewrite Hp. rewrite !app_length. cbn [length]. lia.
Qed.
Lemma filter_id {A} (p : A -> bool) l : forallb p l = true -> filter p l = l.
Proof. induction l as [|x l IH]; cbn [forallb filter]; [reflexivity|]. destruct (p x); [|discriminate]. cbn [andb]. intros H. f_equal. auto. Qed.

(** ** IBEA: infinite fitness *)
Section Inf.
Context (kappa : R) (k : nat).
Hypothesis Hkap : 0 < kappa.
Hypothesis Hk : (0 < k)%nat.
Definition row_inf (m : member_x) : Prop := length (x_fit m) = k /\ (successful m = true \/ x_fit m = repeat PInf k).
Definition t_inf (a b : member_x) : R :=
  if successful a then if successful b then exp (- eps_ind (map fin_part (x_fit a)) (map fin_part (x_fit b)) / kappa) else 0 else 1.
Lemma row_bad m : row_inf m -> successful m = false -> x_fit m = repeat PInf k.
Proof. intros [_ [H|H]] E; [congruence|exact H]. Qed.
Lemma kap0 : kappa <> 0. Proof. lra. Qed.
Lemma div0 : - 0 / kappa = 0. Proof. field. lra. Qed.
Lemma term_inf a b : row_inf a -> row_inf b -> term_x ibea_ind_x kappa a b = Fin (t_inf a b).
Proof.
  intros Ha Hb. unfold term_x, ibea_ind_x, t_inf. destruct (successful a) eqn:Ea.
  - destruct (successful b) eqn:Eb.
    + unfold successful in *. rewrite (fin_row_map (x_fit a)), (fin_row_map (x_fit b)) at 1 by assumption. rewrite eps_x_fin. cbn [xopp xdiv].
      destruct (Req_EM_T kappa 0); [lra|reflexivity].
    + rewrite (row_bad b Hb Eb). unfold successful in Ea. rewrite (fin_row_map (x_fit a) Ea). rewrite eps_x_fin_inf; [|exact Hk|rewrite map_length; apply Ha].
      cbn [xopp xdiv]. destruct (Req_EM_T kappa 0); [lra|]. unfold inf_times. destruct (Req_EM_T kappa 0); [lra|]. destruct (Rlt_dec 0 kappa); [reflexivity|lra].
  - rewrite (row_bad a Ha Ea).
    assert (E : eps_ind_x (repeat PInf k) (x_fit b) = Fin 0).
    { destruct (successful b) eqn:Eb; [unfold successful in Eb; rewrite (fin_row_map (x_fit b) Eb); apply eps_x_bad_fin; auto|].
      rewrite (row_bad b Hb Eb). apply eps_x_bad_bad; auto. }
    rewrite E. cbn [xopp xdiv]. destruct (Req_EM_T kappa 0); [lra|]. cbn [xexp]. rewrite div0, exp_0. reflexivity.
Qed.
Lemma rows_inf_terms pop : (forall m, In m pop -> row_inf m) -> finite_terms ibea_ind_x kappa t_inf pop.
Proof. intros H a b Ha Hb. apply term_inf; auto. Qed.
Lemma exp_le1 x : 0 <= x -> exp (- x / kappa) <= 1.
Proof.
  intros H. rewrite <- exp_0. assert (- x / kappa <= 0). { unfold Rdiv. assert (0 < / kappa) by (apply Rinv_0_lt_compat; lra). nra. }
  destruct H0 as [H0|H0]; [left; apply exp_increasing; exact H0|rewrite H0; lra].
Qed.
Lemma total_good a l : successful a = true -> total t_inf a l <= INR (length (filter successful l)).
Proof.
  intros Ha. unfold total. induction l as [|b l IH]; cbn [map rsum filter length]; [cbn; lra|]. unfold t_inf at 1. rewrite Ha.
  destruct (successful b) eqn:Eb; cbn [length]; [|lra]. rewrite S_INR. pose proof (exp_le1 _ (eps_nonneg (map fin_part (x_fit a)) (map fin_part (x_fit b)))). lra.
Qed.
Lemma total_bad a l : successful a = false -> total t_inf a l = INR (length l).
Proof.
  intros Ha. unfold total. induction l as [|b l IH]; [reflexivity|]. cbn [map rsum]. rewrite IH. change (length (b :: l)) with (S (length l)). rewrite S_INR.
  unfold t_inf. rewrite Ha. lra.
Qed.
(** As long as a failed member is there, a failed one is removed. *)
Lemma worst_is_bad pop fit i w b : (forall m, In m pop -> row_inf m) -> exact_x t_inf pop fit -> xargmin fit = Some i -> nth_error pop i = Some w ->
  In b pop -> successful b = false -> successful w = false.
Proof.
  intros Hr Hx Hi Hw Hb Eb. destruct (successful w) eqn:Ew; [exfalso|reflexivity].
  destruct (In_nth_error _ _ Hb) as [j Hj]. pose proof (exact_worst t_inf pop fit i w Hx Hi Hw j b Hj) as H.
  rewrite total_bad in H by exact Eb. pose proof (total_good w (without i pop) Ew) as H2.
  assert (Lj : (j < length pop)%nat) by (apply nth_error_Some; congruence). rewrite length_without in H by exact Lj.
  pose proof (filter_delete_len successful i pop w Hw Ew) as H3. change (@delete_row) with (@without) in H3.
  assert (H4 : (length (filter successful pop) < length pop)%nat).
  { pose proof (filter_len_all successful (without j pop)) as G1. rewrite length_without in G1 by exact Lj.
    pose proof (filter_delete successful j pop b Hj Eb) as G2. change (@delete_row) with (@without) in G2. rewrite G2 in G1. lia. }
  assert (INR (length (filter successful (without i pop))) < INR (length pop - 1)) by (apply lt_INR; lia). lra.
Qed.
Lemma inf_loop ps : forall fuel pop fit, (forall m, In m pop -> row_inf m) -> exact_x t_inf pop fit -> (length pop - ps <= fuel)%nat ->
  ((ps <= length (filter successful pop))%nat -> env_loop_x ibea_ind_x kappa fuel ps pop fit = ibea_env_x kappa ps (filter successful pop)) /\
  ((length (filter successful pop) <= ps)%nat -> exists s f, env_loop_x ibea_ind_x kappa fuel ps pop fit = Some (Ok (s, f)) /\ filter successful s = filter successful pop).
Proof.
  induction fuel as [|fuel IH]; intros pop fit Hr Hx Hf.
  - split.
    + intros Hp. pose proof (filter_len_all successful pop). rewrite env_loop_done by lia.
      destruct (forallb successful pop) eqn:Ef.
      * rewrite (filter_id _ _ Ef). unfold ibea_env_x, env_x. rewrite env_loop_done by lia. do 3 f_equal.
        apply (exact_unique t_inf pop); [exact Hx|]. apply assignment_exact_x. apply rows_inf_terms. exact Hr.
      * exfalso. assert (length (filter successful pop) < length pop)%nat; [|lia]. clear -Ef.
        induction pop as [|x pop IH]; cbn [forallb filter length] in *; [discriminate|]. destruct (successful x); cbn [length andb] in *; [specialize (IH Ef); lia|].
        pose proof (filter_len_all successful pop). lia.
    + intros _. rewrite env_loop_done by lia. eauto.
  - destruct (forallb successful pop) eqn:Ef.
    + rewrite (filter_id _ _ Ef). split.
      * intros Hp. unfold ibea_env_x, env_x. rewrite (exact_unique t_inf pop fit (fitness_assignment_x ibea_ind_x kappa pop)); [|exact Hx|apply assignment_exact_x, rows_inf_terms, Hr].
        apply env_loop_fuel; [apply assignment_length|lia|lia].
      * intros Hp. rewrite env_loop_done by lia. exists pop, fit. split; [reflexivity|]. apply filter_id. exact Ef.
    + assert (Hb : exists b, In b pop /\ successful b = false).
      { clear -Ef. induction pop as [|x pop IH]; cbn [forallb] in Ef; [discriminate|]. destruct (successful x) eqn:E; [destruct (IH Ef) as (b & B1 & B2); exists b; split; [now right|exact B2]|].
        exists x. split; [now left|exact E]. }
      destruct Hb as (b & B1 & B2).
      destruct (le_lt_dec (length pop) ps) as [Hl|Hl].
      * rewrite env_loop_done by exact Hl. split; [|intros _; eauto]. intros Hp. exfalso.
        destruct (In_nth_error _ _ B1) as [j Hj]. pose proof (filter_delete successful j pop b Hj B2) as G. pose proof (filter_len_all successful (delete_row j pop)) as G1.
        rewrite G in G1. assert (Lj : (j < length pop)%nat) by (apply nth_error_Some; congruence). rewrite delete_row_length in G1 by exact Lj. lia.
      * destruct (env_loop_step ibea_ind_x kappa fuel ps pop fit (proj1 Hx) Hl) as (i & w & I1 & I2 & I3 & E & L'). rewrite E.
        pose proof (worst_is_bad pop fit i w b Hr Hx I1 I2 B1 B2) as Ew.
        rewrite <- (filter_delete successful i pop w I2 Ew).
        apply IH; [intros m Hm; apply Hr; eapply delete_row_in; eauto| |rewrite delete_row_length by exact I3; lia].
        apply step_exact_x; auto. apply rows_inf_terms. exact Hr.
Qed.
End Inf.
