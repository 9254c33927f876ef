(** Lemmas for C106. *)
From Verif Require Import Base RVec Spec_Indicator M_Indicator P_Indicator Spec_PBEA M_PBEA.
From Coq Require Import Reals Lra Permutation.
Open Scope R_scope.

Lemma eps_fold l : forall e, let r := fold_left (fun e v => if Rlt_dec e v then v else e) l e in
  e <= r /\ (forall v, In v l -> v <= r) /\ (r = e \/ In r l).
Proof.
  induction l as [|v l IH]; intros e; cbn [fold_left].
  - split; [lra|]. split; [intros v []|auto].
  - destruct (Rlt_dec e v) as [Hv|Hv].
    + destruct (IH v) as (A & B & C). split; [lra|]. split; [intros x [<-|Hx]; auto|]. right. destruct C as [->|C]; [left; auto|right; auto].
    + destruct (IH e) as (A & B & C). split; [lra|]. split; [intros x [<-|Hx]; [lra|auto]|]. destruct C as [->|C]; [left; auto|right; right; auto].
Qed.
Lemma eps_nonneg a b : 0 <= eps_ind a b.
Proof. exact (proj1 (eps_fold (vmap2 Rminus b a) 0)). Qed.
Lemma in_vmap2 {A B C} (f : A -> B -> C) u v z : In z (vmap2 f u v) -> exists i x y, nth_error u i = Some x /\ nth_error v i = Some y /\ z = f x y.
Proof.
  intros H. destruct (In_nth_error _ _ H) as [i Hi]. rewrite vmap2_nth in Hi.
  destruct (nth_error u i) as [x|] eqn:E1; [|discriminate]. destruct (nth_error v i) as [y|] eqn:E2; [|discriminate]. injection Hi as <-. exists i, x, y. auto.
Qed.
Lemma eps_ge a b i x y : nth_error a i = Some x -> nth_error b i = Some y -> y - x <= eps_ind a b.
Proof.
  intros Hx Hy. apply (proj1 (proj2 (eps_fold (vmap2 Rminus b a) 0))). eapply nth_error_In with (n := i). rewrite vmap2_nth, Hx, Hy. reflexivity.
Qed.
Lemma eps_cases a b : eps_ind a b = 0 \/ exists i x y, nth_error a i = Some x /\ nth_error b i = Some y /\ eps_ind a b = y - x.
Proof.
  destruct (eps_fold (vmap2 Rminus b a) 0) as (_ & _ & [C|C]); [left; exact C|]. right. apply in_vmap2 in C. destruct C as (i & y & x & H1 & H2 & H3). exists i, x, y. auto.
Qed.
Lemma Forall2_nth_R (a b : list R) i x y : Forall2 Rle a b -> nth_error a i = Some x -> nth_error b i = Some y -> x <= y.
Proof.
  intros H. revert i. induction H as [|p q a b H _ IH]; intros [|i]; cbn [nth_error]; try discriminate.
  - intros E1 E2. injection E1 as <-. injection E2 as <-. auto.
  - apply IH.
Qed.
Lemma Forall2_ex_R (a b : list R) i y : Forall2 Rle a b -> nth_error b i = Some y -> exists x, nth_error a i = Some x /\ x <= y.
Proof.
  intros H. revert i. induction H as [|p q a b H _ IH]; intros [|i]; cbn [nth_error]; try discriminate.
  - intros E2. injection E2 as <-. eauto.
  - apply IH.
Qed.
Lemma eps_respects a b : rdominates a b -> (forall c, eps_ind b c <= eps_ind a c) /\ eps_ind b a = 0 /\ 0 < eps_ind a b.
Proof.
  intros [Hle (i & x & y & H1 & H2 & Hlt)]. split; [|split].
  - intros c. destruct (eps_cases b c) as [->|(j & u & v & J1 & J2 & ->)]; [apply eps_nonneg|].
    destruct (Forall2_ex_R _ _ _ _ Hle J1) as (u' & U1 & U2). pose proof (eps_ge _ _ _ _ _ U1 J2). lra.
  - destruct (eps_cases b a) as [->|(j & u & v & J1 & J2 & E)]; [reflexivity|]. pose proof (Forall2_nth_R _ _ _ _ _ Hle J2 J1). pose proof (eps_nonneg b a). lra.
  - pose proof (eps_ge _ _ _ _ _ H1 H2). lra.
Qed.

(** ** Greedy removal with an indicator that respects [better] within the population *)
Section G.
Context {M : Type} (ind : M -> M -> R) (kappa : R) (better : M -> M -> Prop).
Hypothesis Hk : 0 < kappa.
Lemma rsum_le' {A} (f g : A -> R) l : (forall x, In x l -> f x <= g x) -> rsum (map f l) <= rsum (map g l).
Proof.
  induction l as [|x t IH]; intros H; simpl; [lra|].
  pose proof (H x (or_introl eq_refl)). pose proof (IH (fun y Hy => H y (or_intror Hy))). lra.
Qed.
Definition respects (pop : list M) : Prop := forall a b, In a pop -> In b pop -> better a b -> (forall c, In c pop -> ind b c <= ind a c) /\ ind b a < ind a b.
Lemma in_without {A} k (l : list A) x : In x (without k l) -> In x l.
Proof. intros H. destruct (In_nth_error _ _ H) as [i Hi]. rewrite nth_error_without in Hi. eapply nth_error_In; eauto. Qed.
Lemma least_not_better pop k w : respects pop -> nth_error pop k = Some w ->
  (forall i m, nth_error pop i = Some m -> loss ind kappa w (without k pop) <= loss ind kappa m (without i pop)) ->
  forall b, In b (without k pop) -> ~ better w b.
Proof.
  intros Hr H2 Hmin b Hin Hw. pose proof (Hr _ _ (nth_error_In _ _ H2) (in_without _ _ _ Hin) Hw) as [B1 B2].
  destruct (In_nth_error _ _ Hin) as [i0 Hi0]. rewrite nth_error_without in Hi0.
  set (i := if Nat.ltb i0 k then i0 else S i0) in *.
  assert (Hn : i <> k) by (unfold i; destruct (Nat.ltb_spec i0 k); lia).
  pose proof (Hmin _ _ Hi0) as V2. unfold loss in V2.
  rewrite (rsum_without _ _ _ _ H2), (rsum_without _ _ _ _ Hi0) in V2.
  assert (Hik : exists k', nth_error (without i pop) k' = Some w).
  { exists (if Nat.ltb k i then k else (k - 1)%nat). rewrite nth_error_without.
    destruct (Nat.ltb_spec k i) as [Hl|Hl].
    - replace (Nat.ltb k i) with true by (symmetry; apply Nat.ltb_lt; auto). auto.
    - replace (Nat.ltb (k - 1) i) with false by (symmetry; apply Nat.ltb_ge; lia). replace (S (k - 1)) with k by lia. auto. }
  destruct Hik as [k' Hk'].
  pose proof (rsum_without (fun x => exp (- ind w x / kappa)) _ _ _ Hk') as S1.
  pose proof (rsum_without (fun x => exp (- ind b x / kappa)) _ _ _ Hk') as S2.
  rewrite (rsum_without _ _ _ _ Hi0) in S1. rewrite (rsum_without _ _ _ _ Hi0) in S2.
  assert (Hle : rsum (map (fun x => exp (- ind w x / kappa)) (without k' (without i pop))) <=
                rsum (map (fun x => exp (- ind b x / kappa)) (without k' (without i pop)))).
  { apply rsum_le'. intros x Hx. assert (Hx' : In x pop) by (eapply in_without, in_without; exact Hx). destruct (Rle_lt_or_eq_dec _ _ (B1 x Hx')) as [Hl|He].
    - left. apply exp_increasing. unfold Rdiv. apply Rmult_lt_compat_r; [apply Rinv_0_lt_compat; auto|lra].
    - rewrite He. lra. }
  assert (Hlt : exp (- ind w b / kappa) < exp (- ind b w / kappa)).
  { apply exp_increasing. unfold Rdiv. apply Rmult_lt_compat_r; [apply Rinv_0_lt_compat; auto|lra]. }
  lra.
Qed.
Lemma trims_up_closed ps pop pop' : trims ind kappa ps pop pop' -> respects pop ->
  exists removed, Permutation (removed ++ pop') pop /\ forall a b, In a removed -> In b pop' -> ~ better a b.
Proof.
  induction 1 as [pop H|pop k w pop' H1 H2 H3 H4 IH]; intros Hr.
  - exists []. split; [reflexivity|]. intros a b [].
  - destruct IH as (rem & P1 & P2). { intros a b Ha Hb Hab. destruct (Hr a b (in_without _ _ _ Ha) (in_without _ _ _ Hb) Hab) as [B1 B2]. split; [|exact B2]. intros c Hc. apply B1. eapply in_without; eauto. }
    exists (w :: rem). split.
    + rewrite (split_nth _ _ _ H2) at 1. cbn [app]. apply Permutation_cons_app. exact P1.
    + intros a b [<-|Ha] Hb; [|apply P2; auto]. apply (least_not_better pop k w Hr H2 H3). apply (Permutation_in b P1). apply in_or_app. auto.
Qed.
End G.

Lemma pbea_min_le ref pop m : In m pop -> pbea_min_asf ref pop <= simple_asf (m_obj m) ref.
Proof.
  intros Hm. unfold pbea_min_asf. pose proof (in_map (fun m => simple_asf (m_obj m) ref) _ _ Hm) as Hi. cbv beta in Hi. destruct (map _ pop) as [|x t]; [destruct Hi|].
  destruct (rmin_list_le x t) as (A & B & _). destruct Hi as [<-|Hi]; auto.
Qed.
Lemma pbea_respects ref delta pop0 : 0 < delta -> (forall m, In m pop0 -> m_fit m = m_obj m) ->
  respects (pbea_ind ref delta pop0) (fun a b => rdominates (m_fit a) (m_fit b)) pop0.
Proof.
  intros Hd Hf a b Ha Hb Hab. destruct (eps_respects _ _ Hab) as (E1 & E2 & E3). unfold pbea_ind, pref_ind.
  assert (Hn : forall c, In c pop0 -> 0 < simple_asf (m_fit c) ref + delta - pbea_min_asf ref pop0) by (intros c Hc; rewrite (Hf c Hc); pose proof (pbea_min_le ref pop0 c Hc); lra).
  split.
  - intros c Hc. unfold Rdiv. apply Rmult_le_compat_r; [left; apply Rinv_0_lt_compat, Hn, Hc|apply E1].
  - rewrite E2. unfold Rdiv. rewrite Rmult_0_l. apply Rmult_lt_0_compat; [exact E3|apply Rinv_0_lt_compat, Hn, Hb].
Qed.
Lemma ibea_respects pop : respects ibea_ind (fun a b => rdominates (m_fit a) (m_fit b)) pop.
Proof. intros a b _ _ Hab. destruct (eps_respects _ _ Hab) as (E1 & E2 & E3). unfold ibea_ind. split; [intros c _; apply E1|lra]. Qed.
