(** Lemmas for C127: IBEA with NaN fitness, PBEA with NaN and with infinite objectives. *)
From Coq Require Import Reals Lra Lia Permutation.
From Verif Require Import Base RVec Spec_Indicator Spec_PBEA M_APDnan P_APDnan M_Indicator P_Indicator M_PBEA P_PBEA M_IndNaN P_IndNaN P_IndNaN2.
Open Scope R_scope.

(** ** IBEA: NaN fitness counts as indicator value 0 in both directions *)
Section N.
Context (kappa : R) (k : nat).
Hypothesis Hkap : 0 < kappa.
Hypothesis Hk : (0 < k)%nat.
Definition row_nan (m : member_x) : Prop := length (x_fit m) = k /\ (successful m = true \/ x_fit m = repeat NaN k).
Definition ind_nan (a b : member_x) : R :=
  if successful a && successful b then eps_ind (map fin_part (x_fit a)) (map fin_part (x_fit b)) else 0.
Lemma ind_nan_spec a b : row_nan a -> row_nan b -> ibea_ind_x a b = Fin (ind_nan a b).
Proof.
  intros [_ Ha] [_ Hb]. unfold ibea_ind_x, ind_nan. destruct (successful a) eqn:Ea.
  - unfold successful in Ea. rewrite (fin_row_map _ Ea) at 1. destruct (successful b) eqn:Eb.
    + unfold successful in Eb. rewrite (fin_row_map _ Eb) at 1. apply eps_x_fin.
    + destruct Hb as [Hb|Hb]; [congruence|]. rewrite Hb. apply eps_x_fin_nan.
  - destruct Ha as [Ha|Ha]; [congruence|]. rewrite Ha. cbn [andb]. destruct (successful b) eqn:Eb.
    + unfold successful in Eb. rewrite (fin_row_map _ Eb) at 1. apply eps_x_bad_fin. auto.
    + destruct Hb as [Hb|Hb]; [congruence|]. rewrite Hb. apply eps_x_bad_bad; auto.
Qed.
Definition better_ok (a b : member_x) : Prop :=
  successful a = true /\ successful b = true /\ rdominates (map fin_part (x_fit a)) (map fin_part (x_fit b)).
Lemma nan_respects pop : respects ind_nan better_ok pop.
Proof.
  intros a b _ _ (Ea & Eb & Hd). destruct (eps_respects _ _ Hd) as (E1 & E2 & E3). split.
  - intros c _. unfold ind_nan. rewrite Ea, Eb. cbn [andb]. destruct (successful c); [apply E1|lra].
  - unfold ind_nan. rewrite Ea, Eb. cbn [andb]. lra.
Qed.
Lemma ind_nan_nonneg a b : 0 <= ind_nan a b.
Proof. unfold ind_nan. destruct (successful a && successful b); [apply eps_nonneg|lra]. Qed.
Lemma term_le1 a b : exp (- ind_nan a b / kappa) <= 1.
Proof. apply exp_le1; [exact Hkap|apply ind_nan_nonneg]. Qed.
Lemma term_1 a b : 1 <= exp (- ind_nan a b / kappa) -> ind_nan a b = 0.
Proof.
  intros H. destruct (ind_nan_nonneg a b) as [Hp|Hp]; [exfalso|auto].
  assert (- ind_nan a b / kappa < 0). { unfold Rdiv. assert (0 < / kappa) by (apply Rinv_0_lt_compat; lra). nra. }
  apply exp_increasing in H0. rewrite exp_0 in H0. lra.
Qed.
Lemma loss_bad m l : successful m = false -> loss ind_nan kappa m l = - INR (length l).
Proof.
  intros E. unfold loss. f_equal. induction l as [|x l IH]; [reflexivity|]. cbn [map rsum]. rewrite IH. change (length (x :: l)) with (S (length l)). rewrite S_INR.
  unfold ind_nan. rewrite E. cbn [andb]. replace (- 0 / kappa) with 0 by (field; lra). rewrite exp_0. lra.
Qed.
Lemma loss_full w l : loss ind_nan kappa w l <= - INR (length l) -> forall b, In b l -> ind_nan w b = 0.
Proof.
  unfold loss. induction l as [|x l IH]; [intros _ b []|]. cbn [map rsum]. change (length (x :: l)) with (S (length l)). rewrite S_INR. intros H.
  assert (U : rsum (map (fun y => exp (- ind_nan w y / kappa)) l) <= INR (length l)).
  { clear IH H. induction l as [|y l IH]; [cbn; lra|]. cbn [map rsum]. change (length (y :: l)) with (S (length l)). rewrite S_INR. pose proof (term_le1 w y). lra. }
  pose proof (term_le1 w x). intros b [<-|Hb]; [apply term_1; lra|]. apply IH; [lra|exact Hb].
Qed.
(** If a failed member is still there at the end, everybody removed is weakly dominated by every successful survivor. *)
Lemma nan_trims ps pop s : trims ind_nan kappa ps pop s -> (exists b, In b s /\ successful b = false) ->
  exists removed, Permutation (removed ++ s) pop /\ forall a b, In a removed -> In b s -> ind_nan a b = 0.
Proof.
  induction 1 as [pop H|pop i w s H1 H2 H3 H4 IH]; intros Hb.
  - exists []. split; [reflexivity|]. intros a b [].
  - destruct (IH Hb) as (rem & P1 & P2). exists (w :: rem). split.
    + cbn [app]. rewrite (split_nth _ _ _ H2) at 1. apply Permutation_cons_app. exact P1.
    + destruct Hb as (b & B1 & B2). assert (Hin : In b (without i pop)) by (apply (Permutation_in _ P1), in_or_app; now right).
      destruct (In_nth_error _ _ (in_without _ _ _ Hin)) as [j Hj].
      pose proof (H3 j b Hj) as Hle. rewrite (loss_bad b) in Hle by exact B2. assert (Lj : (j < length pop)%nat) by (apply nth_error_Some; congruence).
      assert (Li : (i < length pop)%nat) by (apply nth_error_Some; congruence).
      rewrite length_without in Hle by exact Lj. rewrite <- (length_without i pop Li) in Hle.
      intros a c [<-|Ha] Hc; [|apply P2; auto]. apply (loss_full w _ Hle). apply (Permutation_in _ P1), in_or_app. now right.
Qed.
End N.

Lemma eps_zero_le : forall u v, eps_ind u v = 0 -> length u = length v -> Forall2 Rle v u.
Proof.
  intros u v H L. assert (G : forall i x y, nth_error u i = Some x -> nth_error v i = Some y -> y <= x).
  { intros i x y H1 H2. pose proof (eps_ge u v i x y H1 H2). lra. }
  clear H. revert v L G. induction u as [|x u IH]; intros [|y v] L G; try discriminate; constructor.
  - apply (G 0%nat); reflexivity.
  - apply IH; [injection L; auto|]. intros i a b. apply (G (S i)).
Qed.

(** ** All fitness values NaN: the first member goes, again and again *)
Section AllNaN.
Context {M : Type} (indx : M -> M -> xr) (kappa : R).
Hypothesis Hall : forall a b, indx a b = NaN.
Lemma term_allnan a b : term_x indx kappa a b = NaN.
Proof. unfold term_x. rewrite Hall. reflexivity. Qed.
Lemma allnan_fold (m : M) i : forall (l : list (nat * M)) acc, (acc = NaN \/ exists p, In p l /\ fst p <> i) ->
  fold_left (fun (acc : xr) (p : nat * M) => if Nat.eqb (fst p) i then acc else xadd acc (xopp (term_x indx kappa m (snd p)))) l acc = NaN.
Proof.
  induction l as [|p l IH]; intros acc H; cbn [fold_left]; [destruct H as [H|(p & [] & _)]; exact H|]. rewrite term_allnan. cbn [xopp].
  apply IH. destruct (Nat.eqb_spec (fst p) i) as [E|E]; [|left; destruct acc; reflexivity].
  destruct H as [H|(q & [<-|Hq] & Hn)]; [now left|contradiction|right; eauto].
Qed.
Lemma allnan_assignment pop : (2 <= length pop)%nat -> Forall (eq NaN) (fitness_assignment_x indx kappa pop).
Proof.
  intros H. unfold fitness_assignment_x. apply Forall_forall. intros x Hx. apply in_map_iff in Hx. destruct Hx as (p & <- & _). symmetry. unfold assign_one_x.
  apply allnan_fold. right. destruct pop as [|a [|b pop]]; cbn [length] in H; try lia. cbn [length seq combine].
  destruct (Nat.eq_dec (fst p) 0) as [E|E]; [exists (1%nat, b); split; [right; left; reflexivity|cbn; lia]|exists (0%nat, a); split; [left; reflexivity|cbn; lia]].
Qed.
Lemma allnan_update pop fit i w : Forall (eq NaN) fit -> Forall (eq NaN) (env_update_x indx kappa pop fit i w).
Proof.
  intros H. unfold env_update_x. apply Forall_forall. intros x Hx. apply in_map_iff in Hx. destruct Hx as ([s [f m]] & <- & Hp). cbn [fst snd].
  rewrite term_allnan. apply in_combine_r in Hp. apply in_combine_l in Hp. rewrite Forall_forall in H. rewrite <- (H f Hp). destruct (Nat.eqb i s); reflexivity.
Qed.
Lemma allnan_loop ps : forall fuel pop fit, Forall (eq NaN) fit -> length fit = length pop -> (length pop - ps <= fuel)%nat ->
  exists f, env_loop_x indx kappa fuel ps pop fit = Some (Ok (skipn (length pop - ps) pop, f)).
Proof.
  induction fuel as [|fuel IH]; intros pop fit Hn L Hf; (destruct (le_lt_dec (length pop) ps) as [Hl|Hl]; [rewrite env_loop_done by exact Hl; replace (length pop - ps)%nat with 0%nat by lia; eauto|]); [lia|].
  destruct (env_loop_step indx kappa fuel ps pop fit L Hl) as (i & w & I1 & I2 & I3 & E & L'). rewrite E.
  assert (i = 0%nat) as ->.
  { destruct fit as [|x fit]; [discriminate|]. inversion Hn as [|? ? Hx _]; subst. rewrite (xargmin_first _ 0%nat) in I1 by reflexivity. congruence. }
  destruct pop as [|m pop]; [cbn in Hl; lia|]. cbn [length] in *. unfold delete_row at 1. cbn [firstn skipn app].
  destruct (IH pop (delete_row 0 (env_update_x indx kappa (m :: pop) fit 0 w))) as [f Ef].
  - apply Forall_forall. intros x Hx. apply delete_row_in in Hx. pose proof (allnan_update (m :: pop) fit 0 w Hn) as G. rewrite Forall_forall in G. apply G. exact Hx.
  - rewrite L'. reflexivity.
  - lia.
  - exists f. rewrite Ef. replace (S (length pop) - ps)%nat with (S (length pop - ps)) by lia. reflexivity.
Qed.
End AllNaN.

(** ** PBEA: a NaN objective *)
Lemma xmax_nan_l a : xmax NaN a = NaN. Proof. reflexivity. Qed.
Lemma xmax_nan_r a : xmax a NaN = NaN. Proof. destruct a; reflexivity. Qed.
Lemma xmax_list_nan l : forall x, x = NaN \/ In NaN l -> xmax_list x l = NaN.
Proof.
  induction l as [|y l IH]; intros x [->|H]; cbn [xmax_list]; auto; try (destruct H; fail); try apply xmax_nan_l.
  rewrite (IH y); [apply xmax_nan_r|]. destruct H as [->|H]; auto.
Qed.
Lemma xmin_list_nan l : forall x, x = NaN \/ In NaN l -> xmin_list x l = NaN.
Proof.
  induction l as [|y l IH]; intros x [->|H]; cbn [xmin_list]; auto; try (destruct H; fail).
  rewrite (IH y); [apply xmin_nan_r|]. destruct H as [->|H]; auto.
Qed.
Lemma simple_asf_nan f ref j : nan_at j f -> (j < length ref)%nat -> simple_asf_x f ref = NaN.
Proof.
  intros Hj Hl. unfold simple_asf_x. assert (In NaN (vmap2 xsub f (map Fin ref))) as H.
  { eapply nth_error_In with (n := j). rewrite vmap2_nth, Hj, nth_error_map. destruct (nth_error ref j) eqn:E; [reflexivity|apply nth_error_None in E; lia]. }
  destruct (vmap2 xsub f (map Fin ref)) as [|x t]; [destruct H|]. apply xmax_list_nan. destruct H as [->|H]; auto.
Qed.
Lemma pbea_nan_ind ref delta pop m j : In m pop -> nan_at j (x_obj m) -> (j < length ref)%nat -> forall a b, pbea_ind_x ref delta pop a b = NaN.
Proof.
  intros Hm Hj Hl a b. unfold pbea_ind_x, pref_ind_x.
  assert (E : pbea_min_asf_x ref pop = NaN).
  { unfold pbea_min_asf_x. assert (In NaN (map (fun m => simple_asf_x (x_obj m) ref) pop)) as H by (rewrite <- (simple_asf_nan _ _ _ Hj Hl); apply (in_map (fun m => simple_asf_x (x_obj m) ref)); exact Hm).
    destruct (map (fun m => simple_asf_x (x_obj m) ref) pop) as [|x t]; [destruct H|]. apply xmin_list_nan. destruct H as [->|H]; auto. }
  rewrite E, xsub_nan_r. apply xdiv_nan_r.
Qed.

(** ** Some members always NaN, the others always finite: the first NaN member goes as long as there is one *)
Section Half.
Context {M : Type} (indx : M -> M -> xr) (kappa : R) (ok : M -> bool) (pop0 : list M).
Hypothesis Hok : forall a b, In a pop0 -> In b pop0 -> ok a = true -> ok b = false -> term_x indx kappa a b = NaN.
Hypothesis Hbad : forall a b, In a pop0 -> In b pop0 -> ok a = false -> exists v, term_x indx kappa a b = Fin v.
Definition half (pop : list M) (fit : list xr) : Prop :=
  length fit = length pop /\ forall i m, nth_error pop i = Some m -> exists v, nth_error fit i = Some v /\ if ok m then v = NaN else exists r, v = Fin r.
Lemma half_fold_nan (m : M) i : In m pop0 -> ok m = true -> forall (l : list (nat * M)) acc, (forall p, In p l -> In (snd p) pop0) -> (acc = NaN \/ exists p, In p l /\ fst p <> i /\ ok (snd p) = false) ->
  fold_left (fun (acc : xr) (p : nat * M) => if Nat.eqb (fst p) i then acc else xadd acc (xopp (term_x indx kappa m (snd p)))) l acc = NaN.
Proof.
  intros Hm Em. induction l as [|p l IH]; intros acc Hl H; cbn [fold_left]; [destruct H as [H|(p & [] & _)]; exact H|].
  apply IH; [intros; apply Hl; now right|]. destruct (Nat.eqb_spec (fst p) i) as [E|E].
  - destruct H as [H|(q & [<-|Hq] & Hn & Hb)]; [now left|contradiction|right; eauto].
  - destruct H as [->|(q & [<-|Hq] & Hn & Hb)]; [left; destruct (xopp (term_x indx kappa m (snd p))); reflexivity| |right; eauto].
    left. rewrite (Hok m) by (auto; apply Hl; now left). destruct acc; reflexivity.
Qed.
Lemma half_fold_fin (m : M) i : In m pop0 -> ok m = false -> forall (l : list (nat * M)) acc, (forall p, In p l -> In (snd p) pop0) -> (exists r, acc = Fin r) ->
  exists r, fold_left (fun (acc : xr) (p : nat * M) => if Nat.eqb (fst p) i then acc else xadd acc (xopp (term_x indx kappa m (snd p)))) l acc = Fin r.
Proof.
  intros Hm Em. induction l as [|p l IH]; intros acc Hl H; cbn [fold_left]; [exact H|]. apply IH; [intros; apply Hl; now right|].
  destruct (Nat.eqb (fst p) i); [exact H|]. destruct H as [r ->]. destruct (Hbad m (snd p)) as [v ->]; auto; [apply Hl; now left|]. cbn. eauto.
Qed.
Lemma in_combine_seq (l : list M) : forall s i m, nth_error l i = Some m -> In ((s + i)%nat, m) (combine (seq s (length l)) l).
Proof.
  induction l as [|x l IH]; intros s [|i] m H; cbn [nth_error] in H; try discriminate; cbn [length seq combine].
  - injection H as ->. left. f_equal. lia.
  - right. replace (s + S i)%nat with (S s + i)%nat by lia. apply IH. exact H.
Qed.
Lemma half_assignment : (exists b, In b pop0 /\ ok b = false) -> half pop0 (fitness_assignment_x indx kappa pop0).
Proof.
  intros (b & B1 & B2). split; [apply assignment_length|]. intros i m H. unfold fitness_assignment_x.
  assert (Hl : (i < length pop0)%nat) by (apply nth_error_Some; congruence).
  rewrite nth_error_map, nth_error_combine, nth_error_seq, H, (proj2 (Nat.ltb_lt _ _) Hl). cbn [option_map fst snd Nat.add]. eexists. split; [reflexivity|].
  assert (Hin : forall p, In p (combine (seq 0 (length pop0)) pop0) -> In (snd p) pop0) by (intros [s x] Hp; apply in_combine_r in Hp; exact Hp).
  unfold assign_one_x. destruct (ok m) eqn:Em.
  - apply half_fold_nan; auto; [eapply nth_error_In; eauto|]. right. destruct (In_nth_error _ _ B1) as [j Hj]. exists (j, b). cbn [fst snd].
    split; [apply (in_combine_seq pop0 0 j b Hj)|]. split; [intros ->; congruence|exact B2].
  - apply half_fold_fin; auto; [eapply nth_error_In; eauto|eauto].
Qed.
Lemma half_step pop fit k w : (forall m, In m pop -> In m pop0) -> half pop fit -> nth_error pop k = Some w ->
  half (delete_row k pop) (delete_row k (env_update_x indx kappa pop fit k w)).
Proof.
  intros Hin [L E] Hw. assert (Hk : (k < length pop)%nat) by (apply nth_error_Some; congruence). split.
  - rewrite !delete_row_length; rewrite ?update_length; auto.
  - intros i m. change (@delete_row) with (@without). rewrite !nth_error_without. set (i' := if Nat.ltb i k then i else S i).
    assert (Hi' : i' <> k) by (unfold i'; destruct (Nat.ltb_spec i k); lia). intros H.
    assert (Hl' : (i' < length pop)%nat) by (apply nth_error_Some; congruence). destruct (E _ _ H) as (v & V1 & V2).
    unfold env_update_x. rewrite nth_error_map, !nth_error_combine, nth_error_seq, H, V1, (proj2 (Nat.ltb_lt _ _) Hl').
    cbn [option_map fst snd Nat.add]. rewrite (proj2 (Nat.eqb_neq k i')) by auto. eexists. split; [reflexivity|].
    destruct (ok m) eqn:Em; [subst v; destruct (term_x indx kappa m w); reflexivity|].
    destruct V2 as [r ->]. destruct (Hbad m w) as [u ->]; [apply Hin; eapply nth_error_In; eauto|apply Hin; eapply nth_error_In; eauto|exact Em|]. cbn. eauto.
Qed.
(** The first position with an [ok] member. *)
Lemma half_first pop : forall fit, half pop fit -> (exists m, In m pop /\ ok m = true) -> exists k, first_pos is_nan fit = Some k /\ (exists w, nth_error pop k = Some w /\ ok w = true) /\ filter ok (delete_row k pop) = tl (filter ok pop).
Proof.
  induction pop as [|x pop IH]; intros fit [L E] (m & Hm & Em); [destruct Hm|]. destruct fit as [|v fit]; [discriminate|].
  destruct (E 0%nat x eq_refl) as (v' & V1 & V2). injection V1 as <-. destruct (ok x) eqn:Ex.
  - subst v. exists 0%nat. split; [reflexivity|]. split; [exists x; auto|]. unfold delete_row. cbn [firstn skipn app filter]. rewrite Ex. reflexivity.
  - destruct V2 as [r ->]. destruct Hm as [<-|Hm]; [congruence|]. destruct (IH fit) as (k & K1 & (w & K2 & K3) & K4); [|eauto|].
    { split; [injection L; auto|]. intros i y Hy. apply (E (S i) y Hy). }
    exists (S k). split; [cbn [first_pos is_nan]; rewrite K1; reflexivity|]. split; [exists w; auto|].
    unfold delete_row in *. cbn [firstn app filter]. rewrite Ex. cbn [filter]. exact K4.
Qed.
Lemma skipn_tl {A} n (l : list A) : skipn n (tl l) = skipn (S n) l.
Proof. destruct l; [rewrite skipn_nil; reflexivity|reflexivity]. Qed.
Lemma half_loop ps : forall fuel pop fit, (forall m, In m pop -> In m pop0) -> half pop fit -> (length pop - ps <= fuel)%nat ->
  exists s f, env_loop_x indx kappa fuel ps pop fit = Some (Ok (s, f)) /\ filter ok s = skipn (length pop - ps) (filter ok pop).
Proof.
  induction fuel as [|fuel IH]; intros pop fit Hin Hh Hf; (destruct (le_lt_dec (length pop) ps) as [Hl|Hl]; [rewrite env_loop_done by exact Hl; replace (length pop - ps)%nat with 0%nat by lia; eauto|]); [lia|].
  destruct (env_loop_step indx kappa fuel ps pop fit (proj1 Hh) Hl) as (i & w & I1 & I2 & I3 & E & L'). rewrite E.
  destruct (IH _ _ (fun m H => Hin m (delete_row_in i pop m H)) (half_step pop fit i w Hin Hh I2)) as (s & f & E1 & E2); [rewrite delete_row_length by exact I3; lia|].
  exists s, f. split; [exact E1|]. rewrite E2, delete_row_length by exact I3. destruct (existsb ok pop) eqn:Ex.
  - apply existsb_exists in Ex. destruct (half_first pop fit Hh Ex) as (k & K1 & _ & K4). rewrite (xargmin_first _ _ K1) in I1. injection I1 as ->. rewrite K4, skipn_tl.
    f_equal. lia.
  - assert (N : filter ok pop = []).
    { clear -Ex. induction pop as [|x pop IH]; cbn [existsb filter] in *; [reflexivity|]. destruct (ok x); [discriminate|]. auto. }
    rewrite N, skipn_nil. replace (filter ok (delete_row i pop)) with (@nil M); [apply skipn_nil|]. symmetry. unfold delete_row. rewrite filter_app.
    rewrite (split_nth _ _ _ I2), filter_app in N. cbn [filter] in N. apply app_eq_nil in N. destruct N as [N1 N2]. rewrite N1. destruct (ok w); [discriminate|exact N2].
Qed.
End Half.
