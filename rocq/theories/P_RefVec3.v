(** Rotations, neighbouring angles, preferred and non-preferred solutions. *)
From Verif Require Import Base RVec M_APD M_BaseEA M_Lattice P_Lattice M_RefVec P_RefVec P_RefVec2.
From Coq Require Import Reals Lra.
Open Scope R_scope.

Lemma norm_one_dot v : norm v = 1 <-> dot v v = 1.
Proof.
  unfold norm. split; intros H.
  - apply (f_equal (fun x => x * x)) in H. rewrite sqrt_sqrt in H by apply dot_self_nonneg. lra.
  - rewrite H. apply sqrt_1.
Qed.

Lemma normalize1_unit v : norm v = 1 -> normalize1 v = Some v.
Proof.
  intros H. unfold normalize1. rewrite H. destruct (Req_EM_T 1 0); [lra|]. f_equal. apply map_id_in.
  intros x _. unfold Rdiv. rewrite Rinv_1. lra.
Qed.

Lemma vsub_zero_eq a : forall b, length a = length b -> (forall x, In x (vsub a b) -> x = 0) -> a = b.
Proof.
  induction a as [|x a IH]; intros [|y b] L H; try discriminate; auto.
  f_equal; [|apply IH; [injection L; auto|]].
  - assert (E : x - y = 0) by (apply H; left; auto). lra.
  - intros z Hz. apply H. right; auto.
Qed.
Lemma vadd_zero_eq a : forall b, length a = length b -> (forall x, In x (vadd a b) -> x = 0) -> a = map Ropp b.
Proof.
  induction a as [|x a IH]; intros [|y b] L H; try discriminate; auto.
  simpl. f_equal; [|apply IH; [injection L; auto|]].
  - assert (E : x + y = 0) by (apply H; left; auto). lra.
  - intros z Hz. apply H. right; auto.
Qed.

Lemma unit_dot_bounds a b : length a = length b -> norm a = 1 -> norm b = 1 -> a <> b -> a <> map Ropp b -> -1 < dot a b < 1.
Proof.
  intros L Ha Hb N1 N2. apply norm_one_dot in Ha, Hb.
  assert (S : dot (vsub a b) (vsub a b) = 2 - 2 * dot a b).
  { rewrite dot_sub_l, !dot_sub_r by auto. rewrite (dot_comm b a). lra. }
  assert (P : dot (vadd a b) (vadd a b) = 2 + 2 * dot a b).
  { rewrite dot_add_l, !dot_add_r by auto. rewrite (dot_comm b a). lra. }
  pose proof (dot_self_nonneg (vsub a b)). pose proof (dot_self_nonneg (vadd a b)).
  split.
  - destruct (Req_EM_T (dot (vadd a b) (vadd a b)) 0) as [Z|Z]; [|lra]. exfalso. apply N2, vadd_zero_eq; auto. apply dot_self_zero; auto.
  - destruct (Req_EM_T (dot (vsub a b) (vsub a b)) 0) as [Z|Z]; [|lra]. exfalso. apply N1, vsub_zero_eq; auto. apply dot_self_zero; auto.
Qed.

Lemma reflect_orth v x : length x = length v -> dot v x = 0 -> reflect v x = x.
Proof.
  intros L H. unfold reflect. rewrite H. apply list_nth_ext; [rewrite vsub_length; rewrite ?vscale_length; auto|].
  intros i Hi. rewrite vsub_length in Hi by (rewrite vscale_length; auto). unfold vsub.
  rewrite nth_vmap2 by (rewrite ?vscale_length; auto). rewrite nth_vscale. unfold Rdiv. lra.
Qed.

Lemma nth_reflect v x i : length x = length v -> (i < length v)%nat ->
  nth i (reflect v x) 0 = nth i x 0 - (2 * dot v x / dot v v) * nth i v 0.
Proof.
  intros L H. unfold reflect, vsub. rewrite nth_vmap2 by (rewrite ?vscale_length; lia). rewrite nth_vscale. auto.
Qed.

Lemma rotation_spec (a b : list R) (xs : list (list R)) :
  length a = length b -> norm a = 1 -> norm b = 1 -> a <> b -> a <> map Ropp b ->
  exists ys, rotate a b xs = Some ys /\ length ys = length xs /\
    (forall i j xi xj, nth_error xs i = Some xi -> nth_error xs j = Some xj -> length xi = length a -> length xj = length a ->
       exists yi yj, nth_error ys i = Some yi /\ nth_error ys j = Some yj /\ dot yi yj = dot xi xj) /\
    (forall i, nth_error xs i = Some a -> nth_error ys i = Some b) /\
    (forall i x, nth_error xs i = Some x -> length x = length a -> dot x a = 0 -> dot x b = 0 -> nth_error ys i = Some x) /\
    (forall i, nth_error xs i = Some b -> nth_error ys i = Some (vsub (vscale (2 * dot a b) b) a)).
Proof.
  intros L Ha Hb N1 N2. destruct (unit_dot_bounds a b L Ha Hb N1 N2) as (B1 & B2).
  destruct (rotate_defined a b xs a b) as (ys & E & Ly); auto using normalize1_unit.
  exists ys. split; auto. split; auto.
  destruct (rotate_some a b xs ys (eq_sym L) E) as (a' & b' & m & Ea & Eb & Em & D1 & D2 & La & Lb & Lm & A1 & A2 & M1 & H).
  rewrite normalize1_unit in Ea by auto. injection Ea as <-. rewrite normalize1_unit in Eb by auto. injection Eb as <-.
  assert (L1 : length (vsub a m) = length a) by (apply vsub_length; congruence).
  assert (L2 : length (vsub m b) = length a) by (rewrite vsub_length; congruence).
  destruct (normalize1_spec _ _ Em) as (_ & _ & Mm & Np). set (s := norm (vadd a b)) in *.
  assert (S2 : s * s = 2 + 2 * dot a b).
  { unfold s. rewrite norm_sq, dot_add_l, !dot_add_r by auto. rewrite (dot_comm b a). lra. }
  assert (Am : dot a m = s / 2).
  { rewrite Mm, dot_scale_r, dot_add_r by auto. rewrite A1. replace (1 + dot a b) with (s * s / 2) by lra. field. lra. }
  assert (Bm : dot b m = s / 2).
  { rewrite Mm, dot_scale_r, dot_add_r by auto. rewrite A2, (dot_comm b a). replace (dot a b + 1) with (s * s / 2) by lra. field. lra. }
  split; [|split; [|split]].
  - intros i j xi xj Hi Hj Li Lj. eexists; eexists. split; [apply H; eauto|]. split; [apply H; eauto|].
    rewrite reflect_isometry by (auto; rewrite reflect_length; congruence). apply reflect_isometry; congruence.
  - intros i Hi. rewrite (H i a Hi) by auto. f_equal. rewrite reflect_swaps by (auto; congruence).
    apply reflect_swaps; auto; congruence.
  - intros i x Hi Lx X1 X2. rewrite (H i x Hi) by auto. f_equal.
    assert (Xm : dot m x = 0). { rewrite Mm, dot_scale_l, dot_add_l by auto. rewrite (dot_comm a x), (dot_comm b x), X1, X2. lra. }
    rewrite (reflect_orth (vsub a m) x); try congruence.
    2:{ rewrite dot_sub_l by congruence. rewrite (dot_comm a x), X1, Xm. lra. }
    apply reflect_orth; [congruence|]. rewrite dot_sub_l by congruence. rewrite Xm, (dot_comm b x), X2. lra.
  - intros i Hi. rewrite (H i b Hi) by auto. f_equal.
    set (x1 := reflect (vsub a m) b).
    assert (Lx1 : length x1 = length a) by (unfold x1; rewrite reflect_length; congruence).
    assert (D1v : dot (vsub a m) (vsub a m) = 2 - s).
    { rewrite dot_sub_l, !dot_sub_r by congruence. rewrite (dot_comm m a), Am, A1, M1. lra. }
    assert (D2v : dot (vsub m b) (vsub m b) = 2 - s).
    { rewrite dot_sub_l, !dot_sub_r by congruence. rewrite (dot_comm m b), Bm, A2, M1. lra. }
    rewrite D1v in D1.
    assert (Dab : dot (vsub a m) b = dot a b - s / 2).
    { rewrite dot_sub_l by congruence. rewrite (dot_comm m b), Bm. lra. }
    assert (X1 : forall j, (j < length a)%nat -> nth j x1 0 = nth j b 0 - (2 * (dot a b - s/2) / (2 - s)) * (nth j a 0 - nth j m 0)).
    { intros j Hj. unfold x1. rewrite nth_reflect by (rewrite ?L1; congruence || auto; lia). rewrite D1v, Dab.
      unfold vsub at 1. rewrite nth_vmap2 by (congruence || lia). auto. }
    assert (Dmx : dot (vsub m b) x1 = (s/2 - 1) - (2 * (dot a b - s/2) / (2 - s)) * (s/2 - 1 - (dot a b - s/2))).
    { unfold x1, reflect. rewrite dot_sub_r by (rewrite vscale_length; congruence). rewrite dot_scale_r, D1v, Dab.
      rewrite (dot_sub_l m b b), (dot_sub_r (vsub m b) a m), !dot_sub_l by congruence.
      rewrite (dot_comm m b), (dot_comm m a), (dot_comm b a), Am, Bm, A2, M1. field. auto. }
    apply list_nth_ext.
    { rewrite reflect_length by congruence. rewrite Lx1. rewrite vsub_length; rewrite vscale_length; congruence. }
    intros j Hj. rewrite reflect_length, Lx1 in Hj by congruence.
    rewrite nth_reflect by (congruence || lia). rewrite D2v, Dmx, X1 by auto.
    unfold vsub. rewrite !nth_vmap2 by (rewrite ?vscale_length; congruence || lia). rewrite nth_vscale.
    assert (Mj : nth j m 0 = (nth j a 0 + nth j b 0) / s).
    { rewrite Mm, nth_vscale. unfold vadd. rewrite nth_vmap2 by (congruence || lia). field. lra. }
    rewrite Mj. replace (dot a b) with (s * s / 2 - 1) by lra. field. split; lra.
Qed.

Lemma vadd_self a : vadd a a = vscale 2 a.
Proof. induction a as [|x a IH]; auto. unfold vadd, vscale in *. cbn [vmap2 map]. rewrite IH. f_equal. lra. Qed.
Lemma vsub_self_dot a : dot (vsub a a) (vsub a a) = 0.
Proof. induction a as [|x a IH]; auto. unfold vsub in *. cbn [vmap2 dot]. rewrite IH. lra. Qed.

Lemma rotate_same a xs : rotate a a xs = None.
Proof.
  unfold rotate. destruct (normalize1 a) as [u|] eqn:E; cbn [obind]; auto.
  destruct (normalize1_spec _ _ E) as (_ & U & _). 
  assert (M : normalize1 (vadd u u) = Some u).
  { rewrite vadd_self. unfold normalize1. rewrite norm_scale. apply norm_one_dot in U. rewrite U.
    rewrite Rabs_right by lra. destruct (Req_EM_T (2 * 1) 0); [lra|]. f_equal. unfold vscale. rewrite map_map. apply map_id_in.
    intros x _. field. }
  rewrite M. cbn [obind]. unfold householder at 1. rewrite vsub_self_dot. destruct (Req_EM_T 0 0); [auto|contradiction].
Qed.

Lemma norm_opp a : norm (map Ropp a) = norm a.
Proof. unfold norm. f_equal. induction a as [|x a IH]; simpl; auto. rewrite IH. lra. Qed.

Lemma rotate_opposite a xs : rotate a (map Ropp a) xs = None.
Proof.
  unfold rotate. destruct (normalize1 a) as [u|] eqn:E; cbn [obind]; auto.
  assert (O : normalize1 (map Ropp a) = Some (map Ropp u)).
  { unfold normalize1 in *. rewrite norm_opp. destruct (Req_EM_T (norm a) 0); [discriminate|]. injection E as <-. f_equal.
    rewrite !map_map. apply map_ext. intros x. field. auto. }
  rewrite O. cbn [obind].
  assert (Z : norm (vadd u (map Ropp u)) = 0).
  { apply all_zero_norm. clear. induction u as [|x u IH]; intros y Hy; simpl in Hy; [destruct Hy|].
    destruct Hy as [<-|Hy]; [lra|]. apply IH; auto. }
  unfold normalize1 at 1. rewrite Z. destruct (Req_EM_T 0 0); [auto|contradiction].
Qed.

Lemma rotate_toward_parallel (a : list R) (xs : list (list R)) (degrees : R) : norm a = 1 ->
  rotate_toward a a xs degrees = None /\ rotate_toward a (map Ropp a) xs degrees = None.
Proof.
  intros H. pose proof H as H'. apply norm_one_dot in H'. split.
  - unfold rotate_toward. rewrite normalize1_unit by auto. cbn [obind]. cbv zeta. rewrite H'.
    destruct (Rlt_dec _ _); [rewrite rotate_same; auto|].
    destruct (Req_EM_T (1 * 1 - 1) 0) as [|N]; auto. exfalso. apply N. lra.
  - assert (Ho : norm (map Ropp a) = 1) by (rewrite norm_opp; auto).
    unfold rotate_toward. rewrite !normalize1_unit by auto. cbn [obind]. cbv zeta.
    assert (D : dot a (map Ropp a) = -1).
    { transitivity (- dot a a); [|lra]. clear. induction a as [|x a IH]; simpl; [lra|]. rewrite IH. lra. }
    rewrite D. destruct (Rlt_dec _ _); [rewrite rotate_opposite; auto|].
    destruct (Req_EM_T (-1 * -1 - 1) 0) as [|N]; auto. exfalso. apply N. lra.
Qed.

Lemma rotate_toward_spec (a f : list R) (xs : list (list R)) (degrees : R) (phi theta : R) :
  length a = length f -> norm a = 1 -> norm f = 1 -> 0 < phi < PI -> cos phi = dot a f ->
  theta = degrees * PI / 180 -> 0 < theta ->
  exists ys reached r, rotate_toward a f xs degrees = Some (ys, reached) /\ length ys = length xs /\
    (reached = true <-> phi < theta) /\
    (reached = true -> r = f) /\
    (reached = false -> norm r = 1 /\ dot a r = cos theta /\ dot f r = cos (phi - theta) /\ exists x y, r = vadd (vscale x a) (vscale y f)) /\
    (forall i, nth_error xs i = Some a -> nth_error ys i = Some r) /\
    (forall i j xi xj, nth_error xs i = Some xi -> nth_error xs j = Some xj -> length xi = length a -> length xj = length a ->
       exists yi yj, nth_error ys i = Some yi /\ nth_error ys j = Some yj /\ dot yi yj = dot xi xj).
Proof.
  intros L Ha Hf Hphi Hc -> Ht. set (theta := degrees * PI / 180) in *.
  assert (Cb : -1 < cos phi < 1).
  { split.
    - rewrite <- cos_PI. apply cos_decreasing_1; lra.
    - rewrite <- cos_0. apply cos_decreasing_1; lra. }
  unfold rotate_toward. rewrite !normalize1_unit by auto. cbn [obind]. cbv zeta. fold theta. rewrite <- Hc.
  rewrite acos_cos by lra. pose proof Ha as Da. pose proof Hf as Df. apply norm_one_dot in Da, Df.
  destruct (Rlt_dec phi theta) as [Hlt|Hge].
  - destruct (rotation_spec a f xs) as (ys & E & Ly & I & S & _); auto.
    { intros ->. lra. }
    { intros E. assert (D : dot f f = 1) by auto. rewrite E in Hc.
      assert (X : dot (map Ropp f) f = - dot f f) by (clear; induction f as [|x f IH]; simpl; [lra|rewrite IH; lra]). lra. }
    exists ys, true, f. rewrite E. split; auto. split; auto. split; [tauto|]. split; auto. split; [discriminate|]. auto.
  - assert (Det : cos phi * cos phi - 1 <> 0) by nra.
    destruct (Req_EM_T (cos phi * cos phi - 1) 0); [contradiction|].
    set (x0 := (cos (phi - theta) * cos phi - cos theta) / (cos phi * cos phi - 1)).
    set (x1 := (cos phi * cos theta - cos (phi - theta)) / (cos phi * cos phi - 1)).
    set (r := vadd (vscale x0 a) (vscale x1 f)).
    assert (Lr : length r = length a) by (unfold r; rewrite vadd_length; rewrite !vscale_length; auto).
    assert (R1 : dot a r = cos theta).
    { unfold r. rewrite dot_add_r by (rewrite !vscale_length; auto). rewrite !dot_scale_r, Da, <- Hc. unfold x0, x1. field. auto. }
    assert (R2 : dot f r = cos (phi - theta)).
    { unfold r. rewrite dot_add_r by (rewrite !vscale_length; auto). rewrite !dot_scale_r, Df, (dot_comm f a), <- Hc. unfold x0, x1. field. auto. }
    assert (R3 : dot r r = 1).
    { unfold r at 1. rewrite dot_add_l by (rewrite !vscale_length; auto). rewrite !dot_scale_l, R1, R2.
      unfold x0, x1. rewrite cos_minus.
      pose proof (sin2_cos2 phi) as S1. pose proof (sin2_cos2 theta) as S2. unfold Rsqr in S1, S2.
      apply Rmult_eq_reg_r with (cos phi * cos phi - 1); auto.
      field_simplify; auto.
      replace (cos phi ^ 2) with (1 - sin phi * sin phi) by lra.
      replace (cos theta ^ 2) with (1 - sin theta * sin theta) by lra. nra. }
    assert (Tpi : theta < PI) by lra.
    assert (Ct : -1 < cos theta < 1).
    { split.
      - rewrite <- cos_PI. apply cos_decreasing_1; lra.
      - rewrite <- cos_0. apply cos_decreasing_1; lra. }
    assert (Nr : norm r = 1) by (apply norm_one_dot; auto).
    destruct (rotation_spec a r xs) as (ys & E & Ly & I & S & _); auto.
    { intros Q. rewrite <- Q in R1. lra. }
    { intros Q. rewrite Q in R1.
      assert (X : dot (map Ropp r) r = - dot r r) by (clear; induction r as [|x g IH]; simpl; [lra|rewrite IH; lra]). lra. }
    exists ys, false, r. rewrite E. split; auto. split; auto. split; [split; [discriminate|tauto]|]. split; [discriminate|].
    split; [intros _; split; auto; split; auto; split; auto; exists x0, x1; auto|]. auto.
Qed.

(** ** Preferred / non-preferred solutions *)
Lemma nth_error_flat_map_blocks {A B} (f : A -> list B) k l : (forall x, In x l -> length (f x) = k) ->
  forall i j x y, nth_error l i = Some x -> nth_error (f x) j = Some y -> nth_error (flat_map f l) (i * k + j) = Some y.
Proof.
  induction l as [|a l IH]; intros H i j x y Hi Hj; [destruct i; discriminate|]. simpl.
  destruct i as [|i]; simpl in Hi.
  - injection Hi as ->. rewrite nth_error_app1; auto. simpl. apply nth_error_Some. congruence.
  - assert (La : length (f a) = k) by (apply H; left; auto). rewrite nth_error_app2 by (simpl; lia).
    replace (S i * k + j - length (f a))%nat with (i * k + j)%nat by (simpl; lia).
    eapply IH; eauto. intros z Hz. apply H; right; auto.
Qed.

Lemma unit_row_scale_any v : exists c, 0 <= c /\ unit_row v = vscale c v.
Proof.
  exists (/ zero_eps (norm v)). split.
  - left. apply Rinv_0_lt_compat. unfold zero_eps. destruct (Req_EM_T (norm v) 0); [apply eps_pos|]. pose proof (norm_nonneg v). lra.
  - unfold unit_row, vscale. apply map_ext. intros x. unfold Rdiv. lra.
Qed.

Lemma preferred_spec (s : rv) (z : list (list R)) (n : nat) : z <> [] -> length z <> n ->
  exists s', interactive_adapt_1 s z n = Ok s' /\ length (values s') = (length z * length (init_values s))%nat /\
    forall i j zi v, nth_error z i = Some zi -> nth_error (init_values s) j = Some v ->
      exists w, nth_error (values s') (i * length (init_values s) + j) = Some w /\
        exists c, 0 <= c /\ w = vscale c (vadd (vscale (1/5) v) (vscale (4/5) zi)).
Proof.
  intros Hz Hn. unfold interactive_adapt_1. replace (Nat.eqb (length z) n) with false by (symmetry; apply Nat.eqb_neq; auto).
  replace (Nat.eqb (length z) 0) with false by (destruct z; [congruence|auto]).
  eexists; split; [reflexivity|]. cbn [normalize_rv set_rows values].
  split; [rewrite map_length; apply flat_map_shifted_length|].
  intros i j zi v Hi Hj. eexists. split.
  - rewrite nth_error_map. rewrite (nth_error_flat_map_blocks _ (length (init_values s)) z) with (x := zi) (y := vadd (vscale (2/10) v) (vscale (1 - 2/10) zi)); [reflexivity| |auto|].
    + intros x _. unfold shifted. apply map_length.
    + unfold shifted. rewrite nth_error_map, Hj. reflexivity.
  - replace (1/5) with (2/10) by lra. replace (4/5) with (1 - 2/10) by lra. apply unit_row_scale_any.
Qed.

Lemma mask_sel_filter {A} (far : list R -> bool) (l : list A) : forall p : list (list R), length l = length p ->
  mask_sel (map far p) l = map fst (filter (fun k => far (snd k)) (combine l p)).
Proof.
  induction l as [|x l IH]; intros [|y p] L; simpl; try discriminate; auto.
  injection L as L. rewrite (IH p L). destruct (far y); auto.
Qed.
Lemma mask_sel_filter_self (far : list R -> bool) (p : list (list R)) : mask_sel (map far p) p = filter far p.
Proof. induction p as [|y p IH]; simpl; auto. rewrite IH. destruct (far y); auto. Qed.

Lemma far_enough_spec z p : far_enough (2/10) z p = true <-> forall x, In x z -> 1/5 <= norm (vsub (map (fun t => t / rsum (map Rabs x)) x) p).
Proof.
  unfold far_enough. rewrite forallb_forall. split; intros H x Hx; specialize (H x Hx); unfold norm1 in *.
  - destruct (Rle_dec _ _); [lra|discriminate].
  - destruct (Rle_dec _ _); [auto|lra].
Qed.

Lemma non_preferred_spec (s : rv) (z : list (list R)) (n : nat) : length z <> n -> length (values s) = length (planar s) ->
  exists s', interactive_adapt_2 s z n = Ok s' /\
    exists far : list R -> bool,
      (forall p, far p = true <-> forall x, In x z -> 1/5 <= norm (vsub (map (fun t => t / rsum (map Rabs x)) x) p)) /\
      values s' = map fst (filter (fun k => far (snd k)) (combine (values s) (planar s))) /\
      planar s' = filter far (planar s).
Proof.
  intros Hz L. unfold interactive_adapt_2. replace (Nat.eqb (length z) n) with false by (symmetry; apply Nat.eqb_neq; auto).
  cbv zeta. unfold masked. rewrite map_length, L, Nat.eqb_refl. cbn [bind].
  eexists; split; [reflexivity|]. exists (far_enough (2/10) z). split; [apply far_enough_spec|].
  cbn [set_rows values planar]. split; [apply mask_sel_filter; auto|apply mask_sel_filter_self].
Qed.

Lemma all_named (s : rv) (z : list (list R)) : Forall unit_or_zero (init_values s) ->
  exists s1 s2, interactive_adapt_1 s z (length z) = Ok s1 /\ interactive_adapt_2 s z (length z) = Ok s2 /\
    values s1 = init_values s /\ values s2 = init_values s.
Proof.
  intros U. unfold interactive_adapt_1, interactive_adapt_2. rewrite Nat.eqb_refl.
  eexists; eexists; split; [reflexivity|]. split; [reflexivity|]. cbn [normalize_rv set_rows values].
  rewrite (map_id_in unit_row); auto. intros v Hv. rewrite Forall_forall in U. apply unit_or_zero_fix; auto.
Qed.

Lemma all_removed :
  exists (s s' : rv) (z : list (list R)), length z <> 2%nat /\ length (values s) = 1%nat /\ init_values s = values s /\
    manage s (PrefNonPreferred z 2) = Ok s' /\ values s' = [[1; 0]; [0; 1]] /\ ~ In (hd [] (init_values s)) (values s').
Proof.
  set (v := [3/5; 4/5]). set (p := [3/7; 4/7]).
  exists (mkRV [v] [p] [v] [p] 2 1). eexists. exists [[3; 4]]. split; [simpl; lia|]. split; auto. split; auto.
  assert (F : far_enough (2/10) [[3; 4]] p = false).
  { unfold far_enough, norm1. cbn [forallb map rsum]. destruct (Rle_dec _ _) as [C|]; auto. exfalso. revert C.
    assert (Z : norm (vsub [3 / (Rabs 3 + (Rabs 4 + 0)); 4 / (Rabs 3 + (Rabs 4 + 0))] p) = 0).
    { apply all_zero_norm. rewrite !Rabs_right by lra. unfold p. intros x [<-|[<-|[]]]; field. }
    rewrite Z. lra. }
  split; [|split].
  - unfold manage, interactive_adapt_2. cbn [length Nat.eqb values planar map]. rewrite F. cbv zeta. unfold masked. cbn [length Nat.eqb bind mask_sel]. reflexivity.
  - unfold add_edges. cbn [normalize_rv set_rows values n_obj app]. rewrite eye_unit. reflexivity.
  - unfold add_edges. cbn [normalize_rv set_rows values n_obj app]. rewrite eye_unit. simpl.
    intros [H|[H|[]]]; injection H; intros; lra.
Qed.

(** ** Neighbouring angles *)
Lemma nth_error_drop_at {A} k (l : list A) j : (k < length l)%nat -> nth_error (drop_at k l) j = nth_error l (if Nat.ltb j k then j else S j).
Proof.
  intros H. unfold drop_at. assert (Lf : length (firstn k l) = k) by (rewrite firstn_length; lia).
  destruct (Nat.ltb_spec j k) as [Hj|Hj].
  - rewrite nth_error_app1 by lia. revert l j H Lf Hj. clear. induction k as [|k IH]; intros [|x l] j H Lf Hj; simpl in *; try lia.
    destruct j as [|j]; auto. simpl. apply IH; lia.
  - rewrite nth_error_app2 by lia. rewrite Lf. rewrite <- (firstn_skipn (S k) l) at 2. rewrite nth_error_app2 by (rewrite firstn_length; lia).
    f_equal. rewrite firstn_length. lia.
Qed.

Lemma second_largest_spec l i : (2 <= length l)%nat -> (forall x, In x l -> exists y, nth_error l i = Some y /\ x <= y) ->
  exists j b, second_largest l = Some b /\ j <> i /\ nth_error l j = Some b /\ forall k x, k <> i -> nth_error l k = Some x -> x <= b.
Proof.
  intros L T. unfold second_largest.
  destruct (argmax_some l) as (k & Ek); [destruct l; [simpl in L; lia|congruence]|]. rewrite Ek.
  destruct (argmax_spec _ _ Ek) as (m & Hm & Hmax & _). pose proof (argmax_lt _ _ Ek) as Hk.
  destruct (argmax_some (drop_at k l)) as (j & Ej).
  { intros Z. apply (f_equal (@length R)) in Z. unfold drop_at in Z. rewrite app_length, firstn_length, skipn_length in Z. simpl in Z. lia. }
  rewrite Ej. destruct (argmax_spec _ _ Ej) as (b & Hb & Bmax & _). rewrite Hb.
  rewrite nth_error_drop_at in Hb by auto. set (j' := if Nat.ltb j k then j else S j) in *.
  assert (Hjk : j' <> k) by (unfold j'; destruct (Nat.ltb_spec j k); lia).
  assert (Ball : forall q x, q <> k -> nth_error l q = Some x -> x <= b).
  { intros q x Hq Hx. apply Bmax. destruct (Nat.ltb_spec q k).
    - apply (nth_error_In _ q). rewrite nth_error_drop_at by auto. replace (Nat.ltb q k) with true by (symmetry; apply Nat.ltb_lt; auto). auto.
    - apply (nth_error_In _ (q - 1)%nat). rewrite nth_error_drop_at by auto.
      replace (Nat.ltb (q - 1) k) with false by (symmetry; apply Nat.ltb_ge; lia). replace (S (q - 1)) with q by lia. auto. }
  destruct (Nat.eq_dec k i) as [->|Hki].
  - exists j', b. split; auto.
  - (* the maximum is attained at i as well *)
    destruct (T m) as (y & Hy & My); [apply (nth_error_In _ k); auto|].
    assert (Y1 : y <= b) by (apply (Ball i y); auto).
    assert (B1 : b <= m) by (apply Hmax, (nth_error_In _ j'); auto).
    assert (b = m) by lra. subst b.
    exists k, m. split; auto. split; auto. split; auto. intros q x _ Hx. apply Hmax. eapply nth_error_In; eauto.
Qed.

Lemma unit_dot_le (vs : list (list R)) n u v : (forall u, In u vs -> length u = n /\ norm u = 1) -> In u vs -> In v vs -> -1 <= dot u v <= 1.
Proof.
  intros H Hu Hv. destruct (H u Hu) as (Lu & Nu). destruct (H v Hv) as (Lv & Nv).
  pose proof (dot_le_norms u v) as D. rewrite Nu, Nv in D. specialize (D ltac:(congruence)). unfold Rabs in D; destruct (Rcase_abs _); lra.
Qed.

Lemma neighbouring_spec (vs : list (list R)) (n i : nat) (v : list R) :
  (forall u, In u vs -> length u = n /\ norm u = 1) -> (2 <= length vs)%nat -> nth_error vs i = Some v ->
  exists angle, nth_error (neighbouring_angles vs) i = Some (Some angle) /\
    (exists j u, j <> i /\ nth_error vs j = Some u /\ 0 <= angle <= PI /\ cos angle = dot v u) /\
    (forall j u, j <> i -> nth_error vs j = Some u -> angle <= acos (dot v u)).
Proof.
  intros H L Hi. pose proof (nth_error_In _ _ Hi) as Iv.
  destruct (second_largest_spec (map (dot v) vs) i) as (j & b & Eb & Hj & Hjb & Hall).
  { rewrite map_length; auto. }
  { intros x Hx. apply in_map_iff in Hx. destruct Hx as (u & <- & Hu). exists (dot v v). rewrite nth_error_map, Hi. split; auto.
    destruct (H v Iv) as (_ & N). apply norm_one_dot in N. rewrite N. apply (unit_dot_le vs n v u); auto. }
  rewrite nth_error_map in Hjb. destruct (nth_error vs j) as [u|] eqn:Eu; [|discriminate]. injection Hjb as <-.
  assert (Bu : -1 <= dot v u <= 1) by (apply (unit_dot_le vs n); auto; eapply nth_error_In; eauto).
  assert (C : clip1 (dot v u) = dot v u) by (unfold clip1; destruct (Rlt_dec 1 (dot v u)); [lra|auto]).
  exists (acos (dot v u)). split; [|split].
  - unfold neighbouring_angles. rewrite nth_error_map, Hi. cbn [option_map]. unfold neighbouring_angle. rewrite Eb. cbn [option_map]. rewrite C. auto.
  - exists j, u. split; auto. split; auto. split; [apply acos_bound|]. apply cos_acos; auto.
  - intros k w Hk Hw. assert (Bw : -1 <= dot v w <= 1) by (apply (unit_dot_le vs n); auto; eapply nth_error_In; eauto).
    assert (Le : dot v w <= dot v u) by (apply (Hall k); auto; rewrite nth_error_map, Hw; auto).
    pose proof (acos_bound (dot v u)). pose proof (acos_bound (dot v w)).
    apply cos_decr_0; try lra. rewrite !cos_acos by auto. auto.
Qed.

Lemma neighbouring_dup (vs : list (list R)) (n i j : nat) (v : list R) :
  (forall u, In u vs -> length u = n /\ norm u = 1) -> i <> j -> nth_error vs i = Some v -> nth_error vs j = Some v ->
  nth_error (neighbouring_angles vs) i = Some (Some 0).
Proof.
  intros H D Hi Hj.
  assert (L : (2 <= length vs)%nat).
  { assert (i < length vs)%nat by (apply nth_error_Some; congruence). assert (j < length vs)%nat by (apply nth_error_Some; congruence). lia. }
  destruct (neighbouring_spec vs n i v H L Hi) as (a & Ea & (k & u & _ & _ & Ba & _) & Hall). rewrite Ea.
  assert (Hd := D). specialize (Hall j v (fun E => D (eq_sym E)) Hj). destruct (H v) as (_ & N); [eapply nth_error_In; eauto|].
  apply norm_one_dot in N. rewrite N, acos_1 in Hall. do 2 f_equal. lra.
Qed.

(** ** Uniform creation *)
Lemma rsum_div l c : rsum (map (fun x => x / c) l) = rsum l / c.
Proof. induction l as [|x l IH]; simpl; [unfold Rdiv; lra|]. rewrite IH. unfold Rdiv. lra. Qed.
Lemma rsum_IZR l : rsum (map IZR l) = IZR (fold_right Z.add 0%Z l).
Proof. induction l as [|x l IH]; simpl; auto. rewrite IH, plus_IZR. auto. Qed.
Lemma rsum_pos_in v : rsum v <> 0 -> exists x, In x v /\ x <> 0.
Proof.
  intros H. destruct (all_zero_dec v) as [Z|E]; auto. exfalso. apply H. clear H. induction v as [|x v IH]; simpl; auto.
  rewrite (Z x (or_introl eq_refl)), IH; [lra|]. intros y Hy. apply Z; right; auto.
Qed.

Lemma uniform_creation (h n : nat) : (2 <= n)%nat -> (1 <= h)%nat ->
  exists s, create_uniform h n = Ok s /\ length (values s) = binom (h + n - 1) (n - 1) /\ n_vec s = length (values s) /\
    (forall v, In v (values s) -> length v = n /\ norm v = 1 /\ forall x, In x v -> 0 <= x) /\
    (forall v, In v (planar s) -> length v = n /\ rsum v = 1 /\ forall x, In x v -> 0 <= x).
Proof.
  intros Hn Hh. unfold create_uniform. destruct (lattice_weights_spec h n Hn) as (ws & E & L & N & S). rewrite E. cbn [bind].
  eexists; split; [reflexivity|]. unfold create_from. cbn [normalize_rv values planar n_vec].
  assert (Hp : 0 < INR h) by (apply lt_0_INR; lia).
  assert (G : forall r, In r (map (map (fun z => IZR z / INR h)) ws) -> length r = n /\ rsum r = 1 /\ forall x, In x r -> 0 <= x).
  { intros r Hr. apply in_map_iff in Hr. destruct Hr as (w & <- & Hw). apply S in Hw. destruct Hw as (W1 & W2 & W3).
    split; [rewrite map_length; auto|]. split.
    - rewrite <- (map_map IZR (fun x => x / INR h)), rsum_div, rsum_IZR. unfold zsum in W3. rewrite W3. rewrite <- INR_IZR_INZ. field. lra.
    - intros x Hx. apply in_map_iff in Hx. destruct Hx as (z & <- & Hz). apply Rmult_le_pos; [|left; apply Rinv_0_lt_compat; auto].
      apply IZR_le. apply W2; auto. }
  split; [rewrite !map_length; auto|]. split; [rewrite !map_length; auto|]. split.
  - intros v Hv. apply in_map_iff in Hv. destruct Hv as (r & <- & Hr). destruct (G r Hr) as (G1 & G2 & G3).
    split; [unfold unit_row; rewrite map_length; auto|]. destruct (rsum_pos_in r) as (x & X1 & X2); [lra|].
    split; [eapply unit_row_unit; eauto|]. intros y Hy. unfold unit_row in Hy. apply in_map_iff in Hy. destruct Hy as (q & <- & Hq).
    apply Rmult_le_pos; auto. left. apply Rinv_0_lt_compat. pose proof (norm_pos r x X1 X2). unfold zero_eps.
    destruct (Req_EM_T (norm r) 0); lra.
  - intros v Hv. apply in_map_iff in Hv. destruct Hv as (r & <- & Hr). destruct (G r Hr) as (G1 & G2 & G3).
    rewrite planar_row_sum1; auto.
Qed.
