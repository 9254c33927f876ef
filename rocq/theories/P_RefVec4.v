(** Focused creation and slow interactive adaptation. *)
From Verif Require Import Base RVec M_APD M_BaseEA M_Lattice P_Lattice M_RefVec P_RefVec P_RefVec2 P_RefVec3.
From Coq Require Import Reals Lra.
Open Scope R_scope.

Lemma dot_app u v u' v' : length u = length v -> dot (u ++ u') (v ++ v') = dot u v + dot u' v'.
Proof.
  revert v; induction u as [|x u IH]; intros [|y v] L; simpl; try discriminate; [lra|]. injection L as L. rewrite IH; auto. lra.
Qed.
Lemma all_some_map {A B} (f : A -> option B) (g : A -> B) l : (forall x, In x l -> f x = Some (g x)) -> all_some (map f l) = Some (map g l).
Proof.
  induction l as [|x l IH]; intros H; simpl; auto. rewrite (H x (or_introl eq_refl)). rewrite IH; auto. intros y Hy. apply H; right; auto.
Qed.
Lemma removelast_last {A} (l : list A) x : removelast (l ++ [x]) = l.
Proof. rewrite removelast_app by congruence. simpl. apply app_nil_r. Qed.

Definition deg5 : R := 5 * PI / 180.
Lemma deg5_pos : 0 < deg5 < PI / 2.
Proof. unfold deg5. pose proof PI_RGT_0. lra. Qed.
Lemma sin5_pos : 0 < sin deg5.
Proof. pose proof deg5_pos. apply sin_gt_0; lra. Qed.
Lemma cos5_pos : 0 < cos deg5.
Proof. pose proof deg5_pos. apply cos_gt_0; lra. Qed.

Lemma shear_unit w : norm w = 1 -> shear_row 5 (w ++ [0]) = Some (vscale (sin deg5) w ++ [cos deg5]).
Proof.
  intros H. unfold shear_row. rewrite removelast_last, last_last. fold deg5. cbv zeta.
  pose proof sin5_pos as S. pose proof cos5_pos as C. apply norm_one_dot in H.
  assert (N0 : norm (w ++ [0]) = 1). { apply norm_one_dot. rewrite dot_app by auto. simpl. lra. }
  rewrite N0. pose proof (sin2_cos2 deg5) as SC. unfold Rsqr in SC.
  set (m := 0 + 1 * (1 / tan deg5)).
  assert (M : m = cos deg5 / sin deg5). { unfold m, tan. field. lra. }
  assert (N : norm (w ++ [m]) = / sin deg5).
  { unfold norm. rewrite dot_app by auto. rewrite H. simpl. replace (1 + (m * m + 0)) with ((/ sin deg5) * (/ sin deg5)).
    - apply sqrt_square. left. apply Rinv_0_lt_compat; auto.
    - rewrite M. apply Rmult_eq_reg_r with (sin deg5 * sin deg5); [|nra]. field_simplify; lra. }
  unfold normalize1. rewrite N. pose proof (Rinv_0_lt_compat _ S) as Ip.
  destruct (Req_EM_T (/ sin deg5) 0); [lra|]. f_equal. rewrite map_app. f_equal.
  - unfold vscale. apply map_ext. intros x. field. lra.
  - simpl. f_equal. rewrite M. field. lra.
Qed.

Definition cone_row (u : list R) : list R := vscale (sin deg5) (map (fun x => x / norm u) u) ++ [cos deg5].
Definition axis (n : nat) : list R := repeat 0 (n - 1) ++ [1].

Lemma normalize1_nonzero u : norm u <> 0 -> normalize1 u = Some (map (fun x => x / norm u) u) /\ norm (map (fun x => x / norm u) u) = 1.
Proof.
  intros H. assert (E : normalize1 u = Some (map (fun x => x / norm u) u)).
  { unfold normalize1. destruct (Req_EM_T (norm u) 0); [contradiction|auto]. }
  split; auto. apply normalize1_spec in E. destruct E as (_ & E & _). apply norm_one_dot; auto.
Qed.

Lemma cone_rows n base : (forall u, In u base -> norm u <> 0) -> cone n base = Some (axis n :: map cone_row base).
Proof.
  intros H. unfold cone. rewrite (all_some_map normalize1 (fun u => map (fun x => x / norm u) u)) by (intros; apply normalize1_nonzero; auto).
  cbn [obind]. rewrite map_map, map_map. rewrite (all_some_map _ cone_row); [reflexivity|].
  intros u Hu. unfold cone_row. apply shear_unit. apply normalize1_nonzero; auto.
Qed.

Lemma axis_length n : (1 <= n)%nat -> length (axis n) = n.
Proof. intros H. unfold axis. rewrite app_length, repeat_length. simpl. lia. Qed.
Lemma dot_repeat0 k u : dot (repeat 0 k) u = 0.
Proof. revert u; induction k as [|k IH]; intros [|x u]; simpl; auto. rewrite IH. lra. Qed.
Lemma axis_norm n : norm (axis n) = 1.
Proof. apply norm_one_dot. unfold axis. rewrite dot_app by auto. rewrite dot_repeat0. simpl. lra. Qed.

Lemma dot_unit_dir u v : norm u <> 0 -> norm v <> 0 ->
  dot (map (fun x => x / norm u) u) (map (fun x => x / norm v) v) = dot u v / (norm u * norm v).
Proof.
  intros Hu Hv.
  assert (E : forall w, map (fun x => x / norm w) w = vscale (/ norm w) w) by (intros w; apply map_ext; intros x; unfold Rdiv; lra).
  rewrite !E, dot_scale_l, dot_scale_r. field. auto.
Qed.
Lemma dot_cone_rows u v : length u = length v -> norm u <> 0 -> norm v <> 0 ->
  dot (cone_row u) (cone_row v) = sin deg5 * sin deg5 * (dot u v / (norm u * norm v)) + cos deg5 * cos deg5.
Proof.
  intros L Hu Hv. unfold cone_row. rewrite dot_app by (rewrite !vscale_length, !map_length; auto).
  rewrite dot_scale_l, dot_scale_r, dot_unit_dir by auto. simpl. lra.
Qed.
Lemma dot_axis_cone n u : (1 <= n)%nat -> length u = (n - 1)%nat -> dot (axis n) (cone_row u) = cos deg5.
Proof.
  intros Hn L. unfold cone_row, axis. rewrite dot_app by (rewrite repeat_length, vscale_length, map_length; auto).
  rewrite dot_repeat0. simpl. lra.
Qed.
Lemma cone_row_length n u : (1 <= n)%nat -> length u = (n - 1)%nat -> length (cone_row u) = n.
Proof. intros Hn L. unfold cone_row. rewrite app_length, vscale_length, map_length. simpl. lia. Qed.

Lemma rotate_normalized a r b xs : normalize1 r = Some b -> rotate a r xs = rotate a b xs.
Proof.
  intros H. unfold rotate. destruct (normalize1 a) as [u|]; cbn [obind]; auto. rewrite H.
  apply normalize1_spec in H. destruct H as (_ & H & _). rewrite (normalize1_unit b) by (apply norm_one_dot; auto). auto.
Qed.

Lemma normalize_values_unit s : (forall v, In v (values s) -> norm v = 1) -> values (normalize_rv s) = values s.
Proof. intros H. cbn [normalize_rv values]. apply map_id_in. intros v Hv. apply unit_row_of_unit; auto. Qed.

(** ref_point not on the last axis *)
Definition off_axis (n : nat) (ref : list R) : Prop := length ref = n /\ exists j, (j < n - 1)%nat /\ nth j ref 0 <> 0.

Lemma off_axis_dir n ref : (1 <= n)%nat -> off_axis n ref ->
  norm ref <> 0 /\ axis n <> map (fun x => x / norm ref) ref /\ axis n <> map Ropp (map (fun x => x / norm ref) ref).
Proof.
  intros Hn (L & j & Hj & Hr).
  assert (N : norm ref <> 0). { pose proof (norm_pos ref (nth j ref 0)) as P. specialize (P ltac:(apply nth_In; lia) Hr). lra. }
  assert (A : nth j (axis n) 0 = 0). { unfold axis. rewrite app_nth1 by (rewrite repeat_length; auto). apply nth_repeat. }
  assert (D : nth j (map (fun x => x / norm ref) ref) 0 = nth j ref 0 / norm ref).
  { replace 0 with (0 / norm ref) at 1 by (unfold Rdiv; lra). rewrite (map_nth (fun x => x / norm ref)). auto. }
  assert (Q : nth j ref 0 / norm ref <> 0). { unfold Rdiv. apply Rmult_integral_contrapositive_currified; auto. apply Rinv_neq_0_compat; auto. }
  split; auto. split; intros E.
  - rewrite E, D in A. contradiction.
  - rewrite E in A. replace 0 with (- 0) in A at 1 by lra. rewrite (map_nth Ropp), D in A. lra.
Qed.

Lemma create_cone_spec n base ref : (2 <= n)%nat -> off_axis n ref ->
  (forall u, In u base -> length u = (n - 1)%nat /\ norm u <> 0) ->
  exists s c rows, create_cone n base ref = Some s /\ values s = (c :: rows) ++ eye n /\ n_vec s = length (values s) /\
    c = map (fun x => x / norm ref) ref /\ norm c = 1 /\ length rows = length base /\
    (forall v, In v rows -> length v = n /\ norm v = 1 /\ dot c v = cos deg5) /\
    (forall i j u1 u2, nth_error base i = Some u1 -> nth_error base j = Some u2 ->
       exists v1 v2, nth_error rows i = Some v1 /\ nth_error rows j = Some v2 /\
         dot v1 v2 = sin deg5 * sin deg5 * (dot u1 u2 / (norm u1 * norm u2)) + cos deg5 * cos deg5).
Proof.
  intros Hn Ho Hb. destruct (off_axis_dir n ref ltac:(lia) Ho) as (N & D1 & D2).
  destruct (normalize1_nonzero ref N) as (E & U). set (c := map (fun x => x / norm ref) ref) in *.
  assert (Lc : length c = n) by (unfold c; rewrite map_length; apply Ho).
  unfold create_cone. rewrite cone_rows by (intros; apply Hb; auto). cbn [obind].
  change (repeat 0 (n - 1) ++ [1]) with (axis n). rewrite (rotate_normalized _ _ _ _ E).
  assert (La : length (axis n) = n) by (apply axis_length; lia).
  destruct (rotation_spec (axis n) c (axis n :: map cone_row base)) as (ys & R & Ly & I & Sa & _); auto using axis_norm; try congruence.
  rewrite R. cbn [obind].
  pose proof (Sa 0%nat eq_refl) as S0. destruct ys as [|c0 rows]; [discriminate|]. simpl in S0. injection S0 as ->.
  assert (Ls : forall x, In x (axis n :: map cone_row base) -> length x = n).
  { intros x [<-|Hx]; auto. apply in_map_iff in Hx. destruct Hx as (u & <- & Hu). apply cone_row_length; [lia|apply Hb; auto]. }
  pose proof (sin2_cos2 deg5) as SC. unfold Rsqr in SC.
  assert (Lrow : length rows = length base) by (simpl in Ly; rewrite map_length in Ly; lia).
  assert (Len : forall v, In v (c :: rows) -> length v = n).
  { destruct (rotate_some _ _ _ _ (eq_trans Lc (eq_sym La)) R) as (a' & b' & m & A1 & A2 & A3 & _ & _ & L1 & L2 & L3 & _ & _ & _ & H).
    intros v Hv. apply In_nth_error in Hv. destruct Hv as (k & Hk).
    destruct (nth_error (axis n :: map cone_row base) k) as [x|] eqn:Ex.
    - specialize (H k x Ex ltac:(rewrite La; apply Ls; eapply nth_error_In; eauto)). rewrite Hk in H. injection H as ->.
      assert (Lx : length x = n) by (apply Ls; eapply nth_error_In; eauto).
      assert (LA : length (vsub a' m) = n) by (rewrite vsub_length; congruence).
      assert (LB : length (vsub m b') = n) by (rewrite vsub_length; congruence).
      rewrite !reflect_length; congruence || auto.
      + rewrite reflect_length; congruence.
    - exfalso. apply nth_error_None in Ex. assert (k < length (c :: rows))%nat by (apply nth_error_Some; congruence). simpl in *. rewrite map_length in Ex. lia. }
  assert (G : forall v, In v rows -> length v = n /\ norm v = 1 /\ dot c v = cos deg5).
  { intros v Hv. split; [apply Len; right; auto|]. apply In_nth_error in Hv. destruct Hv as (k & Hk).
    assert (Hlt : (k < length base)%nat) by (rewrite <- Lrow; apply nth_error_Some; congruence).
    destruct (nth_error base k) as [u|] eqn:Eu; [|apply nth_error_None in Eu; lia].
    destruct (Hb u ltac:(eapply nth_error_In; eauto)) as (Lu & Nu).
    assert (Ek : nth_error (axis n :: map cone_row base) (S k) = Some (cone_row u)) by (simpl; rewrite nth_error_map, Eu; auto).
    assert (Lk : length (cone_row u) = length (axis n)) by (rewrite La; apply cone_row_length; [lia|auto]).
    split.
    - destruct (I (S k) (S k) _ _ Ek Ek Lk Lk) as (y1 & y2 & Y1 & Y2 & Y3). simpl in Y1, Y2. rewrite Hk in Y1, Y2. injection Y1 as <-. injection Y2 as <-.
      apply norm_one_dot. rewrite Y3, dot_cone_rows by auto. rewrite <- norm_sq. replace (norm u * norm u / (norm u * norm u)) with 1 by (field; auto). lra.
    - destruct (I 0%nat (S k) _ _ eq_refl Ek eq_refl Lk) as (y1 & y2 & Y1 & Y2 & Y3). simpl in Y1, Y2. rewrite Hk in Y2. injection Y1 as <-. injection Y2 as <-.
      rewrite Y3. apply dot_axis_cone; [lia|auto]. }
  eexists. exists c, rows. split; [reflexivity|]. cbn [values n_vec].
  assert (V : values (add_edges (normalize_rv (mkRV (c :: rows) (c :: rows) [] [] n (length (c :: rows))))) = (c :: rows) ++ eye n).
  { rewrite add_edges_values by apply normalize_unit. f_equal. apply normalize_values_unit.
    intros v [<-|Hv]; auto. apply G; auto. }
  split; [exact V|]. split.
  { unfold add_edges at 1. cbn [normalize_rv set_rows values n_vec]. rewrite V. rewrite !app_length, map_length. auto. }
  split; auto. split; auto. split; auto. split; auto.
  intros i j u1 u2 H1 H2.
  assert (E1 : nth_error (axis n :: map cone_row base) (S i) = Some (cone_row u1)) by (simpl; rewrite nth_error_map, H1; auto).
  assert (E2 : nth_error (axis n :: map cone_row base) (S j) = Some (cone_row u2)) by (simpl; rewrite nth_error_map, H2; auto).
  destruct (Hb u1 ltac:(eapply nth_error_In; eauto)) as (L1 & N1). destruct (Hb u2 ltac:(eapply nth_error_In; eauto)) as (L2 & N2).
  destruct (I _ _ _ _ E1 E2) as (y1 & y2 & Y1 & Y2 & Y3); try (rewrite La; apply cone_row_length; [lia|auto]).
  exists y1, y2. split; auto. split; auto. rewrite Y3. apply dot_cone_rows; congruence.
Qed.

(** The bases. *)
Lemma product01_length k : length (product01 k) = (3 ^ k)%nat.
Proof.
  induction k as [|k IH]; auto. cbn [product01 flat_map]. rewrite !app_length, !map_length, IH. simpl. lia.
Qed.
Lemma product01_row k : forall v, In v (product01 k) -> length v = k.
Proof.
  induction k as [|k IH]; intros v Hv; [destruct Hv as [<-|[]]; auto|].
  cbn [product01] in Hv. apply in_flat_map in Hv. destruct Hv as (x & _ & Hv). apply in_map_iff in Hv. destruct Hv as (t & <- & Ht).
  simpl. f_equal. auto.
Qed.
Lemma product01_head k : exists t, product01 k = repeat 0 k :: t /\ forall v, In v t -> exists x, In x v /\ x <> 0.
Proof.
  induction k as [|k (t & E & H)]; [exists []; split; auto; intros v []|].
  cbn [product01 flat_map]. rewrite E. cbn [map app repeat]. eexists; split; [reflexivity|].
  intros v Hv. apply in_app_or in Hv. destruct Hv as [Hv|Hv].
  - apply in_map_iff in Hv. destruct Hv as (u & <- & Hu). destruct (H u Hu) as (x & X1 & X2). exists x. split; [right; auto|auto].
  - destruct Hv as [<-|Hv]; [exists 1; split; [left; auto|lra]|]. apply in_app_or in Hv. destruct Hv as [Hv|Hv].
    + apply in_map_iff in Hv. destruct Hv as (u & <- & Hu). exists 1. split; [left; auto|lra].
    + destruct Hv as [<-|Hv]; [exists (-1); split; [left; auto|lra]|]. apply in_app_or in Hv. destruct Hv as [Hv|[]].
      apply in_map_iff in Hv. destruct Hv as (u & <- & Hu). exists (-1). split; [left; auto|lra].
Qed.
Lemma focused_base k u : In u (tl (product01 k)) -> length u = k /\ norm u <> 0.
Proof.
  intros H. destruct (product01_head k) as (t & E & Hn). split.
  - apply product01_row. rewrite E in *. right. exact H.
  - rewrite E in H. simpl in H. destruct (Hn u H) as (x & X1 & X2). pose proof (norm_pos u x X1 X2). lra.
Qed.
Lemma sparse_base k u : In u (eye k ++ map (map Ropp) (eye k)) -> length u = k /\ norm u <> 0.
Proof.
  intros H. assert (G : forall w, In w (eye k) -> length w = k /\ norm w = 1).
  { intros w Hw. unfold eye in Hw. apply in_map_iff in Hw. destruct Hw as (i & <- & Hi). apply in_seq in Hi.
    split; [apply unit_vec_length|apply unit_vec_norm; lia]. }
  apply in_app_or in H. destruct H as [H|H].
  - destruct (G u H). split; auto. lra.
  - apply in_map_iff in H. destruct H as (w & <- & Hw). destruct (G w Hw). rewrite map_length, norm_opp. split; auto. lra.
Qed.

Lemma create_cone_on_axis n base (c : R) : (1 <= n)%nat -> (forall u, In u base -> norm u <> 0) -> 
  create_cone n base (vscale c (axis n)) = None.
Proof.
  intros Hn Hb. unfold create_cone. rewrite cone_rows by auto. cbn [obind]. change (repeat 0 (n - 1) ++ [1]) with (axis n).
  assert (R : rotate (axis n) (vscale c (axis n)) (axis n :: map cone_row base) = None).
  { destruct (Req_EM_T c 0) as [->|Hc].
    - unfold rotate. rewrite (normalize1_unit (axis n)) by apply axis_norm. cbn [obind]. unfold normalize1 at 1.
      rewrite norm_scale, Rabs_R0, Rmult_0_l. destruct (Req_EM_T 0 0); [auto|contradiction].
    - assert (N : norm (vscale c (axis n)) = Rabs c) by (rewrite norm_scale, axis_norm; lra).
      assert (P : Rabs c <> 0) by (apply Rabs_no_R0; auto).
      destruct (normalize1_nonzero (vscale c (axis n))) as (E & _); [congruence|]. rewrite N in E.
      rewrite (rotate_normalized _ _ _ _ E).
      destruct (Rcase_abs c) as [Hl|Hl].
      + rewrite Rabs_left by auto. replace (map (fun x => x / - c) (vscale c (axis n))) with (map Ropp (axis n)); [apply rotate_opposite|].
        unfold vscale. rewrite map_map. apply map_ext. intros x. field. lra.
      + rewrite Rabs_right by auto. replace (map (fun x => x / c) (vscale c (axis n))) with (axis n); [apply rotate_same|].
        unfold vscale. rewrite map_map. symmetry. apply map_id_in. intros x _. field. auto. }
  rewrite R. reflexivity.
Qed.

(** ** Slow adaptation *)
Lemma rotated_lengths a b xs ys n : length a = n -> length b = n -> rotate a b xs = Some ys -> length ys = length xs -> (forall x, In x xs -> length x = n) -> forall y, In y ys -> length y = n.
Proof.
  intros La Lb R Ly Ls v Hv.
  destruct (rotate_some _ _ _ _ (eq_trans Lb (eq_sym La)) R) as (a' & b' & m & A1 & A2 & A3 & _ & _ & L1 & L2 & L3 & _ & _ & _ & H).
  apply In_nth_error in Hv. destruct Hv as (k & Hk).
  destruct (nth_error xs k) as [x|] eqn:Ex.
  - assert (Lx : length x = n) by (apply Ls; eapply nth_error_In; eauto).
    specialize (H k x Ex ltac:(congruence)). rewrite Hk in H. injection H as ->.
    assert (LA : length (vsub a' m) = n) by (rewrite vsub_length; congruence).
    assert (LB : length (vsub m b') = n) by (rewrite vsub_length; congruence).
    rewrite !reflect_length; congruence || auto. rewrite reflect_length; congruence.
  - exfalso. apply nth_error_None in Ex. assert (k < length ys)%nat by (apply nth_error_Some; congruence). lia.
Qed.

Lemma slow_spec (s : rv) (v0 : list R) (rest : list (list R)) (ref f : list R) (phi : R) :
  values s = (v0 :: rest) ++ eye (n_obj s) -> (forall v, In v (v0 :: rest) -> length v = n_obj s /\ norm v = 1) ->
  length ref = n_obj s -> norm ref <> 0 -> f = map (fun x => x / norm ref) ref -> 0 < phi < PI -> cos phi = dot v0 f ->
  exists s' reached c rest', slow_interactive_adapt s ref = Some (s', Some reached) /\
    values s' = (c :: rest') ++ eye (n_obj s) /\ n_obj s' = n_obj s /\ length rest' = length rest /\
    (reached = true <-> phi < deg5) /\ (reached = true -> c = f) /\
    (reached = false -> dot v0 c = cos deg5 /\ dot c f = cos (phi - deg5)) /\
    (forall v, In v (c :: rest') -> norm v = 1) /\
    (forall i j vi vj, nth_error (v0 :: rest) i = Some vi -> nth_error (v0 :: rest) j = Some vj ->
       exists wi wj, nth_error (c :: rest') i = Some wi /\ nth_error (c :: rest') j = Some wj /\ dot wi wj = dot vi vj).
Proof.
  intros V U Lr Nr Ef Hphi Hc. unfold slow_interactive_adapt. rewrite V. cbn [app].
  destruct (U v0 (or_introl eq_refl)) as (L0 & N0). destruct (normalize1_nonzero ref Nr) as (En & Nf). rewrite <- Ef in En, Nf.
  assert (Lf : length f = n_obj s) by (rewrite Ef, map_length; auto).
  assert (NEQ : list_eqR v0 ref = false).
  { unfold list_eqR. destruct (list_eq_dec Req_EM_T v0 ref) as [E|]; auto. exfalso. subst v0.
    assert (f = ref). { rewrite Ef, N0. apply map_id_in. intros x _. unfold Rdiv. rewrite Rinv_1. lra. }
    subst f. rewrite H in Hc. apply norm_one_dot in N0. rewrite N0 in Hc. rewrite <- cos_0 in Hc.
    pose proof (cos_decreasing_1 0 phi). lra. }
  rewrite NEQ.
  assert (F : firstn (length (v0 :: rest ++ eye (n_obj s)) - n_obj s) (v0 :: rest ++ eye (n_obj s)) = v0 :: rest).
  { change (v0 :: rest ++ eye (n_obj s)) with ((v0 :: rest) ++ eye (n_obj s)). rewrite app_length, (proj1 (eye_spec (n_obj s))).
    replace (length (v0 :: rest) + n_obj s - n_obj s)%nat with (length (v0 :: rest)) by lia.
    rewrite firstn_app, firstn_all, Nat.sub_diag. simpl. rewrite app_nil_r. auto. }
  rewrite F.
  assert (RT : rotate_toward v0 ref (v0 :: rest) 5 = rotate_toward v0 f (v0 :: rest) 5).
  { unfold rotate_toward. rewrite En. rewrite (normalize1_unit f) by auto. auto. }
  rewrite RT.
  destruct (rotate_toward_spec v0 f (v0 :: rest) 5 phi deg5) as (ys & reached & r & E & Ly & R1 & R2 & R3 & R4 & R5); auto; try congruence.
  { pose proof deg5_pos; lra. }
  rewrite E. cbn [option_map fst snd].
  pose proof (R4 0%nat eq_refl) as Y0. destruct ys as [|c rest']; [discriminate|]. simpl in Y0. injection Y0 as ->.
  assert (Un : forall v, In v (r :: rest') -> norm v = 1).
  { intros v Hv. apply In_nth_error in Hv. destruct Hv as (k & Hk).
    destruct (nth_error (v0 :: rest) k) as [x|] eqn:Ex.
    - destruct (U x ltac:(eapply nth_error_In; eauto)) as (Lx & Nx).
      destruct (R5 k k x x Ex Ex) as (y1 & y2 & Y1 & Y2 & Y3); try congruence. rewrite Hk in Y1, Y2. injection Y1 as <-. injection Y2 as <-.
      apply norm_one_dot in Nx. apply norm_one_dot. congruence.
    - exfalso. apply nth_error_None in Ex. assert (k < length (r :: rest'))%nat by (apply nth_error_Some; congruence). lia. }
  eexists. exists reached, r, rest'. split; [reflexivity|].
  assert (V' : values (add_edges (set_rows s (r :: rest') (r :: rest'))) = (r :: rest') ++ eye (n_obj s)).
  { rewrite add_edges_values; [reflexivity|]. apply Forall_forall. intros v Hv. left. apply Un; auto. }
  split. { rewrite normalize_values_unit; auto. rewrite V'. intros v Hv. apply in_app_or in Hv. destruct Hv as [Hv|Hv]; auto.
    unfold eye in Hv. apply in_map_iff in Hv. destruct Hv as (i & <- & Hi). apply in_seq in Hi. apply unit_vec_norm. lia. }
  split; [reflexivity|]. split; [simpl in Ly; lia|]. split; auto. split; auto.
  split. { intros Hr. destruct (R3 Hr) as (_ & A & B & _). rewrite dot_comm in B. auto. }
  split; auto.
  intros i j vi vj Hi Hj. apply R5; auto; [destruct (U vi)|destruct (U vj)]; try congruence; eapply nth_error_In; eauto.
Qed.

Lemma unit_vec_orth n i j : i <> j -> dot (unit_vec n i) (unit_vec n j) = 0.
Proof.
  intros H. unfold unit_vec. generalize (seq 0 n). intros l. induction l as [|k l IH]; simpl; auto.
  rewrite IH. destruct (Nat.eqb_spec i k), (Nat.eqb_spec j k); subst; try lra. contradiction.
Qed.

Lemma slow_centre_length (s : rv) ref s' reached : slow_interactive_adapt s ref = Some (s', Some reached) -> forall v0 rest,
  (forall v, In v (v0 :: rest) -> length v = n_obj s) -> values s = (v0 :: rest) ++ eye (n_obj s) -> length ref = n_obj s ->
  length (hd [] (values s')) = n_obj s.
Proof.
  intros H v0 rest U V L. unfold slow_interactive_adapt in H. rewrite V in H. cbn [app] in H.
  destruct (list_eqR v0 ref); [discriminate|].
  assert (F : firstn (length (v0 :: rest ++ eye (n_obj s)) - n_obj s) (v0 :: rest ++ eye (n_obj s)) = v0 :: rest).
  { change (v0 :: rest ++ eye (n_obj s)) with ((v0 :: rest) ++ eye (n_obj s)). rewrite app_length, (proj1 (eye_spec (n_obj s))).
    replace (length (v0 :: rest) + n_obj s - n_obj s)%nat with (length (v0 :: rest)) by lia.
    rewrite firstn_app, firstn_all, Nat.sub_diag. simpl. rewrite app_nil_r. auto. }
  rewrite F in H. destruct (rotate_toward v0 ref (v0 :: rest) 5) as [[ys r]|] eqn:E; [|discriminate]. cbn [option_map fst snd] in H.
  injection H as <- <-. cbn [values normalize_rv add_edges set_rows].
  assert (L0 : length v0 = n_obj s) by (apply U; left; auto).
  assert (G : length (hd [] ys) = n_obj s).
  { unfold rotate_toward in E. destruct (normalize1 ref) as [f|] eqn:Ef; [|discriminate]. destruct (normalize1 v0) as [a|] eqn:Ea; [|discriminate].
    cbn [obind] in E. cbv zeta in E. apply normalize1_spec in Ef, Ea. destruct Ef as (Lf & _). destruct Ea as (La & _).
    assert (K : forall b, length b = n_obj s -> rotate a b (v0 :: rest) = Some ys -> length (hd [] ys) = n_obj s).
    { intros b Lb R. destruct (rotate_some a b (v0 :: rest) ys) as (a' & b' & m & _ & _ & _ & _ & _ & A1 & A2 & A3 & _ & _ & _ & Hn); [congruence|auto|].
      specialize (Hn 0%nat v0 eq_refl ltac:(congruence)). destruct ys as [|y ys]; [discriminate|]. simpl in Hn. injection Hn as ->. simpl.
      assert (LA : length (vsub a' m) = n_obj s) by (rewrite vsub_length; congruence).
      assert (LB : length (vsub m b') = n_obj s) by (rewrite vsub_length; congruence).
      rewrite !reflect_length; congruence || auto. rewrite reflect_length; congruence. }
    destruct (Rlt_dec _ _).
    - destruct (rotate a f (v0 :: rest)) eqn:R; [|discriminate]. injection E as -> _. eapply K; [|eauto]. congruence.
    - destruct (Req_EM_T _ _); [discriminate|]. match goal with H : context [rotate a ?b _] |- _ => destruct (rotate a b (v0 :: rest)) eqn:R end; [|discriminate].
      injection E as -> _. eapply K; [|eauto]. rewrite vadd_length; rewrite !vscale_length; congruence. }
  destruct ys as [|y ys]; simpl in *.
  - rewrite <- G. reflexivity.
  - unfold unit_row. rewrite !map_length. auto.
Qed.
