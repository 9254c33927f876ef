(** Proofs for newRV. *)
From Verif Require Import Base RVec M_APD M_BaseEA M_Lattice P_Lattice M_RefVec P_RefVec P_RefVec2 P_RefVec3 P_RefVec4 M_NewRV.
From Coq Require Import Reals Lra Lia.
Open Scope R_scope.

Lemma rot_fun (a b : list R) : length a = length b -> norm a = 1 -> norm b = 1 -> a <> b -> a <> map Ropp b ->
  exists f, (forall xs, rotate a b xs = Some (map f xs)) /\ f a = b /\
    (forall x, length (f x) = length a) /\
    (forall x y, length x = length a -> length y = length a -> dot (f x) (f y) = dot x y).
Proof.
  intros L Ha Hb N1 N2.
  assert (F : exists f, (forall xs, rotate a b xs = Some (map f xs)) /\ forall x, length (f x) = length a).
  { destruct (rotation_spec a b [] L Ha Hb N1 N2) as (ys & E & _). unfold rotate in *.
    destruct (normalize1 a) as [u|]; cbn [obind] in *; [|discriminate].
    destruct (normalize1 b) as [v|]; cbn [obind] in *; [|discriminate].
    destruct (normalize1 (vadd u v)) as [m|]; cbn [obind] in *; [|discriminate].
    destruct (householder (vsub u m)) as [q1|]; cbn [obind] in *; [|discriminate].
    destruct (householder (vsub m v)) as [q2|]; cbn [obind] in *; [|discriminate].
    exists (apply_mat (length a) (matmul (length a) q2 q1)). split; [reflexivity|].
    intros x. unfold apply_mat. rewrite map_length, seq_length. auto. }
  destruct F as (f & F & Lf). exists f. split; [auto|]. split; [|split; [auto|]].
  - destruct (rotation_spec a b [a] L Ha Hb N1 N2) as (ys & E & _ & _ & S1 & _). rewrite F in E. injection E as <-.
    specialize (S1 0%nat eq_refl). cbn in S1. congruence.
  - intros x y Lx Ly. destruct (rotation_spec a b [x; y] L Ha Hb N1 N2) as (ys & E & _ & I1 & _). rewrite F in E. injection E as <-.
    destruct (I1 0%nat 1%nat x y eq_refl eq_refl Lx Ly) as (u & v & H1 & H2 & H3). cbn in H1, H2. congruence.
Qed.

Lemma fold_Rmax ds : forall d, d <= fold_left Rmax ds d /\ (forall x, In x ds -> x <= fold_left Rmax ds d) /\ (fold_left Rmax ds d = d \/ In (fold_left Rmax ds d) ds).
Proof.
  induction ds as [|e ds IH]; intros d; cbn [fold_left].
  { split; [lra|]. split; [intros x []|auto]. }
  destruct (IH (Rmax d e)) as (A & B & C). pose proof (Rmax_l d e). pose proof (Rmax_r d e).
  split; [lra|]. split.
  - intros x [<-|Hx]; [lra|auto].
  - destruct C as [C|C]; [|right; right; auto]. rewrite C. unfold Rmax. destruct (Rle_dec d e); [right; left; auto|left; auto].
Qed.

(** the farthest distance *)
Definition farthest (D : R) (rows : list (list R)) : Prop := (forall v, In v rows -> norm v <= D) /\ exists v, In v rows /\ norm v = D.

Lemma translation_spec rows D : farthest D rows -> D <> 0 ->
  dist_based_translation rows = Ok (Some (map (fun v => vscale (t_factor (norm v) D) v) rows)).
Proof.
  intros (A & v & Hv & E) ND. unfold dist_based_translation.
  destruct rows as [|r rows]; [destruct Hv|]. cbn [map].
  destruct (fold_Rmax (map norm rows) (norm r)) as (B1 & B2 & B3).
  assert (M : fold_left Rmax (map norm rows) (norm r) = D).
  { apply Rle_antisym.
    - destruct B3 as [->|B3]; [apply A; left; auto|]. apply in_map_iff in B3. destruct B3 as (x & <- & Hx). apply A. right; auto.
    - destruct Hv as [->|Hv]; [lra|]. rewrite <- E. apply B2. apply in_map; auto. }
  rewrite M. destruct (Req_EM_T D 0); [contradiction|]. reflexivity.
Qed.
Lemma translation_nan rows : rows <> [] -> (forall v, In v rows -> norm v = 0) -> dist_based_translation rows = Ok None.
Proof.
  intros N H. unfold dist_based_translation. destruct rows as [|r rows]; [contradiction|]. cbn [map].
  destruct (fold_Rmax (map norm rows) (norm r)) as (B1 & B2 & B3).
  destruct (Req_EM_T (fold_left Rmax (map norm rows) (norm r)) 0) as [|Q]; [auto|]. exfalso. apply Q.
  destruct B3 as [->|B3]; [apply H; left; auto|]. apply in_map_iff in B3. destruct B3 as (x & <- & Hx). apply H. right; auto.
Qed.

Lemma ratio_pos d D : 0 < d <= D -> 0 <= 1 / (d * d) - 1 / (D * D).
Proof.
  intros (H1 & H2). assert (/ (D * D) <= / (d * d)). { apply Rinv_le_contravar; [|nra]. nra. }
  unfold Rdiv. lra.
Qed.
Lemma t_factor_bounds d D : 0 <= d <= D -> 0 < D -> 0 <= t_factor d D <= 1.
Proof.
  intros H HD. unfold t_factor. destruct (Req_EM_T d 0) as [|N]; [lra|]. pose proof (ratio_pos d D ltac:(lra)) as P.
  split; unfold Rdiv; rewrite Rmult_1_l.
  - left. apply Rinv_0_lt_compat. lra.
  - rewrite <- Rinv_1. apply Rinv_le_contravar; lra.
Qed.
Lemma t_factor_mono d1 d2 D : 0 <= d1 <= d2 -> d2 <= D -> 0 < D -> t_factor d1 D <= t_factor d2 D.
Proof.
  intros H H2 HD. unfold t_factor. destruct (Req_EM_T d1 0) as [|N1].
  - destruct (Req_EM_T d2 0) as [|N2]; [lra|]. pose proof (ratio_pos d2 D ltac:(lra)) as P. unfold Rdiv. rewrite Rmult_1_l. left. apply Rinv_0_lt_compat. lra.
  - destruct (Req_EM_T d2 0) as [|N2]; [lra|]. pose proof (ratio_pos d2 D ltac:(lra)) as P. unfold Rdiv. rewrite !Rmult_1_l. apply Rinv_le_contravar.
    + unfold Rdiv in P. lra.
    + pose proof (ratio_pos d1 d2 ltac:(lra)) as P2. unfold Rdiv in P, P2. lra.
Qed.
Lemma t_factor_strict d D : 0 < d < D -> t_factor d D < 1.
Proof.
  intros H. unfold t_factor. destruct (Req_EM_T d 0) as [|N]; [lra|].
  assert (/ (D * D) < / (d * d)). { apply Rinv_lt_contravar; [|nra]. apply Rmult_lt_0_compat; nra. }
  set (k := 1 + 5 * (1 / (d * d) - 1 / (D * D))). assert (K : 1 < k) by (unfold k, Rdiv; lra).
  apply (Rmult_lt_reg_r k); [lra|]. unfold Rdiv. rewrite Rmult_assoc, Rinv_l by lra. lra.
Qed.
Lemma t_factor_max D : 0 < D -> t_factor D D = 1.
Proof. intros H. unfold t_factor. destruct (Req_EM_T D 0); [lra|]. field. lra. Qed.

Lemma lift_spec w : norm w <= 1 -> lift_row w = Some (w ++ [sqrt (1 - norm w * norm w)]).
Proof.
  intros H. unfold lift_row. rewrite <- sumsq_dot, <- norm_sq. pose proof (norm_nonneg w). destruct (Rle_dec 0 (1 - norm w * norm w)); [auto|nra].
Qed.
Lemma lift_norm w : norm w <= 1 -> norm (w ++ [sqrt (1 - norm w * norm w)]) = 1.
Proof.
  intros H. pose proof (norm_nonneg w). unfold norm at 1. rewrite dot_app by auto. cbn [dot]. rewrite sqrt_sqrt by nra. rewrite <- norm_sq.
  replace (norm w * norm w + (1 - norm w * norm w + 0)) with 1 by lra. apply sqrt_1.
Qed.

Lemma dot_axis3 (w : list R) z : length w = 2%nat -> dot (w ++ [z]) axis3 = z.
Proof. destruct w as [|a [|b [|]]]; try discriminate. intros _. unfold axis3. cbn. lra. Qed.

Lemma split3 (u : list R) : length u = 3%nat -> exists w z, u = w ++ [z] /\ length w = 2%nat /\ removelast u = w /\ dot u axis3 = z /\ norm u * norm u = norm w * norm w + z * z.
Proof.
  intros L. destruct u as [|a [|b [|c [|]]]]; try discriminate. exists [a; b], c. repeat split; try (unfold axis3; cbn; lra).
  rewrite !norm_sq. cbn. lra.
Qed.

Lemma axis3_axis : axis3 = axis 3. Proof. reflexivity. Qed.

(** what happens to one row: first entries [w] of a unit row *)
Definition moved (D : R) (w : list R) : list R :=
  let x := vscale (t_factor (norm w) D) w in x ++ [sqrt (1 - norm x * norm x)].

Lemma moved_spec D w : length w = 2%nat -> norm w <= D -> 0 < D <= 1 ->
  let x := moved D w in length x = 3%nat /\ norm x = 1 /\ lift_row (vscale (t_factor (norm w) D) w) = Some x /\
   dot x axis3 = sqrt (1 - (t_factor (norm w) D * norm w) * (t_factor (norm w) D * norm w)).
Proof.
  intros L H HD x. pose proof (norm_nonneg w) as N. destruct (t_factor_bounds (norm w) D ltac:(lra) ltac:(lra)) as (T0 & T1).
  assert (B : norm (vscale (t_factor (norm w) D) w) = t_factor (norm w) D * norm w).
  { rewrite norm_scale, Rabs_pos_eq by auto. auto. }
  assert (B1 : norm (vscale (t_factor (norm w) D) w) <= 1). { rewrite B. nra. }
  split; [|split; [|split]].
  - unfold x, moved. rewrite app_length, vscale_length, L. reflexivity.
  - apply lift_norm; auto.
  - rewrite lift_spec by auto. reflexivity.
  - unfold x, moved. rewrite dot_axis3 by (rewrite vscale_length; auto). rewrite B. auto.
Qed.

Lemma all_moved D ws : (forall w, In w ws -> length w = 2%nat /\ norm w <= D) -> 0 < D <= 1 ->
  all_some (map lift_row (map (fun v => vscale (t_factor (norm v) D) v) ws)) = Some (map (moved D) ws).
Proof.
  intros H HD. rewrite map_map. apply all_some_map. intros w Hw. destruct (H w Hw) as (L & B). apply (moved_spec D w L B HD).
Qed.

Lemma len3_all rows : (forall v, In v rows -> length v = 3%nat) -> forallb (fun v : list R => Nat.eqb (length v) 3) rows = true.
Proof. intros H. apply forallb_forall. intros v Hv. rewrite (H v Hv). auto. Qed.

Lemma rotate3_ok a b rows : length a = 3%nat -> length b = 3%nat -> (forall v, In v rows -> length v = 3%nat) -> rotate3 a b rows = Ok (rotate a b rows).
Proof. intros A B H. unfold rotate3. rewrite A, B, (len3_all rows H). reflexivity. Qed.

Lemma rotate_normalized_l r a b xs : normalize1 r = Some a -> rotate r b xs = rotate a b xs.
Proof.
  intros H. unfold rotate. rewrite H. destruct (normalize1_spec _ _ H) as (L & N & E & _). rewrite (normalize1_unit a) by (apply norm_one_dot; auto).
  cbn [obind]. replace (length r) with (length a); auto.
Qed.

Lemma unit_abs (v r : list R) : length v = length r -> norm v = 1 -> norm r = 1 -> dot v r * dot v r <= 1.
Proof. intros L H1 H2. pose proof (cauchy_schwarz v r L) as C. rewrite <- !norm_sq, H1, H2 in C. lra. Qed.

Lemma exists_farthest rows : rows <> [] -> exists D, farthest D rows.
Proof.
  intros N. destruct rows as [|r rows]; [contradiction|]. destruct (fold_Rmax (map norm rows) (norm r)) as (A & B & C).
  exists (fold_left Rmax (map norm rows) (norm r)). split.
  - intros v [<-|Hv]; [auto|]. apply B, in_map; auto.
  - destruct C as [C|C]; [exists r; split; [left; auto|congruence]|]. apply in_map_iff in C. destruct C as (x & E & Hx). exists x. split; [right; auto|auto].
Qed.

Lemma ref_dir (ref : list R) : length ref = 3%nat -> nth 0 ref 0 <> 0 \/ nth 1 ref 0 <> 0 ->
  off_axis 3 ref.
Proof. intros L [H|H]; split; auto; [exists 0%nat|exists 1%nat]; split; auto; lia. Qed.

(** the two rotations *)
Lemma rotations (ref : list R) : off_axis 3 ref ->
  let r := map (fun x => x / norm ref) ref in
  length r = 3%nat /\ norm r = 1 /\
  exists f g, (forall xs, rotate ref axis3 xs = Some (map f xs)) /\ (forall xs, rotate axis3 ref xs = Some (map g xs)) /\
    f r = axis3 /\ g axis3 = r /\ (forall x, length (f x) = 3%nat) /\ (forall x, length (g x) = 3%nat) /\
    (forall x y, length x = 3%nat -> length y = 3%nat -> dot (f x) (f y) = dot x y) /\
    (forall x y, length x = 3%nat -> length y = 3%nat -> dot (g x) (g y) = dot x y).
Proof.
  intros O r. pose proof O as (L & _). destruct (off_axis_dir 3 ref ltac:(lia) O) as (N & D1 & D2). rewrite <- axis3_axis in D1, D2. fold r in D1, D2.
  destruct (normalize1_nonzero ref N) as (E & U). fold r in E, U.
  assert (Lr : length r = 3%nat) by (unfold r; rewrite map_length; auto).
  assert (Ua : norm axis3 = 1) by (apply (axis_norm 3)).
  split; auto. split; auto.
  destruct (rot_fun r axis3 Lr U Ua) as (f & F1 & F2 & F3 & F4); [congruence| |].
  { intros Q. apply D2. rewrite Q, map_map. rewrite <- (map_id axis3) at 1. apply map_ext. intros x; lra. }
  destruct (rot_fun axis3 r (eq_sym Lr) Ua U D1 D2) as (g & G1 & G2 & G3 & G4).
  exists f, g. split; [intros xs; rewrite (rotate_normalized_l ref r axis3 xs E); auto|].
  split; [intros xs; rewrite (rotate_normalized axis3 ref r xs E); auto|].
  split; auto. split; auto. split; [intros x; rewrite F3; auto|]. split; [intros x; rewrite G3; auto|].
  split; intros x y Lx Ly; [apply F4; rewrite Lr; auto|apply G4; auto].
Qed.

Lemma iso_norm (f : list R -> list R) x : dot (f x) (f x) = dot x x -> norm (f x) = norm x.
Proof. unfold norm. intros ->. auto. Qed.

Lemma v2_spec (s : rv) (ref r : list R) :
  off_axis 3 ref -> r = map (fun x => x / norm ref) ref ->
  (forall v, In v (values s) -> length v = 3%nat /\ norm v = 1) ->
  (exists v, In v (values s) /\ dot v r * dot v r <> 1) ->
  exists s' D, interact_v2 s ref = Ok (Some s') /\ 0 < D <= 1 /\
    (forall v, In v (values s) -> 1 - dot v r * dot v r <= D * D) /\
    (exists v, In v (values s) /\ 1 - dot v r * dot v r = D * D) /\
    length (values s') = length (values s) /\ planar s' = planar s /\ init_values s' = init_values s /\ init_planar s' = init_planar s /\ n_obj s' = n_obj s /\ n_vec s' = n_vec s /\
    forall i v, nth_error (values s) i = Some v -> exists v' t, nth_error (values s') i = Some v' /\ length v' = 3%nat /\ norm v' = 1 /\
      t = t_factor (sqrt (1 - dot v r * dot v r)) D /\ 0 <= t <= 1 /\
      0 <= dot v' r /\ 1 - dot v' r * dot v' r = t * t * (1 - dot v r * dot v r).
Proof.
  intros O Er Hv (v0 & In0 & H0). destruct (rotations ref O) as (Lr & Ur & f & g & F & G & Fr & Gr & Lf & Lg & If & Ig).
  rewrite <- Er in *. pose proof O as (L & _).
  set (ws := map (@removelast R) (map f (values s))).
  assert (W : forall v, In v (values s) -> let w := removelast (f v) in length w = 2%nat /\ norm w * norm w = 1 - dot v r * dot v r /\ 1 - dot v r * dot v r >= 0).
  { intros v Hin w. destruct (Hv v Hin) as (Lv & Uv). destruct (split3 (f v) (Lf v)) as (w' & z & E1 & E2 & E3 & E4 & E5).
    unfold w. rewrite E3. split; auto.
    rewrite <- Fr, If in E4 by congruence. rewrite norm_sq, If, <- norm_sq, Uv in E5 by auto. rewrite E4. split; [lra|].
    pose proof (norm_nonneg w'). nra. }
  destruct (exists_farthest ws) as (D & FD).
  { unfold ws. intros Q. apply map_eq_nil in Q. apply map_eq_nil in Q. rewrite Q in In0. destruct In0. }
  pose proof FD as (FD1 & w1 & Hw1 & FD2).
  assert (D1 : forall v, In v (values s) -> 1 - dot v r * dot v r <= D * D).
  { intros v Hin. destruct (W v Hin) as (_ & <- & _). assert (norm (removelast (f v)) <= D). { apply FD1. unfold ws. apply in_map, in_map; auto. }
    pose proof (norm_nonneg (removelast (f v))). nra. }
  assert (D2 : exists v, In v (values s) /\ 1 - dot v r * dot v r = D * D).
  { unfold ws in Hw1. rewrite map_map in Hw1. apply in_map_iff in Hw1. destruct Hw1 as (v & E & Hin). exists v. split; auto.
    destruct (W v Hin) as (_ & <- & _). rewrite E, FD2. auto. }
  assert (Dn : 0 <= D). { rewrite <- FD2. apply norm_nonneg. }
  assert (D0 : 0 < D).
  { destruct (Rle_lt_or_eq_dec 0 D Dn) as [|Q]; auto. exfalso. pose proof (D1 v0 In0) as X. destruct (W v0 In0) as (_ & _ & Y). rewrite <- Q in X. apply H0. nra. }
  assert (D3 : D <= 1). { destruct D2 as (v & Hin & E). destruct (Rle_lt_dec D 1); auto. assert (0 <= dot v r * dot v r) by nra. nra. }
  assert (Q : interact_v2 s ref = Ok (Some (set_values s (map g (map (moved D) ws))))).
  { unfold interact_v2. rewrite rotate3_ok; auto; [|intros v Hin; apply Hv; auto]. rewrite F. cbn [rbind]. fold ws.
    rewrite (translation_spec ws D FD) by lra. cbn [rbind].
    rewrite (all_moved D ws); [|intros w Hw; split; [|apply FD1; auto]|lra].
    2:{ unfold ws in Hw. rewrite map_map in Hw. apply in_map_iff in Hw. destruct Hw as (v & <- & Hin). apply (W v Hin). }
    cbn [rbind]. rewrite rotate3_ok; auto.
    2:{ intros y Hy. apply in_map_iff in Hy. destruct Hy as (w & <- & Hw). apply moved_spec; [| apply FD1; auto|lra].
        unfold ws in Hw. rewrite map_map in Hw. apply in_map_iff in Hw. destruct Hw as (v & <- & Hin). apply (W v Hin). }
    rewrite G. reflexivity. }
  exists (set_values s (map g (map (moved D) ws))), D. split; auto. split; [lra|]. split; auto. split; auto.
  cbn [set_values values planar init_values init_planar n_obj n_vec].
  split; [unfold ws; rewrite !map_length; auto|]. do 5 (split; [reflexivity|]).
  intros i v Hi. pose proof (nth_error_In _ _ Hi) as Hin. destruct (W v Hin) as (LW & NW & _). set (w := removelast (f v)) in *.
  assert (Bw : norm w <= D) by (apply FD1; unfold ws, w; apply in_map, in_map; auto).
  destruct (moved_spec D w LW Bw ltac:(lra)) as (M1 & M2 & _ & M4). 
  exists (g (moved D w)), (t_factor (norm w) D).
  assert (Nw : norm w = sqrt (1 - dot v r * dot v r)). { rewrite <- NW. symmetry. apply sqrt_square, norm_nonneg. }
  assert (Dg : dot (g (moved D w)) r = dot (moved D w) axis3). { rewrite <- Gr. apply Ig; auto. }
  split. { unfold ws. rewrite !map_map. erewrite map_nth_error; [|eauto]. reflexivity. }
  split; [apply Lg|]. split; [rewrite (iso_norm g); auto|]. split; [rewrite Nw; auto|].
  pose proof (norm_nonneg w) as Nn. destruct (t_factor_bounds (norm w) D ltac:(lra) ltac:(lra)) as (T0 & T1).
  split; auto. rewrite Dg, M4. split; [apply sqrt_pos|]. rewrite sqrt_sqrt by nra. rewrite <- NW. ring.
Qed.

(** ** interact_v3 *)
Lemma combinations3 : combinations 3 = [[-1; -1; 1]; [-1; -1; 1]; [-1; 1; 1]; [-1; 1; 1]; [1; -1; 1]; [1; -1; 1]; [1; 1; 1]; [1; 1; 1]].
Proof. reflexivity. Qed.

Definition sign (e : R) : Prop := e = 1 \/ e = -1.
Lemma combinations3_in c : In c (combinations 3) <-> exists e1 e2, sign e1 /\ sign e2 /\ c = [e1; e2; 1].
Proof.
  rewrite combinations3. unfold sign. split.
  - cbn [In]. intros [<-|[<-|[<-|[<-|[<-|[<-|[<-|[<-|[]]]]]]]]]; do 2 eexists; (split; [|split; [|reflexivity]]); auto.
  - intros (e1 & e2 & [->| ->] & [->| ->] & ->); cbn [In]; tauto.
Qed.

(** what becomes of one initial vector under one sign pattern, before the rotation *)
Definition flipped (D e1 e2 : R) (v : list R) : list R :=
  let d := sqrt (nth 0 v 0 * nth 0 v 0 + nth 1 v 0 * nth 1 v 0) in let t := t_factor d D in
  [t * (e1 * nth 0 v 0); t * (e2 * nth 1 v 0); sqrt (1 - (t * d) * (t * d))].

Lemma sign_sq e : sign e -> e * e = 1.
Proof. intros [-> | ->]; lra. Qed.

Lemma flip_row (v c : list R) e1 e2 : length v = 3%nat -> c = [e1; e2; 1] -> sign e1 -> sign e2 ->
  removelast (vmap2 Rmult v c) = [e1 * nth 0 v 0; e2 * nth 1 v 0] /\
  norm (removelast (vmap2 Rmult v c)) = sqrt (nth 0 v 0 * nth 0 v 0 + nth 1 v 0 * nth 1 v 0).
Proof.
  intros L -> S1 S2. destruct v as [|a [|b [|z [|]]]]; try discriminate. cbn.
  assert (E : [a * e1; b * e2] = [e1 * a; e2 * b]) by (f_equal; [ring|f_equal; ring]). split; auto.
  unfold norm. f_equal. cbn. pose proof (sign_sq e1 S1). pose proof (sign_sq e2 S2).
  replace (a * e1 * (a * e1) + (b * e2 * (b * e2) + 0)) with (a * a * (e1 * e1) + b * b * (e2 * e2)) by ring. rewrite H, H0. ring.
Qed.
Lemma moved_flip (v c : list R) e1 e2 D : length v = 3%nat -> c = [e1; e2; 1] -> sign e1 -> sign e2 -> 
  norm (removelast (vmap2 Rmult v c)) <= D -> 0 < D ->
  moved D (removelast (vmap2 Rmult v c)) = flipped D e1 e2 v.
Proof.
  intros L E S1 S2 B HD. destruct (flip_row v c e1 e2 L E S1 S2) as (F1 & F2). unfold moved, flipped.
  pose proof (norm_nonneg (removelast (vmap2 Rmult v c))) as N0.
  set (x := removelast (vmap2 Rmult v c)) in *. rewrite <- F2.
  rewrite norm_scale. rewrite (Rabs_pos_eq (t_factor (norm x) D)) by (apply t_factor_bounds; lra).
  set (k := t_factor (norm x) D) in *. set (sq := sqrt (1 - k * norm x * (k * norm x))) in *. clearbody k sq. rewrite F1. reflexivity.
Qed.

Lemma v3_spec (s : rv) (ref r : list R) :
  off_axis 3 ref -> r = map (fun x => x / norm ref) ref -> n_obj s = 3%nat ->
  (forall v, In v (init_values s) -> length v = 3%nat /\ norm v = 1) ->
  (exists v, In v (init_values s) /\ (nth 0 v 0 <> 0 \/ nth 1 v 0 <> 0)) ->
  exists s' D rot, interact_v3 s ref = Ok (Some s') /\ 0 < D <= 1 /\
    (forall v, In v (init_values s) -> nth 0 v 0 * nth 0 v 0 + nth 1 v 0 * nth 1 v 0 <= D * D) /\
    (exists v, In v (init_values s) /\ nth 0 v 0 * nth 0 v 0 + nth 1 v 0 * nth 1 v 0 = D * D) /\
    planar s' = planar s /\ init_values s' = init_values s /\ init_planar s' = init_planar s /\ n_obj s' = n_obj s /\ n_vec s' = n_vec s /\
    rot axis3 = r /\ (forall x, length (rot x) = 3%nat) /\ (forall x y, length x = 3%nat -> length y = 3%nat -> dot (rot x) (rot y) = dot x y) /\
    (forall e1 e2 v, In v (init_values s) -> sign e1 -> sign e2 -> length (flipped D e1 e2 v) = 3%nat /\ norm (flipped D e1 e2 v) = 1 /\ dot (flipped D e1 e2 v) axis3 = nth 2 (flipped D e1 e2 v) 0) /\
    values s' = filter nonnegative (flat_map (fun c => map (fun v => rot (flipped D (nth 0 c 0) (nth 1 c 0) v)) (init_values s)) (combinations 3)).
Proof.
  intros O Er No Hv (v0 & In0 & H0). destruct (rotations ref O) as (Lr & Ur & _ & g & _ & G & _ & Gr & _ & Lg & _ & Ig).
  rewrite <- Er in *. pose proof O as (L & _).
  set (rowsF := flat_map (fun c => map (fun v => vmap2 Rmult v c) (init_values s)) (combinations 3)).
  set (ws := map (@removelast R) rowsF).
  assert (P : forall w, In w ws <-> exists v c, In v (init_values s) /\ In c (combinations 3) /\ w = removelast (vmap2 Rmult v c)).
  { intros w. unfold ws, rowsF. rewrite in_map_iff. split.
    - intros (x & <- & Hx). apply in_flat_map in Hx. destruct Hx as (c & Hc & Hx). apply in_map_iff in Hx. destruct Hx as (v & <- & Hin). exists v, c. auto.
    - intros (v & c & Hin & Hc & ->). eexists. split; [reflexivity|]. apply in_flat_map. exists c. split; auto. apply in_map_iff. eauto. }
  assert (C1 : In [1; 1; 1] (combinations 3)) by (apply combinations3_in; exists 1, 1; unfold sign; auto).
  destruct (exists_farthest ws) as (D & FD).
  { intros Q. assert (X : In (removelast (vmap2 Rmult v0 [1; 1; 1])) ws) by (apply P; exists v0, [1; 1; 1]; auto). rewrite Q in X. destruct X. }
  pose proof FD as (FD1 & w1 & Hw1 & FD2).
  assert (W : forall v c, In v (init_values s) -> In c (combinations 3) -> length (removelast (vmap2 Rmult v c)) = 2%nat /\
     norm (removelast (vmap2 Rmult v c)) = sqrt (nth 0 v 0 * nth 0 v 0 + nth 1 v 0 * nth 1 v 0)).
  { intros v c Hin Hc. apply combinations3_in in Hc. destruct Hc as (e1 & e2 & S1 & S2 & ->). destruct (flip_row v [e1; e2; 1] e1 e2 (proj1 (Hv v Hin)) eq_refl S1 S2) as (F1 & F2).
    split; auto. rewrite F1. reflexivity. }
  assert (Dsq : forall v, In v (init_values s) -> sqrt (nth 0 v 0 * nth 0 v 0 + nth 1 v 0 * nth 1 v 0) <= D).
  { intros v Hin. destruct (W v [1; 1; 1] Hin C1) as (_ & <-). apply FD1. apply P. exists v, [1; 1; 1]. auto. }
  assert (SS : forall v : list R, 0 <= nth 0 v 0 * nth 0 v 0 + nth 1 v 0 * nth 1 v 0) by (intros v; nra).
  assert (SQ : forall v : list R, sqrt (nth 0 v 0 * nth 0 v 0 + nth 1 v 0 * nth 1 v 0) * sqrt (nth 0 v 0 * nth 0 v 0 + nth 1 v 0 * nth 1 v 0) = nth 0 v 0 * nth 0 v 0 + nth 1 v 0 * nth 1 v 0).
  { intros v. apply sqrt_sqrt, SS. }
  assert (D1 : forall v, In v (init_values s) -> nth 0 v 0 * nth 0 v 0 + nth 1 v 0 * nth 1 v 0 <= D * D).
  { intros v Hin. rewrite <- SQ. pose proof (Dsq v Hin). pose proof (sqrt_pos (nth 0 v 0 * nth 0 v 0 + nth 1 v 0 * nth 1 v 0)). apply Rmult_le_compat; auto. }
  assert (D2 : exists v, In v (init_values s) /\ nth 0 v 0 * nth 0 v 0 + nth 1 v 0 * nth 1 v 0 = D * D).
  { apply P in Hw1. destruct Hw1 as (v & c & Hin & Hc & ->). exists v. split; auto. rewrite <- SQ, <- (proj2 (W v c Hin Hc)), FD2. auto. }
  assert (Dn : 0 <= D). { rewrite <- FD2. apply norm_nonneg. }
  assert (D0 : 0 < D).
  { destruct (Rle_lt_or_eq_dec 0 D Dn) as [|Q]; auto. exfalso. pose proof (D1 v0 In0) as X. rewrite <- Q in X. destruct H0 as [H0|H0]; apply H0; nra. }
  assert (D3 : D <= 1).
  { destruct D2 as (v & Hin & E). destruct (Hv v Hin) as (Lv & Nv). destruct v as [|a [|b [|z [|]]]]; try discriminate. 
    assert (N2 := norm_sq [a; b; z]). rewrite Nv in N2. cbn in N2, E. destruct (Rle_lt_dec D 1); auto. nra. }
  assert (Lw : forall w, In w ws -> length w = 2%nat /\ norm w <= D).
  { intros w Hw. split; [|apply FD1; auto]. apply P in Hw. destruct Hw as (v & c & Hin & Hc & ->). apply (W v c Hin Hc). }
  assert (MM : forall v e1 e2, In v (init_values s) -> sign e1 -> sign e2 -> moved D (removelast (vmap2 Rmult v [e1; e2; 1])) = flipped D e1 e2 v).
  { intros v e1 e2 Hin S1 S2. apply moved_flip with (c := [e1; e2; 1]); auto; [apply Hv; auto|].
    apply Lw. apply P. exists v, [e1; e2; 1]. split; auto. split; auto. apply combinations3_in. eauto. }
  exists (set_values s (filter nonnegative (map g (map (moved D) ws)))), D, g.
  split.
  { unfold interact_v3. rewrite No. fold rowsF. fold ws. rewrite (translation_spec ws D FD) by lra. cbn [rbind].
    rewrite (all_moved D ws); auto. cbn [rbind]. rewrite rotate3_ok; auto; [rewrite G; reflexivity|].
    intros y Hy. apply in_map_iff in Hy. destruct Hy as (w & <- & Hw). apply moved_spec; [apply Lw; auto|apply Lw; auto|lra]. }
  split; [lra|]. split; auto. split; auto. cbn [set_values values planar init_values init_planar n_obj n_vec]. do 5 (split; [reflexivity|]).
  split; auto. split; auto. split; auto. split.
  - intros e1 e2 v Hin S1 S2. rewrite <- (MM v e1 e2) by auto. 
    assert (Hw : In (removelast (vmap2 Rmult v [e1; e2; 1])) ws) by (apply P; exists v, [e1; e2; 1]; split; auto; split; auto; apply combinations3_in; eauto).
    destruct (Lw _ Hw) as (A & B). destruct (moved_spec D _ A B ltac:(lra)) as (M1 & M2 & _ & M4). split; auto. split; auto.
    rewrite MM by auto. unfold flipped, axis3. cbn. lra.
  - f_equal. unfold ws, rowsF. rewrite !map_map. rewrite !flat_map_concat_map, concat_map, map_map. f_equal. apply map_ext_in. intros c Hc.
    rewrite map_map. apply map_ext_in. intros v Hin. f_equal. apply combinations3_in in Hc. destruct Hc as (e1 & e2 & S1 & S2 & ->). cbn [nth]. apply MM; auto.
Qed.

(** every pattern comes twice *)
Lemma v3_twice (F : list R -> list (list R)) (p : list R -> bool) :
  let l := filter p (flat_map F (combinations 3)) in
  exists A B C E, l = (A ++ A) ++ (B ++ B) ++ (C ++ C) ++ (E ++ E).
Proof.
  intros l. unfold l. rewrite combinations3. cbn [flat_map]. rewrite app_nil_r.
  exists (filter p (F [-1; -1; 1])), (filter p (F [-1; 1; 1])), (filter p (F [1; -1; 1])), (filter p (F [1; 1; 1])).
  rewrite <- !List.filter_app. f_equal. rewrite <- !app_assoc. reflexivity.
Qed.
Lemma twice_in {A} (w : A) (a pre post : list A) : In w a -> exists i j, (i < j)%nat /\ nth_error (pre ++ (a ++ a) ++ post) i = Some w /\ nth_error (pre ++ (a ++ a) ++ post) j = Some w.
Proof.
  intros H. apply In_nth_error in H. destruct H as (k & Hk). assert (K : (k < length a)%nat) by (apply nth_error_Some; congruence).
  exists (length pre + k)%nat, (length pre + (length a + k))%nat. split; [lia|]. split.
  - rewrite nth_error_app2 by lia. replace (length pre + k - length pre)%nat with k by lia. rewrite <- app_assoc, nth_error_app1 by lia. auto.
  - rewrite nth_error_app2 by lia. replace (length pre + (length a + k) - length pre)%nat with (length a + k)%nat by lia.
    rewrite <- app_assoc, nth_error_app2 by lia. replace (length a + k - length a)%nat with k by lia. rewrite nth_error_app1 by lia. auto.
Qed.
