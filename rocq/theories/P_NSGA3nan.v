(** Lemmas for C128. *)
From Coq Require Import Reals Lra Lia Permutation.
From Verif Require Import Base RVec M_APD M_APDnan P_APDnan M_IndNaN P_IndNaN M_NSGA3 Spec_Fronts Spec_Nadir P_NSGA3 M_NSGA3nan.
Open Scope R_scope.

(** ** The numbers in the order in which np.argmin sees them, as reals *)
Definition code (a : xr) : R := match a with NaN => -3 | MInf => -2 | PInf => 2 | Fin x => x / (1 + Rabs x) end.
Lemma squash_bounds x : -1 < x / (1 + Rabs x) < 1.
Proof.
  pose proof (Rabs_pos x). pose proof (Rle_abs x). pose proof (Rle_abs (- x)) as N. rewrite Rabs_Ropp in N.
  assert (P : 0 < 1 + Rabs x) by lra. split; apply (Rmult_lt_reg_r (1 + Rabs x)); auto; replace (x / (1 + Rabs x) * (1 + Rabs x)) with x by (field; lra); lra.
Qed.
Lemma squash_lt x y : x < y -> x / (1 + Rabs x) < y / (1 + Rabs y).
Proof.
  intros H. pose proof (Rabs_pos x). pose proof (Rabs_pos y). assert (P : 0 < 1 + Rabs x) by lra. assert (Q : 0 < 1 + Rabs y) by lra.
  apply (Rmult_lt_reg_r ((1 + Rabs x) * (1 + Rabs y))); [nra|].
  replace (x / (1 + Rabs x) * ((1 + Rabs x) * (1 + Rabs y))) with (x * (1 + Rabs y)) by (field; lra).
  replace (y / (1 + Rabs y) * ((1 + Rabs x) * (1 + Rabs y))) with (y * (1 + Rabs x)) by (field; lra).
  unfold Rabs in *. destruct (Rcase_abs x), (Rcase_abs y); nra.
Qed.
Lemma code_lt a b : negb (is_nan b) && (is_nan a || xltb a b) = if Rlt_dec (code a) (code b) then true else false.
Proof.
  destruct a as [x| | |], b as [y| | |]; cbn [is_nan negb andb orb xltb code]; try pose proof (squash_bounds x); try pose proof (squash_bounds y);
  try (destruct (Rlt_dec _ _); [reflexivity|lra]); try (destruct (Rlt_dec _ _); [lra|reflexivity]).
  destruct (Rlt_dec x y) as [H1|H1]; destruct (Rlt_dec (x / (1 + Rabs x)) (y / (1 + Rabs y))) as [H2|H2]; auto; exfalso.
  - apply H2, squash_lt, H1.
  - destruct (Rtotal_order x y) as [L|[->|L]]; [contradiction|lra|]. apply squash_lt in L. lra.
Qed.
Lemma xargmin_from_code l : forall b v i, xargmin_from b v i l = argmin_from b (code v) i (map code l).
Proof.
  induction l as [|x l IH]; intros b v i; cbn [xargmin_from argmin_from map]; [reflexivity|]. rewrite code_lt. destruct (Rlt_dec (code x) (code v)); apply IH.
Qed.
Lemma xargmin_code l : xargmin l = argmin (map code l).
Proof. destruct l; [reflexivity|]. cbn [xargmin argmin map]. f_equal. apply xargmin_from_code. Qed.
Lemma code_0 : code (Fin 0) = 0. Proof. cbn. unfold Rdiv. apply Rmult_0_l. Qed.

(** The niching is that of the finite model on the coded distances. *)
Lemma niching_code rng nd niches dists : forall r t counts mask, niching_x rng nd niches dists r t counts mask = niching rng nd niches (map code dists) r t counts mask.
Proof.
  assert (P : forall t counts mask, niche_pick_x rng nd niches dists t counts mask = niche_pick rng nd niches (map code dists) t counts mask).
  { intros t counts mask. unfold niche_pick_x, niche_pick. destruct (filter _ (seq 0 nd)) as [|k0 ks]; [reflexivity|].
    cbv zeta. match goal with |- (if Nat.eqb ?c 0 then _ else _) = _ => destruct (Nat.eqb c 0) end; [|reflexivity].
    rewrite xargmin_code, map_map. rewrite (map_ext (fun i => code (nth i dists (Fin 0))) (fun i => nth i (map code dists) 0)); [reflexivity|].
    intros i. rewrite <- (map_nth code dists (Fin 0) i), code_0. reflexivity. }
  induction r as [|r IH]; intros t counts mask; cbn [niching_x niching]; [reflexivity|]. rewrite P. destruct (niche_pick rng nd niches (map code dists) t counts mask) as [[i k]|e]; cbn [bind]; [|reflexivity].
  cbn [fst snd]. rewrite IH. reflexivity.
Qed.
Lemma survive_code rng n nd niche dist fronts : survive_x rng n nd niche dist fronts = survive rng n nd niche (fun i => code (dist i)) fronts.
Proof.
  unfold survive_x, survive. destruct (cut_fronts n [] fronts) as [[before last]|]; [|reflexivity]. destruct (Nat.ltb n (length (concat before ++ last))); [|reflexivity].
  rewrite niching_code, map_map. reflexivity.
Qed.
Lemma niche_of_x_lt dirs v : dirs <> [] -> (niche_of_x dirs v < length dirs)%nat.
Proof.
  intros H. unfold niche_of_x. destruct (xargmin (map (perp_dist_x v) dirs)) as [k|] eqn:E; [apply xargmin_lt in E; rewrite map_length in E; exact E|].
  destruct dirs; [congruence|discriminate].
Qed.

(** ** Finite values *)
Lemma xmax_fin x y : xmax (Fin x) (Fin y) = Fin (Rmax x y).
Proof. unfold xmax. cbn [is_nan orb xltb]. destruct (Rlt_dec x y); [rewrite Rmax_right by lra|rewrite Rmax_left by lra]; reflexivity. Qed.
Lemma vmap2_fin f g u : (forall x y, f (Fin x) (Fin y) = Fin (g x y)) -> forall v, vmap2 f (map Fin u) (map Fin v) = map Fin (vmap2 g u v).
Proof. intros H. induction u as [|x u IH]; intros [|y v]; cbn [map vmap2]; auto. rewrite H, IH. reflexivity. Qed.
Lemma xvmax_fin u v : xvmax (map Fin u) (map Fin v) = map Fin (vmax u v).
Proof. apply vmap2_fin. apply xmax_fin. Qed.
Lemma xcolmax_fin rows : xcolmax (map (map Fin) rows) = option_map (map Fin) (colmax rows).
Proof.
  destruct rows as [|r rows]; [reflexivity|]. cbn [map xcolmax colmax option_map]. f_equal. revert r. induction rows as [|q rows IH]; intros r; cbn [map fold_left]; [reflexivity|].
  rewrite xvmax_fin. apply IH.
Qed.
Lemma xleb_fin x y : xleb (Fin x) (Fin y) = if Rle_dec x y then true else false.
Proof. unfold xleb. cbn [is_nan negb andb xltb]. destruct (Rlt_dec y x), (Rle_dec x y); try reflexivity; lra. Qed.
Lemma snap_fin x : snap_small_x (Fin x) = Fin (snap_small x).
Proof. unfold snap_small_x, snap_small. cbn [xltb]. destruct (Rlt_dec x (1 / 1000)); reflexivity. Qed.
Lemma fold_xmax_fin l : forall x, fold_left xmax (map Fin l) (Fin x) = Fin (fold_left Rmax l x).
Proof. induction l as [|y l IH]; intros x; cbn [map fold_left]; [reflexivity|]. rewrite xmax_fin. apply IH. Qed.
Lemma asf_fin k ideal f : asf_x k (map Fin ideal) (map Fin f) = Fin (asf k ideal f).
Proof.
  unfold asf_x, asf. rewrite map_length, xvsub_fin.
  assert (E : forall s v, vmap2 (fun j x => xmul (snap_small_x x) (Fin (asf_weight k j))) s (map Fin v) = map Fin (vmap2 (fun j x => snap_small x * asf_weight k j) s v)).
  { induction s as [|j s IH]; intros [|x v]; cbn [map vmap2]; auto. rewrite snap_fin, IH. reflexivity. }
  rewrite E. destruct (vmap2 _ _ _) as [|x t]; [reflexivity|]. cbn [map]. apply fold_xmax_fin.
Qed.
Lemma nth_map_fin i (rows : list (list R)) : nth i (map (map Fin) rows) [] = map Fin (nth i rows []).
Proof. apply (map_nth (map Fin) rows [] i). Qed.
Lemma extreme_fin front ideal old : extreme_points_x (map (map Fin) front) (map Fin ideal) (option_map (map (map Fin)) old) = map (map Fin) (extreme_points front ideal old).
Proof.
  unfold extreme_points_x, extreme_points. rewrite map_length.
  set (rows := match old with Some e => e ++ front | None => front end).
  replace (match option_map (map (map Fin)) old with Some e => e ++ map (map Fin) front | None => map (map Fin) front end) with (map (map Fin) rows) by (unfold rows; destruct old; cbn [option_map]; [apply map_app|reflexivity]).
  induction (seq 0 (length ideal)) as [|k l IH]; cbn [flat_map]; [reflexivity|]. rewrite map_app, IH. f_equal.
  rewrite map_map, (map_ext _ (fun f => Fin (asf k ideal f))) by (intros; apply asf_fin). rewrite <- map_map, xargmin_fin.
  destruct (argmin (map (asf k ideal) rows)) as [i|]; [|reflexivity]. rewrite nth_map_fin. reflexivity.
Qed.
Lemma map_repeat' {A B} (f : A -> B) x n : map f (repeat x n) = repeat (f x) n.
Proof. induction n; cbn; congruence. Qed.
Lemma allclose_fin a : forall b, allclose_x (map Fin a) (map Fin b) = allclose a b.
Proof. unfold allclose_x, allclose. induction a as [|x a IH]; intros [|y b]; cbn [map combine forallb fst snd close_x]; auto. rewrite IH. reflexivity. Qed.
Lemma existsb_map' {A B} (p : B -> bool) (f : A -> B) l : existsb p (map f l) = existsb (fun x => p (f x)) l.
Proof. induction l; cbn; congruence. Qed.
Lemma existsb_ext' {A} (p q : A -> bool) l : (forall x, p x = q x) -> existsb p l = existsb q l.
Proof. intros H. induction l; cbn; congruence. Qed.
Lemma gt_fin a : forall b, existsb (fun p : xr * xr => xltb (snd p) (fst p)) (combine (map Fin a) (map Fin b)) =
  existsb (fun p : R * R => if Rlt_dec (snd p) (fst p) then true else false) (combine a b).
Proof. induction a as [|x a IH]; intros [|y b]; cbn [map combine existsb fst snd xltb]; auto. rewrite IH. reflexivity. Qed.
Lemma intercepts_fin plane : existsb (fun x => is_zero x) plane = false -> map (fun x => xdiv (Fin 1) x) (map Fin plane) = map Fin (map (fun x => 1 / x) plane).
Proof.
  induction plane as [|x p IH]; cbn [existsb map]; [reflexivity|]. unfold is_zero at 1. destruct (Req_EM_T x 0) as [E|E]; [discriminate|]. cbn [orb]. intros H. rewrite IH by exact H.
  cbn [xdiv]. destruct (Req_EM_T x 0); [contradiction|reflexivity].
Qed.
Lemma zero_intercept ideal : forall plane worst, length plane = length ideal -> length worst = length ideal -> existsb (fun x => is_zero x) plane = true ->
  existsb (fun p : xr * xr => xltb (snd p) (fst p)) (combine (vmap2 xadd (map Fin ideal) (map (fun x => xdiv (Fin 1) x) (map Fin plane))) (map Fin worst)) = true.
Proof.
  induction ideal as [|z ideal IH]; intros [|x p] [|w worst] L1 L2 H; try discriminate. cbn [existsb] in H. unfold is_zero at 1 in H.
  cbn [map vmap2 combine existsb fst snd xdiv]. destruct (Req_EM_T x 0) as [E|E].
  - unfold inf_times. destruct (Req_EM_T 1 0); [lra|]. destruct (Rlt_dec 0 1); [|lra]. reflexivity.
  - cbn [orb] in H. rewrite IH; auto. apply orb_true_r.
Qed.
Lemma nadir_fin solve solvex ext ideal worst wfront wpop :
  (forall A b, solvex (map (map Fin) A) (map Fin b) = option_map (map Fin) (solve A b)) -> solve_dims solve -> length ext = length ideal ->
  length worst = length ideal ->
  nadir_point_x solvex (map (map Fin) ext) (map Fin ideal) (map Fin worst) (map Fin wfront) (map Fin wpop) = map Fin (nadir_point solve ext ideal worst wfront wpop).
Proof.
  intros Hs Hd Le Lw. unfold nadir_point_x, nadir_point. rewrite map_length.
  assert (EM : map (fun e => xvsub e (map Fin ideal)) (map (map Fin) ext) = map (map Fin) (map (fun e => vsub e ideal) ext)).
  { rewrite !map_map. apply map_ext. intros e. apply xvsub_fin. }
  rewrite EM. set (A := map (fun e => vsub e ideal) ext). rewrite <- (map_repeat' Fin). rewrite Hs.
  set (nx := match option_map (map Fin) (solve A (repeat 1 (length ideal))) with Some plane => _ | None => _ end).
  set (nr := match solve A (repeat 1 (length ideal)) with Some plane => _ | None => _ end).
  assert (EN : nx = map Fin nr).
  { unfold nx, nr. destruct (solve A (repeat 1 (length ideal))) as [plane|] eqn:Es; cbn [option_map]; [|reflexivity].
    assert (Lp : length plane = length ideal) by (pose proof (Hd _ _ _ Es) as G; rewrite repeat_length in G; exact G).
    destruct (existsb (fun x => is_zero x) plane) eqn:Ez.
    - rewrite (zero_intercept ideal plane worst Lp Lw Ez). rewrite !orb_true_r. reflexivity.
    - rewrite (intercepts_fin plane Ez).
      replace (vmap2 xadd (map Fin ideal) (map Fin (map (fun x => 1 / x) plane))) with (map Fin (vadd ideal (map (fun x => 1 / x) plane))) by (symmetry; apply vmap2_fin; reflexivity).
      rewrite gt_fin, existsb_map'. rewrite (existsb_ext' (fun x => xleb (Fin x) (Fin (1 / 1000000))) (fun x => if Rle_dec x (1 / 1000000) then true else false)) by (intros; apply xleb_fin).
      rewrite map_map, (map_ext (fun x => xdot (map Fin x) (map Fin plane)) (fun x => Fin (dot x plane))) by (intros; apply xdot_fin). rewrite <- (map_map (fun x => dot x plane) Fin), allclose_fin.
      destruct (negb _ || _ || _); reflexivity. }
  rewrite EN. clearbody nr. clear nx EN.
  assert (G : forall (l : list R) iw, vmap2 (fun n (iw : xr * xr) => if xleb (xsub n (fst iw)) (Fin (1 / 1000000)) then snd iw else n) (map Fin l) (map (fun p : R * R => (Fin (fst p), Fin (snd p))) iw)
    = map Fin (vmap2 (fun n (iw : R * R) => if Rle_dec (n - fst iw) (1 / 1000000) then snd iw else n) l iw)).
  { induction l as [|x l IH]; intros [|[i w] iw]; cbn [map vmap2 fst snd]; auto. cbn [xsub]. rewrite xleb_fin, IH. destruct (Rle_dec (x - i) (1 / 1000000)); reflexivity. }
  rewrite <- G. f_equal. revert wpop. clear. induction ideal as [|x l IH]; intros [|y v]; cbn [map combine]; auto. rewrite IH. reflexivity.
Qed.
Lemma normalise_fin ideal nadir f : normalise_x (map Fin ideal) (map Fin nadir) (map Fin f) = map Fin (normalise ideal nadir f).
Proof.
  unfold normalise_x, normalise. rewrite !xvsub_fin. generalize (vsub nadir ideal) (vsub f ideal). induction l as [|d l IH]; intros [|x v]; cbn [map vmap2]; auto.
  rewrite IH. f_equal. cbn [denom_x]. destruct (Req_EM_T d 0) as [E|E]; cbn [xdiv].
  - destruct (Req_EM_T (1 / 1000000000000) 0) as [E2|E2]; [exfalso; lra|reflexivity].
  - destruct (Req_EM_T d 0); [contradiction|reflexivity].
Qed.
Lemma perp_fin v u : norm u <> 0 -> perp_dist_x (map Fin v) u = Fin (perp_dist v u).
Proof.
  intros Hn. unfold perp_dist_x, perp_dist. rewrite xdot_fin. cbn [xdiv]. destruct (Req_EM_T (norm u) 0); [contradiction|]. cbn [xmul xdiv].
  rewrite (map_ext _ (fun x => Fin (dot v u / norm u * x / norm u))) by (intros x; destruct (Req_EM_T (norm u) 0); [contradiction|reflexivity]).
  rewrite <- (map_map (fun x => dot v u / norm u * x / norm u) Fin), xvsub_fin. apply xnorm_fin.
Qed.
Lemma niche_fin dirs v : (forall u, In u dirs -> norm u <> 0) -> niche_of_x dirs (map Fin v) = niche_of dirs v.
Proof.
  intros H. unfold niche_of_x, niche_of. rewrite (map_ext_in _ (fun u => Fin (perp_dist v u))) by (intros u Hu; apply perp_fin; auto).
  rewrite <- (map_map (perp_dist v) Fin), xargmin_fin. reflexivity.
Qed.
Lemma niche_of_lt' dirs v : dirs <> [] -> (niche_of dirs v < length dirs)%nat.
Proof.
  intros H. unfold niche_of. destruct (argmin (map (perp_dist v) dirs)) as [k|] eqn:E; [apply argmin_lt in E; rewrite map_length in E; exact E|]. destruct dirs; [congruence|discriminate].
Qed.
Lemma niche_dist_fin dirs v : dirs <> [] -> (forall u, In u dirs -> norm u <> 0) -> niche_dist_x dirs (map Fin v) = Fin (niche_dist dirs v).
Proof.
  intros Hd H. unfold niche_dist_x, niche_dist. rewrite niche_fin by exact H. apply perp_fin. apply H, nth_In. apply niche_of_lt'. exact Hd.
Qed.
Lemma niching_fin rng nd niches dists : forall r t counts mask, niching_x rng nd niches (map Fin dists) r t counts mask = niching rng nd niches dists r t counts mask.
Proof.
  assert (P : forall t counts mask, niche_pick_x rng nd niches (map Fin dists) t counts mask = niche_pick rng nd niches dists t counts mask).
  { intros t counts mask. unfold niche_pick_x, niche_pick. destruct (filter _ (seq 0 nd)) as [|k0 ks]; [reflexivity|].
    cbv zeta. match goal with |- (if Nat.eqb ?c 0 then _ else _) = _ => destruct (Nat.eqb c 0) end; [|reflexivity].
    rewrite (map_ext (fun i => nth i (map Fin dists) (Fin 0)) (fun i => Fin (nth i dists 0))) by (intros i; apply map_nth).
    rewrite <- (map_map (fun i => nth i dists 0) Fin), xargmin_fin. reflexivity. }
  induction r as [|r IH]; intros t counts mask; cbn [niching_x niching]; [reflexivity|]. rewrite P. destruct (niche_pick rng nd niches dists t counts mask) as [[i k]|e]; cbn [bind]; [|reflexivity].
  cbn [fst snd]. rewrite IH. reflexivity.
Qed.
Lemma survive_fin rng n nd niche dist fronts : survive_x rng n nd niche (fun i => Fin (dist i)) fronts = survive rng n nd niche dist fronts.
Proof.
  unfold survive_x, survive. destruct (cut_fronts n [] fronts) as [[before last]|]; [|reflexivity]. destruct (Nat.ltb n (length (concat before ++ last))); [|reflexivity].
  rewrite <- (map_map dist Fin), niching_fin. reflexivity.
Qed.
Lemma survive_x_ext rng n nd niche niche' dist dist' fronts : (forall i, In i (concat fronts) -> niche i = niche' i /\ dist i = dist' i) ->
  survive_x rng n nd niche dist fronts = survive_x rng n nd niche' dist' fronts.
Proof.
  intros H. unfold survive_x. pose proof (cut_fronts_spec n fronts []) as CS. destruct (cut_fronts n [] fronts) as [[before last]|]; [|reflexivity].
  destruct CS as (pre & post & E1 & E2 & _). cbn [app] in E2. subst before.
  assert (H1 : forall i, In i (concat pre) -> niche i = niche' i) by (intros i Hi; apply H; rewrite E1, concat_app; apply in_or_app; now left).
  assert (H2 : forall i, In i last -> niche i = niche' i /\ dist i = dist' i) by (intros i Hi; apply H; rewrite E1, concat_app; apply in_or_app; right; cbn [concat]; apply in_or_app; now left).
  rewrite (map_ext_in niche niche' (concat pre)) by exact H1. rewrite (map_ext_in niche niche' last) by (intros; apply H2; auto). rewrite (map_ext_in dist dist' last) by (intros; apply H2; auto). reflexivity.
Qed.

(** ** A NaN in the ideal point *)
Lemma normalise_nan j ideal nadir f : nan_at j ideal -> (j < length nadir)%nat -> (j < length f)%nat -> nan_at j (normalise_x ideal nadir f).
Proof.
  intros Hj Hn Hf. unfold nan_at, normalise_x, xvsub in *. rewrite vmap2_nth, nth_error_map, !vmap2_nth, Hj.
  destruct (nth_error nadir j) as [a|] eqn:Ea; [|apply nth_error_None in Ea; lia]. destruct (nth_error f j) as [b|] eqn:Eb; [|apply nth_error_None in Eb; lia].
  cbn [option_map]. rewrite !xsub_nan_r. cbn [denom_x]. reflexivity.
Qed.
Lemma xdot_nan_r u : forall v j, nan_at j v -> (j < length u)%nat -> xdot u v = NaN.
Proof.
  induction u as [|x u IH]; intros [|y v] [|j] H Hl; cbn [length nth_error] in *; try lia; try discriminate; unfold nan_at in H; cbn [nth_error] in H; try discriminate.
  - injection H as ->. cbn [xdot]. rewrite xmul_nan_r. reflexivity.
  - cbn [xdot]. rewrite (IH v j H) by lia. apply xadd_nan_r.
Qed.
Lemma perp_nan j v u : nan_at j v -> (j < length u)%nat -> perp_dist_x v u = NaN.
Proof.
  intros Hj Hl. unfold perp_dist_x. apply (xnorm_nan j). unfold nan_at, xvsub. rewrite vmap2_nth, nth_error_map.
  destruct (nth_error u j) as [x|] eqn:Ex; [|apply nth_error_None in Ex; lia]. cbn [option_map]. rewrite Hj. rewrite xsub_nan_r. reflexivity.
Qed.
Lemma niche_nan j dirs v : nan_at j v -> (forall u, In u dirs -> (j < length u)%nat) -> dirs <> [] -> niche_of_x dirs v = 0%nat /\ niche_dist_x dirs v = NaN.
Proof.
  intros Hj Hd Hne. destruct dirs as [|u dirs]; [congruence|].
  assert (E : niche_of_x (u :: dirs) v = 0%nat).
  { unfold niche_of_x. cbn [map]. rewrite (perp_nan j) by (auto; apply Hd; now left). rewrite (xargmin_first _ 0%nat) by reflexivity. reflexivity. }
  split; [exact E|]. unfold niche_dist_x. rewrite E. cbn [nth]. apply (perp_nan j); auto. apply Hd. now left.
Qed.
