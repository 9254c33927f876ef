(** Reference vectors: C46-C51, C75-C78. *)
From Verif Require Import Base RVec M_APD M_BaseEA M_Lattice P_Lattice M_RefVec P_RefVec P_RefVec2 P_RefVec3 P_RefVec4.
From Coq Require Import Reals Lra.
Open Scope R_scope.

(** ** C46. After creation, normalisation, adaptation or edge insertion, in any order and any number of times, every vector with a
    non-zero entry has Euclidean norm 1 (norm written out as the square root of the sum of squares). *)
Theorem C46_unit_length (s0 : rv) (history : list (pref_action + list (list R))) (v : list R) :
  In v (values (fold_left interact history (normalize_rv s0))) ->
  (exists x, In x v /\ x <> 0) -> sqrt (rsum (map (fun x => x * x) v)) = 1.
Proof.
  intros H (x & Hx & Hn).
  pose proof (interacts_unit history (normalize_rv s0) (normalize_unit s0)) as U. rewrite Forall_forall in U.
  rewrite <- sumsq_dot. fold (norm v). destruct (U v H) as [|Z]; auto. exfalso. apply Hn, Z; auto.
Qed.

(** C46. The uniformly created set (positive resolution, at least two objectives) has no zero vector at all: every vector is a unit
    vector with non-negative entries, and the planar copies sum to 1. *)
Theorem C46_uniform_creation (h n : nat) : (2 <= n)%nat -> (1 <= h)%nat ->
  exists s, create_uniform h n = Ok s /\ length (values s) = binom (h + n - 1) (n - 1) /\ n_vec s = length (values s) /\
    (forall v, In v (values s) -> length v = n /\ norm v = 1 /\ forall x, In x v -> 0 <= x) /\
    (forall v, In v (planar s) -> length v = n /\ rsum v = 1 /\ forall x, In x v -> 0 <= x).
Proof. apply uniform_creation. Qed.

(** C46. Adapting to fitness values that differ in every objective keeps every (non-zero) vector at norm 1. *)
Theorem C46_adapt_unit (s s' : rv) (fitness : list (list R)) :
  adapt s fitness = Ok s' ->
  (forall v, In v (init_values s) -> length v = n_obj s /\ exists x, In x v /\ x <> 0) ->
  (forall r, In r fitness -> length r = n_obj s) ->
  (forall j, (j < n_obj s)%nat -> exists r1 r2, In r1 fitness /\ In r2 fitness /\ nth j r1 0 <> nth j r2 0) ->
  forall v, In v (values s') -> norm v = 1.
Proof. apply adapt_all_unit. Qed.

(** C46. Planar copies: a row whose entries do not sum to zero is scaled to sum 1. *)
Theorem C46_planar_sum (s : rv) (k : nat) (v : list R) :
  nth_error (planar s) k = Some v -> rsum v <> 0 ->
  exists v', nth_error (planar (normalize_rv s)) k = Some v' /\ rsum v' = 1 /\ exists c, forall j, nth j v' 0 = c * nth j v 0.
Proof.
  intros H Hn. exists (planar_row v). split; [simpl; rewrite nth_error_map, H; auto|]. split; [apply planar_row_sum; auto|].
  exists (/ rsum v). intros j. unfold planar_row. replace 0 with (0 / rsum v) at 1 by (unfold Rdiv; lra).
  rewrite (map_nth (fun x => x / rsum v)). unfold Rdiv. lra.
Qed.

(** C46. number_of_vectors always counts the rows. *)
Theorem C46_number_of_vectors (s0 : rv) (history : list (pref_action + list (list R))) :
  n_vec (fold_left interact history (normalize_rv s0)) = length (values (fold_left interact history (normalize_rv s0))).
Proof. apply interacts_nvec. simpl. rewrite map_length. auto. Qed.

(** ** C47. The adapted vectors depend on the initial vectors and the current ranges only: whatever interactions came before, and for
    any two fitness matrices with the same ranges, the vectors are the same. *)
Theorem C47_no_trace (s : rv) (history : list (pref_action + list (list R))) (fitness fitness' : list (list R)) s1 s2 :
  adapt s fitness = Ok s1 -> adapt (fold_left interact history s) fitness' = Ok s2 ->
  vsub (colmaxR fitness) (colminR fitness) = vsub (colmaxR fitness') (colminR fitness') ->
  values s2 = values s1.
Proof.
  intros H1 H2 E. apply adapt_values in H1, H2. rewrite H1, H2, E. destruct (interacts_init history s) as (-> & _). auto.
Qed.
(** What the ranges are: the largest minus the smallest value of every objective. *)
Theorem C47_ranges (fitness : list (list R)) (n j : nat) : fitness <> [] -> (forall r, In r fitness -> length r = n) -> (j < n)%nat ->
  exists hi lo, In hi fitness /\ In lo fitness /\ nth j (vsub (colmaxR fitness) (colminR fitness)) 0 = nth j hi 0 - nth j lo 0 /\
    forall r, In r fitness -> nth j lo 0 <= nth j r 0 <= nth j hi 0.
Proof. apply ranges_spec. Qed.
(** Repeating it changes nothing (planar rows that do not sum to zero included). *)
Theorem C47_idempotent (s s1 : rv) (fitness : list (list R)) :
  adapt s fitness = Ok s1 -> (forall v, In v (planar s) -> rsum v <> 0) -> adapt s1 fitness = Ok s1.
Proof. apply adapt_idem. Qed.
(** The planar copies do keep a trace: after a reference point interaction adapting again restores the number of vectors but not
    the number of planar copies. *)
Theorem C47_planar_trace_refuted (s s1 s2 : rv) (ref mult ideal : list R) (fitness : list (list R)) :
  length (init_planar s) = length (init_values s) -> (1 <= n_obj s)%nat ->
  manage s (PrefPoint ref mult ideal) = Ok s1 -> adapt s1 fitness = Ok s2 ->
  length (planar s2) = (length (values s2) + n_obj s)%nat /\ length (planar s2) <> length (values s2).
Proof. apply planar_trace. Qed.

(** ** C76. Interactions of any type are accepted in any order ... as long as no interaction is skipped: well-formed sets stay
    well-formed and no non-empty preference raises. *)
Definition usable (p : pref_action) : Prop :=
  match p with PrefSolutions z n => z <> [] | _ => True end.
Theorem C76_interactions_accepted_partial (s : rv) (history : list pref_action) (p : pref_action) :
  length (values s) = length (planar s) -> length (init_values s) = length (init_planar s) -> usable p ->
  exists s', manage (fold_left interact (map inl history) s) p = Ok s' /\ length (values s') = length (planar s').
Proof. intros H1 H2 Hp. apply manages_ok; [split; auto|exact Hp]. Qed.
(** Missing: skipping one interaction (preference None) after a reference point makes the next non-preferred-solutions
    interaction raise IndexError, always. *)
Theorem C76_skipped_interaction_refuted (s s1 s2 : rv) (ref mult ideal : list R) (fitness z : list (list R)) (n : nat) :
  length (init_planar s) = length (init_values s) -> (1 <= n_obj s)%nat -> length z <> n ->
  manage s (PrefPoint ref mult ideal) = Ok s1 -> adapt s1 fitness = Ok s2 ->
  manage s2 (PrefNonPreferred z n) = Err IndexError.
Proof. apply skipped_raises. Qed.

(** ** C48. Rotation. For unit vectors a, b that are neither equal nor opposite, rotate(a, b, xs) is defined; it preserves inner
    products (hence lengths), sends a to b, and leaves every vector orthogonal to both where it is. *)
Theorem C48_rotation (a b : list R) (xs : list (list R)) :
  length a = length b -> norm a = 1 -> norm b = 1 -> a <> b -> a <> map Ropp b ->
  exists ys, rotate a b xs = Some ys /\ length ys = length xs /\
    (forall i j xi xj, nth_error xs i = Some xi -> nth_error xs j = Some xj -> length xi = length a -> length xj = length a ->
       exists yi yj, nth_error ys i = Some yi /\ nth_error ys j = Some yj /\ dot yi yj = dot xi xj) /\
    (forall i, nth_error xs i = Some a -> nth_error ys i = Some b) /\
    (forall i x, nth_error xs i = Some x -> length x = length a -> dot x a = 0 -> dot x b = 0 -> nth_error ys i = Some x) /\
    (forall i, nth_error xs i = Some b -> nth_error ys i = Some (vsub (vscale (2 * dot a b) b) a)).
Proof. apply rotation_spec. Qed.
(** Equal or opposite vectors give NaN instead of the identity. *)
Theorem C48_parallel_refuted (a : list R) (xs : list (list R)) : rotate a a xs = None /\ rotate a (map Ropp a) xs = None.
Proof. split; [apply rotate_same|apply rotate_opposite]. Qed.

(** ** C49. rotate_toward. Let phi be the angle between the unit vectors a and f, 0 < phi < pi, and theta = degrees * pi/180 > 0.
    If phi < theta the result is [reached] and a is sent to f; otherwise a is sent to a unit vector r = x*a + y*f at angle theta from
    a and phi - theta from f. Either way it is an isometry. *)
Theorem C49_turns_by_angle (a f : list R) (xs : list (list R)) (degrees : R) (phi theta : R) :
  length a = length f -> norm a = 1 -> norm f = 1 -> 0 < phi < PI -> cos phi = dot a f ->
  theta = degrees * PI / 180 -> 0 < theta ->
  exists ys reached r, rotate_toward a f xs degrees = Some (ys, reached) /\ length ys = length xs /\
    (reached = true <-> phi < theta) /\
    (reached = true -> r = f) /\
    (reached = false -> norm r = 1 /\ dot a r = cos theta /\ dot f r = cos (phi - theta) /\ exists x y, r = vadd (vscale x a) (vscale y f)) /\
    (forall i, nth_error xs i = Some a -> nth_error ys i = Some r) /\
    (forall i j xi xj, nth_error xs i = Some xi -> nth_error xs j = Some xj -> length xi = length a -> length xj = length a ->
       exists yi yj, nth_error ys i = Some yi /\ nth_error ys j = Some yj /\ dot yi yj = dot xi xj).
Proof. apply rotate_toward_spec. Qed.
(** When the initial vector already is the final one, or is opposite to it, there is no result (NaN or a singular system). *)
Theorem C49_parallel_refuted (a : list R) (xs : list (list R)) (degrees : R) : norm a = 1 ->
  rotate_toward a a xs degrees = None /\ rotate_toward a (map Ropp a) xs degrees = None.
Proof. apply rotate_toward_parallel. Qed.

(** ** C50. After any preference has been handled, every axis vector is among the vectors. *)
Theorem C50_edges_present (s s' : rv) (p : pref_action) (i : nat) : manage s p = Ok s' -> (i < n_obj s)%nat ->
  exists e, In e (values s') /\ In e (planar s') /\ length e = n_obj s /\ forall j, (j < n_obj s)%nat -> nth j e 0 = if Nat.eqb i j then 1 else 0.
Proof. apply edges_present. Qed.
(** Adding edges keeps all previous vectors (which are unit or zero vectors), in order, and adds only the axis vectors. *)
Theorem C50_directions_kept (s0 : rv) (history : list (pref_action + list (list R))) :
  let s := fold_left interact history (normalize_rv s0) in
  exists edges, values (add_edges s) = values s ++ edges /\ length edges = n_obj s /\
    forall i e, nth_error edges i = Some e -> length e = n_obj s /\ forall j, (j < n_obj s)%nat -> nth j e 0 = if Nat.eqb i j then 1 else 0.
Proof.
  intros s. exists (eye (n_obj s)). split; [apply add_edges_values, interacts_unit, normalize_unit|]. apply eye_spec.
Qed.
(** They are not added only once: repeated non-preferred-solution interactions that remove nothing pile them up. *)
Theorem C50_edges_accumulate (s : rv) (z : list (list R)) (n : nat) (i : nat) :
  length (values s) = length (planar s) -> Forall unit_or_zero (values s) -> length z <> n ->
  (forall v, In v (planar s) -> rsum v = 1 /\ far_enough (2/10) z v = true) -> (i < n_obj s)%nat ->
  (forall i, (i < n_obj s)%nat -> far_enough (2/10) z (unit_vec (n_obj s) i) = true) ->
  exists s1 s2, manage s (PrefNonPreferred z n) = Ok s1 /\ manage s1 (PrefNonPreferred z n) = Ok s2 /\
    values s2 = values s ++ eye (n_obj s) ++ eye (n_obj s).
Proof. intros; eapply edges_twice; eauto. Qed.

(** ** C51. Every handled preference leaves at least one vector. *)
Theorem C51_never_empty (s s' : rv) (p : pref_action) : (1 <= n_obj s)%nat -> manage s p = Ok s' -> values s' <> [].
Proof.
  intros H M E. destruct (edges_present s s' p 0 M) as (e & He & _); [lia|]. rewrite E in He. destruct He.
Qed.
Lemma planar_sum_one (u : list R) : rsum u <> 0 -> rsum (map (fun x => x / rsum u) u) = 1.
Proof.
  intros H. replace (map (fun x => x / rsum u) u) with (vscale (/ rsum u) u) by (unfold vscale; apply map_ext; intros; unfold Rdiv; ring).
  assert (E : forall (c : R) l, rsum (vscale c l) = c * rsum l) by (intros c l; unfold vscale; induction l as [|x l IH]; cbn [map rsum]; [ring|rewrite IH; ring]).
  rewrite E. field. exact H.
Qed.
(** Preferred solutions: the normalised [0.2 * v + 0.8 * z], for every preferred solution z and every initial vector v, in this order. *)
Theorem C51_preferred_solutions (s : rv) (z : list (list R)) (n : nat) : z <> [] -> length z <> n ->
  exists s', interactive_adapt_1 s z n = Ok s' /\ length (values s') = (length z * length (init_values s))%nat /\
    forall i j zi v, nth_error z i = Some zi -> nth_error (init_values s) j = Some v ->
      exists w, nth_error (values s') (i * length (init_values s) + j) = Some w /\
        exists c, 0 <= c /\ w = vscale c (vadd (vscale (1/5) v) (vscale (4/5) zi)).
Proof. apply preferred_spec. Qed.
(** The planar copies are moved in the same way and scaled to sum 1 - it is their distances that later decide which vectors are removed. Preferred solutions: *)
Theorem C51_preferred_solutions_planar (s : rv) (z : list (list R)) (n i j : nat) (zi p u : list R) : length z <> n ->
  nth_error z i = Some zi -> nth_error (init_planar s) j = Some p -> u = vadd (vscale (1/5) p) (vscale (4/5) zi) ->
  exists s', interactive_adapt_1 s z n = Ok s' /\ nth_error (planar s') (i * length (init_planar s) + j) = Some (map (fun x => x / rsum u) u) /\
    (rsum u <> 0 -> rsum (map (fun x => x / rsum u) u) = 1).
Proof.
  intros Hn Hi Hj ->. assert (Hz : z <> []) by (intros ->; destruct i; discriminate). unfold interactive_adapt_1.
  replace (Nat.eqb (length z) n) with false by (symmetry; apply Nat.eqb_neq; auto). replace (Nat.eqb (length z) 0) with false by (destruct z; [congruence|auto]).
  eexists; split; [reflexivity|]. cbn [normalize_rv set_rows planar]. split; [|apply planar_sum_one].
  rewrite nth_error_map. rewrite (nth_error_flat_map_blocks _ (length (init_planar s)) z) with (x := zi) (y := vadd (vscale (2/10) p) (vscale (1 - 2/10) zi)); [|intros x _; unfold shifted; apply map_length|auto|unfold shifted; rewrite nth_error_map, Hj; reflexivity].
  cbn [option_map]. replace (1 - 2/10) with (4/5) by lra. replace (2/10) with (1/5) by lra. reflexivity.
Qed.
(** Reference point, [d] its direction from the ideal point: *)
Theorem C51_reference_point_planar (s : rv) (ref mult ideal d p u : list R) (j : nat) :
  d = map (fun x => x / norm (vsub (vmap2 Rmult ref mult) ideal)) (vsub (vmap2 Rmult ref mult) ideal) ->
  nth_error (init_planar s) j = Some p -> u = vadd (vscale (1/5) p) (vscale (4/5) d) -> rsum u <> 0 ->
  exists s', manage s (PrefPoint ref mult ideal) = Ok s' /\ nth_error (planar s') j = Some (map (fun x => x / rsum u) u) /\ rsum (map (fun x => x / rsum u) u) = 1.
Proof.
  intros Ed Hj Eu Hs. eexists. split; [reflexivity|]. split; [|apply planar_sum_one; exact Hs].
  cbn [add_edges interactive_adapt_3 normalize_rv set_rows planar values n_obj]. rewrite nth_error_map, nth_error_app1.
  - rewrite nth_error_map. unfold shifted. rewrite nth_error_map, Hj. cbn [option_map]. replace (1 - 2/10) with (4/5) by lra. replace (2/10) with (1/5) by lra.
    f_equal. assert (Er : ref_direction ref mult ideal = d) by (subst d; reflexivity). rewrite Er, <- Eu. unfold planar_row. rewrite (planar_sum_one _ Hs). rewrite map_map. apply map_ext. intros x. unfold Rdiv. rewrite Rinv_1. ring.
  - rewrite !map_length. unfold shifted. rewrite map_length. apply nth_error_Some. rewrite Hj. discriminate.
Qed.
(** Preferred ranges: the sampled points themselves, scaled (their sums must not be zero). *)
Theorem C51_ranges_planar (s : rv) (ranges : list (R * R)) (sample : list (list R)) (i : nat) (t u : list R) :
  nth_error sample i = Some t -> u = vmap2 (fun x r => fst r + x * (snd r - fst r)) t ranges -> rsum u <> 0 ->
  exists s', manage s (PrefRanges ranges sample) = Ok s' /\ nth_error (planar s') i = Some (map (fun x => x / rsum u) u) /\ rsum (map (fun x => x / rsum u) u) = 1.
Proof.
  intros Hi Eu Hs. assert (Eu' : vmap2 (fun x r => x * (snd r - fst r) + fst r) t ranges = u).
  { subst u. clear. revert ranges. induction t as [|x t IH]; intros [|r rs]; cbn [vmap2]; try reflexivity. f_equal; [ring|apply IH]. }
  eexists. split; [reflexivity|]. split; [|apply planar_sum_one; exact Hs].
  cbn [add_edges interactive_adapt_4 normalize_rv set_rows planar values n_obj]. rewrite nth_error_map, nth_error_app1.
  - rewrite nth_error_map, nth_error_map, Hi. cbn [option_map]. rewrite Eu'. f_equal. unfold planar_row. rewrite (planar_sum_one _ Hs). rewrite map_map. apply map_ext. intros x. unfold Rdiv. rewrite Rinv_1. ring.
  - rewrite !map_length. apply nth_error_Some. rewrite Hi. discriminate.
Qed.
Print Assumptions C51_preferred_solutions_planar.
Print Assumptions C51_reference_point_planar.
Print Assumptions C51_ranges_planar.
(** Non-preferred solutions: exactly the vectors whose planar copy is at Euclidean distance at least 0.2 from every normalised
    non-preferred solution remain, in order. *)
Theorem C51_non_preferred_solutions (s : rv) (z : list (list R)) (n : nat) : length z <> n -> length (values s) = length (planar s) ->
  exists s', interactive_adapt_2 s z n = Ok s' /\
    exists far : list R -> bool,
      (forall p, far p = true <-> forall x, In x z -> 1/5 <= norm (vsub (map (fun t => t / rsum (map Rabs x)) x) p)) /\
      values s' = map fst (filter (fun k => far (snd k)) (combine (values s) (planar s))) /\
      planar s' = filter far (planar s).
Proof. apply non_preferred_spec. Qed.
(** All solutions named: both kinds restore the initial vectors. *)
Theorem C51_all_named_resets (s : rv) (z : list (list R)) : Forall unit_or_zero (init_values s) ->
  exists s1 s2, interactive_adapt_1 s z (length z) = Ok s1 /\ interactive_adapt_2 s z (length z) = Ok s2 /\
    values s1 = init_values s /\ values s2 = init_values s.
Proof. apply all_named. Qed.
(** But when the removal leaves nothing the set is not restored: only the axis vectors survive. *)
Theorem C51_all_removed_refuted :
  exists (s s' : rv) (z : list (list R)), length z <> 2%nat /\ length (values s) = 1%nat /\ init_values s = values s /\
    manage s (PrefNonPreferred z 2) = Ok s' /\ values s' = [[1; 0]; [0; 1]] /\ ~ In (hd [] (init_values s)) (values s').
Proof. apply all_removed. Qed.
(** No preferred solution at all: an exception. *)
Theorem C51_none_preferred_refuted (s : rv) (n : nat) : n <> 0%nat -> manage s (PrefSolutions [] n) = Err ValueError.
Proof. intros H. unfold manage, interactive_adapt_1. cbn [length]. destruct n; [contradiction|]. reflexivity. Qed.

(** ** C75. The neighbouring angle of a vector is the smallest angle to another vector of the set. *)
Theorem C75_smallest_angle (vs : list (list R)) (n i : nat) (v : list R) :
  (forall u, In u vs -> length u = n /\ norm u = 1) -> (2 <= length vs)%nat -> nth_error vs i = Some v ->
  exists angle, nth_error (neighbouring_angles vs) i = Some (Some angle) /\
    (exists j u, j <> i /\ nth_error vs j = Some u /\ 0 <= angle <= PI /\ cos angle = dot v u) /\
    (forall j u, j <> i -> nth_error vs j = Some u -> angle <= acos (dot v u)).
Proof. apply neighbouring_spec. Qed.
(** With one vector it raises IndexError. *)
Remark single_vector (v : list R) : neighbouring_angles [v] = [None].
Proof. reflexivity. Qed.
(** A vector occurring twice (edge vectors do, C50) has neighbouring angle zero. *)
Theorem C75_repeated_vector (vs : list (list R)) (n i j : nat) (v : list R) :
  (forall u, In u vs -> length u = n /\ norm u = 1) -> i <> j -> nth_error vs i = Some v -> nth_error vs j = Some v ->
  nth_error (neighbouring_angles vs) i = Some (Some 0).
Proof. apply neighbouring_dup. Qed.

(** ** C77. "Focused" creation around a reference point that is not on the last axis: the set is the direction of the reference point,
    3^(n-1) - 1 unit vectors at exactly 5 degrees from it, and the n axis vectors. *)
Theorem C77_focused (n : nat) (ref : list R) : (2 <= n)%nat -> length ref = n -> (exists j, (j < n - 1)%nat /\ nth j ref 0 <> 0) ->
  exists s c rows, create_focused n ref = Some s /\ values s = c :: rows ++ eye n /\ n_vec s = (3 ^ (n - 1) + n)%nat /\
    length (values s) = (3 ^ (n - 1) + n)%nat /\ c = map (fun x => x / norm ref) ref /\ norm c = 1 /\
    (forall v, In v rows -> length v = n /\ norm v = 1 /\ acos (dot c v) = 5 * PI / 180).
Proof.
  intros Hn L O. destruct (create_cone_spec n (tl (product01 (n - 1))) ref Hn (conj L O)) as (s & c & rows & E & V & N & C & U & Lr & G & _).
  { intros u Hu. apply focused_base; auto. }
  assert (Lt : length (values s) = (3 ^ (n - 1) + n)%nat).
  { rewrite V, app_length, (proj1 (eye_spec n)). cbn [length]. rewrite Lr.
    pose proof (product01_length (n - 1)). destruct (product01_head (n - 1)) as (t & Et & _). rewrite Et in *. cbn [tl length] in *. lia. }
  exists s, c, rows. split; [exact E|]. split; [exact V|]. split; [congruence|]. split; auto. split; auto. split; auto.
  intros v Hv. destruct (G v Hv) as (G1 & G2 & G3). split; auto. split; auto. rewrite G3. pose proof deg5_pos. apply acos_cos. unfold deg5 in *. pose proof PI_RGT_0. lra.
Qed.
(** "Sparse_Focused": 2(n-1) vectors around the reference point instead. Also, the vectors are laid out symmetrically: the inner product
    of any two is sin^2(5 deg) times the cosine between the base directions plus cos^2(5 deg). *)
Theorem C77_sparse_focused (n : nat) (ref : list R) : (2 <= n)%nat -> length ref = n -> (exists j, (j < n - 1)%nat /\ nth j ref 0 <> 0) ->
  exists s c rows, create_sparse_focused n ref = Some s /\ values s = c :: rows ++ eye n /\ n_vec s = (2 * (n - 1) + 1 + n)%nat /\
    length rows = (2 * (n - 1))%nat /\ c = map (fun x => x / norm ref) ref /\ norm c = 1 /\
    (forall v, In v rows -> length v = n /\ norm v = 1 /\ acos (dot c v) = 5 * PI / 180) /\
    (forall i j, (i < n - 1)%nat -> (j < n - 1)%nat -> exists v1 v2 w1, nth_error rows i = Some v1 /\ nth_error rows j = Some v2 /\
       nth_error rows (n - 1 + i) = Some w1 /\
       dot v1 v2 = (if Nat.eqb i j then 1 else Rsqr (cos (5 * PI / 180))) /\
       dot w1 v1 = Rsqr (cos (5 * PI / 180)) - Rsqr (sin (5 * PI / 180))).
Proof.
  intros Hn L O. destruct (create_cone_spec n (eye (n - 1) ++ map (map Ropp) (eye (n - 1))) ref Hn (conj L O)) as (s & c & rows & E & V & N & C & U & Lr & G & D).
  { intros u Hu. apply sparse_base; auto. }
  rewrite app_length, map_length, (proj1 (eye_spec (n - 1))) in Lr.
  assert (Lt : length (values s) = (2 * (n - 1) + 1 + n)%nat).
  { rewrite V, app_length, (proj1 (eye_spec n)). cbn [length]. lia. }
  exists s, c, rows. split; [exact E|]. split; [exact V|]. split; [congruence|]. split; [lia|]. split; auto. split; auto.
  split. { intros v Hv. destruct (G v Hv) as (G1 & G2 & G3). split; auto. split; auto. rewrite G3. pose proof deg5_pos. apply acos_cos. unfold deg5 in *. pose proof PI_RGT_0. lra. }
  intros i j Hi Hj.
  assert (B1 : forall k, (k < n - 1)%nat -> nth_error (eye (n - 1) ++ map (map Ropp) (eye (n - 1))) k = Some (unit_vec (n - 1) k)).
  { intros k Hk. rewrite nth_error_app1 by (rewrite (proj1 (eye_spec (n - 1))); auto). apply eye_nth; auto. }
  assert (B2 : nth_error (eye (n - 1) ++ map (map Ropp) (eye (n - 1))) (n - 1 + i) = Some (map Ropp (unit_vec (n - 1) i))).
  { rewrite nth_error_app2 by (rewrite (proj1 (eye_spec (n - 1))); lia). rewrite (proj1 (eye_spec (n - 1))).
    replace (n - 1 + i - (n - 1))%nat with i by lia. rewrite nth_error_map, eye_nth; auto. }
  destruct (D i j _ _ (B1 i Hi) (B1 j Hj)) as (v1 & v2 & V1 & V2 & D1).
  destruct (D (n - 1 + i)%nat i _ _ B2 (B1 i Hi)) as (w1 & v1' & W1 & V1' & D2). rewrite V1 in V1'. injection V1' as <-.
  exists v1, v2, w1. split; auto. split; auto. split; auto.
  rewrite norm_opp, !unit_vec_norm in D2 by lia. rewrite !unit_vec_norm in D1 by lia.
  pose proof (sin2_cos2 (5 * PI / 180)) as SC. unfold Rsqr in *. unfold deg5 in *.
  pose proof (unit_vec_norm (n - 1) i Hi) as Ui. apply norm_one_dot in Ui. split.
  - destruct (Nat.eqb_spec i j) as [->|Hne]; rewrite D1.
    + rewrite Ui. lra.
    + rewrite unit_vec_orth by auto. lra.
  - rewrite D2. assert (X : dot (map Ropp (unit_vec (n - 1) i)) (unit_vec (n - 1) i) = - dot (unit_vec (n - 1) i) (unit_vec (n - 1) i)).
    { generalize (unit_vec (n - 1) i). clear. intros l. induction l as [|x l IH]; simpl; [lra|rewrite IH; lra]. }
    rewrite X, Ui. lra.
Qed.
(** A reference point on the last axis (also the zero point) gives NaN. *)
Theorem C77_on_axis_refuted (n : nat) (x : R) : (1 <= n)%nat ->
  create_focused n (repeat 0 (n - 1) ++ [x]) = None /\ create_sparse_focused n (repeat 0 (n - 1) ++ [x]) = None.
Proof.
  intros Hn. assert (E : repeat 0 (n - 1) ++ [x] = vscale x (axis n)).
  { unfold vscale, axis. rewrite map_app. f_equal; [|simpl; f_equal; lra].
    generalize (n - 1)%nat. intros k. induction k as [|k IH]; simpl; auto. f_equal; auto. lra. }
  rewrite E. split; apply create_cone_on_axis; auto; intros u Hu; [eapply focused_base|eapply sparse_base]; eauto.
Qed.

(** ** C78. slow_interactive_adapt: [values] is a centre, its companions and the axis vectors; phi is the angle between the centre
    and the reference point. One call turns centre and companions rigidly by 5 degrees towards the reference point, or onto it if it
    is closer, keeps the axis vectors and reports whether the point was reached. *)
Theorem C78_slow_step (s : rv) (v0 : list R) (rest : list (list R)) (ref : list R) (phi : R) :
  values s = (v0 :: rest) ++ eye (n_obj s) -> (forall v, In v (v0 :: rest) -> length v = n_obj s /\ norm v = 1) ->
  length ref = n_obj s -> norm ref <> 0 -> 0 < phi < PI -> cos phi = dot v0 (map (fun x => x / norm ref) ref) ->
  exists s' reached c rest', slow_interactive_adapt s ref = Some (s', Some reached) /\
    values s' = (c :: rest') ++ eye (n_obj s) /\ length rest' = length rest /\
    (reached = true <-> phi < 5 * PI / 180) /\ (reached = true -> c = map (fun x => x / norm ref) ref) /\
    (reached = false -> dot v0 c = cos (5 * PI / 180) /\ dot c (map (fun x => x / norm ref) ref) = cos (phi - 5 * PI / 180)) /\
    (forall v, In v (c :: rest') -> norm v = 1) /\
    (forall i j vi vj, nth_error (v0 :: rest) i = Some vi -> nth_error (v0 :: rest) j = Some vj ->
       exists wi wj, nth_error (c :: rest') i = Some wi /\ nth_error (c :: rest') j = Some wj /\ dot wi wj = dot vi vj).
Proof.
  intros V U L N P C. destruct (slow_spec s v0 rest ref _ phi V U L N eq_refl P C) as (s' & r & c & rest' & H1 & H2 & _ & H).
  exists s', r, c, rest'. split; [exact H1|]. split; [exact H2|]. exact H.
Qed.
(** If the point is given without normalisation, the call after reaching it has no result (NaN). *)
Theorem C78_unnormalised_refuted (s : rv) (v0 : list R) (rest : list (list R)) (c : R) : values s = v0 :: rest -> norm v0 = 1 -> 0 < c -> c <> 1 ->
  slow_interactive_adapt s (vscale c v0) = None.
Proof.
  intros V N Hc H1. unfold slow_interactive_adapt. rewrite V.
  assert (NN : norm (vscale c v0) = c) by (rewrite norm_scale, N, Rabs_right; lra).
  assert (NEQ : list_eqR v0 (vscale c v0) = false).
  { unfold list_eqR. destruct (list_eq_dec Req_EM_T v0 (vscale c v0)) as [E|]; auto. exfalso. rewrite <- E in NN. lra. }
  rewrite NEQ. unfold rotate_toward at 1.
  destruct (normalize1_nonzero (vscale c v0)) as (E & _); [lra|]. rewrite NN in E.
  replace (map (fun x => x / c) (vscale c v0)) with v0 in E.
  2:{ unfold vscale. rewrite map_map. symmetry. apply map_id_in. intros x _. field. lra. }
  rewrite E. destruct (rotate_toward_parallel v0 (firstn (length (v0 :: rest) - n_obj s) (v0 :: rest)) 5 N) as (Z & _).
  unfold rotate_toward in Z. rewrite (normalize1_unit v0 N) in *. rewrite Z. reflexivity.
Qed.
(** Exactly 5 degrees away: the centre lands on the point but the call reports "not reached", and the next call reports nothing. *)
Theorem C78_exact_angle_refuted (s : rv) (v0 : list R) (rest : list (list R)) (ref : list R) :
  values s = (v0 :: rest) ++ eye (n_obj s) -> (forall v, In v (v0 :: rest) -> length v = n_obj s /\ norm v = 1) ->
  length ref = n_obj s -> norm ref = 1 -> dot v0 ref = cos (5 * PI / 180) ->
  exists s', slow_interactive_adapt s ref = Some (s', Some false) /\ hd [] (values s') = ref /\ slow_interactive_adapt s' ref = Some (s', None).
Proof.
  intros V U L N D.
  assert (Er : map (fun x => x / norm ref) ref = ref) by (apply map_id_in; intros x _; rewrite N; unfold Rdiv; rewrite Rinv_1; lra).
  destruct (slow_spec s v0 rest ref ref deg5 V U L) as (s' & r & c & rest' & H1 & H2 & _ & H3 & H4 & H5 & H6 & H7 & H8); auto; try lra.
  { pose proof deg5_pos. lra. }
  destruct r; [exfalso; destruct H4 as (H4 & _); specialize (H4 eq_refl); lra|].
  destruct (H6 eq_refl) as (_ & Dc). rewrite Rminus_eq_0, cos_0 in Dc.
  assert (Nc : norm c = 1) by (apply H7; left; auto).
  assert (Lc : length c = length ref).
  { pose proof (slow_centre_length _ _ _ _ H1 _ _ (fun v Hv => proj1 (U v Hv)) V L) as Lc. rewrite H2 in Lc. simpl in Lc. congruence. }
  assert (Ec : c = ref).
  { apply vsub_zero_eq; auto. apply dot_self_zero. apply norm_one_dot in Nc, N.
    rewrite dot_sub_l, !dot_sub_r by auto. rewrite (dot_comm ref c), Nc, N, Dc. lra. }
  exists s'. split; auto. rewrite H2. split; [exact Ec|]. unfold slow_interactive_adapt. rewrite H2. cbn [app].
  unfold list_eqR. destruct (list_eq_dec Req_EM_T c ref); [auto|contradiction].
Qed.

Print Assumptions C46_unit_length.
Print Assumptions C46_uniform_creation.
Print Assumptions C46_adapt_unit.
Print Assumptions C46_planar_sum.
Print Assumptions C46_number_of_vectors.
Print Assumptions C47_no_trace.
Print Assumptions C47_ranges.
Print Assumptions C47_idempotent.
Print Assumptions C47_planar_trace_refuted.
Print Assumptions C76_interactions_accepted_partial.
Print Assumptions C76_skipped_interaction_refuted.
Print Assumptions C48_rotation.
Print Assumptions C48_parallel_refuted.
Print Assumptions C49_turns_by_angle.
Print Assumptions C49_parallel_refuted.
Print Assumptions C50_edges_present.
Print Assumptions C50_directions_kept.
Print Assumptions C50_edges_accumulate.
Print Assumptions C51_never_empty.
Print Assumptions C51_preferred_solutions.
Print Assumptions C51_non_preferred_solutions.
Print Assumptions C51_all_named_resets.
Print Assumptions C51_all_removed_refuted.
Print Assumptions C51_none_preferred_refuted.
Print Assumptions C75_smallest_angle.
Print Assumptions C75_repeated_vector.
Print Assumptions C77_focused.
Print Assumptions C77_sparse_focused.
Print Assumptions C77_on_axis_refuted.
Print Assumptions C78_slow_step.
Print Assumptions C78_unnormalised_refuted.
Print Assumptions C78_exact_angle_refuted.

(** ** Non-vacuity *)
Example ex_created : exists s, create_uniform 2 2 = Ok s /\ length (values s) = 3%nat.
Proof. destruct (C46_uniform_creation 2 2) as (s & E & L & _); [lia|lia|]. exists s. split; auto. Qed.
Definition ex_s : rv := mkRV [[3/5; 4/5]] [[3/7; 4/7]] [[3/5; 4/5]] [[3/7; 4/7]] 2 1.
Example ex_adapt : exists s', adapt ex_s [[0; 5]; [1; 3]] = Ok s' /\ forall v, In v (values s') -> norm v = 1.
Proof.
  eexists; split; [reflexivity|]. apply (C46_adapt_unit ex_s _ [[0; 5]; [1; 3]]); [reflexivity| | |].
  - intros v [<-|[]]. split; [reflexivity|]. exists (3/5). split; [left; auto|lra].
  - intros r [<-|[<-|[]]]; auto.
  - intros [|[|j]] Hj; simpl in Hj; try lia; exists [0; 5], [1; 3]; (split; [left; auto|split; [right; left; auto|simpl; lra]]).
Qed.
Example ex_rot : norm [3/5; 4/5] = 1 /\ norm [1; 0] = 1 /\ [3/5; 4/5] <> [1; 0] /\ [3/5; 4/5] <> map Ropp [1; 0].
Proof.
  split; [|split; [|split]].
  - apply norm_one_dot. simpl. field.
  - apply norm_one_dot. simpl. field.
  - intros E. injection E. intros. lra.
  - simpl. intros E. injection E. intros. lra.
Qed.
Example ex_focused : exists s, create_focused 3 [1; 1; 1] = Some s /\ length (values s) = 12%nat.
Proof.
  destruct (C77_focused 3 [1;1;1]) as (s & c & rows & E & _ & _ & L & _); auto; [exists 0%nat; simpl; split; [lia|lra]|].
  exists s. split; auto.
Qed.
Example ex_skip : exists s1 s2, manage ex_s (PrefPoint [1; 2] [1; 1] [0; 0]) = Ok s1 /\ adapt s1 [[0; 5]; [1; 3]] = Ok s2 /\
  manage s2 (PrefNonPreferred [[1; 1]] 5) = Err IndexError.
Proof.
  eexists; eexists. split; [reflexivity|]. split; [reflexivity|].
  eapply (C76_skipped_interaction_refuted ex_s _ _ [1; 2] [1; 1] [0; 0] [[0; 5]; [1; 3]]); [reflexivity|simpl; lia|simpl; lia|reflexivity|reflexivity].
Qed.
Example ex_accumulate : exists s1 s2, let s := mkRV (eye 2) (eye 2) (eye 2) (eye 2) 2 2 in
  manage s (PrefNonPreferred [[1; 1]] 5) = Ok s1 /\ manage s1 (PrefNonPreferred [[1; 1]] 5) = Ok s2 /\ length (values s2) = 6%nat.
Proof.
  assert (F : forall v, In v (eye 2) -> rsum v = 1 /\ far_enough (2/10) [[1; 1]] v = true).
  { intros v Hv. split; [unfold eye in Hv; simpl in Hv; destruct Hv as [<-|[<-|[]]]; unfold unit_vec; simpl; lra|].
    apply far_enough_spec. intros x [<-|[]]. unfold norm. apply Rsqr_incr_0_var; [|apply sqrt_pos].
    rewrite Rsqr_sqrt by apply dot_self_nonneg. unfold Rsqr. cbn [map rsum]. rewrite Rabs_R1.
    unfold eye in Hv; simpl in Hv; destruct Hv as [<-|[<-|[]]]; unfold unit_vec; simpl; lra. }
  destruct (C50_edges_accumulate (mkRV (eye 2) (eye 2) (eye 2) (eye 2) 2 2) [[1; 1]] 5 0) as (s1 & s2 & H1 & H2 & H3); auto; try (simpl; lia).
  - apply Forall_forall. intros v Hv. left. unfold eye in Hv. apply in_map_iff in Hv. destruct Hv as (i & <- & Hi). apply in_seq in Hi. apply unit_vec_norm. lia.
  - intros i Hi. apply F. apply in_map_iff. exists i. split; auto. apply in_seq. simpl in Hi. lia.
  - exists s1, s2. split; auto. split; auto. rewrite H3. reflexivity.
Qed.
