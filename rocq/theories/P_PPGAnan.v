(** Lemmas for C129. *)
From Coq Require Import QArith Lia Permutation.
From Verif Require Import Base M_PPGA P_PPGA P_PPGA2 P_PPGA3 M_MOEADnan M_PPGAnan.
Open Scope nat_scope.

(** ** The repeated sort *)
Section SortP.
Context {X : Type} (lt : X -> X -> bool).
Hypothesis asym : forall x y, lt x y = true -> lt y x = false.
(** No element is smaller than the one before. *)
Definition steady (l : list X) : Prop := forall i y z, nth_error l i = Some y -> nth_error l (S i) = Some z -> lt z y = false.

Lemma steady_tail x l : steady (x :: l) -> steady l.
Proof. intros H i y z Hy Hz. apply (H (S i)); auto. Qed.
Lemma last_app1 (l : list X) x d : last (l ++ [x]) d = x.
Proof. induction l as [|a l IH]; [reflexivity|]. cbn [app]. destruct (l ++ [x]) eqn:E; [destruct l; discriminate|]. cbn [last] in *. exact IH. Qed.
Lemma last_cons (l : list X) : forall b d, last (b :: l) d = last l b.
Proof. induction l as [|c l IH]; intros b d; [reflexivity|]. change (last (c :: l) d = last (c :: l) b). rewrite !IH. reflexivity. Qed.
Lemma asc_run_app l : forall prev x, steady (prev :: l) ->
  asc_run lt prev (l ++ [x]) = if lt x (last l prev) then (l, [x]) else (l ++ [x], []).
Proof.
  induction l as [|y l IH]; intros prev x H; cbn [app asc_run].
  - cbn [last]. destruct (lt x prev); reflexivity.
  - rewrite (H 0 prev y eq_refl eq_refl). rewrite IH by (eapply steady_tail; eauto).
    rewrite (last_cons l y prev).
    destruct (lt x (last l y)); reflexivity.
Qed.
Lemma bisect_spec pivot a fuel : forall l r, r - l <= fuel -> l <= r <= length a ->
  (forall y, l <> 0 -> nth_error a (pred l) = Some y -> lt pivot y = false) -> (forall y, nth_error a r = Some y -> lt pivot y = true) ->
  let k := bisect lt fuel pivot a l r in l <= k <= r /\
  (forall y, k <> 0 -> nth_error a (pred k) = Some y -> lt pivot y = false) /\ (forall y, nth_error a k = Some y -> lt pivot y = true).
Proof.
  induction fuel as [|f IH]; intros l r Hf Hr Hl Hu; cbn [bisect].
  - assert (l = r) by lia. subst. auto.
  - destruct (Nat.ltb_spec l r) as [H|H]; [|assert (l = r) by lia; subst; auto].
    set (p := l + (r - l) / 2). assert (Hp : l <= p < r) by (unfold p; pose proof (Nat.div_lt (r - l) 2); lia).
    destruct (nth_error a p) as [y|] eqn:E; [|apply nth_error_None in E; lia].
    destruct (lt pivot y) eqn:El.
    + destruct (IH l p) as (A & B & C); [lia|lia|exact Hl|intros z Hz; congruence|]. split; [lia|auto].
    + destruct (IH (S p) r) as (A & B & C); [lia|lia|intros z _ Hz; cbn [pred] in Hz; congruence|exact Hu|]. split; [lia|auto].
Qed.
Lemma insert_steady a x d : a <> [] -> steady a -> lt x (last a d) = true -> steady (insert_sorted lt a x) /\ last (insert_sorted lt a x) d = last a d /\ insert_sorted lt a x <> [].
Proof.
  intros NE St Hx. unfold insert_sorted.
  destruct (bisect_spec x a (length a) 0 (length a)) as (B1 & B2 & B3); [lia|lia|congruence|intros y Hy; assert (length a < length a) by (apply nth_error_Some; congruence); lia|].
  set (k := bisect lt (length a) x a 0 (length a)) in *. clearbody k.
  assert (Hk : k < length a).
  { destruct (Nat.lt_ge_cases k (length a)) as [H|H]; [exact H|exfalso]. assert (k = length a) by lia. subst k.
    assert (E : nth_error a (pred (length a)) = Some (last a d)).
    { destruct (exists_last NE) as (l & z & ->). rewrite last_app1, app_length. cbn [length]. replace (pred (length l + 1)) with (length l) by lia. rewrite nth_error_app2, Nat.sub_diag by lia. reflexivity. }
    rewrite (B2 _ ltac:(destruct a; [congruence|discriminate]) E) in Hx. discriminate. }
  split; [|split].
  - assert (Lf : length (firstn k a) = k) by (rewrite firstn_length; lia).
    assert (N1 : forall i, i < k -> nth_error (firstn k a ++ x :: skipn k a) i = nth_error a i).
    { intros i Hi. rewrite nth_error_app1 by lia. rewrite <- (firstn_skipn k a) at 2. rewrite nth_error_app1 by lia. reflexivity. }
    assert (N2 : nth_error (firstn k a ++ x :: skipn k a) k = Some x) by (rewrite nth_error_app2, Lf, Nat.sub_diag by lia; reflexivity).
    assert (N3 : forall i, k <= i -> nth_error (firstn k a ++ x :: skipn k a) (S i) = nth_error a i).
    { intros i Hi. rewrite nth_error_app2, Lf by lia. replace (S i - k) with (S (i - k)) by lia. cbn [nth_error]. rewrite <- (firstn_skipn k a) at 2. rewrite nth_error_app2 by lia. f_equal. lia. }
    intros i y z Hy Hz. destruct (Nat.lt_trichotomy (S i) k) as [H|[H|H]].
    + rewrite N1 in Hy, Hz by lia. apply (St i); auto.
    + rewrite H in Hz. rewrite N2 in Hz. injection Hz as <-. rewrite N1 in Hy by lia. apply B2; [lia|]. replace (pred k) with i by lia. exact Hy.
    + destruct (Nat.eq_dec i k) as [->|Hn].
      * rewrite N2 in Hy. injection Hy as <-. rewrite N3 in Hz by lia. apply asym, B3. exact Hz.
      * destruct i as [|i]; [lia|]. rewrite N3 in Hy, Hz by lia. apply (St i); auto.
  - rewrite <- (firstn_skipn k a) at 3. assert (NS : skipn k a <> []) by (intros E; pose proof (skipn_length k a) as L; rewrite E in L; cbn in L; lia).
    destruct (exists_last NS) as (l & z & ->). rewrite app_comm_cons, !app_assoc, !last_app1. reflexivity.
  - destruct (firstn k a); discriminate.
Qed.
(** Sorting a sorted list with one element appended: the last element stays last unless the new one is not smaller. *)
Lemma py_sort_append l x d : steady l -> steady (py_sort lt (l ++ [x])) /\ py_sort lt (l ++ [x]) <> [] /\
  last (py_sort lt (l ++ [x])) d = match l with [] => x | _ => if lt x (last l d) then last l d else x end.
Proof.
  intros St. destruct l as [|a [|b l]].
  - cbn. split; [intros [|i] y z H1 H2; [|destruct i]; discriminate|]. split; [discriminate|reflexivity].
  - unfold py_sort. cbn [app first_run desc_run asc_run last]. destruct (lt x a) eqn:E; cbn [rev app fold_left last].
    + split; [|split; [discriminate|reflexivity]]. intros [|[|i]] y z H1 H2; cbn in H1, H2; try discriminate; try (destruct i; discriminate). injection H1 as <-. injection H2 as <-. apply asym. exact E.
    + split; [|split; [discriminate|reflexivity]]. intros [|[|i]] y z H1 H2; cbn in H1, H2; try discriminate; try (destruct i; discriminate). injection H1 as <-. injection H2 as <-. exact E.
  - unfold py_sort. cbn [app first_run]. rewrite (St 0 a b eq_refl eq_refl). rewrite asc_run_app by (eapply steady_tail; eauto).
    assert (EL : last (a :: b :: l) d = last l b) by (change (last (b :: l) d = last l b); apply last_cons).
    rewrite EL. destruct (lt x (last l b)) eqn:E; cbn [fold_left].
    + rewrite <- EL in E. destruct (insert_steady (a :: b :: l) x d ltac:(discriminate) St E) as (P1 & P2 & P3). split; [exact P1|]. split; [exact P3|]. rewrite P2. exact EL.
    + split; [|split; [discriminate|]].
      * change (a :: b :: l ++ [x]) with ((a :: b :: l) ++ [x]). intros i y z Hy Hz. destruct (Nat.lt_ge_cases (S i) (length (a :: b :: l))) as [H|H].
        -- rewrite nth_error_app1 in Hy, Hz by lia. apply (St i); auto.
        -- assert (S i < length ((a :: b :: l) ++ [x])) by (apply nth_error_Some; congruence). rewrite app_length in H0. cbn [length] in H0, H.
           rewrite nth_error_app2 in Hz by (cbn [length]; lia). replace (S i - length (a :: b :: l)) with 0 in Hz by (cbn [length]; lia). injection Hz as <-.
           rewrite nth_error_app1 in Hy by (cbn [length]; lia).
           assert (Ey : nth_error (a :: b :: l) i = Some (last (a :: b :: l) d)).
           { destruct (@exists_last _ (a :: b :: l)) as (l0 & z0 & E0); [discriminate|]. rewrite E0, last_app1. assert (length (a :: b :: l) = length l0 + 1) as L by (rewrite E0, app_length; reflexivity). cbn [length] in L.
             rewrite nth_error_app2 by lia. replace (i - length l0) with 0 by lia. reflexivity. }
           rewrite EL in Ey. congruence.
      * change (a :: b :: l ++ [x]) with ((a :: b :: l) ++ [x]). apply last_app1.
Qed.
End SortP.

Lemma xqlt_asym a b : xqlt a b = true -> xqlt b a = false.
Proof.
  destruct a, b; cbn; auto; try discriminate. intros H. apply negb_true_iff in H. apply negb_false_iff. apply Qle_bool_iff.
  destruct (Qlt_le_dec q q0) as [L|L]; [apply Qlt_le_weak; exact L|]. apply Qle_bool_iff in L. congruence.
Qed.
Lemma xqeq_sym a b : xqeq a b = xqeq b a.
Proof. destruct a, b; cbn; auto. destruct (Qeq_bool q q0) eqn:E, (Qeq_bool q0 q) eqn:E2; auto; [apply Qeq_bool_sym in E|apply Qeq_bool_sym in E2]; congruence. Qed.
Lemma tuple_asym a b : tuple_lt a b = true -> tuple_lt b a = false.
Proof.
  unfold tuple_lt. rewrite (xqeq_sym (fst b)). destruct (xqeq (fst a) (fst b)); [|apply xqlt_asym].
  intros H. apply Z.ltb_lt in H. apply Z.ltb_ge. lia.
Qed.
(** The weakest prey so far, updated in scan order. *)
Definition weaker (b x : xq * Z) : xq * Z := if tuple_lt x b then b else x.
Fixpoint scan (best : option (xq * Z)) (l : list (xq * Z)) : option (xq * Z) :=
  match l with [] => best | x :: t => scan (Some (match best with None => x | Some b => weaker b x end)) t end.

Section PredX.
Context {A : Type} (fitness : A -> list xq).
Variable pop : list A.
Variables (radius n_predators : nat).
Notation badness_x := (badness_x fitness pop n_predators).
Notation weakest_x := (weakest_x fitness pop n_predators).

Lemma hd_rev_last {X} (l : list X) d : l <> [] -> hd_error (rev l) = Some (last l d).
Proof. intros H. destruct (exists_last H) as (l0 & z & ->). rewrite rev_app_distr, last_app1. reflexivity. Qed.
Lemma weakest_scan i ts : forall sorted fs, steady tuple_lt sorted -> map (badness_x i) ts = map Some fs ->
  weakest_x i sorted ts = Ok (scan (hd_error (rev sorted)) (combine fs ts)).
Proof.
  induction ts as [|t ts IH]; intros sorted [|f fs] St E; try discriminate; cbn [M_PPGAnan.weakest_x combine scan]; [reflexivity|].
  cbn [map] in E. injection E as E1 E2. rewrite E1. pose (d := (f, t)).
  destruct (py_sort_append tuple_lt tuple_asym sorted (f, t) d St) as (P1 & P2 & P3). rewrite (IH _ fs P1 E2). f_equal. f_equal.
  rewrite (hd_rev_last _ d P2), P3. destruct sorted as [|a sorted]; [reflexivity|]. rewrite (hd_rev_last (a :: sorted) d) by discriminate. unfold weaker. reflexivity.
Qed.
Lemma weakest_scan0 i ts fs : map (badness_x i) ts = map Some fs -> weakest_x i [] ts = Ok (scan None (combine fs ts)).
Proof. intros H. apply (weakest_scan i ts [] fs); [|exact H]. intros [|k] y z Hy; discriminate. Qed.
Lemma scan_in l : forall best w, scan best l = Some w -> In w l \/ best = Some w.
Proof.
  induction l as [|x l IH]; intros best w H; cbn [scan] in H; [auto|]. destruct (IH _ _ H) as [G|G]; [left; now right|]. destruct best as [b|]; [|injection G as <-; left; now left].
  injection G as <-. unfold weaker. destruct (tuple_lt x b); [right; reflexivity|left; now left].
Qed.
Lemma scan_some l best : l <> [] \/ best <> None -> exists w, scan best l = Some w.
Proof.
  revert best. induction l as [|x l IH]; intros best H; cbn [scan].
  - destruct best; [eauto|]. destruct H; congruence.
  - apply IH. right. discriminate.
Qed.
Hypothesis two_objectives : forall m, In m pop -> 2 <= length (fitness m).
Lemma badness_x_some i k : k < length pop -> exists f, badness_x i (prey_label k) = Some f.
Proof.
  intros Hk. unfold M_PPGAnan.badness_x. replace (Z.to_nat (prey_label k - 1)) with k by (unfold prey_label; lia).
  destruct (nth_error pop k) as [m|] eqn:E; [|apply nth_error_None in E; lia].
  pose proof (two_objectives m ltac:(eapply nth_error_In; eauto)) as T.
  destruct (fitness m) as [|o1 [|o2 r]]; cbn [length] in T; try lia. eauto.
Qed.
Lemma weakest_x_ok i ts : (forall t, In t ts -> exists k, t = prey_label k /\ k < length pop) -> exists fs, map (badness_x i) ts = map Some fs /\ length fs = length ts.
Proof.
  induction ts as [|t ts IH]; intros H; [exists []; auto|]. destruct (H t (or_introl eq_refl)) as (k & -> & Hk). destruct (badness_x_some i k Hk) as (f & Ef).
  destruct IH as (fs & E & L); [intros u Hu; apply H; now right|]. exists (f :: fs). cbn [map length]. rewrite Ef, E, L. auto.
Qed.

Variable draw : nat -> nat -> nat * nat.
(** One predator move, whatever the fitness values. *)
Lemma predator_step_x_spec i d s p killed : fst d < Nat.min radius (size_y s) -> snd d < Nat.min radius (size_x s) ->
  wf s -> ledger pop s killed -> nth_error (predators_loc s) i = Some p ->
  exists s' p' killed', predator_step_x fitness pop radius n_predators i d s p killed = Ok (s', p', killed') /\
    wf s' /\ ledger pop s' killed' /\ nth_error (predators_loc s') i = Some p' /\ only_dies s s' /\
    (forall j, j <> i -> nth_error (predators_loc s') j = nth_error (predators_loc s) j) /\
    ((killed' = killed /\ preys_loc s' = preys_loc s /\ (forall z, In z (neighbours s p radius) -> (z <= 0)%Z)) \/
     exists k f fs, let targets := filter (fun z => (0 <? z)%Z) (neighbours s p radius) in
       killed' = killed ++ [k] /\ In (prey_label k) (neighbours s p radius) /\ nth_error (preys_loc s) k = Some (Some p') /\
       map (badness_x i) targets = map Some fs /\ scan None (combine fs targets) = Some (f, prey_label k)).
Proof.
  intros Dy Dx W (L1 & L2 & L3) Hi. destruct (wf_pred s W i p Hi) as (Bp & Cp).
  assert (Li : i < length (predators_loc s)) by (apply nth_error_Some; congruence).
  unfold predator_step_x. set (targets := filter (fun z => (0 <? z)%Z) (neighbours s p radius)).
  assert (Tin : forall t, In t targets <-> In t (neighbours s p radius) /\ (0 < t)%Z).
  { intros t. unfold targets. rewrite filter_In. rewrite Z.ltb_lt. tauto. }
  assert (Tp : forall t, In t targets -> exists k, t = prey_label k /\ k < length pop).
  { intros t Ht. apply Tin in Ht. destruct Ht as (T1 & T2). destruct (neighbour_prey s p radius t W Bp T1 T2) as (k & o & Ek & Hk & _).
    exists k. split; auto. rewrite <- L2. apply nth_error_Some. congruence. }
  destruct (weakest_x_ok i targets Tp) as (fs & Efs & Lfs).
  destruct targets as [|t0 ts] eqn:Et.
  - assert (NoT : forall z, In z (neighbours s p radius) -> (z <= 0)%Z).
    { intros z Hz. destruct (Z.leb_spec z 0); auto. exfalso. apply (proj2 (Tin z)); auto. }
    destruct (Z.ltb_spec (rolled s p d) 0) as [Hl|Hl].
    + exists s, p, killed. split; auto. split; auto. split; [split; auto|]. split; auto. split; [exact (only_dies_refl 0 (fun _ _ => (0, 0)) s)|]. split; auto.
    + destruct (Z.eqb_spec (cells s (dest s d p)) 0) as [Z0|Z0].
      * eexists; eexists; eexists. split; [reflexivity|]. split; [apply wf_move_predator; auto; apply dest_in_bounds; auto|].
        cbn [set_preds set_cells predators_loc preys_loc]. split; [split; [auto|]; split; auto|]. rewrite nth_error_set_nth, Nat.eqb_refl by auto.
        split; auto. split; [|split; [|left; auto 8]].
        2: { intros j Hj. rewrite nth_error_set_nth by auto. destruct (Nat.eqb_spec i j); auto. subst; contradiction. }
        unfold only_dies. cbn [set_preds set_cells predators_loc preys_loc size_y size_x]. rewrite set_nth_length. intuition.
      * exfalso. assert (In (rolled s p d) (neighbours s p radius)) as Hin by (apply in_neighbours; exists d; auto).
        apply NoT in Hin. rewrite rolled_dest in * by auto. lia.
  - rewrite (weakest_scan0 i (t0 :: ts) fs Efs). cbn [bind]. destruct (scan_some (combine fs (t0 :: ts)) None) as ([f t] & Ew); [left; destruct fs; [discriminate|discriminate]|].
    rewrite Ew. pose proof (scan_in _ _ _ Ew) as [S2|S2]; [|discriminate]. apply in_combine_r in S2. destruct (proj1 (Tin t) S2) as (T2 & T3).
    destruct (neighbour_prey s p radius t W Bp T2 T3) as (k & o & Ek & Hk & _).
    replace (Z.to_nat (t - 1)) with k by (rewrite Ek; unfold prey_label; lia). rewrite Hk.
    assert (Lk : k < length (preys_loc s)) by (apply nth_error_Some; congruence).
    eexists; eexists; eexists. split; [reflexivity|]. split; [apply wf_kill; auto|].
    cbn [set_preys set_preds set_cells predators_loc preys_loc].
    split.
    { split; [|split; [cbn [set_preys set_preds set_cells preys_loc]; rewrite set_nth_length; auto|]].
      - apply NoDup_rev in L1. rewrite <- (rev_involutive (killed ++ [k])). apply NoDup_rev. rewrite rev_app_distr. simpl. constructor; auto.
        intros I. apply in_rev in I. apply L3 in I. congruence.
      - intros j. cbn [set_preys set_preds set_cells preys_loc]. rewrite nth_error_set_nth by auto. rewrite in_app_iff, L3. cbn [In]. destruct (Nat.eqb_spec k j) as [<-|Hn]; [tauto|].
        split; [intros [|[|[]]]; auto; contradiction|auto]. }
    rewrite nth_error_set_nth, Nat.eqb_refl by auto. split; auto.
    split. { unfold only_dies. cbn [set_preys set_preds set_cells predators_loc preys_loc size_y size_x]. rewrite !set_nth_length.
      do 4 (split; auto). intros j. rewrite nth_error_set_nth by auto. destruct (Nat.eqb_spec k j); auto. }
    split. { intros j Hj. rewrite nth_error_set_nth by auto. destruct (Nat.eqb_spec i j); auto. subst; contradiction. }
    right. exists k, f, fs. cbv zeta. split; auto. rewrite <- Ek. split; auto.
Qed.

Variables (sy sx : nat).
Hypothesis draws_in_range : forall i m, fst (draw i m) < Nat.min radius sy /\ snd (draw i m) < Nat.min radius sx.
Lemma predator_steps_x_spec i n : forall m s p killed, size_y s = sy -> size_x s = sx -> wf s -> ledger pop s killed ->
  nth_error (predators_loc s) i = Some p ->
  exists s' killed', predator_steps_x fitness pop radius n_predators draw n m i s p killed = Ok (s', killed') /\
    wf s' /\ ledger pop s' killed' /\ only_dies s s' /\ (exists new, killed' = killed ++ new /\ length new <= n).
Proof.
  induction n as [|n IH]; intros m s p killed Hy Hx W L Hi; cbn [predator_steps_x].
  - exists s, killed. split; auto. split; auto. split; auto. split; [exact (only_dies_refl 0 (fun _ _ => (0, 0)) s)|]. exists []. rewrite app_nil_r. auto.
  - destruct (draws_in_range i m) as (Dy & Dx). rewrite <- Hy in Dy. rewrite <- Hx in Dx.
    destruct (predator_step_x_spec i (draw i m) s p killed Dy Dx W L Hi) as (s1 & p1 & k1 & E1 & W1 & L1 & H1 & O1 & _ & C).
    rewrite E1. cbn [bind]. pose proof O1 as (Oy & Ox & _).
    destruct (IH (S m) s1 p1 k1) as (s2 & k2 & E2 & W2 & L2 & O2 & new & N1 & N2); try congruence.
    exists s2, k2. split; auto. split; auto. split; auto. split; [eapply only_dies_trans; eauto|].
    destruct C as [(-> & _)|(k & f & fs & -> & _)].
    + exists new. split; auto.
    + exists (k :: new). rewrite N1, <- app_assoc. split; auto. simpl. lia.
Qed.
Lemma predator_turns_x_spec n mm : forall i s killed, size_y s = sy -> size_x s = sx -> wf s -> ledger pop s killed ->
  exists s' killed', predator_turns_x fitness pop radius n_predators draw n mm i s killed = Ok (s', killed') /\
    wf s' /\ ledger pop s' killed' /\ only_dies s s' /\ (exists new, killed' = killed ++ new /\ length new <= n * mm).
Proof.
  induction n as [|n IH]; intros i s killed Hy Hx W L; cbn [predator_turns_x].
  - exists s, killed. split; auto. split; auto. split; auto. split; [exact (only_dies_refl 0 (fun _ _ => (0, 0)) s)|]. exists []. rewrite app_nil_r. auto.
  - destruct (nth_error (predators_loc s) i) as [p|] eqn:Hi.
    + destruct (predator_steps_x_spec i mm 0 s p killed Hy Hx W L Hi) as (s1 & k1 & E1 & W1 & L1 & O1 & new1 & N1 & N2).
      rewrite E1. cbn [bind fst snd]. pose proof O1 as (Oy & Ox & _).
      destruct (IH (S i) s1 k1) as (s2 & k2 & E2 & W2 & L2 & O2 & new2 & N3 & N4); try congruence.
      exists s2, k2. split; auto. split; auto. split; auto. split; [eapply only_dies_trans; eauto|].
      exists (new1 ++ new2). rewrite N3, N1, app_assoc. split; auto. rewrite app_length. simpl. lia.
    + exists s, killed. split; auto. split; auto. split; auto. split; [exact (only_dies_refl 0 (fun _ _ => (0, 0)) s)|]. exists []. rewrite app_nil_r. split; auto. simpl; lia.
Qed.
End PredX.

Lemma move_predator_x_spec {A} fitness radius n_predators target draw s (pop : list A) :
  (forall m, In m pop -> 2 <= length (fitness m)) ->
  (forall i m, fst (draw i m) < Nat.min radius (size_y s) /\ snd (draw i m) < Nat.min radius (size_x s)) ->
  wf s -> alive s pop -> 0 < n_predators -> length (predators_loc s) = n_predators ->
  exists s' killed, move_predator_x fitness radius n_predators target draw s pop = Ok (s', select_pos (fun i => negb (mem_nat i killed)) pop) /\
    wf s' /\ alive s' (select_pos (fun i => negb (mem_nat i killed)) pop) /\
    preys_loc s' = select_pos (fun i => negb (mem_nat i killed)) (preys_loc s) /\
    size_y s' = size_y s /\ size_x s' = size_x s /\ length (predators_loc s') = n_predators /\
    NoDup killed /\ (forall k, In k killed -> k < length pop) /\ length killed <= n_predators * max_moves (length pop) target n_predators.
Proof.
  intros H2 D W (L & Al) Hn Hp. unfold move_predator_x. destruct (Nat.eqb_spec n_predators 0); [lia|].
  assert (Led : ledger pop s []).
  { split; [constructor|]. split; auto. intros k. split; [intros []|]. intros E. assert (Lk : k < length pop) by (rewrite <- L; apply nth_error_Some; congruence).
    destruct (Al k Lk) as (p & Hp'). congruence. }
  destruct (predator_turns_x_spec fitness pop radius n_predators H2 draw (size_y s) (size_x s) D (length (predators_loc s))
    (max_moves (length pop) target n_predators) 0 s [] eq_refl eq_refl W Led) as (s1 & k1 & E & W1 & (N1 & L1 & I1) & (O1 & O2 & O3 & O4 & O5) & new & Nw & Nl).
  rewrite E. cbn [bind fst snd update_lattice]. exists (compact s1), k1. rewrite delete_members_spec.
  destruct (compact_frame s1) as (F1 & F2 & F3 & F4).
  assert (Pr : preys_loc (compact s1) = select_pos (fun i => negb (mem_nat i k1)) (preys_loc s)).
  { rewrite F4. apply somes_select; auto; [|intros i Hi; apply Al; lia]. intros i Hi. destruct (mem_nat i k1) eqn:Em.
    - apply mem_nat_In in Em. apply I1; auto.
    - destruct (O5 i) as [|E']; auto. apply I1, mem_nat_In in E'. congruence. }
  split; auto. split; [apply compact_wf; auto|]. split; [eapply alive_select; eauto; split; auto|].
  split; auto. split; [congruence|]. split; [congruence|]. split; [congruence|]. split; auto.
  split. { intros k Hk. apply I1 in Hk. rewrite <- L1. apply nth_error_Some. congruence. }
  subst k1. simpl in *. rewrite <- Hp at 1. auto.
Qed.
