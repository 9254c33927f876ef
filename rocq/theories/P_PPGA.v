(** Proofs about the predator-prey lattice. *)
From Verif Require Import Base M_PPGA.
From Coq Require Import QArith Permutation.
Open Scope nat_scope.

Definition in_bounds (s : lat) (p : pos) : Prop := fst p < size_y s /\ snd p < size_x s.

Record wf (s : lat) : Prop := {
  wf_prey : forall i p, nth_error (preys_loc s) i = Some (Some p) -> in_bounds s p /\ cells s p = prey_label i;
  wf_pred : forall i p, nth_error (predators_loc s) i = Some p -> in_bounds s p /\ cells s p = predator_label i;
  wf_cell : forall q, in_bounds s q -> cells s q <> 0%Z ->
    (exists i, nth_error (preys_loc s) i = Some (Some q)) \/ (exists i, nth_error (predators_loc s) i = Some q) }.

Lemma pos_eqb_spec p q : reflect (p = q) (pos_eqb p q).
Proof.
  unfold pos_eqb. destruct p as [a b], q as [c d]. simpl.
  destruct (Nat.eqb_spec a c), (Nat.eqb_spec b d); simpl; constructor; congruence.
Qed.
Lemma upd_same g p v : upd g p v p = v.
Proof. unfold upd. destruct (pos_eqb_spec p p); congruence. Qed.
Lemma upd_other g p v q : p <> q -> upd g p v q = g q.
Proof. intros H. unfold upd. destruct (pos_eqb_spec p q); congruence. Qed.

Lemma set_nth_length {B} i (v : B) l : length (set_nth i v l) = length l.
Proof.
  unfold set_nth. destruct (nth_error l i) eqn:E; auto.
  assert (i < length l) by (apply nth_error_Some; congruence).
  rewrite app_length, firstn_length. cbn [length]. rewrite skipn_length. lia.
Qed.
Lemma nth_error_set_nth {B} i (v : B) l j : i < length l ->
  nth_error (set_nth i v l) j = if Nat.eqb i j then Some v else nth_error l j.
Proof.
  intros H. unfold set_nth. destruct (nth_error l i) eqn:E; [|apply nth_error_None in E; lia].
  assert (Lf : length (firstn i l) = i) by (rewrite firstn_length; lia).
  destruct (Nat.eqb_spec i j) as [->|Hn].
  - rewrite nth_error_app2 by lia. rewrite Lf, Nat.sub_diag. auto.
  - destruct (Nat.lt_ge_cases j i).
    + rewrite nth_error_app1 by lia. rewrite <- (firstn_skipn i l) at 2. rewrite nth_error_app1 by lia. auto.
    + rewrite nth_error_app2 by lia. rewrite Lf. replace (j - i) with (S (j - S i)) by lia. cbn [nth_error].
      rewrite <- (firstn_skipn (S i) l) at 2. rewrite nth_error_app2 by (rewrite firstn_length; lia).
      rewrite firstn_length. f_equal. lia.
Qed.

Lemma prey_label_pos i : (0 < prey_label i)%Z. Proof. unfold prey_label. lia. Qed.
Lemma predator_label_neg i : (predator_label i < 0)%Z. Proof. unfold predator_label. lia. Qed.
Lemma prey_label_inj i j : prey_label i = prey_label j -> i = j. Proof. unfold prey_label. lia. Qed.
Lemma predator_label_inj i j : predator_label i = predator_label j -> i = j. Proof. unfold predator_label. lia. Qed.

(** ** Moves *)
Lemma wrap1_mod i s : s > 0 -> wrap1 i s = (i mod Z.of_nat s)%Z.
Proof.
  intros H. unfold wrap1. rewrite <- (Z.mul_1_l (Z.of_nat s)) at 2. rewrite Z.mod_add by lia. apply Z.mod_mod. lia.
Qed.
Lemma dest_wrap s d p : size_y s > 0 -> size_x s > 0 ->
  dest s d p = (Z.to_nat ((Z.of_nat (fst d) + Z.of_nat (fst p) - 1) mod Z.of_nat (size_y s)),
                Z.to_nat ((Z.of_nat (snd d) + Z.of_nat (snd p) - 1) mod Z.of_nat (size_x s))).
Proof.
  intros Hy Hx. unfold dest. cbv zeta.
  replace (Z.of_nat (fst d) + Z.of_nat (fst p) - 1)%Z with (Z.of_nat (fst d) - 1 + Z.of_nat (fst p))%Z by lia.
  replace (Z.of_nat (snd d) + Z.of_nat (snd p) - 1)%Z with (Z.of_nat (snd d) - 1 + Z.of_nat (snd p))%Z by lia.
  set (y := (Z.of_nat (fst d) - 1 + Z.of_nat (fst p))%Z). set (x := (Z.of_nat (snd d) - 1 + Z.of_nat (snd p))%Z).
  rewrite !wrap1_mod by auto. destruct (in_range1 y (size_y s)) eqn:Ey, (in_range1 x (size_x s)) eqn:Ex; cbn [negb orb]; auto.
  unfold in_range1 in *. apply andb_true_iff in Ey, Ex. rewrite !Z.mod_small by lia. auto.
Qed.
Lemma rolled_dest s p d : in_bounds s p -> rolled s p d = cells s (dest s d p).
Proof. intros (Hy & Hx). unfold rolled. rewrite dest_wrap by lia. auto. Qed.
Lemma dest_in_bounds s p d : in_bounds s p -> in_bounds s (dest s d p).
Proof.
  intros (Hy & Hx). rewrite dest_wrap by lia. split; cbn [fst snd];
  (match goal with |- Z.to_nat (?a mod ?b) < _ => pose proof (Z.mod_pos_bound a b) end); lia.
Qed.

Lemma wf_move_prey s i p q : wf s -> nth_error (preys_loc s) i = Some (Some p) -> in_bounds s q -> cells s q = 0%Z ->
  wf (set_preys (set_cells s (upd (upd (cells s) q (prey_label i)) p 0)) (set_nth i (Some q) (preys_loc s))).
Proof.
  intros W Hi Bq Zq. destruct (wf_prey s W i p Hi) as (Bp & Cp).
  assert (Hpq : p <> q). { intros ->. rewrite Zq in Cp. pose proof (prey_label_pos i). lia. }
  assert (Li : i < length (preys_loc s)) by (apply nth_error_Some; congruence).
  constructor; cbn [set_preys set_cells preys_loc predators_loc cells].
  - intros j r Hj. rewrite nth_error_set_nth in Hj by auto. destruct (Nat.eqb_spec i j) as [<-|Hn].
    + injection Hj as <-. split; [exact Bq|]. rewrite upd_other by auto. apply upd_same.
    + destruct (wf_prey s W j r Hj) as (Br & Cr). split; [exact Br|].
      assert (r <> p). { intros ->. rewrite Cp in Cr. apply prey_label_inj in Cr. auto. }
      assert (r <> q). { intros ->. rewrite Zq in Cr. pose proof (prey_label_pos j). lia. }
      rewrite !upd_other by auto. auto.
  - intros j r Hj. destruct (wf_pred s W j r Hj) as (Br & Cr). split; [exact Br|]. pose proof (predator_label_neg j). pose proof (prey_label_pos i).
    assert (r <> p) by (intros ->; lia). assert (r <> q) by (intros ->; lia). rewrite !upd_other by auto. auto.
  - intros r Br Hr. destruct (pos_eqb_spec r p) as [->|Np]; [rewrite upd_same in Hr; congruence|].
    rewrite upd_other in Hr by auto. destruct (pos_eqb_spec r q) as [->|Nq].
    + left. exists i. rewrite nth_error_set_nth, Nat.eqb_refl by auto. auto.
    + rewrite upd_other in Hr by auto. destruct (wf_cell s W r Br Hr) as [(j & Hj)|(j & Hj)].
      * left. exists j. rewrite nth_error_set_nth by auto. destruct (Nat.eqb_spec i j) as [<-|]; auto. exfalso. congruence.
      * right. exists j. auto.
Qed.

Lemma wf_move_predator s i p q : wf s -> nth_error (predators_loc s) i = Some p -> in_bounds s q -> cells s q = 0%Z ->
  wf (set_preds (set_cells s (upd (upd (cells s) q (predator_label i)) p 0)) (set_nth i q (predators_loc s))).
Proof.
  intros W Hi Bq Zq. destruct (wf_pred s W i p Hi) as (Bp & Cp). pose proof (predator_label_neg i) as Ni.
  assert (Hpq : p <> q) by (intros ->; lia).
  assert (Li : i < length (predators_loc s)) by (apply nth_error_Some; congruence).
  constructor; cbn [set_preds set_cells preys_loc predators_loc cells].
  - intros j r Hj. destruct (wf_prey s W j r Hj) as (Br & Cr). split; [exact Br|]. pose proof (prey_label_pos j).
    assert (r <> p) by (intros ->; lia). assert (r <> q) by (intros ->; lia). rewrite !upd_other by auto. auto.
  - intros j r Hj. rewrite nth_error_set_nth in Hj by auto. destruct (Nat.eqb_spec i j) as [<-|Hn].
    + injection Hj as <-. split; [exact Bq|]. rewrite upd_other by auto. apply upd_same.
    + destruct (wf_pred s W j r Hj) as (Br & Cr). split; [exact Br|]. pose proof (predator_label_neg j).
      assert (r <> p). { intros ->. rewrite Cp in Cr. apply predator_label_inj in Cr. auto. }
      assert (r <> q) by (intros ->; lia). rewrite !upd_other by auto. auto.
  - intros r Br Hr. destruct (pos_eqb_spec r p) as [->|Np]; [rewrite upd_same in Hr; congruence|].
    rewrite upd_other in Hr by auto. destruct (pos_eqb_spec r q) as [->|Nq].
    + right. exists i. rewrite nth_error_set_nth, Nat.eqb_refl by auto. auto.
    + rewrite upd_other in Hr by auto. destruct (wf_cell s W r Br Hr) as [(j & Hj)|(j & Hj)].
      * left. exists j. auto.
      * right. exists j. rewrite nth_error_set_nth by auto. destruct (Nat.eqb_spec i j) as [<-|]; auto. exfalso. congruence.
Qed.

Lemma wf_kill s i p k q : wf s -> nth_error (predators_loc s) i = Some p -> nth_error (preys_loc s) k = Some (Some q) ->
  wf (set_preys (set_preds (set_cells s (upd (upd (cells s) q (predator_label i)) p 0)) (set_nth i q (predators_loc s)))
                (set_nth k None (preys_loc s))).
Proof.
  intros W Hi Hk. destruct (wf_pred s W i p Hi) as (Bp & Cp). destruct (wf_prey s W k q Hk) as (Bq & Cq).
  pose proof (predator_label_neg i) as Ni. pose proof (prey_label_pos k) as Pk.
  assert (Hpq : p <> q) by (intros ->; lia).
  assert (Li : i < length (predators_loc s)) by (apply nth_error_Some; congruence).
  assert (Lk : k < length (preys_loc s)) by (apply nth_error_Some; congruence).
  constructor; cbn [set_preys set_preds set_cells preys_loc predators_loc cells].
  - intros j r Hj. rewrite nth_error_set_nth in Hj by auto. destruct (Nat.eqb_spec k j) as [<-|Hn]; [discriminate|].
    destruct (wf_prey s W j r Hj) as (Br & Cr). split; [exact Br|]. pose proof (prey_label_pos j).
    assert (r <> p) by (intros ->; lia).
    assert (r <> q). { intros ->. rewrite Cq in Cr. apply prey_label_inj in Cr. auto. }
    rewrite !upd_other by auto. auto.
  - intros j r Hj. rewrite nth_error_set_nth in Hj by auto. destruct (Nat.eqb_spec i j) as [<-|Hn].
    + injection Hj as <-. split; [exact Bq|]. rewrite upd_other by auto. apply upd_same.
    + destruct (wf_pred s W j r Hj) as (Br & Cr). split; [exact Br|]. pose proof (predator_label_neg j).
      assert (r <> p). { intros ->. rewrite Cp in Cr. apply predator_label_inj in Cr. auto. }
      assert (r <> q) by (intros ->; lia). rewrite !upd_other by auto. auto.
  - intros r Br Hr. destruct (pos_eqb_spec r p) as [->|Np]; [rewrite upd_same in Hr; congruence|].
    rewrite upd_other in Hr by auto. destruct (pos_eqb_spec r q) as [->|Nq].
    + right. exists i. rewrite nth_error_set_nth, Nat.eqb_refl by auto. auto.
    + rewrite upd_other in Hr by auto. destruct (wf_cell s W r Br Hr) as [(j & Hj)|(j & Hj)].
      * left. exists j. rewrite nth_error_set_nth by auto. destruct (Nat.eqb_spec k j) as [<-|]; auto. exfalso. congruence.
      * right. exists j. rewrite nth_error_set_nth by auto. destruct (Nat.eqb_spec i j) as [<-|]; auto. exfalso. congruence.
Qed.

Lemma wf_clear s k q : wf s -> nth_error (preys_loc s) k = Some (Some q) ->
  wf (set_preys (set_cells s (upd (cells s) q 0)) (set_nth k None (preys_loc s))).
Proof.
  intros W Hk. destruct (wf_prey s W k q Hk) as (Bq & Cq). pose proof (prey_label_pos k) as Pk.
  assert (Lk : k < length (preys_loc s)) by (apply nth_error_Some; congruence).
  constructor; cbn [set_preys set_preds set_cells preys_loc predators_loc cells].
  - intros j r Hj. rewrite nth_error_set_nth in Hj by auto. destruct (Nat.eqb_spec k j) as [<-|Hn]; [discriminate|].
    destruct (wf_prey s W j r Hj) as (Br & Cr). split; [exact Br|].
    assert (q <> r). { intros ->. rewrite Cq in Cr. apply prey_label_inj in Cr. auto. }
    rewrite upd_other by auto. auto.
  - intros j r Hj. destruct (wf_pred s W j r Hj) as (Br & Cr). split; [exact Br|]. pose proof (predator_label_neg j).
    assert (q <> r) by (intros ->; lia). rewrite upd_other by auto. auto.
  - intros r Br Hr. destruct (pos_eqb_spec q r) as [->|Nq]; [rewrite upd_same in Hr; congruence|].
    rewrite upd_other in Hr by auto. destruct (wf_cell s W r Br Hr) as [(j & Hj)|(j & Hj)].
    + left. exists j. rewrite nth_error_set_nth by auto. destruct (Nat.eqb_spec k j) as [<-|]; auto. exfalso. congruence.
    + right. exists j. auto.
Qed.

Lemma wf_place s c : wf s -> in_bounds s c -> cells s c = 0%Z ->
  wf (set_preys (set_cells s (upd (cells s) c (prey_label (length (preys_loc s))))) (preys_loc s ++ [Some c])).
Proof.
  intros W Bc Zc. constructor; cbn [set_preys set_cells preys_loc predators_loc cells].
  - intros j r Hj. destruct (Nat.lt_ge_cases j (length (preys_loc s))) as [L|L].
    + rewrite nth_error_app1 in Hj by auto. destruct (wf_prey s W j r Hj) as (Br & Cr). split; [exact Br|]. pose proof (prey_label_pos j).
      assert (c <> r) by (intros ->; lia). rewrite upd_other by auto. auto.
    + rewrite nth_error_app2 in Hj by auto. destruct (j - length (preys_loc s)) as [|[|k]] eqn:E; try discriminate.
      injection Hj as <-. split; [exact Bc|]. rewrite upd_same. f_equal. lia.
  - intros j r Hj. destruct (wf_pred s W j r Hj) as (Br & Cr). split; [exact Br|]. pose proof (predator_label_neg j).
    assert (c <> r) by (intros ->; lia). rewrite upd_other by auto. auto.
  - intros r Br Hr. destruct (pos_eqb_spec c r) as [->|Nq].
    + left. exists (length (preys_loc s)). rewrite nth_error_app2, Nat.sub_diag by auto. auto.
    + rewrite upd_other in Hr by auto. destruct (wf_cell s W r Br Hr) as [(j & Hj)|(j & Hj)].
      * left. exists j. rewrite nth_error_app1; auto. apply nth_error_Some. congruence.
      * right. exists j. auto.
Qed.

(** ** Prey *)
Definition prey_frame (s s' : lat) : Prop :=
  size_y s' = size_y s /\ size_x s' = size_x s /\ predators_loc s' = predators_loc s /\ length (preys_loc s') = length (preys_loc s) /\
  (forall i, (exists p, nth_error (preys_loc s) i = Some (Some p)) <-> (exists p, nth_error (preys_loc s') i = Some (Some p))).
Lemma prey_frame_refl s : prey_frame s s.
Proof. unfold prey_frame. intuition. Qed.
Lemma prey_frame_trans a b c : prey_frame a b -> prey_frame b c -> prey_frame a c.
Proof.
  intros (A1 & A2 & A3 & A4 & A5) (B1 & B2 & B3 & B4 & B5). unfold prey_frame.
  split; [congruence|]. split; [congruence|]. split; [congruence|]. split; [congruence|].
  intros i. rewrite A5. apply B5.
Qed.

Lemma prey_step_spec i d s p s' p' : wf s -> nth_error (preys_loc s) i = Some (Some p) -> prey_step i d s p = (s', p') ->
  wf s' /\ nth_error (preys_loc s') i = Some (Some p') /\ prey_frame s s' /\
  (forall j, j <> i -> nth_error (preys_loc s') j = nth_error (preys_loc s) j).
Proof.
  intros W Hi E. unfold prey_step in E. destruct (wf_prey s W i p Hi) as (Bp & _).
  assert (Li : i < length (preys_loc s)) by (apply nth_error_Some; congruence).
  destruct (Z.eqb_spec (rolled s p d) 0) as [Z0|Z0]; cbn [negb] in E.
  - injection E as <- <-. rewrite rolled_dest in Z0 by auto.
    split; [apply wf_move_prey; auto; apply dest_in_bounds; auto|].
    cbn [set_preys set_cells preys_loc]. rewrite nth_error_set_nth, Nat.eqb_refl by auto.
    split; auto. split; [|intros j Hj; rewrite nth_error_set_nth by auto; destruct (Nat.eqb_spec i j); congruence].
    unfold prey_frame. cbn [set_preys set_cells preys_loc predators_loc size_y size_x]. rewrite set_nth_length.
    do 4 (split; auto). intros j. rewrite nth_error_set_nth by auto. destruct (Nat.eqb_spec i j) as [<-|]; [|tauto].
    split; intros _; eauto.
  - injection E as <- <-. split; auto. split; auto. split; auto. apply prey_frame_refl.
Qed.
Lemma prey_steps_spec i ds : forall s p s' p', wf s -> nth_error (preys_loc s) i = Some (Some p) -> prey_steps i ds s p = (s', p') ->
  wf s' /\ nth_error (preys_loc s') i = Some (Some p') /\ prey_frame s s' /\
  (forall j, j <> i -> nth_error (preys_loc s') j = nth_error (preys_loc s) j).
Proof.
  induction ds as [|d ds IH]; intros s p s' p' W Hi E; cbn [prey_steps] in E.
  - injection E as <- <-. split; auto. split; auto. split; auto. apply prey_frame_refl.
  - destruct (prey_step i d s p) as [s1 p1] eqn:E1. destruct (prey_step_spec _ _ _ _ _ _ W Hi E1) as (W1 & H1 & F1 & G1).
    destruct (IH _ _ _ _ W1 H1 E) as (W2 & H2 & F2 & G2). split; auto. split; auto. split; [eapply prey_frame_trans; eauto|].
    intros j Hj. rewrite G2, G1; auto.
Qed.

Lemma in_neighbours s p n z : In z (neighbours s p n) <-> exists d, fst d < Nat.min n (size_y s) /\ snd d < Nat.min n (size_x s) /\ z = rolled s p d.
Proof.
  unfold neighbours. rewrite in_map_iff. unfold offsets. split.
  - intros (d & <- & H). apply in_flat_map in H. destruct H as (dy & H1 & H2). apply in_map_iff in H2. destruct H2 as (dx & <- & H3).
    apply in_seq in H1, H3. exists (dy, dx). simpl. split; [lia|]. split; [lia|auto].
  - intros (d & H1 & H2 & ->). exists d. split; auto. apply in_flat_map. exists (fst d). split; [apply in_seq; lia|].
    apply in_map_iff. exists (snd d). split; [destruct d; auto|]. apply in_seq. lia.
Qed.

(** A prey label seen in a neighbourhood belongs to a living prey sitting in that cell. *)
Lemma neighbour_prey s p n z : wf s -> in_bounds s p -> In z (neighbours s p n) -> (0 < z)%Z ->
  exists i d, z = prey_label i /\ nth_error (preys_loc s) i = Some (Some (dest s d p)) /\ fst d < n /\ snd d < n.
Proof.
  intros W B H Hz. apply in_neighbours in H. destruct H as (d & D1 & D2 & ->). rewrite rolled_dest in * by auto.
  destruct (wf_cell s W (dest s d p)) as [(i & Hi)|(i & Hi)]; [apply dest_in_bounds; auto|lia| |].
  - exists i, d. split; [apply (wf_prey s W i _ Hi)|]. split; auto. split; lia.
  - exfalso. destruct (wf_pred s W i _ Hi) as (_ & C). rewrite C in Hz. pose proof (predator_label_neg i). lia.
Qed.

Lemma prey_turn_spec i d s p s' m : wf s -> nth_error (preys_loc s) i = Some (Some p) -> prey_turn i d s p = (s', m) ->
  wf s' /\ prey_frame s s' /\
  match m with
  | None => forall z p', nth_error (preys_loc s') i = Some (Some p') -> In z (neighbours s' p' 3) -> (0 < z)%Z -> z = prey_label i
  | Some (a, b) => a = i /\ b <> i /\ exists p' q, nth_error (preys_loc s') i = Some (Some p') /\ nth_error (preys_loc s') b = Some (Some q) /\
      exists o, fst o < 3 /\ snd o < 3 /\ q = dest s' o p'
  end.
Proof.
  intros W Hi E. unfold prey_turn in E.
  assert (G : exists p', wf s' /\ nth_error (preys_loc s') i = Some (Some p') /\ prey_frame s s' /\ m = option_map (fun m => (i, m)) (choose_mate d (mates s' i p'))).
  { destruct (pd_moves d).
    - destruct (prey_steps i (pd_offsets d) s p) as [s1 p1] eqn:E1. injection E as <- <-.
      destruct (prey_steps_spec _ _ _ _ _ _ W Hi E1) as (W1 & H1 & F1 & _). exists p1. auto.
    - injection E as <- <-. exists p. split; auto. split; auto. split; auto. apply prey_frame_refl. }
  clear E. destruct G as (p' & W' & H' & F & ->). split; auto. split; auto.
  destruct (wf_prey s' W' i p' H') as (B' & _).
  unfold choose_mate. destruct (mates s' i p') as [|z zs] eqn:Em; cbn [option_map].
  - intros z r Hr Hz Pz. rewrite H' in Hr. injection Hr as <-. destruct (Z.eqb_spec z (prey_label i)) as [|Hn]; auto. exfalso.
    assert (I : In z (mates s' i p')). { unfold mates. apply filter_In. split; auto. apply andb_true_iff. split; [lia|]. destruct (Z.eqb_spec z (prey_label i)); [contradiction|auto]. }
    rewrite Em in I. destruct I.
  - split; auto. set (t := nth (pd_mate d mod length (z :: zs)) (z :: zs) 0%Z).
    assert (I : In t (mates s' i p')).
    { rewrite Em. apply nth_In. apply Nat.mod_upper_bound. simpl. lia. }
    unfold mates in I. apply filter_In in I. destruct I as (I1 & I2). apply andb_true_iff in I2. destruct I2 as (I2 & I3).
    destruct (neighbour_prey s' p' 3 t W' B' I1) as (k & o & Ek & Hk & O1 & O2); [lia|]. 
    replace (Z.to_nat (t - 1)) with k by (rewrite Ek; unfold prey_label; lia).
    split. { intros ->. rewrite Ek, Z.eqb_refl in I3. discriminate. }
    exists p', (dest s' o p'). split; auto. split; auto. exists o. auto.
Qed.

Lemma prey_turns_spec draws n : forall i s s' ms, wf s -> prey_turns n i draws s = (s', ms) ->
  wf s' /\ prey_frame s s' /\ forall a b, In (a, b) ms -> a <> b /\ (exists p, nth_error (preys_loc s) a = Some (Some p)) /\ (exists q, nth_error (preys_loc s) b = Some (Some q)).
Proof.
  induction n as [|n IH]; intros i s s' ms W E; cbn [prey_turns] in E.
  - injection E as <- <-. split; auto. split; [apply prey_frame_refl|]. intros a b [].
  - destruct (nth_error (preys_loc s) i) as [[p|]|] eqn:Hi; try (apply IH in E; auto).
    destruct (prey_turn i (draws i) s p) as [s1 m] eqn:E1. destruct (prey_turns n (S i) draws s1) as [s2 ms2] eqn:E2.
    injection E as <- <-. destruct (prey_turn_spec _ _ _ _ _ _ W Hi E1) as (W1 & F1 & M1).
    destruct (IH _ _ _ _ W1 E2) as (W2 & F2 & M2). split; auto. split; [eapply prey_frame_trans; eauto|].
    assert (Rest : forall a b, In (a, b) ms2 -> a <> b /\ (exists p, nth_error (preys_loc s) a = Some (Some p)) /\ (exists q, nth_error (preys_loc s) b = Some (Some q))).
    { intros a b H. destruct (M2 a b H) as (D & P & Q). destruct F1 as (_ & _ & _ & _ & F). split; auto. split; apply F; auto. }
    intros a b H. destruct m as [[a' b']|]; auto. destruct H as [H|H]; auto. injection H as -> ->.
    destruct M1 as (-> & D & p' & q & P & Q & _). split; auto. destruct F1 as (_ & _ & _ & _ & F). split; [eauto|]. apply F. eauto.
Qed.

Lemma move_prey_spec draws s s' r : wf s -> move_prey draws s = (s', r) ->
  wf s' /\ prey_frame s s' /\ match r with
   | Ok ms => ms <> [] /\ forall a b, In (a, b) ms -> a <> b /\ (exists p, nth_error (preys_loc s) a = Some (Some p)) /\ (exists q, nth_error (preys_loc s) b = Some (Some q))
   | Err e => e = EaError end.
Proof.
  intros W. unfold move_prey. destruct (prey_turns (length (preys_loc s)) 0 draws s) as [s1 ms] eqn:E. intros H; injection H as <- <-.
  destruct (prey_turns_spec _ _ _ _ _ _ W E) as (W1 & F & M). split; auto. split; auto. destruct ms; auto. split; [congruence|auto].
Qed.

(** ** Placement *)
Lemma attempt_occupied a i c s : cells s c <> 0%Z -> attempt a i c s = (s, []).
Proof. intros H. induction a as [|a IH]; cbn [attempt]; auto. destruct (Z.eqb_spec (cells s c) 0); [contradiction|]. cbn [negb]. auto. Qed.
Lemma attempt_spec a i c s : attempt a i c s =
  match a with
  | O => (s, [])
  | S _ => if Z.eqb (cells s c) 0 then (set_preys (set_cells s (upd (cells s) c (prey_label (length (preys_loc s))))) (preys_loc s ++ [Some c]), [i]) else (s, [])
  end.
Proof.
  destruct a as [|a]; auto. cbn [attempt]. destruct (Z.eqb_spec (cells s c) 0) as [E|E]; cbn [negb].
  - rewrite attempt_occupied; auto. cbn [set_preys set_cells cells]. rewrite upd_same. pose proof (prey_label_pos (length (preys_loc s))). lia.
  - apply attempt_occupied; auto.
Qed.

(** Which offspring get a cell: those whose cell is free and not drawn by an earlier one. *)
Definition gets_cell (draw : nat -> pos) (s : lat) (i0 i : nat) : bool :=
  Z.eqb (cells s (draw i)) 0 && negb (existsb (fun j => pos_eqb (draw j) (draw i)) (seq i0 (i - i0))).

Lemma place_from_spec a draw n : forall i s s' l, 0 < a -> wf s -> (forall j, in_bounds s (draw j)) -> place_from a draw n i s = (s', l) ->
  wf s' /\ l = filter (gets_cell draw s i) (seq i n) /\ preys_loc s' = preys_loc s ++ map (fun j => Some (draw j)) l /\
  predators_loc s' = predators_loc s /\ size_y s' = size_y s /\ size_x s' = size_x s /\
  (forall q, cells s' q = cells s q \/ (cells s q = 0%Z /\ exists j, In j l /\ q = draw j)).
Proof.
  induction n as [|n IH]; intros i s s' l Ha W B E; cbn [place_from] in E.
  - injection E as <- <-. split; auto. split; auto. split; [simpl; rewrite app_nil_r; auto|]. auto.
  - rewrite attempt_spec in E. destruct a as [|a]; [lia|]. destruct (Z.eqb_spec (cells s (draw i)) 0) as [Z0|Z0].
    + set (s1 := set_preys (set_cells s (upd (cells s) (draw i) (prey_label (length (preys_loc s))))) (preys_loc s ++ [Some (draw i)])) in *.
      destruct (place_from (S a) draw n (S i) s1) as [s2 l2] eqn:E2. injection E as <- <-.
      assert (W1 : wf s1) by (apply wf_place; auto).
      destruct (IH _ _ _ _ Ha W1 B E2) as (W2 & L2 & P2 & Q2 & Y2 & X2 & C2). split; auto.
      assert (Fi : gets_cell draw s i i = true). { unfold gets_cell. rewrite Z0, Nat.sub_diag. reflexivity. }
      split.
      { cbn [seq filter app]. rewrite Fi. f_equal. rewrite L2. apply filter_ext_in. intros j Hj. apply in_seq in Hj.
        unfold gets_cell. replace (j - i) with (S (j - S i)) by lia. cbn [seq existsb].
        unfold s1. cbn [set_preys set_cells cells]. unfold upd. destruct (pos_eqb (draw i) (draw j)); cbn [orb negb].
        - pose proof (prey_label_pos (length (preys_loc s))). destruct (Z.eqb_spec (prey_label (length (preys_loc s))) 0); [lia|].
          rewrite andb_false_r. auto.
        - auto. }
      split. { rewrite P2. unfold s1. cbn [set_preys preys_loc app map]. rewrite <- app_assoc. reflexivity. }
      split; auto. split; auto. split; auto.
      intros q. destruct (C2 q) as [Cq|(Cq & j & J1 & J2)].
      * rewrite Cq. unfold s1. cbn [set_preys set_cells cells]. destruct (pos_eqb_spec (draw i) q) as [<-|Nq].
        -- right. split; auto. exists i. split; [left; auto|auto].
        -- left. apply upd_other; auto.
      * right. unfold s1 in Cq. cbn [set_preys set_cells cells] in Cq. destruct (pos_eqb_spec (draw i) q) as [Eq|Nq].
        -- exfalso. rewrite Eq, upd_same in Cq. pose proof (prey_label_pos (length (preys_loc s))). lia.
        -- rewrite upd_other in Cq by auto. split; auto. exists j. split; [right; auto|auto].
    + destruct (place_from (S a) draw n (S i) s) as [s2 l2] eqn:E2. injection E as <- <-.
      destruct (IH _ _ _ _ Ha W B E2) as (W2 & L2 & P2 & Q2 & Y2 & X2 & C2). split; auto.
      assert (Fi : gets_cell draw s i i = false). { unfold gets_cell. destruct (Z.eqb_spec (cells s (draw i)) 0); [contradiction|]. reflexivity. }
      cbn [app]. split; [|auto].
      cbn [seq filter]. rewrite Fi. rewrite L2. apply filter_ext_in. intros j Hj. apply in_seq in Hj.
      unfold gets_cell. replace (j - i) with (S (j - S i)) by lia. cbn [seq existsb].
      destruct (pos_eqb_spec (draw i) (draw j)) as [Eq|]; cbn [orb negb]; auto.
      rewrite <- Eq. destruct (Z.eqb_spec (cells s (draw i)) 0); [contradiction|]. reflexivity.
Qed.

Lemma place_zero draw n : forall i s, place_from 0 draw n i s = (s, []).
Proof. induction n as [|n IH]; intros i s; cbn [place_from attempt]; auto. rewrite IH. auto. Qed.
Lemma place_attempts a draw n : forall i s, 0 < a -> place_from a draw n i s = place_from 1 draw n i s.
Proof.
  induction n as [|n IH]; intros i s Ha; cbn [place_from]; auto. rewrite !attempt_spec. destruct a as [|a]; [lia|].
  destruct (Z.eqb (cells s (draw i)) 0); cbn [place_from]; rewrite IH by lia; auto.
Qed.
