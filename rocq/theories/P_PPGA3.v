(** One generation of PPGA. *)
From Verif Require Import Base M_PPGA P_PPGA P_PPGA2 Spec_Fronts.
From Coq Require Import QArith Permutation.
Open Scope nat_scope.

Lemma select_flat_map {A} (l : list A) (f : nat -> bool) :
  flat_map (fun e => if f (fst e) then [snd e] else []) (combine (seq 0 (length l)) l) = select_pos f l.
Proof.
  unfold select_pos. generalize 0 as k. induction l as [|x l IH]; intros k; [auto|].
  cbn [length seq combine flat_map select_pos_from fst snd]. rewrite IH. destruct (f k); auto.
Qed.
Lemma select_pos_filter_length {A} f (l : list A) : length (select_pos f l) = length (filter f (seq 0 (length l))).
Proof. apply select_pos_from_length. Qed.
Lemma filter_mem f n : filter (fun i => mem_nat i (filter f (seq 0 n))) (seq 0 n) = filter f (seq 0 n).
Proof.
  apply filter_ext_in. intros a Ha. destruct (f a) eqn:E.
  - apply mem_nat_In. apply filter_In. auto.
  - destruct (mem_nat a (filter f (seq 0 n))) eqn:Em; auto. apply mem_nat_In, filter_In in Em. destruct Em; congruence.
Qed.

(** ** Culling selects by front index *)
Lemma last_front_spec i : forall fronts k acc, 
  (forall a b fa fb, nth_error fronts a = Some fa -> nth_error fronts b = Some fb -> In i fa -> In i fb -> a = b) ->
  last_front k i fronts acc = 
    match find (fun kf => existsb (Nat.eqb i) (snd kf)) (combine (seq k (length fronts)) fronts) with Some kf => Some (fst kf) | None => acc end.
Proof.
  induction fronts as [|f t IH]; intros k acc H; [auto|]. cbn [last_front length seq combine find snd fst].
  assert (Ht : forall a b fa fb, nth_error t a = Some fa -> nth_error t b = Some fb -> In i fa -> In i fb -> a = b).
  { intros a b fa fb Ha Hb Ia Ib. assert (S a = S b) by (apply (H (S a) (S b) fa fb); auto). lia. }
  rewrite IH by auto. destruct (existsb (Nat.eqb i) f) eqn:E; auto.
  destruct (find _ (combine (seq (S k) (length t)) t)) as [[k' f']|] eqn:Ef; auto.
  exfalso. apply find_some in Ef. destruct Ef as (I1 & I2). cbn [snd] in I2. apply in_combine_r in I1. apply In_nth_error in I1. destruct I1 as (b & Hb).
  apply mem_nat_In in E. apply mem_nat_In in I2. specialize (H 0 (S b) f f' eq_refl Hb E I2). discriminate.
Qed.
Lemma NoDup_concat_unique {B} (ll : list (list B)) : NoDup (concat ll) -> forall a b fa fb x,
  nth_error ll a = Some fa -> nth_error ll b = Some fb -> In x fa -> In x fb -> a = b.
Proof.
  assert (Dj : forall (u v : list B), NoDup (u ++ v) -> NoDup v /\ forall x, In x u -> ~ In x v).
  { induction u as [|y u IHu]; intros v N; cbn [app] in N; [split; auto|]. inversion N; subst. destruct (IHu v H2) as (N1 & N2).
    split; auto. intros x [<-|Hx] X; [apply H1, in_app_iff; auto|apply (N2 x); auto]. }
  induction ll as [|f ll IH]; intros N a b fa fb x Ha Hb Ia Ib; [destruct a; discriminate|]. cbn [concat] in N. destruct (Dj _ _ N) as (N1 & N2).
  destruct a as [|a], b as [|b]; simpl in Ha, Hb; auto.
  - injection Ha as <-. exfalso. apply (N2 x Ia). apply in_concat. exists fb. split; auto. eapply nth_error_In; eauto.
  - injection Hb as <-. exfalso. apply (N2 x Ib). apply in_concat. exists fa. split; auto. eapply nth_error_In; eauto.
  - f_equal. eapply IH; eauto.
Qed.
Lemma in_combine_seq {B} (l : list B) : forall k j x, In (j, x) (combine (seq k (length l)) l) <-> k <= j /\ nth_error l (j - k) = Some x.
Proof.
  induction l as [|y l IH]; intros k j x; cbn [length seq combine].
  - split; [intros []|intros (_ & H); destruct (j - k); discriminate].
  - cbn [In]. rewrite IH. split.
    + intros [E|(H1 & H2)]; [injection E as <- <-; rewrite Nat.sub_diag; auto|]. split; [lia|]. replace (j - k) with (S (j - S k)) by lia. auto.
    + intros (H1 & H2). destruct (Nat.eq_dec j k) as [->|Hn]; [rewrite Nat.sub_diag in H2; injection H2 as ->; auto|]. right. split; [lia|].
      replace (j - k) with (S (j - S k)) in H2 by lia. auto.
Qed.
Lemma ppga_select_spec n dom fronts mr i : sorted_fronts n dom fronts ->
  In i (ppga_select fronts n mr) <-> exists a f, nth_error fronts a = Some f /\ In i f /\ mr < a.
Proof.
  intros SF. assert (N : NoDup (concat fronts)) by (eapply Permutation_NoDup; [symmetry; apply (sf_perm _ _ _ SF)|apply seq_NoDup]).
  pose proof (NoDup_concat_unique fronts N) as U. unfold ppga_select. rewrite filter_In, in_seq.
  rewrite last_front_spec by (intros; eapply U; eauto). split.
  - intros (H1 & H2). destruct (find _ _) as [[k f]|] eqn:Ef; [|discriminate]. apply find_some in Ef. destruct Ef as (I1 & I2). cbn [fst snd] in *.
    apply in_combine_seq in I1. destruct I1 as (_ & I1). rewrite Nat.sub_0_r in I1. apply mem_nat_In in I2. apply Nat.ltb_lt in H2. eauto.
  - intros (a & f & Ha & Hi & Hm). split.
    + assert (X : In i (concat fronts)). { apply in_concat. exists f. split; auto. eapply nth_error_In; eauto. }
      eapply Permutation_in in X; [|apply (sf_perm _ _ _ SF)]. apply in_seq in X. lia.
    + destruct (find _ _) as [[k g]|] eqn:Ef.
      * apply find_some in Ef. destruct Ef as (I1 & I2). cbn [fst snd] in *. apply in_combine_seq in I1. destruct I1 as (_ & I1). rewrite Nat.sub_0_r in I1.
        apply mem_nat_In in I2. assert (k = a) by (eapply U; eauto). subst. apply Nat.ltb_lt; auto.
      * exfalso. pose proof (find_none _ _ Ef (a, f)) as X. rewrite in_combine_seq, Nat.sub_0_r in X. specialize (X (conj (Nat.le_0_l a) Ha)). cbn [snd] in X.
        apply mem_nat_In in Hi. unfold mem_nat in Hi. congruence.
Qed.
Lemma ppga_select_NoDup fronts n mr : NoDup (ppga_select fronts n mr).
Proof. apply NoDup_filter, seq_NoDup. Qed.
Lemma ppga_select_lt fronts n mr i : In i (ppga_select fronts n mr) -> i < n.
Proof. unfold ppga_select. rewrite filter_In, in_seq. lia. Qed.

(** ** A generation *)
Section Gen.
Context {A : Type} (fitness : A -> list Q) (nds : list (list Q) -> list (list nat)) (mate : list A -> list (nat * nat) -> list A).
Variable c : ppga_cfg.
Hypothesis two_objectives : forall m, 2 <= length (fitness m).

Record draws_ok (s : lat) (r : gen_draws) : Prop := {
  dk_place : forall i, in_bounds s (gd_place r i);
  dk_pred : forall i m, fst (gd_pred r i m) < Nat.min (pc_radius c) (size_y s) /\ snd (gd_pred r i m) < Nat.min (pc_radius c) (size_x s) }.
Record cfg_ok (s : lat) : Prop := {
  ck_pred : 0 < pc_predators c; ck_count : length (predators_loc s) = pc_predators c;
  ck_att : 0 < pc_attempts c; ck_kill : 0 < pc_kill_interval c }.

Lemma alive_frame s s' (pop : list A) : prey_frame s s' -> alive s pop -> alive s' pop.
Proof.
  intros (F1 & F2 & F3 & F4 & F5) (L & Al). split; [congruence|]. intros i Hi. apply F5. auto.
Qed.

Lemma ppga_gen_spec r s pop gen fe : cfg_ok s -> draws_ok s r -> wf s -> alive s pop ->
  match ppga_gen fitness nds mate c r (s, pop, gen, fe) with
  | Err e => e = EaError /\ snd (move_prey (gd_prey r) s) = Err EaError
  | Ok (s', pop', gen', fe') =>
      exists s1 pairs placed culled killed,
        move_prey (gd_prey r) s = (s1, Ok pairs) /\ wf s1 /\ prey_frame s s1 /\
        placed = filter (gets_cell (gd_place r) s1 0) (seq 0 (length (mate pop pairs))) /\
        let pop1 := pop ++ select_pos (fun i => mem_nat i placed) (mate pop pairs) in
        culled = (if Nat.eqb (S gen mod pc_kill_interval c) 0 then ppga_select (nds (map fitness pop1)) (length pop1) (pc_max_rank c) else []) /\
        let pop2 := select_pos (fun i => negb (mem_nat i culled)) pop1 in
        NoDup killed /\ (forall k, In k killed -> k < length pop2) /\
        length killed <= pc_predators c * max_moves (length pop2) (pc_target c) (pc_predators c) /\
        pop' = select_pos (fun i => negb (mem_nat i killed)) pop2 /\
        preys_loc s' = select_pos (fun i => negb (mem_nat i killed)) (select_pos (fun i => negb (mem_nat i culled))
                         (preys_loc s1 ++ map (fun j => Some (gd_place r j)) placed)) /\
        gen' = S gen /\ fe' = fe + length placed /\
        wf s' /\ alive s' pop' /\ size_y s' = size_y s /\ size_x s' = size_x s /\ cfg_ok s'
  end.
Proof.
  intros [Cp Cc Ca Ck] [Dp Dr] W Al. unfold ppga_gen.
  destruct (move_prey (gd_prey r) s) as [s1 m] eqn:Em. destruct (move_prey_spec _ _ _ _ W Em) as (W1 & F1 & Hm).
  destruct m as [pairs|e]; [|subst e; cbn [bind]; auto]. cbn [bind]. destruct Hm as (_ & _).
  pose proof F1 as (Fy & Fx & Fp & Fl & _). pose proof (alive_frame _ _ _ F1 Al) as Al1.
  destruct (place_offspring (pc_attempts c) (gd_place r) (length (mate pop pairs)) s1) as [s2 placed] eqn:Ep.
  unfold place_offspring in Ep. assert (B1 : forall j, in_bounds s1 (gd_place r j)). { intros j. destruct (Dp j). split; congruence. }
  destruct (place_from_spec _ _ _ _ _ _ _ Ca W1 B1 Ep) as (W2 & Hpl & Hpr & Hpd & Hy & Hx & _).
  rewrite (select_flat_map (mate pop pairs) (fun i => existsb (Nat.eqb i) placed)).
  set (off := mate pop pairs) in *. change (fun i => existsb (Nat.eqb i) placed) with (fun i => mem_nat i placed).
  set (kept := select_pos (fun i => mem_nat i placed) off).
  assert (Lk : length kept = length placed). { unfold kept. rewrite select_pos_filter_length, Hpl, filter_mem. auto. }
  set (pop1 := pop ++ kept).
  assert (Al2 : alive s2 pop1).
  { destruct Al1 as (L1 & A1). split; [rewrite Hpr; unfold pop1; rewrite !app_length, map_length; congruence|]. intros i Hi. rewrite Hpr.
    destruct (Nat.lt_ge_cases i (length (preys_loc s1))) as [Hl|Hl].
    - rewrite nth_error_app1 by auto. apply A1. lia.
    - rewrite nth_error_app2 by auto. rewrite nth_error_map. destruct (nth_error placed (i - length (preys_loc s1))) eqn:En; [simpl; eauto|].
      apply nth_error_None in En. unfold pop1 in Hi. rewrite app_length in Hi. lia. }
  destruct (Nat.eqb_spec (pc_kill_interval c) 0); [lia|].
  set (cull := Nat.eqb (S gen mod pc_kill_interval c) 0).
  set (culled := if cull then ppga_select (nds (map fitness pop1)) (length pop1) (pc_max_rank c) else []).
  assert (K : exists s3, (if cull then bind (update_lattice (Some (ppga_select (nds (map fitness pop1)) (length pop1) (pc_max_rank c))) s2)
              (fun s3 => Ok (s3, delete_members pop1 (ppga_select (nds (map fitness pop1)) (length pop1) (pc_max_rank c)))) else Ok (s2, pop1)) =
              Ok (s3, select_pos (fun i => negb (mem_nat i culled)) pop1) /\ wf s3 /\ alive s3 (select_pos (fun i => negb (mem_nat i culled)) pop1) /\
              size_y s3 = size_y s2 /\ size_x s3 = size_x s2 /\ predators_loc s3 = predators_loc s2 /\
              preys_loc s3 = select_pos (fun i => negb (mem_nat i culled)) (preys_loc s2)).
  { unfold culled. destruct cull.
    - destruct (update_lattice_spec (ppga_select (nds (map fitness pop1)) (length pop1) (pc_max_rank c)) s2 pop1
        (ppga_select_NoDup _ _ _) (ppga_select_lt _ _ _) W2 Al2) as (s3 & E3 & W3 & A3 & F3 & F4 & F5 & F6).
      rewrite E3. cbn [bind]. exists s3. rewrite delete_members_spec in *. split; [reflexivity|]. intuition.
    - exists s2. assert (Id : forall B (l : list B), select_pos (fun i => negb (mem_nat i [])) l = l).
      { intros B l. unfold select_pos. generalize 0 as k. induction l as [|x l IH]; intros k; auto. cbn [select_pos_from mem_nat existsb negb]. f_equal. apply IH. }
      rewrite !Id. split; [reflexivity|]. intuition. }
  destruct K as (s3 & E3 & W3 & A3 & G1 & G2 & G3 & G4). rewrite E3. cbn [bind fst snd].
  assert (Lp3 : length (predators_loc s3) = pc_predators c) by congruence.
  destruct (move_predator_spec fitness (pc_radius c) (pc_predators c) (pc_target c) (gd_pred r) s3 (select_pos (fun i => negb (mem_nat i culled)) pop1))
    as (s4 & killed & E4 & W4 & A4 & P4 & Y4 & X4 & L4 & N4 & I4 & B4); auto.
  { intros i m. rewrite G1, G2, Hy, Hx, Fy, Fx. apply Dr. }
  rewrite E4. cbn [bind fst snd]. exists s1, pairs, placed, culled, killed. split; auto. split; auto. split; auto. split; auto.
  cbv zeta. split; auto. split; auto. split; auto. split; auto. split; auto. split. { rewrite P4, G4, Hpr. auto. }
  split; auto. split; [congruence|]. split; auto. split; auto. split; [congruence|]. split; [congruence|].
  constructor; auto.
Qed.
End Gen.
