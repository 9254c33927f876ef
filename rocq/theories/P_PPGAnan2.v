(** Lemmas for C129: one generation; the scan of a neighbourhood. *)
From Coq Require Import QArith Lia Permutation.
From Verif Require Import Base M_PPGA P_PPGA P_PPGA2 P_PPGA3 M_MOEADnan M_PPGAnan P_PPGAnan.
Open Scope nat_scope.

Section GenX.
Context {A : Type} (fitness : A -> list xq) (nds : list (list xq) -> list (list nat)) (mate : list A -> list (nat * nat) -> list A).
Variable c : ppga_cfg.
Hypothesis two_objectives : forall m, 2 <= length (fitness m).
Lemma ppga_gen_x_spec r s pop gen fe : cfg_ok c s -> draws_ok c s r -> wf s -> alive s pop ->
  match ppga_gen_x fitness nds mate c r (s, pop, gen, fe) with
  | Err e => e = EaError /\ snd (move_prey (gd_prey r) s) = Err EaError
  | Ok (s', pop', gen', fe') =>
      exists s1 pairs placed culled killed,
        move_prey (gd_prey r) s = (s1, Ok pairs) /\ wf s1 /\ prey_frame s s1 /\
        placed = filter (gets_cell (gd_place r) s1 0) (seq 0 (length (mate pop pairs))) /\
        let pop1 := pop ++ select_pos (fun i => mem_nat i placed) (mate pop pairs) in
        culled = (if Nat.eqb (S gen mod pc_kill_interval c) 0 then ppga_select (nds (map fitness pop1)) (length pop1) (pc_max_rank c) else []) /\
        let pop2 := select_pos (fun i => negb (mem_nat i culled)) pop1 in
        NoDup killed /\ (forall k, In k killed -> k < length pop2) /\
        length killed <= pc_predators c * max_moves (length pop2) (pc_target c) (pc_predators c) /\
        pop' = select_pos (fun i => negb (mem_nat i killed)) pop2 /\
        preys_loc s' = select_pos (fun i => negb (mem_nat i killed)) (select_pos (fun i => negb (mem_nat i culled))
                         (preys_loc s1 ++ map (fun j => Some (gd_place r j)) placed)) /\
        gen' = S gen /\ fe' = fe + length placed /\
        wf s' /\ alive s' pop' /\ size_y s' = size_y s /\ size_x s' = size_x s /\ cfg_ok c s'
  end.
Proof.
  intros [Cp Cc Ca Ck] [Dp Dr] W Al. unfold ppga_gen_x.
  destruct (move_prey (gd_prey r) s) as [s1 m] eqn:Em. destruct (move_prey_spec _ _ _ _ W Em) as (W1 & F1 & Hm).
  destruct m as [pairs|e]; [|subst e; cbn [bind]; auto]. cbn [bind]. destruct Hm as (_ & _).
  pose proof F1 as (Fy & Fx & Fp & Fl & _). pose proof (alive_frame _ _ _ F1 Al) as Al1.
  destruct (place_offspring (pc_attempts c) (gd_place r) (length (mate pop pairs)) s1) as [s2 placed] eqn:Ep.
  unfold place_offspring in Ep. assert (B1 : forall j, in_bounds s1 (gd_place r j)). { intros j. destruct (Dp j). split; congruence. }
  destruct (place_from_spec _ _ _ _ _ _ _ Ca W1 B1 Ep) as (W2 & Hpl & Hpr & Hpd & Hy & Hx & _).
  rewrite (select_flat_map (mate pop pairs) (fun i => existsb (Nat.eqb i) placed)).
  set (off := mate pop pairs) in *. change (fun i => existsb (Nat.eqb i) placed) with (fun i => mem_nat i placed).
  set (kept := select_pos (fun i => mem_nat i placed) off).
  assert (Lk : length kept = length placed). { unfold kept. rewrite select_pos_filter_length, Hpl, filter_mem. auto. }
  set (pop1 := pop ++ kept).
  assert (Al2 : alive s2 pop1).
  { destruct Al1 as (L1 & A1). split; [rewrite Hpr; unfold pop1; rewrite !app_length, map_length; congruence|]. intros i Hi. rewrite Hpr.
    destruct (Nat.lt_ge_cases i (length (preys_loc s1))) as [Hl|Hl].
    - rewrite nth_error_app1 by auto. apply A1. lia.
    - rewrite nth_error_app2 by auto. rewrite nth_error_map. destruct (nth_error placed (i - length (preys_loc s1))) eqn:En; [simpl; eauto|].
      apply nth_error_None in En. unfold pop1 in Hi. rewrite app_length in Hi. lia. }
  destruct (Nat.eqb_spec (pc_kill_interval c) 0); [lia|].
  set (cull := Nat.eqb (S gen mod pc_kill_interval c) 0).
  set (culled := if cull then ppga_select (nds (map fitness pop1)) (length pop1) (pc_max_rank c) else []).
  assert (K : exists s3, (if cull then bind (update_lattice (Some (ppga_select (nds (map fitness pop1)) (length pop1) (pc_max_rank c))) s2)
              (fun s3 => Ok (s3, delete_members pop1 (ppga_select (nds (map fitness pop1)) (length pop1) (pc_max_rank c)))) else Ok (s2, pop1)) =
              Ok (s3, select_pos (fun i => negb (mem_nat i culled)) pop1) /\ wf s3 /\ alive s3 (select_pos (fun i => negb (mem_nat i culled)) pop1) /\
              size_y s3 = size_y s2 /\ size_x s3 = size_x s2 /\ predators_loc s3 = predators_loc s2 /\
              preys_loc s3 = select_pos (fun i => negb (mem_nat i culled)) (preys_loc s2)).
  { unfold culled. destruct cull.
    - destruct (update_lattice_spec (ppga_select (nds (map fitness pop1)) (length pop1) (pc_max_rank c)) s2 pop1
        (ppga_select_NoDup _ _ _) (ppga_select_lt _ _ _) W2 Al2) as (s3 & E3 & W3 & A3 & F3 & F4 & F5 & F6).
      rewrite E3. cbn [bind]. exists s3. rewrite delete_members_spec in *. split; [reflexivity|]. intuition.
    - exists s2. assert (Id : forall B (l : list B), select_pos (fun i => negb (mem_nat i [])) l = l).
      { intros B l. unfold select_pos. generalize 0 as k. induction l as [|x l IH]; intros k; auto. cbn [select_pos_from mem_nat existsb negb]. f_equal. apply IH. }
      rewrite !Id. split; [reflexivity|]. intuition. }
  destruct K as (s3 & E3 & W3 & A3 & G1 & G2 & G3 & G4). rewrite E3. cbn [bind fst snd].
  assert (Lp3 : length (predators_loc s3) = pc_predators c) by congruence.
  destruct (move_predator_x_spec fitness (pc_radius c) (pc_predators c) (pc_target c) (gd_pred r) s3 (select_pos (fun i => negb (mem_nat i culled)) pop1))
    as (s4 & killed & E4 & W4 & A4 & P4 & Y4 & X4 & L4 & N4 & I4 & B4); auto.
  { intros i m. rewrite G1, G2, Hy, Hx, Fy, Fx. apply Dr. }
  rewrite E4. cbn [bind fst snd]. exists s1, pairs, placed, culled, killed. split; auto. split; auto. split; auto. split; auto.
  cbv zeta. split; auto. split; auto. split; auto. split; auto. split; auto. split. { rewrite P4, G4, Hpr. auto. }
  split; auto. split; [congruence|]. split; auto. split; auto. split; [congruence|]. split; [congruence|].
  constructor; auto.
Qed.
End GenX.

(** ** The scan *)
Lemma tuple_nan_l t b : tuple_lt (QNaN, t) b = false.
Proof. unfold tuple_lt. cbn [fst snd]. destruct b as [[]]; reflexivity. Qed.
Lemma tuple_nan_r t b : tuple_lt b (QNaN, t) = false.
Proof. unfold tuple_lt. cbn [fst snd]. destruct b as [[]]; reflexivity. Qed.
Lemma scan_app l1 l2 : forall b, scan b (l1 ++ l2) = scan (scan b l1) l2.
Proof. induction l1 as [|x l1 IH]; intros b; cbn [app scan]; auto. Qed.
Lemma scan_nan l1 t l2 : scan None (l1 ++ (QNaN, t) :: l2) = match l2 with [] => Some (QNaN, t) | _ => scan None l2 end.
Proof.
  rewrite scan_app. cbn [scan]. assert (E : match scan None l1 with None => (QNaN, t) | Some b => weaker b (QNaN, t) end = (QNaN, t)).
  { destruct (scan None l1) as [b|]; [|reflexivity]. unfold weaker. rewrite tuple_nan_l. reflexivity. }
  rewrite E. destruct l2 as [|x l2]; [reflexivity|]. cbn [scan]. unfold weaker. rewrite tuple_nan_r. reflexivity.
Qed.
(** An infinite value among values that are numbers is found. *)
Lemma scan_inf l : (forall x, In x l -> fst x <> QNaN) -> forall best, (forall b, best = Some b -> fst b <> QNaN) ->
  (exists x, In x l /\ fst x = QPInf) \/ (exists b, best = Some b /\ fst b = QPInf) -> exists w, scan best l = Some w /\ fst w = QPInf.
Proof.
  induction l as [|x l IH]; intros Hn best Hb H; cbn [scan].
  - destruct H as [(x & [] & _)|(b & -> & E)]. eauto.
  - assert (Hx : fst x <> QNaN) by (apply Hn; now left).
    apply IH; [intros y Hy; apply Hn; now right| |].
    + intros b E. injection E as <-. destruct best as [b0|]; [|exact Hx]. unfold weaker. destruct (tuple_lt x b0); auto.
    + destruct H as [(y & [<-|Hy] & Ey)|(b & -> & E)].
      * right. eexists. split; [reflexivity|]. destruct best as [b0|]; [|exact Ey]. specialize (Hb b0 eq_refl). unfold weaker, tuple_lt. rewrite Ey. destruct (fst b0) eqn:E0; cbn; auto; try congruence.
        destruct (snd x <? snd b0)%Z; auto.
      * left. eauto.
      * right. eexists. split; [reflexivity|]. unfold weaker, tuple_lt. rewrite E. destruct (fst x) eqn:Ex; cbn; auto; try congruence.
        destruct (snd x <? snd b)%Z; auto.
Qed.
Lemma tuple_fin f t g u : tuple_lt (QFin f, t) (QFin g, u) = negb (worse (g, u) (f, t)).
Proof.
  unfold tuple_lt, worse. cbn [fst snd xqeq xqlt]. destruct (Qeq_bool f g) eqn:E.
  - apply Qeq_bool_iff in E. assert (E2 : (g ?= f)%Q = Eq) by (apply Qeq_alt; symmetry; exact E). rewrite E2.
    destruct (Z.ltb_spec t u), (Z.leb_spec u t); cbn; auto; lia.
  - destruct (g ?= f)%Q eqn:C.
    + apply Qeq_alt in C. symmetry in C. apply Qeq_bool_iff in C. congruence.
    + apply Qlt_alt in C. cbn. apply negb_false_iff. apply Qle_bool_iff, Qlt_le_weak. exact C.
    + apply Qgt_alt in C. cbn. apply negb_true_iff. destruct (Qle_bool g f) eqn:L; [|reflexivity]. apply Qle_bool_iff in L. exfalso. apply (Qlt_not_le _ _ C). exact L.
Qed.
(** Among finite values the largest is found. *)
Lemma scan_fin_max (l : list (Q * Z)) : forall best w, scan (option_map (fun b => (QFin (fst b), snd b)) best) (map (fun x => (QFin (fst x), snd x)) l) = Some w ->
  exists v, w = (QFin (fst v), snd v) /\ (In v l \/ best = Some v) /\ (forall x, In x l -> (fst x <= fst v)%Q) /\ (forall b, best = Some b -> (fst b <= fst v)%Q).
Proof.
  induction l as [|x l IH]; intros best w H; cbn [map scan] in H.
  - destruct best as [b|]; [|discriminate]. cbn [option_map] in H. injection H as <-. exists b. split; [reflexivity|]. split; [auto|]. split; [intros x []|]. intros b' E. injection E as <-. apply Qle_refl.
  - set (nb := match best with None => x | Some b => if worse b x then x else b end).
    assert (E : match option_map (fun b => (QFin (fst b), snd b)) best with None => (QFin (fst x), snd x) | Some b => weaker b (QFin (fst x), snd x) end = (QFin (fst nb), snd nb)).
    { unfold nb. destruct best as [b|]; [|reflexivity]. cbn [option_map]. unfold weaker. rewrite tuple_fin, <- !surjective_pairing. destruct (worse b x); reflexivity. }
    rewrite E in H. apply (IH (Some nb)) in H. destruct H as (v & -> & Hin & Hm & Hb). specialize (Hb nb eq_refl). exists v. split; [reflexivity|].
    assert (Fx : (fst x <= fst v)%Q /\ forall b, best = Some b -> (fst b <= fst v)%Q).
    { unfold nb in Hb. destruct best as [b|].
      - destruct (worse b x) eqn:Ew.
        + apply worse_Qle in Ew. split; [exact Hb|]. intros b' E'. injection E' as <-. apply (Qle_trans _ (fst x)); assumption.
        + apply worse_total, worse_Qle in Ew. split; [apply (Qle_trans _ (fst b)); assumption|]. intros b' E'. injection E' as <-. exact Hb.
      - split; [exact Hb|]. discriminate. }
    split; [|split].
    + destruct Hin as [Hin|Hin]; [left; now right|]. injection Hin as <-. unfold nb. destruct best as [b|]; [destruct (worse b x); [left; now left|now right]|left; now left].
    + intros y [<-|Hy]; [exact (proj1 Fx)|auto].
    + exact (proj2 Fx).
Qed.
