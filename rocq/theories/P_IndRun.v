(** Lemmas for C43 and C107. *)
From Verif Require Import Base M_Preferences M_IndRun Spec_IndRun.
Open Scope Z_scope.

Section P.
Context {Payload : Type} (to_fitness : Payload -> Payload) (off : nat -> res nat).
Notation irun := (irun Payload).
Notation icall := (icall Payload).
Definition is_ok {A} (r : res A) : bool := match r with Ok _ => true | Err _ => false end.
Fixpoint ind_history (s : irun) (cs : list icall) : history :=
  match cs with
  | [] => []
  | c :: t => (c, is_ok (snd (ind_do to_fitness off s c))) :: ind_history (fst (ind_do to_fitness off s c)) t
  end.

(** What the generations leave alone. *)
Definition frame (s s' : irun) : Prop :=
  ir_interact s' = ir_interact s /\ ir_gpi s' = ir_gpi s /\ ir_prefs s' = ir_prefs s /\ ir_reqid s' = ir_reqid s /\ ir_type_set s' = ir_type_set s /\ ir_it s' = ir_it s.
Lemma frame_trans a b c : frame a b -> frame b c -> frame a c.
Proof. unfold frame. intuition congruence. Qed.
Lemma gens_frame : forall fuel (s s' : irun) r, ind_gens off fuel s = (s', r) -> frame s s'.
Proof.
  induction fuel as [|f IH]; intros s s' r; cbn [ind_gens]; destruct (ind_continue_iteration s); try (intros H; injection H as <- <-; unfold frame; auto 10).
  unfold ind_gen. destruct (off (ir_clock s)) as [k|e]; intros H; [|injection H as <- <-; unfold frame; auto 10].
  apply IH in H. eapply frame_trans; [|exact H]. unfold frame; auto 10.
Qed.
Lemma gens_ok : forall fuel (s s' : irun), ir_gpi s - ir_gin s <= Z.of_nat fuel -> ind_gens off fuel s = (s', Ok tt) -> ind_continue_iteration s' = false.
Proof.
  induction fuel as [|f IH]; intros s s' Hf; cbn [ind_gens]; destruct (ind_continue_iteration s) eqn:E; try discriminate; try (intros H; injection H as <-; exact E).
  unfold ind_gen. destruct (off (ir_clock s)) as [k|e]; [|discriminate]. apply IH. cbn [set_counts ir_gpi ir_gin]. lia.
Qed.
Lemma gens_enough : forall fuel (s s' : irun) e, ir_gpi s - ir_gin s <= Z.of_nat fuel -> (forall k e, off k = Err e -> e <> Unmodelled) -> ind_gens off fuel s = (s', Err e) -> e <> Unmodelled.
Proof.
  induction fuel as [|f IH]; intros s s' e Hf Ho; cbn [ind_gens]; destruct (ind_continue_iteration s) eqn:E; try discriminate.
  - exfalso. unfold ind_continue_iteration in E. apply andb_prop in E. destruct E as [E _]. apply Z.ltb_lt in E. lia.
  - unfold ind_gen. destruct (off (ir_clock s)) as [k|e'] eqn:Eo; [|intros H; injection H as <- <-; eapply Ho; eauto]. apply IH; auto. cbn [set_counts ir_gpi ir_gin]. lia.
Qed.
(** Every generation adds its offspring; [gin] counts them. *)
Lemma gens_bound b : (forall k n, off k = Ok n -> (Z.of_nat n <= b)) -> 0 <= b -> forall fuel (s s' : irun) r, ind_gens off fuel s = (s', r) ->
  0 <= ir_gin s' - ir_gin s /\ (ir_gin s <= ir_gpi s -> ir_gin s' <= ir_gpi s) /\ ir_fe s <= ir_fe s' <= ir_fe s + b * (ir_gin s' - ir_gin s).
Proof.
  intros Hb Hb0. assert (X : forall x, x - x = 0) by (intros; lia).
  induction fuel as [|f IH]; intros s s' r; cbn [ind_gens]; destruct (ind_continue_iteration s) eqn:E; try (intros H; injection H as <- <-; rewrite X; lia).
  unfold ind_gen. destruct (off (ir_clock s)) as [k|e] eqn:Eo; intros H; [|injection H as <- <-; cbn [set_counts ir_gin ir_fe ir_gpi]; rewrite X; lia].
  apply IH in H. cbn [set_counts ir_gin ir_fe ir_gpi] in H. pose proof (Hb _ _ Eo). unfold ind_continue_iteration in E. apply andb_prop in E. destruct E as [E _]. apply Z.ltb_lt in E.
  destruct H as (H1 & H2 & H3). split; [lia|]. split; [intros _; apply H2; lia|]. nia.
Qed.

(** One iterate(). *)
Lemma iterate_rejected s p r : ir_interact s = true -> answers (ir_reqid s) p = false -> exists e, ind_iterate to_fitness off p r s = (s, Err e) /\ (e = EaError \/ e = AttributeError).
Proof.
  intros Hi Ha. unfold ind_iterate, ind_manage. rewrite Hi. cbn [negb]. destruct s as [i g q rq ts it gen gin fe cl]. cbn [ir_reqid ir_prefs] in *. unfold set_prefs. cbn.
  destruct p as [p|]; [|eauto]. unfold answers in Ha. destruct (pf_class p) as [[]|]; cbn [negb]; eauto. destruct rq as [j|]; cbn; eauto. rewrite Nat.eqb_sym in Ha. rewrite Ha. cbn [negb]. eauto.
Qed.
Lemma iterate_accepted s p r : ir_interact s = true -> answers (ir_reqid s) (Some p) = true ->
  exists s3 o, ind_gens off (Z.to_nat (ir_gpi s)) (set_counts (set_prefs s (mkInd (Some (to_fitness (pf_payload p))) (2 * ind_iters (ir_prefs s)) (2 * ind_fe (ir_prefs s)))) (ir_it s) (ir_gen s) 0 (ir_fe s) (ir_clock s)) = (s3, o) /\
    ind_iterate to_fitness off (Some p) r s = match o with
      | Ok _ => (ind_requests r (set_counts s3 (ir_it s3 + 1) (ir_gen s3) (ir_gin s3) (ir_fe s3) (ir_clock s3)), Ok tt)
      | Err e => (s3, Err e) end.
Proof.
  intros Hi Ha. unfold ind_iterate, ind_manage. rewrite Hi. cbn [negb]. unfold answers in Ha. destruct (ir_reqid s) as [j|]; [|discriminate].
  destruct (pf_class p) as [[]|]; try discriminate. cbn [negb]. rewrite Nat.eqb_sym in Ha. rewrite Ha. cbn [negb set_prefs ir_it ir_gen ir_fe ir_clock]. cbv zeta. cbn [set_counts ir_gpi].
  replace (ind_iters (ir_prefs s) + ind_iters (ir_prefs s)) with (2 * ind_iters (ir_prefs s)) by lia. replace (ind_fe (ir_prefs s) + ind_fe (ir_prefs s)) with (2 * ind_fe (ir_prefs s)) by lia.
  destruct (ind_gens off _ _) as [s3 o] eqn:E. exists s3, o. split; [reflexivity|]. destruct o as [[]|e]; reflexivity.
Qed.
Lemma iterate_plain s p r : ir_interact s = false ->
  exists s3 o, ind_gens off (Z.to_nat (ir_gpi s)) (set_counts s (ir_it s) (ir_gen s) 0 (ir_fe s) (ir_clock s)) = (s3, o) /\
    ind_iterate to_fitness off p r s = match o with
      | Ok _ => (ind_requests r (set_counts s3 (ir_it s3 + 1) (ir_gen s3) (ir_gin s3) (ir_fe s3) (ir_clock s3)), Ok tt)
      | Err e => (s3, Err e) end.
Proof.
  intros Hi. unfold ind_iterate, ind_manage. rewrite Hi. cbn [negb]. replace (set_prefs s (ir_prefs s)) with s by (destruct s; reflexivity). cbv zeta. cbn [set_counts ir_gpi].
  destruct (ind_gens off _ _) as [s3 o] eqn:E. exists s3, o. split; [reflexivity|]. destruct o as [[]|e]; reflexivity.
Qed.

(** The invariant of an interactive session; [acc]: preferences accepted so far, [k]: returned iterate() calls. *)
Lemma pow2_succ k : 2 ^ Z.of_nat (S k) = 2 * 2 ^ Z.of_nat k.
Proof. rewrite Nat2Z.inj_succ, Z.pow_succ_r by lia. reflexivity. Qed.
Lemma session_inv : forall cs s, ir_interact s = true -> ir_type_set s = false ->
  let s' := ind_session to_fitness off s cs in let h := ind_history s cs in let acc := accepted (ir_reqid s) h in
  ir_interact s' = true /\ ir_type_set s' = false /\ ir_gpi s' = ir_gpi s /\
  ir_reqid s' = fold_left then_request h (ir_reqid s) /\
  ind_iters (ir_prefs s') = ind_iters (ir_prefs s) * 2 ^ Z.of_nat (length acc) /\
  ind_fe (ir_prefs s') = ind_fe (ir_prefs s) * 2 ^ Z.of_nat (length acc) /\
  ind_ref (ir_prefs s') = match rev acc with [] => ind_ref (ir_prefs s) | p :: _ => Some (to_fitness p) end /\
  ir_it s' = ir_it s + Z.of_nat (iterations h) /\ (iterations h <= length acc)%nat.
Proof.
  induction cs as [|c cs IH]; intros s Hi Ht; cbv zeta.
  - cbn [ind_session fold_left ind_history accepted rev length iterations filter]. change (2 ^ Z.of_nat 0) with 1. repeat (split; [auto; lia|]). cbn. lia.
  - cbn [ind_session fold_left ind_history]. change (fold_left (fun s c => fst (ind_do to_fitness off s c)) cs (fst (ind_do to_fitness off s c))) with (ind_session to_fitness off (fst (ind_do to_fitness off s c)) cs).
    set (s1 := fst (ind_do to_fitness off s c)). set (ok := is_ok (snd (ind_do to_fitness off s c))). cbn [accepted].
    (* it is enough to describe the first call *)
    assert (Step : ir_interact s1 = true /\ ir_type_set s1 = false /\ ir_gpi s1 = ir_gpi s /\ ir_reqid s1 = then_request (ir_reqid s) (c, ok) /\
      exists acc1, match c with IIterate (Some p) _ => if answers (ir_reqid s) (Some p) then [pf_payload p] else [] | _ => [] end = acc1 /\
        ind_iters (ir_prefs s1) = ind_iters (ir_prefs s) * 2 ^ Z.of_nat (length acc1) /\ ind_fe (ir_prefs s1) = ind_fe (ir_prefs s) * 2 ^ Z.of_nat (length acc1) /\
        ind_ref (ir_prefs s1) = match rev acc1 with [] => ind_ref (ir_prefs s) | p :: _ => Some (to_fitness p) end /\
        ir_it s1 = ir_it s + Z.of_nat (iterations [(c, ok)]) /\ (iterations [(c, ok)] <= length acc1)%nat).
    { assert (Zero : forall x, x * 2 ^ Z.of_nat 0 = x) by (intros x; change (2 ^ Z.of_nat 0) with 1; lia).
      unfold s1, ok. destruct c as [a|r|r|p r]; cbn [ind_do].
      - cbn [ind_set_type fst snd is_ok then_request]. split; auto. split; auto. split; auto. split; auto. exists []. cbn [length]. rewrite !Zero. cbn. repeat (split; auto); lia.
      - unfold ind_start. rewrite Hi, Ht. cbn [andb negb fst snd is_ok then_request]. split; auto. split; auto. split; auto. split; auto. exists []. cbn [length]. rewrite !Zero. cbn. repeat (split; auto); lia.
      - cbn [fst snd is_ok then_request]. unfold ind_requests. rewrite Hi. cbn [ir_interact ir_type_set ir_gpi ir_reqid ir_prefs ir_it]. split; auto. split; auto. split; auto. split; auto. exists []. cbn [length]. rewrite !Zero. cbn. repeat (split; auto); lia.
      - destruct (answers (ir_reqid s) p) eqn:Ea.
        + destruct p as [p|]; [|unfold answers in Ea; destruct (ir_reqid s); discriminate]. rewrite Ea. destruct (iterate_accepted s p r Hi Ea) as (s3 & o & G & E). rewrite E. apply gens_frame in G. destruct G as (G1 & G2 & G3 & G4 & G5 & G6).
          cbn [set_counts set_prefs ir_interact ir_type_set ir_gpi ir_reqid ir_prefs ir_it] in *.
          assert (One : forall x, 2 * x = x * 2 ^ Z.of_nat 1) by (intros x; change (2 ^ Z.of_nat 1) with 2; lia). rewrite !One in G3.
          destruct o as [[]|e]; cbn [fst snd is_ok then_request].
          * unfold ind_requests, set_counts. cbn [ir_interact]. rewrite G1, Hi. cbn [ir_interact ir_type_set ir_gpi ir_reqid ir_prefs ir_it]. split; auto. split; [congruence|]. split; auto. split; auto.
            exists [pf_payload p]. split; auto. rewrite G3. cbn [ind_iters ind_fe ind_ref length rev app iterations filter]. repeat (split; auto); lia.
          * split; [congruence|]. split; [congruence|]. split; auto. split; auto. exists [pf_payload p]. split; auto. rewrite G3. cbn [ind_iters ind_fe ind_ref length rev app iterations filter]. repeat (split; auto); lia.
        + destruct (iterate_rejected s p r Hi Ea) as (e & E & _). rewrite E. cbn [fst snd is_ok then_request]. split; auto. split; auto. split; auto. split; auto. exists [].
          split; [destruct p as [p|]; auto; rewrite Ea; auto|]. cbn [length]. rewrite !Zero. cbn. repeat (split; auto); lia. }
    destruct Step as (A1 & A2 & A3 & A4 & acc1 & A5 & A6 & A7 & A8 & A9 & A10). rewrite A5. clear A5.
    destruct (IH s1 A1 A2) as (B1 & B2 & B3 & B4 & B5 & B6 & B7 & B8 & B9). fold s1. fold ok. cbn [fold_left]. rewrite <- !A4.
    set (h := ind_history s1 cs) in *. set (acc := accepted (ir_reqid s1) h) in *.
    assert (It : iterations ((c, ok) :: h) = (iterations [(c, ok)] + iterations h)%nat).
    { unfold iterations. change ((c, ok) :: h) with ([(c, ok)] ++ h). rewrite filter_app, app_length. reflexivity. }
    assert (Pow : forall x, x * 2 ^ Z.of_nat (length acc1) * 2 ^ Z.of_nat (length acc) = x * 2 ^ Z.of_nat (length (acc1 ++ acc))).
    { intros x. rewrite app_length, Nat2Z.inj_add, Z.pow_add_r by lia. ring. }
    split; auto. split; auto. split; [congruence|]. split; auto. split; [rewrite B5, A6, Pow; reflexivity|]. split; [rewrite B6, A7, Pow; reflexivity|].
    split; [|rewrite It, app_length; split; lia]. rewrite B7, rev_app_distr, A8. destruct (rev acc); reflexivity.
Qed.
End P.
