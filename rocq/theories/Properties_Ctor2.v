(** C87: calls as documented succeed; without exactly one of problem and population they are refused. *)
From Coq Require Import String QArith.
From Verif Require Import Base M_BaseEA P_BaseEA M_Ctor Spec_Ctor P_Ctor Properties_Ctor.
Open Scope string_scope.

(** The documented types of the arguments that matter to the constructor. *)
Definition documented (x : string) (v : val) : Prop :=
  (x = "n_iterations" \/ x = "n_gen_per_iter" \/ x = "total_function_evaluations" -> exists z, v = VInt z) /\
  (x = "interact" -> exists b, v = VBool b) /\
  (x = "population_size" -> v = VNone \/ exists z, v = VInt z) /\
  (x = "lattice_resolution" -> v = VNone \/ exists z, v = VInt z /\ (0 <= z)%Z) /\
  (x = "time_penalty_component" -> v = VNone \/ (exists q, v = VFloat q) \/ v = VStr "original" \/ v = VStr "function_count" \/ v = VStr "interactive") /\
  (x = "n_parents" -> v = VInt 2) /\
  (x = "initial_population" -> v = VNone \/ exists p, v = VPop p) /\
  (x = "problem" -> v = VNone \/ exists p, v = VProblem p).

(** Where the population comes from. *)
Definition has_source (c : cls) pos kw : Prop :=
  match c with
  | RVEA | NSGAIII | MOEA_D =>
      (exists p, passed (params c) pos kw "problem" (VProblem p)) /\ arg c pos kw "initial_population" VNone \/
      passed (params c) pos kw "problem" VNone /\ exists p, passed (params c) pos kw "initial_population" (VPop p)
  | IBEA | PBEA =>
      (exists p, passed (params c) pos kw "initial_population" (VPop p)) \/
      (exists p, passed (params c) pos kw "problem" (VProblem p)) /\ exists n, passed (params c) pos kw "population_size" (VInt n)
  | PPGA | TournamentEA => exists p, passed (params c) pos kw "initial_population" (VPop p)
  | IOPIS_RVEA | IOPIS_NSGAIII => exists p, passed (params c) pos kw "problem" (VProblem p) /\ pr_bounds p = true
  | IK_RVEA => False
  end.

Lemma passed_once names req pos kw x v w : NoDup names -> NoDup (map fst kw) -> accepted names req pos kw -> passed names pos kw x v -> passed names pos kw x w -> v = w.
Proof.
  intros N K (_ & _ & A & _) [(k & H1 & H2)|H1] [(j & H3 & H4)|H3].
  - assert (k = j) by (apply (NoDup_nth names k j x); auto). subst j. congruence.
  - pose proof (A x w k H3 H1) as L. assert (k < List.length pos)%nat by (apply nth_error_Some; congruence). lia.
  - pose proof (A x v j H1 H3) as L. assert (j < List.length pos)%nat by (apply nth_error_Some; congruence). lia.
  - pose proof (lookup_unique x v kw K H1). pose proof (lookup_unique x w kw K H3). congruence.
Qed.

Lemma binding c pos kw : NoDup (map fst kw) -> accepted (params c) (required c) pos kw -> (forall x v, passed (params c) pos kw x v -> documented x v) ->
  exists e, bind_call (sig_of c) pos kw = Ok e /\
    (forall x d, In (x, Some d) (sig_of c) -> documented x d -> documented x (get e x)) /\ (forall x, In (x, None) (sig_of c) -> documented x (get e x)) /\
    (forall x v, passed (params c) pos kw x v -> get e x = v) /\
    (forall x d, In (x, Some d) (sig_of c) -> (forall v, ~ passed (params c) pos kw x v) -> get e x = d).
Proof.
  intros K A D. destruct (C87_call_binding (sig_of c) pos kw (sig_nodup c) K) as [B _]. rewrite sig_params, sig_required in B. destruct (B A) as (e & E & _ & G). exists e. split; [exact E|].
  assert (G' : forall x d, In (x, d) (sig_of c) -> match d with Some dv => given_or (params c) pos kw x dv (get e x) | None => passed (params c) pos kw x (get e x) end).
  { intros x d H. destruct (G x d H) as (v & L & P). unfold get. rewrite L. exact P. }
  assert (N : NoDup (params c)) by (rewrite <- sig_params; apply sig_nodup).
  repeat split.
  - pose proof (G' x (Some d) H) as X. cbn in X. destruct X as [X|[_ X]]; [apply D in X; apply X|rewrite X; apply H0].
  - pose proof (G' x (Some d) H) as X. cbn in X. destruct X as [X|[_ X]]; [apply D in X; apply X|rewrite X; apply H0].
  - pose proof (G' x (Some d) H) as X. cbn in X. destruct X as [X|[_ X]]; [apply D in X; apply X|rewrite X; apply H0].
  - pose proof (G' x (Some d) H) as X. cbn in X. destruct X as [X|[_ X]]; [apply D in X; apply X|rewrite X; apply H0].
  - pose proof (G' x (Some d) H) as X. cbn in X. destruct X as [X|[_ X]]; [apply D in X; apply X|rewrite X; apply H0].
  - pose proof (G' x (Some d) H) as X. cbn in X. destruct X as [X|[_ X]]; [apply D in X; apply X|rewrite X; apply H0].
  - pose proof (G' x (Some d) H) as X. cbn in X. destruct X as [X|[_ X]]; [apply D in X; apply X|rewrite X; apply H0].
  - pose proof (G' x (Some d) H) as X. cbn in X. destruct X as [X|[_ X]]; [apply D in X; apply X|rewrite X; apply H0].
  - apply (D x _ (G' x None H)).
  - apply (D x _ (G' x None H)).
  - apply (D x _ (G' x None H)).
  - apply (D x _ (G' x None H)).
  - apply (D x _ (G' x None H)).
  - apply (D x _ (G' x None H)).
  - apply (D x _ (G' x None H)).
  - apply (D x _ (G' x None H)).
  - intros x v P. assert (I0 : In x (params c)). { destruct P as [(k & P & _)|P]; [apply (nth_error_In _ _ P)|]. destruct A as (_ & A & _). apply (A x v P). }
    rewrite <- sig_params in I0. apply in_map_iff in I0. destruct I0 as ((y & d) & <- & I0). cbn [fst] in *. pose proof (G' y d I0) as X.
    destruct d as [d|]; [destruct X as [X|[X _]]; [|exfalso; apply (X v P)]|]; apply (passed_once (params c) (required c) pos kw y); auto.
  - intros x d H Hn. pose proof (G' x (Some d) H) as X. cbn in X. destruct X as [X|[_ X]]; [exfalso; apply (Hn _ X)|exact X].
Qed.

(** A default of the right kind. *)
Ltac dflt := unfold documented; repeat split; intros HH; try discriminate HH; try (destruct HH as [HH|[HH|HH]]; discriminate HH); eauto.

Lemma total_of ng ni : (exists z, ng = VInt z) -> (exists z, ni = VInt z) -> exists t, py_mul ng ni = Ok t.
Proof. intros (a & ->) (b & ->). exists (a * b)%Z. reflexivity. Qed.
Lemma penalty_ok it tot t : (exists z, tot = VInt z) -> (t = VNone \/ (exists q, t = VFloat q) \/ t = VStr "original" \/ t = VStr "function_count" \/ t = VStr "interactive") -> exists p, penalty it tot t = Ok p.
Proof.
  intros (z & ->) [->|[(q & ->)|[->|[->| ->]]]]; unfold penalty; cbn [bind as_int]; try (eexists; reflexivity).
  destruct it as [|[]| | | | | |]; cbn [bind]; try (destruct (0 <? z)%Z); eexists; reflexivity.
Qed.
Lemma resolution_ok m : exists r, default_resolution m = Ok r.
Proof.
  unfold default_resolution. destruct (Nat.ltb m 11) eqn:E; [|eauto]. apply Nat.ltb_lt in E. do 11 (destruct m as [|m]; [eexists; reflexivity|]). lia.
Qed.
Lemma size_ok p ps lr : (ps = VNone \/ exists z, ps = VInt z) -> (lr = VNone \/ exists z, lr = VInt z /\ (0 <= z)%Z) -> exists n, new_size p ps lr = Ok n.
Proof.
  intros [->|(z & ->)] H; unfold new_size; cbn [is_none]; [|eauto]. destruct H as [->|(z & -> & Hz)]; cbn [is_none].
  - destruct (resolution_ok (pr_nfit p)) as (r & ->). cbn [bind]. eauto.
  - destruct z as [|z|z]; cbn [bind]; eauto. lia.
Qed.
Lemma dec_total pb ip ps pp lr it ni ng us tfe ka sn : (exists z, ng = VInt z) -> (exists z, ni = VInt z) -> (ps = VNone \/ exists z, ps = VInt z) ->
  (lr = VNone \/ exists z, lr = VInt z /\ (0 <= z)%Z) ->
  ((exists p, pb = VProblem p) /\ ip = VNone \/ pb = VNone /\ (exists p, ip = VPop p)) -> exists i, dec_core pb ip ps pp lr it ni ng us tfe ka sn = Ok i.
Proof.
  intros H1 H2 H3 H4 H5. unfold dec_core, base_core. destruct (total_of ng ni H1 H2) as (t & ->). cbn [bind]. destruct H5 as [((p & ->) & ->)|(-> & (p & ->))]; cbn [is_none negb bind as_problem as_pop]; [|eauto].
  destruct (size_ok p ps lr H3 H4) as (n & ->). cbn [bind]. eauto.
Qed.
Lemma dec_refused pb ip ps pp lr it ni ng us tfe ka sn : (exists z, ng = VInt z) -> (exists z, ni = VInt z) -> 
  (pb <> VNone /\ ip <> VNone \/ pb = VNone /\ ip = VNone) -> dec_core pb ip ps pp lr it ni ng us tfe ka sn = Err EaError.
Proof.
  intros H1 H2 H5. unfold dec_core, base_core. destruct (total_of ng ni H1 H2) as (t & ->). cbn [bind]. destruct H5 as [(Hp & Hi)|(-> & ->)]; [|reflexivity].
  destruct ip; try congruence; destruct pb; try congruence; reflexivity.
Qed.

(** C87. A call Python accepts, with arguments of the documented types and a source for the population, constructs an object (IK-RVEA aside). *)
Theorem C87_documented_calls_succeed : forall c pos kw, NoDup (map fst kw) -> accepted (params c) (required c) pos kw ->
  (forall x v, passed (params c) pos kw x v -> documented x v) -> has_source c pos kw -> exists i, construct c pos kw = Ok i.
Proof.
  intros c pos kw K A D H. destruct (binding c pos kw K A D) as (e & E & D1 & D2 & P & P0).
  assert (V : forall x, x = "n_iterations" \/ x = "n_gen_per_iter" -> exists z, get e x = VInt z).
  { intros x Hx. assert (HD : documented x (get e x)).
    { assert (HS : exists d, In (x, Some (VInt d)) (sig_of c)) by (destruct Hx as [->| ->]; destruct c; cbn [sig_of]; eexists; cbn; repeat (first [left; reflexivity|right])).
      destruct HS as (d & HS). apply (D1 x _ HS). destruct Hx as [->| ->]; dflt. }
    apply HD. tauto. }
  pose proof (V "n_iterations" (or_introl eq_refl)) as Vi. pose proof (V "n_gen_per_iter" (or_intror eq_refl)) as Vg. clear V.
  assert (SZ : forall x, documented x (get e x) -> x = "population_size" -> get e x = VNone \/ exists z, get e x = VInt z) by (intros x Hd; apply Hd).
  destruct c; cbn [has_source sig_of] in *; try (destruct H; fail); cbn [construct].
  - unfold init_RVEA. rewrite E. cbn [bind]. rewrite RVEA_dec. unfold rvea_dec.
    match goal with |- context [dec_core ?pb ?ip ?ps ?pp ?lr ?it ?ni ?ng ?us ?tfe ?ka ?sn] => destruct (dec_total pb ip ps pp lr it ni ng us tfe ka sn) as (i & ->); auto end.
    + apply (D1 "population_size" VNone); [cbn; tauto|dflt|reflexivity].
    + apply (D1 "lattice_resolution" VNone); [cbn; tauto|dflt|reflexivity].
    + destruct H as [((p & Hp) & Hi)|(Hp & (p & Hi))]; [left|right]; rewrite (P _ _ Hp); [|rewrite (P _ _ Hi); eauto]. split; [eauto|]. destruct Hi as [Hi|[Hi _]]; [apply P; exact Hi|]. apply P0; [cbn; tauto|exact Hi].
    + cbn [bind]. destruct (penalty_ok (get e "interact") (get e "total_function_evaluations") (get e "time_penalty_component")) as (q & ->); [..|cbn [bind]; eauto].
      * apply (D1 "total_function_evaluations" (VInt 0)); [cbn; tauto|dflt|tauto].
      * apply (D1 "time_penalty_component" VNone); [cbn; tauto|dflt|reflexivity].
  - unfold init_NSGAIII. rewrite E. cbn [bind]. rewrite RVEA_dec. unfold rvea_dec.
    match goal with |- context [dec_core ?pb ?ip ?ps ?pp ?lr ?it ?ni ?ng ?us ?tfe ?ka ?sn] => destruct (dec_total pb ip ps pp lr it ni ng us tfe ka sn) as (i & ->); auto end.
    + apply (D1 "population_size" VNone); [cbn; tauto|dflt|reflexivity].
    + apply (D1 "lattice_resolution" VNone); [cbn; tauto|dflt|reflexivity].
    + destruct H as [((p & Hp) & Hi)|(Hp & (p & Hi))]; [left|right]; rewrite (P _ _ Hp); [|rewrite (P _ _ Hi); eauto]. split; [eauto|]. destruct Hi as [Hi|[Hi _]]; [apply P; exact Hi|]. apply P0; [cbn; tauto|exact Hi].
    + cbn [bind]. eauto.
  - unfold init_MOEA_D. rewrite E. cbn [bind]. rewrite MOEAD_dec. unfold rvea_dec.
    match goal with |- context [dec_core ?pb ?ip ?ps ?pp ?lr ?it ?ni ?ng ?us ?tfe ?ka ?sn] => destruct (dec_total pb ip ps pp lr it ni ng us tfe ka sn) as (i & ->); auto end.
    + apply (D1 "population_size" VNone); [cbn; tauto|dflt|reflexivity].
    + apply (D1 "lattice_resolution" VNone); [cbn; tauto|dflt|reflexivity].
    + destruct H as [((p & Hp) & Hi)|(Hp & (p & Hi))]; [left|right]; rewrite (P _ _ Hp); [|rewrite (P _ _ Hi); eauto]. split; [eauto|]. destruct Hi as [Hi|[Hi _]]; [apply P; exact Hi|]. apply P0; [cbn; tauto|exact Hi].
    + cbn [bind]. assert (X : get e "n_parents" = VInt 2) by (apply (D1 "n_parents" (VInt 2)); [cbn; tauto|dflt|reflexivity]). rewrite X. cbn. eauto.
  - unfold init_IBEA. rewrite E. cbn [bind]. rewrite ind_eq. unfold ind_of, ind_core, base_core. destruct (total_of _ _ Vg Vi) as (t & ->). cbn [bind].
    assert (X : documented "initial_population" (get e "initial_population")) by (apply (D1 _ VNone); [cbn; tauto|dflt]). destruct X as (_ & _ & _ & _ & _ & _ & X & _). destruct (X eq_refl) as [X'|(p & X')].
    + destruct H as [(p & Hp)|((p & Hp) & (n & Hn))]; [apply P in Hp; congruence|]. rewrite X', (P _ _ Hp), (P _ _ Hn). cbn. eauto.
    + rewrite X'. cbn. eauto.
  - unfold init_PBEA. rewrite E. cbn [bind]. rewrite ind_eq. unfold ind_of, ind_core, base_core. destruct (total_of _ _ Vg Vi) as (t & ->). cbn [bind].
    assert (X : documented "initial_population" (get e "initial_population")) by (apply D2; cbn; tauto). destruct X as (_ & _ & _ & _ & _ & _ & X & _). destruct (X eq_refl) as [X'|(p & X')].
    + destruct H as [(p & Hp)|((p & Hp) & (n & Hn))]; [apply P in Hp; congruence|]. rewrite X', (P _ _ Hp), (P _ _ Hn). cbn. eauto.
    + rewrite X'. cbn. eauto.
  - unfold init_PPGA. rewrite E. cbn [bind]. rewrite prey_base. unfold base_core. destruct (total_of _ _ Vg Vi) as (t & ->). cbn [bind]. destruct H as (p & Hp). rewrite (P _ _ Hp). cbn. eauto.
  - unfold init_TournamentEA. rewrite E. cbn [bind]. rewrite prey_base. unfold base_core. destruct (total_of _ _ Vg Vi) as (t & ->). cbn [bind]. destruct H as (p & Hp). rewrite (P _ _ Hp). cbn. eauto.
  - assert (Y : exists i, iopis_of e = Ok i).
    { unfold iopis_of, base_core. destruct H as (p & Hp & Hb). rewrite (P _ _ Hp). cbn [bind as_problem]. rewrite Hb. cbn [negb]. destruct (total_of _ _ Vg Vi) as (t & ->). cbn [bind].
      assert (X1 : documented "initial_population" (get e "initial_population")) by (apply (D1 _ VNone); [cbn; tauto|dflt]). destruct X1 as (_ & _ & _ & _ & _ & _ & X1 & _). specialize (X1 eq_refl).
      assert (X2 : documented "population_size" (get e "population_size")) by (apply (D1 _ VNone); [cbn; tauto|dflt]). destruct X2 as (_ & _ & X2 & _). specialize (X2 eq_refl).
      assert (X3 : documented "lattice_resolution" (get e "lattice_resolution")) by (apply (D1 _ VNone); [cbn; tauto|dflt]). destruct X3 as (_ & _ & _ & X3 & _). specialize (X3 eq_refl).
      destruct (resolution_ok 2) as (r2 & Hr). rewrite Hr.
      destruct X1 as [->|(q & ->)], X2 as [->|(z & ->)], X3 as [->|(w & -> & Hw)]; cbn [is_none negb bind as_pop]; try (destruct w as [|w|w]; [..|lia]); cbn [bind]; eauto. }
    destruct Y as (i & Y). unfold init_IOPIS_RVEA. rewrite E. cbn [bind]. rewrite iopis_eq, Y. cbn [bind].
    destruct (penalty_ok (i_interact i) (get e "total_function_evaluations") (get e "time_penalty_component")) as (q & ->); [..|cbn [bind]; eauto].
    + apply (D1 "total_function_evaluations" (VInt 0)); [cbn; tauto|dflt|tauto].
    + apply (D1 "time_penalty_component" VNone); [cbn; tauto|dflt|reflexivity].
  - assert (Y : exists i, iopis_of e = Ok i).
    { unfold iopis_of, base_core. destruct H as (p & Hp & Hb). rewrite (P _ _ Hp). cbn [bind as_problem]. rewrite Hb. cbn [negb]. destruct (total_of _ _ Vg Vi) as (t & ->). cbn [bind].
      assert (X1 : documented "initial_population" (get e "initial_population")) by (apply (D1 _ VNone); [cbn; tauto|dflt]). destruct X1 as (_ & _ & _ & _ & _ & _ & X1 & _). specialize (X1 eq_refl).
      assert (X2 : documented "population_size" (get e "population_size")) by (apply (D1 _ VNone); [cbn; tauto|dflt]). destruct X2 as (_ & _ & X2 & _). specialize (X2 eq_refl).
      assert (X3 : documented "lattice_resolution" (get e "lattice_resolution")) by (apply (D1 _ VNone); [cbn; tauto|dflt]). destruct X3 as (_ & _ & _ & X3 & _). specialize (X3 eq_refl).
      destruct (resolution_ok 2) as (r2 & Hr). rewrite Hr.
      destruct X1 as [->|(q & ->)], X2 as [->|(z & ->)], X3 as [->|(w & -> & Hw)]; cbn [is_none negb bind as_pop]; try (destruct w as [|w|w]; [..|lia]); cbn [bind]; eauto. }
    destruct Y as (i & Y). unfold init_IOPIS_NSGAIII. rewrite E. cbn [bind]. rewrite iopis_eq, Y. cbn [bind]. eauto.
Qed.

(** Both a problem and a population, or neither: refused. *)
Theorem C87_both_or_neither_refused : forall c pos kw, c = RVEA \/ c = NSGAIII \/ c = MOEA_D -> NoDup (map fst kw) -> accepted (params c) (required c) pos kw ->
  (forall x v, passed (params c) pos kw x v -> documented x v) ->
  (exists p q, passed (params c) pos kw "problem" (VProblem p) /\ passed (params c) pos kw "initial_population" (VPop q)) \/
  (arg c pos kw "problem" VNone /\ arg c pos kw "initial_population" VNone) -> construct c pos kw = Err EaError.
Proof.
  intros c pos kw Hc K A D H. destruct (binding c pos kw K A D) as (e & E & D1 & D2 & P & P0).
  assert (Vi : exists z, get e "n_iterations" = VInt z) by (apply (D1 "n_iterations" (VInt 10)); [destruct Hc as [->|[->| ->]]; cbn; tauto|dflt|tauto]).
  assert (Vg : exists z, get e "n_gen_per_iter" = VInt z) by (apply (D1 "n_gen_per_iter" (VInt 100)); [destruct Hc as [->|[->| ->]]; cbn; tauto|dflt|tauto]).
  assert (R0 : rvea_dec e = Err EaError).
  { unfold rvea_dec. apply dec_refused; auto. destruct H as [(p & q & Hp & Hq)|(Hp & Hq)].
    - left. rewrite (P _ _ Hp), (P _ _ Hq). split; discriminate.
    - right. split; [destruct Hp as [Hp|[Hp _]]; [apply P; exact Hp|] | destruct Hq as [Hq|[Hq _]]; [apply P; exact Hq|apply P0; [destruct Hc as [->|[->| ->]]; cbn; tauto|exact Hq]]].
      exfalso. destruct A as (_ & _ & _ & A). destruct (A "problem") as (v & Hv); [destruct Hc as [->|[->| ->]]; cbn; tauto|]. apply (Hp v Hv). }
  destruct Hc as [->|[->| ->]]; cbn [construct sig_of] in *.
  - unfold init_RVEA. rewrite E. cbn [bind]. rewrite RVEA_dec, R0. reflexivity.
  - unfold init_NSGAIII. rewrite E. cbn [bind]. rewrite RVEA_dec, R0. reflexivity.
  - unfold init_MOEA_D. rewrite E. cbn [bind]. rewrite MOEAD_dec, R0. reflexivity.
Qed.

Print Assumptions C87_documented_calls_succeed.
Print Assumptions C87_both_or_neither_refused.

(** Non-vacuity. *)
Example ex_documented : accepted (params NSGAIII) (required NSGAIII) [VProblem dtlz] [("n_survive", VInt 7); ("population_size", VInt 20)] /\
  (forall x v, passed (params NSGAIII) [VProblem dtlz] [("n_survive", VInt 7); ("population_size", VInt 20)] x v -> documented x v) /\
  has_source NSGAIII [VProblem dtlz] [("n_survive", VInt 7); ("population_size", VInt 20)].
Proof.
  assert (PS : forall x v, passed (params NSGAIII) [VProblem dtlz] [("n_survive", VInt 7); ("population_size", VInt 20)] x v ->
               (x = "problem" /\ v = VProblem dtlz) \/ (x = "n_survive" /\ v = VInt 7) \/ (x = "population_size" /\ v = VInt 20)).
  { intros x v [([|k] & H1 & H2)|[H|[H|[]]]].
    - cbn in H1, H2. injection H1 as <-. injection H2 as <-. auto.
    - destruct k; discriminate H2.
    - injection H as <- <-. auto.
    - injection H as <- <-. auto. }
  split; [|split].
  - split; [cbn; lia|]. split; [intros x v [H|[H|[]]]; injection H as <- <-; cbn; tauto|]. split.
    + intros x v k [H|[H|[]]]; injection H as <- <-; destruct k; cbn; try discriminate; lia.
    + intros x [<-|[]]. exists (VProblem dtlz). left. exists O. split; reflexivity.
  - intros x v H. destruct (PS x v H) as [(-> & ->)|[(-> & ->)|(-> & ->)]]; dflt.
  - left. split; [exists dtlz; left; exists O; split; reflexivity|]. right. split; [|reflexivity]. intros w H. destruct (PS _ _ H) as [(X & _)|[(X & _)|(X & _)]]; discriminate X.
Qed.
