(** Proofs about constructor calls. *)
From Coq Require Import String QArith.
From Verif Require Import Base M_BaseEA M_Ctor Spec_Ctor.
Open Scope string_scope.

Lemma lookup_In (x : string) (v : val) (e : list (string * val)) : lookup x e = Some v -> In (x, v) e.
Proof.
  induction e as [|[y w] t IH]; simpl; [discriminate|].
  destruct (String.eqb x y) eqn:E; intros H.
  - apply String.eqb_eq in E. subst y. injection H as ->. left; reflexivity.
  - right. apply IH. exact H.
Qed.

Lemma lookup_None (x : string) (e : list (string * val)) : lookup x e = None -> ~ In x (map fst e).
Proof.
  induction e as [|[y w] t IH]; simpl; intros H; [tauto|].
  destruct (String.eqb x y) eqn:E; [discriminate|].
  apply String.eqb_neq in E. intros [->|H1]; [congruence|]. exact (IH H H1).
Qed.

Lemma lookup_unique (x : string) (v : val) (e : list (string * val)) :
  NoDup (map fst e) -> In (x, v) e -> lookup x e = Some v.
Proof.
  induction e as [|[y w] t IH]; simpl; intros N H; [tauto|].
  inversion N as [|? ? N1 N2]; subst. destruct H as [H|H].
  - injection H as -> ->. rewrite String.eqb_refl. reflexivity.
  - destruct (String.eqb x y) eqn:E.
    + apply String.eqb_eq in E. subst y. exfalso. apply N1. apply in_map_iff. exists (x, v). split; auto.
    + apply IH; auto.
Qed.

Lemma has_param_In sg x : has_param sg x = true <-> In x (map fst sg).
Proof.
  unfold has_param. rewrite existsb_exists, in_map_iff. split.
  - intros [p [H1 H2]]. apply String.eqb_eq in H2. exists p. split; auto.
  - intros [p [H1 H2]]. exists p. split; auto. apply String.eqb_eq. exact H1.
Qed.

Lemma fill_spec sg kw :
  match fill sg kw with
  | Ok e => map fst e = map fst sg /\
            (NoDup (map fst sg) -> forall x d, In (x, d) sg ->
               match lookup x kw with Some v => lookup x e = Some v | None => exists v, d = Some v /\ lookup x e = Some v end)
  | Err er => er = TypeError /\ exists x, In (x, None) sg /\ lookup x kw = None
  end.
Proof.
  induction sg as [|[x d] t IH]; cbn [fill].
  - split; [reflexivity|]. intros _ x d [].
  - assert (G : forall v, (lookup x kw = Some v \/ (lookup x kw = None /\ d = Some v)) ->
      match bind (fill t kw) (fun e => Ok ((x, v) :: e)) with
      | Ok e => map fst e = map fst ((x, d) :: t) /\
            (NoDup (map fst ((x, d) :: t)) -> forall y dy, In (y, dy) ((x, d) :: t) ->
               match lookup y kw with Some v => lookup y e = Some v | None => exists v, dy = Some v /\ lookup y e = Some v end)
      | Err er => er = TypeError /\ exists y, In (y, None) ((x, d) :: t) /\ lookup y kw = None
      end).
    { intros v Hv. destruct (fill t kw) as [e|er]; cbn [bind].
      - destruct IH as [A B]. split; [cbn; rewrite A; reflexivity|].
        intros N y dy Hy. cbn [map fst] in N. inversion N as [|? ? N1 N2]; subst. specialize (B N2).
        cbn [lookup]. destruct Hy as [Hy|Hy].
        + injection Hy as <- <-. rewrite String.eqb_refl.
          destruct Hv as [-> | [-> ->]]; [reflexivity|]. exists v. split; reflexivity.
        + destruct (String.eqb y x) eqn:E.
          * apply String.eqb_eq in E. subst y. exfalso. apply N1. apply in_map_iff. exists (x, dy). split; auto.
          * apply B. exact Hy.
      - destruct IH as [A [y [B C]]]. split; [exact A|]. exists y. split; [right; exact B|exact C]. }
    destruct (lookup x kw) as [v|] eqn:E.
    + apply G. left; reflexivity.
    + destruct d as [v|].
      * apply G. right; split; reflexivity.
      * split; [reflexivity|]. exists x. split; [left; reflexivity|exact E].
Qed.

Lemma fill_pos_spec : forall pos sg kw,
  match fill_pos sg pos kw with
  | Ok e => (List.length pos <= List.length sg)%nat /\ map fst e = map fst sg /\
            (forall k x, (k < List.length pos)%nat -> nth_error (map fst sg) k = Some x -> lookup x kw = None) /\
            (NoDup (map fst sg) -> forall k x d, nth_error sg k = Some (x, d) ->
               match nth_error pos k with
               | Some v => lookup x e = Some v
               | None => match lookup x kw with
                         | Some v => lookup x e = Some v
                         | None => exists v, d = Some v /\ lookup x e = Some v
                         end
               end)
  | Err er => er = TypeError /\
            ((List.length sg < List.length pos)%nat \/
             (exists k x, (k < List.length pos)%nat /\ nth_error (map fst sg) k = Some x /\ lookup x kw <> None) \/
             (exists k x, nth_error sg k = Some (x, None) /\ nth_error pos k = None /\ lookup x kw = None))
  end.
Proof.
  induction pos as [|v pos IH]; intros sg kw.
  - cbn [fill_pos]. assert (E0 : fill_pos sg [] kw = fill sg kw) by (destruct sg; reflexivity).
    pose proof (fill_spec sg kw) as H. destruct sg as [|p sg']; cbn [fill_pos];
    [|set (sg := p :: sg') in *]; destruct (fill _ kw) as [e|er].
    + destruct H as [A B]. split; [cbn; lia|]. split; [exact A|]. split; [intros k x Hk; cbn in Hk; lia|].
      intros _ k x d Hk. destruct k; discriminate.
    + destruct H as [A [x [B C]]]. destruct B.
    + destruct H as [A B]. split; [cbn; lia|]. split; [exact A|]. split; [intros k x Hk; cbn in Hk; lia|].
      intros N k x d Hk. replace (nth_error (@nil val) k) with (@None val) by (destruct k; reflexivity).
      apply (B N x d). apply (nth_error_In _ _ Hk).
    + destruct H as [A [x [B C]]]. split; [exact A|]. right. right.
      apply In_nth_error in B. destruct B as [k B]. exists k, x. split; [exact B|]. split; [destruct k; reflexivity|exact C].
  - destruct sg as [|[x d] sg]; cbn [fill_pos].
    + split; [reflexivity|]. left. cbn. lia.
    + destruct (lookup x kw) as [w|] eqn:E.
      * split; [reflexivity|]. right. left. exists 0%nat, x. split; [cbn; lia|]. split; [reflexivity|]. congruence.
      * specialize (IH sg kw). destruct (fill_pos sg pos kw) as [e|er]; cbn [bind].
        { destruct IH as (A & B & C & D). split; [cbn; lia|]. split; [cbn; rewrite B; reflexivity|]. split.
          - intros [|k] y Hk Hy; cbn in Hk, Hy; [injection Hy as <-; exact E|]. apply (C k y); [lia|exact Hy].
          - intros N k y dy Hk. cbn [map fst] in N. inversion N as [|? ? N1 N2]; subst. specialize (D N2).
            destruct k as [|k]; cbn [nth_error] in *.
            + injection Hk as <- <-. cbn [lookup]. rewrite String.eqb_refl. reflexivity.
            + cbn [lookup]. destruct (String.eqb y x) eqn:E1.
              * apply String.eqb_eq in E1. subst y. exfalso. apply N1. apply in_map_iff.
                exists (x, dy). split; [reflexivity|apply (nth_error_In _ _ Hk)].
              * apply (D k y dy Hk). }
        { destruct IH as [A IH]. split; [exact A|]. destruct IH as [B|[(k & y & B1 & B2 & B3)|(k & y & B1 & B2 & B3)]].
          - left. cbn. lia.
          - right. left. exists (S k), y. split; [cbn; lia|]. split; assumption.
          - right. right. exists (S k), y. split; [exact B1|]. split; assumption. }
Qed.

Lemma nth_error_map_fst (sg : list (string * option val)) k x :
  nth_error (map fst sg) k = Some x -> exists d, nth_error sg k = Some (x, d).
Proof.
  revert k; induction sg as [|[y d] t IH]; intros [|k]; cbn; try discriminate.
  - intros H; injection H as ->. exists d; reflexivity.
  - apply IH.
Qed.
Lemma nth_error_map_fst' (sg : list (string * option val)) k x d :
  nth_error sg k = Some (x, d) -> nth_error (map fst sg) k = Some x.
Proof.
  revert k; induction sg as [|[y e] t IH]; intros [|k]; cbn; try discriminate.
  - intros H; injection H as -> ->. reflexivity.
  - apply IH.
Qed.

Lemma NoDup_nth (l : list string) k j x : NoDup l -> nth_error l k = Some x -> nth_error l j = Some x -> k = j.
Proof.
  intros N Hk Hj. apply (proj1 (NoDup_nth_error l) N).
  - apply nth_error_Some. congruence.
  - congruence.
Qed.

Definition required_of (sg : list (string * option val)) : list string :=
  map fst (filter (fun p => match snd p with None => true | Some _ => false end) sg).
Lemma required_In sg x : In x (required_of sg) <-> In (x, None) sg.
Proof.
  unfold required_of. rewrite in_map_iff. split.
  - intros [[y [d|]] [H1 H2]]; apply filter_In in H2; destruct H2 as [H2 H3]; cbn in *; [discriminate|]. subst y. exact H2.
  - intros H. exists (x, None). split; [reflexivity|]. apply filter_In. split; [exact H|reflexivity].
Qed.

(** Binding succeeds exactly on accepted calls, and then every parameter has the value passed or its default. *)
Lemma bind_call_spec sg pos kw : NoDup (map fst sg) -> NoDup (map fst kw) ->
  match bind_call sg pos kw with
  | Ok e => accepted (map fst sg) (required_of sg) pos kw /\ map fst e = map fst sg /\
            (forall x d, In (x, d) sg -> exists v, lookup x e = Some v /\
               (passed (map fst sg) pos kw x v \/ ((forall w, ~ passed (map fst sg) pos kw x w) /\ d = Some v)))
  | Err er => er = TypeError /\ ~ accepted (map fst sg) (required_of sg) pos kw
  end.
Proof.
  intros N K. unfold bind_call.
  destruct (forallb (fun p => has_param sg (fst p)) kw) eqn:F.
  - rewrite forallb_forall in F. pose proof (fill_pos_spec pos sg kw) as H.
    destruct (fill_pos sg pos kw) as [e|er].
    + destruct H as (A & B & C & D). specialize (D N).
      assert (P : forall x d k, nth_error sg k = Some (x, d) -> exists v, lookup x e = Some v /\
               (passed (map fst sg) pos kw x v \/ ((forall w, ~ passed (map fst sg) pos kw x w) /\ d = Some v))).
      { intros x d k Hk. pose proof (nth_error_map_fst' sg k x d Hk) as Hn. specialize (D k x d Hk).
        destruct (nth_error pos k) as [v|] eqn:Ep.
        - exists v. split; [exact D|]. left. left. exists k. split; assumption.
        - destruct (lookup x kw) as [v|] eqn:El.
          + exists v. split; [exact D|]. left. right. apply lookup_In. exact El.
          + destruct D as (v & -> & D). exists v. split; [exact D|]. right. split; [|reflexivity].
            intros w [[j [H1 H2]]|H1].
            * rewrite (NoDup_nth _ j k x N H1 Hn) in H2. congruence.
            * apply (lookup_None _ _ El). apply in_map_iff. exists (x, w). split; auto. }
      split; [|split; [exact B|]].
      * split; [rewrite map_length; exact A|]. split; [|split].
        { intros x v Hx. apply has_param_In. apply (F (x, v) Hx). }
        { intros x v k Hx Hk. destruct (Nat.le_gt_cases (List.length pos) k) as [L|L]; [exact L|].
          exfalso. apply (lookup_None _ _ (C k x L Hk)). apply in_map_iff. exists (x, v). split; auto. }
        { intros x Hx. apply required_In in Hx. apply In_nth_error in Hx. destruct Hx as [k Hk].
          destruct (P x None k Hk) as (v & _ & [Hv|[_ Hv]]); [exists v; exact Hv|discriminate]. }
      * intros x d Hx. apply In_nth_error in Hx. destruct Hx as [k Hk]. apply (P x d k Hk).
    + destruct H as [-> H]. split; [reflexivity|]. intros (A & B & C & D). rewrite map_length in A.
      destruct H as [H|[(k & x & H1 & H2 & H3)|(k & x & H1 & H2 & H3)]].
      * lia.
      * destruct (lookup x kw) as [v|] eqn:El; [|congruence].
        pose proof (C x v k (lookup_In _ _ _ El) H2). lia.
      * destruct (D x (proj2 (required_In sg x) (nth_error_In _ _ H1))) as [v [[j [P1 P2]]|P1]].
        { rewrite (NoDup_nth _ j k x N P1 (nth_error_map_fst' sg k x None H1)) in P2. congruence. }
        { apply (lookup_None _ _ H3). apply in_map_iff. exists (x, v). split; auto. }
  - split; [reflexivity|]. intros (A & B & C & D).
    assert (forallb (fun p => has_param sg (fst p)) kw = true) as F'; [|congruence].
    apply forallb_forall. intros [x v] Hx. apply has_param_In. apply (B x v Hx).
Qed.

Lemma bind_call_get sg pos kw e x d v : NoDup (map fst sg) -> NoDup (map fst kw) ->
  bind_call sg pos kw = Ok e -> In (x, d) sg -> get e x = v ->
  match d with Some dv => given_or (map fst sg) pos kw x dv v | None => passed (map fst sg) pos kw x v end.
Proof.
  intros N K E Hx Hv. pose proof (bind_call_spec sg pos kw N K) as H. rewrite E in H.
  destruct H as (_ & _ & H). destruct (H x d Hx) as (w & H1 & H2).
  unfold get in Hv. rewrite H1 in Hv. subst w.
  destruct d as [dv|].
  - destruct H2 as [H2|[H2 H3]]; [left; exact H2|right]. split; [exact H2|]. congruence.
  - destruct H2 as [H2|[_ H3]]; [exact H2|discriminate].
Qed.

(** Distinct names, decided. *)
Fixpoint nodupb (l : list string) : bool :=
  match l with [] => true | x :: t => negb (existsb (String.eqb x) t) && nodupb t end.
Lemma nodupb_ok l : nodupb l = true -> NoDup l.
Proof.
  induction l as [|x t IH]; simpl; intros H; constructor; apply andb_prop in H; destruct H as [H1 H2].
  - intros Hx. apply negb_true_iff in H1. assert (existsb (String.eqb x) t = true); [|congruence].
    apply existsb_exists. exists x. split; [exact Hx|apply String.eqb_refl].
  - apply IH. exact H2.
Qed.
Lemma sig_nodup c : NoDup (map fst (sig_of c)).
Proof. apply nodupb_ok. destruct c; vm_compute; reflexivity. Qed.
Lemma sig_params c : map fst (sig_of c) = params c.
Proof. destruct c; reflexivity. Qed.

Lemma sig_required c : required_of (sig_of c) = required c.
Proof. destruct c; reflexivity. Qed.

(** ** The base class constructors as functions of their arguments *)
Definition base_core (ap it ni ng tfe so us ka sn : val) : res inst :=
  bind (py_mul ng ni) (fun tot => Ok (mkInst ap it ni ng tot tfe so us ka sn 0 Nowhere false None [])).
Definition dec_core (pb ip ps pp lr it ni ng us tfe ka sn : val) : res inst :=
  bind (base_core (VBool false) it ni ng tfe VNone us ka sn) (fun i0 =>
  let i := locate i0 pb in
  if negb (is_none ip) then
    if negb (is_none pb) then Err EaError else bind (as_pop ip) (fun p => Ok (with_pop i (Given p) 0))
  else if is_none pb then Err EaError
  else bind (as_problem pb) (fun p => bind (new_size p ps lr) (fun n => Ok (with_pop i (Created p n pp us) n)))).
Definition ind_core (pb ps pp ap it ni ip ng tfe us : val) : res inst :=
  bind (base_core ap it ni ng tfe VNone us (VBool false) (VBool false)) (fun i =>
  if negb (is_none ip) then bind (as_pop ip) (fun p => Ok (with_pop i (Given p) 0))
  else bind (as_problem pb) (fun p =>
       match ps with VInt n => Ok (with_pop i (Created p n pp us) n) | _ => Err Unmodelled end)).

Definition rvea_dec (e : list (string * val)) : res inst :=
  dec_core (get e "problem") (get e "initial_population") (get e "population_size") (get e "population_params")
    (get e "lattice_resolution") (get e "interact") (get e "n_iterations") (get e "n_gen_per_iter")
    (get e "use_surrogates") (get e "total_function_evaluations") (get e "keep_archive") (get e "save_non_dominated").
Definition ind_of (e : list (string * val)) : res inst :=
  ind_core (get e "problem") (get e "population_size") (get e "population_params") (get e "a_priori") (get e "interact")
    (get e "n_iterations") (get e "initial_population") (get e "n_gen_per_iter") (get e "total_function_evaluations")
    (get e "use_surrogates").
Definition iopis_of (e : list (string * val)) : res inst :=
  bind (as_problem (get e "problem")) (fun p =>
  if negb (pr_bounds p) then Err EaError else
  bind (base_core (VBool true) (VBool true) (get e "n_iterations") (get e "n_gen_per_iter")
          (get e "total_function_evaluations") VNone (get e "use_surrogates") (VBool false) (VBool false)) (fun i =>
  bind (if is_none (get e "lattice_resolution") then default_resolution 2
        else match get e "lattice_resolution" with VInt (Z.pos r) => Ok (Pos.to_nat r) | VInt 0 => Ok O | _ => Err Unmodelled end) (fun r =>
  if negb (is_none (get e "initial_population")) then
    bind (as_pop (get e "initial_population")) (fun q => Ok (with_pop i (Given q) 0))
  else
    bind (if is_none (get e "population_size") then Ok (Z.of_nat (r + 1))
          else match get e "population_size" with VInt z => Ok z | _ => Err Unmodelled end) (fun n =>
    Ok (with_pop i (Created p n (get e "population_params") (get e "use_surrogates")) n))))).

Lemma RVEA_dec e : init_Decomposition (forward e ["problem"; "population_size"; "population_params"; "initial_population";
          "lattice_resolution"; "interact"; "use_surrogates"; "n_iterations"; "n_gen_per_iter";
          "total_function_evaluations"; "keep_archive"; "save_non_dominated"]) = rvea_dec e.
Proof. reflexivity. Qed.
Lemma MOEAD_dec e : init_Decomposition (forward e ["problem"; "population_params"; "population_size"; "keep_archive";
          "initial_population"; "lattice_resolution"; "interact"; "use_surrogates"; "n_iterations";
          "n_gen_per_iter"; "total_function_evaluations"; "save_non_dominated"]) = rvea_dec e.
Proof. reflexivity. Qed.
Lemma ind_eq e : init_Indicator (forward e indicator_args) = ind_of e.
Proof. reflexivity. Qed.
Lemma iopis_eq e : init_IOPIS_base (forward e iopis_args) = iopis_of e.
Proof. reflexivity. Qed.
Lemma prey_base e : init_BaseEA (forward e ["n_gen_per_iter"; "n_iterations"]) =
  base_core (VBool false) (VBool false) (get e "n_iterations") (get e "n_gen_per_iter") (VInt 0) VNone (VBool false) (VBool false) (VBool false).
Proof. reflexivity. Qed.

(** ** What each constructor stores, in terms of the bound arguments *)
(** The settings an object holds. *)
Definition settings (i : inst) : list val :=
  [i_a_priori i; i_interact i; i_n_iterations i; i_n_gen_per_iter i; i_total_fe i; i_surrogates i; i_archive i; i_save_nd i].

Ltac inv_bind H :=
  match type of H with
  | bind ?r _ = Ok _ => let E := fresh "E" in destruct r eqn:E; cbn [bind] in H; [|discriminate H]
  end.

Lemma base_core_ok ap it ni ng tfe so us ka sn i : base_core ap it ni ng tfe so us ka sn = Ok i ->
  settings i = [ap; it; ni; ng; tfe; us; ka; sn] /\ py_mul ng ni = Ok (i_total_gen i) /\ i_fec i = 0%Z /\
  i_pop i = None /\ i_own i = [] /\ i_loc i = Nowhere /\ i_type_set i = false.
Proof.
  unfold base_core. intros H. inv_bind H. injection H as <-. cbn. repeat (split; [reflexivity|]). reflexivity.
Qed.

Lemma locate_keeps i pb : settings (locate i pb) = settings i /\ i_total_gen (locate i pb) = i_total_gen i /\
  i_fec (locate i pb) = i_fec i /\ i_pop (locate i pb) = i_pop i /\ i_own (locate i pb) = i_own i.
Proof.
  unfold locate. destruct (truthy (i_interact i)); [|repeat (split; [reflexivity|]); reflexivity].
  destruct pb as [| | | | |p| |]; try (repeat (split; [reflexivity|]); reflexivity).
  destruct (pr_kind p); repeat (split; [reflexivity|]); reflexivity.
Qed.

(** The population of a new decomposition based object. *)
Definition dec_pop (pb ip ps lr pp us : val) (src : popsrc) (n : Z) : Prop :=
  match src with
  | Given p => ip = VPop p /\ pb = VNone /\ n = 0%Z
  | Created p m params surr => ip = VNone /\ pb = VProblem p /\ m = n /\ params = pp /\ surr = us /\ new_size p ps lr = Ok n
  end.

Lemma dec_core_ok pb ip ps pp lr it ni ng us tfe ka sn i : dec_core pb ip ps pp lr it ni ng us tfe ka sn = Ok i ->
  settings i = [VBool false; it; ni; ng; tfe; us; ka; sn] /\ py_mul ng ni = Ok (i_total_gen i) /\
  (exists src, i_pop i = Some src /\ dec_pop pb ip ps lr pp us src (i_fec i)) /\ i_own i = [].
Proof.
  unfold dec_core. intros H. inv_bind H. destruct (base_core_ok _ _ _ _ _ _ _ _ _ _ E) as (A & B & C & D & F & G & _).
  destruct (locate_keeps a pb) as (L1 & L2 & L3 & L4 & L5). cbv zeta in H.
  destruct (is_none ip) eqn:Hip; cbn [negb] in H.
  - destruct (is_none pb) eqn:Hpb; [discriminate|]. inv_bind H. inv_bind H. injection H as <-.
    split; [change (settings (locate a pb) = [VBool false; it; ni; ng; tfe; us; ka; sn]); rewrite L1; exact A|].
    split; [cbn; rewrite L2; exact B|]. split; [|cbn; rewrite L5; exact F].
    exists (Created a0 a1 pp us). split; [reflexivity|]. cbn [dec_pop i_fec with_pop]. rewrite L3, C.
    destruct ip; try discriminate. destruct pb as [| | | | |p| |]; try discriminate. injection E0 as ->.
    repeat (split; [reflexivity|]). exact E1.
  - destruct (is_none pb) eqn:Hpb; cbn [negb] in H; [|discriminate]. inv_bind H. injection H as <-.
    split; [change (settings (locate a pb) = [VBool false; it; ni; ng; tfe; us; ka; sn]); rewrite L1; exact A|].
    split; [cbn; rewrite L2; exact B|]. split; [|cbn; rewrite L5; exact F].
    exists (Given a0). split; [reflexivity|]. cbn [dec_pop i_fec with_pop]. rewrite L3, C.
    destruct ip as [| | | | | |p|]; try discriminate. injection E0 as ->. destruct pb; try discriminate.
    repeat (split; [reflexivity|]). reflexivity.
Qed.

Definition ind_pop (pb ip ps pp us : val) (src : popsrc) (n : Z) : Prop :=
  match src with
  | Given p => ip = VPop p /\ n = 0%Z
  | Created p m params surr => ip = VNone /\ pb = VProblem p /\ m = n /\ params = pp /\ surr = us /\ ps = VInt n
  end.
Lemma ind_core_ok pb ps pp ap it ni ip ng tfe us i : ind_core pb ps pp ap it ni ip ng tfe us = Ok i ->
  settings i = [ap; it; ni; ng; tfe; us; VBool false; VBool false] /\ py_mul ng ni = Ok (i_total_gen i) /\
  (exists src, i_pop i = Some src /\ ind_pop pb ip ps pp us src (i_fec i)) /\ i_own i = [].
Proof.
  unfold ind_core. intros H. inv_bind H. destruct (base_core_ok _ _ _ _ _ _ _ _ _ _ E) as (A & B & C & D & F & _ & _).
  destruct (is_none ip) eqn:Hip; cbn [negb] in H.
  - inv_bind H. destruct ps as [| |n| | | | |]; try discriminate. injection H as <-.
    split; [exact A|]. split; [exact B|]. split; [|exact F].
    exists (Created a0 n pp us). split; [reflexivity|]. cbn [ind_pop i_fec with_pop]. rewrite C.
    destruct ip; try discriminate. destruct pb as [| | | | |p| |]; try discriminate. injection E0 as ->.
    repeat (split; [reflexivity|]). reflexivity.
  - inv_bind H. injection H as <-. split; [exact A|]. split; [exact B|]. split; [|exact F].
    exists (Given a0). split; [reflexivity|]. cbn [ind_pop i_fec with_pop]. rewrite C.
    destruct ip as [| | | | | |p|]; try discriminate. injection E0 as ->. split; reflexivity.
Qed.

Lemma iopis_ok e i : iopis_of e = Ok i ->
  settings i = [VBool true; VBool true; get e "n_iterations"; get e "n_gen_per_iter"; get e "total_function_evaluations";
                get e "use_surrogates"; VBool false; VBool false] /\
  py_mul (get e "n_gen_per_iter") (get e "n_iterations") = Ok (i_total_gen i) /\
  (exists p, get e "problem" = VProblem p /\ pr_bounds p = true) /\
  (exists src, i_pop i = Some src /\
     match src with
     | Given q => get e "initial_population" = VPop q /\ i_fec i = 0%Z
     | Created p m params surr => get e "initial_population" = VNone /\ get e "problem" = VProblem p /\ m = i_fec i /\
         params = get e "population_params" /\ surr = get e "use_surrogates" /\
         (get e "population_size" = VNone -> get e "lattice_resolution" = VNone -> m = 50%Z) /\
         (forall r, get e "population_size" = VNone -> get e "lattice_resolution" = VInt r -> (0 <= r)%Z -> m = (r + 1)%Z) /\
         (get e "population_size" <> VNone -> get e "population_size" = VInt m)
     end) /\ i_own i = [].
Proof.
  unfold iopis_of. intros H. inv_bind H. destruct (pr_bounds a) eqn:Hb; cbn [negb] in H; [|discriminate].
  inv_bind H. destruct (base_core_ok _ _ _ _ _ _ _ _ _ _ E0) as (A & B & C & D & F & _ & _).
  inv_bind H.
  assert (Hp : get e "problem" = VProblem a). { destruct (get e "problem"); try discriminate. injection E as ->. reflexivity. }
  destruct (is_none (get e "initial_population")) eqn:Hip; cbn [negb] in H.
  - inv_bind H. injection H as <-. split; [exact A|]. split; [exact B|]. split; [exists a; split; assumption|].
    split; [|exact F]. exists (Created a a2 (get e "population_params") (get e "use_surrogates")). split; [reflexivity|].
    cbn [i_fec with_pop]. rewrite C.
    split; [destruct (get e "initial_population"); try discriminate; reflexivity|]. split; [exact Hp|].
    split; [reflexivity|]. split; [reflexivity|]. split; [reflexivity|].
    destruct (get e "population_size") as [| |z| | | | |]; cbn [is_none] in E2; try discriminate; injection E2 as <-.
    + split; [|split].
      * intros _ HL. rewrite HL in E1. cbn in E1. injection E1 as <-. reflexivity.
      * intros r _ HL Hr. rewrite HL in E1. cbn [is_none] in E1. destruct r as [|r|r]; [| |lia]; injection E1 as <-; lia.
      * intros X. destruct X. reflexivity.
    + split; [discriminate|]. split; [discriminate|]. reflexivity.
  - inv_bind H. injection H as <-. split; [exact A|]. split; [exact B|]. split; [exists a; split; assumption|].
    split; [|exact F]. exists (Given a2). split; [reflexivity|]. cbn [i_fec with_pop]. rewrite C.
    destruct (get e "initial_population") as [| | | | | |p|]; try discriminate. injection E2 as ->. split; reflexivity.
Qed.

(** ** All classes at once *)
Definition expected (c : cls) (e : list (string * val)) : list val :=
  match c with
  | RVEA | NSGAIII | MOEA_D | IK_RVEA =>
      [VBool false; get e "interact"; get e "n_iterations"; get e "n_gen_per_iter"; get e "total_function_evaluations";
       get e "use_surrogates"; get e "keep_archive"; get e "save_non_dominated"]
  | IBEA | PBEA =>
      [get e "a_priori"; get e "interact"; get e "n_iterations"; get e "n_gen_per_iter"; get e "total_function_evaluations";
       get e "use_surrogates"; VBool false; VBool false]
  | PPGA | TournamentEA =>
      [VBool false; VBool false; get e "n_iterations"; get e "n_gen_per_iter"; VInt 0; VBool false; VBool false; VBool false]
  | IOPIS_RVEA | IOPIS_NSGAIII =>
      [VBool true; VBool true; get e "n_iterations"; get e "n_gen_per_iter"; get e "total_function_evaluations";
       get e "use_surrogates"; VBool false; VBool false]
  end.

Lemma construct_IK_RVEA pos kw : construct IK_RVEA pos kw = Err TypeError.
Proof.
  cbn [construct]. unfold init_IK_RVEA.
  pose proof (fill_pos_spec pos sig_IK_RVEA kw) as H. unfold bind_call at 1.
  destruct (forallb _ kw); [|reflexivity].
  destruct (fill_pos sig_IK_RVEA pos kw) as [e|er]; cbn [bind]; [reflexivity|].
  destruct H as [-> _]. reflexivity.
Qed.

(** What a constructed object's population is, in terms of the bound arguments. *)
Definition pop_spec (c : cls) (e : list (string * val)) (i : inst) : Prop :=
  exists src, i_pop i = Some src /\
  match c with
  | RVEA | NSGAIII | MOEA_D | IK_RVEA =>
      dec_pop (get e "problem") (get e "initial_population") (get e "population_size") (get e "lattice_resolution")
        (get e "population_params") (get e "use_surrogates") src (i_fec i)
  | IBEA | PBEA =>
      ind_pop (get e "problem") (get e "initial_population") (get e "population_size") (get e "population_params")
        (get e "use_surrogates") src (i_fec i)
  | PPGA | TournamentEA => exists p, src = Given p /\ get e "initial_population" = VPop p /\ i_fec i = 0%Z
  | IOPIS_RVEA | IOPIS_NSGAIII =>
     match src with
     | Given q => get e "initial_population" = VPop q /\ i_fec i = 0%Z
     | Created p m params surr => get e "initial_population" = VNone /\ get e "problem" = VProblem p /\ m = i_fec i /\
         params = get e "population_params" /\ surr = get e "use_surrogates" /\
         (get e "population_size" = VNone -> get e "lattice_resolution" = VNone -> m = 50%Z) /\
         (forall r, get e "population_size" = VNone -> get e "lattice_resolution" = VInt r -> (0 <= r)%Z -> m = (r + 1)%Z) /\
         (get e "population_size" <> VNone -> get e "population_size" = VInt m)
     end
  end.

Lemma construct_inv c pos kw i : construct c pos kw = Ok i ->
  exists e, bind_call (sig_of c) pos kw = Ok e /\ settings i = expected c e /\
    py_mul (i_n_gen_per_iter i) (i_n_iterations i) = Ok (i_total_gen i) /\ pop_spec c e i /\
    (forall x attr d, In (x, attr, d) (own_options c) -> lookup attr (i_own i) = Some (get e x)) /\
    (c = MOEA_D -> is_two (get e "n_parents") = true) /\
    (c = IOPIS_RVEA -> lookup "operator_alpha" (i_own i) = Some (VInt 2)) /\
    (c = RVEA -> lookup "operator_alpha" (i_own i) = Some (if is_none (get e "alpha") then VInt 2 else get e "alpha")).
Proof.
  intros H. destruct c; try (rewrite construct_IK_RVEA in H; discriminate H); cbn [construct sig_of] in *.
  - unfold init_RVEA in H. inv_bind H. exists a. rewrite RVEA_dec in H. inv_bind H. inv_bind H. injection H as <-.
    destruct (dec_core_ok _ _ _ _ _ _ _ _ _ _ _ _ _ E0) as (A & B & (src & C1 & C2) & D).
    split; [reflexivity|]. split; [exact A|]. split.
    { assert (X := A). injection X as _ _ X1 X2 _ _ _ _. cbn. rewrite X1, X2. exact B. }
    split; [exists src; split; [exact C1|exact C2]|]. cbn [with_selop with_own i_own]. rewrite D.
    split; [|split; [discriminate|split; [discriminate|reflexivity]]].
    intros x attr d [Hx|[Hx|[]]]; injection Hx as <- <- <-; reflexivity.
  - unfold init_NSGAIII in H. inv_bind H. exists a. rewrite RVEA_dec in H. inv_bind H. injection H as <-.
    destruct (dec_core_ok _ _ _ _ _ _ _ _ _ _ _ _ _ E0) as (A & B & (src & C1 & C2) & D).
    split; [reflexivity|]. split; [exact A|]. split.
    { assert (X := A). injection X as _ _ X1 X2 _ _ _ _. cbn. rewrite X1, X2. exact B. }
    split; [exists src; split; [exact C1|exact C2]|]. cbn [with_selop with_own i_own]. rewrite D.
    split; [|split; [discriminate|split; discriminate]].
    intros x attr d [Hx|[Hx|[]]]; injection Hx as <- <- <-; reflexivity.
  - unfold init_MOEA_D in H. inv_bind H. exists a. rewrite MOEAD_dec in H. inv_bind H.
    destruct (is_two (get a "n_parents")) eqn:T; [|discriminate H]. injection H as <-.
    destruct (dec_core_ok _ _ _ _ _ _ _ _ _ _ _ _ _ E0) as (A & B & (src & C1 & C2) & D).
    split; [reflexivity|]. split; [exact A|]. split.
    { assert (X := A). injection X as _ _ X1 X2 _ _ _ _. cbn. rewrite X1, X2. exact B. }
    split; [exists src; split; [exact C1|exact C2]|]. cbn [with_selop with_own i_own]. rewrite D.
    split; [|split; [reflexivity|split; discriminate]].
    intros x attr d [Hx|[Hx|[Hx|[Hx|[]]]]]; injection Hx as <- <- <-; reflexivity.
  - unfold init_IBEA in H. inv_bind H. exists a. rewrite ind_eq in H. inv_bind H. injection H as <-.
    destruct (ind_core_ok _ _ _ _ _ _ _ _ _ _ _ E0) as (A & B & (src & C1 & C2) & D).
    split; [reflexivity|]. split; [exact A|]. split.
    { assert (X := A). injection X as _ _ X1 X2 _ _ _ _. cbn. rewrite X1, X2. exact B. }
    split; [exists src; split; [exact C1|exact C2]|]. cbn [with_selop with_own i_own]. rewrite D.
    split; [|split; [discriminate|split; discriminate]].
    intros x attr d [Hx|[Hx|[]]]; injection Hx as <- <- <-; reflexivity.
  - unfold init_PBEA in H. inv_bind H. exists a. rewrite ind_eq in H. inv_bind H. injection H as <-.
    destruct (ind_core_ok _ _ _ _ _ _ _ _ _ _ _ E0) as (A & B & (src & C1 & C2) & D).
    split; [reflexivity|]. split; [exact A|]. split.
    { assert (X := A). injection X as _ _ X1 X2 _ _ _ _. cbn. rewrite X1, X2. exact B. }
    split; [exists src; split; [exact C1|exact C2]|]. cbn [with_selop with_own i_own]. rewrite D.
    split; [|split; [discriminate|split; discriminate]].
    intros x attr d [Hx|[Hx|[Hx|[Hx|[]]]]]; injection Hx as <- <- <-; reflexivity.
  - unfold init_PPGA in H. inv_bind H. exists a. rewrite prey_base in H. inv_bind H.
    destruct (is_none (get a "initial_population")) eqn:Hn; [discriminate H|]. inv_bind H. injection H as <-.
    destruct (base_core_ok _ _ _ _ _ _ _ _ _ _ E0) as (A & B & C & D & F & _ & _).
    split; [reflexivity|]. split; [exact A|]. split.
    { assert (X := A). injection X as _ _ X1 X2 _ _ _ _. cbn. rewrite X1, X2. exact B. }
    split.
    { exists (Given a1). split; [reflexivity|]. exists a1. split; [reflexivity|]. split; [|cbn; rewrite C; reflexivity].
      destruct (get a "initial_population") as [| | | | | |p|]; try discriminate. injection E1 as ->. reflexivity. }
    cbn [with_selop with_own with_pop i_own]. rewrite F. split; [|split; [discriminate|split; discriminate]].
    intros x attr d [Hx|[Hx|[Hx|[Hx|[Hx|[Hx|[Hx|[Hx|[]]]]]]]]]; injection Hx as <- <- <-; reflexivity.
  - unfold init_TournamentEA in H. inv_bind H. exists a. rewrite prey_base in H. inv_bind H.
    destruct (is_none (get a "initial_population")) eqn:Hn; [discriminate H|]. inv_bind H. injection H as <-.
    destruct (base_core_ok _ _ _ _ _ _ _ _ _ _ E0) as (A & B & C & D & F & _ & _).
    split; [reflexivity|]. split; [exact A|]. split.
    { assert (X := A). injection X as _ _ X1 X2 _ _ _ _. cbn. rewrite X1, X2. exact B. }
    split.
    { exists (Given a1). split; [reflexivity|]. exists a1. split; [reflexivity|]. split; [|cbn; rewrite C; reflexivity].
      destruct (get a "initial_population") as [| | | | | |p|]; try discriminate. injection E1 as ->. reflexivity. }
    cbn [with_selop with_own with_pop i_own]. rewrite F. split; [|split; [discriminate|split; discriminate]].
    intros x attr d [Hx|[Hx|[]]]; injection Hx as <- <- <-; reflexivity.
  - unfold init_IOPIS_RVEA in H. inv_bind H. exists a. rewrite iopis_eq in H. inv_bind H. inv_bind H. injection H as <-.
    destruct (iopis_ok _ _ E0) as (A & B & _ & (src & C1 & C2) & D).
    split; [reflexivity|]. split; [exact A|]. split.
    { assert (X := A). injection X as _ _ X1 X2 _ _ _ _. cbn. rewrite X1, X2. exact B. }
    split; [exists src; split; [exact C1|exact C2]|]. cbn [with_selop with_own i_own]. rewrite D.
    split; [|split; [discriminate|split; [reflexivity|discriminate]]].
    intros x attr d [Hx|[]]; injection Hx as <- <- <-; reflexivity.
  - unfold init_IOPIS_NSGAIII in H. inv_bind H. exists a. rewrite iopis_eq in H. inv_bind H. injection H as <-.
    destruct (iopis_ok _ _ E0) as (A & B & _ & (src & C1 & C2) & D).
    split; [reflexivity|]. split; [exact A|]. split.
    { assert (X := A). injection X as _ _ X1 X2 _ _ _ _. cbn. rewrite X1, X2. exact B. }
    split; [exists src; split; [exact C1|exact C2]|].
    split; [|split; [discriminate|split; discriminate]].
    intros x attr d [].
Qed.
