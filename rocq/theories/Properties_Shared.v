(** C116: several algorithm objects on one population, their calls interleaved in any way. *)
From Verif Require Import Base Pareto M_Population Spec_Population P_Population M_Archive M_Run Spec_Run P_Run P_Run2 P_Run3 Properties_Run M_Shared P_Shared.
From Coq Require Import QArith Lia.
Open Scope nat_scope.

Section Mono.
Context {I O F C U : Type}.
Lemma table_ok_mono (P1 P2 : I -> O -> F -> Prop) is os fs : (forall i o f, P1 i o f -> P2 i o f) -> table_ok P1 is os fs -> table_ok P2 is os fs.
Proof. intros Sub (A & B & D). split; [exact A|]. split; [exact B|]. intros j i o f Hi Ho Hf. apply Sub. apply (D j); assumption. Qed.
Lemma pop_ok_mono (P1 P2 : I -> O -> F -> Prop) (p : pop I O F C U) : (forall i o f, P1 i o f -> P2 i o f) -> pop_ok P1 p -> pop_ok P2 p.
Proof. intros Sub [A|(is & os & fs & A & B & D & E)]; [left; exact A|right]. exists is, os, fs. split; [exact A|]. split; [exact B|]. split; [exact D|]. apply (table_ok_mono P1); assumption. Qed.
End Mono.

Section T.
Context {I O F C U : Type} (dom : F -> F -> bool) (w : nat -> world I O F C U) (c : nat -> cfg) (nc : nat) (u : bool) (n : nat).

(** What the [n] objects had evaluated, and the fitness functions preferences given to any of them may have put in force. *)
Definition evaluated_by_all (g : group I O F C U) : list (I * O * F * option C) := flat_map (fun i => evals (s_log (g_own g i))) (seq 0 n).
Definition refits_of_all (ops0 : list (op I O F C U)) (r : O -> F) : Prop := In (OpReeval r) ops0 \/ exists i, i < n /\ exists k p, w_prefs (w i) k p = Ok (Some r).

(** C116. Objects of any kinds with any settings, the first made on a problem or a population, the others on the first one's population; then any sequence of start() and iterate() calls
    on any of them (exceptions caught, going on): the logs are what the problem was asked and answered, and every row of the common population, of every object's archive, of its snapshots
    and of what its end() returns was evaluated by one of the objects (or before them), with its own objectives and fitness. *)
Theorem C116_reported_rows_were_evaluated : forall ops0 s0 (es : list (nat * call)), 0 < n -> (forall i, i < n -> honest nc u (w i)) -> constructed (w 0) (c 0) nc u ops0 s0 ->
  (forall e, In e es -> fst e < n) ->
  let g := group_run dom w c (sharing s0) es in let ok := vouched (evaluated ops0 ++ evaluated_by_all g) (refits_of_all ops0) in
  pop_ok ok (g_pop g) /\ forall i, i < n -> let s := seen g i in
    answered (w i) (s_log s) /\ s_pop s = g_pop g /\ (forall a, s_nd s = Some a -> table_ok ok (a_ind a) (a_obj a) (a_fit a)) /\
    (forall k it q, In (k, (it, q)) (s_snaps s) -> pop_ok ok q) /\
    (forall (V : Type) (dom' : V -> V -> bool) (f : O -> V) s' is os, finish (c i) dom' f s = (s', Ok (is, os)) ->
       length os = length is /\ forall j x o, nth_error is j = Some x -> nth_error os j = Some o -> exists f0, ok x o f0).
Proof.
  intros ops0 s0 es Hn Hw Hc He g ok.
  pose proof (ginv_run dom w c nc u n Hw ops0 es (sharing s0) He (ginv_sharing w c nc u n Hw ops0 s0 Hn Hc)) as (h & A & B & D). fold g in A, B, D.
  assert (Sub : forall i, i < n -> forall x o f, vch (w i) h (s_log (seen g i)) x o f -> ok x o f).
  { intros i Hi x o f (f0 & con & V1 & V2). exists f0, con. split.
    - apply in_app_or in V1 as [V1|V1]; [apply B; exact V1|]. apply in_or_app. right. unfold evaluated_by_all. apply in_flat_map. exists i. split; [apply in_seq; lia|exact V1].
    - destruct V2 as [V2|(r & V2 & V3)]; [left; exact V2|right]. exists r. split; [|exact V3]. destruct V2 as [V2|(k & p & V2)].
      + destruct (D r V2) as [X|(j & k & p & J & X)]; [left; exact X|right]. exists j. split; [exact J|]. exists k, p. exact X.
      + right. exists i. split; [exact Hi|]. exists k, p. exact V2. }
  assert (P : forall i, i < n -> pop_ok ok (g_pop g)).
  { intros i Hi. destruct (A i Hi) as (I1 & I2 & _). change (g_pop g) with (s_pop (seen g i)). rewrite I1. apply (pop_ok_mono (vch (w i) h (s_log (seen g i)))); [apply Sub; exact Hi|].
    apply (run_pop_ok (w i) nc u h). exact I2. }
  split; [apply (P 0); exact Hn|]. intros i Hi s. destruct (A i Hi) as (I1 & I2 & I3 & I4). fold s in I1, I2, I3, I4.
  split; [apply I2|]. split; [reflexivity|]. split; [|split].
  - intros a Ha. destruct (I3 a Ha) as (rows & R1 & R2 & R3 & R4). rewrite R1, R2, R3. split; [now rewrite !map_length|]. split; [now rewrite !map_length|].
    intros j x o f Hx Ho Hf. rewrite nth_error_map in Hx, Ho, Hf. unfold row in Hx, Ho, Hf. destruct (nth_error rows j) as [r|] eqn:Er; [|discriminate Hx]. cbn in Hx, Ho, Hf.
    injection Hx as <-. injection Ho as <-. injection Hf as <-. apply (Sub i Hi). apply R4. eapply nth_error_In; eauto.
  - intros k it q Hq. destruct (I4 k it q Hq) as (ops & -> & G). apply (pop_ok_mono (vch (w i) h (s_log s))); [apply Sub; exact Hi|]. apply (run_pop_ok (w i) nc u h). exact G.
  - intros V dom' f s' is os Hf. unfold finish in Hf. destruct (p_ind (s_pop s)) as [xi|] eqn:E1; [|discriminate]. destruct (p_obj (s_pop s)) as [xo|] eqn:E2; [|discriminate].
    destruct (P i Hi) as [X|(is' & os' & fs' & P1 & P2 & P3 & L1 & L2 & P4)]; [change (g_pop g) with (s_pop s) in X; congruence|].
    change (g_pop g) with (s_pop s) in P1, P2, P3. rewrite E1 in P1. rewrite E2 in P2. injection P1 as <-. injection P2 as <-.
    unfold end_result in Hf. injection Hf as _ H1 H2. subst is os. destruct (zip3 xi xo fs' L1 L2) as (rows & -> & -> & ->). rewrite !P_Run.mask_sel_map', !map_length. split; [reflexivity|].
    intros j x o Hx Ho. rewrite nth_error_map in Hx, Ho. unfold row in Hx, Ho. destruct (nth_error (mask_sel _ rows) j) as [r|] eqn:Er; [|discriminate]. injection Hx as <-. injection Ho as <-.
    apply nth_error_In, P_Run.mask_sel_incl, In_nth_error in Er. destruct Er as [t Ht]. exists (r_f r). apply (P4 t); apply map_nth_error; exact Ht.
Qed.

(** The calls [es] made one after the other from [g], none of which raises, lead to [g']. *)
Inductive calls_ok : group I O F C U -> list (nat * call) -> group I O F C U -> Prop :=
| ok_none : forall g, calls_ok g [] g
| ok_more : forall g e g1 es g2, group_call dom w c g e = (g1, Ok tt) -> calls_ok g1 es g2 -> calls_ok g (e :: es) g2.
Definition iterations_of (i : nat) (es : list (nat * call)) : nat :=
  length (filter (fun e => match snd e with CIterate => Nat.eqb (fst e) i | CStart => false end) es).

(** C116. Counters, archives and snapshots are each object's own: whatever successful calls are made on the objects, each one counts exactly its own evaluations and its own iterate() calls,
    and while only others are called, its counters, archive and snapshots stay what they were. *)
Theorem C116_own_counters : forall g es g', calls_ok g es g' -> forall i,
  (exists lg, s_log (g_own g' i) = s_log (g_own g i) ++ lg /\ (s_fe (g_own g' i) - s_fe (g_own g i) = real_evals lg)%Z) /\
  (s_iter (g_own g' i) - s_iter (g_own g i) = Z.of_nat (iterations_of i es))%Z.
Proof.
  intros g es g' H. induction H as [g|g [j k] g1 es g2 Hc Hr IH]; intros i.
  - split; [|cbn; lia]. exists []. rewrite app_nil_r. split; [reflexivity|]. unfold real_evals. cbn. lia.
  - destruct (IH i) as [(lg & L1 & L2) L3]. unfold group_call in Hc. cbn [fst snd] in Hc. destruct (one_call dom w c (seen g j) j k) as [s out] eqn:E. injection Hc as <- ->.
    cbn [g_own] in L1, L2, L3. unfold iterations_of in *. cbn [filter snd fst]. destruct (Nat.eqb_spec i j) as [->|N].
    + destruct k; cbn [one_call] in E.
      * pose proof (start_keeps dom c (seen g j) j) as (K1 & K2 & K3 & _). rewrite E in K1, K2, K3. cbn [fst] in K1, K2, K3. rewrite K1 in L1. rewrite K2 in L2. rewrite K3 in L3.
        split; [exists lg; split; assumption|exact L3].
      * destruct (C104_iterate_counts dom (w j) (c j) (seen g j) s E) as (l0 & A1 & (A2 & A3 & _) & _). rewrite Nat.eqb_refl. cbn [length].
        cbn [seen s_log s_fe s_iter] in A1, A2, A3. rewrite A1 in L1. split; [|lia]. exists (l0 ++ lg). rewrite app_assoc. split; [exact L1|].
        rewrite real_evals_app. lia.
    + split; [exists lg; split; assumption|]. rewrite L3. destruct k; [reflexivity|]. destruct (Nat.eqb_spec j i) as [->|_]; [contradiction|reflexivity].
Qed.
Theorem C116_others_untouched : forall g e (i : nat), fst e <> i -> let g' := fst (group_call dom w c g e) in
  s_nd (seen g' i) = s_nd (seen g i) /\ s_snaps (seen g' i) = s_snaps (seen g i) /\ s_log (seen g' i) = s_log (seen g i) /\
  s_fe (seen g' i) = s_fe (seen g i) /\ s_iter (seen g' i) = s_iter (seen g i) /\ s_gen (seen g' i) = s_gen (seen g i).
Proof.
  intros g [j k] i N. cbn [fst] in N. cbv zeta. destruct (seen_other dom w c g j k i (not_eq_sym N)) as (S1 & _). unfold seen. cbn [s_nd s_snaps s_log s_fe s_iter s_gen].
  rewrite S1. split; [reflexivity|]. split; [reflexivity|]. split; [reflexivity|]. split; [reflexivity|]. split; reflexivity.
Qed.
(** C116. Whatever was called on whom, two objects with the same criterion return the same rows from end(). *)
Theorem C116_same_result : forall (g : group I O F C U) (i j : nat) (V : Type) (dom' : V -> V -> bool) (f : O -> V), snd (finish (c i) dom' f (seen g i)) = snd (finish (c j) dom' f (seen g j)).
Proof.
  intros g i j V dom' f. unfold finish. change (s_pop (seen g i)) with (g_pop g). change (s_pop (seen g j)) with (g_pop g).
  destruct (p_ind (g_pop g)); [|reflexivity]. destruct (p_obj (g_pop g)); reflexivity.
Qed.
End T.

(** ** Two objects on the reference instance of C102: an indicator-based one (0) and a decomposition one (1). *)
Definition ref_all : nat -> world Z (list Q) (list Q) unit unit := fun _ => ref_world ob plain (fun _ => None).
Definition both : nat -> cfg := fun i => ref_cfg (match i with 0 => KIndicator 2 | _ => KDecomposition end) false 0.
Definition shown_group (g : group Z (list Q) (list Q) unit unit) := (p_ind (g_pop g), map (fun i => (shown (seen g i), map fst (s_snaps (seen g i)))) [0; 1]).
Example ex_two_objects : shown_group (group_run dominates ref_all both (sharing (ref_on ob (KIndicator 2))) [(0, CIterate); (1, CStart); (1, CIterate); (0, CIterate)]) =
  (Some [12; 6; 14], [((Some [12; 6; 14], None, (7, 4, 2), [[1; 5; 4]; [7]; [6]; [6]; [14]]), [2; 0]);
                      ((Some [12; 6; 14], Some [7; 6; 7; 10; 9; 7], (5, 2, 1), [[7; 10; 9]; [7; 12]]), [0])])%Z.
Proof. vm_compute. reflexivity. Qed.
(** The hypotheses of C116 hold of it. *)
Example ex_hypotheses : (forall i, i < 2 -> honest 0 false (ref_all i)) /\ constructed (ref_all 0) (both 0) 0 false [] (ref_on ob (KIndicator 2)) /\
  (forall e, In e [(0, CIterate); (1, CStart); (1, CIterate); (0, CIterate)] -> fst e < 2) /\
  exists g, calls_ok dominates ref_all both (sharing (ref_on ob (KIndicator 2))) [(0, CIterate); (1, CStart); (1, CIterate); (0, CIterate)] g /\ p_ind (g_pop g) = Some [12; 6; 14]%Z.
Proof.
  split; [intros i _; apply ref_honest|]. split; [left; split; [reflexivity|exists [1; 5; 4]%Z; reflexivity]|].
  split; [intros e [<-|[<-|[<-|[<-|[]]]]]; cbn; lia|].
  set (s0 := ref_on ob (KIndicator 2)). set (step := fun g e => fst (group_call dominates ref_all both g e)).
  set (g1 := step (sharing s0) (0, CIterate)). set (g2 := step g1 (1, CStart)). set (g3 := step g2 (1, CIterate)). set (g4 := step g3 (0, CIterate)).
  assert (E1 : snd (group_call dominates ref_all both (sharing s0) (0, CIterate)) = Ok tt) by (vm_compute; reflexivity).
  assert (E2 : snd (group_call dominates ref_all both g1 (1, CStart)) = Ok tt) by (vm_compute; reflexivity).
  assert (E3 : snd (group_call dominates ref_all both g2 (1, CIterate)) = Ok tt) by (vm_compute; reflexivity).
  assert (E4 : snd (group_call dominates ref_all both g3 (0, CIterate)) = Ok tt) by (vm_compute; reflexivity).
  exists g4. split; [|vm_compute; reflexivity].
  apply ok_more with (g1 := g1); [rewrite <- E1; apply surjective_pairing|]. apply ok_more with (g1 := g2); [rewrite <- E2; apply surjective_pairing|].
  apply ok_more with (g1 := g3); [rewrite <- E3; apply surjective_pairing|]. apply ok_more with (g1 := g4); [rewrite <- E4; apply surjective_pairing|]. apply ok_none.
Qed.

(** C116: the result of an object is not its own. Object 0 has run and its end() returns x = 7 and 6; after an iterate() of object 1, which leaves everything object 0 holds as it was,
    object 0's end() returns x = 4 and 12: 4 is dominated by the 7 it had. *)
Theorem C116_result_not_own_refuted : exists (w : nat -> world Z (list Q) (list Q) unit unit) (c : nat -> cfg) (s0 : st Z (list Q) (list Q) unit unit) g g',
  (forall i, honest 0 false (w i)) /\ constructed (w 0) (c 0) 0 false [] s0 /\ calls_ok dominates w c (sharing s0) [(0, CIterate); (1, CStart)] g /\
  calls_ok dominates w c g [(1, CIterate)] g' /\ g_own g' 0 = g_own g 0 /\
  snd (finish (c 0) dominates (fun o => o) (seen g 0)) = Ok ([7; 6]%Z, [ob 7; ob 6]) /\
  snd (finish (c 0) dominates (fun o => o) (seen g' 0)) = Ok ([4; 12]%Z, [ob 4; ob 12]) /\ pareto (ob 7) (ob 4).
Proof.
  set (s0 := ref_on ob (KIndicator 2)).
  set (step := fun g e => fst (group_call dominates ref_all both g e)).
  set (g1 := step (sharing s0) (0, CIterate)). set (g2 := step g1 (1, CStart)). set (g3 := step g2 (1, CIterate)).
  assert (E1 : snd (group_call dominates ref_all both (sharing s0) (0, CIterate)) = Ok tt) by (vm_compute; reflexivity).
  assert (E2 : snd (group_call dominates ref_all both g1 (1, CStart)) = Ok tt) by (vm_compute; reflexivity).
  assert (E3 : snd (group_call dominates ref_all both g2 (1, CIterate)) = Ok tt) by (vm_compute; reflexivity).
  exists ref_all, both, s0, g2, g3. split; [intros i; apply ref_honest|]. split; [left; split; [reflexivity|exists [1; 5; 4]%Z; reflexivity]|]. split; [|split; [|split; [|split; [|split]]]].
  - apply ok_more with (g1 := g1); [rewrite <- E1; apply surjective_pairing|]. apply ok_more with (g1 := g2); [rewrite <- E2; apply surjective_pairing|]. apply ok_none.
  - apply ok_more with (g1 := g3); [rewrite <- E3; apply surjective_pairing|]. apply ok_none.
  - reflexivity.
  - vm_compute. reflexivity.
  - vm_compute. reflexivity.
  - split; [repeat constructor; unfold Qle; cbn; lia|]. exists 0, (inject_Z ((7 - 6) * (7 - 6))), (inject_Z ((4 - 6) * (4 - 6))). split; [reflexivity|]. split; [reflexivity|]. unfold Qlt. cbn. lia.
Qed.

Print Assumptions C116_reported_rows_were_evaluated.
Print Assumptions C116_own_counters.
Print Assumptions C116_others_untouched.
Print Assumptions C116_same_result.
Print Assumptions C116_result_not_own_refuted.
