(** C132, continued: which draws a step of MOEA/D and a generation of IBEA / PBEA consume, and what they decide. *)
From Coq Require Import Reals QArith Lia Lra.
From Verif Require Import Base M_Create M_Recombination M_MOEAD M_MoeadRun M_Indicator M_Seed Spec_Indicator P_Indicator Properties_Indicator Properties_Seed Properties_Seed2.
Open Scope nat_scope.

(** C132. In MOEA/D a step first draws two positions of the neighbourhood: the solutions there, and no others, are mated; the first offspring is repaired and evaluated and competes with the neighbours. *)
Theorem C132_moead_step : forall G ProC DisC ProM DisM lbs ubs nan ev SF new_ideal i s n p s' n' p',
  seeded_subproblem G ProC DisC ProM DisM lbs ubs nan ev SF new_ideal i s n p = (Ok s', (n', p')) ->
  exists nb a b x tl, nth_error (mo_nbs (ms_op s)) i = Some nb /\ 2 <= length nb /\
    let (pos, n1) := g_choice G (length nb) 2 n in
    nth_error nb (nth 0 pos 0) = Some a /\ nth_error nb (nth 1 pos 0) = Some b /\
    pop_mate G ProC DisC ProM DisM lbs ubs nan (map fst (ms_pop s)) (Some [a; b]) n1 p = (Ok (x :: tl), (n', p')) /\
    ms_op s' = ms_op s /\ ms_ideal s' = new_ideal (ms_ideal s) (x, ev x) /\
    exists sel, moead_do snd SF (mo_planar (ms_op s)) (mo_nbs (ms_op s)) (ms_ideal s') (ms_pop s ++ [(x, ev x)]) i = Ok sel /\
      ms_pop s' = removelast (replace_at sel (x, ev x) (ms_pop s ++ [(x, ev x)])).
Proof.
  intros G ProC DisC ProM DisM lbs ubs nan ev SF new_ideal i s n p s' n' p' H. unfold seeded_subproblem in H. destruct (nth_error (mo_nbs (ms_op s)) i) as [nb|] eqn:En; [|discriminate].
  destruct (Nat.ltb (length nb) 2) eqn:Lt; [discriminate|]. apply Nat.ltb_ge in Lt. unfold andthen, numpy in H. destruct (g_choice G (length nb) 2 n) as [pos n1] eqn:Ec. cbv beta iota zeta in H.
  assert (CP : forall r, choose_parents (fun _ : nat => (nth 0 pos 0, nth 1 pos 0)) (mo_nbs (ms_op s)) i = Ok r -> nth_error nb (nth 0 pos 0) = Some (fst r) /\ nth_error nb (nth 1 pos 0) = Some (snd r)).
  { intros r. unfold choose_parents. rewrite En. destruct (Nat.ltb (length nb) 2); [discriminate|]. cbn [fst snd]. destruct (nth_error nb (nth 0 pos 0)), (nth_error nb (nth 1 pos 0)); intros E; try discriminate. injection E as <-. split; reflexivity. }
  destruct (choose_parents (fun _ : nat => (nth 0 pos 0, nth 1 pos 0)) (mo_nbs (ms_op s)) i) as [r|e] eqn:Ep; [|discriminate]. destruct (CP r eq_refl) as (Ea & Eb). unfold of_res at 1 in H. cbn [fst snd] in H.
  destruct (pop_mate G ProC DisC ProM DisM lbs ubs nan (map fst (ms_pop s)) (Some [fst r; snd r]) n1 p) as [[[|x tl]|e] [n2 p2]] eqn:Em; try discriminate. cbn [fst snd] in H.
  exists nb, (fst r), (snd r), x, tl. split; [reflexivity|]. split; [exact Lt|]. rewrite Ec. split; [exact Ea|]. split; [exact Eb|].
  unfold of_res in H. match type of H with context [match subproblem ?a ?b ?c ?d ?e ?f ?g ?h ?j with _ => _ end] => destruct (subproblem a b c d e f g h j) as [q|er] eqn:Es end; [|discriminate].
  unfold ret in H. cbn [fst snd] in H. injection H as <- <- <-. split; [exact Em|]. split; [reflexivity|]. cbn [ms_ideal ms_pop].
  unfold subproblem in Es. rewrite Ep in Es. cbn [bind] in Es. destruct (nth_error (ms_pop s) (fst r)) as [ma|]; [|discriminate]. destruct (nth_error (ms_pop s) (snd r)) as [mb|]; [|discriminate].
  match type of Es with bind ?m _ = _ => destruct m as [sel|er] eqn:Ed end; [|discriminate]. cbn [bind] in Es. injection Es as <-. cbn [fst snd]. split; [reflexivity|]. exists sel. split; [exact Ed|reflexivity].
Qed.

(** [k] samples of [size] positions below [n], drawn one after the other from state [g], which becomes [g']. *)
Inductive samples (G : generators) (n size : nat) : nat -> NP G -> list (list nat) -> NP G -> Prop :=
| NoSample : forall g, samples G n size 0 g [] g
| OneMore : forall k g a g1 l g', g_choice G n size g = (a, g1) -> samples G n size k g1 l g' -> samples G n size (S k) g (a :: l) g'.
Lemma draw_samples G n size k : forall g p l st, draw_aspirants G n size k g p = (Ok l, st) -> samples G n size k g l (fst st) /\ snd st = p.
Proof.
  induction k as [|k IH]; intros g p l st H; cbn [draw_aspirants] in H.
  - unfold ret in H. injection H as <- <-. split; [constructor|reflexivity].
  - unfold andthen, numpy, ret in H. destruct (g_choice G n size g) as [a g1] eqn:Ec. cbn [fst snd] in H. destruct (draw_aspirants G n size k g1 p) as [[r|e] st'] eqn:Ed; [|discriminate]. destruct (IH _ _ _ _ Ed) as (A & B).
    injection H as <- <-. cbn [fst snd]. split; [econstructor; eassumption|exact B].
Qed.
(** C132. In IBEA and PBEA a generation draws nothing while it removes members; then two samples of [size] positions - never the last - per kept member, one after the other; the winners are mated. *)
Theorem C132_indicator_step : forall G ProC DisC ProM DisM lbs ubs nan A (ind : A -> list R -> list R -> R) kappa size pop_size a pop n p a' pop' n' p', 1 <= size ->
  indicator_gen G ProC DisC ProM DisM lbs ubs nan ind kappa size pop_size (a, pop) n p = (Ok (a', pop'), (n', p')) ->
  exists kept fit chosen off n1, a' = a /\ pop' = kept ++ off /\
    env_loop (ind a) kappa (length pop) pop_size pop (fitness_assignment (ind a) kappa pop) = Some (Ok (kept, fit)) /\
    (fit <> [] -> size < length fit /\ exists ds, samples G (length fit - 1) size (2 * length fit) n ds n1 /\ tournament_do size fit (fun i => nth i ds []) = Ok chosen) /\
    pop_mate G ProC DisC ProM DisM lbs ubs nan kept (Some chosen) n1 p = (Ok off, (n', p')).
Proof.
  intros G ProC DisC ProM DisM lbs ubs nan A ind kappa size pop_size a pop n p a' pop' n' p' S1 H. unfold indicator_gen in H. cbn [fst snd] in H.
  destruct (env_loop (ind a) kappa (length pop) pop_size pop (fitness_assignment (ind a) kappa pop)) as [[[kept fit]|e]|] eqn:Ee; try discriminate.
  unfold andthen at 1, of_res at 1 in H. cbn [fst snd] in H. unfold andthen at 1 in H. destruct (seeded_tournaments G size fit n p) as [[chosen|e] [n1 p1]] eqn:Et; [|discriminate]. cbn [fst snd] in H.
  unfold andthen in H. destruct (pop_mate G ProC DisC ProM DisM lbs ubs nan kept (Some chosen) n1 p1) as [[off|e] [n2 p2]] eqn:Em; [|discriminate]. unfold ret in H. cbn [fst snd] in H. injection H as <- <- <- <-.
  exists kept, fit, chosen, off, n1. split; [reflexivity|]. split; [reflexivity|]. split; [reflexivity|]. unfold seeded_tournaments in Et.
  destruct (Nat.ltb (length fit - 1) size) eqn:El.
  - destruct (Nat.eqb (length fit) 0) eqn:E0; [|discriminate]. unfold ret in Et. injection Et as <- <- <-. apply Nat.eqb_eq in E0. split; [intros F; destruct fit; [congruence|discriminate]|exact Em].
  - apply Nat.ltb_ge in El. unfold andthen in Et. destruct (draw_aspirants G (length fit - 1) size (2 * length fit) n p) as [[ds|e] [sn sp]] eqn:Ed; [|discriminate]. destruct (draw_samples _ _ _ _ _ _ _ _ Ed) as (D1 & D2).
    unfold of_res in Et. cbn [fst snd] in *. injection Et as E1 <- <-. subst sp. split; [|exact Em]. intros F. split; [lia|]. exists ds. split; [exact D1|exact E1].
Qed.
(** C132. The tournaments take place whenever fewer than all kept members take part in each. *)
Theorem C132_tournaments_happen : forall G size fit n p, honest G -> 1 <= size -> size < length fit -> exists chosen n1, seeded_tournaments G size fit n p = (Ok chosen, (n1, p)) /\ length chosen = length fit /\ forall w, In w chosen -> w < length fit.
Proof.
  intros G size fit n p (_ & _ & _ & Hc & _) S1 S2. unfold seeded_tournaments. replace (Nat.ltb (length fit - 1) size) with false by (symmetry; apply Nat.ltb_ge; lia).
  assert (D : forall k g, exists ds g', draw_aspirants G (length fit - 1) size k g p = (Ok ds, (g', p)) /\ length ds = k /\ Forall (valid_draw (length fit - 1) size) ds).
  { induction k as [|k IH]; intros g; cbn [draw_aspirants].
    - exists [], g. split; [reflexivity|]. split; [reflexivity|constructor].
    - unfold andthen, numpy, ret. destruct (Hc (length fit - 1) size g ltac:(lia)) as (A & B & C). destruct (g_choice G (length fit - 1) size g) as [a g1]. cbn [fst snd] in *. destruct (IH g1) as (ds & g' & -> & L & F). cbn [fst snd].
      exists (a :: ds), g'. split; [reflexivity|]. split; [cbn [length]; congruence|]. constructor; [|exact F]. split; [exact A|]. split; [exact B|]. apply Forall_forall. exact C. }
  destruct (D (2 * length fit) n) as (ds & g' & E & L & F). unfold andthen. rewrite E. cbn [fst snd].
  (* after the drawn samples the model's sequence of draws continues with a valid one that is never used *)
  assert (T : exists chosen, tournament_do size fit (fun i => nth i ds []) = Ok chosen /\ length chosen = length fit /\ forall w, In w chosen -> w < length fit).
  { destruct (C40_total size fit (fun i => nth i ds (seq 0 size)) ltac:(lia) ltac:(lia)) as (parents & P & Q0).
    - intros i. destruct (Nat.lt_ge_cases i (length ds)) as [Hi|Hi].
      + rewrite Forall_forall in F. apply F, nth_In, Hi.
      + rewrite nth_overflow by exact Hi. split; [apply seq_length|]. split; [apply seq_NoDup|]. intros j Hj. apply in_seq in Hj. lia.
    - exists parents. split; [|split; [|exact Q0]].
      + rewrite <- P. unfold tournament_do. assert (X : forall k m, m + 2 * k <= length ds -> tournaments size fit (fun i => nth i ds []) m k = tournaments size fit (fun i => nth i ds (seq 0 size)) m k).
        { induction k as [|k IH]; intros m Hm; [reflexivity|]. cbn [tournaments]. rewrite (nth_indep ds [] (seq 0 size)) by lia. rewrite (nth_indep ds [] (seq 0 size) (n := S m)) by lia. rewrite IH by lia. reflexivity. }
        apply X. lia.
      + assert (X : forall k m r, tournaments size fit (fun i => nth i ds (seq 0 size)) m k = Ok r -> length r = k).
        { induction k as [|k IH]; intros m r H; cbn [tournaments] in H; [injection H as <-; reflexivity|]. destruct (tour_select size fit (nth m ds (seq 0 size))); [|discriminate]. cbn [bind] in H. destruct (tour_select size fit (nth (S m) ds (seq 0 size))); [|discriminate]. cbn [bind] in H.
          destruct (tournaments size fit (fun i => nth i ds (seq 0 size)) (S (S m)) k) as [q|] eqn:Eq; [|discriminate]. cbn [bind] in H. injection H as <-. cbn [length]. f_equal. exact (IH _ _ Eq). }
        exact (X _ _ _ P). }
  destruct T as (chosen & T1 & T2 & T3). exists chosen, g'. split; [unfold of_res; rewrite T1; reflexivity|]. split; assumption.
Qed.
Print Assumptions C132_tournaments_happen.
Print Assumptions C132_moead_step.
Print Assumptions C132_indicator_step.
(** A step that happens: two members, each other's neighbours. *)
Example ex_moead_step : exists s' st, seeded_subproblem coins 1 30 1 20 [0%R] [1%R] 0%R (fun _ => [0%Q]) (fun _ _ _ => 0%Q) (fun i _ => i) 0
  (mkMS (mkMop [] [[1%Q]; [1%Q]] 2 1 2 [[0; 1]; [1; 0]]) [0%Q] [([0%R], [0%Q]); ([1%R], [0%Q])]) [true; true; true; true; false] true = (Ok s', st).
Proof.
  unfold seeded_subproblem. cbn [nth_error mo_nbs ms_op length Nat.ltb Nat.leb]. unfold andthen at 1, numpy at 1. cbn [g_choice coins seq tl]. unfold andthen at 1, of_res at 1. cbn [choose_parents mo_nbs ms_op nth_error length Nat.ltb Nat.leb fst snd nth].
  unfold andthen at 1. cbn [fst snd map ms_pop].
  rewrite (proj2 (mate_two 1 30 1 20 0%R ltac:(lra) ltac:(lra) ltac:(lra) 0%R 1%R true true true [] true ltac:(lra) ltac:(lra))).
  eexists. eexists. reflexivity.
Qed.

