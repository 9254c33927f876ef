(** C132: what has to be seeded to reproduce a run. *)
From Coq Require Import Reals QArith Lra Lia Permutation.
From Verif Require Import Base M_Create M_Recombination M_MOEAD M_MoeadRun M_Indicator M_Seed.
Open Scope nat_scope.

(** ** Specification *)
(** The outcome (result or exception) and the state of numpy's generator afterwards do not depend on the state of Python's generator, which is left as it was. *)
Definition ignores_python (G : generators) {A} (m : rnd G A) : Prop :=
  forall n p p', fst (m n p) = fst (m n p') /\ fst (snd (m n p)) = fst (snd (m n p')) /\ snd (snd (m n p)) = p.

(** Generators that return what they promise. *)
Definition honest (G : generators) : Prop :=
  (forall k n, length (fst (g_floats G k n)) = k /\ Forall (fun x => 0 <= x < 1)%R (fst (g_floats G k n))) /\
  (forall k n, length (fst (g_bits G k n)) = k) /\
  (forall k n, (0 < k)%Z -> (0 <= fst (g_integer G k n) < k)%Z) /\
  (forall k m n, m <= k -> length (fst (g_choice G k m n)) = m /\ NoDup (fst (g_choice G k m n)) /\ Forall (fun i => i < k) (fst (g_choice G k m n))) /\
  (forall k m n, length (fst (g_lhs G k m n)) = m /\ Forall (fun r => length r = k /\ Forall (fun x => 0 <= x < 1)%R r) (fst (g_lhs G k m n))) /\
  (forall k p, Permutation (fst (g_shuffle G k p)) (seq 0 k)).

(** ** Algorithms that draw from numpy only *)
Section Only.
Context (G : generators).
Lemma ip_ret {A} (a : A) : ignores_python G (ret G a). Proof. intros n p p'. cbn. auto. Qed.
Lemma ip_fail {A} e : ignores_python G (@fail G A e). Proof. intros n p p'. cbn. auto. Qed.
Lemma ip_res {A} (r : res A) : ignores_python G (of_res G r). Proof. intros n p p'. cbn. auto. Qed.
Lemma ip_numpy {A} (d : NP G -> A * NP G) : ignores_python G (numpy G d). Proof. intros n p p'. unfold numpy. destruct (d n). cbn. auto. Qed.
Lemma ip_numpy_res {A} (d : NP G -> res A * NP G) : ignores_python G (fun n p => let (r, n') := d n in (r, (n', p))).
Proof. intros n p p'. destruct (d n). cbn. auto. Qed.
Lemma ip_then {A B} (m : rnd G A) (f : A -> rnd G B) : ignores_python G m -> (forall a, ignores_python G (f a)) -> ignores_python G (andthen G m f).
Proof.
  intros Hm Hf n p p'. unfold andthen. destruct (Hm n p p') as (E1 & E2 & E3). destruct (Hm n p' p) as (_ & _ & E4).
  destruct (m n p) as [r [n1 p1]], (m n p') as [r' [n1' p1']]. cbn [fst snd] in *. subst. destruct r' as [a|e]; cbn [fst snd]; auto. apply (Hf a n1' p p').
Qed.
Ltac ip := repeat first [apply ip_then; [|intro] | apply ip_ret | apply ip_fail | apply ip_res | apply ip_numpy | apply ip_numpy_res | match goal with H : forall _, ignores_python _ _ |- _ => apply H end].
Lemma ip_pairs k v : ignores_python G (draw_pairs G k v).
Proof. induction k as [|k IH]; cbn [draw_pairs]; ip. exact IH. Qed.
Lemma ip_array r c : ignores_python G (draw_array G r c). Proof. unfold draw_array. ip. Qed.
Lemma ip_mate ProC DisC ProM DisM lbs ubs nan pop ids : ignores_python G (pop_mate G ProC DisC ProM DisM lbs ubs nan pop (Some ids)).
Proof. unfold pop_mate. ip. apply ip_pairs. Qed.
Lemma ip_new lbs ubs d n : ignores_python G (new_individuals G lbs ubs d n).
Proof. destruct d; cbn [new_individuals]; ip. Qed.
Lemma ip_requests i : ignores_python G (requests G i). Proof. destruct i; unfold requests; ip. Qed.
Lemma ip_generations {T} (gen : T -> rnd G T) k : (forall s, ignores_python G (gen s)) -> forall s, ignores_python G (generations G gen k s).
Proof. intros H. induction k as [|k IH]; intros s; cbn [generations]; ip. Qed.
Lemma ip_iterations {T} i (pre : nat -> T -> rnd G T) gen : (forall j s, ignores_python G (pre j s)) -> (forall s, ignores_python G (gen s)) ->
  forall ks j s, ignores_python G (iterations G i pre gen j ks s).
Proof.
  intros Hp Hg. induction ks as [|k ks IH]; intros j s; cbn [iterations]; [ip|]. unfold iterate. apply ip_then; [|intros a; apply IH].
  apply ip_then; [apply Hp|intros a]. apply ip_then; [apply ip_generations, Hg|intros b]. apply ip_then; [apply ip_requests|intros z]. ip.
Qed.
Lemma ip_subproblem ProC DisC ProM DisM lbs ubs nan ev SF ni i s : ignores_python G (seeded_subproblem G ProC DisC ProM DisM lbs ubs nan ev SF ni i s).
Proof.
  unfold seeded_subproblem. destruct (nth_error _ i) as [nb|]; [|ip]. destruct (Nat.ltb _ 2); [ip|]. apply ip_then; [ip|intros pos]. cbv zeta.
  apply ip_then; [ip|intros ab]. apply ip_then; [apply ip_mate|intros off]. destruct off as [|x off]; ip.
Qed.
Lemma ip_subproblems ProC DisC ProM DisM lbs ubs nan ev SF ni is : forall s, ignores_python G (seeded_subproblems G ProC DisC ProM DisM lbs ubs nan ev SF ni is s).
Proof. induction is as [|i is IH]; intros s; cbn [seeded_subproblems]; [ip|]. apply ip_then; [apply ip_subproblem|exact IH]. Qed.
Lemma ip_aspirants n z k : ignores_python G (draw_aspirants G n z k).
Proof. induction k as [|k IH]; cbn [draw_aspirants]; ip. exact IH. Qed.
Lemma ip_tournaments z fit : ignores_python G (seeded_tournaments G z fit).
Proof. unfold seeded_tournaments. destruct (Nat.ltb _ z); [destruct (Nat.eqb _ 0); ip|]. apply ip_then; [apply ip_aspirants|intros ds; ip]. Qed.
End Only.

(** C132. Seeding numpy reproduces a run of MOEA/D, from the construction of the first population (random or LHS design) through any number of iterate() calls of any lengths, interactive or not,
    with any answers in between: same population, ideal point and operator, or same exception, whatever Python's generator holds (which is not touched). *)
Theorem C132_moead_numpy_seed : forall G ProC DisC ProM DisM lbs ubs nan ev SF new_ideal d pop_size setup interact pre ks,
  ignores_python G (moead_run G ProC DisC ProM DisM lbs ubs nan ev SF new_ideal d pop_size setup interact pre ks).
Proof.
  intros. unfold moead_run. apply ip_then; [apply ip_new|intros xs]. cbv zeta. apply ip_iterations; [intros j s; apply ip_numpy_res|intros s; apply ip_subproblems].
Qed.
(** C132. The same for IBEA and PBEA. *)
Theorem C132_indicator_numpy_seed : forall G ProC DisC ProM DisM lbs ubs nan A (ind : A -> list R -> list R -> R) kappa d pop_size a interact pre ks,
  ignores_python G (indicator_run G ProC DisC ProM DisM lbs ubs nan ind kappa d pop_size a interact pre ks).
Proof.
  intros. unfold indicator_run. apply ip_then; [apply ip_new|intros xs]. apply ip_iterations; [intros j s; apply ip_numpy_res|intros s].
  unfold indicator_gen. destruct (env_loop _ _ _ _ _ _) as [r|]; [|apply ip_fail]. apply ip_then; [apply ip_res|intros pf].
  apply ip_then; [apply ip_tournaments|intros ch]. apply ip_then; [apply ip_mate|intros off]. apply ip_ret.
Qed.
(** C132. Asking a non-interactive algorithm for its requests touches neither generator. *)
Remark requests_harmless : forall G n p, snd (requests G false n p) = (n, p).
Proof. reflexivity. Qed.
(** C132. Setting both generators before every call: however calls to two algorithms are interleaved ([true]: the first), each ends as if it had been run alone with its own seeds. *)
Section Schedules.
Context (G : generators) {T U : Type} (f : T -> rnd G T) (g : U -> rnd G U) (seed : nat -> NP G * PY G).
Definition call {T} (h : T -> rnd G T) (i : nat) (r : res T) : res T := bind r (fun s => fst (h s (fst (seed i)) (snd (seed i)))).
Fixpoint alone {T} (h : T -> rnd G T) (i k : nat) (r : res T) : res T := match k with O => r | S k' => alone h (S i) k' (call h i r) end.
Fixpoint interleaved (sch : list bool) (i j : nat) (r : res T) (q : res U) : res T * res U :=
  match sch with
  | [] => (r, q)
  | true :: t => interleaved t (S i) j (call f i r) q
  | false :: t => interleaved t i (S j) r (call g j q)
  end.
Theorem C132_reseeded_schedules : forall sch i j r q,
  interleaved sch i j r q = (alone f i (count_occ Bool.bool_dec sch true) r, alone g j (count_occ Bool.bool_dec sch false) q).
Proof. induction sch as [|[|] t IH]; intros i j r q; cbn [interleaved count_occ]; [reflexivity| |]; rewrite IH; reflexivity. Qed.
End Schedules.

Print Assumptions C132_moead_numpy_seed.
Print Assumptions C132_indicator_numpy_seed.
Print Assumptions C132_reseeded_schedules.
