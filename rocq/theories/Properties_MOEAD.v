(** C37-C39, C72: MOEA/D. *)
From Verif Require Import Base M_MOEAD P_MOEAD.
From Coq Require Import QArith Permutation Sorted.
Open Scope nat_scope.

(** The weights handed to the scalarising function: zeros become 0.0001, everything else is untouched. *)
Definition without_zeros (w w' : list Q) : Prop :=
  Forall2 (fun x y => ((x == 0)%Q -> y = (1 # 10000)%Q) /\ (~ (x == 0)%Q -> y = x)) w w'.

Theorem C38_weights_without_zeros (w : list Q) : without_zeros w (fix_weights w).
Proof.
  unfold without_zeros, fix_weights. induction w as [|x w IH]; simpl; constructor; auto.
  destruct (Qeq_bool x 0) eqn:E; split; intros H; auto.
  - apply Qeq_bool_iff in E. contradiction.
  - apply Qeq_bool_iff in H. congruence.
Qed.

(** [do], called with the offspring as last member: exactly the neighbours it strictly improves. *)
Theorem C38_exactly_the_improved {M : Type} (fitness : M -> list Q) (SF : list Q -> list Q -> list Q -> Q)
  (vectors : list (list Q)) (neighborhoods : list (list nat)) (ideal : list Q) (pop : list M) (off : M) (i : nat) (sel : list nat) :
  moead_do fitness SF vectors neighborhoods ideal (pop ++ [off]) i = Ok sel ->
  exists nb, nth_error neighborhoods i = Some nb /\
  forall j, In j sel <->
    In j nb /\ exists m w, nth_error (pop ++ [off]) j = Some m /\ nth_error vectors j = Some w /\
      (SF (fitness off) (fix_weights w) ideal < SF (fitness m) (fix_weights w) ideal)%Q.
Proof.
  intros H. destruct (moead_do_spec _ _ _ _ _ _ _ _ _ H) as (nb & H1 & _ & H2). exists nb; auto.
Qed.

(** One subproblem of a generation. The ideal is the one known after evaluating the offspring. *)
Theorem C37_subproblem_step {M : Type} (fitness : M -> list Q) (SF : list Q -> list Q -> list Q -> Q)
  (vectors : list (list Q)) (neighborhoods : list (list nat)) (pick : nat -> nat -> nat * nat)
  (offspring : nat -> M -> M -> list M -> M) (new_ideal : list Q -> M -> list Q)
  (i : nat) (ideal ideal' : list Q) (pop pop' : list M) :
  subproblem fitness SF vectors neighborhoods pick offspring new_ideal i (ideal, pop) = Ok (ideal', pop') ->
  exists nb pa pb a b off,
    nth_error neighborhoods i = Some nb /\ In pa nb /\ In pb nb /\
    nth_error pop pa = Some a /\ nth_error pop pb = Some b /\ off = offspring i a b pop /\
    ideal' = new_ideal ideal off /\ length pop' = length pop /\
    forall j m, nth_error pop j = Some m ->
      (~ In j nb -> nth_error pop' j = Some m) /\
      (In j nb -> forall w, nth_error vectors j = Some w ->
         ((SF (fitness off) (fix_weights w) ideal' < SF (fitness m) (fix_weights w) ideal')%Q -> nth_error pop' j = Some off) /\
         (~ (SF (fitness off) (fix_weights w) ideal' < SF (fitness m) (fix_weights w) ideal')%Q -> nth_error pop' j = Some m)) /\
      (forall m' w, nth_error pop' j = Some m' -> nth_error vectors j = Some w ->
         (SF (fitness m') (fix_weights w) ideal' <= SF (fitness m) (fix_weights w) ideal')%Q).
Proof.
  intros H. destruct (subproblem_spec _ _ _ _ _ _ _ _ _ _ _ _ H) as (nb & pa & pb & a & b & off & H1 & H2 & H3 & H4 & H5 & H6 & H7 & H8 & H9).
  exists nb, pa, pb, a, b, off. do 8 (split; [auto|]).
  intros j m Hj. split; [|split].
  - intros Hn. destruct (H9 j m Hj) as [[Hi _]|[Hk _]]; tauto.
  - intros Hi w Hw. destruct (H9 j m Hj) as [(_ & w' & W1 & W2 & W3)|[W1 W2]].
    + assert (w' = w) by congruence; subst w'. split; auto. intros Hc; contradiction.
    + split; auto. intros Hc. exfalso. apply (Qlt_not_le _ _ Hc). auto.
  - intros m' w Hm' Hw. destruct (H9 j m Hj) as [(_ & w' & W1 & W2 & W3)|[W1 W2]].
    + assert (w' = w) by congruence; subst w'. assert (m' = off) by congruence; subst m'. apply Qlt_le_weak; auto.
    + assert (m' = m) by congruence; subst m'. apply Qle_refl.
Qed.

Theorem C37_generation_keeps_size {M : Type} (fitness : M -> list Q) (SF : list Q -> list Q -> list Q -> Q)
  (vectors : list (list Q)) (neighborhoods : list (list nat)) (pick : nat -> nat -> nat * nat)
  (offspring : nat -> M -> M -> list M -> M) (new_ideal : list Q -> M -> list Q)
  (pop_size : nat) (ideal ideal' : list Q) (pop pop' : list M) :
  moead_gen fitness SF vectors neighborhoods pick offspring new_ideal pop_size (ideal, pop) = Ok (ideal', pop') ->
  length pop' = length pop.
Proof. intros H. exact (subproblems_length _ _ _ _ _ _ _ _ _ _ H). Qed.

(** Over a whole generation, as long as no offspring improves the ideal point, no subproblem gets worse. *)
Theorem C37_generation_never_worsens {M : Type} (fitness : M -> list Q) (SF : list Q -> list Q -> list Q -> Q)
  (vectors : list (list Q)) (neighborhoods : list (list nat)) (pick : nat -> nat -> nat * nat)
  (offspring : nat -> M -> M -> list M -> M) (new_ideal : list Q -> M -> list Q)
  (pop_size : nat) (ideal ideal' : list Q) (pop pop' : list M) :
  (forall off, new_ideal ideal off = ideal) ->
  moead_gen fitness SF vectors neighborhoods pick offspring new_ideal pop_size (ideal, pop) = Ok (ideal', pop') ->
  forall j m m' w, nth_error pop j = Some m -> nth_error pop' j = Some m' -> nth_error vectors j = Some w ->
    (SF (fitness m') (fix_weights w) ideal <= SF (fitness m) (fix_weights w) ideal)%Q.
Proof. intros Hc H. apply (subproblems_no_worse _ _ _ _ _ _ _ _ _ _ _ _ Hc H). Qed.

(** When an offspring does improve the ideal point, a subproblem can get worse measured at the new ideal:
    only the per-step guarantee remains. Weighted Chebyshev-type SF max_k w_k |f_k - z_k|. *)
Definition tcheb (f w z : list Q) : Q :=
  fold_right (fun p acc => let x := (fst p * (fst (snd p) - snd (snd p)))%Q in if Qle_bool x acc then acc else x) 0%Q (combine w (combine f z)).

(** C39. A run visits [pop_size] subproblems but there are only as many neighbourhoods as vectors. *)
Theorem C39_more_members_than_vectors_refuted {M : Type} (fitness : M -> list Q) (SF : list Q -> list Q -> list Q -> Q)
  (vectors : list (list Q)) (neighborhoods : list (list nat)) (pick : nat -> nat -> nat * nat)
  (offspring : nat -> M -> M -> list M -> M) (new_ideal : list Q -> M -> list Q)
  (pop_size : nat) (s s' : list Q * list M) :
  length neighborhoods < pop_size ->
  moead_gen fitness SF vectors neighborhoods pick offspring new_ideal pop_size s <> Ok s'.
Proof.
  unfold moead_gen. intros Hlt. assert (In (length neighborhoods) (seq 0 pop_size)) as Hin by (apply in_seq; lia).
  revert s Hin. generalize (seq 0 pop_size) as is. induction is as [|i t IH]; intros s Hin; [destruct Hin|].
  cbn [subproblems]. destruct Hin as [->|Hin].
  - destruct s as [id pop]. unfold subproblem, choose_parents.
    replace (nth_error neighborhoods (length neighborhoods)) with (@None (list nat)) by (symmetry; apply nth_error_None; lia).
    discriminate.
  - destruct (subproblem fitness SF vectors neighborhoods pick offspring new_ideal i s) as [s1|e]; cbn [bind]; [apply IH; auto|discriminate].
Qed.

Theorem C39_matching_sizes_partial {M : Type} (fitness : M -> list Q) (SF : list Q -> list Q -> list Q -> Q)
  (vectors : list (list Q)) (argsort : list Q -> list nat) (dist : nat -> nat -> Q) (n_neighbors : nat) (pick : nat -> nat -> nat * nat)
  (offspring : nat -> M -> M -> list M -> M) (new_ideal : list Q -> M -> list Q) (ideal : list Q) (pop : list M) :
  (forall keys, sorts keys (argsort keys)) ->
  (forall i n, 2 <= n -> fst (pick i n) < n /\ snd (pick i n) < n) ->
  2 <= n_neighbors -> 2 <= length pop -> length vectors = length pop ->
  exists s', moead_gen fitness SF vectors (neighborhoods_of argsort dist (length vectors) n_neighbors) pick offspring new_ideal
               (length pop) (ideal, pop) = Ok s'.
Proof.
  intros Ha Hp H1 H2 H3. unfold moead_gen. apply subproblems_total; auto.
  intros i Hi. apply in_seq in Hi.
  destruct (neighborhoods_of_spec argsort dist (length vectors) n_neighbors i Ha) as (nb & N1 & N2 & N3 & N4 & N5); [lia|].
  exists nb. split; auto. split; [lia|]. intros j Hj. specialize (N4 j Hj). lia.
Qed.

(** C72. The neighbourhood of a vector: the n nearest vectors (all of them if there are fewer). *)
Theorem C72_nearest_vectors (argsort : list Q -> list nat) (dist : nat -> nat -> Q) (n_vectors n_neighbors i : nat) :
  (forall keys, sorts keys (argsort keys)) -> i < n_vectors ->
  exists nb, nth_error (neighborhoods_of argsort dist n_vectors n_neighbors) i = Some nb /\
    length nb = Nat.min n_neighbors n_vectors /\ NoDup nb /\ (forall j, In j nb -> j < n_vectors) /\
    (forall j k, In j nb -> k < n_vectors -> ~ In k nb -> (dist i j <= dist i k)%Q).
Proof. exact (neighborhoods_of_spec argsort dist n_vectors n_neighbors i). Qed.

Theorem C72_contains_itself (argsort : list Q -> list nat) (dist : nat -> nat -> Q) (n_vectors n_neighbors i : nat) :
  (forall keys, sorts keys (argsort keys)) -> i < n_vectors -> 1 <= n_neighbors ->
  (dist i i == 0)%Q -> (forall j, j <> i -> j < n_vectors -> (0 < dist i j)%Q) ->
  exists nb, nth_error (neighborhoods_of argsort dist n_vectors n_neighbors) i = Some nb /\ In i nb.
Proof.
  intros Ha Hi Hn H0 Hp. destruct (neighborhoods_of_spec argsort dist n_vectors n_neighbors i Ha Hi) as (nb & N1 & N2 & N3 & N4 & N5).
  exists nb. split; auto. destruct (in_dec Nat.eq_dec i nb) as [|Hc]; auto. exfalso.
  destruct nb as [|j nb]; [simpl in N2; lia|].
  assert (j <> i) by (intros ->; apply Hc; left; auto).
  specialize (N5 j i (or_introl eq_refl) Hi Hc). specialize (Hp j H (N4 j (or_introl eq_refl))).
  rewrite H0 in N5. exact (Qlt_not_le _ _ Hp N5).
Qed.

(* Print Assumptions: all closed under the global context. *)
Print Assumptions C38_exactly_the_improved.
Print Assumptions C37_subproblem_step.
Print Assumptions C37_generation_never_worsens.
Print Assumptions C39_matching_sizes_partial.
Print Assumptions C72_nearest_vectors.
Print Assumptions C72_contains_itself.

(** A concrete run: three subproblems on the line, members are their own fitness vectors. *)
Definition ex_vectors : list (list Q) := [[1;0]; [1#2;1#2]; [0;1]]%Q.
Definition ex_dist (i j : nat) : Q := inject_Z (Z.abs (Z.of_nat i - Z.of_nat j)).
Definition ex_nbs := neighborhoods_of ref_argsort ex_dist 3 2.
Example ex_nbs_value : ex_nbs = [[0;1];[1;0];[2;1]].
Proof. reflexivity. Qed.
Definition ex_run := moead_gen (fun m : list Q => m) tcheb ex_vectors ex_nbs (fun _ _ => (0, 1))
  (fun _ a b _ => [(hd 0 a * (1#2)); (hd 0 b * (1#2))])%Q (fun z _ => z) 3 ([0;0]%Q, [[4;4];[3;2];[1;5]]%Q).
Example ex_run_ok : exists s', ex_run = Ok s' /\ snd s' <> [[4;4];[3;2];[1;5]]%Q /\ length (snd s') = 3.
Proof. eexists; split; [vm_compute; reflexivity|]. split; [discriminate|reflexivity]. Qed.
Example ex_run_hyp : forall off : list Q, (fun (z : list Q) (_ : list Q) => z) [0;0]%Q off = [0;0]%Q.
Proof. reflexivity. Qed.
(** Four members, three vectors (population_size = 4 with three objectives): the run stops with an IndexError. *)
Example ex_run_fails : moead_gen (fun m : list Q => m) tcheb ex_vectors ex_nbs (fun _ _ => (0, 1))
  (fun _ a b _ => a) (fun z _ => z) 4 ([0;0]%Q, [[4;4];[3;2];[1;5];[2;2]]%Q) = Err IndexError.
Proof. vm_compute; reflexivity. Qed.

(** Measured at the final ideal a subproblem can be worse after the generation than before: here the second offspring
    (100,-5) lowers the ideal from (0,0) to (0,-5), after which subproblem 0's old member (3,0) scores 5 and its new one (2,2) scores 7. *)
Definition vmin2 (a b : list Q) : list Q := map (fun p => if Qle_bool (fst p) (snd p) then fst p else snd p) (combine a b).
Example ex_moving_ideal :
  exists pop', moead_gen (fun m : list Q => m) tcheb [[1;1];[1;1]]%Q [[0;1];[1;0]] (fun _ _ => (0, 1))
    (fun i a b _ => if Nat.eqb i 0 then [2;2] else [100;-5])%Q vmin2 2 ([0;0], [[3;0];[1;1]])%Q = Ok ([0;-5]%Q, pop') /\
  nth_error pop' 0 = Some [2;2]%Q /\ (tcheb [3;0] [1;1] [0;-5] < tcheb [2;2] [1;1] [0;-5])%Q.
Proof. eexists; split; [vm_compute; reflexivity|]. split; [reflexivity|]. vm_compute. reflexivity. Qed.
