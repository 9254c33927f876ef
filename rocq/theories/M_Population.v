(** Model of desdeo_emo/population/Population.py, class [Population].
    A numpy matrix is a list of rows; the row types of the five columns are
    parameters ([I] decision vectors, [O] objectives, [F] fitness,
    [C] constraints, [U] uncertainties). Sharing of arrays with the caller and
    with archived tables is the subject of M_Alias.v, which refines this model. *)
From Verif Require Import Base.
From Coq Require Import QArith.

Section Pop.
Context {I O F C U : Type}.

(** What [problem.evaluate] returns (external: desdeo_problem). *)
Record results := mkRes {
  r_obj : list O; r_fit : list F; r_con : option (list C); r_unc : option (list U) }.

(** Shape of the argument of [add], relative to [self.individuals.ndim] (line 158-163):
    same ndim (a batch of rows), one less (a single row), anything else. *)
Inductive offs := OBatch (l : list I) | OSingle (i : I) | OOther.

(** Population.py:14-27 / 109-124: the mutable columns; [None] is Python's None.
    [p_nc] is [problem.n_of_constraints]. *)
Record pop := mkPop {
  p_nc : nat;
  p_ind : option (list I);
  p_obj : option (list O);
  p_fit : option (list F);
  p_con : option (list C);
  p_unc : option (list U) }.

(** Population.py:15-23: state before the first [add]. *)
Definition fresh (nc : nat) : pop := mkPop nc None None None None None.

(** [np.vstack((a, b))] where [a] may be None: raises (ValueError: dimensions). *)
Definition vstack {A} (a : option (list A)) (b : option (list A)) : res (list A) :=
  match a, b with
  | Some x, Some y => Ok (x ++ y)
  | _, _ => Err ValueError
  end.

(** Population.py:126-175 [add]; [r] is what line 143 obtained from [problem.evaluate].
    Columns are updated one after the other, so an exception leaves the earlier ones updated.
    Simplification: a first [add] with a non-batch array (which would make
    [self.individuals] a non-matrix) is answered [Unmodelled] without change. *)
Definition add (p : pop) (o : offs) (r : results) : pop * res results :=
  match p_ind p with
  | None =>
      match o with
      | OBatch l =>
          (mkPop (p_nc p) (Some l) (Some (r_obj r)) (Some (r_fit r)) (r_con r) (r_unc r), Ok r)
      | _ => (p, Err Unmodelled)
      end
  | Some inds =>
      let inds' := match o with
                   | OSingle i => inds ++ [i]
                   | OBatch l => inds ++ l
                   | OOther => inds            (* line 163: pass *)
                   end in
      let p1 := mkPop (p_nc p) (Some inds') (p_obj p) (p_fit p) (p_con p) (p_unc p) in
      match vstack (p_obj p) (Some (r_obj r)) with
      | Err e => (p1, Err e)
      | Ok objs =>
        let p2 := mkPop (p_nc p) (Some inds') (Some objs) (p_fit p) (p_con p) (p_unc p) in
        match vstack (p_fit p) (Some (r_fit r)) with
        | Err e => (p2, Err e)
        | Ok fits =>
          let p3 := mkPop (p_nc p) (Some inds') (Some objs) (Some fits) (p_con p) (p_unc p) in
          match (if Nat.eqb (p_nc p) 0 then Ok (p_con p)
                 else bind (vstack (p_con p) (r_con r)) (fun c => Ok (Some c))) with
          | Err e => (p3, Err e)
          | Ok con =>
            let p4 := mkPop (p_nc p) (Some inds') (Some objs) (Some fits) con (p_unc p) in
            match r_unc r with
            | None => (mkPop (p_nc p) (Some inds') (Some objs) (Some fits) con None, Ok r)
            | Some us =>
                match vstack (p_unc p) (Some us) with
                | Err e => (p4, Err e)
                | Ok us' => (mkPop (p_nc p) (Some inds') (Some objs) (Some fits) con (Some us'), Ok r)
                end
            end
          end
        end
      end
  end.

(** [a[mask]]: None raises TypeError, a mask of another length raises IndexError. *)
Definition col_mask {A} (m : list bool) (a : option (list A)) : res (list A) :=
  match a with
  | None => Err TypeError
  | Some l => if Nat.eqb (length m) (length l) then Ok (mask_sel m l) else Err IndexError
  end.

(** Tail common to keep (190-195) and delete (211-216): mask objectives, fitness,
    uncertainity (if any) and constraint (if the problem has some), in that order. *)
Definition mask_rest (m : list bool) (p : pop) : pop * res unit :=
  match col_mask m (p_obj p) with
  | Err e => (p, Err e)
  | Ok objs =>
    let p1 := mkPop (p_nc p) (p_ind p) (Some objs) (p_fit p) (p_con p) (p_unc p) in
    match col_mask m (p_fit p) with
    | Err e => (p1, Err e)
    | Ok fits =>
      let p2 := mkPop (p_nc p) (p_ind p) (Some objs) (Some fits) (p_con p) (p_unc p) in
      match (match p_unc p with
             | None => Ok None
             | Some _ => bind (col_mask m (p_unc p)) (fun u => Ok (Some u))
             end) with
      | Err e => (p2, Err e)
      | Ok unc =>
        let p3 := mkPop (p_nc p) (p_ind p) (Some objs) (Some fits) (p_con p) unc in
        if Nat.ltb 0 (p_nc p) then
          match col_mask m (p_con p) with
          | Err e => (p3, Err e)
          | Ok con => (mkPop (p_nc p) (p_ind p) (Some objs) (Some fits) (Some con) unc, Ok tt)
          end
        else (p3, Ok tt)
      end
    end
  end.

(** Population.py:177-195 [keep]. *)
Definition keep (p : pop) (zs : list Z) : pop * res unit :=
  match p_ind p with
  | None => (p, Err AttributeError)               (* None.shape *)
  | Some inds =>
      match norm_idxs (length inds) zs with
      | Err e => (p, Err e)
      | Ok idxs =>
          let m := mask_set (repeat false (length inds)) idxs true in
          mask_rest m (mkPop (p_nc p) (Some (mask_sel m inds)) (p_obj p) (p_fit p) (p_con p) (p_unc p))
      end
  end.

(** Population.py:197-216 [delete]; lines 209-210 turn an empty result into None. *)
Definition delete (p : pop) (zs : list Z) : pop * res unit :=
  match p_ind p with
  | None => (p, Err AttributeError)
  | Some inds =>
      match norm_idxs (length inds) zs with
      | Err e => (p, Err e)
      | Ok idxs =>
          let m := mask_set (repeat true (length inds)) idxs false in
          let inds' := mask_sel m inds in
          mask_rest m (mkPop (p_nc p) (match inds' with [] => None | _ => Some inds' end)
                             (p_obj p) (p_fit p) (p_con p) (p_unc p))
      end
  end.

(** [a[indices, :] = row] *)
Definition col_set {A} (zs : list Z) (x : A) (a : option (list A)) : res (list A) :=
  match a with
  | None => Err TypeError
  | Some l => bind (norm_idxs (length l) zs)
                   (fun idxs => Ok (fold_left (fun acc i => set_nth i x acc) idxs l))
  end.

(** The one-row evaluation handed to [replace]. *)
Record result1 := mkRes1 { r1_obj : O; r1_fit : F; r1_con : option C; r1_unc : option U }.

(** Population.py:253-272 [replace]. A constraint (uncertainity) column that exists while the
    evaluation has none would store NaN/raise; answered [Unmodelled] (excluded by the contract). *)
Definition replace (p : pop) (zs : list Z) (i : I) (r : result1) : pop * res unit :=
  match col_set zs i (p_ind p) with
  | Err e => (p, Err e)
  | Ok inds =>
    let p1 := mkPop (p_nc p) (Some inds) (p_obj p) (p_fit p) (p_con p) (p_unc p) in
    match col_set zs (r1_obj r) (p_obj p) with
    | Err e => (p1, Err e)
    | Ok objs =>
      let p2 := mkPop (p_nc p) (Some inds) (Some objs) (p_fit p) (p_con p) (p_unc p) in
      match col_set zs (r1_fit r) (p_fit p) with
      | Err e => (p2, Err e)
      | Ok fits =>
        let p3 := mkPop (p_nc p) (Some inds) (Some objs) (Some fits) (p_con p) (p_unc p) in
        match (match p_con p, r1_con r with
               | None, _ => Ok None
               | Some _, Some c => bind (col_set zs c (p_con p)) (fun x => Ok (Some x))
               | Some _, None => Err Unmodelled
               end) with
        | Err e => (p3, Err e)
        | Ok con =>
          let p4 := mkPop (p_nc p) (Some inds) (Some objs) (Some fits) con (p_unc p) in
          match (match p_unc p, r1_unc r with
                 | None, _ => Ok None
                 | Some _, Some u => bind (col_set zs u (p_unc p)) (fun x => Ok (Some x))
                 | Some _, None => Err Unmodelled
                 end) with
          | Err e => (p4, Err e)
          | Ok unc => (mkPop (p_nc p) (Some inds) (Some objs) (Some fits) con unc, Ok tt)
          end
        end
      end
    end
  end.

(** Population.py:293-294 [reevaluate_fitness]: the fitness column becomes what the problem computes from the stored objectives ([g]: the problem's
    fitness of one objective vector at that moment; problem/IOPIS.py:121-146). Before the first [add] the problem multiplies None and raises. *)
Definition reevaluate (p : pop) (g : O -> F) : pop * res unit :=
  match p_obj p with
  | None => (p, Err TypeError)
  | Some objs => (mkPop (p_nc p) (p_ind p) (p_obj p) (Some (map g objs)) (p_con p) (p_unc p), Ok tt)
  end.

(** Calls a user can make that change the columns. The [results] stand for what the
    external evaluator answered to that call. *)
Inductive op :=
| OpAdd (o : offs) (r : results)
| OpKeep (zs : list Z)
| OpDelete (zs : list Z)
| OpReplace (zs : list Z) (i : I) (r : result1)
| OpReeval (g : O -> F).

Definition outcome {A} (x : res A) : res unit :=
  match x with Ok _ => Ok tt | Err e => Err e end.

Definition step (p : pop) (o : op) : pop * res unit :=
  match o with
  | OpAdd o r => let (p', x) := add p o r in (p', outcome x)
  | OpKeep zs => keep p zs
  | OpDelete zs => delete p zs
  | OpReplace zs i r => replace p zs i r
  | OpReeval g => reevaluate p g
  end.

(** A caller that catches every exception and goes on. *)
Definition run (p : pop) (ops : list op) : pop := fold_left (fun q o => fst (step q o)) ops p.

End Pop.
Arguments results : clear implicits.
Arguments result1 : clear implicits.
Arguments offs : clear implicits.
Arguments pop : clear implicits.
Arguments op : clear implicits.

(** Population.py:274-291 [repair] of one decision vector (1-D array). The two [np.where]
    index sets are computed (lines 286-287) before the two assignments (288-289); a gene is
    [None] when NaN, and comparisons with NaN are False. Bounds are finite. *)
Open Scope Q_scope.
Definition qlt (a b : Q) : bool := negb (Qle_bool b a).
Definition gene := option Q.
Definition gene_gt (x : gene) (b : Q) : bool := match x with Some q => qlt b q | None => false end.
Definition gene_lt (x : gene) (b : Q) : bool := match x with Some q => qlt q b | None => false end.

Definition repair_gene (lb ub : Q) (x : gene) : gene :=
  let up := gene_gt x ub in
  let lo := gene_lt x lb in
  let x1 := if up then Some ub else x in
  if lo then Some lb else x1.

Fixpoint repair (lbs ubs : list Q) (xs : list gene) : list gene :=
  match lbs, ubs, xs with
  | l :: lbs', u :: ubs', x :: xs' => repair_gene l u x :: repair lbs' ubs' xs'
  | _, _, _ => []
  end.

(** [repair] of an argument of either rank. For a 2-D array lines 288-289 index the 1-D bound
    vectors with a pair of index arrays, an IndexError raised before anything is assigned. *)
Inductive decision := Vec (xs : list gene) | Mat (rows : list (list gene)).
Definition repair_call (lbs ubs : list Q) (d : decision) : res decision :=
  match d with
  | Vec xs => if Nat.eqb (length xs) (length lbs) && Nat.eqb (length lbs) (length ubs)
              then Ok (Vec (repair lbs ubs xs)) else Err ValueError  (* broadcasting error *)
  | Mat _ => Err IndexError
  end.
