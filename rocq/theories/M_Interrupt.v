(** The methods of Population (Population.py) as sequences of assignments, for runs that are interrupted (Ctrl-C, a killed notebook cell) between two of them.
    Python delivers KeyboardInterrupt between bytecode instructions; each assignment below is one store (an attribute store, or for [replace] one fancy-index store, which numpy executes
    without giving control back). Interruptions inside numpy calls that have not stored anything yet have no effect and are the same as one before the store. *)
From Verif Require Import Base M_Population.
Section Interrupt.
Context {I O F C U : Type}.
Notation pop := (pop I O F C U).
(** One statement: it assigns one attribute or raises without effect. *)
Notation stmt := (pop -> res pop).
Definition set_ind (x : option (list I)) (p : pop) : pop := mkPop (p_nc p) x (p_obj p) (p_fit p) (p_con p) (p_unc p).
Definition set_obj (x : option (list O)) (p : pop) : pop := mkPop (p_nc p) (p_ind p) x (p_fit p) (p_con p) (p_unc p).
Definition set_fit (x : option (list F)) (p : pop) : pop := mkPop (p_nc p) (p_ind p) (p_obj p) x (p_con p) (p_unc p).
Definition set_con (x : option (list C)) (p : pop) : pop := mkPop (p_nc p) (p_ind p) (p_obj p) (p_fit p) x (p_unc p).
Definition set_unc (x : option (list U)) (p : pop) : pop := mkPop (p_nc p) (p_ind p) (p_obj p) (p_fit p) (p_con p) x.
Definition some {A B} (f : A -> B) (r : res A) : res B := match r with Ok a => Ok (f a) | Err e => Err e end.
(** Statements in order, until one raises. *)
Fixpoint exec (code : list stmt) (p : pop) : pop * res unit :=
  match code with
  | [] => (p, Ok tt)
  | a :: t => match a p with Ok p' => exec t p' | Err e => (p, Err e) end
  end.
(** The interrupt arrives after [n] statements. *)
Definition interrupted (n : nat) (code : list stmt) (p : pop) : pop := fst (exec (firstn n code) p).

(** Population.py:150-173; which branch is taken is decided on entry. *)
Definition add_code (o : offs I) (r : results O F C U) (p : pop) : list stmt :=
  match p_ind p with
  | None => match o with
            | OBatch l => [fun p => Ok (set_ind (Some l) p); fun p => Ok (set_obj (Some (r_obj r)) p); fun p => Ok (set_fit (Some (r_fit r)) p); fun p => Ok (set_con (r_con r) p); fun p => Ok (set_unc (r_unc r) p)]
            | _ => [fun _ => Err Unmodelled]
            end
  | Some inds =>
      [fun p => Ok (set_ind (Some (match o with OSingle i => inds ++ [i] | OBatch l => inds ++ l | OOther => inds end)) p);
       fun p => some (fun x => set_obj (Some x) p) (vstack (p_obj p) (Some (r_obj r)));
       fun p => some (fun x => set_fit (Some x) p) (vstack (p_fit p) (Some (r_fit r)))] ++
      (if Nat.eqb (p_nc p) 0 then [] else [fun p => some (fun x => set_con (Some x) p) (vstack (p_con p) (r_con r))]) ++
      [fun p => match r_unc r with None => Ok (set_unc None p) | Some us => some (fun x => set_unc (Some x) p) (vstack (p_unc p) (Some us)) end]
  end.
(** Population.py:189-195 and 211-216. *)
Definition rest_code (m : list bool) (p : pop) : list stmt :=
  [fun p => some (fun x => set_obj (Some x) p) (col_mask m (p_obj p)); fun p => some (fun x => set_fit (Some x) p) (col_mask m (p_fit p))] ++
  (match p_unc p with None => [] | Some _ => [fun p => some (fun x => set_unc (Some x) p) (col_mask m (p_unc p))] end) ++
  (if Nat.ltb 0 (p_nc p) then [fun p => some (fun x => set_con (Some x) p) (col_mask m (p_con p))] else []).
(** Population.py:186-195. *)
Definition keep_code (zs : list Z) (p : pop) : list stmt :=
  match p_ind p with
  | None => [fun _ => Err AttributeError]
  | Some inds => match norm_idxs (length inds) zs with
                 | Err e => [fun _ => Err e]
                 | Ok idxs => let m := mask_set (repeat false (length inds)) idxs true in (fun p => Ok (set_ind (Some (mask_sel m inds)) p)) :: rest_code m p
                 end
  end.
(** Population.py:206-216: the mask, then (209-210) None for nothing. *)
Definition delete_code (zs : list Z) (p : pop) : list stmt :=
  match p_ind p with
  | None => [fun _ => Err AttributeError]
  | Some inds => match norm_idxs (length inds) zs with
                 | Err e => [fun _ => Err e]
                 | Ok idxs => let m := mask_set (repeat true (length inds)) idxs false in
                     [fun p => Ok (set_ind (Some (mask_sel m inds)) p)] ++ (match mask_sel m inds with [] => [fun p => Ok (set_ind None p)] | _ => [] end) ++ rest_code m p
                 end
  end.
(** Population.py:265-272. *)
Definition replace_code (zs : list Z) (i : I) (r : result1 O F C U) (p : pop) : list stmt :=
  [fun p => some (fun x => set_ind (Some x) p) (col_set zs i (p_ind p)); fun p => some (fun x => set_obj (Some x) p) (col_set zs (r1_obj r) (p_obj p));
   fun p => some (fun x => set_fit (Some x) p) (col_set zs (r1_fit r) (p_fit p))] ++
  (match p_con p with None => [] | Some _ => [fun p => match r1_con r with Some c => some (fun x => set_con (Some x) p) (col_set zs c (p_con p)) | None => Err Unmodelled end] end) ++
  (match p_unc p with None => [] | Some _ => [fun p => match r1_unc r with Some u => some (fun x => set_unc (Some x) p) (col_set zs u (p_unc p)) | None => Err Unmodelled end] end).
Definition code_of (o : op I O F C U) (p : pop) : list stmt :=
  match o with
  | OpAdd o r => add_code o r p
  | OpKeep zs => keep_code zs p
  | OpDelete zs => delete_code zs p
  | OpReplace zs i r => replace_code zs i r p
  | OpReeval g => [fun p => match p_obj p with None => Err TypeError | Some objs => Ok (set_fit (Some (map g objs)) p) end]
  end.
End Interrupt.
