(** Model of the sharing of arrays in desdeo_emo/population/Population.py and of the archived tables of EAs/BaseEA.py:105-133, 154-181:
    which numpy array object every attribute refers to, which statements make a new array and which write into an existing one.
    [heap]: the arrays (lists of rows) by address. Only the three archived columns are kept (problems without constraints and
    uncertainties), all with rows of one type. pandas.DataFrame(array) is taken to share the array (copy=None means no copy in the pandas 1.x/2.x line;
    a copying pandas satisfies all the positive statements trivially). The value-level model is M_Population.v. *)
From Verif Require Import Base M_Population.

Section Alias.
Context {V : Type}.

Record hst := mkH {
  heap : list (list V);
  c_ind : option nat; c_obj : option nat; c_fit : option nat;                 (* self.individuals, objectives, fitness *)
  shots : list (Z * (option nat * option nat * option nat)) }.                (* self.archive, newest first *)

Definition deref (h : list (list V)) (a : nat) : list V := nth a h [].
Definition off_rows (o : offs V) : list V := match o with OBatch l => l | OSingle i => [i] | OOther => [] end.

(** Population.py:143-175. The caller's array and the arrays of the evaluation result are the three newest ones ([length (heap s)] and the
    next two). A first [add] keeps references to them (lines 148-152), later ones build new arrays with np.vstack (159-172). *)
Definition hadd (s : hst) (o : offs V) (robj rfit : list V) : hst * res unit :=
  let n := length (heap s) in
  let h1 := heap s ++ [off_rows o; robj; rfit] in
  match c_ind s with
  | None => match o with
            | OBatch _ => (mkH h1 (Some n) (Some (n + 1)) (Some (n + 2)) (shots s), Ok tt)
            | _ => (mkH h1 None (c_obj s) (c_fit s) (shots s), Err Unmodelled)
            end
  | Some a =>
      let '(h2, ind') := match o with
                         | OOther => (h1, a)
                         | _ => (h1 ++ [deref h1 a ++ off_rows o], length h1)
                         end in
      match c_obj s with
      | None => (mkH h2 (Some ind') None (c_fit s) (shots s), Err ValueError)
      | Some b =>
          let h3 := h2 ++ [deref h2 b ++ robj] in
          match c_fit s with
          | None => (mkH h3 (Some ind') (Some (length h2)) None (shots s), Err ValueError)
          | Some c => (mkH (h3 ++ [deref h3 c ++ rfit]) (Some ind') (Some (length h2)) (Some (length h3)) (shots s), Ok tt)
          end
      end
  end.

(** [a[mask]] makes a new array. *)
Definition hmask (m : list bool) (h : list (list V)) (a : option nat) : res (list (list V) * nat) :=
  match a with
  | None => Err TypeError
  | Some x => if Nat.eqb (length m) (length (deref h x)) then Ok (h ++ [mask_sel m (deref h x)], length h) else Err IndexError
  end.
(** Population.py:190-191, 211-212. *)
Definition hmask_rest (m : list bool) (h : list (list V)) (ind : option nat) (s : hst) : hst * res unit :=
  match hmask m h (c_obj s) with
  | Err e => (mkH h ind (c_obj s) (c_fit s) (shots s), Err e)
  | Ok (h1, b) =>
      match hmask m h1 (c_fit s) with
      | Err e => (mkH h1 ind (Some b) (c_fit s) (shots s), Err e)
      | Ok (h2, c) => (mkH h2 ind (Some b) (Some c) (shots s), Ok tt)
      end
  end.
(** Population.py:177-195. *)
Definition hkeep (s : hst) (zs : list Z) : hst * res unit :=
  match c_ind s with
  | None => (s, Err AttributeError)
  | Some a =>
      match norm_idxs (length (deref (heap s) a)) zs with
      | Err e => (s, Err e)
      | Ok idxs =>
          let m := mask_set (repeat false (length (deref (heap s) a))) idxs true in
          hmask_rest m (heap s ++ [mask_sel m (deref (heap s) a)]) (Some (length (heap s))) s
      end
  end.
(** Population.py:197-216. *)
Definition hdelete (s : hst) (zs : list Z) : hst * res unit :=
  match c_ind s with
  | None => (s, Err AttributeError)
  | Some a =>
      match norm_idxs (length (deref (heap s) a)) zs with
      | Err e => (s, Err e)
      | Ok idxs =>
          let m := mask_set (repeat true (length (deref (heap s) a))) idxs false in
          let rows := mask_sel m (deref (heap s) a) in
          hmask_rest m (heap s ++ [rows]) (match rows with [] => None | _ => Some (length (heap s)) end) s
      end
  end.

(** [a[indices, :] = row] writes into the array. *)
Definition hset (zs : list Z) (x : V) (h : list (list V)) (a : option nat) : res (list (list V)) :=
  match a with
  | None => Err TypeError
  | Some p => bind (norm_idxs (length (deref h p)) zs)
                   (fun idxs => Ok (set_nth p (fold_left (fun acc i => set_nth i x acc) idxs (deref h p)) h))
  end.
(** Population.py:253-272. *)
Definition hreplace (s : hst) (zs : list Z) (i o f : V) : hst * res unit :=
  match hset zs i (heap s) (c_ind s) with
  | Err e => (s, Err e)
  | Ok h1 =>
      match hset zs o h1 (c_obj s) with
      | Err e => (mkH h1 (c_ind s) (c_obj s) (c_fit s) (shots s), Err e)
      | Ok h2 =>
          match hset zs f h2 (c_fit s) with
          | Err e => (mkH h2 (c_ind s) (c_obj s) (c_fit s) (shots s), Err e)
          | Ok h3 => (mkH h3 (c_ind s) (c_obj s) (c_fit s) (shots s), Ok tt)
          end
      end
  end.

(** Population.py:293-294; the problem builds a new array. *)
Definition hreeval (s : hst) (g : V -> V) : hst * res unit :=
  match c_obj s with
  | None => (s, Err TypeError)
  | Some b => (mkH (heap s ++ [map g (deref (heap s) b)]) (c_ind s) (c_obj s) (Some (length (heap s))) (shots s), Ok tt)
  end.

(** BaseEA.py:105-133, 154-181: tables over the current arrays, under the generation count. *)
Definition hsnap (s : hst) (g : Z) : hst := mkH (heap s) (c_ind s) (c_obj s) (c_fit s) ((g, (c_ind s, c_obj s, c_fit s)) :: shots s).

Inductive hop :=
| HAdd (o : offs V) (robj rfit : list V)
| HKeep (zs : list Z)
| HDelete (zs : list Z)
| HReplace (zs : list Z) (i o f : V)
| HReeval (g : V -> V)
| HSnap (g : Z).
Definition hstep (s : hst) (op : hop) : hst * res unit :=
  match op with
  | HAdd o ro rf => hadd s o ro rf
  | HKeep zs => hkeep s zs
  | HDelete zs => hdelete s zs
  | HReplace zs i o f => hreplace s zs i o f
  | HReeval g => hreeval s g
  | HSnap g => (hsnap s g, Ok tt)
  end.
(** A caller that catches every exception and goes on. *)
Definition hrun (s : hst) (ops : list hop) : hst := fold_left (fun q o => fst (hstep q o)) ops s.

(** Before the first [add] (Population.py:15-23). *)
Definition hfresh : hst := mkH [] None None None [].

End Alias.
Arguments hst : clear implicits.
Arguments hop : clear implicits.
