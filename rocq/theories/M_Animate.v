(** Model of desdeo_emo/utilities/plotlyanimate.py 1-473 (the animation of populations).
    A figure is the part of the plotly dictionary the functions fill: the first trace, the frames and the slider steps; colours, fonts and the other constant layout entries are
    dropped. [plot] (external) writes the figure to a file: the files are a map from names to figures; opening a browser and the printed lines (34-36) are dropped.
    Frame names are str(generation): as str is injective on integers they are represented by the integer. *)
From Verif Require Import Base.
From Coq Require Import QArith Qminmax String.
Open Scope nat_scope.

(** The argument [data]: a numpy array with its number of columns, a pandas frame with its column labels, or a list of lists. *)
Inductive label := IntLabel (n : nat) | StrLabel (s : string).
Inductive input :=
| Array (ncol : nat) (rows : list (list Q))
| Frame (labels : list label) (rows : list (list Q))
| PyList (rows : list (list Q)).

Record dimension := mkDim { d_label : label; d_min : Q; d_max : Q; d_values : list Q }.   (* label "f" + str(column); range; values *)
Inductive trace :=
| Scatter (x y : list Q)
| Scatter3d (x y z color : list Q)
| Parcoords (color : list Q) (cmin cmax : Q) (dimensions : list dimension).
Record frame := mkFrame { f_name : nat; f_trace : trace }.
Record figure := mkFig { f_data : list trace; f_frames : list frame; f_steps : list nat }.   (* steps: args [generation], label generation *)
Definition files := string -> option figure.
(** plotly.offline.plot(figure, filename=...). *)
Definition plot (fs : files) (filename : string) (fig : figure) : files := fun f => if String.eqb f filename then Some fig else fs f.

Definition column (j : nat) (rows : list (list Q)) : list Q := map (fun r => nth j r 0%Q) rows.
(** min / max of a pandas column: ValueError if empty. *)
Definition col_min (l : list Q) : res Q := match l with [] => Err ValueError | x :: t => Ok (fold_left Qmin t x) end.
Definition col_max (l : list Q) : res Q := match l with [] => Err ValueError | x :: t => Ok (fold_left Qmax t x) end.

(** plotlyanimate.py:26, 66: data.shape[1]. *)
Definition numobj (d : input) : res nat :=
  match d with Array n _ => Ok n | Frame ls _ => Ok (List.length ls) | PyList _ => Err AttributeError end.
(** plotlyanimate.py:126-136, 170-179 and 250-262, 296-308. Indexing a pandas frame as [data[:, 0]] raises (pandas' InvalidIndexError, here TypeError). *)
Definition trace_2d (d : input) : res trace :=
  match d with Array _ rows => Ok (Scatter (column 0 rows) (column 1 rows)) | Frame _ _ => Err TypeError | PyList _ => Err TypeError end.
Definition trace_3d (d : input) : res trace :=
  match d with
  | Array _ rows => Ok (Scatter3d (column 0 rows) (column 1 rows) (column 2 rows) (column 2 rows))
  | Frame _ _ => Err TypeError | PyList _ => Err TypeError
  end.
(** pd.DataFrame(data): an array gets the column labels 0, 1, ...; a frame keeps its own. *)
Definition as_frame (d : input) : list label * list (list Q) :=
  match d with
  | Array n rows => (map IntLabel (seq 0 n), rows)
  | Frame ls rows => (ls, rows)
  | PyList rows => (map IntLabel (seq 0 (List.length (hd [] rows))), rows)
  end.
Definition make_dim (rows : list (list Q)) (p : nat * label) : res dimension :=
  bind (col_min (column (fst p) rows)) (fun lo => bind (col_max (column (fst p) rows)) (fun hi => Ok (mkDim (snd p) lo hi (column (fst p) rows)))).
Fixpoint sequence {A} (l : list (res A)) : res (list A) :=
  match l with [] => Ok [] | r :: t => bind r (fun a => bind (sequence t) (fun b => Ok (a :: b))) end.
Definition label_eqb (a b : label) : bool := match a, b with IntLabel n, IntLabel m => Nat.eqb n m | StrLabel s, StrLabel t => String.eqb s t | _, _ => false end.
Fixpoint position {A} (f : A -> bool) (l : list A) : option nat := match l with [] => None | x :: t => if f x then Some 0 else option_map S (position f t) end.
(** plotlyanimate.py:372-389, 425-441: the colour is the column labelled 0 (KeyError if there is none), its range that of the first column. *)
Definition trace_par (d : input) : res trace :=
  let '(ls, rows) := as_frame d in
  bind (sequence (map (make_dim rows) (combine (seq 0 (List.length ls)) ls))) (fun dims =>
  match position (label_eqb (IntLabel 0)) ls with
  | None => Err KeyError
  | Some c => bind (col_min (column 0 rows)) (fun lo => bind (col_max (column 0 rows)) (fun hi => Ok (Parcoords (column c rows) lo hi dims)))
  end).

(** plotlyanimate.py:165-195, 291-324, 421-458: build the trace, then append the frame and the slider step and save. Whatever raises does so before the first append, so the caller's
    figure object is unchanged. *)
Definition next_with (t : res trace) (fs : files) (fig : figure) (filename : string) (generation : nat) : files * figure * res unit :=
  match t with
  | Err e => (fs, fig, Err e)
  | Ok tr => let fig' := mkFig (f_data fig) (f_frames fig ++ [mkFrame generation tr]) (f_steps fig ++ [generation]) in (plot fs filename fig', fig', Ok tt)
  end.
(** plotlyanimate.py:99-138, 217-265, 345-392: the new figure is saved, then the zeroth frame appended. *)
Definition init_with (t : res trace) (fs : files) (filename : string) : files * res figure :=
  match t with
  | Err e => (fs, Err e)
  | Ok tr => let fig := mkFig [tr] [] [] in
             match next_with t (plot fs filename fig) fig filename 0 with
             | (fs', fig', Ok tt) => (fs', Ok fig')
             | (fs', _, Err e) => (fs', Err e)
             end
  end.
(** plotlyanimate.py:26-36 animate_init_. [figure] is unbound for fewer than two objectives. *)
Definition animate_init (fs : files) (d : input) (filename : string) : files * res figure :=
  match numobj d with
  | Err e => (fs, Err e)
  | Ok n => if Nat.eqb n 2 then init_with (trace_2d d) fs filename
            else if Nat.eqb n 3 then init_with (trace_3d d) fs filename
            else if Nat.leb 4 n then init_with (trace_par d) fs filename
            else (fs, Err UnboundLocalError)
  end.
(** plotlyanimate.py:66-76 animate_next_; the last component: what the caller's figure object is afterwards (the functions return the same object). *)
Definition animate_next (fs : files) (d : input) (fig : figure) (filename : string) (generation : option nat) : files * figure * res unit :=
  match numobj d with
  | Err e => (fs, fig, Err e)
  | Ok n => let g := match generation with None => List.length (f_frames fig) | Some g => g end in
            if Nat.eqb n 2 then next_with (trace_2d d) fs fig filename g
            else if Nat.eqb n 3 then next_with (trace_3d d) fs fig filename g
            else if Nat.leb 4 n then next_with (trace_par d) fs fig filename g
            else (fs, fig, Ok tt)
  end.

(** How the surrogate trainings use it (EvoDN2.py:115-123, BioGP.py:389-420): one call after every iteration. [calls]: the population and the generation passed. *)
Definition animate_run (fs : files) (fig : figure) (filename : string) (calls : list (input * option nat)) : files * figure :=
  fold_left (fun st c => let '(fs', fig', _) := animate_next (fst st) (fst c) (snd st) filename (snd c) in (fs', fig')) calls (fs, fig).
