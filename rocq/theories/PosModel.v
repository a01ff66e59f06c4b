(** Model of the style pos of pyx/graph/style.py (l.174-235), which takes the positions of points from the columns of the data.  The axes are given by their names
    (graph.axesnames, a list for each dimension) and by their functions convert, which have no value where Python raises ArithmeticError, ValueError or TypeError; the
    values of a point are of any type and are given by a function of the column name (all used columns are keys of the dictionary point, graph.py l.116, 125).
    Positions are rational numbers instead of floats. *)
From Coq Require Import String QArith List Bool Arith.
Import ListNotations.
Open Scope nat_scope.

Definition name := string.
(** dictionaries with names as keys; the latest value is the first *)
Fixpoint get (d : list (name * name)) (k : name) : option name := match d with (k', v) :: d => if String.eqb k k' then Some v else get d k | [] => None end.
(** usename, l.188-191 *)
Definition usename (usenames : list (name * name)) (a : name) : name := match get usenames a with Some u => u | None => a end.
(** poscolumnnames, vposmissing and axisnames of privatedata *)
Record pdata := mkpdata { cols : list (option name); missing : list nat; axisnames : list (name * name) }.
(** the loop over the columns, l.192-195 *)
Fixpoint columns_loop (u a : name) (columnnames : list name) (p : pdata) : pdata :=
  match columnnames with
  | c :: r => columns_loop u a r (if String.eqb u c then mkpdata (cols p ++ [Some c]) (missing p) ((c, a) :: axisnames p) else p)
  | [] => p
  end.
(** the loop over the axes of a dimension, l.187-195 *)
Fixpoint axes_loop (usenames : list (name * name)) (columnnames axes : list name) (p : pdata) : pdata :=
  match axes with
  | a :: r => axes_loop usenames columnnames r (columns_loop (usename usenames a) a columnnames p)
  | [] => p
  end.
(** the loop over the dimensions, l.186-200; None is the ValueError of l.197 *)
Fixpoint dims_loop (usenames : list (name * name)) (columnnames : list name) (count : nat) (axesnames : list (list name)) (p : pdata) : option pdata :=
  match axesnames with
  | axes :: r =>
      let p := axes_loop usenames columnnames axes p in
      if count + 1 <? List.length (cols p) then None
      else dims_loop usenames columnnames (S count) r
        (if List.length (cols p) <? count + 1 then mkpdata (cols p ++ [None]) (missing p ++ [count]) (axisnames p) else p)
  | [] => Some p
  end.
Definition somes {A} (l : list (option A)) : list A := flat_map (fun o => match o with Some x => [x] | None => [] end) l.
(** columnnames, l.180-207: privatedata and the returned list *)
Definition columnnames (usenames : list (name * name)) (axesnames : list (list name)) (columnnames : list name) : option (pdata * list name) :=
  match dims_loop usenames columnnames 0 axesnames (mkpdata [] [] []) with Some p => Some (p, somes (cols p)) | None => None end.
(** adjustaxis, l.209-211: the axis which is adjusted to the data of a column *)
Definition adjustaxis (p : pdata) (columnname : name) : option name := get (axisnames p) columnname.
(** enumerate *)
Definition enumerate {A} (l : list A) : list (nat * A) := combine (seq 0 (List.length l)) l.
(** initdrawpoints, l.213-220: pointpostmplist; l.217 fails with a KeyError if there is no axis *)
Definition initdrawpoints (p : pdata) : option (list (name * nat * name)) :=
  let list0 := fold_right (fun '(i, c) r => match get (axisnames p) c, r with Some a, Some r => Some ((c, i, a) :: r) | _, _ => None end) (Some []) (enumerate (somes (cols p))) in
  match list0 with
  | Some l => Some (fold_left (fun l m => map (fun '(c, i, a) => if m <=? i then (c, i + 1, a) else (c, i, a)) l) (missing p) l)
  | None => None
  end.
Fixpoint set_nth {A} (i : nat) (x : A) (l : list A) : list A := match i, l with 0, _ :: r => x :: r | S i, y :: r => y :: set_nth i x r | _, [] => [] end.
Section Draw.
Context {V : Type}.
Variables (convert : name -> V -> option Q) (epsilon : Q) (point : name -> V).
(** the values of sharedata: vpos, vposavailable, vposvalid *)
Record shared := mkshared { vpos : list (option Q); available : bool; valid : bool }.
Definition outside (v : Q) : bool := negb (Qle_bool (- epsilon) v) || negb (Qle_bool v (1 + epsilon)).
(** drawpoint, l.224-235 *)
Fixpoint draw_loop (l : list (name * nat * name)) (s : shared) : shared :=
  match l with
  | (c, i, a) :: r => draw_loop r
      match convert a (point c) with
      | None => mkshared (set_nth i None (vpos s)) false false
      | Some v => mkshared (set_nth i (Some v) (vpos s)) (available s) (if outside v then false else valid s)
      end
  | [] => s
  end.
Definition drawpoint (l : list (name * nat * name)) (s : shared) : shared := draw_loop l (mkshared (vpos s) true true).
End Draw.
(** vpos before the first point, l.216; the flags are not yet set then *)
Definition vpos0 (axesnames : list (list name)) : list (option Q) := repeat None (List.length axesnames).
