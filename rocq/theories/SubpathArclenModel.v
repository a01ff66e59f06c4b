(** The arc lengths up to parameters of normsubpaths and normpaths of lines and curves (pyx/normpath.py). *)
From Coq Require Import Reals List Arith.
From Verif Require Import CurveModel CurveArclenModel NormsubModel.
Import ListNotations.
Open Scope R_scope.

(** _paramtoarclen_pt of lines, l.316-319, and curves, l.584-588, for one parameter; lists of parameters of curves are in
    [curve_paramtoarclen] *)
Definition item_paramtoarclen (fuel : nat) (epsilon : R) (i : item) (t : R) : option (R * R) :=
  match i with
  | Line p q => Some (line_arclen p q * t, line_arclen p q * 1)
  | Curve p0 p1 p2 p3 =>
      match curve_paramtoarclen fuel p0 p1 p2 p3 [t] epsilon with
      | Some ([a], total) => Some (a, total)
      | _ => None
      end
  end.
(** the loop of _paramtoarclen_pt of a normsubpath, l.1252-1260, for one parameter, t on the item with this index *)
Fixpoint lengths_loop (fuel : nat) (epsilon : R) (k : nat) (items : list item) (index : nat) (t : R) (result : option R) (total : R) : option (option R * R) :=
  match items with
  | [] => Some (result, total)
  | i :: items' =>
      if (k =? index)%nat then
        match item_paramtoarclen fuel epsilon i t with
        | None => None
        | Some (a, arclen) => lengths_loop fuel epsilon (S k) items' index t (Some (total + a)) (total + arclen)
        end
      else
        match item_arclen fuel epsilon i with
        | None => None
        | Some arclen => lengths_loop fuel epsilon (S k) items' index t result (total + arclen)
        end
  end.
(** _paramtoarclen_pt of a normsubpath, l.1245-1261, for one parameter, with _distributeparams, l.848-869, as in [param_index] *)
Definition subpath_paramtoarclen (fuel : nat) (epsilon : R) (items : list item) (p : R) : option (option R * R) :=
  match items with
  | [] => Some (Some 0, 0)
  | _ => let index := param_index (length items) p in lengths_loop fuel epsilon 0 items index (p - INR index) None 0
  end.
(** arclen_pt of a normsubpath, l.982-984 *)
Fixpoint subpath_arclen (fuel : nat) (epsilon : R) (items : list item) : option R :=
  match items with
  | [] => Some 0
  | i :: items' => match item_arclen fuel epsilon i, subpath_arclen fuel epsilon items' with Some x, Some y => Some (x + y) | _, _ => None end
  end.
(** _paramtoarclen_pt of a normpath, l.1817-1831, for one parameter with the index of its subpath; the largest index, l.1822, is this
    one.  [None] also for the IndexError without this subpath.  All subpaths have the same epsilon. *)
Fixpoint path_paramtoarclen_one (fuel : nat) (epsilon : R) (subpaths : list (list item)) (index : nat) (p total : R) : option (option R) :=
  match subpaths with
  | [] => None
  | items :: subpaths' =>
      match index with
      | O => match subpath_paramtoarclen fuel epsilon items p with Some (a, _) => Some (option_map (fun a => total + a) a) | None => None end
      | S index' => match subpath_arclen fuel epsilon items with Some x => path_paramtoarclen_one fuel epsilon subpaths' index' p (total + x) | None => None end
      end
  end.
