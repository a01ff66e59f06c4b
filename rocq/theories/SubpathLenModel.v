(** The parameters of points at given arc lengths on normsubpaths of lines and curves (pyx/normpath.py). *)
From Coq Require Import Reals List.
From Verif Require Import CurveModel CurveLenModel.
Import ListNotations.
Open Scope R_scope.

(** _arclentoparam_pt of lines, l.173-176, and of curves, l.488-499, for one length; [None] is the ZeroDivisionError of l.176 and as in
    [curve_param] *)
Definition item_param (fuel : nat) (epsilon : R) (i : item) (length : R) : option (R * R) :=
  match i with
  | Line p q => if Req_EM_T (line_arclen p q) 0 then None else Some (length / line_arclen p q, line_arclen p q)
  | Curve p0 p1 p2 p3 => curve_param fuel (p0, p1, p2, p3) epsilon length
  end.
(** the loop of _arclentoparam_pt of a normsubpath, l.993-1001, for one length, since they do not depend on each other; k is the
    index of the item, length the remaining length *)
Fixpoint items_loop (fuel : nat) (epsilon : R) (k : nat) (items : list item) (length : R) (result : option R) (total : R) : option (option R * R) :=
  match items with
  | [] => Some (result, total)
  | i :: items' =>
      match item_param fuel epsilon i length with
      | None => None
      | Some (param, arclen) =>
          match result with
          | Some _ => items_loop fuel epsilon (S k) items' length result (total + arclen)
          | None =>
              let length := length - arclen in
              let result := if Rlt_dec length 0 then Some (INR k + param) else match items' with [] => Some (INR k + param) | _ => None end in
              items_loop fuel epsilon (S k) items' length result (total + arclen)
          end
      end
  end.
(** _arclentoparam_pt of a normsubpath, l.986-1003 *)
Definition subpath_param (fuel : nat) (epsilon : R) (items : list item) (length : R) : option (option R * R) :=
  items_loop fuel epsilon 0 items length None 0.
(** _arclentoparam_pt of a normpath, l.1648-1668, for one length: the index of the subpath and the parameter on it.  When the result is
    found the parameter on the next subpath is still computed before the loop ends.  All subpaths have the same epsilon. *)
Fixpoint subpaths_loop (fuel : nat) (epsilon : R) (k : nat) (subpaths : list (list item)) (length : R) (result : option (nat * option R))
  : option (option (nat * option R)) :=
  match subpaths with
  | [] => Some result
  | items :: subpaths' =>
      match subpath_param fuel epsilon items length with
      | None => None
      | Some (param, arclen) =>
          match result with
          | Some _ => Some result
          | None =>
              let length := length - arclen in
              subpaths_loop fuel epsilon (S k) subpaths' length
                (if Rlt_dec length 0 then Some (k, param) else match subpaths' with [] => Some (k, param) | _ => None end)
          end
      end
  end.
Definition path_param (fuel : nat) (epsilon : R) (subpaths : list (list item)) (length : R) : option (option (nat * option R)) :=
  subpaths_loop fuel epsilon 0 subpaths length None.
