(** * Smoothed lines

    pyx/deformer.py, l.1727-1793: linesmoothed, on the model of MetaPost's paths (MpModel.v).  The normsubpath is given by
    what deformsubpath asks for: its first point, the end points of its items, whether it is closed, and the tangents of its
    two ends, which are rotation([0])[0].apply_pt(1, 0) and rotation([len(nsp)])[0].apply_pt(1, 0).  Coordinates are real
    numbers in points.  The conversion of the resulting path to a normpath in deform (l.1754-1758) is not modelled here. *)
From Coq Require Import Reals List Bool PeanoNat Lra Lia.
From Verif Require Import CurveModel PathModel MpModel.
Import ListNotations.
Local Open Scope R_scope.
Local Notation pt := (R * R)%type.

(** deformer.py, l.1729-1739: the parameters; a curl is None if the angle is to be taken from the path *)
Record linesmoothed := mksmoothed { s_tension : R; s_lcurl : option R; s_rcurl : option R }.
Definition new_linesmoothed (tension : R) (atleast : bool) (lcurl rcurl : option R) : linesmoothed :=
  mksmoothed (if atleast then - Rabs tension else Rabs tension) lcurl rcurl.

(** deformer.py, l.1741-1750: a changed copy; None is _marker.  The curls can be None on their own, hence two options. *)
Definition modified (s : linesmoothed) (tension : option R) (atleast : option bool) (lcurl rcurl : option (option R)) : linesmoothed :=
  new_linesmoothed (match tension with Some t => t | None => s_tension s end)
    (match atleast with Some b => b | None => if Rlt_dec (s_tension s) 0 then true else false end)
    (match lcurl with Some c => c | None => s_lcurl s end) (match rcurl with Some c => c | None => s_rcurl s end).

(** the normsubpath *)
Record nsubpath := mknsub { n_first : pt; n_ends : list pt; n_closed : bool; n_dir0 : pt; n_dir1 : pt }.

(** deformer.py, l.1766-1776: the first knot *)
Definition first_knot (s : linesmoothed) (n : nsubpath) : knot :=
  let (x, y) := n_first n in
  if n_closed n then smoothknot x y
  else match s_lcurl s with
       | None => beginknot x y 1 (Some (atan2 (snd (n_dir0 n)) (fst (n_dir0 n))))
       | Some c => beginknot x y c None
       end.
(** deformer.py, l.1785-1791: the last knot of an open subpath; its point is nsp.atend_pt(), the end of the last item *)
Definition last_knot (s : linesmoothed) (n : nsubpath) : knot :=
  let (x, y) := last (n_ends n) (n_first n) in
  match s_rcurl s with
  | None => endknot x y 1 (Some (atan2 (snd (n_dir1 n)) (fst (n_dir1 n))))
  | Some c => endknot x y c None
  end.
(** deformer.py, l.1760-1793: the elements handed to MetaPost's path.  Each knot comes with the curve behind it. *)
Definition smooth_elements (s : linesmoothed) (n : nsubpath) : elements :=
  let l := tensioncurve (s_tension s) false None None in
  (first_knot s n, Some l) :: map (fun p => (smoothknot (fst p) (snd p), Some l)) (removelast (n_ends n)) ++
  (if n_closed n then [] else [(last_knot s n, None)]).
(** eps is metapost's _epsilon; None is an exception *)
Definition deformsubpath (eps : R) (s : linesmoothed) (n : nsubpath) : option (list pathitem) := path_init eps (smooth_elements s n).
