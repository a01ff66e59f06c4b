(** Model of the alignment of polygons at circles, pyx/box.py l.82-102, 125-137 and 144-162.  Floats are real numbers, lengths are in points; polygons are those of BoxModel.v.
    Divisions by zero are not modelled (l.83-92 exclude them; a direction of no length is one at l.146). *)
From Coq Require Import Reals List Bool Arith.
From Verif Require Import BoxModel.
Import ListNotations.
Open Scope R_scope.

(** circlealignlinevector_pt, l.82-102, with the default epsilon=1e-10 *)
Definition circlealignline (c : point) (a dx dy : R) (e f : point) : align :=
  let gx := px e - px f in let gy := py e - py f in
  if ltb (gx * gx + gy * gy) eps then Nothing
  else
    let rsplit := (dx * gx + dy * gy) * 1 / (gx * gx + gy * gy) in
    let bx := dx - gx * rsplit in let by_ := dy - gy * rsplit in
    if ltb (bx * bx + by_ * by_) eps then Nothing
    else if ltb (bx * gy - by_ * gx) 0 then Nothing
    else
      let sfactor := sqrt ((dx * dx + dy * dy) / (bx * bx + by_ * by_)) in
      let b1 := a * bx * sfactor in let b2 := a * by_ * sfactor in
      let alpha := ((b1 + px c - px e) * dy - (b2 + py c - py e) * dx) * 1 / (gy * dx - gx * dy) in
      if ltb (0 - eps) alpha && ltb alpha (1 + eps)
      then let beta := ((px e - b1 - px c) * gy - (py e - b2 - py c) * gx) * 1 / (gx * dy - gy * dx) in Vector (beta * dx, beta * dy)
      else if ltb alpha 0 then UseE else UseF.
(** circlealignpointvector_pt, l.125-137, with the default epsilon=1e-10 *)
Definition circlealignpoint (c : point) (a dx dy : R) (p : point) : option point :=
  if ltb (a * a) eps then None
  else
    let pp := 2 * ((px p - px c) * dx + (py p - py c) * dy) in
    let q := (px p - px c) * (px p - px c) + (py p - py c) * (py p - py c) - a * a in
    if ltb (pp * pp / 4 - q) 0 then None
    else let alpha := if ltb 0 a then - pp / 2 + sqrt (pp * pp / 4 - q) else - pp / 2 - sqrt (pp * pp / 4 - q) in Some (alpha * dx, alpha * dy).
(** circlealignvector_pt, l.158-159 with alignvector_pt, l.144-156; None is the None of l.127 and l.132, an error in circlealign_pt, l.173 *)
Definition circlealignvector (p : polygon) (a dx0 dy0 : R) : option point :=
  let n := sqrt (dx0 * dx0 + dy0 * dy0) in
  let dx := dx0 / n in let dy := dy0 / n in
  let sp := successivepoints (corners p) in
  let linevectors := map (fun ps => circlealignline (center p) a dx dy (fst ps) (snd ps)) sp in
  match first_vector linevectors with
  | Some v => Some v
  | None =>
    match find (fun ij => let l1 := nth (fst ij) linevectors Nothing in let l2 := nth (snd ij) linevectors Nothing in
                          (negb (is_nothing l1) || negb (is_nothing l2)) && (is_f l1 || is_nothing l1) && (is_e l2 || is_nothing l2))
               (successivepointnumbers (length (corners p))) with
    | Some ij => circlealignpoint (center p) a dx dy (fst (nth (snd ij) sp ((0, 0), (0, 0))))
    | None => Some (a * dx, a * dy)
    end
  end.
(** circlealign_pt, l.172-174 *)
Definition circlealign (p : polygon) (a dx dy : R) : option polygon :=
  match circlealignvector p a dx dy with Some v => Some (transform (translation v) false p) | None => None end.
(** circlealignequal_pt, l.266-267 with genericalignequal_pt, l.256-264: the vector.  The outer None is the error of l.260 for a polygon
    without a vector, the inner None is the initial one of l.257, which stays for a polygon without a vector *)
Definition circlefarthest (a dx dy : R) (l : list polygon) : option (option point) :=
  fold_left (fun vec p => let v := circlealignvector p a dx dy in
    match vec, v with
    | None, _ => None
    | Some None, _ => Some v
    | Some (Some w), None => None
    | Some (Some w), Some u => Some (Some (if ltb (px w * dx + py w * dy) (px u * dx + py u * dy) then u else w))
    end) l (Some None).
(** l.262-263 *)
Definition circlealignequal (l : list polygon) (a dx dy : R) : option (list polygon) :=
  match circlefarthest a dx dy l with
  | Some (Some v) => Some (map (transform (translation v) false) l)
  | Some None => match l with [] => Some [] | _ => None end
  | None => None
  end.
