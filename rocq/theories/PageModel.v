(** Model of page._process, pyx/document.py l.71-129: the bounding box of a page and the transformation of its content.
    Lengths are real numbers in points: all of them are converted by topt, which is linear (C01), or compared
    by tom, which is proportional to it.  The warnings are left out. *)
From Coq Require Import Reals Bool.
From Verif Require Import UnitModel TrafoModel BboxModel ArcModel.
Open Scope R_scope.

(** the attributes of a page used here, l.51-69; paperformat is its width and height *)
Record page := mkpage { paper : option (R * R); rotated : bool; centered : bool; fittosize : bool; margin : R; bboxenlarge : R; pagebbox : option bbox }.

Inductive outcome (A : Type) := Done (a : A) | MarginError | ZeroDivision.
Arguments Done {A} _. Arguments MarginError {A}. Arguments ZeroDivision {A}.

(** pagetrafo before fitting, l.87-99; [l], [b], [w], [h] are left, bottom, width and height of the bbox *)
Definition place (p : page) (W H l b w h : R) : trafo :=
  if rotated p then
    let t := tmul (translate_pt W 0) (mktrafo (cos (radians 90)) (- sin (radians 90)) (sin (radians 90)) (cos (radians 90)) 0 0) in
    if (centered p || fittosize p)%bool then tmul (translate_pt (- (1 / 2) * (W - h) + b) (1 / 2 * (H - w) - l)) t else t
  else translate_pt (1 / 2 * (W - w) - l) (1 / 2 * (H - h) - b).

(** l.101-115; the division by a width or height of zero is an exception *)
Definition fit (p : page) (W H w h : R) (t : trafo) : outcome trafo :=
  if fittosize p then
    if (ltb W (2 * margin p) || ltb H (2 * margin p))%bool then MarginError
    else
      let W' := W - 2 * margin p in
      let H' := H - 2 * margin p in
      if (eqb w 0 || eqb h 0)%bool then ZeroDivision
      else
        let s := if rotated p then Rmin (H' / w) (W' / h) else Rmin (W' / w) (H' / h) in
        Done (tmul (mktrafo s 0 0 s ((1 - s) * (margin p + 1 / 2 * W')) ((1 - s) * (margin p + 1 / 2 * H'))) t)
  else Done t.

(** l.71-122: the bbox after that and the transformation of the canvas, if there is one; [content] is
    the bbox of the canvas *)
Definition process_page (p : page) (content : bbox) : outcome (bbox * option trafo) :=
  let bb := match pagebbox p with
            | Some b => if nonempty b then b else enlarge_pt content (bboxenlarge p) None None None None
            | None => enlarge_pt content (bboxenlarge p) None None None None
            end in
  match paper p, llx bb with
  | Some (W, H), Some l =>
      if (rotated p || centered p || fittosize p)%bool then
        let w := urx bb - l in
        let h := ury bb - lly bb in
        match fit p W H w h (place p W H l (lly bb) w h) with
        | Done t => Done (transform bb t, Some t)
        | MarginError => MarginError
        | ZeroDivision => ZeroDivision
        end
      else Done (bb, None)
  | _, _ => Done (bb, None)
  end.
