(** * Where images should be on the page

    Positions within the image are given by [i] from left to right, between 0 and the width, and [j] from top to bottom, between 0
    and the height (in the order of the data: first the uppermost line).  A matrix is the tuple of numbers (a, b, c, d, e, f) of
    PostScript, PDF and SVG: it maps (x, y) to (a x + c y + e, b x + d y + f). *)

From Coq Require Import Reals.
Open Scope R_scope.

Definition matrix_apply (m : R * R * R * R * R * R) (p : R * R) : R * R :=
  let '(a, b, c, d, e, f) := m in (a * fst p + c * snd p + e, b * fst p + d * snd p + f).

(** PostScript Language Reference 4.10.3: the ImageMatrix maps the user space to the image space *)
Definition ps_at (imagematrix : R * R * R * R * R * R) (ij p : R * R) : Prop := matrix_apply imagematrix p = ij.
(** PDF Reference 4.8.3: images fill the unit square of the user space, with the first line of data at its top *)
Definition pdf_at (cm : R * R * R * R * R * R) (w h : R) (ij p : R * R) : Prop :=
  p = matrix_apply cm (fst ij / w, 1 - snd ij / h).
(** SVG 1.1, 5.7: the image fills the rectangle x, y, width, height, with the first line at y (preserveAspectRatio none); the y
    coordinates of SVG point downwards *)
Definition svg_at (e : (R * R * R * R) * (R * R * R * R * R * R)) (w h : R) (ij p : R * R) : Prop :=
  let '(x, y, width, height) := fst e in
  matrix_apply (snd e) (x + width * (fst ij / w), y + height * (snd ij / h)) = (fst p, - snd p).
