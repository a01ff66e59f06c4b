(** * Model of the placement of images: bitmap_trafo, bitmap_pt and jpegimage of pyx/bitmap.py

    Floats are real numbers; the rounding of the percent-f format in the output of matrices is not modelled.  The compression of
    the data and the hash are parameters. *)

From Coq Require Import Reals Bool List ZArith.
From Verif Require Import UnitModel TrafoModel.
Import ListNotations.
Open Scope R_scope.

(** ** bitmap_trafo *)
(** pstrafo in processPS, l.447, written as ImageMatrix, l.489 (trafo.__str__ writes the same numbers in the same order as
    processPS of transformations).  None is the TrafoException of a singular transformation. *)
Definition pstrafo (pdftrafo : trafo) (w h : R) : option trafo :=
  match followed (translate_pt 0 (-1)) (scale_pt w (Some (- h)) NoCentre), inverse pdftrafo with
  | Some a, Some b => Some (tmul a b)
  | _, _ => None
  end.
(** the ImageMatrix *)
Definition imagematrix (pdftrafo : trafo) (w h : R) : option (R * R * R * R * R * R) := option_map psmatrix (pstrafo pdftrafo w h).
(** processPDF, l.540-558: the matrix set before the image is drawn *)
Definition pdf_cm (pdftrafo : trafo) : R * R * R * R * R * R := pdfmatrix pdftrafo.
(** processSVG, l.558-573: x, y, width and height of the image element, and the transformation *)
Definition svg_image (pdftrafo : trafo) : (R * R * R * R) * (R * R * R * R * R * R) := ((0, -1, 1, 1), svgmatrix pdftrafo).
(** bbox, l.437-443: the corners which are included *)
Definition bbox_points (pdftrafo : trafo) : list (R * R) :=
  map (apply_pt pdftrafo) [(0, 0); (0, 1); (1, 0); (1, 1)].

(** ** bitmap_pt.__init__, l.578-602 *)
(** None are the ValueErrors, the missing dpi information and the divisions by zero *)
Definition over (a b : R) : option R := if Req_EM_T b 0 then None else Some (a / b).
Definition bitmap_size (imagewidth imageheight : R) (width height ratio : option R) (dpi : option (R * R)) : option (R * R) :=
  match width, height with
  | None, None =>
      match ratio, dpi with
      | None, Some (wd, hd) =>
          match over (72 * imagewidth) wd, over (72 * imageheight) hd with Some a, Some b => Some (a, b) | _, _ => None end
      | _, _ => None
      end
  | None, Some h =>
      match ratio with
      | None => match over (h * imagewidth) imageheight with Some w => Some (w, h) | None => None end
      | Some r => Some (r * h, h)
      end
  | Some w, None =>
      match ratio with
      | None => match over (w * imageheight) imagewidth with Some h => Some (w, h) | None => None end
      | Some r => match over 1 r with Some q => Some (w, q * w) | None => None end
      end
  | Some w, Some h => match ratio with None => Some (w, h) | Some _ => None end
  end.
Definition bitmap_trafo_of (xpos ypos : R) (size : R * R) : trafo := mktrafo (fst size) 0 0 (snd size) xpos ypos.

(** ** jpegimage.__init__, l.197-204: the dpi information of the JFIF header *)
Definition jpeg_dpi (dpikind : Z) (xdpi ydpi : R) : option (R * R) :=
  if (dpikind =? 1)%Z then Some (xdpi, ydpi) else if (dpikind =? 2)%Z then Some (xdpi * 2.54, ydpi * 2.45) else None.

(** ** The names of images in PDF, processPDF, l.538-548, with imagedata, l.359-433

    An image is given by its size, mode, color data and alpha data (all after the separation of the alpha channel). *)
Record pixels := mkpixels { pwidth : Z; pheight : Z; pmode : nat; pdata : list Z; palpha : option (list Z) }.
Section Names.
  Variable compress : list Z -> list Z.
  Variable Hash : Type.
  Variable sha1 : list Z -> Hash.
  (** imagehash, l.433, and the name (with the compressmode, which is the same for all images here) *)
  Definition image_name (p : pixels) : Hash := sha1 (compress (pdata p)).
  (** PDFregistry.add for objects of the same type, pdfwriter.py l.52-59, with PDFobject.merge, which keeps the first object:
      the images written to the file *)
  Variable same : Hash -> Hash -> bool.
  Fixpoint known (n : Hash) (l : list (Hash * pixels)) : option pixels :=
    match l with [] => None | (m, p) :: l' => if same m n then Some p else known n l' end.
  Definition add_image (l : list (Hash * pixels)) (p : pixels) : list (Hash * pixels) :=
    match known (image_name p) l with Some _ => l | None => l ++ [(image_name p, p)] end.
  Definition add_images (ps : list pixels) : list (Hash * pixels) := fold_left add_image ps [].
  (** what is drawn for an image on the page: the object of its name *)
  Definition shown (ps : list pixels) (p : pixels) : option pixels := known (image_name p) (add_images ps).
End Names.
