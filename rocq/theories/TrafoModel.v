(** Model of pyx/trafo.py (l.28-252) with real numbers for floats.

    Lengths given to the constructors are values of UnitModel.v, converted with topt.
    Exceptions (TrafoException, ZeroDivisionError) are [None]. *)
From Coq Require Import Reals.
From Verif Require Import UnitModel.
Open Scope R_scope.

(** trafo_pt, l.52-67: matrix ((a, b), (c, d)) and vector (e, f) *)
Record trafo := mktrafo { m00 : R; m01 : R; m10 : R; m11 : R; v0 : R; v1 : R }.

(** _rmatrix, _rvector, _mmatrix, l.28-47 *)
Definition radians (angle : R) : R := PI * angle / 180.
Definition rvector (angle x y : R) : R * R :=
  let phi := radians angle in
  ((1 - cos phi) * x + sin phi * y, - sin phi * x + (1 - cos phi) * y).

(** __mul__, l.68-89 *)
Definition tmul (s o : trafo) : trafo :=
  mktrafo (m00 s * m00 o + m01 s * m10 o) (m00 s * m01 o + m01 s * m11 o)
          (m10 s * m00 o + m11 s * m10 o) (m10 s * m01 o + m11 s * m11 o)
          (m00 s * v0 o + m01 s * v1 o + v0 s) (m10 s * v0 o + m11 s * v1 o + v1 s).

(** apply_pt, l.116-119 *)
Definition apply_pt (t : trafo) (p : R * R) : R * R :=
  (m00 t * fst p + m01 t * snd p + v0 t, m10 t * fst p + m11 t * snd p + v1 t).
(** apply, l.121-124: the result is a pair of true lengths *)
Definition apply (st : ustate) (t : trafo) (x y : pyval) : length * length :=
  let q := apply_pt t (topt st x, topt st y) in
  (lmul (new_length st 1 Tt (Some Upt)) (fst q), lmul (new_length st 1 Tt (Some Upt)) (snd q)).

(** inverse, l.129-134 *)
Definition det (t : trafo) : R := 1 * (m00 t * m11 t - m01 t * m10 t).
Definition inverse (t : trafo) : option trafo :=
  if Req_EM_T (det t) 0 then None
  else Some (tmul (mktrafo (m11 t / det t) (- m01 t / det t) (- m10 t / det t) (m00 t / det t) 0 0)
                  (mktrafo 1 0 0 1 (- v0 t) (- v1 t))).

(** the class trafo, l.164-170: the vector is converted to points *)
Definition new_trafo (st : ustate) (a b c d : R) (x y : pyval) : trafo := mktrafo a b c d (topt st x) (topt st y).
(** identity, l.176 *)
Definition identity (st : ustate) : trafo := new_trafo st 1 0 0 1 (Num 0) (Num 0).

(** mirror, l.178-180, with _mmatrix, l.41-47 *)
Definition mirror (st : ustate) (angle : R) : trafo :=
  let phi := radians angle in
  new_trafo st (cos phi * cos phi - sin phi * sin phi) (- 2 * sin phi * cos phi)
               (- 2 * sin phi * cos phi) (sin phi * sin phi - cos phi * cos phi) (Num 0) (Num 0).

(** The optional centre given by two optional arguments: an exception if only one is
    given (l.186-188, 197-199, 210-212, 222-224). *)
Inductive centre (A : Type) := NoCentre | Centre (x y : A) | HalfCentre.
Arguments NoCentre {A}. Arguments Centre {A} _ _. Arguments HalfCentre {A}.

(** rotate_pt, l.183-191 *)
Definition rotate_pt (angle : R) (c : centre R) : option trafo :=
  let phi := radians angle in
  match c with
  | HalfCentre => None
  | NoCentre => Some (mktrafo (cos phi) (- sin phi) (sin phi) (cos phi) 0 0)
  | Centre x y => Some (mktrafo (cos phi) (- sin phi) (sin phi) (cos phi) (fst (rvector angle x y)) (snd (rvector angle x y)))
  end.
(** rotate, l.194-202 *)
Definition rotate (st : ustate) (angle : R) (c : centre pyval) : option trafo :=
  rotate_pt angle (match c with NoCentre => NoCentre | HalfCentre => HalfCentre | Centre x y => Centre (topt st x) (topt st y) end).

(** scale_pt, l.205-214; sy=None means sx *)
Definition scale_pt (sx : R) (sy : option R) (c : centre R) : option trafo :=
  let sy := match sy with Some s => s | None => sx end in
  match c with
  | HalfCentre => None
  | NoCentre => Some (mktrafo sx 0 0 sy 0 0)
  | Centre x y => Some (mktrafo sx 0 0 sy ((1 - sx) * x) ((1 - sy) * y))
  end.
(** scale, l.217-226: (1-sx)*x is a length (or number) *)
Definition scale (st : ustate) (sx : R) (sy : option R) (c : centre pyval) : option trafo :=
  let sy := match sy with Some s => s | None => sx end in
  match c with
  | HalfCentre => None
  | NoCentre => Some (new_trafo st sx 0 0 sy (Num 0) (Num 0))
  | Centre x y =>
      match py_mul (Num (1 - sx)) x, py_mul (Num (1 - sy)) y with
      | Some x', Some y' => Some (new_trafo st sx 0 0 sy x' y')
      | _, _ => None
      end
  end.

(** slant_pt, l.229-234 *)
Definition slant_pt (st : ustate) (a angle : R) (c : centre R) : option trafo :=
  match rotate_pt (- angle) c, rotate_pt angle c with
  | Some r1, Some r2 => Some (tmul (tmul r1 (new_trafo st 1 a 0 1 (Num 0) (Num 0))) r2)
  | _, _ => None
  end.
(** slant, l.237-242: the vector of the product, a pair of numbers in points, is handed
    to the constructor of trafo, which takes it for lengths *)
Definition slant (st : ustate) (a angle : R) (c : centre pyval) : option trafo :=
  match rotate st (- angle) c, rotate st angle c with
  | Some r1, Some r2 =>
      let t := tmul (tmul r1 (new_trafo st 1 a 0 1 (Num 0) (Num 0))) r2 in
      Some (new_trafo st (m00 t) (m01 t) (m10 t) (m11 t) (Num (v0 t)) (Num (v1 t)))
  | _, _ => None
  end.

(** translate_pt and translate, l.245-252 *)
Definition translate_pt (x y : R) : trafo := mktrafo 1 0 0 1 x y.
Definition translate (st : ustate) (x y : pyval) : trafo := new_trafo st 1 0 0 1 x y.

(** mirrored, rotated_pt, rotated, ..., l.136-161: all of them are product with self on
    the right *)
Definition followed (self : trafo) (op : option trafo) : option trafo :=
  match op with Some o => Some (tmul o self) | None => None end.

(** the six numbers written by processPS (l.97-101), processPDF (l.103-107) and
    processSVGattrs (l.109-114), in this order; the rounding of the percent-f format is
    not modelled *)
Definition psmatrix (t : trafo) : R * R * R * R * R * R := (m00 t, m10 t, m01 t, m11 t, v0 t, v1 t).
Definition pdfmatrix (t : trafo) : R * R * R * R * R * R := (m00 t, m10 t, m01 t, m11 t, v0 t, v1 t).
Definition svgmatrix (t : trafo) : R * R * R * R * R * R := (m00 t, - m10 t, - m01 t, m11 t, v0 t, - v1 t).
