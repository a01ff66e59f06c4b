(** Model of pyx/color.py l.24-278: the color classes gray, rgb, hsb and cmyk with their range checks
    and conversions.  Floats are real numbers.  The conversions between rgb and hsb are those of the module
    colorsys of the Python standard library (functions rgb_to_hsv and hsv_to_rgb), transcribed
    here.  Output of colors is in CanvasModel.v, strings are in HexModel.v. *)
From Coq Require Import Reals.
Open Scope R_scope.

(** the four classes, l.69-78, l.112-126, l.188-202, l.228-245 *)
Inductive color := Gray (g : R) | RGB (r g b : R) | HSB (h s b : R) | CMYK (c m y k : R).
(** x<0 or x>1 raises a ValueError (None) *)
Definition check (x : R) (c : option color) : option color :=
  if Rlt_dec x 0 then None else if Rgt_dec x 1 then None else c.
Definition new_gray g := check g (Some (Gray g)).
Definition new_rgb r g b := check r (check g (check b (Some (RGB r g b)))).
Definition new_hsb h s b := check h (check s (check b (Some (HSB h s b)))).
Definition new_cmyk c m y k := check c (check m (check y (check k (Some (CMYK c m y k))))).
(** the functions under control of color.set, l.29-51 *)
Record device := { ucrc : R -> R; ucrm : R -> R; ucry : R -> R; bg : R -> R }.
Definition linear_device : device := {| ucrc := fun x => x; ucrm := fun x => x; ucry := fun x => x; bg := fun x => x |}.

(** colorsys.rgb_to_hsv; x % 1.0 is the fractional part *)
Definition rgb_to_hsv (r g b : R) : R * R * R :=
  let maxc := Rmax (Rmax r g) b in
  let minc := Rmin (Rmin r g) b in
  let rangec := maxc - minc in
  if Req_EM_T minc maxc then (0, 0, maxc)
  else let s := rangec / maxc in
       let rc := (maxc - r) / rangec in
       let gc := (maxc - g) / rangec in
       let bc := (maxc - b) / rangec in
       let h := if Req_EM_T r maxc then bc - gc
                else if Req_EM_T g maxc then 2 + rc - bc
                else 4 + gc - rc in
       (frac_part (h / 6), s, maxc).
(** colorsys.hsv_to_rgb; int() of a number that is not negative is the integer part *)
Definition hsv_to_rgb (h s v : R) : R * R * R :=
  if Req_EM_T s 0 then (v, v, v)
  else let i := Int_part (h * 6) in
       let f := h * 6 - IZR i in
       let p := v * (1 - s) in
       let q := v * (1 - s * f) in
       let t := v * (1 - s * (1 - f)) in
       match (i mod 6)%Z with
       | 0%Z => (v, t, p)
       | 1%Z => (q, v, p)
       | 2%Z => (p, v, t)
       | 3%Z => (p, q, v)
       | 4%Z => (t, p, v)
       | _ => (v, p, q)
       end.
Definition option_bind {A B} (o : option A) (f : A -> option B) : option B := match o with Some a => f a | None => None end.
(** the methods rgb, l.98-99, 155-156, 220-222, 266-272 *)
Definition to_rgb (x : color) : option color :=
  match x with
  | Gray g => new_rgb g g g
  | RGB r g b => new_rgb r g b
  | HSB h s b => let '(r, g, b) := hsv_to_rgb h s b in new_rgb r g b
  | CMYK c m y k => new_rgb (1 - Rmin 1 (c + k)) (1 - Rmin 1 (m + k)) (1 - Rmin 1 (y + k))
  end.
(** rgb.gray, l.147-148 *)
Definition rgb_gray (x : color) : option color :=
  match x with RGB r g b => new_gray (0.3 * r + 0.59 * g + 0.11 * b) | _ => None end.
(** the methods gray, l.91-92, 147-148, 213-214, 259-260 *)
Definition to_gray (x : color) : option color :=
  match x with
  | Gray g => new_gray g
  | RGB _ _ _ => rgb_gray x
  | HSB _ _ _ => option_bind (to_rgb x) rgb_gray
  | CMYK c m y k => new_gray (1 - Rmin 1 (0.3 * c + 0.59 * m + 0.11 * y + k))
  end.
(** rgb.cmyk, l.137-145 *)
Definition clamp x := Rmin 1 (Rmax 0 x).
Definition rgb_cmyk (d : device) (x : color) : option color :=
  match x with
  | RGB r g b => let c := 1 - r in let m := 1 - g in let y := 1 - b in
                 let k := Rmin (Rmin c m) y in
                 new_cmyk (clamp (c - ucrc d k)) (clamp (m - ucrm d k)) (clamp (y - ucry d k)) (bg d k)
  | _ => None
  end.
(** the methods cmyk, l.88-89, 137-145, 210-211, 256-257 *)
Definition to_cmyk (d : device) (x : color) : option color :=
  match x with
  | Gray g => new_cmyk 0 0 0 (1 - g)
  | RGB _ _ _ => rgb_cmyk d x
  | HSB _ _ _ => option_bind (to_rgb x) (rgb_cmyk d)
  | CMYK c m y k => new_cmyk c m y k
  end.
(** rgb.hsb, l.151-153 *)
Definition rgb_hsb (x : color) : option color :=
  match x with RGB r g b => let '(h, s, v) := rgb_to_hsv r g b in new_hsb h s v | _ => None end.
(** the methods hsb, l.95-96, 151-153, 217-218, 263-264 *)
Definition to_hsb (x : color) : option color :=
  match x with
  | Gray g => new_hsb 0 0 g
  | RGB _ _ _ => rgb_hsb x
  | HSB h s b => new_hsb h s b
  | CMYK _ _ _ _ => option_bind (to_rgb x) rgb_hsb
  end.
