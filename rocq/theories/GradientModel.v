(** Model of the color gradients of pyx/color.py, l.364-575.  Floats are real numbers; a ValueError of a color is None; [d] are the functions set by
    color.set (ColorModel). *)
From Coq Require Import Reals List.
From Verif Require Import ColorModel.
Open Scope R_scope.

(** a gradient is its method getcolor *)
Definition gradient := R -> option color.
(** gradient.select, l.375-381 *)
Definition select (g : gradient) (index n : nat) : option color :=
  g (if Nat.eqb n 1 then 0 else INR index / (INR n - 1)).
(** functiongradient_gray, _cmyk, _hsb, _rgb, l.389-460 *)
Definition function_gray (f : R -> R) : gradient := fun x => new_gray (f x).
Definition function_cmyk (c m y k : R -> R) : gradient := fun x => new_cmyk (c x) (m x) (y x) (k x).
Definition function_hsb (h s b : R -> R) : gradient := fun x => new_hsb (h x) (s x) (b x).
Definition function_rgb (r g b : R -> R) : gradient := fun x => new_rgb (r x) (g x) (b x).
(** the functions of lineargradient_cmyk, _gray, _hsb, _rgb, l.466-484 *)
Definition mix (mn mx x : R) : R := mx * x + mn * (1 - x).
(** l.466-484: the colors must be of the same class; otherwise there is no attribute (None) *)
Definition linear (mn mx : color) : gradient :=
  match mn, mx with
  | Gray a, Gray b => function_gray (mix a b)
  | RGB a b c, RGB a' b' c' => function_rgb (mix a a') (mix b b') (mix c c')
  | HSB a b c, HSB a' b' c' => function_hsb (mix a a') (mix b b') (mix c c')
  | CMYK a b c e, CMYK a' b' c' e' => function_cmyk (mix a a') (mix b b') (mix c c') (mix e e')
  | _, _ => fun _ => None
  end.
(** rgbgradient and cmykgradient, l.490-511 *)
Definition rgbgradient (g : gradient) : gradient := fun x => option_bind (g x) to_rgb.
Definition cmykgradient (d : device) (g : gradient) : gradient := fun x => option_bind (g x) (to_cmyk d).

(** the gradients with names, l.514-575 *)
Definition white := RGB 1 1 1. Definition black := RGB 0 0 0. Definition red := RGB 1 0 0. Definition green := RGB 0 1 0. Definition blue := RGB 0 0 1.
(** l.518-521 *)
Definition by_r (x : R) : R := 2 * x * (1 - x) ^ 5 + 3.5 * x ^ 2 * (1 - x) ^ 3 + 2.1 * x * x * (1 - x) ^ 2 + 3.0 * x ^ 3 * (1 - x) ^ 2 + sqrt x * (1 - (1 - x) ^ 2).
Definition by_g (x : R) : R := 1.5 * x ^ 2 * (1 - x) ^ 3 - 0.8 * x ^ 3 * (1 - x) ^ 2 + 2.0 * x ^ 4 * (1 - x) + x ^ 4.
Definition by_b (x : R) : R := 5 * x * (1 - x) ^ 5 - 0.5 * x ^ 2 * (1 - x) ^ 3 + 0.3 * x * x * (1 - x) ^ 2 + 5 * x ^ 3 * (1 - x) ^ 2 + 0.5 * x ^ 6.
(** l.522-525 *)
Definition yb_r (x : R) : R := 2 * (1 - x) * x ^ 5 + 3.5 * (1 - x) ^ 2 * x ^ 3 + 2.1 * (1 - x) * (1 - x) * x ^ 2 + 3.0 * (1 - x) ^ 3 * x ^ 2 + sqrt (1 - x) * (1 - x ^ 2).
Definition yb_g (x : R) : R := 1.5 * (1 - x) ^ 2 * x ^ 3 - 0.8 * (1 - x) ^ 3 * x ^ 2 + 2.0 * (1 - x) ^ 4 * x + (1 - x) ^ 4.
Definition yb_b (x : R) : R := 5 * (1 - x) * x ^ 5 - 0.5 * (1 - x) ^ 2 * x ^ 3 + 0.3 * (1 - x) * (1 - x) * x ^ 2 + 5 * (1 - x) ^ 3 * x ^ 2 + 0.5 * (1 - x) ^ 6.
(** l.556-571 *)
Definition below (x y : R) : bool := if Rlt_dec x y then true else false.
Definition jet_r (x : R) : R :=
  if below x 0.38 then 0 else if below x 0.62 then (x - 0.38) / (0.62 - 0.38) else if below x 0.87 then 1 else 0.5 + 0.5 * (1 - x) / (1 - 0.87).
Definition jet_g (x : R) : R :=
  if below x 0.13 then 0 else if below x 0.38 then (x - 0.13) / (0.38 - 0.13) else if below x 0.62 then 1
  else if below x 0.87 then (0.87 - x) / (0.87 - 0.62) else 0.
Definition jet_b (x : R) : R :=
  if below x 0.13 then 0.5 + 0.5 * x / 0.13 else if below x 0.38 then 1 else if below x 0.62 then 1 - (x - 0.38) / (0.62 - 0.38) else 0.
(** l.514-516 *)
Definition gGray := linear (Gray 1) (Gray 0). Definition gReverseGray := linear (Gray 0) (Gray 1).
(** l.518, 522 *)
Definition gBlackYellow := function_rgb by_r by_g by_b. Definition gYellowBlack := function_rgb yb_r yb_g yb_b.
(** l.526-543 *)
Definition gRedGreen := linear red green. Definition gRedBlue := linear red blue. Definition gGreenRed := linear green red. Definition gGreenBlue := linear green blue.
Definition gBlueRed := linear blue red. Definition gBlueGreen := linear blue green. Definition gRedBlack := linear red black. Definition gBlackRed := linear black red.
Definition gRedWhite := linear red white. Definition gWhiteRed := linear white red. Definition gGreenBlack := linear green black. Definition gBlackGreen := linear black green.
Definition gGreenWhite := linear green white. Definition gWhiteGreen := linear white green. Definition gBlueBlack := linear blue black. Definition gBlackBlue := linear black blue.
Definition gBlueWhite := linear blue white. Definition gWhiteBlue := linear white blue.
(** l.544-547 *)
Definition gRainbow := linear (HSB 0 1 1) (HSB (2.0 / 3.0) 1 1). Definition gReverseRainbow := linear (HSB (2.0 / 3.0) 1 1) (HSB 0 1 1).
Definition gHue := linear (HSB 0 1 1) (HSB 1 1 1). Definition gReverseHue := linear (HSB 1 1 1) (HSB 0 1 1).
(** l.572-573 *)
Definition gJet := function_rgb jet_r jet_g jet_b.
Definition gReverseJet := function_rgb (fun x => jet_r (1 - x)) (fun x => jet_g (1 - x)) (fun x => jet_b (1 - x)).
