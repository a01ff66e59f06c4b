(** How texts are to be set: one behind the other, with minus signs on the axis of formulas, and stacks of texts. *)
From Coq Require Import Reals ZArith List Bool.
From Verif Require Import UnicodeTextModel.
Import ListNotations.
Open Scope R_scope.

(** the same letters, where a letter x may stand for a middle dot *)
Definition same_letters (s s' : text) : Prop := Forall2 (fun c c' => c' = c \/ (c = 183%Z /\ c' = 120%Z)) s s'.
(** the text which is seen, with a hyphen for each minus sign *)
Definition seen (l : list item) : text := List.concat (map (fun i => match i with Glyphs _ _ _ s _ => s | Rule _ _ _ _ => [45%Z] end) l).
Definition hyphenless (s : text) : Prop := ~ In 45%Z s.
Definition sum (l : list R) : R := fold_right Rplus 0 l.

Section Spec.
Variable extent : text -> R -> option (R * R * R).
Variables thickness halfwidth axis length size : R.
(** the items stand one behind the other from x to x', with the height y and the size sz; minus signs are centered in their place and on the axis *)
Inductive in_line (y sz : R) : R -> list item -> R -> Prop :=
| line_end x : in_line y sz x [] x
| line_glyphs x s w d h is x' : extent s sz = Some (w, d, h) -> in_line y sz (x + w) is x' -> in_line y sz x (Glyphs 0 x y s sz :: is) x'
| line_minus x rx ry is x' : rx + length * size / 2 = x + halfwidth * size -> ry + thickness * size / 2 = axis * size ->
    in_line y sz (x + 2 * (halfwidth * size)) is x' -> in_line y sz x (Rule rx ry (length * size) (thickness * size) :: is) x'.
(** a text with its scale and shift, from x to x + w *)
Definition text_set (mathmode : bool) (x : R) (t : rich) (is : list item) (w : R) : Prop :=
  in_line (r_shift t * size) (r_scale t * size) x is (x + w) /\ same_letters (r_text t) (seen is) /\
  (mathmode = true -> Forall (fun i => match i with Glyphs _ _ _ s _ => hyphenless s | _ => True end) is) /\
  (mathmode = false -> Forall (fun i => match i with Glyphs _ _ _ _ _ => True | _ => False end) is).
(** a text of a stack of width w at x: its left end is moved by the part align of the free space *)
Definition stack_line (x w shift align : R) (t : rich) (i : item) : Prop :=
  exists wt d h left, extent (r_text t) (r_scale t * size) = Some (wt, d, h) /\ wt <= w /\ i = Glyphs left x (r_shift t * size + shift) (r_text t) (r_scale t * size) /\
    x + left - x = align * (w - wt).
Definition stack_set (x : R) (ts : list rich) (frac : bool) (align : R) (is : list item) (w : R) : Prop :=
  exists lines, is = (if frac then [Rule x (axis * size - thickness * size / 2) w (thickness * size)] else []) ++ lines /\
    Forall2 (stack_line x w (if frac then axis * size else 0) align) ts lines /\
    (exists t d h, In t ts /\ extent (r_text t) (r_scale t * size) = Some (w, d, h)).
Definition element_set (mathmode : bool) (x : R) (e : element) (is : list item) (w : R) : Prop :=
  match e with
  | Str s => text_set mathmode x (mkrich s 1 0) is w
  | Rich t => text_set mathmode x t is w
  | Stacked ts frac align => stack_set x ts frac align is w
  end.
End Spec.
