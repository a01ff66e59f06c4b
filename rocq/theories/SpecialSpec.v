(** Specials of DVI files: what a page with nested groups is *)
From Coq Require Import Ascii String ZArith Reals List.
From Verif Require Import TrafoModel ColorModel DviModel SpecialModel MapSpec.
Import ListNotations.
Open Scope R_scope.

(** A page: things that are drawn, markers, and groups with a color, a rotation or a scaling at a point *)
Inductive effect := Colored (c : color) | Rotated (angle x y : R) | Scaled (sx sy x y : R).
Inductive part := Drawn (n : node) | Mark (name : list Z) (p : R * R) | Group (e : effect) (l : list part).
(** where a point of a group is *)
Definition moved (e : effect) (p : R * R) : R * R :=
  match e with
  | Colored _ => p
  | Rotated a x y => let phi := a * PI / 180 in (x + cos phi * (fst p - x) - sin phi * (snd p - y), y + sin phi * (fst p - x) + cos phi * (snd p - y))
  | Scaled sx sy x y => (x + sx * (fst p - x), y + sy * (snd p - y))
  end.
(** a part within groups, the outermost first *)
Inductive within : list part -> list effect -> part -> Prop :=
| within_here l p : In p l -> within l [] p
| within_group l e g es p : In (Group e g) l -> within g es p -> within l (e :: es) p.
(** where a point within groups is on the page *)
Definition on_page (es : list effect) (p : R * R) : R * R := fold_right moved p es.
(** the names of all markers *)
Fixpoint names (p : part) : list (list Z) := match p with Drawn _ => [] | Mark n _ => [n] | Group _ l => flat_map names l end.
(** the colors and matrices of groups *)
Definition realises (e : effect) (tc : trafo * option color) : Prop :=
  (forall p, apply_pt (fst tc) p = moved e p) /\ snd tc = match e with Colored c => Some c | _ => None end.

(** what has been drawn for the parts, in their order *)
Inductive draws : list part -> list node -> Prop :=
| draws_nil : draws [] []
| draws_drawn n l r : draws l r -> draws (Drawn n :: l) (n :: r)
| draws_mark k p l r : draws l r -> draws (Mark k p :: l) r
| draws_group e t c g g' l r : realises e (t, c) -> draws g g' -> draws l r -> draws (Group e g :: l) (Sub t c g' :: r).

(** how a page is written in a DVI file, as the texts and positions of the specials *)
Section WRITTEN.
Variable says : list Z -> command -> Prop. (* the text of a special says a command *)
Inductive written : list part -> list item -> Prop :=
| written_nil : written [] []
| written_text l r f x y s : written l r -> written (Drawn (Leaf (Text f x y s)) :: l) (Text f x y s :: r)
| written_rect l r x y w h : written l r -> written (Drawn (Leaf (Rect x y w h)) :: l) (Rect x y w h :: r)
| written_eps l r e t x y : says t (Include e) -> written l r -> written (Drawn (Eps e x y) :: l) (Special t x y :: r)
| written_mark l r n t x y : says t (Marker n) -> written l r -> written (Mark n (x, y) :: l) (Special t x y :: r)
| written_group l r g i e t x y t' x' y' : begins t e x y -> written g i -> says t' End_ -> written l r -> written (Group e g :: l) (Special t x y :: i ++ Special t' x' y' :: r)
with begins : list Z -> effect -> R -> R -> Prop :=
| begins_color t c x y : says t (ColorBegin c) -> begins t (Colored c) x y
| begins_rotate t a x y : says t (RotateBegin a) -> begins t (Rotated a x y) x y
| begins_scale t sx sy x y : says t (ScaleBegin sx sy) -> begins t (Scaled sx sy x y) x y.
End WRITTEN.

(** the texts of specials: words with white space between them after PyX: *)
Definition key (s : string) : text := map (fun c => Z.of_nat (nat_of_ascii c)) (list_ascii_of_string s).
Definition alphanumeric (c : Z) : Prop := (48 <= c <= 57 \/ 65 <= c <= 90 \/ 97 <= c <= 122 \/ c = 64)%Z.
(** a decimal number without sign and exponent *)
Definition digit (c : Z) : Prop := (48 <= c <= 57)%Z.
Inductive numeral : text -> Prop :=
| numeral_int d : d <> [] -> Forall digit d -> numeral d
| numeral_dot d e : d <> [] \/ e <> [] -> Forall digit d -> Forall digit e -> numeral (d ++ 46%Z :: e).
(** numbers with commas between them *)
Fixpoint commas (l : list text) : text := match l with [] => [] | [w] => w | w :: r => w ++ 44%Z :: commas r end.
Section SAYS.
Variable fl : text -> option R.
Variable int : text -> option Z.
Variable named : text -> text -> option color.
Definition unit_interval (x : R) : Prop := 0 <= x <= 1.
Inductive color_words : list text -> color -> Prop :=
| words_cmyk a b c d w x y z : fl a = Some w -> fl b = Some x -> fl c = Some y -> fl d = Some z -> Forall unit_interval [w; x; y; z] -> color_words [key "cmyk"; a; b; c; d] (CMYK w x y z)
| words_gray a x : fl a = Some x -> unit_interval x -> color_words [key "gray"; a] (Gray x)
| words_hsb a b c x y z : fl a = Some x -> fl b = Some y -> fl c = Some z -> Forall unit_interval [x; y; z] -> color_words [key "hsb"; a; b; c] (HSB x y z)
| words_rgb a b c x y z : fl a = Some x -> fl b = Some y -> fl c = Some z -> Forall unit_interval [x; y; z] -> color_words [key "rgb"; a; b; c] (RGB x y z)
| words_RGB a b c x y z : int a = Some x -> int b = Some y -> int c = Some z -> (0 <= x <= 255)%Z -> (0 <= y <= 255)%Z -> (0 <= z <= 255)%Z -> color_words [key "RGB"; a; b; c] (RGB (IZR x / 255) (IZR y / 255) (IZR z / 255))
| words_named n c : named (key "cmyk") n = Some c -> color_words [key "texnamed"; n] c
| words_pyx (prefix : string) (m : string) (l : list text) (xs : list R) c :
    In prefix ["pyx.color."; "color."; ""]%string -> Forall numeral l -> Forall2 (fun t x => fl t = Some x) l xs -> Forall unit_interval xs ->
    match m, xs with "gray"%string, [g] => c = Gray g | "grey"%string, [g] => c = Gray g | "rgb"%string, [r; g; b] => c = RGB r g b | "hsb"%string, [h; s; b] => c = HSB h s b | "cmyk"%string, [w; x; y; z] => c = CMYK w x y z | _, _ => False end ->
    color_words [key "pyxcolor"; key prefix ++ key m ++ 40%Z :: commas l ++ [41%Z]] c
| words_pyx_named (prefix : string) (m : string) (n : text) c :
    In prefix ["pyx.color."; "color."; ""]%string -> In m ["gray"; "grey"; "rgb"; "hsb"; "cmyk"]%string -> match n with [] => False | a :: _ => a <> 40%Z end -> plain n -> named (key m) n = Some c ->
    color_words [key "pyxcolor"; key prefix ++ key m ++ 46%Z :: n] c.
Inductive words_say : list text -> command -> Prop :=
| say_color l c : color_words l c -> words_say (key "color_begin" :: l) (ColorBegin c)
| say_rotate a x : fl a = Some x -> words_say [key "rotate_begin"; a] (RotateBegin x)
| say_scale a b x y : fl a = Some x -> fl b = Some y -> words_say [key "scale_begin"; a; b] (ScaleBegin x y)
| say_end w : In w ["color_end"; "rotate_end"; "scale_end"]%string -> words_say [key w] End_
| say_include f x1 y1 x2 y2 w h cl a b c d w' h' cl' : (forall t, In t [f; x1; y1; x2; y2] \/ w = Some t \/ h = Some t \/ cl = Some t -> ~ In 61%Z t) ->
    fl x1 = Some a -> fl y1 = Some b -> fl x2 = Some c -> fl y2 = Some d -> option_map fl w = option_map Some w' -> option_map fl h = option_map Some h' -> option_map int cl = option_map Some cl' ->
    words_say ([key "epsinclude"; key "file=" ++ f; key "llx=" ++ x1; key "lly=" ++ y1; key "urx=" ++ x2; key "ury=" ++ y2] ++
      match w with Some t => [key "width=" ++ t] | None => [] end ++ match h with Some t => [key "height=" ++ t] | None => [] end ++ match cl with Some t => [key "clip=" ++ t] | None => [] end) (Include (mkeps f (a, b, c, d) w' h' cl'))
| say_marker n : Forall alphanumeric n -> words_say [key "marker"; n] (Marker n).
Definition special_says (t : list Z) (cmd : command) : Prop := exists ws s, words_say ws cmd /\ spaced ws s /\ t = key "PyX:" ++ s.
End SAYS.
