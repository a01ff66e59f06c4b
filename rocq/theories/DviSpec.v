(** The DVI standard (Knuth and Fuchs, documentation of DVItype, part 2) and the VF standard (documentation of VFtoVP):
    the commands, their bytes, and where they put glyphs and rules. *)
From Coq Require Import Reals ZArith List Bool.
From Verif Require Import ReaderSpec DviModel.
Import ListNotations.
Open Scope R_scope.

Inductive command :=
| SetChar (c : Z) | PutChar (c : Z) | SetRule (a b : Z) | PutRule (a b : Z) | Nop | Push | Pop
| Right (b : Z) | W0 | W (b : Z) | X0 | X (b : Z) | Down (b : Z) | Y0 | Y (b : Z) | Z0 | Zz (b : Z)
| Fnt (k : Z) | Xxx (t : list Z) | FntDef (k c s d : Z) (name : list Z).

(** the bytes of a command; most commands have forms with arguments of one to four bytes *)
Definition form (n : nat) : Prop := (1 <= n <= 4)%nat.
Definition ascii (t : list Z) : Prop := Forall (fun c => 0 <= c < 128)%Z t.
Inductive encodes : command -> list Z -> Prop :=
| e_char c : (0 <= c <= 127)%Z -> encodes (SetChar c) [c]
| e_set n c : form n -> inrange false n c -> encodes (SetChar c) ((127 + Z.of_nat n)%Z :: bigendian n c)
| e_setrule a b : inrange true 4 a -> inrange true 4 b -> encodes (SetRule a b) (132%Z :: bigendian 4 a ++ bigendian 4 b)
| e_put n c : form n -> inrange false n c -> encodes (PutChar c) ((132 + Z.of_nat n)%Z :: bigendian n c)
| e_putrule a b : inrange true 4 a -> inrange true 4 b -> encodes (PutRule a b) (137%Z :: bigendian 4 a ++ bigendian 4 b)
| e_nop : encodes Nop [138%Z]
| e_push : encodes Push [141%Z]
| e_pop : encodes Pop [142%Z]
| e_right n b : form n -> inrange true n b -> encodes (Right b) ((142 + Z.of_nat n)%Z :: bigendian n b)
| e_w0 : encodes W0 [147%Z]
| e_w n b : form n -> inrange true n b -> encodes (W b) ((147 + Z.of_nat n)%Z :: bigendian n b)
| e_x0 : encodes X0 [152%Z]
| e_x n b : form n -> inrange true n b -> encodes (X b) ((152 + Z.of_nat n)%Z :: bigendian n b)
| e_down n b : form n -> inrange true n b -> encodes (Down b) ((156 + Z.of_nat n)%Z :: bigendian n b)
| e_y0 : encodes Y0 [161%Z]
| e_y n b : form n -> inrange true n b -> encodes (Y b) ((161 + Z.of_nat n)%Z :: bigendian n b)
| e_z0 : encodes Z0 [166%Z]
| e_z n b : form n -> inrange true n b -> encodes (Zz b) ((166 + Z.of_nat n)%Z :: bigendian n b)
| e_fntnum k : (0 <= k <= 63)%Z -> encodes (Fnt k) [(171 + k)%Z]
| e_fnt n k : form n -> inrange (n =? 4)%nat n k -> encodes (Fnt k) ((234 + Z.of_nat n)%Z :: bigendian n k)
| e_xxx n t : form n -> inrange false n (Z.of_nat (length t)) -> ascii t -> encodes (Xxx t) ((238 + Z.of_nat n)%Z :: bigendian n (Z.of_nat (length t)) ++ t)
| e_fntdef n k c s d area name : form n -> inrange (n =? 4)%nat n k -> inrange true 4 c -> inrange true 4 s -> inrange true 4 d ->
    (length area < 256)%nat -> (length name < 256)%nat ->
    encodes (FntDef k c s d (area ++ name))
      ((242 + Z.of_nat n)%Z :: bigendian n k ++ bigendian 4 c ++ bigendian 4 s ++ bigendian 4 d ++ [Z.of_nat (length area); Z.of_nat (length name)] ++ area ++ name).
Inductive encoded : list command -> list Z -> Prop :=
| enc_nil : encoded [] []
| enc_cons c cs b bs : encodes c b -> encoded cs bs -> encoded (c :: cs) (b ++ bs).

(** Registers, current font and stack.  v grows downwards. *)
Record regs := mkregs { h : R; v : R; w : R; x : R; y : R; z : R }.
Record dvi := mkdvi { now : regs; saved : list regs; cur : option font; defs : list (Z * font) }.
(** What is put on the page, in DVI units: a glyph with its reference point, a rule with its lower left corner, height
    and width, and a special. *)
Inductive mark := Glyph (f : font) (c : Z) (mh mv : R) | Box (mh mv a b : R) | Note (t : list Z) (mh mv : R).

Section Standard.
  Variable tfm : R. (* DVI units per 2 ** -20 TeX points *)
  Variable load : list Z -> Z -> R -> R -> option font. (* the font for a name, checksum, size and design size *)

  Definition right (r : regs) (d : R) := mkregs (h r + d) (v r) (w r) (x r) (y r) (z r).
  Definition down (r : regs) (d : R) := mkregs (h r) (v r + d) (w r) (x r) (y r) (z r).
  Definition go (s : dvi) (r : regs) := mkdvi r (saved s) (cur s) (defs s).
  (** rules without height or width are not visible *)
  Definition rule (r : regs) (a b : R) : list mark := if Rlt_dec 0 a then if Rlt_dec 0 b then [Box (h r) (v r) a b] else [] else [].
  (** the specials for this program; others are ignored *)
  Definition notes (t : list Z) (r : regs) : list mark := if list_eq_dec Z.eq_dec (firstn 4 t) [80; 121; 88; 58]%Z then [Note t (h r) (v r)] else [].

  (** lengths are multiplied by [sc], which is 1 in DVI files; in virtual fonts they are relative to the font size *)
  Inductive exec : R -> dvi -> list command -> dvi -> list mark -> Prop :=
  | exec_nil sc s : exec sc s [] s []
  | exec_cons sc s c s1 m1 cs s2 m2 : perform sc s c s1 m1 -> exec sc s1 cs s2 m2 -> exec sc s (c :: cs) s2 (m1 ++ m2)
  with perform : R -> dvi -> command -> dvi -> list mark -> Prop :=
  | p_set sc s c f d m : cur s = Some f -> width_dvi f c = Some d -> shows f c (h (now s)) (v (now s)) m ->
      perform sc s (SetChar c) (go s (right (now s) (IZR d))) m
  | p_put sc s c f d m : cur s = Some f -> width_dvi f c = Some d -> shows f c (h (now s)) (v (now s)) m -> perform sc s (PutChar c) s m
  | p_setrule sc s a b : perform sc s (SetRule a b) (go s (right (now s) (sc * IZR b))) (rule (now s) (sc * IZR a) (sc * IZR b))
  | p_putrule sc s a b : perform sc s (PutRule a b) s (rule (now s) (sc * IZR a) (sc * IZR b))
  | p_nop sc s : perform sc s Nop s []
  | p_push sc s : perform sc s Push (mkdvi (now s) (now s :: saved s) (cur s) (defs s)) []
  | p_pop sc s r st : saved s = r :: st -> perform sc s Pop (mkdvi r st (cur s) (defs s)) []
  | p_right sc s b : perform sc s (Right b) (go s (right (now s) (sc * IZR b))) []
  | p_w0 sc s : perform sc s W0 (go s (right (now s) (w (now s)))) []
  | p_w sc s b : let r := now s in perform sc s (W b) (go s (right (mkregs (h r) (v r) (sc * IZR b) (x r) (y r) (z r)) (sc * IZR b))) []
  | p_x0 sc s : perform sc s X0 (go s (right (now s) (x (now s)))) []
  | p_x sc s b : let r := now s in perform sc s (X b) (go s (right (mkregs (h r) (v r) (w r) (sc * IZR b) (y r) (z r)) (sc * IZR b))) []
  | p_down sc s b : perform sc s (Down b) (go s (down (now s) (sc * IZR b))) []
  | p_y0 sc s : perform sc s Y0 (go s (down (now s) (y (now s)))) []
  | p_y sc s b : let r := now s in perform sc s (Y b) (go s (down (mkregs (h r) (v r) (w r) (x r) (sc * IZR b) (z r)) (sc * IZR b))) []
  | p_z0 sc s : perform sc s Z0 (go s (down (now s) (z (now s)))) []
  | p_z sc s b : let r := now s in perform sc s (Zz b) (go s (down (mkregs (h r) (v r) (w r) (x r) (y r) (sc * IZR b)) (sc * IZR b))) []
  | p_fnt sc s k f : getfont (defs s) k = Some f -> perform sc s (Fnt k) (mkdvi (now s) (saved s) (Some f) (defs s)) []
  | p_xxx sc s t : perform sc s (Xxx t) s (notes t (now s))
  | p_fntdef sc s k c q d name f : load name c (IZR q / tfm) (IZR d / tfm) = Some f ->
      perform sc s (FntDef k c q d name) (mkdvi (now s) (saved s) (cur s) (putfont (defs s) k f)) []
  (** a character of a virtual font is what its commands draw, beginning at the current position, with an empty stack, w, x, y
      and z zero and the font which is defined first *)
  with shows : font -> Z -> R -> R -> list mark -> Prop :=
  | show_tex n q wd c ph pv : shows (TeXfont n q wd) c ph pv [Glyph (TeXfont n q wd) c ph pv]
  | show_virtual n q wd chars k f fs c ph pv chunk cs s m : chars c = Some chunk -> encoded cs chunk ->
      exec (q * tfm / 1048576) (mkdvi (mkregs ph pv 0 0 0 0) [] (Some f) ((k, f) :: fs)) cs s m ->
      shows (Virtual n q wd chars ((k, f) :: fs)) c ph pv m.
End Standard.

(** The size of a DVI unit is num / den * 10 ** -7 m, times mag / 1000; a point is 1/72 of 0.0254 m. *)
Definition unit_pt (p : preamble) : R := num p / den p / 10000000 * (mag p / 1000) / (0.0254 / 72).

(** What is seen, in points and with y upwards; the glyphs of a text stand side by side. *)
Inductive seen := SeenGlyph (f : font) (c : Z) (sx sy : R) | SeenRule (sx sy sw sh : R) | SeenNote (t : list Z) (sx sy : R).
Definition on_paper (u : R) (m : mark) : seen :=
  match m with
  | Glyph f c a b => SeenGlyph f c (a * u) (- b * u)
  | Box a b hh ww => SeenRule (a * u) (- b * u) (ww * u) (hh * u)
  | Note t a b => SeenNote t (a * u) (- b * u)
  end.
Fixpoint side_by_side (u : R) (f : font) (px_ py_ : R) (codes : list Z) : list seen :=
  match codes with
  | [] => []
  | c :: r => SeenGlyph f c px_ py_ :: side_by_side u f (px_ + match width_dvi f c with Some d => IZR d * u | None => 0 end) py_ r
  end.
Definition look (u : R) (i : item) : list seen :=
  match i with
  | Text f a b codes => side_by_side u f a b codes
  | Rect a b ww hh => [SeenRule a b ww hh]
  | Special t a b => [SeenNote t a b]
  end.

(** ** Which commands the program treats as the standard says *)
Record flags := mkflags { fw : bool; fx : bool; fy : bool; fz : bool }.
(** In virtual fonts w0, x0, y0 and z0 are only allowed when the register was set in the same chunk before, and there
    are neither set_rule nor font definitions; no operation commands are not allowed at all. *)
Fixpoint allowed (vf : bool) (g : flags) (st : list flags) (cs : list command) : Prop :=
  match cs with
  | [] => True
  | c :: r =>
      match c with
      | Nop => False
      | SetRule _ _ | FntDef _ _ _ _ _ => vf = false /\ allowed vf g st r
      | Push => allowed vf g (g :: st) r
      | Pop => match st with [] => True | g' :: st' => allowed vf g' st' r end
      | W0 => fw g = true /\ allowed vf g st r
      | X0 => fx g = true /\ allowed vf g st r
      | Y0 => fy g = true /\ allowed vf g st r
      | Z0 => fz g = true /\ allowed vf g st r
      | W _ => allowed vf (mkflags true (fx g) (fy g) (fz g)) st r
      | X _ => allowed vf (mkflags (fw g) true (fy g) (fz g)) st r
      | Y _ => allowed vf (mkflags (fw g) (fx g) true (fz g)) st r
      | Zz _ => allowed vf (mkflags (fw g) (fx g) (fy g) true) st r
      | _ => allowed vf g st r
      end
  end.
(** Virtual fonts all of whose characters are like that and whose first font has the number 0; without magnification *)
Inductive good (p : preamble) : font -> Prop :=
| good_tex n q wd : good p (TeXfont n q wd)
| good_virtual n q wd chars f fs : mag p = 1000 -> (forall k g, In (k, g) ((0%Z, f) :: fs) -> good p g) ->
    (forall c chunk cs, chars c = Some chunk -> encoded cs chunk -> allowed true (mkflags false false false false) [] cs) ->
    good p (Virtual n q wd chars ((0%Z, f) :: fs)).
