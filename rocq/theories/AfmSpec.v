(** AFM files: the lines of an AFM file and what they say.  Numbers are what a function [fl] reads, with commas for points. *)
From Coq Require Import Ascii String ZArith QArith List Bool.
From Verif Require Import MapSpec AfmModel.
Import ListNotations.
Open Scope Z_scope.

Definition key (s : string) : text := map (fun c => Z.of_nat (nat_of_ascii c)) (list_ascii_of_string s).
(** a text that neither begins nor ends with white space *)
Definition trimmed (t : text) : Prop := match t with [] => False | c :: _ => ~ space c end /\ ~ space (last t 0).
(** a line with a text, ending with a newline *)
Definition padded (t raw : text) : Prop := exists pre post, Forall space pre /\ Forall space post /\ raw = pre ++ t ++ post ++ [10].
(** a key and its arguments *)
Inductive keyed : text -> text -> text -> Prop :=
| keyed_only k : k <> [] -> plain k -> keyed k [] k
| keyed_args k sep args : k <> [] -> plain k -> sep <> [] -> Forall space sep -> trimmed args -> keyed k args (k ++ sep ++ args).
Fixpoint joined (parts : list text) : text := match parts with [] => [] | [p] => p | p :: r => p ++ 59 :: joined r end.
Definition latest {A} (l : list A) : option A := match rev l with [] => None | x :: _ => Some x end.

Section FORMAT.
Variable fl : text -> option Q.
Variables int hex : text -> option Z.
Definition number (t : text) (x : Q) : Prop := fl (map (fun c => if c =? 44 then 46 else c) t) = Some x.
Definition numbers (t : text) (l : list Q) : Prop := exists ws, spaced ws t /\ Forall2 number ws l.
(** what a line of the character metrics says after the code *)
Inductive item := Width (second : bool) (w : Q * Q) | Vec (l : list Q) | Named (n : text) | Box (l : list Q) | Lig (successor ligature : text).
Inductive item_text : item -> text -> text -> Prop :=
| width_x k t x : In k [key "WX"; key "W0X"] -> number t x -> item_text (Width false (x, 0%Q)) k t
| width_y k t y : In k [key "WY"; key "W0Y"] -> number t y -> item_text (Width false (0%Q, y)) k t
| width_xy k t x y : In k [key "W"; key "W0"] -> numbers t [x; y] -> item_text (Width false (x, y)) k t
| width1_x t x : number t x -> item_text (Width true (x, 0%Q)) (key "W1X") t
| width1_y t y : number t y -> item_text (Width true (0%Q, y)) (key "W1Y") t
| width1_xy t x y : numbers t [x; y] -> item_text (Width true (x, y)) (key "W1") t
| vector_text t l : numbers t l -> List.length l = 2%nat -> item_text (Vec l) (key "VV") t
| named_text t : item_text (Named t) (key "N") t
| box_text t l : numbers t l -> List.length l = 4%nat -> item_text (Box l) (key "B") t
| lig_text s sep l : s <> [] -> plain s -> sep <> [] -> Forall space sep -> trimmed l -> item_text (Lig s l) (key "L") (s ++ sep ++ l).
Inductive code_text : Z -> text -> text -> Prop :=
| decimal t z : int t = Some z -> code_text z (key "C") t
| hexadecimal t z : hex t = Some z -> code_text z (key "CH") (60 :: t ++ [62]).
(** parts between semicolons *)
Definition part_of (s k args : text) : Prop := ~ In 59 s /\ args <> [] /\ exists pre t post, Forall space pre /\ Forall space post /\ keyed k args t /\ s = pre ++ t ++ post.
Inductive item_parts : list item -> list text -> Prop :=
| parts_nil : item_parts [] []
| parts_blank s l r : Forall space s -> item_parts l r -> item_parts l (s :: r)
| parts_item i k args s l r : part_of s k args -> item_text i k args -> item_parts l r -> item_parts (i :: l) (s :: r).
Definition char_line (c : Z * list item) (raw : text) : Prop :=
  exists k args s parts, part_of s k args /\ code_text (fst c) k args /\ item_parts (snd c) parts /\ trimmed (joined (s :: parts)) /\ padded (joined (s :: parts)) raw.
(** the metrics given by a line: later ones replace earlier ones, ligatures are collected *)
Definition char_of (c : Z * list item) : charmetrics :=
  {| ccode := fst c;
     width0 := latest (flat_map (fun i => match i with Width false w => [w] | _ => [] end) (snd c));
     width1 := latest (flat_map (fun i => match i with Width true w => [w] | _ => [] end) (snd c));
     cvector := latest (flat_map (fun i => match i with Vec l => [l] | _ => [] end) (snd c));
     cname := latest (flat_map (fun i => match i with Named n => [n] | _ => [] end) (snd c));
     cbbox := latest (flat_map (fun i => match i with Box l => [l] | _ => [] end) (snd c));
     cligatures := flat_map (fun i => match i with Lig s l => [(s, l)] | _ => [] end) (snd c) |}.
(** kerning pairs *)
Definition angled (t : text) (z : Z) : Prop := exists h, t = 60 :: h ++ [62] /\ hex h = Some z.
Inductive pair_text : kernpair -> text -> list text -> Prop :=
| pair_xy n1 n2 tx ty x y : number tx x -> number ty y -> pair_text (mkpair (ByName n1) (ByName n2) x y) (key "KP") [n1; n2; tx; ty]
| pair_hex t1 t2 c1 c2 tx ty x y : angled t1 c1 -> angled t2 c2 -> number tx x -> number ty y -> pair_text (mkpair (ByCode c1) (ByCode c2) x y) (key "KPH") [t1; t2; tx; ty]
| pair_x n1 n2 tx x : number tx x -> pair_text (mkpair (ByName n1) (ByName n2) x 0%Q) (key "KPX") [n1; n2; tx]
| pair_y n1 n2 ty y : number ty y -> pair_text (mkpair (ByName n1) (ByName n2) 0%Q y) (key "KPY") [n1; n2; ty].
Definition pair_line (p : kernpair) (raw : text) : Prop := exists k args t ws, keyed k args t /\ args <> [] /\ spaced ws args /\ pair_text p k ws /\ padded t raw.
(** lines of the header: attributes, attributes for the first direction, and what is to be ignored *)
Inductive header := Attr (k : string) (v : value) | DirAttr (k : string) (v : value) | Ignored.
Definition reserved : list string := ["Comment"; "MetricsSets"; "FontName"; "FullName"; "FamilyName"; "Weight"; "FontBBox"; "Version"; "Notice"; "EncodingScheme"; "MappingScheme"; "EscChar"; "CharacterSet"; "Characters";
  "IsBaseFont"; "VVector"; "IsFixedV"; "CapHeight"; "XHeight"; "Ascender"; "Descender"; "StdHW"; "StdVW"; "StartDirection"; "EndDirection"; "UnderlinePosition"; "UnderlineThickness"; "ItalicAngle"; "Charwidth"; "IsFixedPitch";
  "StartCharMetrics"; "StartKernData"; "StartComposites"; "EndFontMetrics"]%string.
Inductive header_text : header -> text -> text -> Prop :=
| head_str k t : In k ["FontName"; "FullName"; "FamilyName"; "Weight"; "Version"; "Notice"; "EncodingScheme"; "CharacterSet"]%string -> t <> [] -> header_text (Attr k (VStr t)) (key k) t
| head_int k t z : In k ["MappingScheme"; "EscChar"; "Characters"]%string -> t <> [] -> int t = Some z -> header_text (Attr k (VInt z)) (key k) t
| head_num k t x : In k ["CapHeight"; "XHeight"; "Ascender"; "Descender"; "StdHW"; "StdVW"]%string -> t <> [] -> number t x -> header_text (Attr k (VNum x)) (key k) t
| head_box t l : numbers t l -> List.length l = 4%nat -> header_text (Attr "FontBBox" (VNums l)) (key "FontBBox") t
| head_bool k (b : bool) : In k ["IsBaseFont"; "IsFixedV"]%string -> header_text (Attr k (VBool b)) (key k) (key (if b then "true" else "false"))
| dir_num k t x : In k ["UnderlinePosition"; "UnderlineThickness"; "ItalicAngle"]%string -> t <> [] -> number t x -> header_text (DirAttr k (VNum x)) (key k) t
| dir_width t l : numbers t l -> List.length l = 2%nat -> header_text (DirAttr "Charwidth" (VNums l)) (key "Charwidth") t
| dir_bool (b : bool) : header_text (DirAttr "IsFixedPitch" (VBool b)) (key "IsFixedPitch") (key (if b then "true" else "false"))
| ignored_comment t : header_text Ignored (key "Comment") t
| ignored_other k t : (forall s, In s reserved -> k <> key s) -> header_text Ignored k t.
Inductive header_line : header -> text -> Prop :=
| header_blank raw : padded [] raw -> header_line Ignored raw
| header_keyed h k args t raw : header_text h k args -> keyed k args t -> padded t raw -> header_line h raw.
(** a line with a key and a number *)
Definition section (k : string) (raw : text) : Prop := exists args t z, keyed (key k) args t /\ args <> [] /\ int args = Some z /\ padded t raw.
Definition bare (k : string) (raw : text) : Prop := padded (key k) raw.
Definition version_line (raw : text) : Prop := exists n1 n2 z1 z2 t, int n1 = Some z1 /\ int n2 = Some z2 /\ ~ In 46 n1 /\ ~ In 46 n2 /\ keyed (key "StartFontMetrics") (n1 ++ 46 :: n2) t /\ padded t raw.
End FORMAT.
