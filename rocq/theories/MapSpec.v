(** Lines of font map files and what they say. *)
From Coq Require Import ZArith List Bool Lia.
Import ListNotations.
Open Scope Z_scope.

Definition text := list Z.
(** white space of ASCII *)
Definition space (c : Z) : Prop := 9 <= c <= 13 \/ 28 <= c <= 32.
Definition plain (s : text) : Prop := Forall (fun c => ~ space c) s.
(** words with white space between them *)
Inductive spaced : list text -> text -> Prop :=
| spaced_nil ws : Forall space ws -> spaced [] ws
| spaced_cons ws w l t : Forall space ws -> w <> [] -> plain w -> spaced l t -> (t = [] \/ exists c t', t = c :: t' /\ space c) -> spaced (w :: l) (ws ++ w ++ t).

(** The entries of a line: a name, <<file, <[file, <file, < file (with white space), and quoted PostScript code.  60 is the less-than sign, 91 the
    opening bracket, 34 the quotation mark. *)
Inductive entry := Name (s : text) | Full (s : text) | Bracket (s : text) | File (s : text) | Separate (s : text) | Code (words : list text).
Definition first_not (l : list Z) (s : text) : Prop := match s with [] => False | c :: _ => ~ In c l end.
Inductive entry_text : entry -> text -> Prop :=
| text_name s : plain s -> first_not [60; 34] s -> entry_text (Name s) s
| text_full s : plain s -> entry_text (Full s) (60 :: 60 :: s)
| text_bracket s : plain s -> entry_text (Bracket s) (60 :: 91 :: s)
| text_file s : plain s -> first_not [60; 91] s -> entry_text (File s) (60 :: s)
| text_separate ws s : ws <> [] -> Forall space ws -> plain s -> first_not [34] s -> entry_text (Separate s) (60 :: ws ++ s)
| text_code l t : spaced l t -> (forall w, In w l -> ~ In 34 w) -> entry_text (Code l) (34 :: t ++ [34]).
(** the entries with white space between them *)
Inductive line_text : list entry -> text -> Prop :=
| line_nil : line_text [] []
| line_cons e s sep l t : entry_text e s -> Forall space sep -> line_text l t -> (sep <> [] \/ t = []) -> line_text (e :: l) (s ++ sep ++ t).

Definition same (s t : text) : bool := if list_eq_dec Z.eq_dec s t then true else false.
Definition suffix (p s : text) : bool := same (skipn (length s - length p) s) p.
(* .enc .ttf .t42 *)
Definition dot_enc : text := [46; 101; 110; 99].
Definition dot_ttf : text := [46; 116; 116; 102].
Definition dot_t42 : text := [46; 116; 52; 50].
(* ReEncodeFont, ExtendFont, SlantFont *)
Definition ReEncodeFont : text := [82; 101; 69; 110; 99; 111; 100; 101; 70; 111; 110; 116].
Definition ExtendFont : text := [69; 120; 116; 101; 110; 100; 70; 111; 110; 116].
Definition SlantFont : text := [83; 108; 97; 110; 116; 70; 111; 110; 116].

(** what is said about the names, the files and the fragments *)
Definition names (l : list entry) : list text := flat_map (fun e => match e with Name s => [s] | _ => [] end) l.
Definition fonts (l : list entry) : list text := flat_map (fun e => match e with Full s => [s] | File s => if suffix dot_enc s then [] else [s] | _ => [] end) l.
Definition encodings (l : list entry) : list text :=
  flat_map (fun e => match e with Bracket s => [s] | Separate s => [s] | File s => if suffix dot_enc s then [s] else [] | _ => [] end) l.
Fixpoint arguments (cmd : text) (words : list text) : list text :=
  match words with arg :: c :: words => (if same c cmd then [arg] else []) ++ arguments cmd words | _ => [] end.
Definition settings (cmd : text) (l : list entry) : list text := flat_map (fun e => match e with Code words => arguments cmd words | _ => [] end) l.
Definition last_of (l : list text) : option text := match l with [] => None | _ => Some (last l []) end.

Fixpoint supported_code (isfloat : text -> bool) (words : list text) : bool :=
  match words with
  | [] => true
  | [_] => false
  | arg :: c :: words => (same c ReEncodeFont || same c ExtendFont || (same c SlantFont && isfloat arg)) && supported_code isfloat words
  end.
Definition supported (isfloat : text -> bool) (e : entry) : bool :=
  match e with File s => negb (suffix dot_ttf s || suffix dot_t42 s) | Code words => supported_code isfloat words | _ => true end.
