(** Font map files and encoding files: dvi/mapfile.py and dvi/encfile.py.  Texts are lists of characters, as integers; the files are read as ASCII
    (l.170), so that white space is what is white space in ASCII. *)
From Coq Require Import ZArith List Bool Lia.
From Verif Require Import ReaderModel.
Import ListNotations.
Open Scope Z_scope.

Definition chars := list Z.
(** white space as in \s, split and rstrip: tab to carriage return, the four separators and the space *)
Definition isspace (c : Z) : bool := ((9 <=? c) && (c <=? 13)) || ((28 <=? c) && (c <=? 32)).
Fixpoint lstrip (s : chars) : chars := match s with [] => [] | c :: s' => if isspace c then lstrip s' else s end.
Definition rstrip (s : chars) : chars := rev (lstrip (rev s)).
Fixpoint chars_eqb (s t : chars) : bool :=
  match s, t with [], [] => true | c :: s', d :: t' => (c =? d) && chars_eqb s' t' | _, _ => false end.
Fixpoint startswith (p s : chars) : bool :=
  match p, s with [], _ => true | c :: p', d :: s' => (c =? d) && startswith p' s' | _, [] => false end.
Definition endswith (p s : chars) : bool := startswith (rev p) (rev s).

(** ** The tokens, mapfile.py l.44 and 60-70.  The first alternative of tokenpattern: the shortest text after a quotation mark with a quotation mark and
    white space behind it, or with a quotation mark at the end, or up to the end.  The line contains no newline (l.172-175), so that a point matches
    every character. *)
Fixpoint quoted (s : chars) : chars * chars :=
  match s with
  | [] => ([], [])
  | c :: s' =>
      if (c =? 34) && match s' with [] => true | d :: _ => isspace d end then ([], lstrip s')
      else let '(t, r) := quoted s' in (c :: t, r)
  end.
(** the second alternative: up to white space or the end *)
Fixpoint word (s : chars) : chars * chars :=
  match s with
  | [] => ([], [])
  | c :: s' => if isspace c then ([], lstrip s) else let '(t, r) := word s' in (c :: t, r)
  end.
Definition onetoken (s : chars) : chars * chars :=
  match s with
  | 34 :: s' => let '(t, r) := quoted s' in (34 :: t ++ [34], r)
  | _ => word s
  end.
(** each round consumes a character, so that fuel of the length of the line is enough *)
Fixpoint tokens (fuel : nat) (s : chars) : list chars :=
  match fuel, s with
  | S fuel, _ :: _ => let '(t, r) := onetoken s in t :: tokens fuel r
  | _, _ => []
  end.
Definition tokenize (s : chars) : list chars := tokens (length s) s.

(** split without arguments *)
Fixpoint split_words (fuel : nat) (s : chars) : list chars :=
  match fuel, lstrip s with
  | S fuel, (_ :: _) as s' => let '(t, r) := word s' in t :: split_words fuel r
  | _, _ => []
  end.
Definition split (s : chars) : list chars := split_words (length s) s.

(** ** MAPline, l.46-127 *)
Record mapline := mkline { texname : option chars; basepsname : option chars; fontfilename : option chars; encodingfilename : option chars;
  reencodefont : option chars; extendfont : option chars; slant : option chars }.
Definition set_texname v m := mkline v (basepsname m) (fontfilename m) (encodingfilename m) (reencodefont m) (extendfont m) (slant m).
Definition set_basepsname v m := mkline (texname m) v (fontfilename m) (encodingfilename m) (reencodefont m) (extendfont m) (slant m).
Definition set_font v m := mkline (texname m) (basepsname m) v (encodingfilename m) (reencodefont m) (extendfont m) (slant m).
Definition set_encoding v m := mkline (texname m) (basepsname m) (fontfilename m) v (reencodefont m) (extendfont m) (slant m).
Definition set_reencode v m := mkline (texname m) (basepsname m) (fontfilename m) (encodingfilename m) v (extendfont m) (slant m).
Definition set_extend v m := mkline (texname m) (basepsname m) (fontfilename m) (encodingfilename m) (reencodefont m) v (slant m).
Definition set_slant v m := mkline (texname m) (basepsname m) (fontfilename m) (encodingfilename m) (reencodefont m) (extendfont m) v.
Definition empty_line : mapline := mkline None None None None None None None.
(** the exceptions: UnsupportedFontFormat, UnsupportedPSFragment and the ValueError of float (l.118) *)
Inductive failure := BadFont | BadFragment | BadFloat.
Inductive result (A : Type) := Ok (a : A) | Fail (f : failure).
Arguments Ok {A}. Arguments Fail {A}.

(* ReEncodeFont, ExtendFont, SlantFont, .pfa, .pfb, .enc, .ttf, .t42 *)
Definition w_reencode : chars := [82; 101; 69; 110; 99; 111; 100; 101; 70; 111; 110; 116].
Definition w_extend : chars := [69; 120; 116; 101; 110; 100; 70; 111; 110; 116].
Definition w_slant : chars := [83; 108; 97; 110; 116; 70; 111; 110; 116].
Definition w_pfa : chars := [46; 112; 102; 97].
Definition w_pfb : chars := [46; 112; 102; 98].
Definition w_enc : chars := [46; 101; 110; 99].
Definition w_ttf : chars := [46; 116; 116; 102].
Definition w_t42 : chars := [46; 116; 52; 50].

(** the fragments of l.103-121; slant keeps the text of the number, isfloat says whether float accepts it *)
Fixpoint fragments (isfloat : chars -> bool) (pscode : list chars) (m : mapline) : result mapline :=
  match pscode with
  | [] => Ok m
  | [_] => Fail BadFragment
  | arg :: cmd :: pscode =>
      if chars_eqb cmd w_reencode then fragments isfloat pscode (set_reencode (Some arg) m)
      else if chars_eqb cmd w_extend then fragments isfloat pscode (set_extend (Some arg) m)
      else if chars_eqb cmd w_slant then (if isfloat arg then fragments isfloat pscode (set_slant (Some arg) m) else Fail BadFloat)
      else Fail BadFragment
  end.
(** the loop of l.72-125 *)
Fixpoint scan (isfloat : chars -> bool) (nextenc : bool) (ts : list chars) (m : mapline) : result mapline :=
  match ts with
  | [] => Ok m
  | t :: ts =>
      if nextenc then scan isfloat false ts (set_encoding (Some t) m)
      else if startswith [60] t then
        (if chars_eqb t [60] then scan isfloat true ts m
         else if startswith [60; 60] t then scan isfloat false ts (set_font (Some (skipn 2 t)) m)
         else if startswith [60; 91] t then scan isfloat false ts (set_encoding (Some (skipn 2 t)) m)
         else if endswith w_pfa t || endswith w_pfb t then scan isfloat false ts (set_font (Some (skipn 1 t)) m)
         else if endswith w_enc t then scan isfloat false ts (set_encoding (Some (skipn 1 t)) m)
         else if endswith w_ttf t then Fail BadFont
         else if endswith w_t42 t then Fail BadFont
         else scan isfloat false ts (set_font (Some (skipn 1 t)) m))
      else if startswith [34] t then
        match fragments isfloat (split (removelast (skipn 1 t))) m with Ok m => scan isfloat false ts m | Fail f => Fail f end
      else match texname m with None => scan isfloat false ts (set_texname (Some t) m) | Some _ => scan isfloat false ts (set_basepsname (Some t) m) end
  end.
Definition read_line (isfloat : chars -> bool) (s : chars) : result mapline :=
  match scan isfloat false (tokenize s) empty_line with
  | Ok m => Ok (match basepsname m with None => set_basepsname (texname m) m | Some _ => m end)
  | Fail f => Fail f
  end.

(** ** readfontmap, l.164-186.  The lines of all the files in order; the dictionary is a list of keys and values, the last assignment first.  None is
    the ValueError of l.118, which is not caught. *)
Definition is_comment_line (line : chars) : bool := match line with [] => true | c :: _ => existsb (Z.eqb c) [32; 37; 42; 59; 35] end.
Fixpoint readfontmap (isfloat : chars -> bool) (lines : list chars) (fontmap : list (option chars * mapline)) : option (list (option chars * mapline)) :=
  match lines with
  | [] => Some fontmap
  | line :: lines =>
      let line := rstrip line in
      if is_comment_line line then readfontmap isfloat lines fontmap
      else match read_line isfloat line with
           | Ok m => readfontmap isfloat lines ((texname m, m) :: fontmap)
           | Fail BadFloat => None
           | Fail _ => readfontmap isfloat lines fontmap
           end
  end.
Definition same_name (a b : option chars) : bool := match a, b with None, None => true | Some s, Some t => chars_eqb s t | _, _ => false end.
Definition lookup (name : option chars) (fontmap : list (option chars * mapline)) : option mapline := option_map snd (find (fun kv => same_name (fst kv) name) fontmap).

(** ** ENCfile, encfile.py l.30-51, for texts; None is an exception (the name ENCfileError is not defined, so that each of them is a NameError) *)
Definition expect (t : chars) (d : chars) : option chars :=
  match gettoken ps_str d with Some (t', d') => if chars_eqb t t' then Some d' else None | None => None end.
Fixpoint read_names (n : nat) (d : chars) : option (list chars * chars) :=
  match n with
  | O => Some ([], d)
  | S n =>
      match gettoken ps_str d with
      | Some (t, d') =>
          if chars_eqb t [93] then None
          else match t with
               | 47 :: name => match read_names n d' with Some (l, r) => Some (name :: l, r) | None => None end
               | _ => None
               end
      | None => None
      end
  end.
Definition encfile (data : chars) : option (chars * list chars) :=
  match new_tokenizer ps_str Z.eqb data (Some []) true with
  | None => None
  | Some d =>
      match gettoken ps_str d with
      | None => None
      | Some (name, d) =>
          match expect [91] d with
          | None => None
          | Some d =>
              match read_names 256 d with
              | None => None
              | Some (vector, d) =>
                  match expect [93] d with
                  | None => None
                  | Some d => match expect [100; 101; 102] d with None => None | Some _ => Some (name, vector) end
                  end
              end
          end
      end
  end.
