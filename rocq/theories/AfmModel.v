(** Model of the reading of AFM files, pyx/font/afmfile.py l.869-1374, and of the numbers taken from them, l.1376-1380, 1405-1410 and 1413-1441.
    Texts are lists of characters as in MapModel.v, with the white space of ASCII.  Exceptions are None.  Floats are rational numbers;
    Python's float, int and int with base 16 on texts are the functions [fl], [int] and [hex], arbitrary ones with None as an exception. *)
From Coq Require Import Ascii String ZArith QArith List Bool.
From Verif Require Import MapModel.
Import ListNotations.
Open Scope Z_scope.

(** the characters of a keyword *)
Definition kw (s : string) : chars := map (fun c => Z.of_nat (nat_of_ascii c)) (list_ascii_of_string s).
Definition is (key : chars) (s : string) : bool := chars_eqb key (kw s).
(** strip *)
Definition strip (s : chars) : chars := rstrip (lstrip s).
(** split(None, 1): the first word and what follows *)
Definition split1 (s : chars) : option (chars * option chars) :=
  match lstrip s with
  | [] => None
  | s' => let '(w, r) := word s' in Some (w, match r with [] => None | _ => Some r end)
  end.
(** split of a character *)
Fixpoint split_on (c : Z) (s : chars) : list chars :=
  match s with
  | [] => [[]]
  | d :: r => if d =? c then [] :: split_on c r else match split_on c r with p :: ps => (d :: p) :: ps | [] => [[d]] end
  end.

(** AFMcharmetrics, l.933-946, AFMtrackkern, l.949-955, and AFMkernpair, l.958-963; glyphs of kerning pairs are names or codes (l.1281-1282) *)
Record charmetrics := mkchar { ccode : Z; width0 : option (Q * Q); width1 : option (Q * Q); cvector : option (list Q); cname : option chars; cbbox : option (list Q); cligatures : list (chars * chars) }.
Definition newchar (code : Z) : charmetrics := mkchar code None None None None None [].
Inductive glyph := ByName (n : chars) | ByCode (z : Z).
Definition glyph_eqb (a b : glyph) : bool := match a, b with ByName n, ByName m => chars_eqb n m | ByCode n, ByCode m => n =? m | _, _ => false end.
Record kernpair := mkpair { name1 : glyph; name2 : glyph; kx : Q; ky : Q }.
(** the attributes which are read by a key: texts, integers, floats, lists of floats and booleans *)
Inductive value := VStr (s : chars) | VInt (z : Z) | VNum (q : Q) | VNums (l : list Q) | VBool (b : bool).
(** the attributes of l.975-1010: those read by a key are lists of assignments, the last one first, with the key for the name of the attribute;
    so are the ones for a direction and the dictionaries *)
Record afm := mkafm { version : list Z; attrs : list (chars * value); dirattrs : list (Z * chars * value); expected : option Z;
  chars_ : option (list charmetrics); chardict : list (chars * charmetrics); tracks : option (list (option (Z * list Q)));
  pairs0 : option (list kernpair); pairs1 : option (list kernpair); pairdict0 : list (glyph * glyph * kernpair); pairdict1 : list (glyph * glyph * kernpair); composites : bool }.
Definition emptyafm : afm := mkafm [] [] [] None None [] None None None [] [] false.
Definition set_attr k v a := mkafm (version a) ((k, v) :: attrs a) (dirattrs a) (expected a) (chars_ a) (chardict a) (tracks a) (pairs0 a) (pairs1 a) (pairdict0 a) (pairdict1 a) (composites a).
Definition set_dirattr d k v a := mkafm (version a) (attrs a) ((d, k, v) :: dirattrs a) (expected a) (chars_ a) (chardict a) (tracks a) (pairs0 a) (pairs1 a) (pairdict0 a) (pairdict1 a) (composites a).
Definition set_version v a := mkafm v (attrs a) (dirattrs a) (expected a) (chars_ a) (chardict a) (tracks a) (pairs0 a) (pairs1 a) (pairdict0 a) (pairdict1 a) (composites a).
Definition set_expected v a := mkafm (version a) (attrs a) (dirattrs a) v (chars_ a) (chardict a) (tracks a) (pairs0 a) (pairs1 a) (pairdict0 a) (pairdict1 a) (composites a).
Definition set_chars v a := mkafm (version a) (attrs a) (dirattrs a) (expected a) v (chardict a) (tracks a) (pairs0 a) (pairs1 a) (pairdict0 a) (pairdict1 a) (composites a).
Definition set_chardict v a := mkafm (version a) (attrs a) (dirattrs a) (expected a) (chars_ a) v (tracks a) (pairs0 a) (pairs1 a) (pairdict0 a) (pairdict1 a) (composites a).
Definition set_tracks v a := mkafm (version a) (attrs a) (dirattrs a) (expected a) (chars_ a) (chardict a) v (pairs0 a) (pairs1 a) (pairdict0 a) (pairdict1 a) (composites a).
Definition set_pairs0 v a := mkafm (version a) (attrs a) (dirattrs a) (expected a) (chars_ a) (chardict a) (tracks a) v (pairs1 a) (pairdict0 a) (pairdict1 a) (composites a).
Definition set_pairs1 v a := mkafm (version a) (attrs a) (dirattrs a) (expected a) (chars_ a) (chardict a) (tracks a) (pairs0 a) v (pairdict0 a) (pairdict1 a) (composites a).
Definition set_pairdict0 v a := mkafm (version a) (attrs a) (dirattrs a) (expected a) (chars_ a) (chardict a) (tracks a) (pairs0 a) (pairs1 a) v (pairdict1 a) (composites a).
Definition set_pairdict1 v a := mkafm (version a) (attrs a) (dirattrs a) (expected a) (chars_ a) (chardict a) (tracks a) (pairs0 a) (pairs1 a) (pairdict0 a) v (composites a).
Definition set_composites v a := mkafm (version a) (attrs a) (dirattrs a) (expected a) (chars_ a) (chardict a) (tracks a) (pairs0 a) (pairs1 a) (pairdict0 a) (pairdict1 a) v.
(** the reader states, l.873-881, with their parameters *)
Inductive state := Start | Main | Direction (d : Z) | CharMetrics (n : Z) | KernData | TrackKern (i : nat) | KernPairs (d : bool) (n : Z) | Composites (n : Z) | End_.

Section READ.
Variable fl : chars -> option Q.
Variables int hex : chars -> option Z.
Definition bind {A B} (o : option A) (f : A -> option B) : option B := match o with Some a => f a | None => None end.
(** _parseint, l.884-888 *)
Definition parseint (s : option chars) : option Z := bind s int.
(** _parsehex, l.890-896 *)
Definition parsehex (s : chars) : option Z :=
  match s with c :: r => if (c =? 60) && (last s 0 =? 62) then hex (removelast r) else None | [] => None end.
(** s.replace of commas by points *)
Definition commas (s : chars) : chars := map (fun c => if c =? 44 then 46 else c) s.
(** _parsefloat, l.898-905 *)
Definition parsefloat (s : option chars) : option Q := bind s (fun s => fl (commas s)).
Fixpoint sequence {A} (l : list (option A)) : option (list A) := match l with [] => Some [] | o :: r => bind o (fun a => bind (sequence r) (fun r => Some (a :: r))) end.
(** _parsefloats, l.907-917 *)
Definition parsefloats (s : option chars) (nos : nat) : option (list Q) :=
  bind s (fun s => bind (sequence (map fl (split (commas s)))) (fun l => if Nat.eqb (List.length l) nos then Some l else None)).
(** _parsebool, l.923-930 *)
Definition parsebool (s : option chars) : option bool := bind s (fun s => let s := rstrip s in if is s "true" then Some true else if is s "false" then Some false else None).
(** _processline_start, l.1018-1023: both parts must be there *)
Definition processline_start (a : afm) (line : chars) : option (afm * state) :=
  match split1 line with
  | Some (key, Some args) =>
      if is key "StartFontMetrics" then bind (sequence (map int (split_on 46 args))) (fun v => Some (set_version v a, Main)) else None
  | _ => None
  end.
(** comparison of tuples, for l.1093 *)
Fixpoint tuple_leb (l m : list Z) : bool :=
  match l, m with [], _ => true | _ :: _, [] => false | x :: l', y :: m' => if x <? y then true else if y <? x then false else tuple_leb l' m' end.
Definition str_keys : list string := ["FontName"; "FullName"; "FamilyName"; "Weight"; "Notice"; "EncodingScheme"; "CharacterSet"]%string.
Definition int_keys : list string := ["MappingScheme"; "EscChar"; "Characters"]%string.
Definition num_keys : list string := ["CapHeight"; "XHeight"; "Ascender"; "Descender"; "StdHW"; "StdVW"]%string.
Definition dir_keys : list string := ["UnderlinePosition"; "UnderlineThickness"; "ItalicAngle"; "Charwidth"; "IsFixedPitch"]%string.
Definition one_of (key : chars) (l : list string) : bool := existsb (is key) l.
(** the keys of _processline_direction, l.1120-1141, except EndDirection and the others; self.xxx[direction] fails for a direction of two *)
Definition dirline (a : afm) (key : chars) (args : option chars) (d : Z) : option (afm * state) :=
  bind (if one_of key ["UnderlinePosition"; "UnderlineThickness"; "ItalicAngle"]%string then option_map VNum (parsefloat args)
        else if is key "Charwidth" then option_map VNums (parsefloats args 2) else option_map VBool (parsebool args))
    (fun v => if d <? 2 then Some (set_dirattr d key v a, Direction d) else None).
(** _processline_main, l.1025-1118.  MetricsSets (l.1033-1036) always fails: direction is assigned later in the function, so it is a local
    variable without a value there.  A private or unknown key is ignored *)
Definition processline_main (a : afm) (line : chars) : option (afm * state) :=
  bind (split1 line) (fun '(key, args) =>
  if is key "Comment" then Some (a, Main)
  else if is key "MetricsSets" then None
  else if one_of key str_keys then bind args (fun s => Some (set_attr key (VStr s) a, Main))
  else if is key "FontBBox" then bind (parsefloats args 4) (fun l => Some (set_attr key (VNums l) a, Main))
  else if is key "Version" then Some (match args with Some s => set_attr key (VStr s) a | None => a end, Main)
  else if one_of key int_keys then bind (parseint args) (fun z => Some (set_attr key (VInt z) a, Main))
  else if one_of key ["IsBaseFont"; "IsFixedV"]%string then bind (parsebool args) (fun b => Some (set_attr key (VBool b) a, Main))
  else if is key "VVector" then bind (parsefloats args 2) (fun l => Some (set_attr key (VNums l) a, Main))
  else if one_of key num_keys then bind (parsefloat args) (fun q => Some (set_attr key (VNum q) a, Main))
  else if is key "StartDirection" then bind (parseint args) (fun d => if (0 <=? d) && (d <=? 2) then Some (a, Direction d) else None)
  else if one_of key dir_keys then dirline a key args 0
  else if is key "StartCharMetrics" then
    match chars_ a with
    | Some _ => None
    | None => bind (if tuple_leb [2; 0] (version a) then option_map Some (parseint args) else Some None) (fun e => Some (set_chars (Some []) (set_expected e a), CharMetrics 0))
    end
  else if is key "StartKernData" then Some (a, KernData)
  else if is key "StartComposites" then
    if composites a then None
    else bind (match args with Some _ => option_map Some (parseint args) | None => Some None end) (fun e => Some (set_composites true (set_expected e a), Composites 0))
  else if is key "EndFontMetrics" then Some (a, End_)
  else Some (a, Main)).
(** _processline_direction, l.1120-1141 *)
Definition processline_direction (a : afm) (line : chars) (d : Z) : option (afm * state) :=
  bind (split1 line) (fun '(key, args) =>
  if one_of key dir_keys then dirline a key args d
  else if is key "EndDirection" then Some (a, Main)
  else processline_main a line).
(** a part of the line in _processline_charmetrics, l.1154-1190: [c] is char and [n] is has_name *)
Definition charpart (c : option charmetrics) (n : bool) (s : chars) : option (option charmetrics * bool) :=
  match strip s with
  | [] => Some (c, n)
  | s' =>
    match split1 s' with
    | Some (key, Some args) =>
      let pair (l : option (list Q)) : option (Q * Q) := bind l (fun l => match l with [x; y] => Some (x, y) | _ => None end) in
      let on (f : charmetrics -> option charmetrics) := bind c (fun c => bind (f c) (fun c => Some (Some c, n))) in
      let w0 v := on (fun c => bind v (fun w => Some (mkchar (ccode c) (Some w) (width1 c) (cvector c) (cname c) (cbbox c) (cligatures c)))) in
      let w1 v := on (fun c => bind v (fun w => Some (mkchar (ccode c) (width0 c) (Some w) (cvector c) (cname c) (cbbox c) (cligatures c)))) in
      if is key "C" then match c with Some _ => None | None => bind (parseint (Some args)) (fun z => Some (Some (newchar z), n)) end
      else if is key "CH" then match c with Some _ => None | None => bind (parsehex args) (fun z => Some (Some (newchar z), n)) end
      else if one_of key ["WX"; "W0X"]%string then w0 (option_map (fun x => (x, 0%Q)) (parsefloat (Some args)))
      else if is key "W1X" then w1 (option_map (fun x => (x, 0%Q)) (parsefloat (Some args)))
      else if one_of key ["WY"; "W0Y"]%string then w0 (option_map (fun y => (0%Q, y)) (parsefloat (Some args)))
      else if is key "W1Y" then w1 (option_map (fun y => (0%Q, y)) (parsefloat (Some args)))
      else if one_of key ["W"; "W0"]%string then w0 (pair (parsefloats (Some args) 2))
      else if is key "W1" then w1 (pair (parsefloats (Some args) 2))
      else if is key "VV" then on (fun c => bind (parsefloats (Some args) 2) (fun v => Some (mkchar (ccode c) (width0 c) (width1 c) (Some v) (cname c) (cbbox c) (cligatures c))))
      else if is key "N" then bind c (fun c => Some (Some (mkchar (ccode c) (width0 c) (width1 c) (cvector c) (Some args) (cbbox c) (cligatures c)), true))
      else if is key "B" then on (fun c => bind (parsefloats (Some args) 4) (fun v => Some (mkchar (ccode c) (width0 c) (width1 c) (cvector c) (cname c) (Some v) (cligatures c))))
      else if is key "L" then
        match split1 args with
        | Some (successor, Some ligature) => on (fun c => Some (mkchar (ccode c) (width0 c) (width1 c) (cvector c) (cname c) (cbbox c) (cligatures c ++ [(successor, ligature)])))
        | _ => None
        end
      else None
    | _ => None
    end
  end.
Fixpoint charparts (c : option charmetrics) (n : bool) (l : list chars) : option (option charmetrics * bool) :=
  match l with [] => Some (c, n) | s :: r => bind (charpart c n s) (fun '(c, n) => charparts c n r) end.
(** _processline_charmetrics, l.1143-1198 *)
Definition processline_charmetrics (a : afm) (line : chars) (charno : Z) : option (afm * state) :=
  if is (rstrip line) "EndCharMetrics" then Some (a, Main)
  else bind (charparts None false (split_on 59 line)) (fun '(c, n) => bind c (fun c => bind (chars_ a) (fun l =>
    let a1 := set_chars (Some (l ++ [c])) a in
    Some (match n, cname c with true, Some nm => set_chardict ((nm, c) :: chardict a1) a1 | _, _ => a1 end, CharMetrics (charno + 1))))).
(** _processline_kerndata, l.1200-1231 *)
Definition processline_kerndata (a : afm) (line : chars) : option (afm * state) :=
  bind (split1 line) (fun '(key, args) =>
  if is key "Comment" then Some (a, KernData)
  else if is key "StartTrackKern" then match tracks a with Some _ => None | None => bind (parseint args) (fun n => Some (set_tracks (Some (repeat None (Z.to_nat n))) a, TrackKern 0)) end
  else if one_of key ["StartKernPairs"; "StartKernPairs0"]%string then
    match pairs0 a with
    | Some _ => None
    | None => bind (match args with Some _ => option_map Some (parseint args) | None => Some None end) (fun e => Some (set_pairs0 (Some []) (set_expected e a), KernPairs false 0))
    end
  else if is key "StartKernPairs1" then
    match pairs1 a with Some _ => None | None => bind (parseint args) (fun e => Some (set_pairs1 (Some []) (set_expected (Some e) a), KernPairs true 0)) end
  else if is key "EndKernData" then Some (a, Main) else None).
(** replacement of an element of a list *)
Fixpoint put {A} (i : nat) (x : A) (l : list A) : list A := match i, l with O, _ :: r => x :: r | S i, y :: r => y :: put i x r | _, [] => [] end.
(** _processline_trackkern, l.1233-1251 *)
Definition processline_trackkern (a : afm) (line : chars) (i : nat) : option (afm * state) :=
  bind (split1 line) (fun '(key, args) => bind (tracks a) (fun t =>
  if is key "Comment" then Some (a, TrackKern i)
  else if is key "TrackKern" then
    if Nat.leb (List.length t) i then None
    else bind args (fun args => match split1 args with
      | Some (degrees, Some rest) => bind (parsefloats (Some rest) 4) (fun l => bind (int degrees) (fun z => Some (set_tracks (Some (put i (Some (z, l)) t)) a, TrackKern (S i))))
      | _ => None
      end)
  else if is key "EndTrackKern" then if Nat.ltb i (List.length t) then None else Some (a, KernData)
  else None)).
(** _processline_kernpairs, l.1253-1307 *)
Definition kern_of (key : chars) (args : option chars) : option kernpair :=
  bind args (fun args =>
  let num s := parsefloat (Some s) in
  if is key "KP" then match split args with [n1; n2; x; y] => bind (num x) (fun x => bind (num y) (fun y => Some (mkpair (ByName n1) (ByName n2) x y))) | _ => None end
  else if is key "KPH" then
    match split args with
    | [h1; h2; x; y] => bind (parsehex h1) (fun c1 => bind (parsehex h2) (fun c2 => bind (num x) (fun x => bind (num y) (fun y => Some (mkpair (ByCode c1) (ByCode c2) x y)))))
    | _ => None
    end
  else if is key "KPX" then match split args with [n1; n2; x] => bind (num x) (fun x => Some (mkpair (ByName n1) (ByName n2) x 0%Q)) | _ => None end
  else if is key "KPY" then match split args with [n1; n2; y] => bind (num y) (fun y => Some (mkpair (ByName n1) (ByName n2) 0%Q y)) | _ => None end
  else None).
Definition processline_kernpairs (a : afm) (line : chars) (d : bool) (i : Z) : option (afm * state) :=
  bind (split1 line) (fun '(key, args) =>
  if is key "Comment" then Some (a, KernPairs d i)
  else if is key "EndKernPairs" then Some (a, KernData)
  else bind (kern_of key args) (fun k =>
    if d then bind (pairs1 a) (fun l => let a1 := set_pairs1 (Some (l ++ [k])) a in Some (set_pairdict1 ((name1 k, name2 k, k) :: pairdict1 a1) a1, KernPairs d (i + 1)))
    else bind (pairs0 a) (fun l => let a1 := set_pairs0 (Some (l ++ [k])) a in Some (set_pairdict0 ((name1 k, name2 k, k) :: pairdict0 a1) a1, KernPairs d (i + 1))))).
(** a part of the line in _processline_composites, l.1318-1336: the number and the count of the parts so far; the parts are not kept *)
Definition comppart (no : option Z) (parts : Z) (s : chars) : option (option Z * Z) :=
  match strip s with
  | [] => Some (no, parts)
  | s' =>
    match split1 s' with
    | Some (key, Some args) =>
      if is key "CC" then match split args with [_; n] => bind (int n) (fun z => Some (Some z, parts)) | _ => None end
      else if is key "PCC" then match split args with [_; x; y] => bind (parsefloat (Some x)) (fun _ => bind (parsefloat (Some y)) (fun _ => Some (no, parts + 1))) | _ => None end
      else None
    | _ => None
    end
  end.
Fixpoint compparts (no : option Z) (parts : Z) (l : list chars) : option (option Z * Z) :=
  match l with [] => Some (no, parts) | s :: r => bind (comppart no parts s) (fun '(no, parts) => compparts no parts r) end.
(** _processline_composites, l.1309-1339: a line without CC has no number, which is not the count of parts *)
Definition processline_composites (a : afm) (line : chars) (i : Z) : option (afm * state) :=
  if chars_eqb line (kw "EndComposites") then match expected a with Some e => if i =? e then Some (a, Main) else None | None => Some (a, Main) end
  else bind (compparts None 0 (split_on 59 line)) (fun '(no, parts) => match no with Some n => if parts =? n then Some (a, Composites (i + 1)) else None | None => None end).
(** parse, l.1341-1374: [lines] are the lines with their newline; the last character of a line is dropped, whatever it is *)
Definition parseline (a : afm) (st : state) (raw : chars) : option (afm * state) :=
  let line := strip (removelast raw) in
  match st, line with
  | Start, _ => processline_start a line
  | _, [] => Some (a, st)
  | Main, _ => processline_main a line
  | Direction d, _ => processline_direction a line d
  | CharMetrics n, _ => processline_charmetrics a line n
  | KernData, _ => processline_kerndata a line
  | TrackKern i, _ => processline_trackkern a line i
  | KernPairs d i, _ => processline_kernpairs a line d i
  | Composites i, _ => processline_composites a line i
  | End_, _ => None
  end.
Fixpoint parselines (a : afm) (st : state) (lines : list chars) : option (afm * state) :=
  match lines with [] => Some (a, st) | l :: r => bind (parseline a st l) (fun '(a, st) => parselines a st r) end.
Definition parse (lines : list chars) : option afm := option_map fst (parselines emptyafm Start lines).
End READ.

(** the dictionaries *)
Definition get_char (a : afm) (n : chars) : option charmetrics := option_map snd (find (fun kv => chars_eqb (fst kv) n) (chardict a)).
Definition get_pair (a : afm) (n1 n2 : glyph) : option kernpair :=
  option_map snd (find (fun kv : glyph * glyph * kernpair => glyph_eqb (fst (fst kv)) n1 && glyph_eqb (snd (fst kv)) n2) (pairdict0 a)).
(** the attribute of a key and that of a key for a direction *)
Definition get_attr (a : afm) (k : chars) : option value := option_map snd (find (fun kv => chars_eqb (fst kv) k) (attrs a)).
Definition get_dirattr (a : afm) (d : Z) (k : chars) : option value := option_map snd (find (fun kv : Z * chars * value => (fst (fst kv) =? d) && chars_eqb (snd (fst kv)) k) (dirattrs a)).
(** width_ds and width_pt, l.1376-1380; None is a KeyError or a TypeError *)
Definition width_ds (a : afm) (n : chars) : option Q := match get_char a n with Some c => option_map fst (width0 c) | None => None end.
Definition width_pt (a : afm) (names : list chars) (size : Q) : option Q :=
  option_map (fun l => fold_left Qplus l 0%Q * size / 1000)%Q (sequence (map (width_ds a) names)).
(** resolvekernings for a pair of glyph names, l.1405-1410: the kerning between them *)
Definition kerning (a : afm) (n1 n2 : chars) (size : option Q) : option Q :=
  option_map (fun k => match size with Some s => (kx k * s / 1000)%Q | None => kx k end) (get_pair a (ByName n1) (ByName n2)).
(** the flags of writePDFfontinfo, l.1413-1424: an angle of zero is false *)
Definition flags (a : afm) (serif symbol : bool) : Z :=
  (match get_dirattr a 0 (kw "IsFixedPitch") with Some (VBool true) => 1 | _ => 0 end) + (if serif then 2 else 0) + (if symbol then 4 else 32) +
  (match get_dirattr a 0 (kw "ItalicAngle") with Some (VNum q) => if Qeq_bool q 0 then 0 else 64 | _ => 0 end).
(** %d of a number truncates *)
Definition trunc (q : Q) : Z := Z.quot (Qnum q) (Zpos (Qden q)).
(** /Ascent, l.1428-1434, and /Descent, l.1435-1441 *)
Definition pdf_ascent (a : afm) : Z :=
  match get_attr a (kw "Ascender") with Some (VNum q) => trunc q | _ => match get_attr a (kw "FontBBox") with Some (VNums [_; _; _; y]) => trunc y | _ => 1000 end end.
Definition pdf_descent (a : afm) : Z :=
  match get_attr a (kw "Descender") with Some (VNum q) => trunc q | _ => match get_attr a (kw "FontBBox") with Some (VNums [_; _; _; y]) => trunc y | _ => -200 end end.
