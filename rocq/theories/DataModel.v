(** Model of pyx/graph/data.py l.30-39, 109-147, 155-226, 237-277, 289-318, 347-377: columns of data sets, reading of data
    files and config-like files.  Characters are the 256 of Latin-1; numbers in files are of an arbitrary type F, with the
    conversion float() as a parameter, and evaluation of expressions is a parameter as well.  Titles, styles, caches, opening of
    files, configparser, user defined patterns, cbdfile and function data are not modelled. *)
From Coq Require Import ZArith Ascii String List Bool.
Import ListNotations.
Open Scope nat_scope.

Definition str : Type := list ascii.
Definition str_eqb (a b : str) : bool := if list_eq_dec ascii_dec a b then true else false.
(** the whitespace of str.strip, str.split and of the pattern \s *)
Definition isspace (c : ascii) : bool :=
  let n := nat_of_ascii c in (9 <=? n) && (n <=? 13) || (28 <=? n) && (n <=? 32) || (n =? 133) || (n =? 160).
Definition quote : ascii := ascii_of_nat 34.

(** an entry of a data set: a line number, a float, a string or None *)
Inductive cell (F : Type) := Line (n : nat) | Float (x : F) | Text (s : str) | Missing.
Arguments Line {F}. Arguments Float {F}. Arguments Text {F}. Arguments Missing {F}.

(** splitatvalue, l.30-39; the section is None or a number.  The comparison < is a parameter. *)
Fixpoint sections {A} (lt : A -> A -> bool) (value : A) (splitpoints : list A) : nat :=
  match splitpoints with [] => 0 | p :: r => if lt p value then S (sections lt value r) else 0 end.
Definition splitatvalue {A} (lt : A -> A -> bool) (value : A) (splitpoints : list A) : option nat * A :=
  let s := sections lt value splitpoints in
  (if 1 <? length splitpoints then (if Nat.odd s then None else Some (Nat.div2 s)) else Some s, value).

(** ** data sets *)
(** the dictionary columns in order of insertion; the attribute columndata may be missing *)
Record dataset (F : Type) := { columns : list (str * list (cell F)); columndata : option (list (list (cell F))) }.
Arguments columns {F}. Arguments columndata {F}.
Inductive exception := ValueError | IndexError | TypeError | OtherError.
Inductive result (A : Type) := Ok (x : A) | Error (e : exception).
Arguments Ok {A}. Arguments Error {A}.

Fixpoint lookup {A} (k : str) (d : list (str * A)) : option A :=
  match d with [] => None | (k', v) :: r => if str_eqb k k' then Some v else lookup k r end.
(** d[k] = v: a known key keeps its place *)
Fixpoint store {A} (k : str) (v : A) (d : list (str * A)) : list (str * A) :=
  match d with [] => [(k, v)] | (k', v') :: r => if str_eqb k k' then (k', v) :: r else (k', v') :: store k v r end.
(** dict(list of pairs) *)
Definition dict {A} (l : list (str * A)) : list (str * A) := fold_left (fun d kv => store (fst kv) (snd kv) d) l [].
(** indexing of a list, negative numbers count from the end *)
Definition index {A} (l : list A) (i : Z) : option A :=
  if (i <? 0)%Z then (if (i + Z.of_nat (length l) <? 0)%Z then None else nth_error l (Z.to_nat (i + Z.of_nat (length l)))) else nth_error l (Z.to_nat i).

(** values.__init__, l.113-121: the loop over the columns with the length seen before *)
Fixpoint check_lengths {F} (l : option nat) (cols : list (str * list (cell F))) : bool :=
  match cols with
  | [] => true
  | (_, v) :: r => match l with Some k => if length v =? k then check_lengths (Some k) r else false | None => check_lengths (Some (length v)) r end
  end.
Definition values {F} (cols : list (str * list (cell F))) : result (dataset F) :=
  if check_lengths None cols then Ok {| columns := cols; columndata := None |} else Error ValueError.

(** the loop of points.__init__, l.133-137 *)
Fixpoint append_points {F} (l : nat) (data : list (list (cell F))) (pts : list (list (cell F))) : result (list (list (cell F))) :=
  match pts with
  | [] => Ok data
  | p :: r => if l =? length p then append_points l (map (fun cx => fst cx ++ [snd cx]) (combine data p)) r else Error ValueError
  end.
(** points.__init__, l.129-147, with the named columns as a dictionary *)
Definition points {F} (pts : list (list (cell F))) (addlinenumbers : bool) (cols : list (str * Z)) : result (dataset F) :=
  match pts with
  | [] => Ok {| columns := map (fun kv => (fst kv, [])) cols; columndata := None |}
  | p :: r =>
    let l := length p in
    match append_points l (map (fun x => [x]) p) r with
    | Error e => Error e
    | Ok data =>
      if existsb (fun kv => (Z.of_nat l <? Z.abs (snd kv))%Z || (negb addlinenumbers && (Z.abs (snd kv) =? Z.of_nat l)%Z)) cols then Error ValueError
      else
        let data := if addlinenumbers then map Line (seq 1 (length pts)) :: data else data in
        if existsb (fun kv => match index data (snd kv) with None => true | _ => false end) cols then Error IndexError
        else Ok {| columns := map (fun kv => (fst kv, match index data (snd kv) with Some c => c | None => [] end)) cols; columndata := Some data |}
    end
  end.

(** ** data sets made from data sets *)
(** a column is given by a string or an integer *)
Inductive ref := Name (s : str) | Num (z : Z).
(** what eval does: a value, an ArithmeticError or ValueError, another exception *)
Inductive evaluated (F : Type) := Value (c : cell F) | Arithmetic | Raises.
Arguments Value {F}. Arguments Arithmetic {F}. Arguments Raises {F}.
(** columncallback, l.222-226 *)
Definition columncallback {F} (org : dataset F) (i : nat) (r : ref) : option (cell F) :=
  let incolumns := match r with Name s => match lookup s (columns org) with Some c => nth_error c i | None => None end | Num _ => None end in
  match r, columndata org with
  | Num z, Some d => match index d z with Some c => match nth_error c i with Some x => Some x | None => incolumns end | None => incolumns end
  | _, _ => incolumns
  end.
(** the names visible in row i, l.206-207: None if a column is too short *)
Definition row {F} (org : dataset F) (i : nat) : option (list (str * cell F)) :=
  fold_left (fun env kc => match env, nth_error (snd kc) i with Some e, Some x => Some (store (fst kc) x e) | _, _ => None end) (columns org) (Some []).
(** the rows of an expression, l.203-211 *)
Fixpoint evaluate {F} (eval : str -> list (str * cell F) -> (ref -> option (cell F)) -> evaluated F) (org : dataset F) (e : str) (i n : nat) : result (list (cell F)) :=
  match n with
  | O => Ok []
  | S n' =>
    match row org i with
    | None => Error IndexError
    | Some env =>
      match eval e env (columncallback org i) with
      | Raises => Error OtherError
      | v => match evaluate eval org e (S i) n' with
             | Ok r => Ok ((match v with Value c => c | _ => Missing end) :: r)
             | Error x => Error x
             end
      end
    end
  end.
(** the number of rows for an expression, l.196-202; an attribute which is missing is an AttributeError *)
Definition count {F} (org : dataset F) : result nat :=
  match columns org with
  | (_, c) :: _ => Ok (length c)
  | [] => match columndata org with Some (c :: _) => Ok (length c) | Some [] => Ok 0 | None => Error OtherError end
  end.
(** one requested column, l.178-212, with replacedollar=1; the replacement of dollars belongs to eval *)
Definition column {F} (eval : str -> list (str * cell F) -> (ref -> option (cell F)) -> evaluated F) (org : dataset F) (r : ref) : result (list (cell F)) :=
  match r with
  | Name s =>
    match lookup s (columns org) with
    | Some c => Ok c
    | None => match count org with Ok n => evaluate eval org s 0 n | Error e => Error e end
    end
  | Num z =>
    match columndata org with
    | Some d => match index d z with Some c => Ok c | None => Error IndexError end
    | None => Error TypeError
    end
  end.
Fixpoint new_columns {F} (eval : str -> list (str * cell F) -> (ref -> option (cell F)) -> evaluated F) (org : dataset F) (cols : list (str * ref))
    (done : list (str * list (cell F))) : result (list (str * list (cell F))) :=
  match cols with
  | [] => Ok done
  | (k, r) :: rest => match column eval org r with Ok c => new_columns eval org rest (store k c done) | Error e => Error e end
  end.
(** data.__init__, l.158-220: the columns; the new data set has no attribute columndata *)
Definition data {F} (eval : str -> list (str * cell F) -> (ref -> option (cell F)) -> evaluated F) (org : dataset F) (copy : bool) (cols : list (str * ref)) : result (dataset F) :=
  match new_columns eval org cols [] with
  | Error e => Error e
  | Ok new => Ok {| columns := if copy then fold_left (fun d kc => match lookup (fst kc) d with Some _ => d | None => store (fst kc) (snd kc) d end) (columns org) new else new;
                    columndata := None |}
  end.

(** ** data files *)
Fixpoint skipspace (l : str) : str := match l with c :: r => if isspace c then skipspace r else l | [] => [] end.
(** str.strip *)
Definition strip (l : str) : str := rev (skipspace (rev (skipspace l))).
(** the word up to whitespace and the rest *)
Fixpoint word (l : str) : str * str :=
  match l with [] => ([], []) | c :: r => if isspace c then ([], l) else let (w, t) := word r in (c :: w, t) end.
(** defaultstringpattern: a quote, the shortest text up to a quote followed by whitespace or the end *)
Fixpoint close (l : str) : option (str * str) :=
  match l with
  | [] => None
  | c :: r =>
    if Ascii.eqb c quote && match r with [] => true | d :: _ => isspace d end then Some ([], skipspace r)
    else match close r with Some (s, t) => Some (c :: s, t) | None => None end
  end.
Definition match_string (l : str) : option (str * str) := match l with c :: r => if Ascii.eqb c quote then close r else None | [] => None end.
(** defaultcolumnpattern *)
Definition match_column (l : str) : str * str := let (w, t) := word l in (w, skipspace t).

Section FLOAT.
Variable F : Type.
(** float(s); None is a ValueError *)
Variable tofloat : str -> option F.
Definition field (s : str) : cell F := match tofloat s with Some x => Float x | None => Text s end.

(** splitline, l.249-263, the loop with patterns; None: no end (fuel is the length of the line) *)
Fixpoint split_patterns (conv : str -> cell F) (fuel : nat) (line : str) : list (cell F) :=
  match line, fuel with
  | [], _ | _, O => []
  | _, S n =>
    match match_string line with
    | Some (s, t) => Text s :: split_patterns conv n t
    | None => let (s, t) := match_column line in conv s :: split_patterns conv n t
    end
  end.
(** str.split, l.267-276 *)
Fixpoint split_words (fuel : nat) (line : str) : list str :=
  match skipspace line, fuel with
  | [], _ | _, O => []
  | l, S n => let (w, t) := word l in w :: split_words n t
  end.
(** splitline, l.237-277, with the default patterns *)
Definition splitline (line : str) (float : bool) : list (cell F) :=
  let conv := if float then field else Text in
  if existsb (Ascii.eqb quote) line then split_patterns conv (length line) line else map conv (split_words (length line) line).

(** defaultcommentpattern: a run of one of three characters, then whitespace *)
Definition iscomment (c : ascii) : bool := Ascii.eqb c "#" || Ascii.eqb c "!" || Ascii.eqb c "%".
Fixpoint skiprun (c : ascii) (l : str) : str := match l with d :: r => if Ascii.eqb c d then skiprun c r else l | [] => [] end.
Definition match_comment (l : str) : option str := match l with c :: _ => if iscomment c then Some (skipspace (skiprun c l)) else None | [] => None end.

(** the state of the loop in readfile, l.290-293 *)
Record reading := { r_columns : list (cell F); r_data : list (list (cell F)); r_line : nat; r_max : nat }.
(** the loop body, l.295-310 *)
Definition readline (skiphead every : nat) (s : reading) (line0 : str) : reading :=
  let line := strip line0 in
  match match_comment line with
  | Some rest => if length (r_data s) =? 0 then {| r_columns := splitline rest false; r_data := r_data s; r_line := r_line s; r_max := r_max s |} else s
  | None =>
    match splitline line true with
    | [] => s
    | linedata =>
      if (skiphead <=? r_line s) && ((r_line s - skiphead) mod every =? 0)
      then let linedata := Line (r_line s + 1) :: linedata in
           {| r_columns := r_columns s; r_data := r_data s ++ [linedata]; r_line := r_line s + 1; r_max := if r_max s <? length linedata then length linedata else r_max s |}
      else {| r_columns := r_columns s; r_data := r_data s; r_line := r_line s + 1; r_max := r_max s |}
    end
  end.
(** del columndata[-skip:] *)
Definition deltail {A} (skip : nat) (l : list A) : list A := firstn (length l - skip) l.
(** names which are parameters of points.__init__ (l.129), given by readfile as well: a TypeError *)
Definition reserved : list str := map list_ascii_of_string ["self"; "points"; "title"; "addlinenumbers"]%string.
Definition text_of (c : cell F) : str := match c with Text s => s | _ => [] end.
(** list[:n] for an integer n *)
Definition upto {A} (n : Z) (l : list A) : list A := if (n <? 0)%Z then firstn (length l - Z.to_nat (- n)) l else firstn (Z.to_nat n) l.
(** readfile, l.289-318; every is positive *)
Definition readfile (lines : list str) (skiphead skiptail every : nat) : result (dataset F) :=
  let s := fold_left (readline skiphead every) lines {| r_columns := []; r_data := []; r_line := 0; r_max := 0 |} in
  let rows := if every <=? skiptail then deltail (skiptail / every) (r_data s) else r_data s in
  let rows := map (fun r => if length r =? r_max s then r else r ++ repeat Missing (r_max s - length r)) rows in
  let names := map text_of (upto (Z.of_nat (r_max s) - 1) (r_columns s)) in
  let cols := dict (combine names (map Z.of_nat (seq 1 (length names)))) in
  if existsb (fun kv => existsb (str_eqb (fst kv)) reserved) cols then Error TypeError else points rows false cols.

(** ** config-like files *)
(** one section, l.357-372: the name, and the options in order with their values *)
Fixpoint set_nth {A} (i : nat) (x : A) (l : list A) : list A := match l, i with [], _ => [] | _ :: r, O => x :: r | y :: r, S k => y :: set_nth k x r end.
Definition option_step (s : list (cell F) * list (str * Z) * nat) (o : str * str) : list (cell F) * list (str * Z) * nat :=
  let '(point, cols, maxcolumns) := s in
  match lookup (fst o) cols with
  | Some i => (set_nth (Z.to_nat i) (field (snd o)) point, cols, maxcolumns)
  | None => (point ++ [field (snd o)], store (fst o) (Z.of_nat maxcolumns) cols, maxcolumns + 1)
  end.
Definition section_step (s : list (list (cell F)) * list (str * Z) * nat) (sec : str * list (str * str)) : list (list (cell F)) * list (str * Z) * nat :=
  let '(rows, cols, maxcolumns) := s in
  let '(point, cols, maxcolumns) := fold_left option_step (snd sec) (Text (fst sec) :: repeat Missing (maxcolumns - 1), cols, maxcolumns) in
  (rows ++ [point], cols, maxcolumns).
(** readfile of conffile, l.347-377, for the sorted sections, where each section has each option once; a column named title is
    taken for the title of points, the other reserved names are TypeErrors.  The result has the column of section names. *)
Definition conf_reserved : list str := map list_ascii_of_string ["self"; "points"; "addlinenumbers"]%string.
Definition readconf (secs : list (str * list (str * str))) : result (dataset F) :=
  let '(rows, cols, _) := fold_left section_step secs ([], [], 1) in
  if existsb (fun kv => existsb (str_eqb (fst kv)) conf_reserved) cols then Error TypeError
  else match points rows false (filter (fun kv => negb (str_eqb (fst kv) (list_ascii_of_string "title"))) cols) with
       | Error e => Error e
       | Ok d => Ok {| columns := columns d; columndata := Some [map (fun r => hd Missing r) rows] |}
       end.
End FLOAT.
