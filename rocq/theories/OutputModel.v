(** Where documents are written to: document.py l.140-211. *)
From Coq Require Import ZArith List Bool Lia.
From Verif Require Import MapModel.
Import ListNotations.
Open Scope Z_scope.

(** the file argument: None, a string, an object which accepts bytes, or anything else *)
Inductive fileargument := NoFile | FileName (s : chars) | Stream | OtherObject.
(** what is written to: a file which is opened here and closed afterwards, or sys.stdout.buffer or the object, which are not closed (_noclose, l.140-150) *)
Inductive target := Opened (name : chars) | Stdout | Given | NameError (* RuntimeError, l.156 *) | ArgumentError (* ValueError, l.164 *).
(* the string .py *)
Definition dot_py : chars := [46; 112; 121].
(** _outputstream, l.153-170; argv0 is sys.argv[0].  A string has no write, so that l.162 raises an exception. *)
Definition outputstream (argv0 : chars) (file : fileargument) (suffix : chars) : target :=
  match file with
  | NoFile => if endswith dot_py argv0 then Opened (firstn (length argv0 - 3) argv0 ++ 46 :: suffix) else NameError
  | FileName s =>
      if chars_eqb s [45] then Stdout
      else if endswith (46 :: suffix) s then Opened s else Opened (s ++ 46 :: suffix)
  | Stream => Given
  | OtherObject => ArgumentError
  end.
(** the formats with their suffixes, in the order of l.201-204 *)
Inductive format := EPS | PS | PDF | SVG.
Definition suffix_of (f : format) : chars :=
  match f with EPS => [101; 112; 115] | PS => [112; 115] | PDF => [112; 100; 102] | SVG => [115; 118; 103] end.
(** writeEPSfile to writeSVGfile, l.183-197: what is written and where *)
Definition write_format (f : format) (argv0 : chars) (file : fileargument) : target * format := (outputstream argv0 file (suffix_of f), f).
(** writetofile, l.199-211; None is the ValueError *)
Fixpoint first_format (fs : list format) (filename : chars) : option format :=
  match fs with
  | [] => None
  | f :: fs => if endswith (46 :: suffix_of f) filename then Some f else first_format fs filename
  end.
Definition writetofile (filename : chars) : option (target * format) :=
  match first_format [EPS; PS; PDF; SVG] filename with Some f => Some (Opened filename, f) | None => None end.
