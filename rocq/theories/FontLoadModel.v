(** Model of how an entry of a font map loads its font and its encoding (pyx/dvi/mapfile.py, class MAPline, l.126-161).

    The file system is fixed: [open name format] gives the bytes of a file, None is the EnvironmentError of config.open.  The readers of the
    files (T1File, AFMfile, PFMfile, ENCfile) are parameters, None is an exception which is no EnvironmentError.  The log lists the files
    which are searched.  [root] is os.path.splitext without the extension.  Any exception leaves the state as it is. *)
From Coq Require Import Ascii String List.
Import ListNotations.
Open Scope string_scope.

(** config.format, the ones used here *)
Inductive fmt := Type1 | Afm | TexPsHeader.

Section Load.
  Variable bytes t1 afm pfm vector : Type.
  Variable open : string -> fmt -> option bytes.
  Variable read_t1 : bytes -> option t1.
  Variable t1name : t1 -> string.
  Variable read_afm : bytes -> option afm.
  Variable read_pfm : bytes -> t1 -> option pfm.
  (** the name and the vector of an encoding file *)
  Variable read_enc : bytes -> option (string * vector).
  Variable root : string -> string.

  (** the fields of the entry set by __init__, l.46-121; an unset reencodefont is the text None, as formatted by l.156 *)
  Record entry := mkentry { basepsname : string; fontfilename : option string; encodingfilename : option string; reencodefont : string }.
  (** font.T1font with its metric file and font.T1builtinfont *)
  Inductive metric := MAfm (a : afm) | MPfm (p : pfm) | MNone.
  Inductive font := T1font (f : t1) (m : metric) | Builtin (name : string) (a : afm).
  (** self._font, and self._encoding where None is the marker; the files searched so far *)
  Record state := mkstate { cfont : option font; cenc : option (option vector); log : list (string * fmt) }.
  Definition fresh : state := mkstate None None [].

  (** the part of getfont which loads the font, l.128-148: the font (None for an exception) and the files searched *)
  Definition load_font (e : entry) : option font * list (string * fmt) :=
    match fontfilename e with
    | Some name =>
      match open name Type1 with
      | None => (None, [(name, Type1)])
      | Some b =>
        match read_t1 b with
        | None => (None, [(name, Type1)])
        | Some t =>
          if String.eqb (basepsname e) (t1name t) then
            let files := [(name, Type1); (root name, Afm)] in
            match open (root name) Afm with
            | Some m => match read_afm m with Some a => (Some (T1font t (MAfm a)), files) | None => (None, files) end
            | None =>
              let pname := (root name ++ ".pfm")%string in
              let files := (files ++ [(pname, Type1)])%list in
              match open pname Type1 with
              | Some m => match read_pfm m t with Some p => (Some (T1font t (MPfm p)), files) | None => (None, files) end
              | None => (Some (T1font t MNone), files)
              end
            end
          else (None, [(name, Type1)])
        end
      end
    | None =>
      let files := [(basepsname e, Afm)] in
      match open (basepsname e) Afm with
      | None => (None, files)
      | Some m => match read_afm m with Some a => (Some (Builtin (basepsname e) a), files) | None => (None, files) end
      end
    end.
  (** getfont, l.126-149 *)
  Definition getfont (e : entry) (s : state) : option font * state :=
    match cfont s with
    | Some f => (Some f, s)
    | None =>
      let '(f, files) := load_font e in
      (f, mkstate f (cenc s) (log s ++ files))
    end.

  (** the part of getencoding which loads the encoding, l.153-160 *)
  Definition load_enc (e : entry) : option (option vector) * list (string * fmt) :=
    match encodingfilename e with
    | None => (Some None, [])
    | Some name =>
      let files := [(name, TexPsHeader)] in
      match open name TexPsHeader with
      | None => (None, files)
      | Some b =>
        match read_enc b with
        | None => (None, files)
        | Some (n, v) => if String.eqb n ("/" ++ reencodefont e)%string then (Some (Some v), files) else (None, files)
        end
      end
    end.
  (** getencoding, l.151-161 *)
  Definition getencoding (e : entry) (s : state) : option (option vector) * state :=
    match cenc s with
    | Some v => (Some v, s)
    | None =>
      let '(v, files) := load_enc e in
      (v, mkstate (cfont s) v (log s ++ files))
    end.

  (** a sequence of calls *)
  Inductive call := GetFont | GetEncoding.
  Inductive answer := AFont (f : option font) | AEnc (v : option (option vector)).
  Fixpoint calls (e : entry) (cs : list call) (s : state) : list answer * state :=
    match cs with
    | [] => ([], s)
    | GetFont :: cs => let '(f, s) := getfont e s in let '(r, s) := calls e cs s in (AFont f :: r, s)
    | GetEncoding :: cs => let '(v, s) := getencoding e s in let '(r, s) := calls e cs s in (AEnc v :: r, s)
    end.
End Load.
