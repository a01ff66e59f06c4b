(** Model of pyx/dvi/vffile.py: the reading of virtual fonts (vffile.__init__, l.35-107) and access to it (getfonts, getchar, l.109-113).
    The font of a definition is kept as the arguments of texfont.virtualfont or texfont.TeXfont (l.84-88), whichever of them is used; the name is
    kept as bytes, where the code decodes ASCII.  The size is rescaled by a parameter, a function of the design size and the size in the
    definition, since the multiplication is with floats (l.76). *)
From Coq Require Import ZArith List Bool.
From Verif Require Import ReaderModel.
Import ListNotations.
Open Scope Z_scope.

(** the arguments fontname, c, reals and d in l.86 and l.88 *)
Record vfont := mkvfont { vname : list Z; vchecksum : Z; vsize : Z; vdesign : Z }.
(** self.cs, self.ds, self.fonts, self.widths and self.chardefs.  A dictionary is the list of the assignments, the last one first. *)
Record vf := mkvf { cs : Z; ds : Z; fonts : list (Z * vfont); widths : list (Z * Z); chardefs : list (Z * list Z) }.
(** the entry of a dictionary; None is the KeyError *)
Fixpoint entry {A} (key : Z) (d : list (Z * A)) : option A := match d with (k, a) :: d => if k =? key then Some a else entry key d | [] => None end.
(** getchar, l.112-113, and an entry of getfonts, l.109-110 *)
Definition getchar (f : vf) (cc : Z) : option (list Z) := entry cc (chardefs f).
Definition getfont (f : vf) (num : Z) : option vfont := entry num (fonts f).
Definition getwidth (f : vf) (cc : Z) : option Z := entry cc (widths f).

Definition bind {A B} (x : option A) (k : A -> option B) : option B := match x with Some a => k a | None => None end.
Notation "'do' p <- x ; k" := (bind x (fun v => let p := v in k)) (at level 200, p pattern, x at level 100, k at level 200).

Section Reading.
  (** l.76: int(round(self.scale * (16*self.ds/16777216) * s)), from ds and s *)
  Variable rescale : Z -> Z -> Z.

  (** l.58-66: the number of the font, by the command *)
  Definition readnum (cmd : Z) (f : list Z) : option (Z * list Z) :=
    if cmd =? 243 then readuchar f else if cmd =? 244 then readuint16 f else if cmd =? 245 then readuint24 f else readint32 f.

  (** one pass of the loop of l.55-107; the flag is False for the postamble.  Reading more bytes than there are gives the remaining ones
      (l.70, l.94, l.101), as in the code. *)
  Definition command (v : vf) (f : list Z) : option (bool * vf * list Z) :=
    do (cmd, f) <- readuchar f;
    if (243 <=? cmd) && (cmd <? 247) then
      do (num, f) <- readnum cmd f;
      do (c, f) <- readint32 f;
      do (s, f) <- readint32 f;
      do (d, f) <- readint32 f;
      do (a, f) <- readuchar f;
      do (l, f) <- readuchar f;
      let (fontname, f) := fread (Z.to_nat (a + l)) f in
      Some (true, mkvf (cs v) (ds v) ((num, mkvfont fontname c (rescale (ds v) s) d) :: fonts v) (widths v) (chardefs v), f)
    else if cmd =? 242 then
      do (pl, f) <- readuint32 f;
      do (cc, f) <- readuint32 f;
      do (tfm, f) <- readuint24 f;
      let (dvi, f) := fread (Z.to_nat pl) f in
      Some (true, mkvf (cs v) (ds v) (fonts v) ((cc, tfm) :: widths v) ((cc, dvi) :: chardefs v), f)
    else if cmd <? 242 then
      do (cc, f) <- readuchar f;
      do (tfm, f) <- readuint24 f;
      let (dvi, f) := fread (Z.to_nat cmd) f in
      Some (true, mkvf (cs v) (ds v) (fonts v) ((cc, tfm) :: widths v) ((cc, dvi) :: chardefs v), f)
    else if cmd =? 248 then Some (false, v, f) else None.

  (** the loop; each pass reads at least a byte *)
  Fixpoint commands (fuel : nat) (v : vf) (f : list Z) : option vf :=
    match fuel with
    | O => None
    | S fuel => do (more, v, f) <- command v f; if more : bool then commands fuel v f else Some v
    end.

  (** __init__, l.35-107 *)
  Definition vffile (f : list Z) : option vf :=
    do (cmd, f) <- readuchar f;
    if cmd =? 247 then
      do (id, f) <- readuchar f;
      if id =? 202 then
        do (k, f) <- readuchar f;
        let (comment, f) := fread (Z.to_nat k) f in
        do (c, f) <- readuint32 f;
        do (d, f) <- readuint32 f;
        commands (S (length f)) (mkvf c d [] [] []) f
      else None
    else None.
End Reading.
