(** Model of pyx/dvi/tfmfile.py (l.26-210) and of the conversion of TFM lengths to DVI units in pyx/dvi/texfont.py
    (l.69-113).

    Files are lists of bytes, see ReaderModel.v; exceptions (RuntimeError, AssertionError, struct.error, IndexError)
    are [None].  The debug output is left out, and so is the print of the remaining header words (l.127-129), of which
    only the reading is modelled. *)
From Coq Require Import ZArith List Bool String.
From Coq Require Import ZifyBool Lia.
From Verif Require Import ReaderModel.
Import ListNotations.
Open Scope Z_scope.

(** char_info_word, l.26-34 *)
Record char_info_word := mkinfo { width_index : Z; height_index : Z; depth_index : Z; italic_index : Z; tag : Z; remainder : Z }.
Definition info_of (word : Z) : char_info_word :=
  mkinfo (Z.shiftr (Z.land word 0xFF000000) 24) (Z.shiftr (Z.land word 0x00F00000) 20) (Z.shiftr (Z.land word 0x000F0000) 16)
    (Z.shiftr (Z.land word 0x0000FC00) 10) (Z.shiftr (Z.land word 0x00000300) 8) (Z.land word 0x000000FF).

(** the pre header, l.46-57 *)
Record preheader := mkpre { lf : Z; lh : Z; bc : Z; ec : Z; nw : Z; nh : Z; nd : Z; ni : Z; nl : Z; nk : Z; ne : Z; np : Z }.
(** TFMfile, l.37-210 *)
Record tfm := mktfm {
  pre : preheader; checksum : Z; designsize : Z; charcoding : option (list Z); fontfamily : option (list Z);
  sevenbitsave : option Z; face : option string; char_info : list (option char_info_word);
  width : list Z; height : list Z; depth : list Z; italic : list Z; lig_kern : list Z; kern : list Z; exten : list Z; param : list Z }.

Definition bind {A B} (a : option (A * list Z)) (f : A -> list Z -> option B) : option B :=
  match a with Some (x, file) => f x file | None => None end.

(** the twelve readint16 of l.46-57 *)
Fixpoint read16s (n : nat) (file : list Z) : option (list Z * list Z) :=
  match n with
  | O => Some ([], file)
  | S n' => bind (readint16 file) (fun v file => bind (read16s n' file) (fun vs file => Some (v :: vs, file)))
  end.
(** l.59-63 *)
Definition pre_ok (p : preheader) : bool :=
  (bc p - 1 <=? ec p) && (ec p <=? 255) && (ne p <=? 256) &&
  (lf p =? 6 + lh p + (ec p - bc p + 1) + nw p + nh p + nd p + ni p + nl p + nk p + ne p + np p).
Definition read_pre (file : list Z) : option (preheader * list Z) :=
  bind (read16s 12 file) (fun vs file =>
    match vs with
    | [a; b; c; d; e; f; g; h; i; j; k; l] =>
        let p := mkpre a b c d e f g h i j k l in if pre_ok p then Some (p, file) else None
    | _ => None
    end).

(** the decoding of facechar, l.96-121 *)
Open Scope string_scope.
Definition face_of (facechar : Z) : option string :=
  if (facechar <? 18)%Z then
    let '(f, facechar) := if (12 <=? facechar)%Z then ("E", (facechar - 12)%Z) else if (6 <=? facechar)%Z then ("C", (facechar - 6)%Z) else ("R", facechar) in
    let '(w, facechar) := if (4 <=? facechar)%Z then ("L", (facechar - 4)%Z) else if (2 <=? facechar)%Z then ("B", (facechar - 2)%Z) else ("M", facechar) in
    Some (w ++ (if (facechar =? 1)%Z then "I" else "R") ++ f)
  else None.
Close Scope string_scope.

(** a header field of [n] bytes which is there if lh is greater than [least], l.75-86 *)
Definition read_field (lh least most : Z) (n : nat) (file : list Z) : option (option (list Z) * list Z) :=
  if least <? lh then
    if most <? lh then bind (readstring n file) (fun s file => Some (Some s, file)) else None
  else Some (None, file).
(** l.92-125 *)
Definition read_face (lh : Z) (file : list Z) : option ((option Z * option string) * list Z) :=
  if 17 <? lh then
    bind (readuchar file) (fun s file => bind (readint16 file) (fun _ file => bind (readuchar file) (fun fc file =>
      Some ((Some s, face_of fc), file))))
  else Some ((None, None), file).
(** l.127-129 *)
Definition skip_rest (lh : Z) (file : list Z) : list Z := if 18 <? lh then snd (fread (Z.to_nat ((lh - 18) * 4)) file) else file.

(** l[i] = v for a list and an integer, with Python's negative indices *)
Fixpoint setnth {A} (l : list A) (n : nat) (v : A) : option (list A) :=
  match l, n with
  | [], _ => None
  | _ :: l', O => Some (v :: l')
  | a :: l', S n' => match setnth l' n' v with Some l'' => Some (a :: l'') | None => None end
  end.
Definition setitem {A} (l : list A) (i : Z) (v : A) : option (list A) :=
  if 0 <=? i then setnth l (Z.to_nat i) v
  else if 0 <=? i + Z.of_nat (List.length l) then setnth l (Z.to_nat (i + Z.of_nat (List.length l))) v else None.

(** the loop of l.136-140 over [n] char codes from [charcode] on *)
Fixpoint read_infos (n : nat) (charcode : Z) (l : list (option char_info_word)) (file : list Z) : option (list (option char_info_word) * list Z) :=
  match n with
  | O => Some (l, file)
  | S n' =>
      bind (readint32 file) (fun word file =>
        let info := info_of word in
        match setitem l charcode (if width_index info =? 0 then None else Some info) with
        | Some l => read_infos n' (charcode + 1) l file
        | None => None
        end)
  end.
(** the loops of l.146-210, which are all alike *)
Fixpoint read32s (n : nat) (file : list Z) : option (list Z * list Z) :=
  match n with
  | O => Some ([], file)
  | S n' => bind (readint32 file) (fun v file => bind (read32s n' file) (fun vs file => Some (v :: vs, file)))
  end.
Definition table (n : Z) (file : list Z) : option (list Z * list Z) := read32s (Z.to_nat n) file.

(** TFMfile.__init__, l.39-210 *)
Definition read_tfm (file : list Z) : option (tfm * list Z) :=
  bind (read_pre file) (fun p file =>
  bind (readint32 file) (fun cs file =>
  bind (readint32 file) (fun ds file =>
  if 0 <? ds then
    bind (read_field (lh p) 2 11 40 file) (fun cc file =>
    bind (read_field (lh p) 12 16 20 file) (fun ff file =>
    bind (read_face (lh p) file) (fun sf file =>
    let file := skip_rest (lh p) file in
    bind (read_infos (Z.to_nat (ec p + 1 - bc p)) (bc p) (repeat None (Z.to_nat (ec p + 1))) file) (fun ci file =>
    bind (table (nw p) file) (fun w file =>
    bind (table (nh p) file) (fun h file =>
    bind (table (nd p) file) (fun d file =>
    bind (table (ni p) file) (fun i file =>
    bind (table (nl p) file) (fun l file =>
    bind (table (nk p) file) (fun k file =>
    bind (table (ne p) file) (fun e file =>
    bind (table (np p) file) (fun pa file =>
    Some (mktfm p cs ds cc ff (fst sf) (snd sf) ci w h d i l k e pa, file)))))))))))))
  else None))).

(** ** texfont.py *)

(** the loop of _convert_tfm_to_dvi, l.92-94, for z below 2 ** 27 *)
Fixpoint halve (fuel : nat) (z shift : Z) : Z * Z :=
  match fuel with
  | O => (z, shift)
  | S f => if 8388608 <=? z then halve f (Z.shiftr z 1) (shift - 1) else (z, shift)
  end.
(** _convert_tfm_to_dvi, l.88-96; [z] is int(round(self.q*self.tfmconv)).  After five halvings z would be below
    2 ** 22, so five rounds are enough. *)
Definition tfm_to_dvi (z length : Z) : option Z :=
  if (-16777216 <=? length) && (length <? 16777216) && (z <? 134217728) then
    let '(z, shift) := halve 5 z 20 in Some (Z.shiftr (length * z) shift)
  else None.

(** python's l[i] *)
Definition getitem {A} (l : list A) (i : Z) : option A :=
  if 0 <=? i then nth_error l (Z.to_nat i)
  else if 0 <=? i + Z.of_nat (List.length l) then nth_error l (Z.to_nat (i + Z.of_nat (List.length l))) else None.
(** getwidth_dvi, l.103-104, getheight_dvi, l.106-107, getdepth_dvi, l.109-110, and getitalic_dvi, l.112-113 *)
Definition get_dvi (index : char_info_word -> Z) (tbl : tfm -> list Z) (z : Z) (t : tfm) (charcode : Z) : option Z :=
  match getitem (char_info t) charcode with
  | Some (Some i) => match getitem (tbl t) (index i) with Some v => tfm_to_dvi z v | None => None end
  | _ => None
  end.
Definition getwidth_dvi := get_dvi width_index width.
Definition getheight_dvi := get_dvi height_index height.
Definition getdepth_dvi := get_dvi depth_index depth.
Definition getitalic_dvi := get_dvi italic_index italic.
