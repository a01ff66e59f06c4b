(** Model of the DVI interpreter pyx/dvi/dvifile.py, l.85-616, with what it uses of pyx/dvi/texfont.py.

    Files are lists of bytes (ReaderModel.v), positions are reals.  Debug output is left out.  Exceptions are [Failed].
    Fonts are given by what the interpreter asks of them: a TeXfont by its size and the widths of its characters in DVI
    units (TfmModel.v), a virtualfont also by the DVI chunks of its characters and the fonts it defines.  Loading a
    font (definefont, l.196-221, without the files behind it) is a parameter.  Of the specials only the flushing and the
    position are modelled: what color, rotation, scaling, epsfile and marker commands do is left to the canvas. *)
From Coq Require Import Reals ZArith List Bool.
From Coq Require Import ZifyBool Lia.
From Verif Require Import ReaderModel.
Import ListNotations.
Open Scope R_scope.

(** texfont.py l.29-34 and l.138-150; [q] is the size as a fix_word in TeX points.  self.fonts of a virtual font is a
    dict in the order of definition. *)
Inductive font : Type :=
| TeXfont (name : list Z) (q : R) (width : Z -> option Z)
| Virtual (name : list Z) (q : R) (width : Z -> option Z) (chars : Z -> option (list Z)) (fonts : list (Z * font)).
Definition width_dvi (f : font) : Z -> option Z := match f with TeXfont _ _ w => w | Virtual _ _ w _ _ => w end.
Definition size_q (f : font) : R := match f with TeXfont _ q _ => q | Virtual _ q _ _ _ => q end.
(** getsize_pt, texfont.py l.62-67 *)
Definition getsize_pt (f : font) : R := 72 / 72.27 * 16 * size_q f / 16777216.

(** a dict with integer keys: self.fonts[num], and the assignment to it *)
Fixpoint getfont (fonts : list (Z * font)) (num : Z) : option font :=
  match fonts with [] => None | (k, f) :: r => if (k =? num)%Z then Some f else getfont r num end.
Fixpoint putfont (fonts : list (Z * font)) (num : Z) (f : font) : list (Z * font) :=
  match fonts with
  | [] => [(num, f)]
  | (k, g) :: r => if (k =? num)%Z then (k, f) :: r else (k, g) :: putfont r num f
  end.

(** self.pos, l.66-71 *)
Record position := mkpos { ph : R; pv : R; pw : R; px : R; py : R; pz : R }.
(** what is inserted into the page, in order: texts (l.126-134), filled rectangles (l.147), specials *)
Inductive item :=
| Text (f : font) (x_pt y_pt : R) (charcodes : list Z)
| Rect (x_pt y_pt w_pt h_pt : R)
| Special (s : list Z) (x_pt y_pt : R).

(** an entry of self.statestack, l.337 *)
Record frame := mkframe { f_file : list Z; f_fonts : list (Z * font); f_active : option font; f_pos : position; f_stack : list position; f_scale : R }.
(** the attributes of DVIfile that change while a page is read *)
Record state := mkst {
  file : list Z; fonts : list (Z * font); active : option font; pos : position; stack : list position; scale : R;
  text : option (R * R * list Z); frames : list frame; page : list item }.
Inductive result := Running (s : state) | Ended (s : state) | Failed.

Definition set_file s v := mkst v (fonts s) (active s) (pos s) (stack s) (scale s) (text s) (frames s) (page s).
Definition set_fonts s v := mkst (file s) v (active s) (pos s) (stack s) (scale s) (text s) (frames s) (page s).
Definition set_active s v := mkst (file s) (fonts s) v (pos s) (stack s) (scale s) (text s) (frames s) (page s).
Definition set_pos s v := mkst (file s) (fonts s) (active s) v (stack s) (scale s) (text s) (frames s) (page s).
Definition set_stack s v := mkst (file s) (fonts s) (active s) (pos s) v (scale s) (text s) (frames s) (page s).
Definition set_text s v := mkst (file s) (fonts s) (active s) (pos s) (stack s) (scale s) v (frames s) (page s).
Definition set_page s v := mkst (file s) (fonts s) (active s) (pos s) (stack s) (scale s) (text s) (frames s) v.
Definition move_h p d := mkpos (ph p + d) (pv p) (pw p) (px p) (py p) (pz p).
Definition move_v p d := mkpos (ph p) (pv p + d) (pw p) (px p) (py p) (pz p).

Definition rpos (x : R) : bool := if Rlt_dec 0 x then true else false.
Definition known (o : option Z) : bool := match o with Some _ => true | None => false end.

(** _read_pre, l.370-393: the conversion factors *)
Record preamble := mkpre { num : R; den : R; mag : R }.
Definition tfmconv (p : preamble) : R := 25400000 / num p * (den p / 473628672) / 16.
Definition resolution : R := 300.
Definition conv (p : preamble) : R := num p / 254000 * (resolution / den p).
Definition pyxconv (p : preamble) : R := mag p / 1000 * conv p / resolution * 72.

Section Machine.
  Variable pre : preamble.
  (** singlecharmode, l.403 *)
  Variable single : bool.
  (** l.205-209: the font object for a name, checksum, size and design size (divided by tfmconv) *)
  Variable load : list Z -> Z -> R -> R -> option font.
  Let u := pyxconv pre.

  (** flushtext, l.126-134; the constructor of the text (texfont.py l.158-170) needs the metrics of all characters,
      and virtual fonts have no text (l.152-153) *)
  Definition flush (s : state) : option state :=
    match text s with
    | None => Some s
    | Some (x, y, codes) =>
        match active s with
        | Some (TeXfont n q w) =>
            if forallb (fun c => known (w c)) codes then
              Some (set_page (set_text s None) (page s ++ [Text (TeXfont n q w) (x * u) (- y * u) codes]))
            else None
        | _ => None
        end
    end.
  Definition after (o : option state) (k : state -> result) : result := match o with Some s => k s | None => Failed end.
  Definition arg (n : nat) (signed : bool) (s : state) (k : Z -> state -> result) : result :=
    match readint n signed (file s) with Some (v, f) => k v (set_file s f) | None => Failed end.

  (** putrule, l.136-157 *)
  Definition putrule (height width : R) (advancepos : bool) (s : state) : result :=
    after (flush s) (fun s =>
      let x1 := ph (pos s) * u in let y1 := - pv (pos s) * u in
      let s := if rpos height && rpos width then set_page s (page s ++ [Rect x1 y1 (width * u) (height * u)]) else s in
      Running (if advancepos then set_pos s (move_h (pos s) (width * scale s)) else s)).

  (** usefont, l.185-193 *)
  Definition usefont (fontnum : Z) (s : state) : result :=
    after (flush s) (fun s => match getfont (fonts s) fontnum with Some f => Running (set_active s (Some f)) | None => Failed end).

  (** _push_dvistring, l.324-349 *)
  Definition push_dvistring (dvi : list Z) (fs : list (Z * font)) (afterpos : position) (fontsize : R) (s : state) : result :=
    usefont 0 (mkst dvi fs (active s) (pos s) [] (fontsize / 1048576 / u) (text s)
      (mkframe (file s) (fonts s) (active s) afterpos (stack s) (scale s) :: frames s) (page s)).
  (** _pop_dvistring, l.351-358 *)
  Definition pop_dvistring (s : state) : result :=
    after (flush s) (fun s =>
      match frames s with
      | [] => Failed
      | f :: fr => Running (mkst (f_file f) (f_fonts f) (f_active f) (f_pos f) (f_stack f) (f_scale f) (text s) fr (page s))
      end).

  (** putchar, l.159-183 *)
  Definition putchar (char : Z) (advancepos : bool) (s : state) : result :=
    match (if advancepos then match active s with Some f => width_dvi f char | None => None end else Some 0%Z) with
    | None => Failed
    | Some dx =>
        let r :=
          match active s with
          | Some (Virtual n q w chars fs) =>
              match chars char with
              | None => Failed
              | Some chunk => push_dvistring chunk fs (move_h (pos s) (IZR dx)) (getsize_pt (Virtual n q w chars fs)) s
              end
          | _ =>
              let t := match text s with None => (ph (pos s), pv (pos s), []) | Some t => t end in
              let '(x, y, codes) := t in
              Running (set_pos (set_text s (Some (x, y, codes ++ [char]))) (move_h (pos s) (IZR dx)))
          end in
        match r with
        | Running s => if negb advancepos || single then after (flush s) Running else Running s
        | r => r
        end
    end.

  (** the texts header=l3backend-dvips.pro and PyX: *)
  Definition ignored_header : list Z :=
    [104; 101; 97; 100; 101; 114; 61; 108; 51; 98; 97; 99; 107; 101; 110; 100; 45; 100; 118; 105; 112; 115; 46; 112; 114; 111]%Z.
  Definition pyx_prefix : list Z := [80; 121; 88; 58]%Z.
  Fixpoint starts (p s : list Z) : bool :=
    match p, s with [], _ => true | a :: p', b :: s' => (a =? b)%Z && starts p' s' | _ :: _, [] => false end.
  (** special, l.223-320, of a string which can be decoded as ascii.  The header has to be the whole text, but as it
      does not start with PyX: it is ignored in either case. *)
  Definition special (t : list Z) (s : state) : result :=
    if forallb (fun c => c <? 128)%Z t then
      let x := ph (pos s) * u in let y := - pv (pos s) * u in
      if starts pyx_prefix t then after (flush s) (fun s => Running (set_page s (page s ++ [Special t x y])))
      else Running s
    else Failed.

  (** definefont with the reading of its arguments, l.599-614 and l.196-211.  Within the chunk of a virtual font this
      would change the fonts of that font object for good; here only those of the current chunk change. *)
  Definition definefont (n : nat) (s : state) : result :=
    arg n (n =? 4)%nat s (fun k s => arg 4 true s (fun c s => arg 4 true s (fun q s => arg 4 true s (fun d s =>
      arg 1 false s (fun a s => arg 1 false s (fun l s =>
        let '(name, rest) := fread (Z.to_nat (a + l)) (file s) in
        match load name c (IZR q / tfmconv pre) (IZR d / tfmconv pre) with
        | Some f => Running (set_fonts (set_file s rest) (putfont (fonts s) k f))
        | None => Failed
        end)))))).

  Definition nth_cmd (cmd base : Z) : nat := Z.to_nat (cmd - base + 1).
  Definition among (cmd base : Z) : bool := (base <=? cmd)%Z && (cmd <? base + 4)%Z.

  (** one round of the loop of l.438-616 *)
  Definition step (s : state) : result :=
    match file s with
    | [] => pop_dvistring s
    | cmd :: rest =>
        let s := set_file s rest in
        if (0 <=? cmd)%Z && (cmd <=? 127)%Z then putchar cmd true s
        else if among cmd 128 then arg (nth_cmd cmd 128) false s (fun c s => putchar c true s)
        else if (cmd =? 132)%Z then arg 4 true s (fun a s => arg 4 true s (fun b s => putrule (IZR a * scale s) (IZR b * scale s) true s))
        else if among cmd 133 then arg (nth_cmd cmd 133) false s (fun c s => putchar c false s)
        else if (cmd =? 137)%Z then arg 4 true s (fun a s => arg 4 true s (fun b s => putrule (IZR a * scale s) (IZR b * scale s) false s))
        else if (cmd =? 140)%Z then after (flush s) Ended
        else if (cmd =? 141)%Z then Running (set_stack s (pos s :: stack s))
        else if (cmd =? 142)%Z then after (flush s) (fun s => match stack s with [] => Failed | p :: r => Running (set_stack (set_pos s p) r) end)
        else if among cmd 143 then
          after (flush s) (fun s => arg (nth_cmd cmd 143) true s (fun b s => Running (set_pos s (move_h (pos s) (IZR b * scale s)))))
        else if (cmd =? 147)%Z then after (flush s) (fun s => Running (set_pos s (move_h (pos s) (pw (pos s)))))
        else if among cmd 148 then
          after (flush s) (fun s => arg (nth_cmd cmd 148) true s (fun b s =>
            let p := pos s in let b := IZR b * scale s in Running (set_pos s (move_h (mkpos (ph p) (pv p) b (px p) (py p) (pz p)) b))))
        else if (cmd =? 152)%Z then after (flush s) (fun s => Running (set_pos s (move_h (pos s) (px (pos s)))))
        else if among cmd 153 then
          after (flush s) (fun s => arg (nth_cmd cmd 153) true s (fun b s =>
            let p := pos s in let b := IZR b * scale s in Running (set_pos s (move_h (mkpos (ph p) (pv p) (pw p) b (py p) (pz p)) b))))
        else if among cmd 157 then
          after (flush s) (fun s => arg (nth_cmd cmd 157) true s (fun b s => Running (set_pos s (move_v (pos s) (IZR b * scale s)))))
        else if (cmd =? 161)%Z then after (flush s) (fun s => Running (set_pos s (move_v (pos s) (py (pos s)))))
        else if among cmd 162 then
          after (flush s) (fun s => arg (nth_cmd cmd 162) true s (fun b s =>
            let p := pos s in let b := IZR b * scale s in Running (set_pos s (move_v (mkpos (ph p) (pv p) (pw p) (px p) b (pz p)) b))))
        else if (cmd =? 166)%Z then after (flush s) (fun s => Running (set_pos s (move_v (pos s) (pz (pos s)))))
        else if among cmd 167 then
          after (flush s) (fun s => arg (nth_cmd cmd 167) true s (fun b s =>
            let p := pos s in let b := IZR b * scale s in Running (set_pos s (move_v (mkpos (ph p) (pv p) (pw p) (px p) (py p) b) b))))
        else if (171 <=? cmd)%Z && (cmd <=? 234)%Z then usefont (cmd - 171)%Z s
        else if among cmd 235 then arg (nth_cmd cmd 235) (cmd =? 238)%Z s (fun k s => usefont k s)
        else if among cmd 239 then
          arg (nth_cmd cmd 239) false s (fun n s => let '(t, rest) := fread (Z.to_nat n) (file s) in special t (set_file s rest))
        else if among cmd 243 then definefont (nth_cmd cmd 243) s
        else Failed (* the no operation command 138 (l.448-449) ends here, too *)
    end.

  (** the loop itself; [fuel] bounds the number of rounds *)
  Fixpoint loop (fuel : nat) (s : state) : result :=
    match fuel with
    | O => Failed
    | S f => match step s with Running s => loop f s | r => r end
    end.

  (** the commands before a page, l.412-429, without the check of the page id: None if nothing is left *)
  Fixpoint skip_nops (fuel : nat) (file : list Z) : option (option (list Z)) :=
    match fuel with
    | O => None
    | S f =>
        match file with
        | [] => None
        | cmd :: rest =>
            if (cmd =? 138)%Z then skip_nops f rest
            else if (cmd =? 139)%Z then if (44 <=? Z.of_nat (length rest))%Z then Some (Some (skipn 44 rest)) else None
            else if (cmd =? 248)%Z then Some None
            else None
        end
    end.

  (** readpage, l.403-616: the page, and the rest of the state for the next one *)
  Inductive outcome := Page (items : list item) (s : state) | Nopage | Error.
  Definition readpage (fuel : nat) (s : state) : outcome :=
    match skip_nops (S (length (file s))) (file s) with
    | None => Error
    | Some None => Nopage
    | Some (Some f) =>
        match loop fuel (mkst f (fonts s) (active s) (mkpos 0 0 0 0 0 0) (stack s) (scale s) None (frames s) []) with
        | Ended s' => Page (page s') s'
        | _ => Error
        end
    end.
End Machine.
