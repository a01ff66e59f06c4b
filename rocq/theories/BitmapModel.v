(** Model of pyx/bitmap.py: ascii85lines (l.43-46), ascii85stream (l.48-83),
    asciihexlines/asciihexstream (l.85-93), PSimagedata.output (l.217-249),
    image.__init__ and split (l.106-126), the scan lines of image.save (l.145-147),
    bitmap_trafo.imagedata (l.359-435, without compression and conversions of
    foreign image classes) and the line counts and palette sizes in processPS
    (l.446-523) and PDFimage.write (l.307).

    Bytes are integers; the output is the list of character codes. *)
From Coq Require Import String Ascii ZArith QArith Qround Bool List.
Import ListNotations.
Open Scope Z_scope.

(** ascii85lines, l.43-46: true division gives a (here: exact) fraction *)
Definition ascii85lines (datalen : Z) : Q :=
  if datalen <? 4 then 1%Q else (inject_Z (datalen + 56) / 60)%Q.

(** the formatting of a number with percent-i (truncation), l.221, 229, 471, 518 *)
Definition fmt_i (q : Q) : Z := if Qnum q <? 0 then - Qfloor (- q) else Qfloor q.

Definition newline : Z := 10.

(** the four divmods, l.65-68 and 77-80, giving c1..c5 *)
Definition digits85 (l0 l1 l2 l3 : Z) : list Z :=
  let v3 := 256 * 256 * l0 + 256 * 256 * l1 + 256 * l2 + l3 in
  let l3' := v3 / 85 in let c5 := v3 mod 85 in
  let v2 := 256 * 256 * 3 * l0 + l3' in
  let l2' := v2 / 85 in let c4 := v2 mod 85 in
  let l1' := l2' / 85 in let c3 := l2' mod 85 in
  let c1 := l1' / 85 in let c2 := l1' mod 85 in
  [c1; c2; c3; c4; c5].

Definition quad := (Z * Z * Z * Z)%type.

(** l[k] = c, l.60 and 76 *)
Definition lset (l : quad) (k : Z) (c : Z) : quad :=
  let '(l0, l1, l2, l3) := l in
  if k =? 0 then (c, l1, l2, l3) else if k =? 1 then (l0, c, l2, l3)
  else if k =? 2 then (l0, l1, c, l3) else (l0, l1, l2, c).

(** the values left in l after the divmods, l.65-68 *)
Definition lafter (l : quad) : quad :=
  let '(l0, l1, l2, l3) := l in
  let l3' := (256 * 256 * l0 + 256 * 256 * l1 + 256 * l2 + l3) / 85 in
  let l2' := (256 * 256 * 3 * l0 + l3') / 85 in
  (l0, l2' / 85, l2', l3').

Definition emit5 (l : quad) : list Z :=
  let '(l0, l1, l2, l3) := l in map (fun c => c + 33) (digits85 l0 l1 l2 l3).

(** the loop of ascii85stream, l.58-72; `if l` is the truth value of a list of
    length four, so the z branch of l.71-72 is never taken.  [i] is the index of
    the head of [data].  The Nones of l.57 are represented by zeros: they are
    overwritten before they are read. *)
Fixpoint a85loop (i : Z) (l : quad) (data : list Z) : list Z * quad :=
  match data with
  | [] => ([], l)
  | c :: data' =>
      let l1 := lset l (i mod 4) c in
      if i mod 4 =? 3 then
        let nl := if (i mod 60 =? 3) && negb (i =? 3) then [newline] else [] in
        let (o, lend) := a85loop (i + 1) (lafter l1) data' in
        (nl ++ emit5 l1 ++ o, lend)
      else a85loop (i + 1) l1 data'
  end.

(** l.75-76 *)
Definition zerofill (l : quad) (i4 : Z) : quad :=
  let '(l0, l1, l2, l3) := l in
  (l0, if i4 <? 1 then 0 else l1, if i4 <? 2 then 0 else l2, 0).

(** ascii85stream, l.48-83 *)
Definition ascii85stream (data : list Z) : list Z :=
  let i := if Z.of_nat (length data) =? 0 then 3 else Z.of_nat (length data) - 1 in
  let (o, l) := a85loop 0 (0, 0, 0, 0) data in
  if i mod 4 =? 3 then o
  else o ++ firstn (Z.to_nat (i mod 4 + 2)) (firstn 4 (emit5 (zerofill l (i mod 4)))).

Definition str (s : string) : list Z := map (fun c => Z.of_N (N_of_ascii c)) (list_ascii_of_string s).

(** data[i: i+maxstrlen] for i in range(0, tailpos, maxstrlen), l.233-236 *)
Fixpoint full_strings (k : nat) (maxstrlen : nat) (data : list Z) : list Z :=
  match k with
  | O => []
  | S k' => (str "<~" ++ ascii85stream (firstn maxstrlen data) ++ str "~>" ++ [newline])
            ++ full_strings k' maxstrlen (skipn maxstrlen data)
  end.

(** PSimagedata.output, l.226-241: the announced number of lines and the text
    between the BeginData and the EndData line, maxstrlen > 0 *)
Definition psimagedata (singlestring : bool) (maxstrlen : nat) (data : list Z) : Z * list Z :=
  let datalen := Z.of_nat (length data) in
  if singlestring then
    (fmt_i (ascii85lines datalen), str "<~" ++ ascii85stream data ++ str "~>" ++ [newline])
  else
    let m := Z.of_nat maxstrlen in
    let tailpos := datalen - datalen mod m in
    (fmt_i ((inject_Z tailpos / inject_Z m) * ascii85lines m + ascii85lines (datalen - tailpos)),
     str "[ " ++ full_strings (Z.to_nat (tailpos / m)) maxstrlen data
       ++ (if datalen =? tailpos then []
           else str "<~" ++ ascii85stream (skipn (Z.to_nat tailpos) data) ++ str "~>")
       ++ str "]" ++ [newline]).

(** the inline data of processPS, l.517-522: announced lines and the text *)
Definition psinline (data : list Z) : Z * list Z :=
  (fmt_i (ascii85lines (Z.of_nat (length data)) + 1),
   str "image" ++ [newline] ++ ascii85stream data ++ str "~>" ++ [newline]).

(** Python numbers as far as needed for the type error in asciihexstream *)
Inductive pynum := PInt (z : Z) | PFloat (q : Q).
Definition numQ (a : pynum) : Q := match a with PInt z => inject_Z z | PFloat q => q end.
Definition truediv (a b : pynum) : pynum := PFloat (numQ a / numQ b).
Definition plus (a b : pynum) : pynum :=
  match a, b with PInt x, PInt y => PInt (x + y) | _, _ => PFloat (numQ a + numQ b) end.
(** range(n): TypeError unless n is an integer *)
Definition range (a : pynum) : option (list Z) :=
  match a with PInt z => Some (map Z.of_nat (seq 0 (Z.to_nat z))) | PFloat _ => None end.

(** asciihexstream, l.89-93: [None] is a TypeError *)
Definition asciihexstream (hexdata : list Z) : option (list Z) :=
  match range (plus (truediv (PInt (Z.of_nat (length hexdata) - 1)) (PInt 64)) (PInt 1)) with
  | None => None
  | Some is => Some (flat_map (fun i => firstn 64 (skipn (Z.to_nat (i * 64)) hexdata) ++ [newline]) is)
  end.

(** ** image data *)

(** data[start::step], l.126 *)
Fixpoint slice_step (start step : nat) (data : list Z) : list Z :=
  match data with
  | [] => []
  | x :: r => match start with
              | O => x :: slice_step (step - 1) step r
              | S k => slice_step k step r
              end
  end.

(** image.split, l.121-126: the bytes of the band images *)
Definition bands_of (bands : nat) (data : list Z) : list (list Z) :=
  map (fun b => slice_step b bands data) (seq 0 bands).

(** zip applied to all bands, l.381-383, 391-393, 397-399: stops at the shortest band;
    [n] bounds the number of tuples by the length of the first band *)
Fixpoint zip (n : nat) (bs : list (list Z)) : list (list Z) :=
  match n with
  | O => []
  | S n' => if forallb (fun b => match b with [] => false | _ => true end) bs
            then map (hd 0) bs :: zip n' (map (@tl Z) bs) else []
  end.
Definition zipall (bs : list (list Z)) : list (list Z) :=
  match bs with [] => [] | b :: _ => zip (length b) bs end.

(** image.__init__, l.108-120, for uncompressed data *)
Record image := { iwidth : Z; iheight : Z; imode : string; idata : list Z }.
Definition valid_modes : list string :=
  ["L"; "RGB"; "CMYK"; "LA"; "RGBA"; "CMYKA"; "AL"; "ARGB"; "ACMYK"; "P"]%string.
Definition new_image (w h : Z) (mode : string) (data : list Z) : option image :=
  if (w <=? 0) || (h <=? 0) then None
  else if negb (existsb (String.eqb mode) valid_modes) then None
  else if negb (Z.of_nat (String.length mode) * w * h =? Z.of_nat (length data)) then None
  else Some {| iwidth := w; iheight := h; imode := mode; idata := data |}.

Definition split_image (im : image) : list (list Z) := bands_of (String.length (imode im)) (idata im).

Fixpoint but_last (s : string) : string :=
  match s with
  | EmptyString => EmptyString
  | String c EmptyString => EmptyString
  | String c s' => String c (but_last s')
  end.
Fixpoint ends_with_A (s : string) : bool :=
  match s with
  | EmptyString => false
  | String c EmptyString => Ascii.eqb c "A"%char
  | String c s' => ends_with_A s'
  end.

Inductive alphakind := NoAlpha | AlphaTrue | AlphaBand (data : list Z).

(** mode.startswith('A') with the mode[1:] of l.373, l.372 *)
Definition strip_A (s : string) : option string :=
  match s with
  | String c s' => if Ascii.eqb c "A"%char then Some s' else None
  | EmptyString => None
  end.

(** the first alpha branch of bitmap_trafo.imagedata, l.372-383 *)
Definition imagedata_front (im : image) (interleavealpha : bool) : option (string * image * alphakind) :=
  match strip_A (imode im) with
  | Some mode =>
      if interleavealpha then Some (mode, im, AlphaTrue)
      else let bs := split_image im in
           match new_image (iwidth im) (iheight im) mode (concat (zipall (tl bs))) with
           | Some d => Some (mode, d, AlphaBand (hd [] bs))
           | None => None
           end
  | None => Some (imode im, im, NoAlpha)
  end.

(** bitmap_trafo.imagedata, l.359-421, for images of the class image without
    compression; [None] stands for an exception *)
Definition imagedata (im : image) (interleavealpha : bool) : option (string * list Z * alphakind) :=
  match imagedata_front im interleavealpha with
  | None => None
  | Some (mode, d, alpha) =>
      if ends_with_A mode then
        let bs := split_image d in
        let mode' := but_last mode in
        if interleavealpha then
          match new_image (iwidth im) (iheight im) (String "A"%char mode')
                  (concat (zipall (last bs [] :: removelast bs))) with
          | Some d' => Some (mode', idata d', AlphaTrue)
          | None => None
          end
        else
          match new_image (iwidth im) (iheight im) mode' (concat (zipall (removelast bs))) with
          | Some d' => Some (mode', idata d', AlphaBand (last bs []))
          | None => None
          end
      else Some (mode, idata d, alpha)
  end.

(** image.save, l.146: filter byte in front of each scan line;
    [linelen] is bytesperpixel*width *)
Definition png_scanlines (linelen height : nat) (data : list Z) : list Z :=
  flat_map (fun pos => 0 :: firstn linelen (skipn (linelen * pos) data)) (seq 0 height).

(** the highest index announced for a palette, l.307 and l.470 *)
Definition indexed_hival (palettedata : list Z) : Z :=
  fmt_i (inject_Z (Z.of_nat (length palettedata)) / 3 - 1).
