(** Model of pyx/bitmap.py: the reading of JPEG images (jpegimage.__init__, l.164-209) and the writing of PNG images (image.save, l.136-162).

    Bytes are integers from 0 to 255, exceptions are None. *)
From Coq Require Import ZArith List Bool.
Import ListNotations.
Open Scope Z_scope.

(** ** jpegimage.__init__ *)
Inductive jmode := ML | MRGB | MCMYK.
(** l.191-194: the dictionary of modes *)
Definition jmode_of (components : Z) : option jmode :=
  if components =? 1 then Some ML else if components =? 3 then Some MRGB else if components =? 4 then Some MCMYK else None.
(** the local variables width, height and mode, which exist after a frame header *)
Definition frame := (Z * Z * jmode)%type.
(** self.info: the kind (1 or 2) and the resolutions as they are in the file (the numbers are in ImagePlaceModel.jpeg_dpi) *)
Definition dpi := (Z * Z * Z)%type.
Definition be (a b : Z) : Z := 256 * a + b.

(** the loop, l.172-206; l is data[pos:], the fuel the number of passes.  The result is begin, end, the frame and the resolution. *)
Fixpoint scan (fuel : nat) (l : list Z) (pos nestinglevel begin : nat) (fr : option frame) (info : option dpi) : option (nat * nat * option frame * option dpi) :=
  match fuel with
  | O => None
  | S fuel =>
      match l with
      | [] => None
      | a :: l' =>
          if a =? 255 then
            match l' with
            | [] => None
            | m :: _ =>
                if (m =? 0) || (m =? 255) then scan fuel l' (S pos) nestinglevel begin fr info
                else if m =? 216 then scan fuel l' (S pos) (S nestinglevel) (match nestinglevel with O => pos | _ => begin end) fr info
                else match nestinglevel with
                | O => None
                | S n =>
                    if m =? 217 then match n with O => Some (begin, (pos + 2)%nat, fr, info) | _ => scan fuel l' (S pos) n begin fr info end
                    else if (m =? 192) || (m =? 194) then
                      match firstn 8 (skipn 2 l) with
                      | [l1; l2; bits; h1; h2; w1; w2; components] =>
                          if bits =? 8 then
                            match jmode_of components with
                            | Some mode =>
                                let n := Z.to_nat (be l1 l2 + 2) in scan fuel (skipn n l) (pos + n) nestinglevel begin (Some (be w1 w2, be h1 h2, mode)) info
                            | None => None
                            end
                          else None
                      | _ => None
                      end
                    else if m =? 224 then
                      match firstn 14 (skipn 2 l) with
                      | [l1; l2; _; _; _; _; _; _; _; kind; x1; x2; y1; y2] =>
                          let n := Z.to_nat (be l1 l2 + 2) in
                          scan fuel (skipn n l) (pos + n) nestinglevel begin fr (if (kind =? 1) || (kind =? 2) then Some (kind, be x1 x2, be y1 y2) else info)
                      | _ => None
                      end
                    else scan fuel l' (S pos) nestinglevel begin fr info
                end
            end
          else scan fuel l' (S pos) nestinglevel begin fr info
      end
  end.
(** l.209 and image.__init__, l.110-120: the size has to be positive; the result is the frame, data[begin:end] and the resolution.  Without a frame
    header the variables width, height and mode do not exist. *)
Definition jpegimage (data : list Z) : option (frame * list Z * option dpi) :=
  match scan (S (length data)) data 0 0 0 None None with
  | Some (begin, end_, Some (w, h, mode), info) => if (w <=? 0) || (h <=? 0) then None else Some ((w, h, mode), firstn (end_ - begin) (skipn begin data), info)
  | _ => None
  end.

(** ** image.save *)
(** modes: those which PNG knows, with the type of colors and the bytes per pixel, l.142 *)
Inductive pmode := PL | PLA | PRGB | PRGBA | PP.
Definition pngmode (m : pmode) : Z := match m with PL => 0 | PLA => 4 | PRGB => 2 | PRGBA => 6 | PP => 3 end.
Definition bytesperpixel (m : pmode) : nat := match m with PL => 1 | PLA => 2 | PRGB => 3 | PRGBA => 4 | PP => 1 end.
(** the palette: its mode (L or RGB, other ones are a RuntimeError) and its data *)
Inductive palmode := PalL | PalRGB | PalOther.

(** struct.pack("!I", n); larger numbers are a struct.error *)
Definition pack32 (n : Z) : list Z := [n / 16777216 mod 256; n / 65536 mod 256; n / 256 mod 256; n mod 256].
Section Png.
  (** zlib.crc32 (masked) and zlib.compress *)
  Variable crc32 : list Z -> Z.
  Variable compress : list Z -> list Z.
  (** chunk, l.149 *)
  Definition chunk (name data : list Z) : list Z := pack32 (Z.of_nat (length data)) ++ name ++ data ++ pack32 (crc32 (name ++ data)).
  (** the lines with a filter byte each, l.147-148 *)
  Definition filtered (bpp width height : nat) (data : list Z) : list Z :=
    flat_map (fun pos => 0 :: firstn (bpp * width) (skipn (bpp * width * pos) data)) (seq 0 height).
  (** l.152-162 *)
  Definition plte (m : pmode) (palette : palmode * list Z) : option (list Z) :=
    match m with
    | PP =>
        match fst palette with
        | PalL => Some (chunk [80; 76; 84; 69] (flat_map (fun x => [x; x; x]) (snd palette)))
        | PalRGB => Some (chunk [80; 76; 84; 69] (snd palette))
        | PalOther => None
        end
    | _ => Some []
    end.
  Definition save_png (m : pmode) (width height : nat) (data : list Z) (palette : palmode * list Z) : option (list Z) :=
    match plte m palette with
    | Some p => Some ([137; 80; 78; 71; 13; 10; 26; 10] ++
        chunk [73; 72; 68; 82] (pack32 (Z.of_nat width) ++ pack32 (Z.of_nat height) ++ [8; pngmode m; 0; 0; 0]) ++ p ++
        chunk [73; 68; 65; 84] (compress (filtered (bytesperpixel m) width height data)) ++ chunk [73; 69; 78; 68] [])
    | None => None
    end.
End Png.
