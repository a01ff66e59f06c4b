(** PNG images which are written can be read again (pyx/bitmap.py, l.139-158). *)
From Coq Require Import ZArith List Bool Lia.
From Verif Require Import JpegModel.
Import ListNotations.
Open Scope Z_scope.

(** ** Specification: a reader of PNG files (8 bits per channel, no interlacing, no filters of lines) *)
Section Reader.
  Variable crc32 : list Z -> Z.
  Variable decompress : list Z -> option (list Z).
  Definition number (l : list Z) : Z := fold_left (fun n b => 256 * n + b) l 0.
  Definition take (n : nat) (l : list Z) : option (list Z * list Z) := if Nat.leb n (length l) then Some (firstn n l, skipn n l) else None.
  Definition bind {A B} (o : option A) (f : A -> option B) : option B := match o with Some a => f a | None => None end.
  (** the chunks up to the one named IEND, after which nothing follows *)
  Fixpoint read_chunks (fuel : nat) (l : list Z) : option (list (list Z * list Z)) :=
    match fuel with
    | O => None
    | S fuel =>
        bind (take 4 l) (fun '(len, l) => bind (take 4 l) (fun '(name, l) => bind (take (Z.to_nat (number len)) l) (fun '(data, l) => bind (take 4 l) (fun '(crc, l) =>
          if negb (number crc =? crc32 (name ++ data)) then None
          else if list_eq_dec Z.eq_dec name [73; 69; 78; 68] then match l, data with [], [] => Some [] | _, _ => None end
          else bind (read_chunks fuel l) (fun r => Some ((name, data) :: r))))))
    end.
  Definition is_idat (c : list Z * list Z) : bool := if list_eq_dec Z.eq_dec (fst c) [73; 68; 65; 84] then true else false.
  Definition channels (type : Z) : option nat :=
    if type =? 0 then Some 1%nat else if type =? 2 then Some 3%nat else if type =? 3 then Some 1%nat else if type =? 4 then Some 2%nat else if type =? 6 then Some 4%nat else None.
  (** the pixels: each line begins with the number of its filter *)
  Fixpoint read_lines (height bytes : nat) (l : list Z) : option (list Z) :=
    match height with
    | O => match l with [] => Some [] | _ => None end
    | S height => bind (take 1 l) (fun '(f, l) => bind (take bytes l) (fun '(line, l) =>
        if number f =? 0 then bind (read_lines height bytes l) (fun r => Some (line ++ r)) else None))
    end.
  (** width, height, type of colors, palette, pixels *)
  Definition read_png (file : list Z) : option (Z * Z * Z * option (list Z) * list Z) :=
    bind (take 8 file) (fun '(signature, l) =>
      if list_eq_dec Z.eq_dec signature [137; 80; 78; 71; 13; 10; 26; 10] then
        bind (read_chunks (length file) l) (fun chunks =>
          match chunks with
          | ([73; 72; 68; 82], [w1; w2; w3; w4; h1; h2; h3; h4; 8; type; 0; 0; 0]) :: rest =>
              let '(palette, rest) := match rest with ([80; 76; 84; 69], p) :: rest => (Some p, rest) | _ => (None, rest) end in
              if forallb is_idat rest then
                bind (channels type) (fun ch => bind (decompress (flat_map snd rest)) (fun d =>
                  bind (read_lines (Z.to_nat (number [h1; h2; h3; h4])) (ch * Z.to_nat (number [w1; w2; w3; w4])) d) (fun pixels =>
                    Some (number [w1; w2; w3; w4], number [h1; h2; h3; h4], type, palette, pixels))))
              else None
          | _ => None
          end)
      else None).
End Reader.

(** ** Proofs *)
Lemma number_pack n : 0 <= n < 4294967296 -> number (pack32 n) = n.
Proof.
  intros H. unfold pack32, number. cbn [fold_left].
  assert (A : n / 16777216 mod 256 = n / 16777216) by (apply Z.mod_small; split; [apply Z.div_pos; lia|apply Z.div_lt_upper_bound; lia]).
  rewrite A.
  pose proof (Z.div_mod n 256 ltac:(lia)) as D1. pose proof (Z.div_mod (n / 256) 256 ltac:(lia)) as D2. pose proof (Z.div_mod (n / 65536) 256 ltac:(lia)) as D3.
  rewrite !Z.div_div in D2, D3 by lia. change (256 * 256) with 65536 in D2. change (65536 * 256) with 16777216 in D3. lia.
Qed.
Lemma take_app n (a b : list Z) : length a = n -> take n (a ++ b) = Some (a, b).
Proof.
  intros <-. unfold take. rewrite app_length, (proj2 (Nat.leb_le _ _)) by lia.
  rewrite firstn_app, skipn_app, Nat.sub_diag, firstn_all, skipn_all. cbn. rewrite app_nil_r. reflexivity.
Qed.

Lemma skipn_add {A} : forall a b (l : list A), skipn (a + b) l = skipn b (skipn a l).
Proof. induction a as [|a IH]; intros b l; [reflexivity|]. destruct l as [|x l]; cbn [Nat.add skipn]; [destruct b; reflexivity|apply IH]. Qed.

Section Proofs.
  Variable crc32 : list Z -> Z.
  Variable compress : list Z -> list Z.
  Variable decompress : list Z -> option (list Z).
  Hypothesis crc_range : forall l, 0 <= crc32 l < 4294967296.
  Hypothesis inverse : forall l, decompress (compress l) = Some l.

  Lemma read_chunk fuel name data rest : length name = 4%nat -> Z.of_nat (length data) < 4294967296 -> name <> [73; 69; 78; 68] ->
    read_chunks crc32 (S fuel) (chunk crc32 name data ++ rest) = bind (read_chunks crc32 fuel rest) (fun r => Some ((name, data) :: r)).
  Proof.
    intros N D I. unfold chunk. rewrite <- !app_assoc. cbn [read_chunks]. rewrite take_app by reflexivity. cbn [bind]. rewrite take_app by assumption. cbn [bind].
    rewrite number_pack by lia. rewrite Nat2Z.id, take_app by reflexivity. cbn [bind]. rewrite take_app by reflexivity. cbn [bind].
    rewrite number_pack by apply crc_range. rewrite Z.eqb_refl. cbn [negb]. destruct (list_eq_dec Z.eq_dec name [73; 69; 78; 68]); [contradiction|reflexivity].
  Qed.
  Lemma read_end fuel : read_chunks crc32 (S fuel) (chunk crc32 [73; 69; 78; 68] []) = Some [].
  Proof.
    unfold chunk. rewrite <- (app_nil_r (pack32 _ ++ _)), <- !app_assoc. cbn [read_chunks]. rewrite take_app by reflexivity. cbn [bind].
    rewrite take_app by reflexivity. cbn [bind]. rewrite number_pack by (cbn; lia). cbn [length Z.of_nat Z.to_nat].
    rewrite take_app by reflexivity. cbn [bind]. rewrite take_app by reflexivity. cbn [bind].
    rewrite number_pack by apply crc_range. rewrite Z.eqb_refl. reflexivity.
  Qed.

  Lemma read_filtered k : forall height data a, length data = (k * height)%nat ->
    read_lines height k (flat_map (fun pos => 0 :: firstn k (skipn (k * pos - k * a) data)) (seq a height)) = Some data.
  Proof.
    induction height as [|height IH]; intros data a L.
    - destruct data; [reflexivity|cbn in L; lia].
    - cbn [seq flat_map read_lines]. rewrite Nat.sub_diag. cbn [skipn].
      assert (L1 : length (firstn k data) = k) by (apply firstn_length_le; lia).
      rewrite <- app_comm_cons. unfold take at 1. cbn [length Nat.leb firstn skipn bind]. rewrite take_app by assumption. cbn [bind number fold_left Z.mul Z.add Z.eqb].
      assert (E : forall l, (forall p, In p l -> (S a <= p)%nat) -> flat_map (fun pos => 0 :: firstn k (skipn (k * pos - k * a) data)) l =
        flat_map (fun pos => 0 :: firstn k (skipn (k * pos - k * S a) (skipn k data))) l).
      { induction l as [|p l IHl]; intros P; [reflexivity|]. cbn [flat_map]. rewrite IHl by (intros; apply P; right; auto). do 2 f_equal. f_equal.
        assert (S a <= p)%nat by (apply P; left; auto).
        replace (k * p - k * a)%nat with (k + (k * p - k * S a))%nat by nia.
        apply skipn_add. }
      rewrite E by (intros p I; apply in_seq in I; lia). rewrite IH by (rewrite skipn_length; nia). cbn [bind]. rewrite firstn_skipn. reflexivity.
  Qed.

  Lemma lines_length k height width data : length data = (k * width * height)%nat -> length (filtered k width height data) = (length data + height)%nat.
  Proof.
    intros L. unfold filtered. rewrite L.
    assert (E : forall n a, (k * width * (a + n) <= length data)%nat ->
      length (flat_map (fun pos => 0 :: firstn (k * width) (skipn (k * width * pos) data)) (seq a n)) = (k * width * n + n)%nat).
    { induction n as [|n IH]; intros a H; [cbn; lia|]. cbn [seq flat_map]. rewrite app_length. cbn [length].
      rewrite firstn_length_le by (rewrite skipn_length; nia). rewrite IH by nia. nia. }
    apply E. cbn. lia.
  Qed.

  (** what the palette means: its gray levels are colors with three equal values *)
  Definition palette_colors (m : pmode) (palette : palmode * list Z) : option (list Z) :=
    match m with PP => Some (match fst palette with PalL => flat_map (fun x => [x; x; x]) (snd palette) | _ => snd palette end) | _ => None end.
  Definition color_type (m : pmode) : Z := match m with PL => 0 | PRGB => 2 | PP => 3 | PLA => 4 | PRGBA => 6 end.

  (** A reader of PNG files gets back the size, the colors, the palette and the pixels of each image which is written. *)
  Theorem png_read_back : forall m width height data palette,
    (0 < width)%nat -> (0 < height)%nat -> Z.of_nat width < 4294967296 -> Z.of_nat height < 4294967296 ->
    length data = (match m with PL => 1 | PLA => 2 | PRGB => 3 | PRGBA => 4 | PP => 1 end * width * height)%nat ->
    (forall l, length l = (length data + height)%nat -> Z.of_nat (length (compress l)) < 4294967296) -> fst palette <> PalOther -> Z.of_nat (length (snd palette)) <= 256 * 3 ->
    exists file, save_png crc32 compress m width height data palette = Some file /\
      read_png crc32 decompress file = Some (Z.of_nat width, Z.of_nat height, color_type m, palette_colors m palette, data).
  Proof.
    intros m width height data [pm pd] W H W' H' L C P Q. cbn [fst snd] in P, Q.
    set (bpp := bytesperpixel m).
    assert (Lines : read_lines height (bpp * width) (filtered bpp width height data) = Some data).
    { unfold filtered. pose proof (read_filtered (bpp * width) height data 0) as R. rewrite Nat.mul_0_r in R.
      transitivity (read_lines height (bpp * width) (flat_map (fun pos => 0 :: firstn (bpp * width) (skipn (bpp * width * pos - 0) data)) (seq 0 height))).
      - f_equal. apply flat_map_ext. intros a. rewrite Nat.sub_0_r. reflexivity.
      - apply R. rewrite L. unfold bpp. destruct m; reflexivity. }
    set (ihdr := pack32 (Z.of_nat width) ++ pack32 (Z.of_nat height) ++ [8; pngmode m; 0; 0; 0]).
    assert (LI : Z.of_nat (length ihdr) < 4294967296) by (cbn; lia).
    set (d := compress (filtered bpp width height data)).
    assert (NP : exists p, plte crc32 m (pm, pd) = Some p /\ forall fuel rest,
       exists cs, read_chunks crc32 (S (S fuel)) (p ++ chunk crc32 [73; 68; 65; 84] d ++ rest) =
         bind (read_chunks crc32 (match m with PP => fuel | _ => S fuel end) rest) (fun r => Some (cs ++ ([73; 68; 65; 84], d) :: r)) /\
         cs = match palette_colors m (pm, pd) with Some q => [([80; 76; 84; 69], q)] | None => [] end).
    { assert (D : Z.of_nat (length d) < 4294967296).
      { apply C. apply lines_length. rewrite L. unfold bpp. destruct m; reflexivity. }
      assert (NN : exists p, plte crc32 m (pm, pd) = Some p /\ match m with PP => exists q, palette_colors m (pm, pd) = Some q /\ p = chunk crc32 [80; 76; 84; 69] q /\ Z.of_nat (length q) < 4294967296 | _ => p = [] end).
      { unfold plte, palette_colors. destruct m; cbn [fst snd]; try (exists []; auto; fail).
        destruct pm; [| |congruence]; (eexists; split; [reflexivity|]; eexists; split; [reflexivity|]; split; [reflexivity|]).
        - assert (E : forall l : list Z, length (flat_map (fun x => [x; x; x]) l) = (3 * length l)%nat) by (induction l; [reflexivity|cbn [flat_map app length]; lia]).
          rewrite E. lia.
        - lia. }
      destruct NN as (p & E & S). exists p. split; [exact E|]. intros fuel rest.
      destruct m; cbn [palette_colors] in *; try (subst p; exists []; split; [|reflexivity]; cbn [app]; rewrite read_chunk by (auto; discriminate); reflexivity).
      destruct S as (q & [= <-] & -> & Lq). eexists. split; [|reflexivity].
      rewrite read_chunk by (auto; discriminate). rewrite read_chunk by (auto; discriminate).
      destruct (read_chunks crc32 fuel rest); reflexivity. }
    destruct NP as (p & E & R). eexists. split; [unfold save_png; rewrite E; fold ihdr; fold bpp; fold d; reflexivity|].
    unfold read_png. rewrite take_app by reflexivity. cbn [bind]. destruct (list_eq_dec Z.eq_dec _ _) as [_|N]; [|congruence].
    set (rest := chunk crc32 [73; 72; 68; 82] ihdr ++ p ++ chunk crc32 [73; 68; 65; 84] d ++ chunk crc32 [73; 69; 78; 68] []).
    assert (F : exists f, length ([137; 80; 78; 71; 13; 10; 26; 10] ++ rest) = S (S (S (S f)))).
    { rewrite app_length. cbn [length Nat.add]. eexists. reflexivity. }
    destruct F as (f & ->). unfold rest. rewrite read_chunk by (auto; discriminate).
    destruct (R (S f) (chunk crc32 [73; 69; 78; 68] [])) as (cs & -> & ->).
    assert (E2 : read_chunks crc32 (match m with PP => S f | _ => S (S f) end) (chunk crc32 [73; 69; 78; 68] []) = Some []) by (destruct m; apply read_end).
    rewrite E2. cbn [bind].
    assert (Nw : number [Z.of_nat width / 16777216 mod 256; Z.of_nat width / 65536 mod 256; Z.of_nat width / 256 mod 256; Z.of_nat width mod 256] = Z.of_nat width)
      by (apply (number_pack (Z.of_nat width)); lia).
    assert (Nh : number [Z.of_nat height / 16777216 mod 256; Z.of_nat height / 65536 mod 256; Z.of_nat height / 256 mod 256; Z.of_nat height mod 256] = Z.of_nat height)
      by (apply (number_pack (Z.of_nat height)); lia).
    unfold ihdr, pack32. cbn [app].
    remember (number [Z.of_nat width / 16777216 mod 256; Z.of_nat width / 65536 mod 256; Z.of_nat width / 256 mod 256; Z.of_nat width mod 256]) as nw.
    remember (number [Z.of_nat height / 16777216 mod 256; Z.of_nat height / 65536 mod 256; Z.of_nat height / 256 mod 256; Z.of_nat height mod 256]) as nh.
    rewrite Nw, Nh. clear Nw Nh Heqnw Heqnh nw nh R E E2 rest p.
    assert (I : is_idat ([73; 68; 65; 84], d) = true) by reflexivity.
    assert (Z : forallb is_idat [([73; 68; 65; 84], d)] = true) by (cbn [forallb]; rewrite I; reflexivity).
    assert (D : decompress (flat_map snd [([73; 68; 65; 84], d)]) = Some (filtered bpp width height data))
      by (cbn [flat_map snd]; rewrite app_nil_r; apply inverse).
    assert (Ch : channels (pngmode m) = Some bpp) by (unfold bpp; destruct m; reflexivity).
    assert (Ct : pngmode m = color_type m) by (destruct m; reflexivity).
    destruct (palette_colors m (pm, pd)) as [q|]; cbn [app]; rewrite Z, Ch, D; cbn [bind]; rewrite !Nat2Z.id, Lines; cbn [bind]; rewrite Ct; reflexivity.
  Qed.
End Proofs.
Print Assumptions png_read_back.

(** Two lines of two gray pixels with their alpha values; the compression leaves the data as they are. *)
Example ex_png : exists file, save_png (fun l => Z.of_nat (length l)) (fun l => l) PLA 2 2 [1; 255; 2; 255; 3; 0; 4; 7] (PalL, []) = Some file /\
  length file = 67%nat /\ read_png (fun l => Z.of_nat (length l)) Some file = Some (2, 2, 4, None, [1; 255; 2; 255; 3; 0; 4; 7]).
Proof. eexists. split; [reflexivity|]. split; reflexivity. Qed.
(** An image with a palette of two gray levels *)
Example ex_png_palette : exists file, save_png (fun _ => 0) (fun l => l) PP 2 1 [0; 1] (PalL, [0; 255]) = Some file /\
  read_png (fun _ => 0) Some file = Some (2, 1, 3, Some [0; 0; 0; 255; 255; 255], [0; 1]).
Proof. eexists. split; reflexivity. Qed.
