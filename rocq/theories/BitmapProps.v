(** Bitmap data: ASCII85 (C33), line counts (C34), bands and scan lines (C35),
    palettes (C73). *)
From Coq Require Import String Ascii ZArith QArith Qround Bool List Lia ZifyBool.
From Verif Require Import BitmapModel BitmapSpec BitmapProofs.
Import ListNotations.
Open Scope Z_scope.

(** C33: the text written decodes to the data. *)
Theorem ascii85_roundtrip : forall data, Forall isbyte data -> ascii85decode (ascii85stream data) = Some data.
Proof. exact ascii85_decodes. Qed.
Print Assumptions ascii85_roundtrip.

(** C33: the text consists of newlines and ASCII85 digits, so that the end marker
    cannot occur in it. *)
Theorem ascii85_charset : forall data, Forall isbyte data ->
  Forall (fun c => c = 10 \/ 33 <= c <= 117) (ascii85stream data).
Proof. intros. rewrite ascii85stream_whole. apply whole_chars; auto; lia. Qed.
Print Assumptions ascii85_charset.

Example ascii85_ex : ascii85stream [77; 97; 110; 32; 105] = map (fun c => Z.of_N (N_of_ascii c)) (list_ascii_of_string "9jqo^B`")
  /\ ascii85decode (ascii85stream [77; 97; 110; 32; 105]) = Some [77; 97; 110; 32; 105].
Proof. split; vm_compute; reflexivity. Qed.

(** C34: a single string and the inline image data. *)
Theorem single_string_lines : forall data maxstrlen, Forall isbyte data ->
  fst (psimagedata true maxstrlen data) = lines (snd (psimagedata true maxstrlen data)).
Proof.
  intros data m H. unfold psimagedata. cbn [fst snd]. rewrite !lines_app, <- stream_lines by auto.
  change (lines (str "<~")) with 0. change (lines (str "~>")) with 0. change (lines [newline]) with 1. lia.
Qed.
Print Assumptions single_string_lines.

Theorem inline_lines : forall data, Forall isbyte data -> fst (psinline data) = lines (snd (psinline data)).
Proof.
  intros data H. unfold psinline. cbn [fst snd]. rewrite !lines_app.
  change (lines (str "image")) with 0. change (lines (str "~>")) with 0. change (lines [newline]) with 1.
  pose proof (stream_lines data H) as E. pose proof (ascii85lines_nonneg (Z.of_nat (length data))) as N.
  rewrite fmt_i_nonneg in E by auto. rewrite fmt_i_nonneg.
  - rewrite Qplus_comm. change 1%Q with (inject_Z 1). rewrite Qfloor_add_int. lia.
  - rewrite <- (Qplus_0_l 0). apply Qplus_le_compat; [auto|discriminate].
Qed.
Print Assumptions inline_lines.

Example single_string_lines_ex : fst (psimagedata true 4093 (repeat 7 200)) = 4
  /\ lines (snd (psimagedata true 4093 (repeat 7 200))) = 4.
Proof. split; vm_compute; reflexivity. Qed.

(** C34 for string arrays: right if the length of a full string gives an integral
    number of lines.  Missing from the full statement: all other values of
    maxstrlen, for which the claim is false, see the next theorem. *)
Theorem array_lines_partial : forall data maxstrlen, (0 < maxstrlen)%nat -> Forall isbyte data ->
  Z.of_nat maxstrlen < 4 \/ Z.of_nat maxstrlen mod 60 = 4 ->
  fst (psimagedata false maxstrlen data) = lines (snd (psimagedata false maxstrlen data)).
Proof.
  intros data m Hm HF Hc. rewrite announced_array by auto. now rewrite array_lines.
Qed.
Print Assumptions array_lines_partial.

Example array_lines_ex : fst (psimagedata false 64 (repeat 7 200)) = 7
  /\ lines (snd (psimagedata false 64 (repeat 7 200))) = 7.
Proof. split; vm_compute; reflexivity. Qed.

(** Finding: string arrays announce a wrong number of lines, since the true
    division in ascii85lines is only truncated after multiplying and adding. *)
Theorem array_lines_refuted : exists data maxstrlen, (0 < maxstrlen)%nat /\ Forall isbyte data /\
  fst (psimagedata false maxstrlen data) <> lines (snd (psimagedata false maxstrlen data)).
Proof.
  exists (repeat 7 250), 100%nat. split; [lia|]. split; [apply Forall_forall; intros x Hx; apply repeat_spec in Hx; unfold isbyte; lia|].
  vm_compute. discriminate.
Qed.
Print Assumptions array_lines_refuted.

(** Finding: with the default maximal string length 4093 the count is too large by
    one for seven full strings. *)
Theorem array_lines_default_refuted : forall data, length data = Z.to_nat (7 * 4093) -> Forall isbyte data ->
  fst (psimagedata false (Z.to_nat 4093) data) = lines (snd (psimagedata false (Z.to_nat 4093) data)) + 1.
Proof.
  intros data HL HF. rewrite array_lines by (auto; lia). unfold psimagedata. cbn [fst]. rewrite HL.
  rewrite !Z2Nat.id by lia. vm_compute. reflexivity.
Qed.
Print Assumptions array_lines_default_refuted.

(** Finding: hexadecimal output (PSbinexpand=2) raises a TypeError for every data. *)
Theorem asciihexstream_refuted : forall hexdata, asciihexstream hexdata = None.
Proof. reflexivity. Qed.
Print Assumptions asciihexstream_refuted.

(** C35: interleaving the bands again gives the data. *)
Theorem split_join : forall bands n data, (0 < bands)%nat -> length data = (bands * n)%nat ->
  concat (zipall (bands_of bands data)) = data.
Proof.
  intros bands n data Hb HL. destruct (chunks_ok bands n data HL) as (E & F & L).
  rewrite <- E at 1. rewrite bands_pixels by auto. rewrite zipall_map_nth.
  - rewrite <- E at 2. f_equal. rewrite <- (map_id (chunks bands n data)) at 2. apply map_ext_in.
    intros p Hp. rewrite Forall_forall in F. rewrite <- (F p Hp). apply map_nth_seq.
  - destruct bands; [lia|discriminate].
Qed.
Print Assumptions split_join.

(** C35: band b holds the b-th component of every pixel, in order. *)
Theorem split_components : forall bands pixels b, (b < bands)%nat -> Forall (fun p => length p = bands) pixels ->
  nth b (bands_of bands (concat pixels)) [] = map (fun p => nth b p 0) pixels.
Proof.
  intros bands pixels b Hb HF. rewrite bands_pixels by auto.
  assert (nth b (seq 0 bands) 0%nat = b) as E by (rewrite seq_nth; lia).
  rewrite (nth_indep _ [] ((fun b => map (fun p => nth b p 0) pixels) 0%nat)) by (rewrite map_length, seq_length; auto).
  rewrite (map_nth (fun b => map (fun p => nth b p 0) pixels)). now rewrite E.
Qed.
Print Assumptions split_components.

Example split_join_ex : bands_of 3 [1; 2; 3; 4; 5; 6] = [[1; 4]; [2; 5]; [3; 6]]
  /\ concat (zipall [[1; 4]; [2; 5]; [3; 6]]) = [1; 2; 3; 4; 5; 6].
Proof. split; reflexivity. Qed.

(** C35: removing the alpha channel keeps the color components of every pixel and
    gives the alpha of every pixel, for alpha in front or behind, as a separate
    band or interleaved in front of each pixel. *)
Theorem imagedata_alpha_front : forall w h mode pixels im,
  In mode ["AL"; "ARGB"; "ACMYK"]%string -> Forall (fun p => length p = String.length mode) pixels ->
  new_image w h mode (concat pixels) = Some im ->
  exists color, mode = String "A" color /\
    imagedata im false = Some (color, concat (map (@tl Z) pixels), AlphaBand (map (hd 0) pixels)) /\
    imagedata im true = Some (color, concat pixels, AlphaTrue).
Proof.
  intros w h mode pixels im Hm HF E.
  destruct (new_image_inv _ _ _ _ _ E) as (Hw & Hh & Hv & HL & ->).
  assert (exists color, mode = String "A" color /\ In color ["L"; "RGB"; "CMYK"]%string) as (color & -> & Hc).
  { simpl in Hm. destruct Hm as [<-|[<-|[<-|[]]]]; eexists; (split; [reflexivity|]); simpl; auto. }
  exists color. split; auto. set (n := String.length color). cbn [String.length] in *. fold n in HF, HL.
  assert (ends_with_A color = false) as Ee by (simpl in Hc; destruct Hc as [<-|[<-|[<-|[]]]]; reflexivity).
  assert (0 < n)%nat as Hn by (subst n; simpl in Hc; destruct Hc as [<-|[<-|[<-|[]]]]; simpl; lia).
  rewrite (concat_const_length _ (S n)) in HL by auto.
  assert (map (fun p => map (fun b => nth b p 0) (seq 1 n)) pixels = map (@tl Z) pixels) as Et.
  { apply map_ext_in. intros p Hp. rewrite Forall_forall in HF. apply nth_seq_tl. auto. }
  unfold imagedata, imagedata_front, split_image. cbn [imode idata iwidth iheight String.length strip_A].
  rewrite Ascii.eqb_refl. fold n.
  split; [|now rewrite Ee].
  rewrite bands_pixels by auto. cbn [seq map tl hd]. rewrite zipall_map_nth by (destruct n; [lia|discriminate]).
  rewrite Et. rewrite new_image_ok; auto.
  - rewrite Ee. cbn [idata]. do 3 f_equal. apply map_ext. intros []; reflexivity.
  - simpl in Hc |- *. destruct Hc as [<-|[<-|[<-|[]]]]; auto.
  - fold n. rewrite (map_len_forall _ (S n) n); auto; [nia|].
    intros p Hp. destruct p; simpl in *; lia.
Qed.
Print Assumptions imagedata_alpha_front.

Theorem imagedata_alpha_back : forall w h mode pixels im,
  In mode ["LA"; "RGBA"; "CMYKA"]%string -> Forall (fun p => length p = String.length mode) pixels ->
  new_image w h mode (concat pixels) = Some im ->
  exists color, mode = (color ++ "A")%string /\
    imagedata im false = Some (color, concat (map (@removelast Z) pixels), AlphaBand (map (fun p => last p 0) pixels)) /\
    imagedata im true = Some (color, concat (map (fun p => last p 0 :: removelast p) pixels), AlphaTrue).
Proof.
  intros w h mode pixels im Hm HF E.
  destruct (new_image_inv _ _ _ _ _ E) as (Hw & Hh & Hv & HL & ->).
  assert (exists color, mode = (color ++ "A")%string /\ In color ["L"; "RGB"; "CMYK"]%string) as (color & -> & Hc).
  { simpl in Hm. destruct Hm as [<-|[<-|[<-|[]]]]; [exists "L"%string|exists "RGB"%string|exists "CMYK"%string]; split; simpl; auto. }
  exists color. split; auto. set (n := String.length color).
  assert (String.length (color ++ "A") = S n) as EL
    by (subst n; simpl in Hc; destruct Hc as [<-|[<-|[<-|[]]]]; reflexivity).
  rewrite EL in *.
  assert (strip_A (color ++ "A") = None) as Efront
    by (simpl in Hc; destruct Hc as [<-|[<-|[<-|[]]]]; reflexivity).
  assert (ends_with_A (color ++ "A") = true) as Ee by (simpl in Hc; destruct Hc as [<-|[<-|[<-|[]]]]; reflexivity).
  assert (but_last (color ++ "A") = color) as Eb by (simpl in Hc; destruct Hc as [<-|[<-|[<-|[]]]]; reflexivity).
  assert (0 < n)%nat as Hn by (subst n; simpl in Hc; destruct Hc as [<-|[<-|[<-|[]]]]; simpl; lia).
  rewrite (concat_const_length _ (S n)) in HL by auto.
  assert (forall p : list Z, length p = S n -> length (removelast p) = n) as Lr.
  { intros p Hp. assert (p <> []) as Np by (destruct p; discriminate).
    pose proof (app_removelast_last 0 Np) as E'. apply (f_equal (@length Z)) in E'. rewrite app_length in E'. simpl in E'. lia. }
  assert (map (fun p => map (fun b => nth b p 0) (seq 0 n)) pixels = map (@removelast Z) pixels) as Et.
  { apply map_ext_in. intros p Hp. rewrite Forall_forall in HF. apply nth_seq_removelast. auto. }
  assert (map (fun p => nth n p 0) pixels = map (fun p => last p 0) pixels) as El.
  { apply map_ext_in. intros p Hp. rewrite Forall_forall in HF. apply nth_last. auto. }
  unfold imagedata, imagedata_front, split_image. cbn [imode idata iwidth iheight].
  rewrite Efront, Ee, Eb. cbn [imode idata iwidth iheight]. rewrite EL.
  rewrite bands_pixels by auto.
  rewrite removelast_map_seq, (last_map_seq (fun b => map (fun p => nth b p 0) pixels)).
  split.
  - rewrite zipall_map_nth by (destruct n; [lia|discriminate]). rewrite Et, El, new_image_ok; auto.
    + simpl in Hc |- *. destruct Hc as [<-|[<-|[<-|[]]]]; auto.
    + fold n. rewrite (map_len_forall _ (S n) n); auto. nia.
  - change (map (fun p => nth n p 0) pixels :: map (fun b => map (fun q => nth b q 0) pixels) (seq 0 n))
      with (map (fun b => map (fun q => nth b q 0) pixels) (n :: seq 0 n)).
    rewrite zipall_map_nth by discriminate.
    assert (map (fun p => map (fun b => nth b p 0) (n :: seq 0 n)) pixels = map (fun p => last p 0 :: removelast p) pixels) as ->.
    { apply map_ext_in. intros p Hp. rewrite Forall_forall in HF. cbn [map].
      rewrite nth_last, nth_seq_removelast; auto. }
    rewrite new_image_ok; auto.
    + simpl in Hc |- *. destruct Hc as [<-|[<-|[<-|[]]]]; auto 10.
    + cbn [String.length]. fold n. rewrite (map_len_forall _ (S n) (S n)); auto.
      intros p Hp. cbn [length]. now rewrite Lr.
Qed.
Print Assumptions imagedata_alpha_back.

(** C35: images without alpha are passed on unchanged. *)
Theorem imagedata_no_alpha : forall w h mode data im interleave,
  In mode ["L"; "RGB"; "CMYK"; "P"]%string -> new_image w h mode data = Some im ->
  imagedata im interleave = Some (mode, data, NoAlpha).
Proof.
  intros w h mode data im interleave Hm E. destruct (new_image_inv _ _ _ _ _ E) as (_ & _ & _ & _ & ->).
  simpl in Hm. destruct Hm as [<-|[<-|[<-|[<-|[]]]]]; reflexivity.
Qed.
Print Assumptions imagedata_no_alpha.

Example imagedata_ex :
  (match new_image 2 1 "RGBA" [1; 2; 3; 4; 5; 6; 7; 8] with Some im => imagedata im false | None => None end)
    = Some ("RGB"%string, [1; 2; 3; 5; 6; 7], AlphaBand [4; 8]) /\
  (match new_image 2 1 "AL" [1; 2; 3; 4] with Some im => imagedata im false | None => None end)
    = Some ("L"%string, [2; 4], AlphaBand [1; 3]) /\
  (match new_image 2 1 "LA" [1; 2; 3; 4] with Some im => imagedata im true | None => None end)
    = Some ("L"%string, [2; 1; 4; 3], AlphaTrue) /\
  (match new_image 2 1 "L" [1; 2] with Some im => imagedata im true | None => None end)
    = Some ("L"%string, [1; 2], NoAlpha).
Proof. repeat split; vm_compute; reflexivity. Qed.

(** C35: a PNG reader gets the pixel data back from the scan lines. *)
Theorem png_scanlines_roundtrip : forall linelen height data, length data = (linelen * height)%nat ->
  png_unfilter linelen height (png_scanlines linelen height data) = Some data.
Proof. exact png_roundtrip. Qed.
Print Assumptions png_scanlines_roundtrip.

Example png_ex : png_scanlines 3 2 [1; 2; 3; 4; 5; 6] = [0; 1; 2; 3; 0; 4; 5; 6].
Proof. reflexivity. Qed.

(** C73: the highest palette index announced is right for RGB palettes. *)
Theorem palette_hival_rgb_partial : forall palettedata n, length palettedata = (3 * n)%nat -> (0 < n)%nat ->
  indexed_hival palettedata = Z.of_nat n - 1.
Proof.
  intros l n HL Hn. unfold indexed_hival. rewrite HL.
  assert (inject_Z (Z.of_nat (3 * n)) / 3 - 1 == inject_Z (Z.of_nat n - 1))%Q as E.
  { unfold Qeq, Qminus, Qplus, Qdiv, Qmult, Qopp, Qinv, inject_Z. cbn [Qnum Qden]. lia. }
  rewrite fmt_i_nonneg.
  - rewrite E. apply Qfloor_Z.
  - rewrite E. change 0%Q with (inject_Z 0). rewrite <- Zle_Qle. lia.
Qed.
Print Assumptions palette_hival_rgb_partial.

Example palette_ex : indexed_hival (repeat 5 768) = 255.
Proof. vm_compute. reflexivity. Qed.

(** Finding: gray and cmyk palettes (both accepted) announce a wrong number. *)
Theorem palette_hival_refuted : exists graypalette cmykpalette,
  length graypalette = (1 * 256)%nat /\ indexed_hival graypalette <> 256 - 1 /\
  length cmykpalette = (4 * 256)%nat /\ indexed_hival cmykpalette <> 256 - 1.
Proof.
  exists (repeat 5 256), (repeat 5 1024). split; [apply repeat_length|]. split; [vm_compute; discriminate|].
  split; [apply repeat_length|vm_compute; discriminate].
Qed.
Print Assumptions palette_hival_refuted.
