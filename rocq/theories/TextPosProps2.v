(** C127, continued: SVG, text as path, bounding box, widths in PDF files, and what goes wrong
    with slants and widths. *)
From Coq Require Import ZArith Ascii String List Bool Lia Reals.
From Verif Require Import PdfSpec TextEncModel TextEncProps TextPosModel TextPosSpec TextPosProps.
From Coq Require Import Lra.
Import ListNotations.
Local Open Scope R_scope.

(** what a text asks for in terms of a relation of values and glyphs *)
Definition asks_for (P : value -> string -> Prop) (t : text) (gs : list string) : Prop :=
  if decode t then glyphnames t = gs /\ Forall (fun g => P (Name g) g) gs
  else kerning t = false /\ Forall2 (fun c g => P (Code c) g) (charcodes t) gs.

Section Entries.
Variables (P : value -> string -> Prop) (f : value -> Z).

Definition good (kerning : bool) (en : entry) : Prop :=
  match en with (k, v, c, g) => P v g /\ c = f v /\ (forall n, v <> Num n) /\ (kerning = false -> k = None) end.

Fixpoint kern_list (kern : string -> string -> option R) (scale : R) (prev : string) (gs : list string) : list entry :=
  match gs with
  | [] => []
  | h :: r =>
      (match kern prev h with Some k => Some (k * scale) | None => None end, Name h, f (Name h), h) :: kern_list kern scale h r
  end.

Lemma kern_list_flat : forall kern scale gs prev,
  resolvekernings kern scale (prev :: gs) = Name prev :: flat true (kern_list kern scale prev gs).
Proof.
  induction gs as [|h gs IH]; intros prev; [reflexivity|].
  change (resolvekernings kern scale (prev :: h :: gs)) with
    (Name prev :: Num (match kern prev h with Some k => Some (k * scale) | None => None end) :: resolvekernings kern scale (h :: gs)).
  rewrite IH. reflexivity.
Qed.

Lemma for_entries : forall kern t gs g, asks_for P t (g :: gs) ->
  exists v l, data kern (size_pt t / 1000) t = v :: flat (kerning t) l /\
    Forall (good (kerning t)) ((None, v, f v, g) :: l) /\
    forall (width : string -> R) y x, laid width (gap kern t) y x (g :: gs) ((x, y, g) :: lay width (spaced_pt t) y (x + width g) l).
Proof.
  intros kern t gs g A. unfold asks_for in A. unfold data, gap. destruct (decode t).
  - destruct A as [E F]. rewrite E. destruct (kerning t).
    + exists (Name g), (kern_list kern (size_pt t / 1000) g gs).
      split; [apply kern_list_flat|]. split.
      * constructor; [split; [exact (Forall_inv F)|split; [reflexivity|split; discriminate]]|].
        apply Forall_inv_tail in F. clear - F. generalize (size_pt t / 1000). intros s.
        revert g. induction F as [|h gs H F IH]; intros g; cbn; constructor; [|apply IH].
        split; [exact H|split; [reflexivity|split; discriminate]].
      * clear. intros width y x. revert g x. induction gs as [|h gs IH]; intros g x; [apply laid_last|].
        cbn [kern_list lay]. apply laid_next.
        replace (dx (spaced_pt t) match kern g h with Some k => Some (k * (size_pt t / 1000)) | None => None end)
          with (match kern g h with Some k => k * (size_pt t / 1000) | None => 0 end + spaced_pt t)
          by (destruct (kern g h); cbn; lra).
        apply IH.
    + set (q := fun h : string => (None, Name h, f (Name h), h) : entry).
      exists (Name g), (map q gs). split; [|split].
      * cbn. f_equal. clear. induction gs as [|h gs IH]; cbn; [reflexivity|]. now rewrite IH.
      * constructor; [split; [exact (Forall_inv F)|split; [reflexivity|split; [discriminate|reflexivity]]]|].
        apply Forall_inv_tail in F. clear - F. induction F as [|h gs H F IH]; cbn; constructor; [|exact IH].
        split; [exact H|split; [reflexivity|split; [discriminate|reflexivity]]].
      * clear. intros width y x. revert g x. induction gs as [|h gs IH]; intros g x; [apply laid_last|].
        cbn [map lay q dx]. replace (x + width g + spaced_pt t) with (x + width g + (0 + spaced_pt t)) by lra. apply laid_next. apply IH.
  - destruct A as [-> F]. destruct (charcodes t) as [|c cs]; [inversion F|].
    assert (B : P (Code c) g) by now inversion F.
    assert (F2 : Forall2 (fun c g => P (Code c) g) cs gs) by now inversion F.
    set (q := fun p : Z * string => (None, Code (fst p), f (Code (fst p)), snd p) : entry).
    exists (Code c), (map q (combine cs gs)). clear F. split; [|split].
    + cbn. f_equal. clear B. induction F2 as [|d h cs gs _ F IH]; cbn; [reflexivity|]. now rewrite IH.
    + constructor; [split; [exact B|split; [reflexivity|split; [discriminate|reflexivity]]]|].
      clear B. induction F2 as [|d h cs gs H F IH]; cbn; constructor; [|exact IH].
      split; [exact H|split; [reflexivity|split; [discriminate|reflexivity]]].
    + clear B. intros width y x. revert g x. induction F2 as [|d h cs gs H F IH]; intros g x; [apply laid_last|].
      cbn [combine map lay q dx snd fst]. replace (x + width g + spaced_pt t) with (x + width g + (0 + spaced_pt t)) by lra. apply laid_next. apply IH.
Qed.
End Entries.

Lemma empty_data : forall P kern t, asks_for P t [] -> data kern (size_pt t / 1000) t = [].
Proof.
  intros P kern t A. unfold asks_for in A. unfold data. destruct (decode t).
  - destruct A as [-> _]. destruct (kerning t); reflexivity.
  - destruct A as [_ A]. inversion A. reflexivity.
Qed.

(** SVG: the characters of the text and its tspans are at the same places, elements are closed
    in order; [glyph] are the glyphs of the characters in the font *)
Theorem text_svg : forall kern chars glyph width t gs,
  asks_for (fun v g => exists u, chars v = Some u /\ glyph u = Some g) t gs ->
  slant t = None \/ slant t = Some 0 ->
  exists evs ds, processSVG kern chars t = Some evs /\ svg_run glyph (scaled width t) 0 0 0 0 evs = Some ds /\
    laid (scaled width t) (gap kern t) (y_pt t) (x_pt t) gs ds.
Proof.
  intros kern chars glyph width t gs A Sl.
  assert (Ev : processSVG kern chars t = ocons [SVGtext (x_pt t) (- y_pt t)]
                (svg_loop (kerning t) (spaced_pt t) chars false 0 (data kern (size_pt t / 1000) t))).
  { unfold processSVG. destruct Sl as [-> | ->]; [reflexivity|]. now rewrite Reqb_true. }
  destruct gs as [|g gs].
  - exists [SVGtext (x_pt t) (- y_pt t); SVGendtext], []. rewrite Ev, (empty_data _ _ _ A).
    split; [reflexivity|]. split; [reflexivity|constructor].
  - destruct (for_entries _ (fun v => match chars v with Some u => u | None => 0%Z end) kern t gs g A) as [v [l [D [F L]]]].
    set (f := fun v => match chars v with Some u => u | None => 0%Z end) in *.
    assert (F' : Forall (svg_ok glyph (kerning t) chars) ((None, v, f v, g) :: l)).
    { eapply Forall_impl; [|exact F]. intros [[[k u] c] h] [[w [H1 H2]] [H3 [_ H4]]].
      unfold f in H3. rewrite H1 in H3. subst c. split; [exact H1|]. split; [exact H2|exact H4]. }
    pose proof (Forall_inv F') as [E [G _]].
    assert (P : parity (kerning t) 1) by (destruct (kerning t); cbn; [reflexivity|lia]).
    destruct (svg_rest glyph (scaled width t) (kerning t) (spaced_pt t) chars l 1 false (Forall_inv_tail F') P) as [evs [O R]].
    exists (SVGtext (x_pt t) (- y_pt t) :: SVGchar (f v) :: evs). eexists. split; [|split].
    + rewrite Ev, D. cbn [svg_loop]. rewrite andb_false_r, E. cbn [Nat.ltb Nat.leb andb]. rewrite O. reflexivity.
    + cbn [svg_run]. rewrite G. specialize (R (x_pt t + 0 + scaled width t g) (- y_pt t)). cbn [dep] in R.
      rewrite R, Ropp_involutive, Rplus_0_r. reflexivity.
    + exact (L (scaled width t) (y_pt t) (x_pt t)).
Qed.
Print Assumptions text_svg.

(** text as path: if the glyphs of the font file have the widths of the metric, the outlines
    are at the places of the glyphs *)
Theorem text_path : forall kern name advance width t gs,
  asks_for (fun v g => name v = Some g /\ advance v = (scaled width t g, 0)) t gs ->
  exists ps ds, textpath kern advance t = Some ps /\ named name ps = Some ds /\
    laid (scaled width t) (gap kern t) (y_pt t) (x_pt t) gs ds.
Proof.
  intros kern name advance width t [|g gs] A.
  - exists [], []. unfold textpath. rewrite (empty_data _ _ _ A). split; [reflexivity|]. split; [reflexivity|constructor].
  - destruct (for_entries _ (fun _ => 0%Z) kern t gs g A) as [v [l [D [F L]]]].
    assert (F' : Forall (path_ok (scaled width t) (kerning t) name advance) ((None, v, 0%Z, g) :: l)).
    { eapply Forall_impl; [|exact F]. intros [[[k u] c] h] [[H1 H2] [H3 [H4 H5]]].
      split; [exact H1|]. split; [exact H2|]. split; [exact H4|exact H5]. }
    pose proof (Forall_inv F') as [E [G [N _]]].
    assert (P : parity (kerning t) 1) by (destruct (kerning t); cbn; [reflexivity|lia]).
    destruct (path_rest (scaled width t) (kerning t) (spaced_pt t) name advance l 1 (x_pt t + scaled width t g) (y_pt t + 0)
      (Forall_inv_tail F') P) as [ps [O R]].
    exists ((x_pt t, y_pt t, v) :: ps). eexists. split; [|split].
    + unfold textpath. rewrite D. cbn [path_loop]. rewrite andb_false_r. cbn [Nat.ltb Nat.leb]. rewrite G. cbn [fst snd]. rewrite O.
      destruct v as [s|z|n]; [reflexivity|reflexivity|exfalso; exact (N n eq_refl)].
    + cbn [named]. rewrite E, R. rewrite Rplus_0_r. reflexivity.
    + exact (L (scaled width t) (y_pt t) (x_pt t)).
Qed.
Print Assumptions text_path.

(** there is only one way to lay glyphs, hence all formats agree *)
Theorem laid_unique : forall width gap y gs x l l', laid width gap y x gs l -> laid width gap y x gs l' -> l = l'.
Proof.
  intros width gap0 y gs x l l' H. revert l'. induction H as [x|x g|x g h gs l H IH]; intros l' H'.
  - now inversion H'.
  - now inversion H'.
  - inversion H'; subst. f_equal. now apply IH.
Qed.
Print Assumptions laid_unique.

Lemma laid_none : forall width gap y x l, laid width gap y x [] l -> l = [].
Proof. intros width gap0 y x l H. now inversion H. Qed.
Lemma laid_one : forall width gap y x g l, laid width gap y x [g] l -> l = [(x, y, g)].
Proof. intros width gap0 y x g l H. now inversion H. Qed.
Lemma laid_two : forall width gap y x g h gs l, laid width gap y x (g :: h :: gs) l ->
  exists l', l = (x, y, g) :: l' /\ laid width gap y (x + width g + gap g h) (h :: gs) l'.
Proof. intros width gap0 y x g h gs l H. inversion H; subst. eexists. split; [reflexivity|eassumption]. Qed.

(** the bounding box goes from the origin of the first glyph to the end of the last one *)
Theorem text_box : forall kern width t gs ds g gx gy, decode t = true -> glyphnames t = gs ->
  laid (scaled width t) (gap kern t) (y_pt t) (x_pt t) gs (ds ++ [(gx, gy, g)]) ->
  box_sides kern width t = (x_pt t, gx + scaled width t g).
Proof.
  intros kern width t gs ds g gx gy _ E L. unfold box_sides. rewrite E. f_equal.
  assert (X : forall gs x l, laid (scaled width t) (gap kern t) (y_pt t) x gs (l ++ [(gx, gy, g)]) ->
    x + rsum (map width gs) * size_pt t / 1000 + (INR (length gs) - 1) * spaced_pt t +
      (if kerning t then kernings 0 (resolvekernings kern (size_pt t / 1000) gs) else 0) = gx + scaled width t g).
  2: { exact (X _ _ _ L). }
  clear. induction gs as [|a gs IH]; intros x l L.
  - apply laid_none in L. destruct l; discriminate.
  - destruct gs as [|b gs].
    + apply laid_one in L. rename L into Q. destruct l as [|? [|? ?]]; [|discriminate|discriminate].
      cbn [app] in Q. injection Q as -> _ ->. unfold scaled. cbn. destruct (kerning t); lra.
    + apply laid_two in L. destruct L as [l' [E2 L']].
      assert (Hl : exists l1, l = (x, y_pt t, a) :: l1 /\ l' = l1 ++ [(gx, gy, g)]).
      { destruct l as [|p l]; cbn in E2.
        - injection E2 as _ _ _ <-. inversion L'.
        - injection E2 as -> <-. now exists l. }
      destruct Hl as [l1 [-> ->]]. specialize (IH _ _ L').
      rewrite <- IH. clear. change (length (a :: b :: gs)) with (S (length (b :: gs))). rewrite S_INR.
      change (map width (a :: b :: gs)) with (width a :: map width (b :: gs)). cbn [rsum fold_right].
      fold (rsum (map width (b :: gs))).
      unfold gap, scaled. destruct (kerning t).
      * change (resolvekernings kern (size_pt t / 1000) (a :: b :: gs)) with
          (Name a :: Num (match kern a b with Some k => Some (k * (size_pt t / 1000)) | None => None end) :: resolvekernings kern (size_pt t / 1000) (b :: gs)).
        set (r := resolvekernings kern (size_pt t / 1000) (b :: gs)). cbn [kernings Nat.odd].
        assert (SS : forall d i, kernings (S (S i)) d = kernings i d).
        { induction d as [|u d IHd]; intros i; [reflexivity|]. cbn [kernings]. rewrite (IHd (S i)). reflexivity. }
        rewrite SS. change (Nat.odd 0) with false. change (Nat.odd 1) with true. cbv iota. destruct (kern a b); lra.
      * lra.
Qed.
Print Assumptions text_box.

(** ** widths in PDF files *)

Lemma fold_min_le : forall l a c, In c (a :: l) -> (fold_left Z.min l a <= c)%Z.
Proof.
  induction l as [|b l IH]; intros a c I; cbn.
  - destruct I as [->|[]]. lia.
  - destruct I as [->|[->|I]].
    + pose proof (IH (Z.min c b) _ (or_introl eq_refl)). lia.
    + pose proof (IH (Z.min a c) _ (or_introl eq_refl)). lia.
    + apply IH. now right.
Qed.
Lemma fold_max_ge : forall l a c, In c (a :: l) -> (c <= fold_left Z.max l a)%Z.
Proof.
  induction l as [|b l IH]; intros a c I; cbn.
  - destruct I as [->|[]]. lia.
  - destruct I as [->|[->|I]].
    + pose proof (IH (Z.max c b) _ (or_introl eq_refl)). lia.
    + pose proof (IH (Z.max a c) _ (or_introl eq_refl)). lia.
    + apply IH. now right.
Qed.

Lemma Int_part_IZR : forall n, Int_part (IZR n) = n.
Proof.
  intros n. unfold Int_part. rewrite <- (tech_up (IZR n) (n + 1)); [lia| |]; rewrite plus_IZR; lra.
Qed.
Lemma trunc_IZR : forall n, trunc (IZR n) = n.
Proof.
  intros n. unfold trunc. destruct (Rle_dec 0 (IZR n)); [apply Int_part_IZR|].
  rewrite <- opp_IZR, Int_part_IZR. lia.
Qed.

(** the widths written for a font: every used code is in the range, and if the width of its
    glyph is an integer, it is the width found in the file *)
Theorem pdf_widths_partial : forall codes width c n, In c codes -> width c = IZR n ->
  exists first last ws, pdf_widths codes width = Some (first, last, ws) /\
    (first <= c <= last)%Z /\ Z.of_nat (length ws) = (last - first + 1)%Z /\ nth_error ws (Z.to_nat (c - first)) = Some n.
Proof.
  intros codes width c n I W. destruct codes as [|a l]; [destruct I|].
  unfold pdf_widths, zmin, zmax. set (codes := a :: l) in *.
  pose proof (fold_min_le l a c I) as B1. pose proof (fold_max_ge l a c I) as B2.
  set (lo := fold_left Z.min l a) in *. set (hi := fold_left Z.max l a) in *. clearbody lo hi.
  do 3 eexists. split; [reflexivity|]. split; [lia|]. split.
  - rewrite map_length, seq_length. lia.
  - set (k := Z.to_nat (c - lo)).
    assert (Nk : nth_error (seq 0 (Z.to_nat (hi + 1 - lo))) k = Some k).
    { rewrite nth_error_nth' with (d := 0%nat) by (rewrite seq_length; lia). now rewrite seq_nth by lia. }
    rewrite nth_error_map, Nk. cbn [option_map].
    replace (lo + Z.of_nat k)%Z with c by lia.
    replace (existsb (Z.eqb c) codes) with true.
    2: { symmetry. apply existsb_exists. exists c. split; [exact I|apply Z.eqb_refl]. }
    now rewrite W, trunc_IZR.
Qed.
Print Assumptions pdf_widths_partial.

(** a width with a fraction is cut: the viewer places all later glyphs too far to the left *)
Theorem pdf_widths_refuted : exists codes width, In 65%Z codes /\ width 65%Z = 500.75 /\
  pdf_widths codes width = Some (65%Z, 66%Z, [500%Z; 600%Z]).
Proof.
  exists [65; 66]%Z, (fun c => if Z.eqb c 65 then 500.75 else 600).
  split; [now left|]. split; [reflexivity|]. transitivity (Some (65%Z, 66%Z, [trunc 500.75; trunc 600])); [reflexivity|].
  replace (trunc 500.75) with 500%Z; [replace (trunc 600) with 600%Z; [reflexivity|]|].
  - symmetry. apply trunc_IZR.
  - unfold trunc. destruct (Rle_dec 0 500.75) as [_|N]; [|exfalso; apply N; lra].
    unfold Int_part. rewrite <- (tech_up 500.75 501); [reflexivity| |]; lra.
Qed.
Print Assumptions pdf_widths_refuted.

(** ** slants *)

(** no text with a slant can be written to an SVG file with fonts *)
Theorem svg_slant_refuted : forall kern chars t s, slant t = Some s -> s <> 0 -> processSVG kern chars t = None.
Proof. intros kern chars t s E N. unfold processSVG. rewrite E, Reqb_false by exact N. reflexivity. Qed.
Print Assumptions svg_slant_refuted.

(** the text as path does not depend on the slant at all *)
Theorem path_slant_refuted : forall kern advance x y size spaced k d gs cs s s',
  textpath kern advance (mktextpt x y size spaced s k d gs cs) = textpath kern advance (mktextpt x y size spaced s' k d gs cs).
Proof. reflexivity. Qed.
Print Assumptions path_slant_refuted.

(** PostScript: with a font file the matrix of the slanted font is that of the font followed by the
    slant: a point of a glyph goes where the slant moves the point it had *)
Definition font_apply (m : R * R * R * R) (p : R * R) : R * R :=
  match m with (a, b, c, d) => (a * fst p + b * snd p, c * fst p + d * snd p) end.
Theorem ps_slant : forall m builtin s p, s <> 0 ->
  font_apply (ps_fontmatrix (Some m) builtin (Some s)) p =
  (fst (font_apply m p) + s * snd (font_apply m p), snd (font_apply m p)).
Proof.
  intros [[[a b] c] d] builtin s [p q] N. unfold ps_fontmatrix. rewrite Reqb_false by exact N.
  cbn [font_apply fst snd]. f_equal. lra.
Qed.
Print Assumptions ps_slant.

(** without a font file, the slanted font has units of 1 instead of a thousandth: all glyphs of
    builtin fonts are 1000 times too large *)
Theorem ps_slant_refuted : forall s p, s <> 0 ->
  font_apply (ps_fontmatrix None (1 / 1000, 0, 0, 1 / 1000) (Some s)) p =
  (1000 * (fst (font_apply (1 / 1000, 0, 0, 1 / 1000) p) + s * snd (font_apply (1 / 1000, 0, 0, 1 / 1000) p)),
   1000 * snd (font_apply (1 / 1000, 0, 0, 1 / 1000) p)).
Proof.
  intros s [p q] N. unfold ps_fontmatrix. rewrite Reqb_false by exact N.
  cbn [font_apply fst snd]. f_equal; lra.
Qed.
Print Assumptions ps_slant_refuted.

(** ** examples *)

Section Examples.
Local Open Scope string_scope.

Definition ex_kern (g h : string) : option R := if String.eqb g "A" && String.eqb h "V" then Some (-100) else None.
Definition ex_enc : enc := [("V", 0%Z); ("A", 1%Z); ("x", 65%Z)].
Definition ex_text (sp : R) : text := mktextpt 10 20 10 sp None true true ["x"; "A"; "V"; "x"] [].

(** kerning of a pair, without additional space *)
Example ex_ps : processPS ex_kern ex_enc (ex_text 0) =
  Some [PSmoveto 10 20; PSstring (65 :: 92 :: 48 :: 48 :: 49 :: nil)%Z; PSshow;
        PSrmoveto (-100 * (10 / 1000) + 0) 0; PSstring (92 :: 48 :: 48 :: 48 :: 65 :: nil)%Z; PSshow].
Proof. unfold processPS. cbn. rewrite Reqb_true. reflexivity. Qed.

(** kerning and space, with glyphs of width 500 and size 10 *)
Example ex_places :
  laid (scaled (fun _ => 500) (ex_text 2)) (gap ex_kern (ex_text 2)) 20 10 ["x"; "A"; "V"; "x"]
    [(10, 20, "x"); (17, 20, "A"); (23, 20, "V"); (30, 20, "x")].
Proof.
  assert (E : forall a b : R, a = b -> forall gs l, laid (scaled (fun _ => 500) (ex_text 2)) (gap ex_kern (ex_text 2)) 20 b gs l ->
    laid (scaled (fun _ => 500) (ex_text 2)) (gap ex_kern (ex_text 2)) 20 a gs l) by (intros a b ->; auto).
  apply laid_next. apply (E _ 17); [unfold scaled, gap; cbn; lra|].
  apply laid_next. apply (E _ 23); [unfold scaled, gap; cbn; lra|].
  apply laid_next. apply (E _ 30); [unfold scaled, gap; cbn; lra|]. apply laid_last.
Qed.
Example ex_asks : asks ex_enc (fun c => if Z.eqb c 0 then Some "V" else if Z.eqb c 1 then Some "A" else Some "x") (ex_text 2) ["x"; "A"; "V"; "x"].
Proof.
  split; [reflexivity|]. repeat (apply Forall_cons; [eexists; split; [reflexivity|split; [lia|reflexivity]]|]). apply Forall_nil.
Qed.
End Examples.
