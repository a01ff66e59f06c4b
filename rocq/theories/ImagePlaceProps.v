(** * Images are placed at the same position in all output formats (C104) *)

From Coq Require Import Reals Bool List ZArith Lra Lia.
From Verif Require Import UnitModel TrafoModel ImagePlaceModel ImagePlaceSpec TrafoProps.
Import ListNotations.
Open Scope R_scope.

Lemma ps_apply t p : matrix_apply (psmatrix t) p = apply_pt t p.
Proof. unfold matrix_apply, psmatrix, apply_pt. f_equal; ring. Qed.

(** All positions of an image are at the same position of the page in PostScript, PDF and SVG: where the transformation takes the
    unit square. *)
Theorem image_same_place : forall t w h m, 0 < w -> 0 < h -> imagematrix t w h = Some m ->
  forall ij p, (ps_at m ij p <-> p = apply_pt t (fst ij / w, 1 - snd ij / h)) /\
    (pdf_at (pdf_cm t) w h ij p <-> p = apply_pt t (fst ij / w, 1 - snd ij / h)) /\
    (svg_at (svg_image t) w h ij p <-> p = apply_pt t (fst ij / w, 1 - snd ij / h)).
Proof.
  intros t w h m W H E ij p. unfold imagematrix, pstrafo in E. destruct (inverse t) as [i|] eqn:I; [|discriminate]. cbn in E.
  pose proof (proj1 (inverse_inverts t) i I) as Inv. injection E as <-.
  split; [|split].
  - unfold ps_at. change (matrix_apply (psmatrix (tmul (tmul (mktrafo w 0 0 (- h) 0 0) (translate_pt 0 (-1))) i)) p = ij <-> p = apply_pt t (fst ij / w, 1 - snd ij / h)).
    rewrite ps_apply, !apply_mul. destruct ij as [a b]. cbn [fst snd]. split.
    + intros E. destruct (apply_pt i p) as [x y] eqn:P. unfold translate_pt, apply_pt at 1 2 in E. cbn in E. injection E as <- <-.
      rewrite <- (proj2 (Inv p)), P. f_equal. f_equal; field; lra.
    + intros ->. rewrite (proj1 (Inv _)). unfold translate_pt, apply_pt. cbn. f_equal; field; lra.
  - unfold pdf_at, pdf_cm. change (pdfmatrix t) with (psmatrix t). rewrite ps_apply. reflexivity.
  - unfold svg_at, svg_image. cbn [fst snd]. unfold matrix_apply, svgmatrix, apply_pt. cbn [fst snd]. destruct p as [x y]. cbn [fst snd]. split.
    + intros E. injection E as E1 E2. f_equal; lra.
    + intros E. injection E as -> ->. f_equal; lra.
Qed.
Print Assumptions image_same_place.
Example image_same_place_ex : exists m, imagematrix (mktrafo 20 0 0 10 100 200) 4 2 = Some m /\ ps_at m (1, 2) (105, 200) /\ ps_at m (4, 0) (120, 210).
Proof.
  unfold imagematrix, pstrafo, inverse. cbn [followed scale_pt]. destruct (Req_EM_T _ 0) as [E|E]; [exfalso; unfold det in E; cbn in E; lra|].
  eexists. split; [reflexivity|]. unfold ps_at. rewrite !ps_apply, !apply_mul. unfold apply_pt, det, translate_pt. cbn. split; f_equal; field.
Qed.

(** The bounding box contains the image: all points are in between the included corners. *)
Theorem image_within_bbox : forall t x y, 0 <= x <= 1 -> 0 <= y <= 1 ->
  let q := apply_pt t (x, y) in
  (exists a b, In a (bbox_points t) /\ In b (bbox_points t) /\ fst a <= fst q <= fst b) /\
  (exists a b, In a (bbox_points t) /\ In b (bbox_points t) /\ snd a <= snd q <= snd b).
Proof.
  intros t x y X Y. cbv zeta. unfold bbox_points. cbn [map].
  assert (forall c d e, exists i j k l, (i = 0 \/ i = 1) /\ (j = 0 \/ j = 1) /\ (k = 0 \/ k = 1) /\ (l = 0 \/ l = 1) /\
    c * i + d * j + e <= c * x + d * y + e <= c * k + d * l + e) as A.
  { intros c d e. destruct (Rle_dec 0 c), (Rle_dec 0 d); [exists 0, 0, 1, 1|exists 0, 1, 1, 0|exists 1, 0, 0, 1|exists 1, 1, 0, 0]; repeat split; auto; nra. }
  assert (forall i j, (i = 0 \/ i = 1) -> (j = 0 \/ j = 1) -> In (apply_pt t (i, j)) [apply_pt t (0, 0); apply_pt t (0, 1); apply_pt t (1, 0); apply_pt t (1, 1)]) as B.
  { intros i j [->| ->] [->| ->]; cbn; tauto. }
  split.
  - destruct (A (m00 t) (m01 t) (v0 t)) as (i & j & k & l & I & J & K & L & P). exists (apply_pt t (i, j)), (apply_pt t (k, l)). split; [auto|]. split; [auto|]. exact P.
  - destruct (A (m10 t) (m11 t) (v1 t)) as (i & j & k & l & I & J & K & L & P). exists (apply_pt t (i, j)), (apply_pt t (k, l)). split; [auto|]. split; [auto|]. exact P.
Qed.
Print Assumptions image_within_bbox.
Example image_within_bbox_ex : bbox_points (mktrafo 2 0 0 3 10 20) = [(10, 20); (10, 23); (12, 20); (12, 23)].
Proof. unfold bbox_points. cbn [map]. unfold apply_pt. cbn. repeat f_equal; ring. Qed.

(** The size of an image: what is given is used, and what is missing is such that the aspect ratio is that of the pixels or the
    given one; without a size it is that of the resolution. *)
Theorem image_size : forall iw ih width height ratio dpi w h, 0 < iw -> 0 < ih ->
  (match width with Some x => 0 < x | None => True end) -> (match height with Some x => 0 < x | None => True end) ->
  bitmap_size iw ih width height ratio dpi = Some (w, h) ->
  (forall x, width = Some x -> w = x) /\ (forall x, height = Some x -> h = x) /\
  (forall r, ratio = Some r -> w / h = r) /\
  (ratio = None -> (width = None \/ height = None) -> ~ (width = None /\ height = None) -> w / h = iw / ih) /\
  (width = None -> height = None -> ratio = None /\ exists dx dy, dpi = Some (dx, dy) /\ w * dx = 72 * iw /\ h * dy = 72 * ih).
Proof.
  intros iw ih width height ratio dpi w h IW IH PW PH. unfold bitmap_size, over. destruct width as [x|], height as [y|], ratio as [r|];
    repeat match goal with |- context [Req_EM_T ?a ?b] => destruct (Req_EM_T a b) end; try discriminate.
  - intros E. injection E as -> ->. refine (conj _ (conj _ (conj _ (conj _ _)))); intros; try discriminate; try congruence. destruct H0; discriminate.
  - intros E. injection E as <- <-. refine (conj _ (conj _ (conj _ (conj _ _)))); intros; try discriminate; try congruence.
    assert (r0 = r) by congruence. subst. field. lra.
  - intros E. injection E as <- <-. refine (conj _ (conj _ (conj _ (conj _ _)))); intros; try discriminate; try congruence. field. lra.
  - intros E. injection E as <- <-. refine (conj _ (conj _ (conj _ (conj _ _)))); intros; try discriminate; try congruence.
    assert (r0 = r) by congruence. subst. field. lra.
  - intros E. injection E as <- <-. refine (conj _ (conj _ (conj _ (conj _ _)))); intros; try discriminate; try congruence. field. lra.
  - destruct dpi as [[dx dy]|]; [|discriminate]. repeat match goal with |- context [Req_EM_T ?a ?b] => destruct (Req_EM_T a b) end; try discriminate.
    intros E. injection E as <- <-. refine (conj _ (conj _ (conj _ (conj _ _)))); intros; try discriminate; try tauto.
    split; [reflexivity|]. exists dx, dy. split; [reflexivity|]. split; field; assumption.
Qed.
Print Assumptions image_size.
Example image_size_ex : bitmap_size 400 200 (Some 50) None None None = Some (50, 25) /\ bitmap_size 400 200 None None None (Some (100, 50)) = Some (288, 288).
Proof. unfold bitmap_size, over. repeat match goal with |- context [Req_EM_T ?a ?b] => destruct (Req_EM_T a b); [exfalso; lra|] end. split; f_equal; f_equal; field. Qed.

(** JPEG files with the resolution given per centimetre: one inch is 2.54 centimetres in both directions.  The code uses 2.45 for
    the vertical direction. *)
Theorem jpeg_dpi_refuted : ~ forall x y dpi, jpeg_dpi 2 x y = Some dpi -> dpi = (x * 2.54, y * 2.54).
Proof. intros H. specialize (H 100 100 _ eq_refl). injection H as H. lra. Qed.
Print Assumptions jpeg_dpi_refuted.
Theorem jpeg_dpi_horizontal : forall kind x y dpi, jpeg_dpi kind x y = Some dpi ->
  (kind = 1%Z /\ dpi = (x, y)) \/ (kind = 2%Z /\ fst dpi = x * 2.54).
Proof.
  intros kind x y dpi. unfold jpeg_dpi. destruct (Z.eqb_spec kind 1) as [->|]; [intros E; left; split; [reflexivity|congruence]|].
  destruct (Z.eqb_spec kind 2) as [->|]; [|discriminate]. intros E. right. split; [reflexivity|]. injection E as <-. reflexivity.
Qed.
Print Assumptions jpeg_dpi_horizontal.
Example jpeg_dpi_ex : jpeg_dpi 2 100 100 = Some (100 * 2.54, 100 * 2.45).
Proof. reflexivity. Qed.

(** ** Images in a PDF file are found by the hash of their color data only *)
(** Images are shown as themselves, unless their color data are the same (for a hash and a compression without collisions). *)
Theorem image_shown : forall (compress : list Z -> list Z) (Hash : Type) (sha1 : list Z -> Hash) same,
  (forall a b, same a b = true <-> a = b) -> (forall a b, sha1 (compress a) = sha1 (compress b) -> a = b) ->
  forall ps p, In p ps -> exists q, shown compress Hash sha1 same ps p = Some q /\ In q ps /\ pdata q = pdata p /\
    ((forall r, In r ps -> pdata r = pdata p -> r = p) -> q = p).
Proof.
  intros compress Hash sha1 same S Inj ps p I.
  assert (forall l k, (forall n q, In (n, q) l -> n = image_name compress Hash sha1 q) ->
    forall n q, known Hash same k l = Some q -> n = k -> image_name compress Hash sha1 q = n /\ In (n, q) l) as K.
  { induction l as [|[m r] l IH]; intros k A n q E ->; cbn [known] in E; [discriminate|].
    destruct (same m k) eqn:M.
    - injection E as <-. apply S in M. subst. split; [symmetry; apply A; left; reflexivity|left; reflexivity].
    - destruct (IH k (fun n q H => A n q (or_intror H)) k q E eq_refl) as (B & C). split; [exact B|right; exact C]. }
  assert (forall l k, (exists q, In (k, q) l) -> exists q, known Hash same k l = Some q) as F.
  { induction l as [|[m r] l IH]; intros k (q & Q); cbn [known]; [destruct Q|]. destruct (same m k) eqn:M; [eexists; reflexivity|].
    destruct Q as [Q|Q]; [|apply IH; eauto]. injection Q as -> ->. rewrite (proj2 (S k k) eq_refl) in M. discriminate. }
  assert (forall qs l, (forall n q, In (n, q) l -> n = image_name compress Hash sha1 q) ->
    let m := fold_left (add_image compress Hash sha1 same) qs l in
    (forall n q, In (n, q) m -> n = image_name compress Hash sha1 q /\ (In q qs \/ In (n, q) l)) /\
    (forall e, In e l -> In e m) /\ (forall q, In q qs -> exists r, In (image_name compress Hash sha1 q, r) m)) as A.
  { induction qs as [|x qs IH]; intros l L; cbn [fold_left].
    - split; [intros n q H; auto|]. split; [auto|intros q []].
    - set (l' := add_image compress Hash sha1 same l x).
      assert ((forall n q, In (n, q) l' -> n = image_name compress Hash sha1 q /\ (q = x \/ In (n, q) l)) /\ (forall e, In e l -> In e l') /\ exists r, In (image_name compress Hash sha1 x, r) l') as (B1 & B2 & B3).
      { unfold l', add_image. destruct (known Hash same _ l) as [r|] eqn:Kn.
        - split; [auto|]. split; [auto|]. exists r. apply (K _ _ L _ r Kn eq_refl).
        - split; [|split].
          + intros n q H. apply in_app_iff in H. destruct H as [H|[H|[]]]; [auto|]. injection H as <- <-. auto.
          + intros e H. apply in_app_iff. auto.
          + exists x. apply in_app_iff. right. left. reflexivity. }
      destruct (IH l' (fun n q H => proj1 (B1 n q H))) as (C1 & C2 & C3). split; [|split].
      + intros n q H. destruct (C1 n q H) as (E & [D|D]); [split; [exact E|left; right; exact D]|]. destruct (B1 n q D) as (_ & [->|D']); split; auto. left. left. reflexivity.
      + auto.
      + intros q [<-|Q]; [|apply C3; exact Q]. destruct B3 as (r & R). exists r. apply C2. exact R. }
  destruct (A ps [] ltac:(intros n q [])) as (A1 & _ & A3). fold (add_images compress Hash sha1 same ps) in A1, A3.
  destruct (F _ _ (A3 p I)) as (q & Q). exists q. unfold shown. split; [exact Q|].
  destruct (K _ _ (fun n q H => proj1 (A1 n q H)) _ q Q eq_refl) as (E & In'). destruct (A1 _ _ In') as (_ & [Iq|[]]).
  assert (pdata q = pdata p) as D by (apply Inj; exact E). split; [exact Iq|]. split; [exact D|]. intros U. apply U; assumption.
Qed.
Print Assumptions image_shown.
(** Two images with the same color data, but different size (or alpha channel): the second one is shown as the first one. *)
Theorem image_shown_refuted : forall (compress : list Z -> list Z) (Hash : Type) (sha1 : list Z -> Hash) same,
  (forall a b, same a b = true <-> a = b) ->
  exists p q, pwidth p <> pwidth q /\ shown compress Hash sha1 same [p; q] q = Some p /\
    exists p' q', palpha p' <> palpha q' /\ shown compress Hash sha1 same [p'; q'] q' = Some p'.
Proof.
  intros compress Hash sha1 same S. exists (mkpixels 1 2 0 [10; 20]%Z None), (mkpixels 2 1 0 [10; 20]%Z None). split; [cbn; lia|].
  assert (same (sha1 (compress [10; 20]%Z)) (sha1 (compress [10; 20]%Z)) = true) as E by (apply S; reflexivity).
  split.
  - unfold shown, add_images, image_name. cbn [fold_left]. unfold add_image at 2. unfold image_name. cbn [known pdata app]. unfold add_image. unfold image_name. cbn [known pdata]. rewrite E. cbn [known]. rewrite E. reflexivity.
  - exists (mkpixels 1 2 0 [10; 20]%Z (Some [0; 255]%Z)), (mkpixels 1 2 0 [10; 20]%Z (Some [255; 255]%Z)). split; [cbn; congruence|].
    unfold shown, add_images, image_name. cbn [fold_left]. unfold add_image at 2. unfold image_name. cbn [known pdata app]. unfold add_image. unfold image_name. cbn [known pdata]. rewrite E. cbn [known]. rewrite E. reflexivity.
Qed.
Print Assumptions image_shown_refuted.
