(** Properties of reading SVG transformations. *)
From Coq Require Import Reals Bool List Lra Lia.
From Verif Require Import TrafoModel SvgInModel SvgInSpec.
Import ListNotations.
Open Scope R_scope.

Lemma apply_tmul s o p : apply_pt (tmul s o) p = apply_pt s (apply_pt o p).
Proof. unfold apply_pt, tmul. simpl. f_equal; ring. Qed.
Lemma toTrafo_right l : toTrafo l = fold_right (fun x t => add_transform t x) (mktrafo 1 0 0 1 0 0) l.
Proof. unfold toTrafo. now rewrite <- fold_left_rev_right, rev_involutive. Qed.
Lemma radians_deg a : radians a = deg a.
Proof. unfold radians, deg. field. Qed.
Lemma plain_added x t p : plain_entry x = true -> apply_pt (add_transform t x) p = transform_pt x (apply_pt t p).
Proof.
  destruct x as [a b c d e f|x y|x y|a [[cx cy]|]|a|a]; try discriminate; intros _; cbn [add_transform transform_pt]; rewrite apply_tmul;
    destruct (apply_pt t p) as [u v]; unfold apply_pt, translate_pt, rvector; cbn [m00 m01 m10 m11 v0 v1 fst snd]; rewrite ?radians_deg; f_equal; ring.
Qed.

(** Lists of translations, scalings and rotations (about any point) are read as the composition of all of them, the last applied
    first; a skew or symmetric matrix may come last. *)
Theorem svg_trafo_composition : forall l x p, forallb plain_entry l = true -> last_entry x ->
  apply_pt (toTrafo (l ++ [x])) p = transform_all (l ++ [x]) p.
Proof.
  intros l x p F L. rewrite toTrafo_right. unfold transform_all. rewrite !fold_right_app. cbn [fold_right].
  assert (E : apply_pt (add_transform (mktrafo 1 0 0 1 0 0) x) p = transform_pt x p).
  { destruct (plain_entry x) eqn:P.
    - rewrite plain_added by auto. f_equal. destruct p. unfold apply_pt. simpl. f_equal; ring.
    - destruct x; try discriminate; cbn [add_transform transform_pt last_entry] in *; rewrite apply_tmul; unfold apply_pt; cbn [m00 m01 m10 m11 v0 v1 fst snd]; try subst;
        unfold deg; f_equal; ring. }
  rewrite <- E. generalize (add_transform (mktrafo 1 0 0 1 0 0) x) as t. clear E L. intros t.
  induction l as [|y l IH]; [reflexivity|]. cbn [fold_right forallb] in *. apply andb_prop in F as [F1 F2].
  rewrite plain_added by auto. now rewrite IH.
Qed.
Print Assumptions svg_trafo_composition.
Theorem svg_trafo_empty : forall p, apply_pt (toTrafo []) p = p.
Proof. intros [x y]. unfold toTrafo, apply_pt. simpl. f_equal; ring. Qed.

Example svg_trafo_ex : apply_pt (toTrafo [Translate 10 None; Rotate 90 (Some (1, 2)); Scale 2 (Some 3); SkewX 0]) (5, 7) =
  transform_all [Translate 10 None; Rotate 90 (Some (1, 2)); Scale 2 (Some 3); SkewX 0] (5, 7) /\
  apply_pt (toTrafo [Translate 10 None; Rotate 90 (Some (1, 2)); Scale 2 (Some 3); SkewX 0]) (5, 7) = (-8, 11).
Proof.
  assert (E := svg_trafo_composition [Translate 10 None; Rotate 90 (Some (1, 2)); Scale 2 (Some 3)] (SkewX 0) (5, 7) eq_refl I). cbn [app] in E.
  split; [exact E|]. rewrite E. unfold transform_all. cbn [fold_right transform_pt fst snd].
  assert (D : deg 90 = PI / 2) by (unfold deg; field). rewrite D, cos_PI2, sin_PI2.
  replace (deg 0) with 0 by (unfold deg; field). rewrite tan_0. f_equal; lra.
Qed.

(** A matrix is transposed: its first four numbers are read row by row, while SVG writes them column by column. *)
Theorem svg_matrix_transposed : forall a b c d e f p,
  apply_pt (toTrafo [Matrix a b c d e f]) p = transform_all [Matrix a c b d e f] p.
Proof. intros a b c d e f p. unfold toTrafo, transform_all, apply_pt. simpl. f_equal; ring. Qed.
Print Assumptions svg_matrix_transposed.
Theorem svg_matrix_refuted : exists p, apply_pt (toTrafo [Matrix 0 1 (-1) 0 0 0]) p <> transform_all [Matrix 0 1 (-1) 0 0 0] p.
Proof. exists (0, 1). unfold toTrafo, transform_all, apply_pt. simpl. intros E. injection E as E. lra. Qed.
Print Assumptions svg_matrix_refuted.
(** Skews and matrices which are not last are applied first instead. *)
Theorem svg_skew_order_refuted : exists p, apply_pt (toTrafo [SkewX 45; Scale 2 (Some 1)]) p <> transform_all [SkewX 45; Scale 2 (Some 1)] p /\
  apply_pt (toTrafo [SkewX 45; Scale 2 (Some 1)]) p = transform_all [Scale 2 (Some 1); SkewX 45] p.
Proof.
  exists (0, 1). unfold toTrafo, transform_all, apply_pt. cbn [rev app fold_left fold_right add_transform transform_pt tmul m00 m01 m10 m11 v0 v1 fst snd].
  unfold deg. replace (45 * PI / 180) with (PI / 4) by field. rewrite tan_PI4. split.
  - intros E. injection E as E. lra.
  - f_equal; lra.
Qed.
Print Assumptions svg_skew_order_refuted.
Theorem svg_matrix_order_refuted : exists p, apply_pt (toTrafo [Matrix 1 0 0 1 5 0; Scale 2 None]) p <> transform_all [Matrix 1 0 0 1 5 0; Scale 2 None] p.
Proof. exists (0, 0). unfold toTrafo, transform_all, apply_pt. simpl. intros E. injection E as E. lra. Qed.
Print Assumptions svg_matrix_order_refuted.
