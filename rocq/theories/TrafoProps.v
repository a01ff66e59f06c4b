(** Transformations: composition (C03), inverse (C04), geometry (C05), mirror (C06),
    slant (C07) and output (C08). *)
From Coq Require Import Reals List Lra Nsatz.
From Verif Require Import UnitModel UnitProps TrafoModel TrafoSpec.
Import ListNotations.
Open Scope R_scope.

Local Arguments topt : simpl never.
Lemma apply_mul s o p : apply_pt (tmul s o) p = apply_pt s (apply_pt o p).
Proof. unfold apply_pt, tmul. destruct p as [x y]. simpl. f_equal; ring. Qed.
Lemma topt_zero st : topt st (Num 0) = 0.
Proof. unfold topt, convert_to. simpl. field. Qed.
Lemma apply_identity st p : apply_pt (identity st) p = p.
Proof. unfold apply_pt, identity, new_trafo. simpl. rewrite !topt_zero. destruct p. simpl. f_equal; ring. Qed.

(** C03: product is composition, for chains of any length. *)
Theorem product_composes : forall st (l : list trafo) p,
  apply_pt (fold_left tmul l (identity st)) p = fold_right apply_pt p l /\
  apply_pt (fold_right tmul (identity st) l) p = fold_right apply_pt p l.
Proof.
  intros st l p. split.
  - assert (forall t, apply_pt (fold_left tmul l t) p = apply_pt t (fold_right apply_pt p l)) as H.
    { induction l as [|x l IH]; intros t; simpl; auto. now rewrite IH, apply_mul. }
    now rewrite H, apply_identity.
  - induction l as [|x l IH]; simpl; [apply apply_identity|]. now rewrite apply_mul, IH.
Qed.
Print Assumptions product_composes.

Lemma trafo_eq a b : m00 a = m00 b -> m01 a = m01 b -> m10 a = m10 b -> m11 a = m11 b -> v0 a = v0 b -> v1 a = v1 b -> a = b.
Proof. destruct a, b; simpl; congruence. Qed.

(** C03: monoid laws; a transformation is determined by what it does to points. *)
Theorem product_monoid : forall st a b c, tmul (tmul a b) c = tmul a (tmul b c) /\
  tmul (identity st) a = a /\ tmul a (identity st) = a /\ ((forall p, apply_pt a p = apply_pt b p) -> a = b).
Proof.
  intros st a b c. split; [|split; [|split]].
  - apply trafo_eq; simpl; ring.
  - apply trafo_eq; unfold identity, new_trafo, tmul; simpl; rewrite ?topt_zero; ring.
  - apply trafo_eq; unfold identity, new_trafo, tmul; simpl; rewrite ?topt_zero; ring.
  - intros H. pose proof (H (0, 0)) as H0. pose proof (H (1, 0)) as H1. pose proof (H (0, 1)) as H2.
    unfold apply_pt in *. simpl in *. injection H0 as A0 B0. injection H1 as A1 B1. injection H2 as A2 B2.
    apply trafo_eq; lra.
Qed.
Print Assumptions product_monoid.

(** C03: x.rotated(...) etc. is x followed by the operation. *)
Theorem methods_follow : forall self op t, followed self op = Some t ->
  exists o, op = Some o /\ forall p, apply_pt t p = apply_pt o (apply_pt self p).
Proof.
  intros self op t H. destruct op as [o|]; [|discriminate]. injection H as <-. exists o. split; auto. intros p. apply apply_mul.
Qed.
Print Assumptions methods_follow.

Example product_ex : apply_pt (tmul (translate_pt 1 2) (mktrafo 0 (-1) 1 0 0 0)) (3, 4) = (-3, 5).
Proof. unfold apply_pt, tmul, translate_pt. simpl. f_equal; ring. Qed.
Example methods_ex : exists t, followed (translate_pt 1 0) (scale_pt 2 None NoCentre) = Some t /\ apply_pt t (1, 1) = (4, 2).
Proof. eexists. split; [reflexivity|]. unfold apply_pt. simpl. f_equal; ring. Qed.

Local Ltac ne := let C := fresh in intros C; injection C; clear C; intros;
  first [lra | match goal with N : _ <> 0 |- _ => solve [apply N; lra] end].
(** C04: the inverse exists exactly for a non-zero determinant, i.e. if no direction is
    collapsed, and inverts. *)
Theorem inverse_inverts : forall t,
  (forall i, inverse t = Some i -> forall p, apply_pt i (apply_pt t p) = p /\ apply_pt t (apply_pt i p) = p) /\
  (inverse t = None <-> exists p q, p <> q /\ apply_pt t p = apply_pt t q).
Proof.
  intros t. unfold inverse. split.
  - intros i. destruct (Req_EM_T (det t) 0) as [|N]; [discriminate|]. intros [= <-] p. unfold det in N.
    rewrite !apply_mul. unfold apply_pt. destruct p as [x y]. simpl. unfold det. split; f_equal; field; lra.
  - destruct (Req_EM_T (det t) 0) as [E|N]; split; auto; try discriminate.
    + intros _. unfold det in E. destruct (Req_EM_T (m00 t) 0) as [Z0|], (Req_EM_T (m01 t) 0) as [Z1|].
      * destruct (Req_EM_T (m10 t) 0) as [Z2|].
        -- exists (1, 0), (0, 0). split; [ne|]. unfold apply_pt. simpl. f_equal; lra.
        -- exists (m11 t, - m10 t), (0, 0). split; [ne|]. unfold apply_pt. simpl. f_equal; lra.
      * exists (- m01 t, m00 t), (0, 0). split; [ne|]. unfold apply_pt. simpl. f_equal; lra.
      * exists (- m01 t, m00 t), (0, 0). split; [ne|]. unfold apply_pt. simpl. f_equal; lra.
      * exists (- m01 t, m00 t), (0, 0). split; [ne|]. unfold apply_pt. simpl. f_equal; lra.
    + intros ([x y] & [x' y'] & D & E). exfalso. apply D. unfold apply_pt in E. simpl in E. injection E as E1 E2.
      unfold det in N. assert (m00 t * (x - x') + m01 t * (y - y') = 0) as F1 by lra. assert (m10 t * (x - x') + m11 t * (y - y') = 0) as F2 by lra.
      assert ((m00 t * m11 t - m01 t * m10 t) * (x - x') = 0) as X
        by (transitivity (m11 t * (m00 t * (x - x') + m01 t * (y - y')) - m01 t * (m10 t * (x - x') + m11 t * (y - y'))); [ring|rewrite F1, F2; ring]).
      assert ((m00 t * m11 t - m01 t * m10 t) * (y - y') = 0) as Y
        by (transitivity (m00 t * (m10 t * (x - x') + m11 t * (y - y')) - m10 t * (m00 t * (x - x') + m01 t * (y - y'))); [ring|rewrite F1, F2; ring]).
      apply Rmult_integral in X. apply Rmult_integral in Y. destruct X as [X|X], Y as [Y|Y]; try lra. f_equal; lra.
Qed.
Print Assumptions inverse_inverts.

Example inverse_ex : exists i, inverse (mktrafo 1 2 3 4 5 6) = Some i /\ apply_pt i (8, 13) = (1, 1).
Proof.
  unfold inverse, det. simpl. destruct (Req_EM_T (1 * (1 * 4 - 2 * 3)) 0); [lra|]. eexists. split; [reflexivity|].
  unfold apply_pt. simpl. f_equal; field.
Qed.

(** the reference point: the origin if none is given *)
Definition centre_of (c : centre R) : point := match c with Centre x y => (x, y) | _ => (0, 0) end.
Definition centre_in (st : ustate) (c : centre pyval) : point := match c with Centre x y => (topt st x, topt st y) | _ => (0, 0) end.

(** C05: rotate is the rotation by the angle around the reference point. *)
Theorem rotate_is_rotation : forall angle c,
  match rotate_pt angle c with
  | Some t => is_rotation (apply_pt t) angle (centre_of c)
  | None => c = HalfCentre
  end.
Proof.
  intros angle c. unfold rotate_pt. pose proof (sin2_cos2 (radians angle)) as SC. unfold Rsqr, radians in SC.
  destruct c as [|x y|]; auto; intros [px py]; unfold apply_pt, direction, dot, cross, psub, rvector, radians; simpl;
    set (s := sin (PI * angle / 180)) in *; set (co := cos (PI * angle / 180)) in *.
  - assert (co * co = 1 - s * s) as C by lra. split; [|split].
    + transitivity ((s * s + co * co) * (px * px + py * py)); [ring|rewrite SC; ring].
    + ring.
    + ring.
  - split; [|split].
    + transitivity ((s * s + co * co) * ((px - x) * (px - x) + (py - y) * (py - y))); [ring|rewrite SC; ring].
    + ring.
    + ring.
Qed.
Print Assumptions rotate_is_rotation.

Theorem rotate_lengths : forall st angle c,
  match rotate st angle c with
  | Some t => is_rotation (apply_pt t) angle (centre_in st c)
  | None => c = HalfCentre
  end.
Proof.
  intros st angle c. unfold rotate.
  destruct c as [|x y|]; [apply (rotate_is_rotation angle NoCentre)|apply (rotate_is_rotation angle (Centre _ _))|reflexivity].
Qed.
Print Assumptions rotate_lengths.

(** C05: distances are kept. *)
Theorem rotate_isometry : forall angle c t p q, rotate_pt angle c = Some t ->
  dot (psub (apply_pt t p) (apply_pt t q)) (psub (apply_pt t p) (apply_pt t q)) = dot (psub p q) (psub p q) /\
  cross (psub (apply_pt t p) (apply_pt t (0, 0))) (psub (apply_pt t q) (apply_pt t (0, 0))) = cross p q.
Proof.
  intros angle c t [px py] [qx qy] H. pose proof (sin2_cos2 (radians angle)) as SC. unfold Rsqr in SC.
  assert (exists e f, t = mktrafo (cos (radians angle)) (- sin (radians angle)) (sin (radians angle)) (cos (radians angle)) e f) as (e & f & ->).
  { destruct c; [| |discriminate]; injection H as <-; eauto. }
  unfold apply_pt, psub, dot, cross. simpl. set (s := sin _) in *. set (co := cos _) in *. split.
  - transitivity ((s * s + co * co) * ((px - qx) * (px - qx) + (py - qy) * (py - qy))); [ring|rewrite SC; ring].
  - transitivity ((s * s + co * co) * (px * qy - py * qx)); [ring|rewrite SC; ring].
Qed.
Print Assumptions rotate_isometry.

(** C05: angles of rotations about the same point add up. *)
Theorem rotations_add : forall a b c ta tb tab, rotate_pt a c = Some ta -> rotate_pt b c = Some tb ->
  rotate_pt (a + b) c = Some tab -> tmul ta tb = tab.
Proof.
  intros a b c ta tb tab Ha Hb Hab.
  assert (radians (a + b) = radians a + radians b) as E by (unfold radians; field).
  unfold rotate_pt, rvector in *. rewrite E, cos_plus, sin_plus in Hab.
  destruct c; [| |discriminate]; injection Ha as <-; injection Hb as <-; injection Hab as <-; unfold tmul; simpl; f_equal; ring.
Qed.
Print Assumptions rotations_add.

(** C05: scaling keeps the reference point and scales the offsets. *)
Theorem scale_is_scaling : forall sx sy c, let sy' := match sy with Some s => s | None => sx end in
  match scale_pt sx sy c with
  | Some t => forall p, psub (apply_pt t p) (centre_of c) = (sx * fst (psub p (centre_of c)), sy' * snd (psub p (centre_of c)))
  | None => c = HalfCentre
  end.
Proof.
  intros sx sy c sy'. destruct c as [|x y|]; simpl; auto; intros [px py]; unfold psub, apply_pt, sy'; simpl; f_equal; ring.
Qed.
Print Assumptions scale_is_scaling.

Lemma topt_mul st k v v' : py_mul (Num k) v = Some v' -> topt st v' = k * topt st v.
Proof. destruct v; intros [= <-]; unfold topt, convert_to; simpl; field. Qed.
Theorem scale_lengths : forall st sx sy c, let sy' := match sy with Some s => s | None => sx end in
  match scale st sx sy c with
  | Some t => forall p, psub (apply_pt t p) (centre_in st c) = (sx * fst (psub p (centre_in st c)), sy' * snd (psub p (centre_in st c)))
  | None => c = HalfCentre
  end.
Proof.
  intros st sx sy c sy'. destruct c as [|x y|]; unfold scale; auto.
  - intros [px py]. unfold psub, apply_pt, new_trafo. simpl. rewrite !topt_zero. unfold sy'. f_equal; ring.
  - fold sy'. destruct (py_mul (Num (1 - sx)) x) as [x'|] eqn:Ex; [|now destruct x].
    destruct (py_mul (Num (1 - sy')) y) as [y'|] eqn:Ey; [|now destruct y].
    intros [px py]. unfold psub, apply_pt, new_trafo. simpl. rewrite (topt_mul _ _ _ _ Ex), (topt_mul _ _ _ _ Ey). f_equal; ring.
Qed.
Print Assumptions scale_lengths.

(** C05: translation. *)
Theorem translate_moves : forall st x y p,
  apply_pt (translate_pt x y) p = padd p (x, y) /\
  (forall lx ly, apply_pt (translate st lx ly) p = padd p (topt st lx, topt st ly)).
Proof.
  intros st x y [px py]. unfold apply_pt, translate_pt, translate, new_trafo, padd. simpl. split; [|intros lx ly]; f_equal; ring.
Qed.
Print Assumptions translate_moves.

(** C05: apply for lengths is apply_pt for the values in points, whatever the scales are. *)
Theorem apply_lengths : forall st t x y,
  (topt st (Len (fst (apply st t x y))), topt st (Len (snd (apply st t x y)))) = apply_pt t (topt st x, topt st y).
Proof.
  intros st t x y. unfold apply. cbv zeta. destruct (apply_pt t (topt st x, topt st y)) as [a b].
  unfold topt at 1 2, convert_to. simpl. f_equal; field.
Qed.
Print Assumptions apply_lengths.

(** C05: without reference point slant_pt moves each point along the direction -angle by a
    times its distance from the line through the origin with this direction. *)
Theorem slant_pt_origin : forall st a angle, exists t, slant_pt st a angle NoCentre = Some t /\
  forall p, psub (apply_pt t p) p =
      (a * cross (direction (- angle)) p * fst (direction (- angle)), a * cross (direction (- angle)) p * snd (direction (- angle))).
Proof.
  intros st a angle. unfold slant_pt, rotate_pt. cbv zeta iota. eexists. split; [reflexivity|].
  pose proof (sin2_cos2 (radians angle)) as SC. unfold Rsqr in SC.
  assert (radians (- angle) = - radians angle) as E by (unfold radians; field).
  rewrite !E, !cos_neg, !sin_neg. unfold direction. fold (radians (- angle)). rewrite E, cos_neg, sin_neg.
  intros [px py]; rewrite !apply_mul; unfold new_trafo, psub, cross, apply_pt; simpl;
    rewrite !topt_zero; set (s := sin _) in *; set (co := cos _) in *; clearbody s co; f_equal; nsatz.
Qed.
Print Assumptions slant_pt_origin.

(** C05: with a reference point it is not kept, because only the rotations, but not
    the slant itself is done around the reference point. *)
Theorem slant_pt_reference_refuted :
  ~ (forall st a angle x y t, slant_pt st a angle (Centre x y) = Some t -> apply_pt t (x, y) = (x, y)).
Proof.
  intros H. specialize (H initial 1 0 0 1 _ eq_refl). revert H. rewrite !apply_mul.
  unfold apply_pt, new_trafo, rvector, radians. simpl. rewrite !topt_zero.
  replace (PI * 0 / 180) with 0 by field. replace (PI * - 0 / 180) with 0 by field. rewrite cos_0, sin_0.
  intros H. injection H as H _. lra.
Qed.
Print Assumptions slant_pt_reference_refuted.

Example rotate_ex : exists t, rotate_pt 90 (Centre 1 1) = Some t /\ apply_pt t (2, 1) = (1, 2).
Proof.
  eexists. split; [reflexivity|]. unfold apply_pt, rvector, radians. simpl.
  replace (PI * 90 / 180) with (PI / 2) by field. rewrite cos_PI2, sin_PI2. f_equal; ring.
Qed.
Example scale_ex : exists t, scale initial 2 (Some 3) (Centre (Num 1) (Num 0)) = Some t /\
  apply_pt t (topt initial (Num 1), 1) = (topt initial (Num 1), 3).
Proof. eexists. split; [reflexivity|]. unfold apply_pt, new_trafo, topt, convert_to. simpl. f_equal; field. Qed.
Example slant_pt_ex : exists t, slant_pt initial 1 0 NoCentre = Some t /\ apply_pt t (5, 3) = (8, 3).
Proof.
  eexists. split; [reflexivity|]. rewrite !apply_mul. unfold apply_pt, new_trafo, radians. simpl. rewrite !topt_zero.
  replace (PI * 0 / 180) with 0 by field. replace (PI * - 0 / 180) with 0 by field. rewrite cos_0, sin_0. f_equal; ring.
Qed.

(** C06: the mirror is a reflection, at the line with the direction of minus the angle. *)
Theorem mirror_reflects_negative : forall st angle, is_reflection (apply_pt (mirror st angle)) (direction (- angle)).
Proof.
  intros st angle [px py]. unfold mirror, new_trafo, apply_pt, direction, dot, cross. simpl. rewrite !topt_zero.
  replace (PI * - angle / 180) with (- radians angle) by (unfold radians; field). rewrite cos_neg, sin_neg.
  pose proof (sin2_cos2 (radians angle)) as SC. unfold Rsqr in SC. set (s := sin _) in *. set (co := cos _) in *.
  split.
  - transitivity ((s * s + co * co) * (co * px - s * py)); [ring|rewrite SC; ring].
  - transitivity (- ((s * s + co * co) * (co * py + s * px))); [ring|rewrite SC; ring].
Qed.
Print Assumptions mirror_reflects_negative.

Theorem mirror_involution : forall st angle p, apply_pt (mirror st angle) (apply_pt (mirror st angle) p) = p.
Proof.
  intros st angle [px py]. unfold mirror, new_trafo, apply_pt. simpl. rewrite !topt_zero.
  pose proof (sin2_cos2 (radians angle)) as SC. unfold Rsqr in SC. set (s := sin _) in *. set (co := cos _) in *. f_equal.
  - transitivity ((s * s + co * co) * (s * s + co * co) * px); [ring|rewrite SC; ring].
  - transitivity ((s * s + co * co) * (s * s + co * co) * py); [ring|rewrite SC; ring].
Qed.
Print Assumptions mirror_involution.

(** C06: it does not keep the points of the line with direction angle. *)
Theorem mirror_line_refuted :
  ~ (forall st angle, is_reflection (apply_pt (mirror st angle)) (direction angle)).
Proof.
  intros H. specialize (H initial 45 (1, 1)). destruct H as [H _]. revert H.
  unfold mirror, new_trafo, apply_pt, direction, dot. simpl. rewrite !topt_zero. unfold radians.
  replace (PI * 45 / 180) with (PI / 4) by field. rewrite cos_PI4, sin_PI4.
  intros H. assert (0 < sqrt 2) as P by (apply sqrt_lt_R0; lra).
  assert (1 / sqrt 2 * (1 / sqrt 2) = 1 / 2) as E.
  { pose proof (sqrt_sqrt 2 ltac:(lra)) as S. field_simplify_eq; [|lra]. simpl. nra. }
  assert (0 < 1 / sqrt 2) as P1 by (apply Rdiv_lt_0_compat; lra). set (h := 1 / sqrt 2) in *. nra.
Qed.
Print Assumptions mirror_line_refuted.
Example mirror_ex : apply_pt (mirror initial 0) (2, 3) = (2, -3).
Proof.
  unfold apply_pt, mirror, new_trafo, radians. simpl. rewrite !topt_zero. replace (PI * 0 / 180) with 0 by field.
  rewrite cos_0, sin_0. f_equal; ring.
Qed.

(** C07: without reference point, slant and slant_pt agree. *)
Theorem slant_origin_partial : forall st a angle, slant st a angle NoCentre = slant_pt st a angle NoCentre.
Proof.
  intros st a angle. unfold slant, slant_pt, rotate, rotate_pt. cbv zeta iota. f_equal. unfold new_trafo, tmul. simpl.
  rewrite !topt_zero. f_equal; unfold topt, convert_to; simpl; field.
Qed.
Print Assumptions slant_origin_partial.

(** C07: the reference point given as a length is not kept. *)
Theorem slant_reference_refuted :
  ~ (forall st a angle x y t, slant st a angle (Centre x y) = Some t ->
     apply_pt t (topt st x, topt st y) = (topt st x, topt st y)).
Proof.
  intros H. specialize (H initial 1 0 (Num 0) (Num 1) _ eq_refl). revert H.
  unfold apply_pt, new_trafo, tmul, rvector, radians. simpl. unfold topt, convert_to. simpl.
  replace (PI * 0 / 180) with 0 by field. replace (PI * - 0 / 180) with 0 by field. rewrite cos_0, sin_0.
  intros H. injection H as H _. field_simplify in H. lra.
Qed.
Print Assumptions slant_reference_refuted.
Example slant_ex : exists t, slant initial 1 0 NoCentre = Some t /\ apply_pt t (5, 3) = (8, 3).
Proof.
  rewrite slant_origin_partial. eexists. split; [reflexivity|]. rewrite !apply_mul. unfold apply_pt, new_trafo, radians. simpl. rewrite !topt_zero.
  replace (PI * 0 / 180) with 0 by field. replace (PI * - 0 / 180) with 0 by field. rewrite cos_0, sin_0. f_equal; ring.
Qed.

(** C08: the numbers written mean the transformation; in SVG all points are flipped. *)
Theorem written_matrices : forall t p,
  rowmatrix (psmatrix t) p = apply_pt t p /\ rowmatrix (pdfmatrix t) p = apply_pt t p /\
  rowmatrix (svgmatrix t) (flip p) = flip (apply_pt t p).
Proof.
  intros t [x y]. unfold rowmatrix, psmatrix, pdfmatrix, svgmatrix, flip, apply_pt. simpl. repeat split; f_equal; ring.
Qed.
Print Assumptions written_matrices.
Example written_ex : rowmatrix (psmatrix (mktrafo 1 2 3 4 5 6)) (1, 10) = (26, 49) /\ apply_pt (mktrafo 1 2 3 4 5 6) (1, 10) = (26, 49).
Proof. unfold rowmatrix, psmatrix, apply_pt. simpl. split; f_equal; ring. Qed.
