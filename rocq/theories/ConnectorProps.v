(** * Connectors go as their angles and bulges say (C111): arcs and curves *)

From Coq Require Import Reals List Bool Lra Psatz Nsatz.
From Verif Require Import CurveModel CurveSpec CurveProofs4 ArcSpec ArcProofs ConnectorModel.
From Verif Require SvgArcProps3 TrafoModel RootsModel.
Import ListNotations.
Open Scope R_scope.

Local Notation pt := (R * R)%type.
(** ** Notions *)
(** how far p is to the left of the line from c1 to c2, times the distance of these *)
Definition left_of (c1 c2 p : pt) : R := (fst c2 - fst c1) * (snd p - snd c1) - (snd c2 - snd c1) * (fst p - fst c1).
(** the points of a shape *)
Definition draws (s : shape) (p : pt) : Prop :=
  match s with
  | Straight a b => exists t, 0 <= t <= 1 /\ p = along a b t
  | CArc _ x y r a1 a2 => on_arc x y r a1 a2 p
  | CArcn _ x y r a1 a2 => on_arc x y r a2 a1 p
  | Bezier p0 p1 p2 p3 => exists t, 0 <= t <= 1 /\ p = (bernstein (fst p0) (fst p1) (fst p2) (fst p3) t, bernstein (snd p0) (snd p1) (snd p2) (snd p3) t)
  | Two a m b => exists t, 0 <= t <= 1 /\ (p = along a m t \/ p = along m b t)
  end.
(** where it begins and ends, as the point before the arc and the points of the arc at its first and last angle *)
Definition goes (s : shape) (p q : pt) : Prop :=
  match s with
  | Straight a b => a = p /\ b = q
  | CArc a x y r a1 a2 | CArcn a x y r a1 a2 => a = p /\ circle_point x y r (rad a1) = p /\ circle_point x y r (rad a2) = q
  | Bezier a _ _ b => a = p /\ b = q
  | Two a _ b => a = p /\ b = q
  end.
(** s begins in the direction with the angle phi, and ends in the direction psi *)
Definition begins_at (s : shape) (phi : R) : Prop :=
  match s with
  | Straight a b => exists l, 0 < l /\ b = (fst a + l * cos phi, snd a + l * sin phi)
  | CArc _ _ _ _ a1 _ => (- sin (rad a1), cos (rad a1)) = (cos phi, sin phi)
  | CArcn _ _ _ _ a1 _ => (sin (rad a1), - cos (rad a1)) = (cos phi, sin phi)
  | Bezier a b _ _ => exists l, 0 < l /\ b = (fst a + l * cos phi, snd a + l * sin phi)
  | Two a m _ => exists l, 0 < l /\ m = (fst a + l * cos phi, snd a + l * sin phi)
  end.
Definition ends_at (s : shape) (phi : R) : Prop :=
  match s with
  | Straight a b => exists l, 0 < l /\ b = (fst a + l * cos phi, snd a + l * sin phi)
  | CArc _ _ _ _ _ a2 => (- sin (rad a2), cos (rad a2)) = (cos phi, sin phi)
  | CArcn _ _ _ _ _ a2 => (sin (rad a2), - cos (rad a2)) = (cos phi, sin phi)
  | Bezier _ _ c b => exists l, 0 < l /\ b = (fst c + l * cos phi, snd c + l * sin phi)
  | Two _ m b => exists l, 0 < l /\ b = (fst m + l * cos phi, snd m + l * sin phi)
  end.

(** ** Geometry of a chord *)
Lemma trig x : cos x * cos x + sin x * sin x = 1.
Proof. pose proof (sin2_cos2 x) as H. unfold Rsqr in H. lra. Qed.
Lemma rad_degrees a : rad (degrees a) = a.
Proof. unfold rad, degrees. field. apply PI_neq0. Qed.

Lemma chord_side cx cy r e f phi :
  left_of (circle_point cx cy r e) (circle_point cx cy r f) (circle_point cx cy r phi) = 4 * (r * r) * (sin ((e - f) / 2) * sin ((e - phi) / 2) * sin ((phi - f) / 2)).
Proof.
  set (A := (e - phi) / 2). set (B := (phi - f) / 2).
  replace ((e - f) / 2) with (A + B) by (unfold A, B; lra).
  assert (Z : 4 * (sin (A + B) * sin A * sin B) = sin (A + A) + sin (B + B) - (sin (A + A) * cos (B + B) + cos (A + A) * sin (B + B))).
  { rewrite !cos_plus, !sin_plus. pose proof (trig A). pose proof (trig B). set (ca := cos A) in *. set (sa := sin A) in *. set (cb := cos B) in *. set (sb := sin B) in *. clearbody ca sa cb sb. nsatz. }
  replace (4 * (r * r) * (sin (A + B) * sin A * sin B)) with (r * r * (4 * (sin (A + B) * sin A * sin B))) by ring. rewrite Z.
  replace (circle_point cx cy r e) with (circle_point cx cy r (phi + (A + A))) by (f_equal; unfold A; lra).
  replace (circle_point cx cy r f) with (circle_point cx cy r (phi - (B + B))) by (f_equal; unfold B; lra).
  unfold left_of, circle_point. cbn [fst snd]. pose proof (trig (A + A)). pose proof (trig (B + B)). set (A2 := A + A) in *. set (B2 := B + B) in *. clearbody A2 B2. rewrite cos_minus, sin_minus, cos_plus, sin_plus.
  pose proof (trig phi).
  set (cp := cos phi) in *. set (sp := sin phi) in *. set (ca := cos A2) in *. set (sa := sin A2) in *. set (cb := cos B2) in *. set (sb := sin B2) in *. clearbody cp sp ca sa cb sb.
  replace (sp * sp) with (1 - cp * cp) by lra.
  transitivity (r * r * ((cp * cp + sp * sp) * (sa + sb - (sa * cb + ca * sb)) + (sa * (ca * ca + sa * sa) - sa * (ca * ca + sa * sa)))); [ring|]. rewrite H1. ring.
Qed.
Lemma chord_side_pos cx cy r e f phi : f <= phi <= e -> e <= f + 2 * PI ->
  0 <= left_of (circle_point cx cy r e) (circle_point cx cy r f) (circle_point cx cy r phi).
Proof.
  intros H1 H2. rewrite chord_side. pose proof (sin_ge_0 ((e - f) / 2) ltac:(lra) ltac:(lra)). pose proof (sin_ge_0 ((e - phi) / 2) ltac:(lra) ltac:(lra)).
  pose proof (sin_ge_0 ((phi - f) / 2) ltac:(lra) ltac:(lra)). pose proof (Rle_0_sqr r). unfold Rsqr in *.
  apply Rmult_le_pos; [lra|]. apply Rmult_le_pos; [apply Rmult_le_pos|]; assumption.
Qed.
Lemma left_swap c1 c2 p : left_of c2 c1 p = - left_of c1 c2 p.
Proof. unfold left_of. ring. Qed.

(** the middle of the clockwise arc from the angle e to the angle f *)
Lemma chord_apex cx cy r e f d tx ty : 0 < r -> 0 < d -> f <= e <= f + 2 * PI -> tx * tx + ty * ty = 1 ->
  circle_point cx cy r f = (fst (circle_point cx cy r e) + d * tx, snd (circle_point cx cy r e) + d * ty) ->
  circle_point cx cy r ((e + f) / 2) = (cx - r * ty, cy + r * tx).
Proof.
  intros R D L T E. set (m := (e + f) / 2). set (h := (e - f) / 2). unfold circle_point in E. cbn [fst snd] in E. injection E as E1 E2.
  replace e with (m + h) in E1, E2 by (unfold m, h; lra). replace f with (m - h) in E1, E2 by (unfold m, h; lra).
  rewrite cos_minus, cos_plus in E1. rewrite sin_minus, sin_plus in E2.
  assert (S : 0 <= sin h) by (apply sin_ge_0; unfold h; lra). pose proof (trig m) as M.
  assert (X : d * tx = 2 * r * sin h * sin m) by lra. assert (Y : d * ty = - (2 * r * sin h * cos m)) by lra.
  assert (DD : d = 2 * r * sin h).
  { assert (Q : d * d = (2 * r * sin h) * (2 * r * sin h)).
    { replace (d * d) with (d * d * (tx * tx + ty * ty)) by (rewrite T; ring). replace (d * d * (tx * tx + ty * ty)) with (d * tx * (d * tx) + d * ty * (d * ty)) by ring.
      rewrite X, Y. replace (2 * r * sin h * sin m * (2 * r * sin h * sin m) + - (2 * r * sin h * cos m) * - (2 * r * sin h * cos m)) with (2 * r * sin h * (2 * r * sin h) * (cos m * cos m + sin m * sin m)) by ring.
      rewrite M. ring. }
    assert (P : 0 <= 2 * r * sin h) by (apply Rmult_le_pos; [lra|exact S]). nra. }
  assert (TX : tx = sin m) by (apply (Rmult_eq_reg_l d); [rewrite X, DD; ring|lra]).
  assert (TY : ty = - cos m) by (apply (Rmult_eq_reg_l d); [rewrite Y, DD; ring|lra]).
  unfold circle_point. rewrite TX, TY. f_equal; ring.
Qed.

(** ** The arc *)
Lemma arc_ends a1 a2 : - PI <= a1 <= PI -> - PI <= a2 <= PI -> forall e, arc_end a1 a2 e -> a1 <= e <= a1 + 2 * PI /\ cos e = cos a2 /\ sin e = sin a2.
Proof.
  intros R1 R2 e [[H ->]|(H & [k ->] & L)]; [repeat split; lra|]. split; [lra|]. split; [apply cos_turn|apply sin_turn].
Qed.
Lemma arc_end_ex a1 a2 : exists e, arc_end a1 a2 e.
Proof. destruct (Rle_dec a1 a2) as [L|L]; [exists a2; left; auto|]. destruct (next_end a1 a2) as (k & _ & K); [lra|]. exists (a2 + IZR k * (2 * PI)). right. split; [lra|]. split; [exists k; reflexivity|exact K]. Qed.

Section Arc.
Variables (x1 y1 d tx ty b : R).
Hypothesis D : 0 < d. Hypothesis T : tx * tx + ty * ty = 1. Hypothesis Bnz : b <> 0.
Let x2 := x1 + d * tx. Let y2 := y1 + d * ty.
Let radius := Rabs (0.5 * (b + 0.25 * (d * d) / b)).
Let centerdist := RootsModel.sign b * (radius - Rabs b).
Let cx := 0.5 * (x1 + x2) + ty * centerdist. Let cy := 0.5 * (y1 + y2) - tx * centerdist.
Let s := if Rlt_dec 0 b then CArcn (x1, y1) cx cy radius (degrees (atan2 (y1 - cy) (x1 - cx))) (degrees (atan2 (y2 - cy) (x2 - cx)))
         else CArc (x1, y1) cx cy radius (degrees (atan2 (y1 - cy) (x1 - cx))) (degrees (atan2 (y2 - cy) (x2 - cx))).

Lemma radius_facts : 0 < radius /\ centerdist * centerdist + d * d / 4 = radius * radius /\
  ((0 < b /\ centerdist = radius - b) \/ (b < 0 /\ centerdist = - radius - b)).
Proof.
  unfold centerdist, RootsModel.sign. destruct (Rge_dec b 0) as [G|G].
  - assert (P : 0 < b) by lra. assert (V : radius = 0.5 * (b + 0.25 * (d * d) / b)).
    { unfold radius. apply Rabs_pos_eq. assert (0 < 0.25 * (d * d) / b) by (apply Rdiv_lt_0_compat; [nra|exact P]). lra. }
    rewrite (Rabs_pos_eq b) by lra. assert (0 < 0.25 * (d * d) / b) by (apply Rdiv_lt_0_compat; [nra|exact P]).
    split; [lra|]. split; [|left; split; lra]. rewrite V. replace 0.5 with (/ 2) by lra. replace 0.25 with (/ 4) by lra. field. lra.
  - assert (P : 0 < - b) by lra. assert (Q : 0 < 0.25 * (d * d) / - b) by (apply Rdiv_lt_0_compat; [nra|exact P]).
    assert (E : 0.25 * (d * d) / - b = - (0.25 * (d * d) / b)) by (replace 0.25 with (/ 4) by lra; field; lra).
    assert (V : radius = - (0.5 * (b + 0.25 * (d * d) / b))) by (unfold radius; apply Rabs_left; lra).
    rewrite (Rabs_left b) by lra. split; [lra|]. split; [|right; split; lra]. rewrite V. replace 0.5 with (/ 2) by lra. replace 0.25 with (/ 4) by lra. field. lra.
Qed.
Lemma to_center : hypot (x1 - cx) (y1 - cy) = radius /\ hypot (x2 - cx) (y2 - cy) = radius.
Proof.
  destruct radius_facts as (R & Q & _). unfold hypot. split; (rewrite <- (sqrt_square radius) by lra); f_equal; rewrite <- Q; unfold cx, cy, x2, y2.
  - replace ((x1 - (0.5 * (x1 + (x1 + d * tx)) + ty * centerdist)) * (x1 - (0.5 * (x1 + (x1 + d * tx)) + ty * centerdist)) +
      (y1 - (0.5 * (y1 + (y1 + d * ty)) - tx * centerdist)) * (y1 - (0.5 * (y1 + (y1 + d * ty)) - tx * centerdist)))
      with ((centerdist * centerdist + d * d / 4) * (tx * tx + ty * ty)) by lra. rewrite T. ring.
  - replace ((x1 + d * tx - (0.5 * (x1 + (x1 + d * tx)) + ty * centerdist)) * (x1 + d * tx - (0.5 * (x1 + (x1 + d * tx)) + ty * centerdist)) +
      (y1 + d * ty - (0.5 * (y1 + (y1 + d * ty)) - tx * centerdist)) * (y1 + d * ty - (0.5 * (y1 + (y1 + d * ty)) - tx * centerdist)))
      with ((centerdist * centerdist + d * d / 4) * (tx * tx + ty * ty)) by lra. rewrite T. ring.
Qed.
Let a1 := atan2 (y1 - cy) (x1 - cx). Let a2 := atan2 (y2 - cy) (x2 - cx).
Lemma angle1 : cos a1 = (x1 - cx) / radius /\ sin a1 = (y1 - cy) / radius.
Proof. destruct radius_facts as (R & _). destruct to_center as [H _]. unfold a1. rewrite <- H. apply cos_sin_atan2. lra. Qed.
Lemma angle2 : cos a2 = (x2 - cx) / radius /\ sin a2 = (y2 - cy) / radius.
Proof. destruct radius_facts as (R & _). destruct to_center as [_ H]. unfold a2. rewrite <- H. apply cos_sin_atan2. lra. Qed.
Lemma point1 e : cos e = cos a1 -> sin e = sin a1 -> circle_point cx cy radius e = (x1, y1).
Proof. destruct radius_facts as (R & _). destruct angle1 as [C S]. intros E1 E2. unfold circle_point. rewrite E1, E2, C, S. f_equal; field; lra. Qed.
Lemma point2 e : cos e = cos a2 -> sin e = sin a2 -> circle_point cx cy radius e = (x2, y2).
Proof. destruct radius_facts as (R & _). destruct angle2 as [C S]. intros E1 E2. unfold circle_point. rewrite E1, E2, C, S. f_equal; field; lra. Qed.

Lemma arc_goes : goes s (x1, y1) (x2, y2).
Proof.
  unfold s. destruct (Rlt_dec 0 b); cbn [goes]; rewrite !rad_degrees; (split; [reflexivity|]); split; apply point1 || apply point2; reflexivity.
Qed.
(** left_of for points of the circle *)
Lemma left_circle phi : left_of (x1, y1) (x2, y2) (circle_point cx cy radius phi) = d * (radius * (tx * sin phi - ty * cos phi) - centerdist).
Proof.
  unfold left_of, circle_point, cx, cy, x2, y2. cbn [fst snd].
  replace (d * (radius * (tx * sin phi - ty * cos phi) - centerdist)) with (d * (radius * (tx * sin phi - ty * cos phi) - centerdist * (tx * tx + ty * ty))) by (rewrite T; ring). lra.
Qed.
Lemma unit_dot phi : -1 <= tx * sin phi - ty * cos phi <= 1.
Proof.
  pose proof (trig phi) as Q. pose proof (Rle_0_sqr (tx - sin phi)) as S1. pose proof (Rle_0_sqr (ty + cos phi)) as S2.
  pose proof (Rle_0_sqr (tx + sin phi)) as S3. pose proof (Rle_0_sqr (ty - cos phi)) as S4. unfold Rsqr in *. lra.
Qed.
Lemma arc_within p : draws s p -> (0 < b -> 0 <= left_of (x1, y1) (x2, y2) p <= b * d) /\ (b < 0 -> b * d <= left_of (x1, y1) (x2, y2) p <= 0).
Proof.
  destruct radius_facts as (R & Q & CD). pose proof (SvgArcProps3.atan2_range (y1 - cy) (x1 - cx)) as A1. pose proof (SvgArcProps3.atan2_range (y2 - cy) (x2 - cx)) as A2.
  unfold s. destruct (Rlt_dec 0 b) as [P|P]; cbn [draws]; intros (e & phi & E & L & ->); rewrite !rad_degrees in *.
  - split; [intros _|lra]. destruct CD as [[_ CD]|[N _]]; [|lra]. destruct (arc_ends _ _ A2 A1 e E) as (LE & CE & SE). split.
    + rewrite <- (point1 e CE SE), <- (point2 a2 eq_refl eq_refl). apply chord_side_pos; [exact L|]. unfold a2. lra.
    + rewrite left_circle. pose proof (unit_dot phi). assert (radius * (tx * sin phi - ty * cos phi) <= radius * 1) by (apply Rmult_le_compat_l; lra).
      rewrite (Rmult_comm b). apply Rmult_le_compat_l; lra.
  - split; [lra|]. intros N. destruct CD as [[N' _]|[_ CD]]; [lra|]. destruct (arc_ends _ _ A1 A2 e E) as (LE & CE & SE). split.
    + rewrite left_circle. pose proof (unit_dot phi). assert (radius * -1 <= radius * (tx * sin phi - ty * cos phi)) by (apply Rmult_le_compat_l; lra).
      rewrite (Rmult_comm b). apply Rmult_le_compat_l; lra.
    + assert (0 <= left_of (x2, y2) (x1, y1) (circle_point cx cy radius phi)); [|rewrite left_swap in H; lra].
      rewrite <- (point2 e CE SE), <- (point1 a1 eq_refl eq_refl). apply chord_side_pos; [exact L|]. unfold a1. lra.
Qed.
Lemma arc_apex : draws s (0.5 * (x1 + x2) - b * ty, 0.5 * (y1 + y2) + b * tx).
Proof.
  destruct radius_facts as (R & Q & CD). pose proof (SvgArcProps3.atan2_range (y1 - cy) (x1 - cx)) as A1. pose proof (SvgArcProps3.atan2_range (y2 - cy) (x2 - cx)) as A2.
  unfold s. destruct (Rlt_dec 0 b) as [P|P]; cbn [draws]; unfold on_arc; rewrite !rad_degrees.
  - destruct CD as [[_ CD]|[N _]]; [|lra]. destruct (arc_end_ex (atan2 (y2 - cy) (x2 - cx)) (atan2 (y1 - cy) (x1 - cx))) as [e E].
    destruct (arc_ends _ _ A2 A1 e E) as (LE & CE & SE). exists e, ((e + a2) / 2). split; [exact E|]. split; [unfold a2; lra|].
    rewrite (chord_apex cx cy radius e a2 d tx ty R D); [|unfold a2; lra|exact T|].
    + unfold cx, cy. rewrite CD. f_equal; lra.
    + rewrite (point1 e CE SE), (point2 a2 eq_refl eq_refl). reflexivity.
  - destruct CD as [[N' _]|[_ CD]]; [lra|]. destruct (arc_end_ex (atan2 (y1 - cy) (x1 - cx)) (atan2 (y2 - cy) (x2 - cx))) as [e E].
    destruct (arc_ends _ _ A1 A2 e E) as (LE & CE & SE). exists e, ((e + a1) / 2). split; [exact E|]. split; [unfold a1; lra|].
    rewrite (chord_apex cx cy radius e a1 d (- tx) (- ty) R D); [|unfold a1; lra|lra|].
    + unfold cx, cy. rewrite CD. f_equal; lra.
    + rewrite (point2 e CE SE), (point1 a1 eq_refl eq_refl). cbn [fst snd]. unfold x2, y2. f_equal; lra.
Qed.
(** directions at both ends *)
Lemma arc_directions alpha : cos alpha = RootsModel.sign b * centerdist / radius -> sin alpha = RootsModel.sign b * d / (2 * radius) ->
  forall dangle, tx = cos dangle -> ty = sin dangle -> begins_at s (dangle + alpha) /\ ends_at s (dangle - alpha).
Proof.
  destruct radius_facts as (R & Q & CD). intros CA SA dangle TX TY. destruct angle1 as [C1 S1]. destruct angle2 as [C2 S2]. fold a1 a2 in s.
  assert (K : forall u v, u * radius = v * radius -> u = v) by (intros u v H; apply (Rmult_eq_reg_r radius); [exact H|lra]).
  assert (X1 : x1 - cx = - (d * tx / 2) - ty * centerdist) by (unfold cx, x2; lra).
  assert (Y1 : y1 - cy = - (d * ty / 2) + tx * centerdist) by (unfold cy, y2; lra).
  assert (X2 : x2 - cx = d * tx / 2 - ty * centerdist) by (unfold cx, x2; lra).
  assert (Y2 : y2 - cy = d * ty / 2 + tx * centerdist) by (unfold cy, y2; lra).
  unfold s. unfold RootsModel.sign in CA, SA. destruct (Rlt_dec 0 b) as [P|P]; cbn [begins_at ends_at]; rewrite !rad_degrees;
    rewrite C1, S1, C2, S2, cos_plus, sin_plus, cos_minus, sin_minus, CA, SA, <- TX, <- TY, X1, X2, Y1, Y2; destruct (Rge_dec b 0) as [G|G]; try lra;
    split; f_equal; field; lra.
Qed.
End Arc.

(** ** The connectors *)
Lemma distance_hypot x1 y1 x2 y2 : distance (x1, y1) (x2, y2) = hypot (x2 - x1) (y2 - y1).
Proof. unfold distance, hypot. cbn [fst snd]. f_equal. ring. Qed.
Lemma distance_pos p q : p <> q -> 0 < distance p q.
Proof.
  intros N. unfold distance. apply sqrt_lt_R0. destruct (Req_dec (fst p) (fst q)) as [E|E].
  - assert (snd p <> snd q) by (intros E'; apply N; destruct p, q; cbn in *; congruence).
    pose proof (Rsqr_pos_lt (snd p - snd q) ltac:(lra)). pose proof (Rle_0_sqr (fst p - fst q)). unfold Rsqr in *. lra.
  - pose proof (Rsqr_pos_lt (fst p - fst q) ltac:(lra)). pose proof (Rle_0_sqr (snd p - snd q)). unfold Rsqr in *. lra.
Qed.
Lemma tangent_unit x1 y1 x2 y2 : 0 < hypot (x2 - x1) (y2 - y1) ->
  let d := hypot (x2 - x1) (y2 - y1) in (x2 - x1) / d * ((x2 - x1) / d) + (y2 - y1) / d * ((y2 - y1) / d) = 1.
Proof.
  intros H d. assert (E : d * d = (x2 - x1) * (x2 - x1) + (y2 - y1) * (y2 - y1)).
  { unfold d, hypot. apply sqrt_sqrt. apply (Rplus_le_le_0_compat _ _ (Rle_0_sqr _) (Rle_0_sqr _)). }
  field_simplify_eq; [|fold d in H; lra]. lra.
Qed.

(** the bulge which is asked for: the given ones are added; without any the one which belongs to the angle *)
Definition bulge_is (d relangle : R) (absbulge relbulge : option R) (b : R) : Prop :=
  match absbulge, relbulge with
  | Some a, Some r => b = a + r * d
  | Some a, None => b = a
  | None, Some r => b = r * d
  | None, None => b = d / 2 * tan (rad relangle / 2)
  end.

(** The arc goes from center to center, on the left side for positive bulges, and its largest distance from the straight line is the bulge *)
Theorem arc_connector : forall epsilon c1 c2 relangle absbulge relbulge b, 0 < epsilon -> c1 <> c2 ->
  bulge_is (distance c1 c2) relangle absbulge relbulge b ->
  let s := arc epsilon c1 c2 relangle absbulge relbulge in
  goes s c1 c2 /\
  (Rabs b < epsilon -> s = Straight c1 c2) /\
  (epsilon <= Rabs b ->
    (0 < b -> forall p, draws s p -> 0 <= left_of c1 c2 p <= b * distance c1 c2) /\
    (b < 0 -> forall p, draws s p -> b * distance c1 c2 <= left_of c1 c2 p <= 0) /\
    exists p, draws s p /\ left_of c1 c2 p = b * distance c1 c2 /\ distance c1 p = distance c2 p).
Proof.
  intros eps [x1 y1] [x2 y2] rel ab rb b E N BI s. pose proof (distance_pos _ _ N) as D.
  assert (BB : bulge (hypot (x2 - x1) (y2 - y1)) rel ab rb = b).
  { unfold bulge. rewrite <- distance_hypot. unfold bulge_is in BI. destruct ab, rb; subst b; try lra.
    replace (0.5 * radians rel) with (rad rel / 2) by (unfold radians, TrafoModel.radians, rad; lra). lra. }
  rewrite distance_hypot in *. unfold s, arc. cbv zeta. rewrite BB. destruct (Rlt_dec (Rabs b) eps) as [L|L].
  - split; [cbn; auto|]. split; [auto|lra].
  - assert (NZ : b <> 0) by (intros ->; rewrite Rabs_R0 in L; lra).
    set (d := hypot (x2 - x1) (y2 - y1)) in *. pose proof (tangent_unit x1 y1 x2 y2 D) as T. cbv zeta in T. fold d in T. set (tx := (x2 - x1) / d) in *. set (ty := (y2 - y1) / d) in *.
    assert (X2 : x2 = x1 + d * tx) by (unfold tx; field; lra). assert (Y2 : y2 = y1 + d * ty) by (unfold ty; field; lra).
    pose proof (arc_goes x1 y1 d tx ty b D T NZ) as G. pose proof (arc_within x1 y1 d tx ty b D T NZ) as W. pose proof (arc_apex x1 y1 d tx ty b D T NZ) as A.
    cbv zeta in G, W, A. rewrite <- X2, <- Y2 in G, W, A. split; [exact G|]. split; [lra|]. intros _. split; [intros P p HP; apply (proj1 (W p HP) P)|]. split; [intros P p HP; apply (proj2 (W p HP) P)|].
    eexists. split; [exact A|]. split.
    + unfold left_of. cbn [fst snd]. rewrite X2, Y2. transitivity (b * d * (tx * tx + ty * ty)); [lra|rewrite T; ring].
    + unfold distance. cbn [fst snd]. f_equal. rewrite X2, Y2. lra.
Qed.
Print Assumptions arc_connector.

(** An arc with a bulge of 5 over a distance of 10 is half a circle *)
Example arc_connector_ex : exists s, s = arc (1 / 100000) (0, 0) (10, 0) 45 (Some 5) None /\ draws s (5, 5).
Proof.
  eexists. split; [reflexivity|].
  destruct (arc_connector (1 / 100000) (0, 0) (10, 0) 45 (Some 5) None 5) as (G & _ & H); [lra|intros E; injection E; lra|reflexivity|].
  rewrite Rabs_pos_eq in H by lra. destruct H as (_ & _ & [x y] & DP & L & E); [lra|].
  assert (DD : distance (0, 0) (10, 0) = 10).
  { unfold distance. cbn [fst snd]. replace ((0 - 10) ^ 2 + (0 - 0) ^ 2) with (10 * 10) by ring. apply sqrt_square. lra. }
  rewrite DD in L. unfold left_of in L. cbn [fst snd] in L. assert (Y : y = 5) by lra. unfold distance in E. cbn [fst snd] in E.
  apply sqrt_inj in E; try (apply Rplus_le_le_0_compat; apply pow2_ge_0). assert (X : x = 5) by nra. subst. exact DP.
Qed.

(** At both ends the arc has the angle relangle with the straight line *)
Theorem arc_angle : forall epsilon c1 c2 relangle dangle, 0 < epsilon -> c1 <> c2 -> -180 < relangle < 180 ->
  c2 = (fst c1 + distance c1 c2 * cos dangle, snd c1 + distance c1 c2 * sin dangle) ->
  let s := arc epsilon c1 c2 relangle None None in
  epsilon <= Rabs (distance c1 c2 / 2 * tan (rad relangle / 2)) ->
  begins_at s (dangle + rad relangle) /\ ends_at s (dangle - rad relangle).
Proof.
  intros eps [x1 y1] [x2 y2] rel dangle E N RG DA s L. pose proof (distance_pos _ _ N) as D. cbn [fst snd] in DA. injection DA as DX DY.
  set (b := distance (x1, y1) (x2, y2) / 2 * tan (rad rel / 2)) in *.
  assert (BB : bulge (hypot (x2 - x1) (y2 - y1)) rel None None = b).
  { unfold bulge, b. rewrite <- distance_hypot. replace (0.5 * radians rel) with (rad rel / 2) by (unfold radians, TrafoModel.radians, rad; lra). lra. }
  unfold s, arc. cbv zeta. rewrite BB. destruct (Rlt_dec (Rabs b) eps) as [L'|L']; [lra|].
  assert (NZ : b <> 0) by (intros Z; rewrite Z, Rabs_R0 in L; lra). rewrite distance_hypot in *.
  set (d := hypot (x2 - x1) (y2 - y1)) in *. pose proof (tangent_unit x1 y1 x2 y2 D) as T. cbv zeta in T. fold d in T. set (tx := (x2 - x1) / d) in *. set (ty := (y2 - y1) / d) in *.
  assert (X2 : x2 = x1 + d * tx) by (unfold tx; field; lra). assert (Y2 : y2 = y1 + d * ty) by (unfold ty; field; lra).
  pose proof (arc_directions x1 y1 d tx ty b D T NZ (rad rel)) as A. cbv zeta in A. rewrite <- X2, <- Y2 in A. fold d in DX, DY.
  assert (TX : tx = cos dangle) by (apply (Rmult_eq_reg_l d); lra). assert (TY : ty = sin dangle) by (apply (Rmult_eq_reg_l d); lra).
  destruct (radius_facts d b D NZ) as (RP & _ & CD). cbv zeta in *. set (r := Rabs (0.5 * (b + 0.25 * (d * d) / b))) in *.
  set (beta := rad rel / 2) in *. assert (AL : rad rel = beta + beta) by (unfold beta; lra).
  assert (BR : - (PI / 2) < beta < PI / 2) by (unfold beta, rad; pose proof PI_RGT_0; split; nra).
  pose proof (cos_gt_0 beta (proj1 BR) (proj2 BR)) as CP. pose proof (trig beta) as TR.
  assert (BV : b = d * sin beta / (2 * cos beta)) by (unfold b, tan; rewrite distance_hypot; fold d; fold beta; field; lra).
  assert (SN : sin beta <> 0) by (intros Z; apply NZ; rewrite BV, Z; field; lra).
  assert (SUM : 0.5 * (b + 0.25 * (d * d) / b) = d / (4 * sin beta * cos beta)).
  { rewrite BV. replace 0.5 with (/ 2) by lra. replace 0.25 with (/ 4) by lra. transitivity (d * (cos beta * cos beta + sin beta * sin beta) / (4 * sin beta * cos beta)); [field; repeat split; lra|rewrite TR; field; split; lra]. }
  assert (BR' : b * (4 * sin beta * cos beta) = 2 * d * (sin beta * sin beta)) by (rewrite BV; field; lra).
  apply A; [| |exact TX|exact TY]; rewrite AL.
  - rewrite cos_plus. destruct CD as [[P CD]|[P CD]].
    + assert (SP : 0 < sin beta) by (destruct (Rlt_dec 0 (sin beta)); [assumption|]; exfalso; assert (sin beta < 0) by lra; assert (0 < 4 * sin beta * cos beta \/ 4 * sin beta * cos beta < 0) by nra; nra).
      assert (RV : r = d / (4 * sin beta * cos beta)) by (unfold r; rewrite SUM; apply Rabs_pos_eq; apply Rlt_le, Rdiv_lt_0_compat; [exact D|nra]).
      rewrite CD. unfold RootsModel.sign. destruct (Rge_dec b 0); [|lra]. apply (Rmult_eq_reg_r r); [|lra]. replace (1 * (r - b) / r * r) with (r - b) by (field; lra).
      assert (BS : b = 2 * (sin beta * sin beta) * r) by (rewrite RV, BV; field; split; lra). rewrite BS at 1.
      replace (cos beta * cos beta) with (1 - sin beta * sin beta) by lra. ring.
    + assert (SP : sin beta < 0) by (destruct (Rlt_dec (sin beta) 0); [assumption|]; exfalso; assert (0 < sin beta) by lra; pose proof (Rdiv_lt_0_compat (d * sin beta) (2 * cos beta) ltac:(apply Rmult_lt_0_compat; assumption) ltac:(lra)); lra).
      assert (RV : r = - (d / (4 * sin beta * cos beta))).
      { unfold r. rewrite SUM. apply Rabs_left. replace (d / (4 * sin beta * cos beta)) with (- (d / (4 * - sin beta * cos beta))) by (field; lra).
        assert (0 < d / (4 * - sin beta * cos beta)) by (apply Rdiv_lt_0_compat; [exact D|nra]). lra. }
      rewrite CD. unfold RootsModel.sign. destruct (Rge_dec b 0); [lra|]. apply (Rmult_eq_reg_r r); [|lra]. replace (-1 * (- r - b) / r * r) with (r + b) by (field; lra).
      assert (BS : b = - (2 * (sin beta * sin beta) * r)) by (rewrite RV, BV; field; split; lra). rewrite BS at 1.
      replace (cos beta * cos beta) with (1 - sin beta * sin beta) by lra. ring.
  - rewrite sin_plus. destruct CD as [[P CD]|[P CD]].
    + assert (SP : 0 < sin beta) by (destruct (Rlt_dec 0 (sin beta)); [assumption|]; exfalso; assert (sin beta < 0) by lra; pose proof (Rdiv_lt_0_compat (d * - sin beta) (2 * cos beta) ltac:(apply Rmult_lt_0_compat; lra) ltac:(lra)); assert (d * - sin beta / (2 * cos beta) = - (d * sin beta / (2 * cos beta))) by (field; lra); lra).
      assert (RV : r = d / (4 * sin beta * cos beta)) by (unfold r; rewrite SUM; apply Rabs_pos_eq; apply Rlt_le, Rdiv_lt_0_compat; [exact D|nra]).
      unfold RootsModel.sign. destruct (Rge_dec b 0); [|lra]. rewrite RV. field. repeat split; lra.
    + assert (SP : sin beta < 0) by (destruct (Rlt_dec (sin beta) 0); [assumption|]; exfalso; assert (0 < sin beta) by lra; pose proof (Rdiv_lt_0_compat (d * sin beta) (2 * cos beta) ltac:(apply Rmult_lt_0_compat; assumption) ltac:(lra)); lra).
      assert (RV : r = - (d / (4 * sin beta * cos beta))).
      { unfold r. rewrite SUM. apply Rabs_left. replace (d / (4 * sin beta * cos beta)) with (- (d / (4 * - sin beta * cos beta))) by (field; lra).
        assert (0 < d / (4 * - sin beta * cos beta)) by (apply Rdiv_lt_0_compat; [exact D|nra]). lra. }
      unfold RootsModel.sign. destruct (Rge_dec b 0); [lra|]. rewrite RV. field. repeat split; lra.
Qed.
Print Assumptions arc_angle.
