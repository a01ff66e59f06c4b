(** C83: the arcs written to SVG are those of the path.  C84: tangent arcs. *)
From Coq Require Import Reals Bool List ZArith Lra Lia.
From Verif Require Import TrafoModel BboxModel CurveModel CurveProofs CurveProofs2 CurveProofs3 CurveProofs4 ArcModel ArcSpec ArcProofs ArcProps PathModel PathSpec PathArcSpec.
Import ListNotations.
Open Scope R_scope.

Local Notation pt := (R * R)%type.

Lemma floor_range x : IZR (floor x) <= x < IZR (floor x) + 1.
Proof. unfold floor. pose proof (base_Int_part x) as [A B]. lra. Qed.

Lemma svg_turn_stop a1 a2 : arc_stop a1 a2 (svg_turn a1 a2).
Proof.
  unfold arc_stop, svg_turn, turns. destruct (ltb a2 a1) eqn:L.
  - apply ltb_true in L. set (k := floor ((a1 - a2) / 360)). pose proof (floor_range ((a1 - a2) / 360)) as F. fold k in F.
    split; [exists (k + 1)%Z; rewrite plus_IZR; lra|]. repeat split; try lra.
  - apply ltb_false in L. destruct (ltb (a1 + 360) a2) eqn:M.
    + apply ltb_true in M. set (k := floor ((a2 - a1) / 360)). pose proof (floor_range ((a2 - a1) / 360)) as F. fold k in F.
      split; [exists (- (k - 1))%Z; rewrite opp_IZR, minus_IZR; lra|]. repeat split; try lra.
    + apply ltb_false in M. split; [exists 0%Z; lra|]. repeat split; try lra.
Qed.
Lemma stop_distinct a1 a2 e : arc_stop a1 a2 e -> a1 <> a2 -> a1 < e.
Proof. intros [T [A [B C]]] N. destruct (Rtotal_order a1 a2) as [H|[H|H]]; [|congruence|]; destruct (Rle_dec a2 (a1 + 360)); lra. Qed.

Definition at_angle (c : pt) (r a : R) : pt := circle_point (fst c) (snd c) r a.

(** equal pieces along a circle *)
Lemma pieces_along c r a d (P : R -> pt) (large sweep : bool) :
  (forall t, P t = at_angle c r (a + t * d)) ->
  (if sweep then 0 < d < 2 * PI else - (2 * PI) < d < 0) -> (large = true <-> PI < Rabs d) ->
  forall m k, arcs_along r (P (INR k)) c (a + INR k * d)
    (map (fun i => OA r large sweep (P (INR i + 1))) (seq k m)) (a + INR (k + m) * d).
Proof.
  intros HP D L m. induction m as [|m IH]; intros k.
  - cbn. rewrite Nat.add_0_r. reflexivity.
  - cbn [seq map arcs_along]. split; [reflexivity|]. exists (a + INR (S k) * d). rewrite <- S_INR. split.
    + unfold svg_arc. rewrite !HP. split; [reflexivity|]. split; [reflexivity|]. rewrite S_INR.
      replace (a + (INR k + 1) * d - (a + INR k * d)) with d by ring. split; [|exact L].
      destruct sweep; nra.
    + replace (k + S m)%nat with (S k + m)%nat by lia. apply (IH (S k)).
Qed.

Lemma radians_rad a : radians a = rad a. Proof. unfold radians, rad. field. Qed.
Lemma flip_arcpoint x y r a : flip true (arcpoint x y r a) = at_angle (x, - y) r (- rad a).
Proof.
  unfold flip, arcpoint, at_angle, circle_point. cbn. rewrite radians_rad, cos_neg, sin_neg. f_equal. ring.
Qed.

Lemma piece_count D : 0 < D -> let n := (floor (D / 350) + 1)%Z in (1 <= n)%Z /\ 0 < D / IZR n < 350.
Proof.
  intros H n. pose proof (floor_range (D / 350)) as F. assert (0 <= D / 350) by lra.
  assert (Hn : (1 <= n)%Z).
  { unfold n. assert (0 <= floor (D / 350))%Z; [|lia]. apply le_IZR. pose proof (proj2 F).
    destruct (Z_le_gt_dec 0 (floor (D / 350))) as [G|G]; [now apply IZR_le|].
    assert (G' : (floor (D / 350) <= -1)%Z) by lia. apply IZR_le in G'. lra. }
  split; [exact Hn|]. apply IZR_le in Hn. unfold n in *. rewrite plus_IZR in *. split.
  - apply Rdiv_lt_0_compat; lra.
  - apply Rmult_lt_reg_r with (IZR (floor (D / 350)) + 1); [lra|]. unfold Rdiv at 1. rewrite Rmult_assoc, Rinv_l by lra. lra.
Qed.
Lemma ltb_iff x y : ltb x y = true <-> x < y. Proof. split; [apply ltb_true|]. intros H. unfold ltb. destruct (Rlt_dec x y); [reflexivity|lra]. Qed.

(** C83: an arc of positive radius is written to SVG as a line (or a move, for the first item)
    to its start and arcs along the circle upside down, from its start to its end. *)
Theorem svg_arc_written : forall first c x y r a1 a2, 0 < r -> a1 <> a2 ->
  exists ops c' e, item_svg true first c (Arc x y r a1 a2) = Some (((if first then Omove else Oline) (mirror_pt (circle_point x y r (rad a1)))) :: ops, c') /\
    arc_stop a1 a2 e /\ arcs_along r (mirror_pt (circle_point x y r (rad a1))) (x, - y) (- rad a1) ops (- rad e).
Proof.
  intros first c x y r a1 a2 Hr Ha. cbn [item_svg item_svg_simple]. set (e := svg_turn a1 a2).
  pose proof (svg_turn_stop a1 a2) as S. fold e in S. pose proof (stop_distinct _ _ _ S Ha) as Le.
  destruct (piece_count (e - a1) ltac:(lra)) as [Hn B]. set (n := (floor ((e - a1) / 350) + 1)%Z) in *.
  eexists _, _, e. split; [|split; [exact S|]].
  - f_equal. apply f_equal2; [|reflexivity]. apply f_equal2; [|reflexivity].
    replace (flip true (arcpoint x y r a1)) with (mirror_pt (circle_point x y r (rad a1)))
      by (unfold flip, arcpoint; rewrite radians_rad; reflexivity).
    destruct first; reflexivity.
  - assert (N : INR (Z.to_nat n) = IZR n) by (rewrite INR_IZR_INZ, Z2Nat.id by lia; reflexivity).
    assert (Np : 1 <= IZR n) by now apply IZR_le in Hn.
    set (d := - rad ((e - a1) / IZR n)).
    set (P := fun t => flip true (arcpoint x y r (a1 + t * (e - a1) / IZR n))).
    pose proof PI_RGT_0 as Pi. set (q := (e - a1) / IZR n) in *.
    assert (Dr : d = - (q * PI / 180)) by reflexivity.
    assert (D1 : - (2 * PI) < d < 0) by (rewrite Dr; split; nra).
    assert (D2 : ltb 180 q = true <-> PI < Rabs d).
    { rewrite ltb_iff, Rabs_left, Dr by lra. split; intros; nra. }
    assert (HP : forall t, P t = at_angle (x, - y) r (- rad a1 + t * d)).
    { intros t. unfold P. rewrite flip_arcpoint. f_equal. rewrite Dr. unfold q, rad. field. lra. }
    pose proof (pieces_along (x, - y) r (- rad a1) d P (ltb 180 q) false HP D1 D2 (Z.to_nat n) 0) as G.
    cbn [Nat.add] in G. rewrite N in G.
    replace (P (INR 0)) with (mirror_pt (circle_point x y r (rad a1))) in G.
    2:{ rewrite HP. cbn [INR]. rewrite Rmult_0_l, Rplus_0_r. unfold at_angle, circle_point, mirror_pt. cbn. rewrite cos_neg, sin_neg. f_equal. ring. }
    replace (- rad a1 + INR 0 * d) with (- rad a1) in G by (cbn [INR]; ring).
    replace (- rad a1 + IZR n * d) with (- rad e) in G by (rewrite Dr; unfold q, rad; field; lra).
    exact G.
Qed.

(** C83: the same for a clockwise arc; the start of the arc may be given by an angle which differs by
    whole turns. *)
Theorem svg_arcn_written : forall first c x y r a1 a2, 0 < r -> a1 <> a2 ->
  exists ops c' s, item_svg true first c (Arcn x y r a1 a2) = Some (((if first then Omove else Oline) (mirror_pt (circle_point x y r (rad a1)))) :: ops, c') /\
    arc_stop a2 a1 s /\ arcs_along r (mirror_pt (circle_point x y r (rad a1))) (x, - y) (- rad s) ops (- rad a2).
Proof.
  intros first c x y r a1 a2 Hr Ha. cbn [item_svg item_svg_simple]. set (s := svg_turn a2 a1).
  pose proof (svg_turn_stop a2 a1) as S. fold s in S. pose proof (stop_distinct _ _ _ S (not_eq_sym Ha)) as Le.
  destruct (piece_count (s - a2) ltac:(lra)) as [Hn B]. set (n := (floor ((s - a2) / 350) + 1)%Z) in *.
  assert (St : circle_point x y r (rad s) = circle_point x y r (rad a1)).
  { destruct S as [[k ->] _]. replace (rad (a1 + IZR k * 360)) with (rad a1 + IZR k * (2 * PI)) by (unfold rad; field).
    unfold circle_point. now rewrite cos_turn, sin_turn. }
  eexists _, _, s. split; [|split; [exact S|]].
  - f_equal. apply f_equal2; [|reflexivity]. apply f_equal2; [|reflexivity].
    replace (flip true (arcpoint x y r a1)) with (mirror_pt (circle_point x y r (rad a1)))
      by (unfold flip, arcpoint; rewrite radians_rad; reflexivity).
    destruct first; reflexivity.
  - assert (N : INR (Z.to_nat n) = IZR n) by (rewrite INR_IZR_INZ, Z2Nat.id by lia; reflexivity).
    assert (Np : 1 <= IZR n) by now apply IZR_le in Hn.
    set (q := (s - a2) / IZR n) in *. set (d := rad q).
    set (P := fun t => flip true (arcpoint x y r (s + t * (a2 - s) / IZR n))).
    pose proof PI_RGT_0 as Pi.
    assert (Dr : d = q * PI / 180) by reflexivity.
    assert (D1 : 0 < d < 2 * PI) by (rewrite Dr; split; nra).
    assert (D2 : ltb 180 q = true <-> PI < Rabs d).
    { rewrite ltb_iff, Rabs_right, Dr by lra. split; intros; nra. }
    assert (HP : forall t, P t = at_angle (x, - y) r (- rad s + t * d)).
    { intros t. unfold P. rewrite flip_arcpoint. f_equal. rewrite Dr. unfold q, rad. field. lra. }
    pose proof (pieces_along (x, - y) r (- rad s) d P (ltb 180 q) true HP D1 D2 (Z.to_nat n) 0) as G.
    cbn [Nat.add] in G. rewrite N in G. rewrite <- St.
    replace (P (INR 0)) with (mirror_pt (circle_point x y r (rad s))) in G.
    2:{ rewrite HP. cbn [INR]. rewrite Rmult_0_l, Rplus_0_r. unfold at_angle, circle_point, mirror_pt. cbn. rewrite cos_neg, sin_neg. f_equal. ring. }
    replace (- rad s + INR 0 * d) with (- rad s) in G by (cbn [INR]; ring).
    replace (- rad s + IZR n * d) with (- rad a2) in G by (rewrite Dr; unfold q, rad; field; lra).
    exact G.
Qed.

Example svg_arc_ex : item_svg true true (mkcontext (1, 0) (1, 0)) (Arc 0 0 1 0 90) =
  Some ([Omove (0 + 1 * cos (radians 0), - (0 + 1 * sin (radians 0)));
         OA 1 false false (0 + 1 * cos (radians (0 + (0 + 1) * (90 - 0) / 1)), - (0 + 1 * sin (radians (0 + (0 + 1) * (90 - 0) / 1))))],
        mkcontext (flip true (arcpoint 0 0 1 (0 + 1 * (90 - 0) / 1))) (1, 0)).
Proof.
  cbn [item_svg item_svg_simple]. unfold svg_turn. replace (ltb 90 0) with false by (symmetry; apply ltb_false; lra).
  replace (ltb (0 + 360) 90) with false by (symmetry; apply ltb_false; lra).
  replace (floor ((90 - 0) / 350)) with 0%Z by (symmetry; apply (floor_known _ 0); lra).
  cbn [Z.add]. replace (ltb 180 ((90 - 0) / 1)) with false by (symmetry; apply ltb_false; lra). reflexivity.
Qed.

(** C83: without a change of the sign of y the sweep flag of the arcs is wrong: a quarter of
    a circle counterclockwise around the origin is written as an arc which is not around
    the origin. *)
Theorem svg_arc_upright_refuted : exists ops c,
  item_svg false true (mkcontext (0, 1) (1, 0)) (Arc 0 0 1 0 90) = Some (Omove (1, 0) :: ops, c) /\
  ops <> [] /\ ~ exists a b, arcs_along 1 (1, 0) (0, 0) a ops b.
Proof.
  assert (C0 : arcpoint 0 0 1 0 = (1, 0)) by (unfold arcpoint; rewrite radians_rad; unfold rad; replace (0 * PI / 180) with 0 by field; rewrite cos_0, sin_0; f_equal; ring).
  assert (C9 : arcpoint 0 0 1 90 = (0, 1)) by (unfold arcpoint; rewrite radians_rad; unfold rad; replace (90 * PI / 180) with (PI / 2) by field; rewrite cos_PI2, sin_PI2; f_equal; ring).
  exists [OA 1 false false (0, 1)], (mkcontext (0, 1) (1, 0)). split; [|split; [discriminate|]].
  - cbn [item_svg item_svg_simple]. unfold svg_turn. replace (ltb 90 0) with false by (symmetry; apply ltb_false; lra).
    replace (ltb (0 + 360) 90) with false by (symmetry; apply ltb_false; lra).
    replace (floor ((90 - 0) / 350)) with 0%Z by (symmetry; apply (floor_known _ 0); lra).
    cbn [Z.add]. replace (ltb 180 ((90 - 0) / 1)) with false by (symmetry; apply ltb_false; lra).
    unfold svg_pieces, svg_lastpoint. change (Z.to_nat 1) with 1%nat. cbn [seq map flip INR].
    replace (0 + (0 + 1) * (90 - 0) / 1) with 90 by field. replace (0 + 1 * (90 - 0) / 1) with 90 by field. rewrite C0.
    rewrite C9. reflexivity.
  - intros [a [b [_ [m [[P [Q [W L]]] _]]]]]. cbn [fst snd] in *. unfold circle_point in P, Q. injection P as P1 P2. injection Q as Q1 Q2.
    assert (A : Rabs (m - a) <= PI). { destruct (Rle_dec (Rabs (m - a)) PI) as [H|H]; [exact H|]. assert (F : false = true) by (apply L; lra). discriminate F. }
    rewrite Rabs_left in A by lra. pose proof (sin_minus m a) as S.
    assert (Sv : sin (m - a) = 1) by (rewrite S; nra).
    pose proof (sin_ge_0 (- (m - a)) ltac:(lra) ltac:(lra)) as G. rewrite sin_neg in G. lra.
Qed.

(** * C84 *)

Lemma hypot_sq x y : hypot x y * hypot x y = x * x + y * y.
Proof. apply sqrt_sqrt. pose proof (Rle_0_sqr x). pose proof (Rle_0_sqr y). unfold Rsqr in *. lra. Qed.
Lemma hypot_nonneg x y : 0 <= hypot x y. Proof. apply sqrt_pos. Qed.
Lemma eqb_no x : x <> 0 -> eqb x 0 = false. Proof. intros H. now apply eqb_false. Qed.
Lemma hypot_known x y z : 0 <= z -> x * x + y * y = z * z -> hypot x y = z.
Proof. intros Z E. unfold hypot. rewrite E. now apply sqrt_square. Qed.

(** half of the angle between two unit vectors *)
Lemma half_angle c s : c * c + s * s = 1 -> s <> 0 ->
  let h := acos c / 2 in
  0 < h < PI / 2 /\ 0 < sin h /\ 0 < cos h /\ sin h * sin h + cos h * cos h = 1 /\
  c = cos h * cos h - sin h * sin h /\ (s = 2 * (sin h * cos h) \/ s = - (2 * (sin h * cos h))).
Proof.
  intros U S h. assert (B : -1 < c < 1) by (split; nra). pose proof (acos_bound_lt c B) as A. pose proof PI_RGT_0 as P.
  assert (H : 0 < h < PI / 2) by (unfold h; lra). assert (C : 0 < cos h) by (apply cos_gt_0; lra). assert (Si : 0 < sin h) by (apply sin_gt_0; lra).
  pose proof (sin2_cos2 h) as T. unfold Rsqr in T.
  assert (Ec : c = cos h * cos h - sin h * sin h). { rewrite <- cos_2a. unfold h. replace (2 * (acos c / 2)) with (acos c) by field. rewrite cos_acos; lra. }
  repeat split; try lra.
  assert (Q : (s - 2 * (sin h * cos h)) * (s + 2 * (sin h * cos h)) = 0) by (set (X := sin h) in *; set (Y := cos h) in *; nra).
  apply Rmult_integral in Q as [Q|Q]; [left|right]; lra.
Qed.

(** C84: for three points that are not on a line and a positive radius, arct gives a line to a
    point on the first line, and an arc of less than half a turn, turning to the side of the third
    point, that touches both lines: the first one where the arc starts, and the second one where
    it ends. *)
Theorem arct_tangent : forall p p1 p2 r, 0 < r -> cross (vec p p1) (vec p1 p2) <> 0 ->
  exists m a b t1 t2 k1 k2,
    (0 < cross (vec p p1) (vec p1 p2) ->
       arct_pathitems p p1 p2 r = Some [Lineto t1; Arc (fst m) (snd m) r a b] /\ a < b < a + 180) /\
    (cross (vec p p1) (vec p1 p2) < 0 ->
       arct_pathitems p p1 p2 r = Some [Lineto t1; Arcn (fst m) (snd m) r a b] /\ b < a < b + 180) /\
    t1 = circle_point (fst m) (snd m) r (rad a) /\ t2 = circle_point (fst m) (snd m) r (rad b) /\
    0 < k1 /\ vec t1 p1 = (k1 * fst (vec p p1), k1 * snd (vec p p1)) /\
    0 < k2 /\ vec p1 t2 = (k2 * fst (vec p1 p2), k2 * snd (vec p1 p2)) /\
    dot (vec m t1) (vec p p1) = 0 /\ dot (vec m t2) (vec p1 p2) = 0.
Proof.
  intros [x y] [x1 y1] [x2 y2] r Hr. unfold cross, vec, dot. cbn [fst snd]. intros X.
  set (X1 := x1 - x) in *. set (Y1 := y1 - y) in *. set (X2 := x2 - x1) in *. set (Y2 := y2 - y1) in *.
  set (l1 := hypot X1 Y1). set (l2 := hypot X2 Y2).
  assert (H1 : 0 < l1). { pose proof (hypot_nonneg X1 Y1). pose proof (hypot_sq X1 Y1) as E. fold l1 in H, E. destruct (Req_dec l1 0) as [Z|Z]; [|lra]. exfalso. rewrite Z in E. destruct (Rplus_sqr_eq_0 X1 Y1) as [ZX ZY]; [unfold Rsqr; lra|]. apply X. rewrite ZX, ZY. ring. }
  assert (H2 : 0 < l2). { pose proof (hypot_nonneg X2 Y2). pose proof (hypot_sq X2 Y2) as E. fold l2 in H, E. destruct (Req_dec l2 0) as [Z|Z]; [|lra]. exfalso. rewrite Z in E. destruct (Rplus_sqr_eq_0 X2 Y2) as [ZX ZY]; [unfold Rsqr; lra|]. apply X. rewrite ZX, ZY. ring. }
  set (ux := X1 / l1). set (uy := Y1 / l1). set (vx := X2 / l2). set (vy := Y2 / l2).
  assert (U : ux * ux + uy * uy = 1). { unfold ux, uy. pose proof (hypot_sq X1 Y1) as E. fold l1 in E. replace (X1 / l1 * (X1 / l1) + Y1 / l1 * (Y1 / l1)) with ((X1 * X1 + Y1 * Y1) / (l1 * l1)) by (field; lra). rewrite <- E. field. lra. }
  assert (V : vx * vx + vy * vy = 1). { unfold vx, vy. pose proof (hypot_sq X2 Y2) as E. fold l2 in E. replace (X2 / l2 * (X2 / l2) + Y2 / l2 * (Y2 / l2)) with ((X2 * X2 + Y2 * Y2) / (l2 * l2)) by (field; lra). rewrite <- E. field. lra. }
  assert (EX1 : X1 = l1 * ux) by (unfold ux; field; lra). assert (EY1 : Y1 = l1 * uy) by (unfold uy; field; lra).
  assert (EX2 : X2 = l2 * vx) by (unfold vx; field; lra). assert (EY2 : Y2 = l2 * vy) by (unfold vy; field; lra).
  set (c := ux * vx + uy * vy). set (s := ux * vy - uy * vx).
  assert (CS : c * c + s * s = 1) by (unfold c, s; transitivity ((ux * ux + uy * uy) * (vx * vx + vy * vy)); [ring|rewrite U, V; ring]).
  assert (CR : X1 * Y2 - Y1 * X2 = l1 * l2 * s) by (unfold s; rewrite EX1, EY1, EX2, EY2; ring).
  assert (L12 : 0 < l1 * l2) by now apply Rmult_lt_0_compat.
  assert (S0 : s <> 0) by (intros Z; apply X; rewrite CR, Z; ring).
  assert (Vx : vx = c * ux - s * uy) by (unfold c, s; transitivity (vx * (ux * ux + uy * uy)); [rewrite U; ring|ring]).
  assert (Vy : vy = c * uy + s * ux) by (unfold c, s; transitivity (vy * (ux * ux + uy * uy)); [rewrite U; ring|ring]).
  destruct (half_angle c s CS S0) as [Hh [Hsg [Hk [Sq [Ec Es]]]]]. set (h := acos c / 2) in *. set (sg := sin h) in *. set (k := cos h) in *.
  assert (Ha : acos c = 2 * h) by (unfold h; field).
  set (e := if ltb 0 s then 1 else -1).
  assert (Ee : s = e * (2 * (sg * k)) /\ e * e = 1 /\ ((0 < s /\ e = 1) \/ (s < 0 /\ e = -1))).
  { assert (G : 0 < sg * k) by now apply Rmult_lt_0_compat. unfold e. destruct (ltb 0 s) eqn:L.
    - apply ltb_true in L. repeat split; destruct Es; try lra; try (left; lra); right; lra.
    - apply ltb_false in L. repeat split; destruct Es; try lra; try (left; lra); right; lra. }
  destruct Ee as [Se [Ee Ecase]]. clear Es.
  set (alpha := if ltb 0 s then acos c else - acos c).
  assert (Al : alpha = e * (2 * h)) by (unfold alpha, e; destruct (ltb 0 s); lra).
  assert (AbsA : Rabs alpha / 2 = h).
  { rewrite Al. destruct Ecase as [[_ ->]|[_ ->]]; [rewrite Rabs_right|rewrite Rabs_left]; lra. }
  assert (Ca : cos (alpha / 2) = k). { replace (alpha / 2) with (e * h) by (rewrite Al; field). destruct Ecase as [[_ ->]|[_ ->]]; [now rewrite Rmult_1_l|]. replace (-1 * h) with (- h) by ring. apply cos_neg. }
  assert (Sa : sin (alpha / 2) = e * sg). { replace (alpha / 2) with (e * h) by (rewrite Al; field). destruct Ecase as [[_ ->]|[_ ->]]; [now rewrite !Rmult_1_l|]. replace (-1 * h) with (- h) by ring. rewrite sin_neg. unfold sg. ring. }
  set (t := tan (Rabs alpha / 2)). assert (Et : t = sg / k) by (unfold t; rewrite AbsA; reflexivity).
  assert (Pt : 0 < t) by (rewrite Et; now apply Rdiv_lt_0_compat).
  set (dmx_pt := 1 / 2 * (x1 - ux * r * t + (x1 + vx * r * t)) - x1). set (dmy_pt := 1 / 2 * (y1 - uy * r * t + (y1 + vy * r * t)) - y1).
  assert (Dx : dmx_pt = r * t / 2 * (vx - ux)) by (unfold dmx_pt; field). assert (Dy : dmy_pt = r * t / 2 * (vy - uy)) by (unfold dmy_pt; field).
  assert (VU : (vx - ux) * (vx - ux) + (vy - uy) * (vy - uy) = 4 * (sg * sg)).
  { transitivity ((vx * vx + vy * vy) + (ux * ux + uy * uy) - 2 * c); [unfold c; ring|]. rewrite U, V, Ec. lra. }
  set (lm := hypot dmx_pt dmy_pt).
  assert (Elm : lm = r * t * sg). { apply hypot_known; [apply Rmult_le_pos; [apply Rmult_le_pos; lra|lra]|]. rewrite Dx, Dy.
    transitivity ((r * t / 2) * (r * t / 2) * ((vx - ux) * (vx - ux) + (vy - uy) * (vy - uy))); [ring|]. rewrite VU. field. }
  assert (Plm : 0 < lm) by (rewrite Elm; apply Rmult_lt_0_compat; [apply Rmult_lt_0_compat; lra|lra]).
  set (dmx := dmx_pt / lm). set (dmy := dmy_pt / lm).
  assert (Ex : dmx = (vx - ux) / (2 * sg)) by (unfold dmx; rewrite Dx, Elm; field; repeat split; lra).
  assert (Ey : dmy = (vy - uy) / (2 * sg)) by (unfold dmy; rewrite Dy, Elm; field; repeat split; lra).
  set (mx := x1 + dmx * r / cos (alpha / 2)). set (my := y1 + dmy * r / cos (alpha / 2)).
  set (phi := atan2 (- dmy) (- dmx)).
  assert (Hyp : hypot (- dmx) (- dmy) = 1).
  { apply hypot_known; [lra|]. rewrite Ex, Ey. transitivity (((vx - ux) * (vx - ux) + (vy - uy) * (vy - uy)) / (4 * (sg * sg))); [field; lra|]. rewrite VU. field. lra. }
  destruct (cos_sin_atan2 (- dmy) (- dmx) ltac:(lra)) as [Cp Sp]. fold phi in Cp, Sp. rewrite Hyp in Cp, Sp.
  set (a := degrees phi - degrees alpha / 2). set (b := degrees phi + degrees alpha / 2).
  pose proof PI_RGT_0 as Pi.
  assert (Ra : rad a = phi - alpha / 2) by (unfold rad, a, degrees; field; lra).
  assert (Rb : rad b = phi + alpha / 2) by (unfold rad, b, degrees; field; lra).
  assert (Wx : vx - ux = - (2 * (sg * sg)) * ux - e * (2 * (sg * k)) * uy).
  { rewrite Vx, Ec, Se. transitivity ((k * k - sg * sg - (sg * sg + k * k)) * ux - e * (2 * (sg * k)) * uy); [rewrite Sq; ring|ring]. }
  assert (Wy : vy - uy = - (2 * (sg * sg)) * uy + e * (2 * (sg * k)) * ux).
  { rewrite Vy, Ec, Se. transitivity ((k * k - sg * sg - (sg * sg + k * k)) * uy + e * (2 * (sg * k)) * ux); [rewrite Sq; ring|ring]. }
  assert (Fx : dmx = - sg * ux - e * k * uy) by (rewrite Ex, Wx; field; lra).
  assert (Fy : dmy = - sg * uy + e * k * ux) by (rewrite Ey, Wy; field; lra).
  assert (Mx : mx = x1 - r * (sg / k) * ux - r * e * uy) by (unfold mx; rewrite Ca, Fx; field; lra).
  assert (My : my = y1 - r * (sg / k) * uy + r * e * ux) by (unfold my; rewrite Ca, Fy; field; lra).
  assert (T1x : mx + r * cos (rad a) = x1 - ux * r * t).
  { rewrite Ra, cos_minus, Cp, Sp, Ca, Sa, Mx, Et, Fx, Fy. transitivity (x1 - r * (sg / k) * ux - r * e * uy + r * (e * uy * (k * k + e * e * (sg * sg)) / 1 * 1 + (sg * k * ux - e * e * (k * sg) * ux) + e * uy * (sg * sg) * (1 - e * e))); [field; lra|]. rewrite Ee.
    replace (k * k + 1 * (sg * sg)) with 1 by lra. field. lra. }
  assert (T1y : my + r * sin (rad a) = y1 - uy * r * t).
  { rewrite Ra, sin_minus, Cp, Sp, Ca, Sa, My, Et, Fx, Fy. transitivity (y1 - r * (sg / k) * uy + r * e * ux - r * e * ux * (k * k + sg * sg) + r * (sg * k * uy - e * e * (k * sg) * uy)); [field; lra|]. rewrite Ee, (Rplus_comm (k * k)), Sq. field. lra. }
  assert (T2x : mx + r * cos (rad b) = x1 + vx * r * t).
  { rewrite Rb, cos_plus, Cp, Sp, Ca, Sa, Mx, Et, Fx, Fy, Vx, Ec, Se.
    transitivity (x1 - r * (sg / k) * ux - r * e * uy + r * ((sg * k + e * e * (k * sg)) * ux + e * (k * k - sg * sg) * uy)); [field; lra|]. rewrite Ee.
    apply (Rmult_eq_reg_r k); [|lra]. field_simplify; [|lra|lra]. replace (sg ^ 3) with (sg * (sg * sg)) by ring. replace (sg * sg) with (1 - k * k) by lra.
    replace (sg ^ 2) with (1 - k * k) by (simpl; lra). ring. }
  assert (T2y : my + r * sin (rad b) = y1 + vy * r * t).
  { rewrite Rb, sin_plus, Cp, Sp, Ca, Sa, My, Et, Fx, Fy, Vy, Ec, Se.
    transitivity (y1 - r * (sg / k) * uy + r * e * ux + r * ((sg * k + e * e * (k * sg)) * uy - e * (k * k - sg * sg) * ux)); [field; lra|]. rewrite Ee.
    apply (Rmult_eq_reg_r k); [|lra]. field_simplify; [|lra|lra]. replace (sg ^ 3) with (sg * (sg * sg)) by ring. replace (sg * sg) with (1 - k * k) by lra.
    replace (sg ^ 2) with (1 - k * k) by (simpl; lra). ring. }
  exists (mx, my), a, b, (circle_point mx my r (rad a)), (circle_point mx my r (rad b)), (r * t / l1), (r * t / l2).
  cbn [fst snd]. unfold circle_point. cbn [fst snd].
  assert (Items : arct_pathitems (x, y) (x1, y1) (x2, y2) r =
    if ltb 0 alpha then Some [Lineto (arcpoint mx my r a); Arc mx my r a b] else Some [Lineto (arcpoint mx my r a); Arcn mx my r a b]).
  { unfold arct_pathitems. fold X1 Y1 X2 Y2. fold l1 l2. rewrite !eqb_no by lra. cbn [orb]. fold ux uy vx vy. fold c s.
    fold alpha. fold t. fold dmx_pt dmy_pt. fold lm. rewrite !eqb_no by lra. cbn [orb]. fold dmx dmy. fold mx my. fold phi. fold a b. reflexivity. }
  assert (AP : arcpoint mx my r a = (mx + r * cos (rad a), my + r * sin (rad a))) by (unfold arcpoint; now rewrite radians_rad).
  rewrite AP in Items.
  assert (AB : b - a = alpha * 180 / PI) by (unfold a, b, degrees; field; lra).
  split; [|split; [|repeat split]].
  - intros Hc. rewrite CR in Hc. assert (0 < s) by nra. destruct Ecase as [[_ E1]|[? _]]; [|lra]. rewrite E1, Rmult_1_l in Al.
    replace (ltb 0 alpha) with true in Items by (symmetry; apply ltb_true; lra). split; [exact Items|].
    assert (0 < alpha * 180 / PI < 180). { rewrite Al. split; [apply Rdiv_lt_0_compat; lra|]. apply Rmult_lt_reg_r with PI; [lra|]. unfold Rdiv. rewrite Rmult_assoc, Rinv_l by lra. lra. }
    lra.
  - intros Hc. rewrite CR in Hc. assert (s < 0) by nra. destruct Ecase as [[? _]|[_ E1]]; [lra|]. rewrite E1 in Al.
    replace (ltb 0 alpha) with false in Items by (symmetry; apply ltb_false; lra). split; [exact Items|].
    assert (0 < (- alpha) * 180 / PI < 180). { rewrite Al. split; [apply Rdiv_lt_0_compat; lra|]. apply Rmult_lt_reg_r with PI; [lra|]. unfold Rdiv. rewrite Rmult_assoc, Rinv_l by lra. lra. }
    replace (- alpha * 180 / PI) with (- (alpha * 180 / PI)) in H0 by (field; lra). lra.
  - apply Rdiv_lt_0_compat; [apply Rmult_lt_0_compat; lra|lra].
  - rewrite T1x, T1y, EX1, EY1. f_equal; field; lra.
  - apply Rdiv_lt_0_compat; [apply Rmult_lt_0_compat; lra|lra].
  - rewrite T2x, T2y, EX2, EY2. f_equal; field; lra.
  - rewrite T1x, T1y, Mx, My, Et, EX1, EY1. field. lra.
  - rewrite T2x, T2y, Mx, My, Et, EX2, EY2, Vx, Vy, Ec, Se.
    apply (Rmult_eq_reg_r k); [|lra]. rewrite Rmult_0_l.
    transitivity (r * l2 * ((((k * k - sg * sg) * ux - e * (2 * (sg * k)) * uy) * sg + sg * ux + e * k * uy) * ((k * k - sg * sg) * ux - e * (2 * (sg * k)) * uy) +
      (((k * k - sg * sg) * uy + e * (2 * (sg * k)) * ux) * sg + sg * uy - e * k * ux) * ((k * k - sg * sg) * uy + e * (2 * (sg * k)) * ux))); [field; lra|].
    transitivity (r * l2 * (ux * ux + uy * uy) * (sg * ((k * k - sg * sg) * (k * k - sg * sg) + e * e * (4 * (sg * k) * (sg * k))) + sg * (k * k - sg * sg) - e * e * (2 * (sg * k) * k))); [ring|].
    rewrite U, Ee. replace (k * k - sg * sg) with (1 - 2 * (sg * sg)) by lra.
    replace (4 * (sg * k) * (sg * k)) with (4 * (sg * sg) * (k * k)) by ring. replace (2 * (sg * k) * k) with (2 * sg * (k * k)) by ring.
    replace (k * k) with (1 - sg * sg) by lra. ring.
Qed.

(** around a corner of a square *)
Example arct_ex : exists a b, arct_pathitems (0, 0) (10, 0) (10, 10) 2 = Some [Lineto (8, 0); Arc 8 2 2 a b].
Proof.
  destruct (arct_tangent (0, 0) (10, 0) (10, 10) 2) as [[mx my] [a [b [[t1x t1y] [[t2x t2y] [k1 [k2 [L [_ [T1 [T2 [K1 [V1 [K2 [V2 [D1 D2]]]]]]]]]]]]]]]];
    [lra|unfold cross, vec; cbn [fst snd]; lra|].
  destruct L as [L _]; [unfold cross, vec; cbn [fst snd]; lra|]. cbn [fst snd] in *. exists a, b. rewrite L.
  unfold vec, dot, circle_point in *. cbn [fst snd] in *.
  injection T1 as T1x T1y. injection T2 as T2x T2y. injection V1 as V1x V1y. injection V2 as V2x V2y.
  assert (E1 : mx = t1x) by lra. assert (E2 : my = t2y) by lra.
  assert (Q1 : (t1x - mx) * (t1x - mx) + (t1y - my) * (t1y - my) = 4).
  { rewrite T1x, T1y. pose proof (sin2_cos2 (rad a)) as S. unfold Rsqr in S. transitivity (4 * (sin (rad a) * sin (rad a) + cos (rad a) * cos (rad a))); [ring|rewrite S; ring]. }
  assert (Q2 : (t2x - mx) * (t2x - mx) + (t2y - my) * (t2y - my) = 4).
  { rewrite T2x, T2y. pose proof (sin2_cos2 (rad b)) as S. unfold Rsqr in S. transitivity (4 * (sin (rad b) * sin (rad b) + cos (rad b) * cos (rad b))); [ring|rewrite S; ring]. }
  assert (my = 2) by nra. assert (mx = 8) by nra. assert (t1x = 8) by lra. assert (t1y = 0) by lra. subst. congruence.
Qed.

(** C84: on a line a straight line to the corner is drawn, as by PostScript. *)
Theorem arct_collinear : forall p p1 p2 r, cross (vec p p1) (vec p1 p2) = 0 -> 0 < dot (vec p p1) (vec p1 p2) ->
  arct_pathitems p p1 p2 r = Some [Lineto p1].
Proof.
  intros [x y] [x1 y1] [x2 y2] r. unfold cross, dot, vec. cbn [fst snd]. unfold arct_pathitems.
  set (X1 := x1 - x) in *. set (Y1 := y1 - y) in *. set (X2 := x2 - x1) in *. set (Y2 := y2 - y1) in *. intros C D.
  pose proof (hypot_sq X1 Y1) as E1. pose proof (hypot_sq X2 Y2) as E2. pose proof (hypot_nonneg X1 Y1) as N1. pose proof (hypot_nonneg X2 Y2) as N2.
  set (l1 := hypot X1 Y1) in *. set (l2 := hypot X2 Y2) in *.
  assert (L : (l1 * l2) * (l1 * l2) = (X1 * X2 + Y1 * Y2) * (X1 * X2 + Y1 * Y2)).
  { transitivity ((l1 * l1) * (l2 * l2)); [ring|]. rewrite E1, E2.
    transitivity ((X1 * X2 + Y1 * Y2) * (X1 * X2 + Y1 * Y2) + (X1 * Y2 - Y1 * X2) * (X1 * Y2 - Y1 * X2)); [ring|rewrite C; ring]. }
  assert (P : 0 <= l1 * l2) by now apply Rmult_le_pos.
  assert (LD : l1 * l2 = X1 * X2 + Y1 * Y2). { apply Rsqr_inj; [exact P|lra|exact L]. }
  assert (l1 <> 0) by (intros Z; rewrite Z in LD; lra). assert (l2 <> 0) by (intros Z; rewrite Z in LD; lra).
  rewrite !eqb_no by assumption. cbn [orb].
  replace (X1 / l1 * (X2 / l2) + Y1 / l1 * (Y2 / l2)) with 1 by (transitivity ((X1 * X2 + Y1 * Y2) / (l1 * l2)); [rewrite <- LD|]; field; auto).
  rewrite acos_1. replace (if ltb 0 _ then 0 else - 0) with 0 by (destruct (ltb _ _); ring).
  rewrite Rabs_R0. replace (0 / 2) with 0 by field. rewrite tan_0.
  replace (hypot _ _) with 0. 2:{ symmetry. apply hypot_known; [lra|]. field. auto. }
  replace (eqb 0 0) with true by (symmetry; now apply eqb_true). reflexivity.
Qed.
Example arct_collinear_ex : arct_pathitems (0, 0) (20, 10) (40, 20) 3 = Some [Lineto (20, 10)].
Proof. apply arct_collinear; unfold cross, dot, vec; cbn [fst snd]; lra. Qed.

(** C84: three points of which the first two or the last two coincide are on a line as well, but give a
    ZeroDivisionError. *)
Theorem arct_coincident_refuted : forall p q r, arct_pathitems p p q r = None /\ arct_pathitems p q q r = None.
Proof.
  assert (Z : hypot 0 0 = 0) by (apply hypot_known; lra).
  intros [x y] [x2 y2] r. unfold arct_pathitems. split.
  - replace (x - x) with 0 by ring. replace (y - y) with 0 by ring. rewrite Z. replace (eqb 0 0) with true by (symmetry; now apply eqb_true). reflexivity.
  - replace (x2 - x2) with 0 by ring. replace (y2 - y2) with 0 by ring. rewrite Z. replace (eqb 0 0) with true by (symmetry; now apply eqb_true).
    now rewrite orb_true_r.
Qed.

(** C58: after closepath, the SVG output continues a tangent arc from the last point drawn
    instead of the start of the subpath: a straight line is written, where the tangent arc
    from the current point has an arc in it. *)
Theorem svg_arct_after_close_refuted : exists l1 p p1 p2 r g,
  obey_all (mkgstate [] NoPoint) (outputPS l1) = Some g /\ point_of (now g) = Some p /\
  returnSVGdata true (l1 ++ [Arct p1 p2 r]) = Some (match returnSVGdata true l1 with Some o => o | None => [] end ++ [Oline (mirror_pt p1)]) /\
  exists t m a b, arct_pathitems p p1 p2 r = Some [Lineto t; Arc (fst m) (snd m) r a b] \/ arct_pathitems p p1 p2 r = Some [Lineto t; Arcn (fst m) (snd m) r a b].
Proof.
  exists [Moveto (0, 0); Lineto (10, 0); Lineto (10, 10); Closepath], (0, 0), (20, 10), (30, 10), 1.
  eexists. split; [reflexivity|]. split; [reflexivity|]. split.
  - unfold returnSVGdata. cbn [app createcontext svg_items item_svg item_svg_simple current subfirst].
    rewrite arct_collinear by (unfold cross, dot, vec; cbn [fst snd]; lra). reflexivity.
  - destruct (arct_tangent (0, 0) (20, 10) (30, 10) 1) as [m [a [b [t1 [t2 [k1 [k2 [_ [L _]]]]]]]]]; [lra|unfold cross, vec; cbn [fst snd]; lra|].
    exists t1, m, a, b. right. apply L. unfold cross, vec. cbn [fst snd]. lra.
Qed.

(** C58: the same after an arc, whose end is kept with the wrong sign of y. *)
Theorem svg_arct_after_arc_refuted : exists l1 p p1 p2 r,
  last l1 (Moveto p) = Arc 0 0 10 0 90 /\ p = arcpoint 0 0 10 90 /\
  returnSVGdata true (l1 ++ [Arct p1 p2 r]) = Some (match returnSVGdata true l1 with Some o => o | None => [] end ++ [Oline (mirror_pt p1)]) /\
  exists t m a b, arct_pathitems p p1 p2 r = Some [Lineto t; Arc (fst m) (snd m) r a b] \/ arct_pathitems p p1 p2 r = Some [Lineto t; Arcn (fst m) (snd m) r a b].
Proof.
  assert (C9 : arcpoint 0 0 10 90 = (0, 10)) by (unfold arcpoint; rewrite radians_rad; unfold rad; replace (90 * PI / 180) with (PI / 2) by field; rewrite cos_PI2, sin_PI2; f_equal; ring).
  exists [Moveto (0, 0); Arc 0 0 10 0 90], (0, 10), (10, -10), (20, -10), 1. split; [reflexivity|]. split; [auto|]. split.
  - unfold returnSVGdata. cbn [app createcontext svg_items item_svg item_svg_simple current subfirst].
    unfold svg_turn. replace (ltb 90 0) with false by (symmetry; apply ltb_false; lra).
    replace (ltb (0 + 360) 90) with false by (symmetry; apply ltb_false; lra).
    replace (floor ((90 - 0) / 350)) with 0%Z by (symmetry; apply (floor_known _ 0); lra).
    cbn [Z.add]. unfold svg_lastpoint. replace (0 + 1 * (90 - 0) / 1) with 90 by field. rewrite C9. cbn [flip fst snd].
    rewrite arct_collinear by (unfold cross, dot, vec; cbn [fst snd]; lra). cbn [option_map svg_simple item_svg_simple app flip fst snd]. reflexivity.
  - destruct (arct_tangent (0, 10) (10, -10) (20, -10) 1) as [m [a [b [t1 [t2 [k1 [k2 [L _]]]]]]]]; [lra|unfold cross, vec; cbn [fst snd]; lra|].
    exists t1, m, a, b. left. apply L. unfold cross, vec. cbn [fst snd]. lra.
Qed.

(** C83: an arc backward by a whole turn.  PostScript increases the second angle by multiples of 360 until
    it is not below the first one (PostScript Language Reference, arc); that is an arc
    without length from 360 to 0.  The PDF and SVG output have a full circle. *)
Definition ps_stop (a1 a2 e : R) : Prop := turns a2 e /\ (a1 <= a2 -> e = a2) /\ (a2 < a1 -> a1 <= e < a1 + 360).
Theorem arc_backward_refuted : forall c x y r, 0 < r ->
  (forall e, ps_stop 360 0 e <-> e = 360) /\
  (exists ops c', item_svg true false c (Arc x y r 360 0) = Some (Oline (mirror_pt (circle_point x y r (rad 360))) :: ops, c') /\
     arcs_along r (mirror_pt (circle_point x y r (rad 360))) (x, - y) (- rad 360) ops (- rad 720)) /\
  arctobezierpath x y r 360 0 45 <> [].
Proof.
  intros c x y r Hr. split; [|split].
  - intros e. split.
    + intros [[k K] [_ B]]. specialize (B ltac:(lra)). assert (1 <= IZR k < 2) by lra.
      assert (k = 1)%Z; [|subst; lra]. destruct H as [H1 H2]. apply le_IZR in H1. apply lt_IZR in H2. lia.
    + intros ->. split; [exists 1%Z; lra|]. split; intros; lra.
  - destruct (svg_arc_written false c x y r 360 0 Hr ltac:(lra)) as [ops [c' [e [I [[[k K] [_ [B _]]] A]]]]].
    specialize (B ltac:(lra)). assert (E : e = 720). { assert (1 < IZR k <= 2) by lra. destruct H as [H1 H2]. apply lt_IZR in H1. apply le_IZR in H2. assert (k = 2)%Z by lia. subst. lra. }
    rewrite E in A. exists ops, c'. split; [exact I|exact A].
  - intros E. destruct (arc_curves x y r 360 0 45 ltac:(lra) ltac:(lra)) as [e [A [_ [B _]]]]. apply B in E. pose proof PI_RGT_0 as P.
    assert (R0 : rad 0 = 0) by (unfold rad; field). assert (R9 : rad 360 = 2 * PI) by (unfold rad; field).
    destruct A as [[? ?]|[? [_ ?]]]; lra.
Qed.

Print Assumptions svg_arc_written.
Print Assumptions svg_arcn_written.
Print Assumptions svg_arc_upright_refuted.
Print Assumptions arct_tangent.
Print Assumptions arct_collinear.
Print Assumptions arct_coincident_refuted.
Print Assumptions svg_arct_after_close_refuted.
Print Assumptions svg_arct_after_arc_refuted.
Print Assumptions arc_backward_refuted.
