(** Properties of circular arcs. *)
From Coq Require Import Reals List ZArith Lra Lia Bool.
From Verif Require Import TrafoModel BboxModel BboxSpec BboxProps CurveModel CurveSpec CurveProofs CurveProofs2 CurveProofs3 CurveProps
  ArcModel ArcSpec ArcProofs.
Import ListNotations.
Open Scope R_scope.

Local Notation pt := (R * R)%type.

(** ** C45 *)
Definition bbox_end (phi1 phi2 : R) : R :=
  if ltb phi2 phi1 then phi2 + (IZR (floor ((phi1 - phi2) / (2 * PI))) + 1) * 2 * PI else phi2.
Lemma ltb_false x y : ltb x y = false <-> y <= x.
Proof. unfold ltb. destruct (Rlt_dec x y); split; intros; auto; try discriminate; lra. Qed.
Lemma bbox_end_spec phi1 phi2 : arc_end phi1 phi2 (bbox_end phi1 phi2) /\ phi1 <= bbox_end phi1 phi2 /\
  exists k, bbox_end phi1 phi2 = phi2 + IZR k * (2 * PI).
Proof.
  unfold bbox_end. destruct (ltb phi2 phi1) eqn:L.
  - apply ltb_true in L. destruct (next_end phi1 phi2 L) as [k [E B]]. rewrite E. split; [right; eauto|]. split; [lra|eauto].
  - apply ltb_false in L. split; [left; auto|]. split; auto. exists 0%Z. ring.
Qed.
Lemma bbox_top x y r angle1 angle2 : 0 <= r ->
  let phi1 := rad angle1 in
  let e := bbox_end phi1 (rad angle2) in
  arcbboxdata x y r angle1 angle2 =
  (x - r * top phi1 e PI, y - r * top phi1 e (3 * PI / 2), x + r * top phi1 e 0, y + r * top phi1 e (PI / 2)).
Proof.
  intros Hr phi1 e. unfold arcbboxdata, arcpoint. rewrite !rad_radians. fold phi1. fold (bbox_end phi1 (rad angle2)). fold e.
  destruct (bbox_end_spec phi1 (rad angle2)) as [_ [_ [k K]]]. fold e in K.
  assert (C : cos (rad angle2) = cos e) by (rewrite K, cos_turn; reflexivity).
  assert (S : sin (rad angle2) = sin e) by (rewrite K, sin_turn; reflexivity).
  rewrite C, S. unfold top.
  assert (Mx : forall z a b, Rmax (z + r * a) (z + r * b) = z + r * Rmax a b).
  { intros z a b. destruct (Rmax_cases a b) as [[A ->]|[A ->]]; assert (r * Rmin a b <= r * Rmax a b) by (apply Rmult_le_compat_l; auto; mm; lra);
      [apply Rmax_right|apply Rmax_left]; apply Rplus_le_compat_l, Rmult_le_compat_l; lra. }
  assert (Mn : forall z a b, Rmin (z + r * a) (z + r * b) = z - r * Rmax (- a) (- b)).
  { intros z a b. destruct (Rmax_cases (- a) (- b)) as [[A ->]|[A ->]].
    - rewrite Rmin_right; [ring|]. apply Rplus_le_compat_l, Rmult_le_compat_l; lra.
    - rewrite Rmin_left; [ring|]. apply Rplus_le_compat_l, Rmult_le_compat_l; lra. }
  assert (Cpi : forall z, cos (z - PI) = - cos z) by (intros z; rewrite cos_minus, cos_PI, sin_PI; ring).
  assert (C3 : forall z, cos (z - 3 * PI / 2) = - sin z).
  { intros z. replace (3 * PI / 2) with (PI / 2 + PI) by field. rewrite cos_minus, cos_plus, sin_plus, cos_PI, sin_PI, cos_PI2, sin_PI2. ring. }
  assert (C2 : forall z, cos (z - PI / 2) = sin z) by (intros z; rewrite cos_minus, cos_PI2, sin_PI2; ring).
  rewrite !Mx, !Mn, !Cpi, !C3, !C2, !Rminus_0_r, Rplus_0_r.
  replace ((2 * IZR (floor ((phi1 - PI) / (2 * PI))) + 2) * PI + PI) with ((2 * IZR (floor ((phi1 - PI) / (2 * PI))) + 3) * PI) by ring.
  replace ((2 * IZR (floor ((phi1 - 3 * PI / 2) / (2 * PI))) + 2) * PI + 3 * PI / 2)
    with ((2 * IZR (floor ((phi1 - 3 * PI / 2) / (2 * PI))) + 7 / 2) * PI) by field.
  replace ((2 * IZR (floor ((phi1 - PI / 2) / (2 * PI))) + 2) * PI + PI / 2)
    with ((2 * IZR (floor ((phi1 - PI / 2) / (2 * PI))) + 5 / 2) * PI) by field.
  repeat apply pair_eq; match goal with |- (if ?b then _ else _) = _ => destruct b end; ring.
Qed.

(** C45: the bounding box of an arc is the smallest box containing it. *)
Theorem arc_bbox_smallest : forall x y r angle1 angle2 x1 y1 x2 y2, 0 <= r ->
  arcbboxdata x y r angle1 angle2 = (x1, y1, x2, y2) ->
  smallest (mkbbox (Some x1) y1 x2 y2) (on_arc x y r angle1 angle2).
Proof.
  intros x y r angle1 angle2 x1 y1 x2 y2 Hr H. rewrite (bbox_top x y r angle1 angle2 Hr) in H.
  set (phi1 := rad angle1) in *. set (e := bbox_end phi1 (rad angle2)) in *.
  destruct (bbox_end_spec phi1 (rad angle2)) as [AE [Le _]]. fold e in AE, Le.
  assert (Cpi : forall z, cos (z - PI) = - cos z) by (intros z; rewrite cos_minus, cos_PI, sin_PI; ring).
  assert (C3 : forall z, cos (z - 3 * PI / 2) = - sin z).
  { intros z. replace (3 * PI / 2) with (PI / 2 + PI) by field. rewrite cos_minus, cos_plus, sin_plus, cos_PI, sin_PI, cos_PI2, sin_PI2. ring. }
  assert (C2 : forall z, cos (z - PI / 2) = sin z) by (intros z; rewrite cos_minus, cos_PI2, sin_PI2; ring).
  destruct (top_spec phi1 e PI Le) as [T1 [p1 [I1 E1]]]. destruct (top_spec phi1 e (3 * PI / 2) Le) as [T2 [p2 [I2 E2]]].
  destruct (top_spec phi1 e 0 Le) as [T3 [p3 [I3 E3]]]. destruct (top_spec phi1 e (PI / 2) Le) as [T4 [p4 [I4 E4]]].
  rewrite Cpi in E1. rewrite C3 in E2. rewrite Rminus_0_r in E3. rewrite C2 in E4.
  rewrite <- E1, <- E2, <- E3, <- E4 in *.
  injection H as <- <- <- <-.
  assert (IN : forall phi, phi1 <= phi <= e -> on_arc x y r angle1 angle2 (circle_point x y r phi)).
  { intros phi Hphi. exists e, phi. auto. }
  assert (B : forall phi, phi1 <= phi <= e ->
    x - r * - cos p1 <= x + r * cos phi <= x + r * cos p3 /\ y - r * - sin p2 <= y + r * sin phi <= y + r * sin p4).
  { intros phi Hphi. specialize (T1 phi Hphi). specialize (T2 phi Hphi). specialize (T3 phi Hphi). specialize (T4 phi Hphi).
    rewrite Cpi in T1. rewrite C3 in T2. rewrite Rminus_0_r in T3. rewrite C2 in T4.
    assert (G : forall a b, a <= b -> r * a <= r * b) by (intros; now apply Rmult_le_compat_l).
    pose proof (G _ _ T1). pose proof (G _ _ T2). pose proof (G _ _ T3). pose proof (G _ _ T4). lra. }
  split; [|split].
  - intros l [= <-]. simpl. destruct (B phi1 ltac:(lra)). lra.
  - intros p (e' & phi & A & Hphi & ->). assert (e' = e) by (eapply arc_end_unique; eassumption). subst e'.
    destruct (B phi Hphi). apply inside_intro; lra.
  - intros c Hc p Hp. apply inside_inv in Hp.
    destruct (Hc _ (IN p1 I1)) as [l [El Q1]]. destruct (Hc _ (IN p2 I2)) as [l2 [El2 Q2]].
    destruct (Hc _ (IN p3 I3)) as [l3 [El3 Q3]]. destruct (Hc _ (IN p4 I4)) as [l4 [El4 Q4]].
    rewrite El in *. injection El2 as <-. injection El3 as <-. injection El4 as <-.
    exists l. split; auto. unfold circle_point in *. simpl in *. lra.
Qed.
Print Assumptions arc_bbox_smallest.
Lemma floor_known x k : IZR k <= x < IZR k + 1 -> floor x = k.
Proof.
  intros H. pose proof (floor_spec x) as F.
  assert (IZR (floor x) < IZR (k + 1)) by (rewrite plus_IZR; lra). assert (IZR k < IZR (floor x + 1)) by (rewrite plus_IZR; lra).
  apply lt_IZR in H0. apply lt_IZR in H1. lia.
Qed.
Lemma floor_pi a b k : 0 < b -> IZR k * b <= a < (IZR k + 1) * b -> floor (a * PI / (b * PI)) = k.
Proof.
  intros Hb H. pose proof PI_RGT_0. apply floor_known. replace (a * PI / (b * PI)) with (a / b) by (field; lra).
  split; [apply (Rmult_le_reg_r b)|apply (Rmult_lt_reg_r b)]; auto; unfold Rdiv; rewrite Rmult_assoc, Rinv_l by lra; lra.
Qed.
Example arc_bbox_example : arcbboxdata 10 20 2 0 90 = (10, 20, 12, 22) /\ arcbboxdata 10 20 2 90 0 = (8, 18, 12, 22).
Proof.
  pose proof PI_RGT_0 as P.
  assert (R0 : radians 0 = 0) by (unfold radians; field). assert (R9 : radians 90 = PI / 2) by (unfold radians; field).
  split; unfold arcbboxdata, arcpoint; rewrite R0, R9, cos_0, sin_0, cos_PI2, sin_PI2.
  - replace (ltb (PI / 2) 0) with false by (symmetry; apply ltb_false; lra).
    replace ((0 - PI) / (2 * PI)) with (-1 * PI / (2 * PI)) by (f_equal; ring).
    replace ((0 - 3 * PI / 2) / (2 * PI)) with (- (3 / 2) * PI / (2 * PI)) by (f_equal; field).
    replace (0 / (2 * PI)) with (0 * PI / (2 * PI)) by (f_equal; ring).
    replace ((0 - PI / 2) / (2 * PI)) with (- (1 / 2) * PI / (2 * PI)) by (f_equal; field).
    rewrite (floor_pi (-1) 2 (-1)), (floor_pi (- (3 / 2)) 2 (-1)), (floor_pi 0 2 0), (floor_pi (- (1 / 2)) 2 (-1)) by lra.
    replace (ltb (PI / 2) ((2 * -1 + 3) * PI)) with true by (symmetry; apply ltb_true; lra).
    replace (ltb (PI / 2) ((2 * -1 + 7 / 2) * PI)) with true by (symmetry; apply ltb_true; lra).
    replace (ltb (PI / 2) ((2 * 0 + 2) * PI)) with true by (symmetry; apply ltb_true; lra).
    replace (ltb (PI / 2) ((2 * -1 + 5 / 2) * PI)) with false by (symmetry; apply ltb_false; lra).
    repeat apply pair_eq; mm; lra.
  - replace (ltb 0 (PI / 2)) with true by (symmetry; apply ltb_true; lra).
    replace ((PI / 2 - 0) / (2 * PI)) with (1 / 2 * PI / (2 * PI)) by (f_equal; field).
    replace ((PI / 2 - PI) / (2 * PI)) with (- (1 / 2) * PI / (2 * PI)) by (f_equal; field).
    replace ((PI / 2 - 3 * PI / 2) / (2 * PI)) with (-1 * PI / (2 * PI)) by (f_equal; field).
    replace (PI / 2 / (2 * PI)) with (1 / 2 * PI / (2 * PI)) by (f_equal; field).
    replace ((PI / 2 - PI / 2) / (2 * PI)) with (0 * PI / (2 * PI)) by (f_equal; field).
    rewrite (floor_pi (1 / 2) 2 0), (floor_pi (- (1 / 2)) 2 (-1)), (floor_pi (-1) 2 (-1)), (floor_pi 0 2 0) by lra.
    replace (ltb (0 + (0 + 1) * 2 * PI) ((2 * -1 + 3) * PI)) with false by (symmetry; apply ltb_false; lra).
    replace (ltb (0 + (0 + 1) * 2 * PI) ((2 * -1 + 7 / 2) * PI)) with false by (symmetry; apply ltb_false; lra).
    replace (ltb (0 + (0 + 1) * 2 * PI) ((2 * 0 + 2) * PI)) with false by (symmetry; apply ltb_false; lra).
    replace (ltb (0 + (0 + 1) * 2 * PI) ((2 * 0 + 5 / 2) * PI)) with true by (symmetry; apply ltb_true; lra).
    repeat apply pair_eq; mm; lra.
Qed.
(** For a negative radius the sides of the box are exchanged. *)
Theorem arc_bbox_negative_refuted : exists x y r angle1 angle2 x1 y1 x2 y2,
  arcbboxdata x y r angle1 angle2 = (x1, y1, x2, y2) /\
  ~ smallest (mkbbox (Some x1) y1 x2 y2) (on_arc x y r angle1 angle2).
Proof.
  exists 0, 0, (-1), 0, 360, 1, 1, (-1), (-1). split.
  - pose proof PI_RGT_0 as P.
    assert (R0 : radians 0 = 0) by (unfold radians; field). assert (R9 : radians 360 = 2 * PI) by (unfold radians; field).
    unfold arcbboxdata, arcpoint. rewrite R0, R9, cos_0, sin_0, cos_2PI, sin_2PI.
    replace (ltb (2 * PI) 0) with false by (symmetry; apply ltb_false; lra).
    replace ((0 - PI) / (2 * PI)) with (-1 * PI / (2 * PI)) by (f_equal; ring).
    replace ((0 - 3 * PI / 2) / (2 * PI)) with (- (3 / 2) * PI / (2 * PI)) by (f_equal; field).
    replace (0 / (2 * PI)) with (0 * PI / (2 * PI)) by (f_equal; ring).
    replace ((0 - PI / 2) / (2 * PI)) with (- (1 / 2) * PI / (2 * PI)) by (f_equal; field).
    rewrite (floor_pi (-1) 2 (-1)), (floor_pi (- (3 / 2)) 2 (-1)), (floor_pi 0 2 0), (floor_pi (- (1 / 2)) 2 (-1)) by lra.
    replace (ltb (2 * PI) ((2 * -1 + 3) * PI)) with false by (symmetry; apply ltb_false; lra).
    replace (ltb (2 * PI) ((2 * -1 + 7 / 2) * PI)) with false by (symmetry; apply ltb_false; lra).
    replace (ltb (2 * PI) ((2 * 0 + 2) * PI)) with false by (symmetry; apply ltb_false; lra).
    replace (ltb (2 * PI) ((2 * -1 + 5 / 2) * PI)) with false by (symmetry; apply ltb_false; lra).
    repeat apply pair_eq; ring.
  - intros [H _]. destruct (H 1 eq_refl) as [A _]. simpl in A. lra.
Qed.
Print Assumptions arc_bbox_negative_refuted.

(** ** C59 *)
Lemma eqb_true x y : eqb x y = true <-> x = y.
Proof. unfold eqb. destruct (Req_EM_T x y); split; intros; auto; discriminate || contradiction. Qed.
Lemma eqb_false x y : eqb x y = false <-> x <> y.
Proof. unfold eqb. destruct (Req_EM_T x y); split; intros; auto; discriminate || contradiction. Qed.
Definition bezier_end (phi1 phi2 : R) : R :=
  if ltb phi2 phi1 then phi2 + (IZR (floor ((phi1 - phi2) / (2 * PI))) + 1) * 2 * PI
  else if ltb (phi1 + 2 * PI) phi2 then phi2 - (IZR (floor ((phi2 - phi1) / (2 * PI))) - 1) * 2 * PI
  else phi2.
Lemma bezier_end_spec phi1 phi2 : let e := bezier_end phi1 phi2 in
  (phi2 <= phi1 + 2 * PI -> arc_end phi1 phi2 e) /\
  (phi1 + 2 * PI < phi2 -> (exists k, e = phi2 - IZR k * (2 * PI)) /\ phi1 + 2 * PI <= e < phi1 + 4 * PI).
Proof.
  unfold bezier_end. pose proof PI_RGT_0 as P. destruct (ltb phi2 phi1) eqn:L.
  - apply ltb_true in L. destruct (next_end phi1 phi2 L) as [k [E B]]. cbv zeta. rewrite E. split; [|lra]. intros _. right. eauto.
  - apply ltb_false in L. destruct (ltb (phi1 + 2 * PI) phi2) eqn:M; cbv zeta.
    + apply ltb_true in M. split; [lra|]. intros _. pose proof (floor_mult (phi2 - phi1) (2 * PI) ltac:(lra)) as F.
      split; [exists (floor ((phi2 - phi1) / (2 * PI)) - 1)%Z; rewrite minus_IZR; ring|]. set (K := IZR _) in *. clearbody K. lra.
    + apply ltb_false in M. split; [|lra]. intros _. left. auto.
Qed.
Lemma bezier_end_le phi1 phi2 : phi1 <= bezier_end phi1 phi2.
Proof.
  pose proof PI_RGT_0. destruct (bezier_end_spec phi1 phi2) as [A B]. destruct (Rle_dec phi2 (phi1 + 2 * PI)) as [H1|H1].
  - destruct (A H1) as [[H2 ->]|[_ [_ H2]]]; lra.
  - destruct (B ltac:(lra)). lra.
Qed.

Lemma arc_curves_structure x y r angle1 angle2 anglemax : r <> 0 -> 0 < anglemax ->
  let phi1 := rad angle1 in
  let e := bezier_end phi1 (rad angle2) in
  let curves := arctobezierpath x y r angle1 angle2 anglemax in
  let n := List.length curves in
  (n = 0%nat <-> e = phi1) /\
  forall i o, nth_error curves i = Some o ->
    0 < (e - phi1) / INR n < rad anglemax /\
    o = arctobcurve x y r (phi1 + INR i * ((e - phi1) / INR n)) (phi1 + (INR i + 1) * ((e - phi1) / INR n)).
Proof.
  intros Hr Hm phi1 e curves n. pose proof PI_RGT_0 as P. pose proof (bezier_end_le phi1 (rad angle2)) as Le. fold e in Le.
  assert (Hm' : 0 < rad anglemax) by (unfold rad; apply Rmult_lt_0_compat; [apply Rmult_lt_0_compat; lra|lra]).
  assert (E : curves = if (eqb r 0 || eqb (phi1 - e) 0)%bool then []
    else let subdivisions := (floor ((e - phi1) / rad anglemax) + 1)%Z in
    let dphi := (e - phi1) / IZR subdivisions in
    map (fun i => arctobcurve x y r (phi1 + INR i * dphi) (phi1 + (INR i + 1) * dphi)) (seq 0 (Z.to_nat subdivisions))).
  { unfold curves, arctobezierpath. rewrite !rad_radians. reflexivity. }
  replace (eqb r 0) with false in E by (symmetry; now apply eqb_false). simpl orb in E.
  destruct (eqb (phi1 - e) 0) eqn:Q.
  - apply eqb_true in Q. unfold n. rewrite E. split; [simpl; split; intros; [lra|auto]|]. intros i o H. destruct i; discriminate.
  - apply eqb_false in Q. cbv zeta in E.
    set (m := (floor ((e - phi1) / rad anglemax) + 1)%Z) in *.
    pose proof (floor_mult (e - phi1) (rad anglemax) Hm') as F.
    assert (M1 : (1 <= m)%Z).
    { assert (IZR (floor ((e - phi1) / rad anglemax)) + 1 > 0) by nra. unfold m. assert (0 < floor ((e - phi1) / rad anglemax) + 1)%Z; [|lia].
      apply lt_IZR. rewrite plus_IZR. lra. }
    assert (N : n = Z.to_nat m) by (unfold n; rewrite E, map_length, seq_length; reflexivity).
    assert (IN : INR n = IZR m) by (rewrite N, INR_IZR_INZ, Z2Nat.id by lia; reflexivity).
    assert (M0 : 1 <= IZR m) by (apply IZR_le in M1; exact M1).
    split; [split; intros H; [lia|lra]|]. intros i o H. rewrite IN. split.
    + split; [apply Rdiv_lt_0_compat; lra|]. apply (Rmult_lt_reg_r (IZR m)); [lra|]. unfold Rdiv. rewrite Rmult_assoc, Rinv_l by lra.
      unfold m. rewrite plus_IZR. lra.
    + rewrite E in H. assert (Li : (i < Z.to_nat m)%nat).
      { assert (nth_error (map (fun i => arctobcurve x y r (phi1 + INR i * ((e - phi1) / IZR m)) (phi1 + (INR i + 1) * ((e - phi1) / IZR m))) (seq 0 (Z.to_nat m))) i <> None) as G by congruence.
        apply nth_error_Some in G. rewrite map_length, seq_length in G. exact G. }
      assert (S : nth_error (seq 0 (Z.to_nat m)) i = Some i).
      { rewrite (nth_error_nth' _ 0%nat) by (rewrite seq_length; exact Li). now rewrite seq_nth by exact Li. }
      rewrite (map_nth_error _ _ _ S) in H. congruence.
Qed.

(** C59: an arc becomes a list of curves, each over less than the maximal angle, which start
    and end on the circle at equally spaced angles from the start to the end of the arc;
    complete turns beyond the second one are dropped.  No curve is missing. *)
Theorem arc_curves : forall x y r angle1 angle2 anglemax, r <> 0 -> 0 < anglemax ->
  let curves := arctobezierpath x y r angle1 angle2 anglemax in
  let n := INR (List.length curves) in
  exists e,
    (rad angle2 <= rad angle1 + 2 * PI -> arc_end (rad angle1) (rad angle2) e) /\
    (rad angle1 + 2 * PI < rad angle2 -> (exists k : Z, e = rad angle2 - IZR k * (2 * PI)) /\ rad angle1 + 2 * PI <= e < rad angle1 + 4 * PI) /\
    (curves = [] <-> e = rad angle1) /\
    (curves <> [] -> 0 < (e - rad angle1) / n < rad anglemax) /\
    forall i o, nth_error curves i = Some o -> exists p1 p2,
      o = Some (Curve (circle_point x y r (rad angle1 + INR i * ((e - rad angle1) / n))) p1 p2
                      (circle_point x y r (rad angle1 + INR (S i) * ((e - rad angle1) / n)))).
Proof.
  intros x y r angle1 angle2 anglemax Hr Hm curves n. exists (bezier_end (rad angle1) (rad angle2)).
  destruct (bezier_end_spec (rad angle1) (rad angle2)) as [A B].
  destruct (arc_curves_structure x y r angle1 angle2 anglemax Hr Hm) as [C D]. fold curves n in C, D.
  split; [exact A|]. split; [exact B|]. split; [|split].
  - rewrite <- C. split; intros H; [now rewrite H|now apply length_zero_iff_nil].
  - intros N. destruct curves as [|o l] eqn:E; [congruence|]. apply (D 0%nat o eq_refl).
  - intros i o H. destruct (D i o H) as [Q ->]. set (dphi := (bezier_end (rad angle1) (rad angle2) - rad angle1) / n) in *.
    unfold arctobcurve. replace (eqb _ 0) with false by (symmetry; apply eqb_false; lra).
    rewrite S_INR. eexists _, _. reflexivity.
Qed.
Print Assumptions arc_curves.
(** C59: each of the curves leaves and arrives along the circle, counterclockwise. *)
Theorem arc_curve_tangents : forall x y r alpha beta, alpha < beta < alpha + 2 * PI ->
  exists l p0 p1 p2 p3, arctobcurve x y r alpha beta = Some (Curve p0 p1 p2 p3) /\
    (0 < r -> 0 < l) /\ (r < 0 -> l < 0) /\
    p1 = (fst p0 - l * sin alpha, snd p0 + l * cos alpha) /\ p3 = (fst p2 - l * sin beta, snd p2 + l * cos beta).
Proof.
  intros x y r alpha beta H. unfold arctobcurve. replace (eqb _ 0) with false by (symmetry; apply eqb_false; lra).
  set (th := (beta - alpha) / 2). assert (T : 0 < th < PI) by (unfold th; lra).
  assert (S : 0 < sin th) by (apply sin_gt_0; lra). assert (C : cos th < 1).
  { rewrite <- cos_0. apply cos_decreasing_1; lra. }
  exists (r * 4 * (1 - cos th) / (3 * sin th)). do 4 eexists. split; [reflexivity|].
  assert (Q : 0 < 4 * (1 - cos th) / (3 * sin th)) by (apply Rdiv_lt_0_compat; lra).
  replace (r * 4 * (1 - cos th) / (3 * sin th)) with (r * (4 * (1 - cos th) / (3 * sin th))) by (field; lra).
  set (q := 4 * (1 - cos th) / (3 * sin th)) in *. clearbody q.
  split; [intros; nra|]. split; [intros; nra|]. split; [reflexivity|]. simpl. f_equal; ring.
Qed.
Print Assumptions arc_curve_tangents.
(** C59: with the default maximal angle of 45 degrees no point of the curves is inside the
    circle, and none is more than 0.001 percent (squared) outside; the middle is exact. *)
Theorem arc_curves_close : forall x y r angle1 angle2 c, In (Some c) (arctobezierpath x y r angle1 angle2 45) ->
  (forall t, 0 <= t <= 1 ->
     r ^ 2 <= (fst (at_pt c t) - x) ^ 2 + (snd (at_pt c t) - y) ^ 2 <= r ^ 2 * (1 + 1 / 100000)) /\
  (fst (at_pt c (1 / 2)) - x) ^ 2 + (snd (at_pt c (1 / 2)) - y) ^ 2 = r ^ 2.
Proof.
  intros x y r angle1 angle2 c H. destruct (Req_dec r 0) as [->|Hr].
  { unfold arctobezierpath in H. replace (eqb 0 0) with true in H by (symmetry; now apply eqb_true). destruct H. }
  destruct (arc_curves_structure x y r angle1 angle2 45 Hr ltac:(lra)) as [_ D].
  apply In_nth_error in H. destruct H as [i H]. destruct (D i _ H) as [Q E]. clear D H.
  set (dphi := _ / _) in *. set (alpha := rad angle1 + INR i * dphi) in *. pose proof PI_RGT_0 as P.
  assert (B : rad angle1 + (INR i + 1) * dphi - alpha = dphi) by (unfold alpha; ring).
  set (beta := rad angle1 + (INR i + 1) * dphi) in *. clearbody alpha beta.
  assert (R45 : rad 45 = PI / 4) by (unfold rad; field). rewrite R45 in Q.
  destruct c as [p0 p1|p0 p1 p2 p3].
  { unfold arctobcurve in E. destruct (eqb _ _); discriminate. }
  symmetry in E.
  assert (S : 0 < sin ((beta - alpha) / 2)) by (rewrite B; apply sin_gt_0; lra).
  assert (K : forall t, (fst (at_pt (Curve p0 p1 p2 p3) t) - x) ^ 2 + (snd (at_pt (Curve p0 p1 p2 p3) t) - y) ^ 2 =
     r ^ 2 * (1 + 4 * ((1 - cos ((beta - alpha) / 2)) ^ 3 / (1 + cos ((beta - alpha) / 2))) * (t * (1 - t) * (t * (1 - t)) * (1 - 4 * (t * (1 - t)))))).
  { intros t. rewrite at_pt_cat. apply (arctobcurve_radius x y r alpha beta p0 p1 p2 p3 t E). lra. }
  set (co := cos ((beta - alpha) / 2)) in *.
  assert (C8 : 9238 / 10000 <= co).
  { eapply Rle_trans; [apply cos_eighth|]. unfold co. rewrite B. apply cos_decr_1; lra. }
  assert (C1 : co <= 1) by apply COS_bound.
  assert (G : 0 <= (1 - co) ^ 3 / (1 + co) <= 27 / 100000).
  { split; [apply Rle_mult_inv_pos; [apply pow_le; lra|lra]|].
    apply (Rmult_le_reg_r (1 + co)); [lra|]. unfold Rdiv at 1. rewrite Rmult_assoc, Rinv_l, Rmult_1_r by lra.
    apply Rle_trans with ((762 / 10000) ^ 3); [apply pow_incr; lra|]. lra. }
  assert (R2 : 0 <= r ^ 2) by apply pow2_ge_0.
  split.
  - intros t Ht. rewrite K. clear K.
    assert (U : 0 <= t * (1 - t) <= 1 / 4).
    { split; [apply Rmult_le_pos; lra|]. assert (0 <= (t - 1 / 2) * (t - 1 / 2)) by apply Rle_0_sqr. lra. }
    pose proof (radial_factor _ U) as F. set (ff := t * (1 - t) * (t * (1 - t)) * (1 - 4 * (t * (1 - t)))) in *. set (gg := (1 - co) ^ 3 / (1 + co)) in *.
    assert (0 <= gg * ff <= 27 / 100000 * (1 / 108)).
    { split; [apply Rmult_le_pos; lra|]. apply Rmult_le_compat; lra. }
    assert (W : 1 <= 1 + 4 * gg * ff <= 1 + 1 / 100000) by lra.
    split; [rewrite <- (Rmult_1_r (r ^ 2)) at 1|]; apply Rmult_le_compat_l; lra.
  - rewrite K. replace (1 - 4 * (1 / 2 * (1 - 1 / 2))) with 0 by field. ring.
Qed.
Print Assumptions arc_curves_close.
(** a quarter of a circle is made of three curves, the first of 30 degrees *)
Example arc_curves_example : List.length (arctobezierpath 1 2 5 0 90 45) = 3%nat /\
  nth_error (arctobezierpath 1 2 5 0 90 45) 0 = Some (arctobcurve 1 2 5 0 (PI / 6)).
Proof.
  pose proof PI_RGT_0 as P.
  assert (R0 : radians 0 = 0) by (unfold radians; field). assert (R9 : radians 90 = PI / 2) by (unfold radians; field).
  assert (R4 : radians 45 = PI / 4) by (unfold radians; field).
  unfold arctobezierpath. rewrite R0, R9, R4.
  replace (ltb (PI / 2) 0) with false by (symmetry; apply ltb_false; lra).
  replace (ltb (0 + 2 * PI) (PI / 2)) with false by (symmetry; apply ltb_false; lra).
  replace (eqb 5 0) with false by (symmetry; apply eqb_false; lra).
  replace (eqb (0 - PI / 2) 0) with false by (symmetry; apply eqb_false; lra).
  replace ((PI / 2 - 0) / (PI / 4)) with (1 / 2 * PI / (1 / 4 * PI)) by (field; lra).
  rewrite (floor_pi (1 / 2) (1 / 4) 2) by lra. simpl. split; [reflexivity|].
  f_equal. f_equal; field.
Qed.
