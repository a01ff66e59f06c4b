(** * Connectors go as their angles, bulges and lengths say (C111): curves and two lines *)

From Coq Require Import Reals List Bool Lra Psatz Nsatz.
From Verif Require Import CurveModel CurveSpec CurveProofs4 ArcSpec ArcProofs ConnectorModel ConnectorProps.
From Verif Require SvgArcProps3 TrafoModel RootsModel.
Import ListNotations.
Open Scope R_scope.

Local Notation pt := (R * R)%type.
Lemma radians_rad a : radians a = rad a.
Proof. unfold radians, TrafoModel.radians, rad. lra. Qed.

(** the angle of the straight line *)
Definition dangle (c1 c2 : pt) : R := atan2 (snd c2 - snd c1) (fst c2 - fst c1).
Lemma polar c1 c2 : c1 <> c2 -> c2 = (fst c1 + distance c1 c2 * cos (dangle c1 c2), snd c1 + distance c1 c2 * sin (dangle c1 c2)).
Proof.
  destruct c1 as [x1 y1], c2 as [x2 y2]. intros N. pose proof (distance_pos _ _ N) as D. rewrite distance_hypot in *. unfold dangle. cbn [fst snd].
  destruct (cos_sin_atan2 (y2 - y1) (x2 - x1)) as [C S]; [lra|]. rewrite C, S. f_equal; field; lra.
Qed.

(** An arc with 90 degrees over a distance of 10 begins upwards and ends downwards *)
Example arc_angle_ex : let s := arc (1 / 100000) (0, 0) (10, 0) 90 None None in begins_at s (PI / 2) /\ ends_at s (- (PI / 2)).
Proof.
  assert (DD : distance (0, 0) (10, 0) = 10).
  { unfold distance. cbn [fst snd]. replace ((0 - 10) ^ 2 + (0 - 0) ^ 2) with (10 * 10) by ring. apply sqrt_square. lra. }
  destruct (arc_angle (1 / 100000) (0, 0) (10, 0) 90 0) as [A B].
  - lra.
  - intros E; injection E; lra.
  - lra.
  - rewrite DD, cos_0, sin_0. cbn. f_equal; lra.
  - rewrite DD. replace (rad 90 / 2) with (PI / 4) by (unfold rad; lra). rewrite tan_PI4. rewrite Rabs_pos_eq; lra.
  - replace (0 + rad 90) with (PI / 2) in A by (unfold rad; lra). replace (0 - rad 90) with (- (PI / 2)) in B by (unfold rad; lra). split; assumption.
Qed.

(** The curve goes from center to center in the directions of the angles, with control points in the distance of the bulge *)
Theorem curve_connector : forall c1 c2 relangle1 relangle2 absangle1 absangle2 absbulge relbulge, c1 <> c2 ->
  distance c1 c2 * relbulge + absbulge <> 0 ->
  let s := curve c1 c2 relangle1 relangle2 absangle1 absangle2 absbulge relbulge in
  goes s c1 c2 /\
  begins_at s (match absangle1 with Some a => rad a | None => dangle c1 c2 + rad relangle1 end) /\
  ends_at s (match absangle2 with Some a => rad a | None => dangle c1 c2 + rad relangle2 end) /\
  exists p q, s = Bezier c1 p q c2 /\ distance c1 p = Rabs (distance c1 c2 * relbulge + absbulge) /\ distance q c2 = Rabs (distance c1 c2 * relbulge + absbulge).
Proof.
  intros [x1 y1] [x2 y2] r1 r2 a1 a2 ab rb N NZ s. rewrite distance_hypot in *.
  set (b := hypot (x2 - x1) (y2 - y1) * rb + ab) in *. assert (P : 0 < Rabs b) by (apply Rabs_pos_lt; exact NZ).
  unfold s, curve. cbv zeta. rewrite !radians_rad. fold b.
  assert (E1 : match a1 with Some a => radians a | None => atan2 (y2 - y1) (x2 - x1) + rad r1 end = match a1 with Some a => rad a | None => dangle (x1, y1) (x2, y2) + rad r1 end)
    by (destruct a1; [apply radians_rad|reflexivity]).
  assert (E2 : match a2 with Some a => radians a | None => atan2 (y2 - y1) (x2 - x1) + rad r2 end = match a2 with Some a => rad a | None => dangle (x1, y1) (x2, y2) + rad r2 end)
    by (destruct a2; [apply radians_rad|reflexivity]).
  rewrite E1, E2. set (f1 := match a1 with Some _ => _ | None => _ end). set (f2 := match a2 with Some _ => _ | None => _ end).
  split; [split; reflexivity|]. split; [exists (Rabs b); split; [exact P|cbn [fst snd]; f_equal; ring]|]. split; [exists (Rabs b); split; [exact P|cbn [fst snd]; f_equal; ring]|].
  eexists. eexists. split; [reflexivity|]. unfold distance. cbn [fst snd]. split.
  - transitivity (sqrt (Rabs b * Rabs b)); [f_equal|apply sqrt_square; lra]. transitivity (Rabs b * Rabs b * (cos f1 * cos f1 + sin f1 * sin f1)); [ring|rewrite trig; ring].
  - transitivity (sqrt (Rabs b * Rabs b)); [f_equal|apply sqrt_square; lra]. transitivity (Rabs b * Rabs b * (cos f2 * cos f2 + sin f2 * sin f2)); [ring|rewrite trig; ring].
Qed.
Print Assumptions curve_connector.

(** From (0, 0) to (10, 0) with an absolute angle of 90 degrees at the begin and a relative one of -90 degrees at the end *)
Example curve_connector_ex : exists p q, curve (0, 0) (10, 0) 45 (-90) (Some 90) None 1 0.2 = Bezier (0, 0) p q (10, 0) /\ distance (0, 0) p = 3 /\ distance q (10, 0) = 3.
Proof.
  assert (DD : distance (0, 0) (10, 0) = 10).
  { unfold distance. cbn [fst snd]. replace ((0 - 10) ^ 2 + (0 - 0) ^ 2) with (10 * 10) by ring. apply sqrt_square. lra. }
  destruct (curve_connector (0, 0) (10, 0) 45 (-90) (Some 90) None 1 0.2) as (_ & _ & _ & p & q & E & P & Q); [intros E; injection E; lra|rewrite DD; lra|].
  exists p, q. split; [exact E|]. rewrite DD in P, Q. replace (10 * 0.2 + 1) with 3 in P, Q by lra. rewrite Rabs_pos_eq in P, Q by lra. auto.
Qed.

(** The comment and the manual say that the default curve is nearly the default arc.  It is not: the arc is at the left side of the straight
    line and returns to it, the curve changes to the other side and ends in another direction. *)
Theorem default_curve_refuted : exists c1 c2,
  let a := default_arc (1 / 100000) c1 c2 in let c := default_curve c1 c2 in
  goes a c1 c2 /\ goes c c1 c2 /\ ends_at a (dangle c1 c2 - rad 45) /\ ends_at c (dangle c1 c2 + rad 45) /\
  (forall p, draws a p -> 0 <= left_of c1 c2 p) /\ exists p, draws c p /\ left_of c1 c2 p < 0.
Proof.
  exists (0, 0), (10, 0). assert (N : (0, 0) <> (10, 0)) by (intros E; injection E; lra).
  assert (DD : distance (0, 0) (10, 0) = 10).
  { unfold distance. cbn [fst snd]. replace ((0 - 10) ^ 2 + (0 - 0) ^ 2) with (10 * 10) by ring. apply sqrt_square. lra. }
  assert (TP : 1 / 10 < tan (rad 45 / 2)).
  { replace (rad 45 / 2) with (PI / 8) by (unfold rad; lra).
    assert (C : 0 < cos (PI / 8)) by (apply cos_gt_0; pose proof PI_RGT_0; lra). assert (S : 0 < sin (PI / 8)) by (apply sin_gt_0; pose proof PI_RGT_0; lra).
    assert (V : sin (PI / 4) = 2 * sin (PI / 8) * cos (PI / 8)) by (replace (PI / 4) with (2 * (PI / 8)) by lra; apply sin_2a).
    assert (W : 1 / 2 < sin (PI / 4)). { rewrite <- sin_PI6. apply sin_increasing_1; pose proof PI_RGT_0; lra. }
    unfold tan. apply (Rmult_lt_reg_r (cos (PI / 8))); [exact C|]. replace (sin (PI / 8) / cos (PI / 8) * cos (PI / 8)) with (sin (PI / 8)) by (field; lra).
    pose proof (COS_bound (PI / 8)). nra. }
  cbv zeta. unfold default_arc, default_curve.
  destruct (arc_connector (1 / 100000) (0, 0) (10, 0) 45 None None (10 / 2 * tan (rad 45 / 2))) as (G & _ & H); [lra|exact N|unfold bulge_is; rewrite DD; reflexivity|].
  rewrite Rabs_pos_eq in H by lra. destruct H as (H & _); [lra|].
  destruct (arc_angle (1 / 100000) (0, 0) (10, 0) 45 (dangle (0, 0) (10, 0))) as (_ & E); [lra|exact N|lra|apply polar; exact N|rewrite DD, Rabs_pos_eq; lra|].
  destruct (curve_connector (0, 0) (10, 0) 45 45 None None 0 0.39) as (G' & _ & E' & _); [exact N|rewrite DD; lra|].
  split; [exact G|]. split; [exact G'|]. split; [exact E|]. split; [exact E'|]. split; [intros p HP; apply H; [lra|exact HP]|].
  assert (A0 : atan2 (0 - 0) (10 - 0) = 0) by (unfold atan2; destruct (Rlt_dec 0 (10 - 0)); [replace ((0 - 0) / (10 - 0)) with 0 by field; apply atan_0|lra]).
  assert (HY : hypot (10 - 0) (0 - 0) = 10) by (rewrite <- distance_hypot; exact DD).
  eexists. split; [exists (3 / 4); split; [lra|reflexivity]|]. unfold left_of, curve, bernstein. cbn [fst snd]. rewrite A0, HY. rewrite Rabs_pos_eq by lra.
  assert (S : 0 < sin (0 + radians 45)). { rewrite radians_rad. unfold rad. apply sin_gt_0; pose proof PI_RGT_0; lra. }
  set (z := sin (0 + radians 45)) in *. clearbody z. nra.
Qed.
Print Assumptions default_curve_refuted.

(** ** Two lines *)
(** the relative angle e (mod whole turns) is given, to the right at the first center, and to the left of the way back at the second one *)
Definition angle1_is (D : R) (abs rel : option R) (e : R) : Prop :=
  exists k, match abs, rel with Some a, _ => D - rad a | None, Some r => rad r | None, None => e end = e + IZR k * (2 * PI) /\ (abs = None -> rel <> None).
Definition angle2_is (D : R) (abs rel : option R) (e : R) : Prop :=
  exists k, match abs, rel with Some a, _ => PI - D + rad a | None, Some r => rad r | None, None => e end = e + IZR k * (2 * PI) /\ (abs = None -> rel <> None).
(** angles of a triangle at its ends, to the right or to the left *)
Definition triangle (e1 e2 : R) : Prop := (0 < e1 /\ 0 < e2 /\ e1 + e2 < PI) \/ (e1 < 0 /\ e2 < 0 /\ - PI < e1 + e2).

Lemma angle1_val D abs rel e : angle1_is D abs rel e -> exists v k, match abs with Some a => Some (D - radians a) | None => option_map radians rel end = Some v /\ v = e + IZR k * (2 * PI).
Proof.
  intros (k & E & NN). destruct abs as [a|]; [|destruct rel as [r|]; [|exfalso; apply NN; reflexivity]]; eexists; exists k; (split; [reflexivity|]); rewrite radians_rad; exact E.
Qed.
Lemma angle2_val D abs rel e : angle2_is D abs rel e -> exists v k, match abs with Some a => Some (PI - D + radians a) | None => option_map radians rel end = Some v /\ v = e + IZR k * (2 * PI).
Proof.
  intros (k & E & NN). destruct abs as [a|]; [|destruct rel as [r|]; [|exfalso; apply NN; reflexivity]]; eexists; exists k; (split; [reflexivity|]); rewrite radians_rad; exact E.
Qed.

Lemma cos_turn_l x k : cos (x - IZR k * (2 * PI)) = cos x.
Proof. rewrite <- (cos_turn (x - IZR k * (2 * PI)) k). f_equal. lra. Qed.
Lemma sin_turn_l x k : sin (x - IZR k * (2 * PI)) = sin x.
Proof. rewrite <- (sin_turn (x - IZR k * (2 * PI)) k). f_equal. lra. Qed.

Lemma two_angles c1 c2 e1 e2 v1 k1 l1 : c1 <> c2 -> triangle e1 e2 -> v1 = e1 + IZR k1 * (2 * PI) ->
  l1 = distance c1 c2 * Rabs (sin e2 / sin (e1 + e2)) ->
  let s := Two c1 (middle_a c1 (dangle c1 c2) l1 v1) c2 in
  begins_at s (dangle c1 c2 - e1) /\ ends_at s (dangle c1 c2 + e2).
Proof.
  intros N T -> L s. pose proof (distance_pos _ _ N) as DP. pose proof (polar c1 c2 N) as PO. set (d := distance c1 c2) in *. set (D := dangle c1 c2) in *. clearbody d D.
  assert (Q : 0 < sin e2 / sin (e1 + e2) /\ 0 < sin e1 / sin (e1 + e2) /\ sin (e1 + e2) <> 0).
  { destruct T as [(A & B & C)|(A & B & C)].
    - pose proof (sin_gt_0 e1 ltac:(lra) ltac:(lra)). pose proof (sin_gt_0 e2 ltac:(lra) ltac:(lra)). pose proof (sin_gt_0 (e1 + e2) ltac:(lra) ltac:(lra)).
      split; [apply Rdiv_lt_0_compat; assumption|]. split; [apply Rdiv_lt_0_compat; assumption|lra].
    - pose proof (sin_gt_0 (- e1) ltac:(lra) ltac:(lra)) as H1. pose proof (sin_gt_0 (- e2) ltac:(lra) ltac:(lra)) as H2. pose proof (sin_gt_0 (- (e1 + e2)) ltac:(lra) ltac:(lra)) as H3.
      rewrite !sin_neg in *. split; [replace (sin e2 / sin (e1 + e2)) with ((- sin e2) / (- sin (e1 + e2))) by (field; lra); apply Rdiv_lt_0_compat; assumption|].
      split; [replace (sin e1 / sin (e1 + e2)) with ((- sin e1) / (- sin (e1 + e2))) by (field; lra); apply Rdiv_lt_0_compat; assumption|lra]. }
  destruct Q as (Q1 & Q2 & Q3). rewrite Rabs_pos_eq in L by lra. subst l1.
  unfold s, middle_a. replace (D - (e1 + IZR k1 * (2 * PI))) with (D - e1 - IZR k1 * (2 * PI)) by lra. rewrite cos_turn_l, sin_turn_l. cbn [begins_at ends_at fst snd]. split.
  - exists (d * (sin e2 / sin (e1 + e2))). split; [apply Rmult_lt_0_compat; assumption|reflexivity].
  - exists (d * (sin e1 / sin (e1 + e2))). split; [apply Rmult_lt_0_compat; assumption|]. rewrite PO at 1.
    f_equal; rewrite ?cos_plus, ?sin_plus, ?cos_minus, ?sin_minus in *; rewrite ?sin_plus in *; field_simplify_eq; try exact Q3; ring.
Qed.

(** Exactly two of the angles and lengths have to be given *)
Theorem twolines_count : forall c1 c2 abs1 abs2 rel1 rel2 relM l1 l2,
  let n o := match o : option R with Some _ => 1%nat | None => 0%nat end in
  let n1 := match abs1 with Some _ => 1%nat | None => n rel1 end in let n2 := match abs2 with Some _ => 1%nat | None => n rel2 end in
  (n1 + n2 + n relM + n l1 + n l2 = 2)%nat <-> exists m, twolines c1 c2 abs1 abs2 rel1 rel2 relM l1 l2 = Some (Two c1 m c2).
Proof.
  intros [x1 y1] [x2 y2] abs1 abs2 rel1 rel2 relM l1 l2. cbv zeta.
  destruct abs1, abs2, rel1, rel2, relM, l1, l2; cbn; (split; [intros H; try discriminate H; eexists; reflexivity|intros [m H]; try discriminate H; reflexivity]).
Qed.
Print Assumptions twolines_count.
Example twolines_count_ex : twolines (0, 0) (10, 0) None None (Some 45) None None None None = None /\
  twolines (0, 0) (10, 0) None None (Some 45) (Some 45) (Some 90) None None = None /\
  exists m, twolines (0, 0) (10, 0) (Some 45) None (Some 30) None None (Some 5) None = Some (Two (0, 0) m (10, 0)).
Proof. split; [reflexivity|]. split; [reflexivity|]. eexists. reflexivity. Qed.

(** Two angles of a triangle: the lines begin and end in these directions, and the angle in the middle completes the triangle *)
Theorem twolines_two_angles : forall c1 c2 abs1 abs2 rel1 rel2 e1 e2, c1 <> c2 -> triangle e1 e2 ->
  angle1_is (dangle c1 c2) abs1 rel1 e1 -> angle2_is (dangle c1 c2) abs2 rel2 e2 ->
  exists m, twolines c1 c2 abs1 abs2 rel1 rel2 None None None = Some (Two c1 m c2) /\
    begins_at (Two c1 m c2) (dangle c1 c2 - e1) /\ ends_at (Two c1 m c2) (dangle c1 c2 + e2).
Proof.
  intros c1 c2 abs1 abs2 rel1 rel2 e1 e2 N T A1 A2. destruct (angle1_val _ _ _ _ A1) as (v1 & k1 & V1 & K1). destruct (angle2_val _ _ _ _ A2) as (v2 & k2 & V2 & K2).
  destruct c1 as [x1 y1], c2 as [x2 y2]. unfold twolines. change (atan2 (y2 - y1) (x2 - x1)) with (dangle (x1, y1) (x2, y2)). rewrite <- distance_hypot. cbv zeta.
  rewrite V1, V2. cbn [option_map given Nat.add Nat.eqb negb]. eexists. split; [reflexivity|].
  apply (two_angles _ _ e1 e2 v1 k1 _ N T K1). f_equal. rewrite K1, K2, sin_turn. do 2 f_equal.
  rewrite <- (sin_PI_x (e1 + e2)), <- (sin_turn_l (PI - (e1 + e2)) (k1 + k2)). f_equal. rewrite plus_IZR. lra.
Qed.
Print Assumptions twolines_two_angles.
(** 45 degrees at both ends to the right of the line from (0, 0) to (10, 0), by the absolute angle -45 degrees and the relative angle *)
Example twolines_two_angles_ex : exists m, twolines (0, 0) (10, 0) (Some (-45)) None None (Some 45) None None None = Some (Two (0, 0) m (10, 0)) /\
  begins_at (Two (0, 0) m (10, 0)) (- (PI / 4)) /\ ends_at (Two (0, 0) m (10, 0)) (PI / 4).
Proof.
  assert (A0 : dangle (0, 0) (10, 0) = 0) by (unfold dangle, atan2; cbn [fst snd]; destruct (Rlt_dec 0 (10 - 0)); [replace ((0 - 0) / (10 - 0)) with 0 by field; apply atan_0|lra]).
  destruct (twolines_two_angles (0, 0) (10, 0) (Some (-45)) None None (Some 45) (PI / 4) (PI / 4)) as (m & E & B & F).
  - intros E; injection E; lra.
  - left. pose proof PI_RGT_0. lra.
  - exists 0%Z. split; [unfold rad; rewrite A0; lra|discriminate].
  - exists 0%Z. split; [unfold rad; lra|discriminate].
  - rewrite A0 in B, F. exists m. rewrite Rminus_0_l in B. rewrite Rplus_0_l in F. auto.
Qed.

(** One angle at an end and the angle in the middle *)
Definition third (e eM : R) : R := if Rlt_dec 0 e then PI - e - eM else - PI - e - eM.
Lemma third_turn e eM : exists j, PI - e - eM = third e eM + IZR j * (2 * PI).
Proof. unfold third. destruct (Rlt_dec 0 e); [exists 0%Z|exists 1%Z]; lra. Qed.
Lemma third_triangle e eM : triangle e eM -> triangle e (third e eM).
Proof. unfold triangle, third. pose proof PI_RGT_0. destruct (Rlt_dec 0 e); lra. Qed.
Lemma third_triangle2 e eM : triangle e eM -> triangle (third e eM) e.
Proof. unfold triangle, third. pose proof PI_RGT_0. destruct (Rlt_dec 0 e); lra. Qed.
Lemma sin_third e eM : sin (e + third e eM) = sin eM /\ sin (third e eM + e) = sin eM.
Proof.
  assert (H : sin (e + third e eM) = sin eM).
  { unfold third. destruct (Rlt_dec 0 e).
    - replace (e + (PI - e - eM)) with (PI - eM) by lra. apply sin_PI_x.
    - replace (e + (- PI - e - eM)) with (- (eM + PI)) by lra. rewrite sin_neg, neg_sin. lra. }
  split; [exact H|rewrite Rplus_comm; exact H].
Qed.

Theorem twolines_angle_middle1 : forall c1 c2 abs1 rel1 relM e1, c1 <> c2 -> triangle e1 (rad relM) -> angle1_is (dangle c1 c2) abs1 rel1 e1 ->
  exists m, twolines c1 c2 abs1 None rel1 None (Some relM) None None = Some (Two c1 m c2) /\
    begins_at (Two c1 m c2) (dangle c1 c2 - e1) /\
    ends_at (Two c1 m c2) (dangle c1 c2 + (if Rlt_dec 0 e1 then PI - e1 - rad relM else - PI - e1 - rad relM)).
Proof.
  intros c1 c2 abs1 rel1 relM e1 N T A1. destruct (angle1_val _ _ _ _ A1) as (v1 & k1 & V1 & K1).
  destruct c1 as [x1 y1], c2 as [x2 y2]. unfold twolines. change (atan2 (y2 - y1) (x2 - x1)) with (dangle (x1, y1) (x2, y2)). rewrite <- distance_hypot. cbv zeta.
  rewrite V1. cbn [option_map given Nat.add Nat.eqb negb]. rewrite radians_rad. eexists. split; [reflexivity|]. fold (third e1 (rad relM)).
  apply (two_angles _ _ e1 (third e1 (rad relM)) v1 k1 _ N (third_triangle _ _ T) K1). f_equal. f_equal.
  destruct (sin_third e1 (rad relM)) as [S _]. rewrite S. f_equal. destruct (third_turn e1 (rad relM)) as [j J]. rewrite K1.
  replace (PI - (e1 + IZR k1 * (2 * PI)) - rad relM) with (PI - e1 - rad relM - IZR k1 * (2 * PI)) by lra. rewrite sin_turn_l, J, sin_turn. reflexivity.
Qed.
Print Assumptions twolines_angle_middle1.

Theorem twolines_angle_middle2 : forall c1 c2 abs2 rel2 relM e2, c1 <> c2 -> triangle e2 (rad relM) -> angle2_is (dangle c1 c2) abs2 rel2 e2 ->
  exists m, twolines c1 c2 None abs2 None rel2 (Some relM) None None = Some (Two c1 m c2) /\
    begins_at (Two c1 m c2) (dangle c1 c2 - (if Rlt_dec 0 e2 then PI - e2 - rad relM else - PI - e2 - rad relM)) /\
    ends_at (Two c1 m c2) (dangle c1 c2 + e2).
Proof.
  intros c1 c2 abs2 rel2 relM e2 N T A2. destruct (angle2_val _ _ _ _ A2) as (v2 & k2 & V2 & K2).
  destruct c1 as [x1 y1], c2 as [x2 y2]. unfold twolines. change (atan2 (y2 - y1) (x2 - x1)) with (dangle (x1, y1) (x2, y2)). rewrite <- distance_hypot. cbv zeta.
  rewrite V2. cbn [option_map given Nat.add Nat.eqb negb]. rewrite radians_rad. eexists. split; [reflexivity|]. fold (third e2 (rad relM)).
  destruct (third_turn e2 (rad relM)) as [j J].
  apply (two_angles _ _ (third e2 (rad relM)) e2 _ (j - k2) _ N (third_triangle2 _ _ T)).
  - rewrite minus_IZR, K2. lra.
  - f_equal. f_equal. destruct (sin_third e2 (rad relM)) as [_ S]. rewrite S. f_equal. rewrite K2, sin_turn. reflexivity.
Qed.
Print Assumptions twolines_angle_middle2.

(** A right angle in the middle and 30 degrees at the first or at the second end *)
Example twolines_angle_middle_ex : (exists m, twolines (0, 0) (10, 0) None None (Some 30) None (Some 90) None None = Some (Two (0, 0) m (10, 0)) /\
    begins_at (Two (0, 0) m (10, 0)) (0 - PI / 6) /\ ends_at (Two (0, 0) m (10, 0)) (0 + PI / 3)) /\
  (exists m, twolines (0, 0) (10, 0) None None None (Some (-30)) (Some (-90)) None None = Some (Two (0, 0) m (10, 0)) /\
    begins_at (Two (0, 0) m (10, 0)) (0 - - (PI / 3)) /\ ends_at (Two (0, 0) m (10, 0)) (0 + - (PI / 6))).
Proof.
  assert (A0 : dangle (0, 0) (10, 0) = 0) by (unfold dangle, atan2; cbn [fst snd]; destruct (Rlt_dec 0 (10 - 0)); [replace ((0 - 0) / (10 - 0)) with 0 by field; apply atan_0|lra]).
  assert (N : (0, 0) <> (10, 0)) by (intros E; injection E; lra). pose proof PI_RGT_0 as PP. split.
  - destruct (twolines_angle_middle1 (0, 0) (10, 0) None (Some 30) 90 (PI / 6)) as (m & E & B & F); [exact N|left; unfold rad; lra|exists 0%Z; split; [unfold rad; lra|discriminate]|].
    exists m. rewrite A0 in B, F. destruct (Rlt_dec 0 (PI / 6)); [|lra]. replace (PI - PI / 6 - rad 90) with (PI / 3) in F by (unfold rad; lra). auto.
  - destruct (twolines_angle_middle2 (0, 0) (10, 0) None (Some (-30)) (-90) (- (PI / 6))) as (m & E & B & F); [exact N|right; unfold rad; lra|exists 0%Z; split; [unfold rad; lra|discriminate]|].
    exists m. rewrite A0 in B, F. destruct (Rlt_dec 0 (- (PI / 6))); [lra|]. replace (- PI - - (PI / 6) - rad (-90)) with (- (PI / 3)) in B by (unfold rad; lra). auto.
Qed.

(** Angles at different sides of the line do not meet; there is no error, and the angle at the second end is another one *)
Theorem twolines_two_sides_refuted : exists c1 c2 a1 a2 m, c1 <> c2 /\ 0 < rad a1 < PI /\ - PI < rad a2 < 0 /\
  twolines c1 c2 None None (Some a1) (Some a2) None None None = Some (Two c1 m c2) /\ ~ ends_at (Two c1 m c2) (dangle c1 c2 + rad a2).
Proof.
  assert (A0 : dangle (0, 0) (1, 0) = 0) by (unfold dangle, atan2; cbn [fst snd]; destruct (Rlt_dec 0 (1 - 0)); [replace ((0 - 0) / (1 - 0)) with 0 by field; apply atan_0|lra]).
  pose proof PI_RGT_0 as PP. exists (0, 0), (1, 0), 90, (-45). eexists.
  split; [intros E; injection E; lra|]. split; [unfold rad; lra|]. split; [unfold rad; lra|]. split; [reflexivity|].
  rewrite A0. change (atan2 (0 - 0) (1 - 0)) with (dangle (0, 0) (1, 0)). rewrite A0. cbn [ends_at]. intros (l & L & E). unfold middle_a in E. cbn [fst snd] in E. injection E as EX EY.
  rewrite !radians_rad in *. assert (S : sin (0 - rad 90) = -1) by (replace (0 - rad 90) with (- (PI / 2)) by (unfold rad; lra); rewrite sin_neg, sin_PI2; reflexivity).
  rewrite S in EY. assert (S2 : sin (0 + rad (-45)) < 0). { apply sin_lt_0_var; unfold rad; lra. }
  match type of EY with context [Rabs ?x] => pose proof (Rabs_pos x) as RP end.
  assert (HP : 0 <= hypot (1 - 0) (0 - 0)) by (unfold hypot; apply sqrt_pos). nra.
Qed.
Print Assumptions twolines_two_sides_refuted.
