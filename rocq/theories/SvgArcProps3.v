(** What is drawn for an elliptic arc. *)
From Coq Require Import Reals Bool List Lra Lia.
From Verif Require Import TrafoModel BboxModel CurveModel CurveSpec CurveProofs2 CurveProofs4 ArcModel ArcSpec ArcProofs ArcProps ArcSpeedProps NormsubModel NormsubSpec NormsubProofs NormsubProofs2 NormsubProofs3 NormsubProofs4 NormsubProps NormsubProps2 NormpathModel PathModel PathSpec PathNormModel PathNormProofs PathNormProps SvgInModel SvgArcProps SvgArcProps2.
Import ListNotations.
Open Scope R_scope.

Local Notation pt := (R * R)%type.

Lemma atan2_range y x : - PI <= atan2 y x <= PI.
Proof.
  assert (P := PI_RGT_0). unfold atan2.
  destruct (Rlt_dec 0 x) as [X|X]; [destruct (atan_bound (y / x)); lra|].
  destruct (Rlt_dec x 0) as [X'|X'].
  - destruct (atan_bound (y / x)) as [A B]. destruct (Rge_dec y 0) as [Y|Y].
    + assert (atan (y / x) <= 0); [|lra]. destruct (Rle_lt_dec (atan (y / x)) 0) as [|G]; auto. exfalso.
      assert (y / x <= 0) by (replace (y / x) with (- (y * / - x)) by (field; lra); assert (0 <= y * / - x) by (apply Rmult_le_pos; [lra|apply Rlt_le, Rinv_0_lt_compat; lra]); lra).
      destruct (Rle_lt_or_eq_dec _ _ H) as [L|L]; [assert (T := atan_increasing _ _ L); rewrite atan_0 in T; lra|rewrite L, atan_0 in G; lra].
    + assert (0 <= atan (y / x)); [|lra]. destruct (Rle_lt_dec 0 (atan (y / x))) as [|G]; auto. exfalso.
      assert (0 < y / x) by (replace (y / x) with (- y * / - x) by (field; lra); apply Rmult_lt_0_compat; [lra|apply Rinv_0_lt_compat; lra]).
      assert (T := atan_increasing _ _ H). rewrite atan_0 in T. lra.
  - destruct (Rlt_dec 0 y); [lra|]. destruct (Rlt_dec y 0); lra.
Qed.
Lemma center_range p1 p2 fA fS rx ry phi a : center_params p1 p2 fA fS rx ry phi = Some a -> - PI <= theta1 a <= PI /\ - PI <= theta2 a <= PI.
Proof.
  unfold center_params. cbv zeta. match goal with |- (if ?b then _ else _) = _ -> _ => destruct b; [discriminate|] end.
  intros E. assert (a = a) by reflexivity. injection E as <-. cbn [theta1 theta2]. split; apply atan2_range.
Qed.

(** items stretched by the smaller of the radii *)
Lemma fast_stretched e e' m (k : R) i : 0 <= e -> 0 <= e' -> 0 <= k -> e' <= k * e -> (forall p q, k * distance p q <= distance (apply_pt m p) (apply_pt m q)) ->
  fast e i -> fast e' (item_transformed m i).
Proof.
  intros He He' Hk L M F. apply nrm_fast; auto. intros t Ht. rewrite velocity_trafo, <- distance_nrm.
  eapply Rle_trans; [exact L|]. apply Rle_trans with (k * distance (0, 0) (velocity i t)).
  - apply Rmult_le_compat_l; auto. rewrite distance_nrm. replace (vsub (velocity i t) (0, 0)) with (velocity i t) by (destruct (velocity i t); unfold vsub; simpl; f_equal; ring).
    now apply fast_nrm.
  - apply M.
Qed.
Lemma ellipse_stretch_below a phi p q : 0 <= rad_x a -> 0 <= rad_y a ->
  Rmin (rad_x a) (rad_y a) * distance p q <= distance (apply_pt (ellipse_trafo a phi) p) (apply_pt (ellipse_trafo a phi) q).
Proof.
  intros X Y. assert (M : 0 <= Rmin (rad_x a) (rad_y a)) by (apply Rmin_glb; auto).
  set (m := Rmin (rad_x a) (rad_y a)) in *. unfold distance.
  assert (S2 := sin2_cos2 (radians phi)). unfold Rsqr in S2.
  rewrite <- (sqrt_Rsqr m M), <- sqrt_mult; [|apply Rle_0_sqr|apply Rplus_le_le_0_compat; rewrite <- Rsqr_pow2; apply Rle_0_sqr].
  apply sqrt_le_1_alt. unfold apply_pt, ellipse_trafo, tmul. cbn -[cos sin radians pow Rmult Rplus].
  set (c := cos (radians phi)) in *. set (s := sin (radians phi)) in *.
  set (dx := fst p - fst q). set (dy := snd p - snd q).
  match goal with |- _ <= ?L => replace L with ((s * s + c * c) * ((rad_x a * dx) ^ 2 + (rad_y a * dy) ^ 2)) by (unfold dx, dy; ring) end.
  rewrite S2, Rmult_1_l. unfold Rsqr. 
  assert (H : forall r d, m <= r -> m * m * d ^ 2 <= (r * d) ^ 2).
  { intros r d R1. replace ((r * d) ^ 2) with (r * r * d ^ 2) by ring. apply Rmult_le_compat_r; [rewrite <- Rsqr_pow2; apply Rle_0_sqr|]. apply Rmult_le_compat; lra. }
  assert (H1 := H (rad_x a) dx (Rmin_l _ _)). assert (H2 := H (rad_y a) dy (Rmin_r _ _)). lra.
Qed.
Lemma translate_stretch x y p q : 1 * distance p q <= distance (apply_pt (translate_pt x y) p) (apply_pt (translate_pt x y) q).
Proof. rewrite Rmult_1_l. unfold distance, apply_pt, translate_pt. cbn [fst snd m00 m01 m10 m11 v0 v1]. right. f_equal. ring. Qed.

Lemma transformed_fast f e m s p q : 0 < e -> epsilon s = Some e -> closed s = false -> skipped s = None -> chained p (items s) q ->
  Forall (fast e) (map (item_transformed m) (items s)) ->
  nsp_transformed (S (S f)) m s = Ok (mknsp (map (item_transformed m) (items s)) false (Some e) None).
Proof.
  intros He E C K Ch F. unfold nsp_transformed. rewrite E, C, K.
  assert (M := make_fast e f _ _ _ false He (chained_transformed m _ _ _ Ch) F ltac:(discriminate)). unfold make in M.
  destruct (extend _ _ _) as [s'| |]; try discriminate. exact M.
Qed.

(** the items on the unit circle *)
Definition unit_items (fS : bool) (a : arcparams) : list item :=
  if fS then arc_items 0 0 1 (theta1 a * 180 / PI) (theta2 a * 180 / PI) else arcn_items 0 0 1 (theta1 a * 180 / PI) (theta2 a * 180 / PI).
Lemma rad_deg t : rad (t * 180 / PI) = t.
Proof. unfold rad. field. apply PI_neq0. Qed.
Lemma unit_items_ok (fS : bool) a d j : 0 < d < 2 * PI -> theta2 a = theta1 a + (if fS then d else - d) + 2 * PI * IZR j ->
  - PI <= theta1 a <= PI -> - PI <= theta2 a <= PI ->
  chained (cos (theta1 a), sin (theta1 a)) (unit_items fS a) (cos (theta2 a), sin (theta2 a)) /\ Forall (fast (sin (Rmin d (PI / 8)))) (unit_items fS a).
Proof.
  intros D E R1 R2. assert (P := PI_RGT_0).
  assert (PT : forall t, arcpoint 0 0 1 (t * 180 / PI) = (cos t, sin t)).
  { intros t. unfold arcpoint, radians. replace (PI * (t * 180 / PI) / 180) with t by (field; lra). f_equal; ring. }
  assert (AE : forall t u k, u = t + d + 2 * PI * IZR k -> - PI <= t <= PI -> - PI <= u <= PI ->
    Forall (fast (sin (Rmin d (PI / 8)))) (arc_items 0 0 1 (t * 180 / PI) (u * 180 / PI))).
  { intros t u k Eu T U. assert (F := arc_items_fast 0 0 1 (t * 180 / PI) (u * 180 / PI) (t + d) ltac:(lra)). rewrite !rad_deg in F.
    replace (t + d - t) with d in F by ring. rewrite Rmult_1_l in F. apply F; [|lra].
    destruct (Rle_lt_dec t u) as [L|L].
    - left. split; auto. assert (k = 0%Z) as ->; [|lra].
      assert (X : 2 * PI * IZR k < 2 * PI * 1) by lra. assert (Y : 2 * PI * (-1) < 2 * PI * IZR k) by lra.
      apply Rmult_lt_reg_l in X; [|lra]. apply Rmult_lt_reg_l in Y; [|lra]. apply lt_IZR in X, Y. lia.
    - right. split; auto. split; [|lra]. exists (- k)%Z. rewrite opp_IZR, Eu. ring. }
  unfold unit_items. destruct fS.
  - destruct (arc_items_chained 0 0 1 (theta1 a * 180 / PI) (theta2 a * 180 / PI)) as [C _]. rewrite !PT in C. split; auto. apply (AE _ _ j); auto.
  - destruct (arcn_items_chained 0 0 1 (theta1 a * 180 / PI) (theta2 a * 180 / PI)) as [C _]. rewrite !PT in C. split; auto.
    unfold arcn_items. apply fast_rev.
    + assert (0 < Rmin d (PI / 8)) by (apply Rmin_glb_lt; lra). assert (Rmin d (PI / 8) <= PI / 8) by apply Rmin_r. apply sin_ge_0; lra.
    + apply (AE _ _ (- j)%Z); auto. rewrite opp_IZR. lra.
Qed.
Lemma unit_convert f e fS a p q : 0 < e -> chained p (unit_items fS a) q -> Forall (fast e) (unit_items fS a) ->
  convert (S (S f)) e [unit_arc fS a] = Ok [mknsp (unit_items fS a) false (Some e) None].
Proof.
  intros He C F. unfold unit_arc, unit_items, convert in *. destruct fS; cbn [create_normpath createcontext updates].
  - rewrite (make_fast e f _ p q false He C F ltac:(discriminate)). reflexivity.
  - unfold arcn_items in *. apply chained_rev in C. apply fast_rev in F; [|lra]. rewrite rev_rev in C, F.
    rewrite (make_fast e f _ q p false He C F ltac:(discriminate)). cbn [bind]. unfold path_reversed. cbn [rev app all_ok]. unfold nsp_reversed. cbn [items closed epsilon].
    apply chained_rev in C. apply fast_rev in F; [|lra].
    rewrite (make_fast e f _ p q false He C F ltac:(discriminate)). reflexivity.
Qed.

(** The points of the curve are on the ellipse, with an error of at most 1e-5 of the radii. *)
Theorem svg_arc_drawn : forall f e p1 p2 (fA fS : bool) rx ry phi, 0 < e -> rx <> 0 -> ry <> 0 -> p1 <> p2 ->
  exists m k d t u j, 1 <= k /\ 0 < d < 2 * PI /\ (if fA then PI <= d else d <= PI) /\ u = t + (if fS then d else - d) + 2 * PI * IZR j /\
  ellipse_at m (k * Rabs rx) (k * Rabs ry) phi t = p1 /\ ellipse_at m (k * Rabs rx) (k * Rabs ry) phi u = p2 /\
  (e <= sin (Rmin d (PI / 8)) -> e <= k * Rmin (Rabs rx) (Rabs ry) * sin (Rmin d (PI / 8)) ->
   exists l, endpointarc (S (S f)) e p1 p2 fA fS rx ry phi = Ok [mknsp l false (Some e) None] /\ connected p1 l p2 /\
     forall i x, In i l -> 0 <= x <= 1 -> exists w r, 1 <= r <= 1 + 1 / 100000 /\
       at_pt i x = ellipse_at m (r * (k * Rabs rx)) (r * (k * Rabs ry)) phi w).
Proof.
  intros f e p1 p2 fA fS rx ry phi He RX RY D. assert (P := PI_RGT_0).
  destruct (svg_arc_center p1 p2 fA fS rx ry phi RX RY D) as (a & m & k & d & j & C & E1 & E2 & K & AX & AY & _ & D2 & ET & FA).
  destruct (center_range _ _ _ _ _ _ _ _ C) as [R1 R2].
  exists m, k, d, (theta1 a), (theta2 a), j. rewrite <- AX, <- AY. split; auto. split; auto. split; auto. split; auto. split; auto. split; auto.
  intros S1 S2.
  assert (S2' : e <= Rmin (rad_x a) (rad_y a) * sin (Rmin d (PI / 8))).
  { eapply Rle_trans; [exact S2|]. right. f_equal. rewrite AX, AY. unfold Rmin. destruct (Rle_dec (Rabs rx) (Rabs ry)), (Rle_dec (k * Rabs rx) (k * Rabs ry)); auto; exfalso; apply n.
    - apply Rmult_le_compat_l; lra.
    - apply Rmult_le_reg_l with k; lra. }
  destruct (unit_items_ok fS a d j D2 ET R1 R2) as [Ch F].
  set (v := sin (Rmin d (PI / 8))) in *. assert (V0 : 0 < v) by lra.
  assert (F' : Forall (fast e) (unit_items fS a)).
  { rewrite Forall_forall in *. intros i I. apply nrm_fast; [lra|]. intros t Ht. eapply Rle_trans; [exact S1|]. apply fast_nrm; auto. }
  assert (X0 : 0 <= rad_x a) by (rewrite AX; apply Rmult_le_pos; [lra|apply Rabs_pos]). assert (Y0 : 0 <= rad_y a) by (rewrite AY; apply Rmult_le_pos; [lra|apply Rabs_pos]).
  set (T := ellipse_trafo a phi) in *.
  assert (F1 : Forall (fast e) (map (item_transformed T) (unit_items fS a))).
  { rewrite Forall_forall in *. intros i I. apply in_map_iff in I as (i0 & <- & I). apply (fast_stretched v e T (Rmin (rad_x a) (rad_y a))); auto; try lra.
    - apply Rmin_glb; auto.
    - intros x y. apply ellipse_stretch_below; auto. }
  assert (Ch1 := chained_transformed T _ _ _ Ch).
  set (q := apply_pt T (cos (theta1 a), sin (theta1 a))) in *.
  set (Tr := translate_pt (fst p1 - fst q) (snd p1 - snd q)) in *.
  assert (F2 : Forall (fast e) (map (item_transformed Tr) (map (item_transformed T) (unit_items fS a)))).
  { rewrite Forall_forall in *. intros i I. apply in_map_iff in I as (i0 & <- & I). apply (fast_stretched e e Tr 1); auto; try lra. intros x y. apply translate_stretch. }
  assert (Ch2 := chained_transformed Tr _ _ _ Ch1).
  assert (EV : forall t, ellipse_at m (rad_x a) (rad_y a) phi t = apply_pt Tr (apply_pt T (cos t, sin t))).
  { intros t. assert (X : fst m = fst p1 - fst q /\ snd m = snd p1 - snd q).
    { rewrite <- E1. unfold q, T. rewrite svg_arc_trafo. unfold ellipse_at. cbn [fst snd]. split; ring. }
    destruct X as [X Y]. unfold Tr, T. rewrite svg_arc_trafo. rewrite <- X, <- Y. unfold apply_pt, translate_pt, ellipse_at. cbn [fst snd m00 m01 m10 m11 v0 v1]. f_equal; ring. }
  fold q in Ch2. unfold q in Ch2. rewrite <- !EV, E1, E2 in Ch2.
  exists (map (item_transformed Tr) (map (item_transformed T) (unit_items fS a))). split; [|split].
  - unfold endpointarc. replace (eqb rx 0) with false by (symmetry; now apply eqb_false). replace (eqb ry 0) with false by (symmetry; now apply eqb_false). cbn [orb].
    rewrite C, (unit_convert f e fS a _ _ He Ch F'). cbn [bind]. unfold path_transformed. cbn [all_ok].
    fold T. rewrite (transformed_fast f e T (mknsp (unit_items fS a) false (Some e) None) _ _ He eq_refl eq_refl eq_refl Ch F1). cbn [bind items path_atbegin].
    assert (B : nsp_atbegin (mknsp (map (item_transformed T) (unit_items fS a)) false (Some e) None) = Some q).
    { unfold nsp_atbegin. cbn [items]. destruct (map (item_transformed T) (unit_items fS a)) as [|i l] eqn:L.
      - exfalso. cbn [chained map] in Ch2. congruence.
      - destruct Ch1 as [B _]. unfold q. now rewrite B. }
    rewrite B. fold Tr. cbn [all_ok]. rewrite (transformed_fast f e Tr (mknsp (map (item_transformed T) (unit_items fS a)) false (Some e) None) _ _ He eq_refl eq_refl eq_refl Ch1 F2). reflexivity.
  - apply chained_connected. exact Ch2.
  - intros i x I Hx. apply in_map_iff in I as (i1 & <- & I). apply in_map_iff in I as (i0 & <- & I).
    assert (AT : forall M i t, at_pt (item_transformed M i) t = apply_pt M (at_pt i t)).
    { intros M i t. destruct i as [[x0 y0] [x1 y1]|[x0 y0] [x1 y1] [x2 y2] [x3 y3]]; simpl; unfold apply_pt, curve_coord; simpl; f_equal; ring. }
    rewrite !AT.
    assert (U : 1 <= fst (at_pt i0 x) ^ 2 + snd (at_pt i0 x) ^ 2 <= 1 + 1 / 100000).
    { assert (G : forall b1 b2 i t, In i (arc_items 0 0 1 b1 b2) -> 0 <= t <= 1 -> 1 <= fst (at_pt i t) ^ 2 + snd (at_pt i t) ^ 2 <= 1 + 1 / 100000).
      { intros b1 b2 i t H Ht. assert (H' : In (Some i) (arctobezierpath 0 0 1 b1 b2 45)).
        { unfold arc_items in H. apply in_flat_map in H as (o & H & O). destruct o as [i'|]; [|destruct O]. destruct O as [->|[]]. exact H. }
        destruct (arc_curves_close 0 0 1 b1 b2 i H') as [Q _]. specialize (Q t Ht). rewrite !Rminus_0_r in Q. lra. }
      unfold unit_items in I. destruct fS; [now apply (G _ _ _ _ I)|]. unfold arcn_items in I. apply in_map_iff in I as (i2 & <- & I). apply in_rev in I.
      assert (RV : at_pt (item_reversed i2) x = at_pt i2 (1 - x)) by (destruct i2 as [[x0 y0] [x1 y1]|[x0 y0] [x1 y1] [x2 y2] [x3 y3]]; simpl; unfold curve_coord; simpl; f_equal; ring).
      rewrite RV. apply (G _ _ _ _ I). lra. }
    destruct (at_pt i0 x) as [ux uy]. cbn [fst snd] in U. set (r := sqrt (ux ^ 2 + uy ^ 2)).
    assert (RR := sqrt_sqrt (ux ^ 2 + uy ^ 2) ltac:(lra)). fold r in RR.
    assert (R1' : 1 <= r) by (unfold r; rewrite <- sqrt_1; apply sqrt_le_1_alt; lra).
    assert (R2' : r <= 1 + 1 / 100000) by nra.
    destruct (atan2_unit (ux / r) (uy / r)) as [CW SW].
    { replace (ux / r * (ux / r) + uy / r * (uy / r)) with ((ux ^ 2 + uy ^ 2) / (r * r)) by (field; lra). rewrite RR. field. lra. }
    exists (atan2 (uy / r) (ux / r)), r. split; [lra|].
    assert (X : fst m = fst p1 - fst q /\ snd m = snd p1 - snd q).
    { rewrite <- E1. unfold q, T. rewrite svg_arc_trafo. unfold ellipse_at. cbn [fst snd]. split; ring. }
    destruct X as [X Y]. unfold Tr. rewrite <- X, <- Y. unfold ellipse_at. rewrite CW, SW.
    unfold apply_pt, translate_pt, T, ellipse_trafo, tmul, radians. cbn -[cos sin PI Rmult Rplus]. f_equal; field; lra.
Qed.
Print Assumptions svg_arc_drawn.
Example svg_arc_drawn_ex : exists l, endpointarc 2 (1 / 10) (0, 0) (6, 8) true false (-20) 10 30 = Ok [mknsp l false (Some (1 / 10)) None] /\ connected (0, 0) l (6, 8).
Proof.
  assert (P := PI_RGT_0). 
  assert (S8 : 1 / 4 <= sin (PI / 8)).
  { assert (E : sin (PI / 4) = 2 * sin (PI / 8) * cos (PI / 8)) by (rewrite <- sin_2a; f_equal; field).
    assert (sin (PI / 6) <= sin (PI / 4)) by (apply sin_incr_1; lra). rewrite sin_PI6 in H. assert (C := COS_bound (PI / 8)).
    assert (0 <= sin (PI / 8)) by (apply sin_ge_0; lra). nra. }
  destruct (svg_arc_drawn 0 (1 / 10) (0, 0) (6, 8) true false (-20) 10 30) as (m & k & d & t & u & j & K & D & FA & _ & _ & _ & H); try lra; [intros E; injection E; lra|].
  rewrite Rmin_right in H by lra. rewrite Rabs_left, Rabs_pos_eq, Rmin_right in H by lra.
  destruct H as (l & E & C & _); [lra|nra|]. eauto.
Qed.
