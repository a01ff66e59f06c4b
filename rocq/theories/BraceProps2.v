(** The places and the thickness of braces.  C134. *)
From Coq Require Import Reals List Bool Lia.
From Verif Require Import TrafoModel CurveModel CurveProofs4 BoxModel BoxAlign DeformModel DecoModel DecoSpec BraceModel BraceProps.
From Coq Require Import Lra.
Import ListNotations.
Open Scope R_scope.

(** a brace from one point to another: the two tips are curves with control points on both sides of the given points, the middle is at the relative
    position [middlerelpos] of the line between them, in the distance [totalheight] to the left of this line *)
Theorem brace_places : forall b x0 y0 x1 y1 l, (x0, y0) <> (x1, y1) -> bracepath b x0 y0 x1 y1 = Some l ->
  let n := sqrt ((x1 - x0) * (x1 - x0) + (y1 - y0) * (y1 - y0)) in
  (exists a c d e, nth_error l 4 = Some (BCurve a c d e) /\ middle c d = (x0, y0)) /\
  (exists a c d e, nth_error l 11 = Some (BCurve a c d e) /\ middle c d = (x1, y1)) /\
  (exists s t, nth_error l 0 = Some s /\ nth_error l 15 = Some t /\ bend t = bstart s /\
    bstart s = (x0 + middlerelpos b * (x1 - x0) - totalheight b * ((y1 - y0) / n), y0 + middlerelpos b * (y1 - y0) + totalheight b * ((x1 - x0) / n))).
Proof.
  intros b x0 y0 x1 y1 l N E. cbv zeta. set (n := sqrt _). assert (hyp (x1 - x0, y1 - y0) = n) as EN by reflexivity.
  destruct (brace_closed _ _ _ _ _ _ E) as [_ CL]. specialize (CL 15%nat ltac:(lia)). simpl in CL. revert CL.
  unfold bracepath, half in E. cbv zeta in E. unfold leftlength in E. rewrite EN in E.
  destruct (half_points b (middlerelpos b * n) _ _ _ _ _ _ _) as [hl|] eqn:L; [|discriminate].
  destruct (half_points b (_ - _) _ _ _ _ _ _ _) as [hr|] eqn:R; [|discriminate].
  injection E as <-. intros CL.
  destruct (half_known _ _ _ _ _ _ _ _ _ _ L) as (dl & ml & FL). destruct (half_known _ _ _ _ _ _ _ _ _ _ R) as (dr & mr & FR).
  destruct (placed_vec x0 y0 x1 y1 (middlerelpos b * n)) as (c & s & _ & _ & V & NC). specialize (NC N). cbv zeta in NC. rewrite EN in NC. destruct NC as (NP & C & S).
  assert (c = (x1 - x0) / n) as C' by (rewrite <- C; field; lra). assert (s = (y1 - y0) / n) as S' by (rewrite <- S; field; lra).
  split; [|split].
  - do 4 eexists. split; [reflexivity|]. rewrite !V, !mirror90_is, (f_i1 _ _ _ _ _ _ _ _ _ _ _ _ FL), (f_i2 _ _ _ _ _ _ _ _ _ _ _ _ FL).
    unfold middle, px, py. cbn [fst snd]. apply f_equal2; lra.
  - do 4 eexists. split; [reflexivity|]. rewrite !V, (f_i1 _ _ _ _ _ _ _ _ _ _ _ _ FR), (f_i2 _ _ _ _ _ _ _ _ _ _ _ _ FR).
    unfold middle, px, py. cbn [fst snd]. apply f_equal2; lra.
  - eexists. eexists. split; [reflexivity|]. split; [reflexivity|]. split; [apply CL; reflexivity|].
    cbn [bstart]. change (bstart (map_bseg _ _)) with (placed x0 y0 x1 y1 (middlerelpos b * n) (mirror90 (P_ hl))).
    rewrite !V, !mirror90_is, (f_p _ _ _ _ _ _ _ _ _ _ _ _ FL). unfold px, py. cbn [fst snd]. rewrite <- C', <- S', <- C, <- S.
    apply f_equal2; ring.
Qed.
Print Assumptions brace_places.

Lemma distance_vec : forall p q, distance p q = hyp (vec p q).
Proof. reflexivity. Qed.
Lemma hyp_mult : forall k c s, c * c + s * s = 1 -> hyp (k * c, k * s) = Rabs k.
Proof.
  intros k c s U. unfold hyp, px, py. cbn [fst snd]. rewrite <- sqrt_Rsqr_abs. f_equal. unfold Rsqr.
  replace (k * c * (k * c) + k * s * (k * s)) with (k * k * (c * c + s * s)) by ring. rewrite U. ring.
Qed.
Lemma hyp_turn : forall c s v, c * c + s * s = 1 -> hyp (c * px v - s * py v, s * px v + c * py v) = hyp v.
Proof.
  intros c s v U. unfold hyp, px, py. cbn [fst snd]. f_equal.
  replace ((c * fst v - s * snd v) * (c * fst v - s * snd v) + (s * fst v + c * snd v) * (s * fst v + c * snd v)) with ((c * c + s * s) * (fst v * fst v + snd v * snd v)) by ring.
  rewrite U. ring.
Qed.
Lemma unit_radians : forall a, cos (radians a) * cos (radians a) + sin (radians a) * sin (radians a) = 1.
Proof. intros a. pose proof (sin2_cos2 (radians a)) as T. unfold Rsqr in T. lra. Qed.

(** the inner and the outer strokes have their thickness (between A1 and A2, and between the control points of the tip), but the bar, between D1 and D2
    and between E1 and E2, has twice the thickness given *)
Theorem brace_thickness_partial : forall b x0 y0 x1 y1 l, bracepath b x0 y0 x1 y1 = Some l ->
  (forall s t, nth_error l 8 = Some s -> nth_error l 14 = Some t -> distance (bstart s) (bend t) = Rabs (innerthickness b)) /\
  (forall a c d e, nth_error l 11 = Some (BCurve a c d e) -> distance c d = Rabs (outerthickness b)) /\
  (forall s t, nth_error l 9 = Some s -> nth_error l 13 = Some t ->
     distance (bstart s) (bend t) = 2 * Rabs (barthickness b) /\ distance (bend s) (bstart t) = 2 * Rabs (barthickness b)).
Proof.
  intros b x0 y0 x1 y1 l. unfold bracepath, half. cbv zeta.
  destruct (half_points b (leftlength b x0 y0 x1 y1) _ _ _ _ _ _ _) as [hl|] eqn:L; [|discriminate].
  destruct (half_points b (_ - _) _ _ _ _ _ _ _) as [hr|] eqn:R; [|discriminate].
  intros E. injection E as <-. destruct (half_known _ _ _ _ _ _ _ _ _ _ R) as (dr & mr & FR). clear L R.
  destruct (placed_vec x0 y0 x1 y1 (leftlength b x0 y0 x1 y1)) as (c & s & U & V & _). split; [|split].
  - intros p q P Q. injection P as <-. injection Q as <-. rewrite distance_vec. cbn [bstart bend]. rewrite V, hyp_turn by exact U.
    rewrite (f_a2 _ _ _ _ _ _ _ _ _ _ _ _ FR). apply hyp_mult. apply unit_radians.
  - intros p q r t P. injection P as <- <- <- <-. rewrite distance_vec, V, hyp_turn by exact U.
    assert (vec (I1 hr) (I2 hr) = (outerthickness b * co (half_angles b (slantangle b)), outerthickness b * so (half_angles b (slantangle b)))) as W.
    { rewrite (f_i1 _ _ _ _ _ _ _ _ _ _ _ _ FR), (f_i2 _ _ _ _ _ _ _ _ _ _ _ _ FR). unfold vec, px, py. cbn [fst snd]. apply f_equal2; lra. }
    rewrite W. apply hyp_mult. apply unit_radians.
  - intros p q P Q. injection P as <-. injection Q as <-. rewrite !distance_vec. cbn [bstart bend]. rewrite !V, !hyp_turn by exact U.
    rewrite (f_dd _ _ _ _ _ _ _ _ _ _ _ _ FR), (f_ee _ _ _ _ _ _ _ _ _ _ _ _ FR). pose proof (f_unit _ _ _ _ _ _ _ _ _ _ _ _ FR) as UD.
    assert (hyp (- (2 * barthickness b * py dr), 2 * barthickness b * px dr) = 2 * Rabs (barthickness b)) as W; [|split; exact W].
    replace (- (2 * barthickness b * py dr), 2 * barthickness b * px dr) with ((2 * barthickness b) * - py dr, (2 * barthickness b) * px dr) by (apply f_equal2; ring).
    rewrite hyp_mult by lra. rewrite Rabs_mult. rewrite (Rabs_right 2) by lra. reflexivity.
Qed.
Print Assumptions brace_thickness_partial.

(** the slope of the bar of a half: with relative heights adding up to one the bar is parallel to the line between the ends only when the inner
    strokes have no thickness, or the sine of their angle is one third *)
Theorem brace_bar_slope : forall b length sl h, ci (half_angles b sl) <> 0 -> co (half_angles b sl) <> 0 -> half b length sl = Some h ->
  forall x y, (x, y) = vec (q2 (totalheight b) (innerthickness b) (innerrelheight b * totalheight b / ci (half_angles b sl)) (half_angles b sl))
                           (q5 length (outerrelheight b * totalheight b / co (half_angles b sl)) (half_angles b sl)) ->
  y = (innerrelheight b + outerrelheight b - 1) * totalheight b + innerthickness b * (1.5 - 0.5 / sin (radians (0.5 * innerangle b + sl))) /\
  exists k, vec (D1 h) (E1 h) = (k * x, k * y) /\ vec (D2 h) (E2 h) = (k * x, k * y).
Proof.
  intros b length sl h NI NO H x y XY. unfold half in H. cbv zeta in H. set (a := half_angles b sl) in *.
  destruct (half_known _ _ _ _ _ _ _ _ _ _ H) as (dir & m & F). destruct (f_bar _ _ _ _ _ _ _ _ _ _ _ _ F) as (NP & EB & _).
  rewrite <- XY in NP, EB. split.
  - unfold vec, q2, q5, q1 in XY. cbv zeta in XY. unfold px, py in XY. cbn [fst snd] in XY. apply (f_equal snd) in XY. cbn [snd] in XY. rewrite XY.
    change (sin (radians (0.5 * innerangle b + sl))) with (si a).
    replace (outerrelheight b * totalheight b / co a * co a) with (outerrelheight b * totalheight b) by (field; exact NO).
    replace (innerrelheight b * totalheight b / ci a * ci a) with (innerrelheight b * totalheight b) by (field; exact NI).
    unfold Rdiv. lra.
  - exists (m / hyp (x, y)). rewrite (f_de1 _ _ _ _ _ _ _ _ _ _ _ _ F), (f_de2 _ _ _ _ _ _ _ _ _ _ _ _ F).
    set (n := hyp (x, y)) in *. clearbody n. clear XY. injection EB as -> ->. split; apply f_equal2; field; lra.
Qed.
Print Assumptions brace_bar_slope.

(** in a brace which is too short for its smooth parts these parts are not shortened to fit, as it was meant, since the correction of the second uses the
    corrected first: the straight part of the outline then goes backwards *)
Theorem brace_short_refuted : forall b length sl h, half b length sl = Some h ->
  let il := innerrelheight b * totalheight b / ci (half_angles b sl) in let ol := outerrelheight b * totalheight b / co (half_angles b sl) in
  let bar := vec (q2 (totalheight b) (innerthickness b) il (half_angles b sl)) (q5 length ol (half_angles b sl)) in
  0 < il * innersmoothness b -> 0 < ol * outersmoothness b -> hyp bar < il * innersmoothness b + ol * outersmoothness b ->
  dot (vec (D1 h) (E1 h)) bar < 0 /\ dot (vec (D2 h) (E2 h)) bar < 0.
Proof.
  intros b length sl h H il ol bar IS OS SH. unfold half in H. cbv zeta in H. fold il ol in H.
  destruct (half_known _ _ _ _ _ _ _ _ _ _ H) as (dir & m & F). pose proof (f_bar _ _ _ _ _ _ _ _ _ _ _ _ F) as BB. cbv zeta in BB. fold bar in BB. destruct BB as (NP & EB & M).
  rewrite (f_de1 _ _ _ _ _ _ _ _ _ _ _ _ F), (f_de2 _ _ _ _ _ _ _ _ _ _ _ _ F). pose proof (f_unit _ _ _ _ _ _ _ _ _ _ _ _ F) as U.
  set (i := il * innersmoothness b) in *. set (o := ol * outersmoothness b) in *. set (n := hyp bar) in *.
  assert (m < 0) as MN.
  { unfold smoothlengths in M. unfold ltb in M. destruct (Rlt_dec n (i + o)) as [T|T]; [|lra]. cbn [fst snd] in M. clear T.
    set (i2 := n * i / (i + o)) in *.
    assert (0 < i2 < i) as [I0 I1].
    { unfold i2. split; [apply Rmult_lt_0_compat; [nra|apply Rinv_0_lt_compat; lra]|].
      apply (Rmult_lt_reg_r (i + o)); [lra|]. replace (n * i / (i + o) * (i + o)) with (n * i) by (field; lra). nra. }
    assert (n - i2 = n * o / (i + o)) as Q by (unfold i2; field; lra). rewrite Q in M.
    assert (n * o / (i + o) < n * o / (i2 + o)); [|lra].
    apply Rmult_lt_compat_l; [nra|]. apply Rinv_lt_contravar; nra. }
  assert (dot (m * px dir, m * py dir) bar = m * n) as D.
  { rewrite EB. unfold dot, px, py. cbn [fst snd]. fold (px dir) (py dir).
    replace (m * px dir * (n * px dir) + m * py dir * (n * py dir)) with (m * n * (px dir * px dir + py dir * py dir)) by ring. rewrite U. ring. }
  rewrite D. split; nra.
Qed.
Print Assumptions brace_short_refuted.

(** the cap in the middle: the tangents of both halves at the middle are mirror images of each other, so that with slanted strokes the outline
    has a kink there *)
Theorem brace_cap_refuted : forall b x0 y0 x1 y1 l s t, bracepath b x0 y0 x1 y1 = Some l -> nth_error l 15 = Some s -> nth_error l 0 = Some t ->
  end_tangent s <> (0, 0) -> start_tangent t <> (0, 0) -> sin (radians (2 * slantangle b)) <> 0 -> ~ smooth s t.
Proof.
  intros b x0 y0 x1 y1 l s t. unfold bracepath, half. cbv zeta.
  destruct (half_points b (leftlength b x0 y0 x1 y1) _ _ _ _ _ _ _) as [hl|] eqn:L; [|discriminate].
  destruct (half_points b (_ - _) _ _ _ _ _ _ _) as [hr|] eqn:R; [|discriminate].
  intros E. injection E as <-. destruct (half_known _ _ _ _ _ _ _ _ _ _ L) as (dl & ml & FL). destruct (half_known _ _ _ _ _ _ _ _ _ _ R) as (dr & mr & FR).
  destruct (f_po _ _ _ _ _ _ _ _ _ _ _ _ FL) as [k K]. destruct (f_po _ _ _ _ _ _ _ _ _ _ _ _ FR) as [j J]. clear L R FL FR.
  destruct (placed_vec x0 y0 x1 y1 (leftlength b x0 y0 x1 y1)) as (c & n & U & V & _).
  intros S T. injection S as <-. injection T as <-. unfold smooth. cbn [end_tangent start_tangent].
  rewrite !V, vec_mirror, (vec_neg (P_ hr) (O_ hr)), K, J. cbn [cs ss half_angles]. unfold cross, px, py. cbn [fst snd].
  set (C := cos (radians (- slantangle b))). set (N := sin (radians (- slantangle b))).
  assert (sin (radians (2 * slantangle b)) = - (2 * N * C)) as D.
  { replace (radians (2 * slantangle b)) with (- (2 * radians (- slantangle b))) by (unfold radians; field). rewrite sin_neg, sin_2a. reflexivity. }
  intros J0 K0 NZ Z. rewrite D in NZ.
  assert (j <> 0) as J1 by (intros ->; apply J0; apply f_equal2; ring). assert (k <> 0) as K1 by (intros ->; apply K0; apply f_equal2; ring).
  match type of Z with ?e = 0 => assert ((c * c + n * n) * (j * k * (2 * N * C)) = - e) as W by ring end.
  rewrite Z, U in W. assert (2 * N * C <> 0) as NC by lra. apply (Rmult_integral_contrapositive_currified _ _ (Rmult_integral_contrapositive_currified _ _ J1 K1) NC). lra.
Qed.
Print Assumptions brace_cap_refuted.

(** ** the ends of braces *)
(** stretching multiplies the line between the ends and keeps its middle; reverse exchanges the ends *)
Theorem brace_stretch : forall p q u v s, let r := brace_ends p q u v false (Some s) None in
  middle (fst r) (snd r) = middle p q /\ vec (fst r) (snd r) = (s * px (vec p q), s * py (vec p q)) /\
  brace_ends p q u v true (Some s) None = (snd r, fst r).
Proof.
  intros p q u v s. unfold brace_ends, stretched, middle, vec, px, py. cbn [fst snd]. split; [|split].
  - apply f_equal2; lra.
  - apply f_equal2; lra.
  - repeat apply (f_equal2 pair); lra.
Qed.
Print Assumptions brace_stretch.
(** with a distance the ends are moved perpendicularly to the path *)
Theorem brace_dist_partial : forall p q u v d, px u * px u + py u * py u = 1 -> px v * px v + py v * py v = 1 ->
  let r := brace_ends p q u v false None (Some d) in
  dot (vec p (fst r)) u = 0 /\ cross u (vec p (fst r)) = d /\ dot (vec q (snd r)) v = 0 /\ cross v (vec q (snd r)) = d.
Proof.
  intros p q u v d U V. unfold brace_ends, go, vec, dot, cross, px, py in *. cbn [fst snd] in *. split; [ring|]. split; [|split; [ring|]].
  - replace (fst u * (snd p + d * fst u - snd p) - snd u * (fst p + d * - snd u - fst p)) with (d * (fst u * fst u + snd u * snd u)) by ring. rewrite U. ring.
  - replace (fst v * (snd q + d * fst v - snd q) - snd v * (fst q + d * - snd v - fst q)) with (d * (fst v * fst v + snd v * snd v)) by ring. rewrite V. ring.
Qed.
Print Assumptions brace_dist_partial.
(** but for the reversed brace, which is the default, each end is moved perpendicularly to the path at the other end: here for a quarter of a circle *)
Theorem brace_dist_refuted : exists p q u v d, px u * px u + py u * py u = 1 /\ px v * px v + py v * py v = 1 /\
  let r := brace_ends p q u v true None (Some d) in dot (vec q (fst r)) v <> 0 /\ dot (vec p (snd r)) u <> 0.
Proof.
  exists (1, 0), (0, 1), (0, 1), (- (1), 0), 1. unfold brace_ends, go, vec, dot, px, py. cbn [fst snd]. repeat split; lra.
Qed.
Print Assumptions brace_dist_refuted.

(** a brace of height 10 above the line from (0, 0) to (100, 0), without slanting *)
Definition brace_ex : brace := {| totalheight := 10; barthickness := 1; innerthickness := 1; outerthickness := 1; innerrelheight := 0.5; outerrelheight := 0.45;
  innerangle := 60; outerangle := 30; slantangle := 0; innersmoothness := 2; outersmoothness := 2.5; middlerelpos := 0.5 |}.
Lemma brace_ex_half : forall length sl, sl = 0 -> 10 < length -> half brace_ex length sl <> None.
Proof.
  intros length sl -> LL.
  assert (radians (0.5 * 60 + 0) = PI / 6) as RI by (unfold radians; lra). assert (radians (30 + 0) = PI / 6) as RO by (unfold radians; lra).
  assert (radians (- 0) = 0) as RS by (unfold radians; lra).
  assert (half_angles brace_ex 0 = {| ci := sqrt 3 / 2; si := 1 / 2; co := sqrt 3 / 2; so := 1 / 2; cs := 1; ss := 0 |}) as HA.
  { unfold half_angles, brace_ex. cbn [innerangle outerangle slantangle]. rewrite RI, RO, RS, cos_PI6, sin_PI6, cos_0, sin_0. reflexivity. }
  unfold half. cbv zeta. rewrite HA. unfold brace_ex. cbn [totalheight barthickness innerthickness outerthickness innerrelheight outerrelheight innersmoothness outersmoothness ci si co so cs ss].
  assert (1 < sqrt 3) as S3 by (rewrite <- sqrt_1; apply sqrt_lt_1; lra).
  set (il := 0.5 * 10 / (sqrt 3 / 2)). set (ol := 0.45 * 10 / (sqrt 3 / 2)). set (a := {| ci := sqrt 3 / 2 |}).
  assert (il * (sqrt 3 / 2) = 5) as IL by (unfold il; field_simplify; lra).
  assert (ol * (sqrt 3 / 2) = 4.5) as OL by (unfold ol; field_simplify; lra).
  unfold half_points. cbv zeta. fold (vec (q2 10 1 il a) (q5 length ol a)).
  change (px (q5 length ol a) - px (q2 10 1 il a), py (q5 length ol a) - py (q2 10 1 il a)) with (vec (q2 10 1 il a) (q5 length ol a)).
  assert (vec (q2 10 1 il a) (q5 length ol a) = (length - ol / 2 - il / 2, 0)) as EB.
  { unfold vec, q2, q5, q1. cbv zeta. unfold px, py. cbn [fst snd ci si co so a]. unfold a. cbn [ci si co so]. rewrite IL, OL. apply f_equal2; lra. }
  rewrite EB. assert (il < 10 /\ ol < 10) as [IB OB] by (split; nra). set (x := length - ol / 2 - il / 2).
  assert (hyp (x, 0) = x) as HX.
  { unfold hyp, px, py. cbn [fst snd]. replace (x * x + 0 * 0) with (x * x) by ring. apply sqrt_square. unfold x. lra. }
  assert (0 < x) as XP by (unfold x; lra). rewrite HX. destruct (Req_EM_T x 0) as [|_]; [lra|].
  replace (px (x, 0) / x) with 1 by (unfold px; simpl; field; lra). replace (py (x, 0) / x) with 0 by (unfold py; simpl; field; lra).
  assert (forall A D u v, - fst u * snd v + snd u * fst v <> 0 -> exists s t, intersection A D u v = Some (s, t)) as IN.
  { intros A D u v N. unfold intersection. destruct (Req_EM_T _ 0) as [|_]; [contradiction|]. eexists. eexists. reflexivity. }
  unfold a. cbn [ci si co so cs ss].
  match goal with |- context [intersection ?A ?D (1, 0) (1 / 2, - (sqrt 3 / 2))] => destruct (IN A D (1, 0) (1 / 2, - (sqrt 3 / 2))) as (s0 & t0 & ->); [cbn [fst snd]; lra|] end.
  do 2 match goal with |- context [intersection ?A ?D (1 / 2, - (sqrt 3 / 2)) (1, 0)] => destruct (IN A D (1 / 2, - (sqrt 3 / 2)) (1, 0)) as (? & ? & ->); [cbn [fst snd]; lra|] end.
  do 2 match goal with |- context [intersection ?A ?D (1, 0) (- (1 / 2), sqrt 3 / 2)] => destruct (IN A D (1, 0) (- (1 / 2), sqrt 3 / 2)) as (? & ? & ->); [cbn [fst snd]; lra|] end.
  discriminate.
Qed.
Example brace_exists : exists l s t, bracepath brace_ex 0 0 100 0 = Some l /\ nth_error l 0 = Some s /\ bstart s = (50, 10) /\
  nth_error l 9 = Some t /\ exists p q, t = BLine p q.
Proof.
  assert (hyp (100 - 0, 0 - 0) = 100) as H.
  { unfold hyp, px, py. cbn [fst snd]. replace ((100 - 0) * (100 - 0) + (0 - 0) * (0 - 0)) with (100 * 100) by ring. apply sqrt_square. lra. }
  assert (exists l, bracepath brace_ex 0 0 100 0 = Some l) as [l E].
  { unfold bracepath. cbv zeta. unfold leftlength. rewrite H.
    destruct (half brace_ex (middlerelpos brace_ex * 100) (- slantangle brace_ex)) eqn:L;
      [|exfalso; revert L; apply brace_ex_half; unfold brace_ex; cbn [slantangle middlerelpos]; lra].
    destruct (half brace_ex (100 - middlerelpos brace_ex * 100) (slantangle brace_ex)) eqn:R;
      [|exfalso; revert R; apply brace_ex_half; unfold brace_ex; cbn [slantangle middlerelpos]; lra].
    eexists. reflexivity. }
  assert ((0, 0) <> (100, 0)) as N by (intros X; injection X as X; lra).
  destruct (brace_places brace_ex 0 0 100 0 l N E) as (_ & _ & s & t & S & _ & _ & P).
  destruct (brace_closed _ _ _ _ _ _ E) as [LN _].
  destruct (nth_error l 9) as [u|] eqn:U; [|apply nth_error_None in U; lia].
  exists l, s, u. split; [exact E|]. split; [exact S|]. split; [|split; [exact U|]].
  2:{ unfold bracepath in E. cbv zeta in E. destruct (half _ _ (- _)); [|discriminate]. destruct (half _ _ _); [|discriminate]. injection E as <-. injection U as <-. eexists. eexists. reflexivity. }
  rewrite P. replace (sqrt ((100 - 0) * (100 - 0) + (0 - 0) * (0 - 0))) with 100 by (symmetry; exact H). unfold brace_ex. cbn [middlerelpos totalheight]. apply f_equal2; lra.
Qed.
