(** Extrema of the cosine on an interval and Bezier approximation of arcs. *)
From Coq Require Import Reals List ZArith Lra Lia Bool.
From Verif Require Import TrafoModel BboxModel BboxProps CurveModel CurveSpec CurveProofs CurveProofs2 CurveProofs3 ArcModel ArcSpec.
Import ListNotations.
Open Scope R_scope.

Lemma rad_radians a : radians a = rad a.
Proof. unfold radians, rad. field. Qed.
Lemma cos_turn x k : cos (x + IZR k * (2 * PI)) = cos x.
Proof.
  destruct (Z_le_gt_dec 0 k) as [K|K].
  - rewrite <- (Z2Nat.id k K), <- INR_IZR_INZ. replace (x + INR (Z.to_nat k) * (2 * PI)) with (x + 2 * INR (Z.to_nat k) * PI) by ring.
    apply cos_period.
  - replace x with ((x + IZR k * (2 * PI)) + 2 * INR (Z.to_nat (- k)) * PI) at 2.
    + symmetry. apply cos_period.
    + rewrite INR_IZR_INZ, Z2Nat.id by lia. rewrite opp_IZR. ring.
Qed.
Lemma sin_turn x k : sin (x + IZR k * (2 * PI)) = sin x.
Proof. rewrite !sin_cos. replace (PI / 2 + (x + IZR k * (2 * PI))) with (PI / 2 + x + IZR k * (2 * PI)) by ring. now rewrite cos_turn. Qed.
Lemma floor_mult x m : 0 < m -> IZR (floor (x / m)) * m <= x < (IZR (floor (x / m)) + 1) * m.
Proof.
  intros Hm. pose proof (floor_spec (x / m)) as [A B]. replace x with (x / m * m) at 2 3 by (field; lra).
  split; [apply Rmult_le_compat_r|apply Rmult_lt_compat_r]; lra.
Qed.

(** the largest value of a cosine on an interval *)
Definition top (a b delta : R) : R :=
  if ltb b ((2 * IZR (floor ((a - delta) / (2 * PI))) + 2) * PI + delta) then Rmax (cos (a - delta)) (cos (b - delta)) else 1.
Lemma top_spec a b delta : a <= b ->
  (forall phi, a <= phi <= b -> cos (phi - delta) <= top a b delta) /\ exists phi, a <= phi <= b /\ cos (phi - delta) = top a b delta.
Proof.
  intros Hab. unfold top. pose proof PI_RGT_0 as P. pose proof (floor_mult (a - delta) (2 * PI) ltac:(lra)) as F.
  set (k := floor ((a - delta) / (2 * PI))) in *.
  destruct (ltb b _) eqn:L.
  - apply ltb_true in L. split.
    + intros phi Hphi.
      assert (S : forall z, cos (z - delta) = cos (z - delta - IZR k * (2 * PI))).
      { intros z. replace (z - delta) with (z - delta - IZR k * (2 * PI) + IZR k * (2 * PI)) at 1 by ring. apply cos_turn. }
      rewrite !S. set (K := IZR k) in *. clearbody K.
      destruct (Rle_dec (phi - delta - K * (2 * PI)) PI) as [Q|Q].
      * eapply Rle_trans; [|apply Rmax_l]. apply cos_decr_1; lra.
      * eapply Rle_trans; [|apply Rmax_r]. apply cos_incr_1; lra.
    + destruct (Rmax_cases (cos (a - delta)) (cos (b - delta))) as [[_ E]|[_ E]]; rewrite E; [exists b|exists a]; split; auto; lra.
  - assert (L' : (2 * IZR k + 2) * PI + delta <= b).
    { destruct (Rle_lt_dec ((2 * IZR k + 2) * PI + delta) b) as [|G]; auto. apply ltb_true in G. congruence. }
    split; [intros; apply COS_bound|]. exists ((2 * IZR k + 2) * PI + delta). split; [lra|].
    replace ((2 * IZR k + 2) * PI + delta - delta) with (0 + IZR (k + 1) * (2 * PI)) by (rewrite plus_IZR; ring).
    rewrite cos_turn. apply cos_0.
Qed.
Lemma next_end phi1 phi2 : phi2 < phi1 ->
  exists k, phi2 + (IZR (floor ((phi1 - phi2) / (2 * PI))) + 1) * 2 * PI = phi2 + IZR k * (2 * PI) /\
  phi1 < phi2 + IZR k * (2 * PI) <= phi1 + 2 * PI.
Proof.
  intros H. pose proof PI_RGT_0 as P. pose proof (floor_mult (phi1 - phi2) (2 * PI) ltac:(lra)) as F.
  exists (floor ((phi1 - phi2) / (2 * PI)) + 1)%Z. rewrite plus_IZR. set (K := IZR _) in *. clearbody K.
  split; [ring|]. lra.
Qed.
Lemma arc_end_unique phi1 phi2 e e' : arc_end phi1 phi2 e -> arc_end phi1 phi2 e' -> e = e'.
Proof.
  intros [[H1 ->]|[H1 [[k ->] H2]]] [[H3 ->]|[H3 [[k' ->] H4]]]; try lra.
  pose proof PI_RGT_0 as P. assert (k = k'); [|subst; reflexivity].
  destruct (Z.lt_trichotomy k k') as [L|[E|L]]; auto; exfalso.
  - assert (M : IZR k + 1 <= IZR k') by (rewrite <- plus_IZR; apply IZR_le; lia).
    assert ((IZR k + 1) * (2 * PI) <= IZR k' * (2 * PI)) by (apply Rmult_le_compat_r; lra). lra.
  - assert (M : IZR k' + 1 <= IZR k) by (rewrite <- plus_IZR; apply IZR_le; lia).
    assert ((IZR k' + 1) * (2 * PI) <= IZR k * (2 * PI)) by (apply Rmult_le_compat_r; lra). lra.
Qed.

(** ** the curve replacing a short arc *)
(** control points in the coordinates turned such that the arc is symmetric *)
Lemma local_radius c s t : s <> 0 -> s * s + c * c = 1 -> 1 + c <> 0 ->
  let l := 4 * (1 - c) / (3 * s) in
  let bx := bernstein c (c + l * s) (c + l * s) c t in
  let b_y := bernstein (- s) (- s + l * c) (s - l * c) s t in
  let u := t * (1 - t) in
  bx * bx + b_y * b_y = 1 + 4 * ((1 - c) ^ 3 / (1 + c)) * (u * u * (1 - 4 * u)).
Proof.
  intros Hs E Hc l bx b_y u.
  assert (Bx : bx = c + 4 * u * (1 - c)).
  { unfold bx. replace (l * s) with (4 / 3 * (1 - c)) by (unfold l; field; auto). unfold bernstein, u. field. }
  assert (By : s * b_y = (2 * t - 1) * ((1 - c) * ((1 + c) + 2 * u * (1 - c)))).
  { unfold b_y. replace (s * bernstein (- s) (- s + l * c) (s - l * c) s t)
      with (bernstein (- (s * s)) (- (s * s) + l * s * c) (s * s - l * s * c) (s * s) t) by (unfold bernstein; ring).
    replace (l * s) with (4 / 3 * (1 - c)) by (unfold l; field; auto). replace (s * s) with (1 - c * c) by lra.
    unfold bernstein, u. field. }
  assert (S2 : s * s = (1 - c) * (1 + c)) by lra.
  assert (C1 : 1 - c <> 0).
  { intros Z. rewrite Z, Rmult_0_l in S2. apply Rmult_integral in S2. tauto. }
  assert (By2 : b_y * b_y = (2 * t - 1) * (2 * t - 1) * ((1 - c) * ((1 + c) + 2 * u * (1 - c)) * ((1 + c) + 2 * u * (1 - c))) / (1 + c)).
  { apply (Rmult_eq_reg_r (s * s)).
    - transitivity (s * b_y * (s * b_y)); [ring|]. rewrite By, S2. field. exact Hc.
    - rewrite S2. now apply Rmult_integral_contrapositive. }
  rewrite Bx, By2. replace ((2 * t - 1) * (2 * t - 1)) with (1 - 4 * u) by (unfold u; ring).
  clearbody u. field. exact Hc.
Qed.

Lemma arctobcurve_radius x y r phi1 phi2 p0 p1 p2 p3 t :
  arctobcurve x y r phi1 phi2 = Some (Curve p0 p1 p2 p3) -> sin ((phi2 - phi1) / 2) <> 0 ->
  let c := cos ((phi2 - phi1) / 2) in
  let u := t * (1 - t) in
  let b := cat (p0, p1, p2, p3) t in
  (fst b - x) ^ 2 + (snd b - y) ^ 2 = r ^ 2 * (1 + 4 * ((1 - c) ^ 3 / (1 + c)) * (u * u * (1 - 4 * u))).
Proof.
  intros H Hs c u b. unfold arctobcurve in H. destruct (eqb _ _); [discriminate|].
  injection H as <- <- <- <-.
  set (s := sin ((phi2 - phi1) / 2)) in *.
  assert (E : s * s + c * c = 1) by (pose proof (sin2_cos2 ((phi2 - phi1) / 2)) as Q; unfold Rsqr in Q; exact Q).
  assert (Hc : 1 + c <> 0).
  { intros Z. assert (c = -1) by lra. apply Hs. rewrite H in E. assert (s * s = 0) by lra. apply Rmult_integral in H0. tauto. }
  set (m := (phi1 + phi2) / 2). set (cm := cos m). set (sm := sin m).
  assert (M : sm * sm + cm * cm = 1) by (pose proof (sin2_cos2 m) as Q; unfold Rsqr in Q; exact Q).
  assert (C1 : cos phi1 = cm * c + sm * s).
  { replace phi1 with (m - (phi2 - phi1) / 2) at 1 by (unfold m; field). rewrite cos_minus. reflexivity. }
  assert (S1 : sin phi1 = sm * c - cm * s).
  { replace phi1 with (m - (phi2 - phi1) / 2) at 1 by (unfold m; field). rewrite sin_minus. reflexivity. }
  assert (C2 : cos phi2 = cm * c - sm * s).
  { replace phi2 with (m + (phi2 - phi1) / 2) at 1 by (unfold m; field). rewrite cos_plus. reflexivity. }
  assert (S2 : sin phi2 = sm * c + cm * s).
  { replace phi2 with (m + (phi2 - phi1) / 2) at 1 by (unfold m; field). rewrite sin_plus. reflexivity. }
  pose proof (local_radius c s t Hs E Hc) as L. cbv zeta in L. fold u in L. rewrite <- L. clear L.
  unfold b, cat. cbn [fst snd]. fold c.
  replace (r * 4 * (1 - c) / (3 * s)) with (r * (4 * (1 - c) / (3 * s))) by (field; auto).
  set (l := 4 * (1 - c) / (3 * s)). rewrite C1, S1, C2, S2. clearbody l u cm sm c s. clear - M.
  set (bx := bernstein c (c + l * s) (c + l * s) c t). set (by_ := bernstein (- s) (- s + l * c) (s - l * c) s t).
  match goal with |- ?a ^ 2 + ?b ^ 2 = _ => replace a with (r * (cm * bx - sm * by_)); [replace b with (r * (sm * bx + cm * by_))|] end.
  - transitivity (r ^ 2 * ((sm * sm + cm * cm) * (bx * bx + by_ * by_))); [ring|]. rewrite M. ring.
  - unfold bx, by_, bernstein. ring.
  - unfold bx, by_, bernstein. ring.
Qed.
Lemma radial_factor u : 0 <= u <= 1 / 4 -> 0 <= u * u * (1 - 4 * u) <= 1 / 108.
Proof.
  intros H. split.
  - apply Rmult_le_pos; [apply Rle_0_sqr|lra].
  - (* (u - 1/6)^2 (4u + 1/3) >= 0 *)
    assert (0 <= (u - 1 / 6) * (u - 1 / 6) * (4 * u + 1 / 3)) by (apply Rmult_le_pos; [apply Rle_0_sqr|lra]).
    replace (u * u * (1 - 4 * u)) with (1 / 108 - (u - 1 / 6) * (u - 1 / 6) * (4 * u + 1 / 3)) by field. lra.
Qed.
Lemma cos_eighth : 9238 / 10000 <= cos (PI / 8).
Proof.
  pose proof PI_RGT_0 as P. assert (0 <= cos (PI / 8)) by (apply cos_ge_0; lra).
  assert (D : cos (PI / 4) = 2 * cos (PI / 8) * cos (PI / 8) - 1).
  { replace (PI / 4) with (2 * (PI / 8)) by field. rewrite cos_2a_cos. ring. }
  rewrite cos_PI4 in D.
  assert (Q : 1 / sqrt 2 >= 70708 / 100000).
  { assert (Z : sqrt 2 * sqrt 2 = 2) by (apply sqrt_sqrt; lra). assert (0 < sqrt 2) by (apply sqrt_lt_R0; lra).
    assert (E : 1 / sqrt 2 * sqrt 2 = 1) by (field; lra). assert (sqrt 2 <= 141425 / 100000) by nra.
    assert (0 < 1 / sqrt 2) by (apply Rdiv_lt_0_compat; lra). nra. }
  nra.
Qed.
