(** Parameters at arc lengths: C171. *)
From Coq Require Import Reals List Lia Bool Lra.
From Verif Require Import TrafoModel BboxModel CurveModel CurveSpec CurveProofs2 CurveProps RootsModel RootsSpec RootsProofs RootsProps.
From Verif Require Import CurveLenModel CurveLenSpec CurveLenProofs.
Import ListNotations.
Open Scope R_scope.

Local Notation pt := (R * R)%type.
Local Notation ctrl := (R * R * (R * R) * (R * R) * (R * R))%type.

Lemma param_outside fuel : forall c eps len t total, curve_param fuel c eps len = Some (t, total) ->
  0 <= total /\ (len < 0 -> t < 0) /\ (total < len -> 1 < t).
Proof.
  induction fuel as [|fuel IH]; intros c eps len t total H; [discriminate|]. rewrite curve_param_S in H.
  assert (G : forall d len p x, sub_param fuel eps d len = Some (p, x) -> 0 <= x /\
    (len < 0 -> forall t, conv_param eps d p = Some t -> t < 0) /\ (x < len -> forall t, conv_param eps d p = Some t -> 1 < t)).
  { intros d l p x. unfold sub_param, conv_param. destruct (Rlt_dec _ _) as [C|C].
    - destruct (Req_EM_T (chord d) 0) as [Z|Z]; [discriminate|]. intros [= <- <-].
      assert (P : 0 < chord d) by (pose proof (dist_pos (cat d 0) (cat d 1)); rewrite <- chord_dist in *; lra).
      assert (Q : l = l / chord d * chord d) by (field; lra). set (q := l / chord d) in *.
      split; [lra|]. destruct d as [[[q0 q1] q2] q3]. unfold piece_param. split; intros L t'.
      + destruct (Rle_dec 0 q) as [O|O]; [|intros [= <-]; lra]. exfalso.
        apply (Rmult_le_compat_r (chord (q0, q1, q2, q3))) in O; lra.
      + destruct (Rle_dec 0 q) as [O|O].
        * destruct (Rle_dec q 1) as [O'|O']; [|intros [= <-]; lra]. exfalso.
          apply (Rmult_le_compat_r (chord (q0, q1, q2, q3))) in O'; lra.
        * exfalso. assert (q * chord (q0, q1, q2, q3) <= 0 * chord (q0, q1, q2, q3)) by (apply Rmult_le_compat_r; lra). lra.
    - intros A. destruct (IH _ _ _ _ _ A) as (X & Y & Z). split; [exact X|]. split; intros L t' [= <-]; auto. }
  destruct (sub_param fuel eps (left_part c (1 / 2)) len) as [[pa x]|] eqn:E1; [|discriminate].
  destruct (sub_param fuel eps (right_part c (1 / 2)) (len - x)) as [[pb y]|] eqn:E2; [|discriminate].
  destruct (G _ _ _ _ E1) as (X0 & X1 & X2). destruct (G _ _ _ _ E2) as (Y0 & Y1 & Y2).
  destruct (Rgt_dec len x) as [C|C].
  - destruct (conv_param eps (right_part c (1 / 2)) pb) as [tb|]; [|discriminate]. cbn [option_map] in H. injection H as <- <-.
    split; [lra|]. split; intros L; [lra|]. pose proof (Y2 ltac:(lra) _ eq_refl). lra.
  - destruct (conv_param eps (left_part c (1 / 2)) pa) as [ta|]; [|discriminate]. cbn [option_map] in H. injection H as <- <-.
    split; [lra|]. split; intros L; [|lra]. pose proof (X1 L _ eq_refl). lra.
Qed.

(** C171: when the ends of all pieces of a curve that are taken as straight differ and the
    roots of their bounds are found, a parameter is found for every length with finite
    recursion, together with the lower bound of the arc length.  It is on the curve for
    lengths up to that, and the arc length up to the point at the parameter differs from
    the given length by less than twice epsilon; it is before the curve for negative lengths
    and behind it for larger lengths. *)
Theorem curve_lengths_partial : forall p0 p1 p2 p3 epsilon, 0 < epsilon ->
  (forall d, straight_piece (p0, p1, p2, p3) epsilon d -> solvable d) ->
  exists needed, forall fuel, (needed <= fuel)%nat ->
  exists total, curve_arclen fuel false (p0, p1, p2, p3) epsilon = Some total /\
  forall len, exists t, curve_param fuel (p0, p1, p2, p3) epsilon len = Some (t, total) /\
    (0 <= len <= total -> 0 <= t <= 1 /\
      exists s, is_arc_length (at_pt (Curve p0 p1 p2 p3)) 0 t s /\ Rabs (s - len) < 2 * epsilon) /\
    (len < 0 -> t < 0) /\ (total < len -> 1 < t).
Proof.
  intros p0 p1 p2 p3 eps He S. destruct (arclen_enclosed p0 p1 p2 p3 eps He) as (n & N). exists n. intros fuel F.
  destruct (N fuel F) as (total & _ & _ & T & _). exists total. split; [exact T|]. intros len.
  destruct (param_reached fuel _ eps total len He S T) as (t & P & K). exists t. split; [exact P|].
  split; [|apply (param_outside _ _ _ _ _ _ P)]. intros L. destruct (K L) as (e & E & B & U & l & I & Lo). split; [exact B|].
  set (c := (p0, p1, p2, p3)) in *.
  assert (CE : forall l t, chain (at_pt (Curve p0 p1 p2 p3)) t l = chain (cat c) t l).
  { induction l0 as [|u l0 IH]; intros t'; cbn [chain]; auto. now rewrite IH, !at_pt_cat. }
  destruct (completeness (chain_length (at_pt (Curve p0 p1 p2 p3)) 0 t)) as [s Hs].
  - exists (len + e). intros x (l' & I' & ->). rewrite CE. auto.
  - exists (chain (cat c) 0 l), l. rewrite CE. auto.
  - exists s. split; [exact Hs|]. destruct Hs as [H1 H2].
    assert (s <= len + e) by (apply H2; intros x (l' & I' & ->); rewrite CE; auto).
    assert (chain (cat c) 0 l <= s) by (apply H1; exists l; rewrite CE; auto).
    apply Rabs_def1; lra.
Qed.
Print Assumptions curve_lengths_partial.

(** the roots are found when the middle leg is not longer than the geometric mean of the others *)
Lemma short_middle p0 p1 p2 p3 : p0 <> p3 -> dist p1 p2 * dist p1 p2 < dist p0 p1 * dist p2 p3 -> solvable (p0, p1, p2, p3).
Proof.
  intros N L. split; [exact N|]. intros (k & v & alpha & beta & _ & _ & F).
  unfold length_bound in F. rewrite !distance_dist in F. pose proof (dist_pos p0 p1). pose proof (dist_pos p1 p2). pose proof (dist_pos p2 p3).
  set (l1 := dist p0 p1) in *. set (l2 := dist p1 p2) in *. set (l3 := dist p2 p3) in *. clearbody l1 l2 l3.
  pose proof (F (alpha + 1)) as F1. pose proof (F (alpha - 1)) as F2. pose proof (F (alpha + 2)) as F3. pose proof (F (alpha - 2)) as F4.
  assert (D : l1 * (1 - alpha) ^ 2 + 2 * l2 * alpha * (1 - alpha) + l3 * alpha ^ 2 = 0).
  { set (f := fun t => l1 * (1 - (1 - t) ^ 3) + l2 * (3 * t ^ 2 - 2 * t ^ 3) + l3 * t ^ 3 - v).
    transitivity ((8 * (f (alpha + 1) - f (alpha - 1)) - (f (alpha + 2) - f (alpha - 2))) / 36); [unfold f; field|].
    unfold f. rewrite F1, F2, F3, F4. field. }
  assert (P1 : 0 < l1) by (destruct H as [H|H]; [exact H|rewrite <- H in L; nra]).
  assert (Q : (l1 * (1 - alpha) + l2 * alpha) ^ 2 + (l1 * l3 - l2 * l2) * alpha ^ 2 = 0).
  { transitivity (l1 * (l1 * (1 - alpha) ^ 2 + 2 * l2 * alpha * (1 - alpha) + l3 * alpha ^ 2)); [ring|]. rewrite D. ring. }
  pose proof (pow2_ge_0 (l1 * (1 - alpha) + l2 * alpha)) as A. pose proof (pow2_ge_0 alpha) as B.
  assert (Z : alpha = 0).
  { destruct (Req_dec alpha 0) as [Z|Z]; [exact Z|]. assert (0 < alpha ^ 2) by (destruct B as [B|B]; [exact B|symmetry in B; apply pow_nonzero in B; [contradiction|exact Z]]).
    assert (0 < (l1 * l3 - l2 * l2) * alpha ^ 2) by (apply Rmult_lt_0_compat; lra). lra. }
  subst alpha. rewrite Rminus_0_r in D. ring_simplify in D. lra.
Qed.
Lemma hypot_is x y h : 0 <= h -> x * x + y * y = h * h -> hypot x y = h.
Proof. intros P E. unfold hypot. rewrite E. now apply sqrt_square. Qed.
Lemma hypot_bound x y h : 0 <= h -> x * x + y * y < h * h -> 0 <= hypot x y < h.
Proof.
  intros P E. split; [apply sqrt_pos|]. rewrite <- (sqrt_square h) by exact P. apply sqrt_lt_1; try exact E.
  - pose proof (Rle_0_sqr x). pose proof (Rle_0_sqr y). unfold Rsqr in *. lra.
  - apply Rle_trans with (x * x + y * y); [|lra]. pose proof (Rle_0_sqr x). pose proof (Rle_0_sqr y). unfold Rsqr in *. lra.
Qed.
(** an arch: both halves are taken as straight *)
Lemma arch_at len : 0 <= len <= 40 -> exists fuel t s,
  curve_param fuel ((0, 0), (12, 16), (20, 16), (32, 0)) 2 len = Some (t, 40) /\ 0 <= t <= 1 /\
  is_arc_length (at_pt (Curve (0, 0) (12, 16) (20, 16) (32, 0))) 0 t s /\ Rabs (s - len) < 4.
Proof.
  intros Len.
  assert (E1 : first_half ((0, 0), (12, 16), (20, 16), (32, 0)) = ((0, 0), (6, 8), (11, 12), (16, 12))).
  { unfold first_half, middle. simpl. repeat apply pair_eq; field. }
  assert (E2 : second_half ((0, 0), (12, 16), (20, 16), (32, 0)) = ((16, 12), (21, 12), (26, 8), (32, 0))).
  { unfold second_half, middle. simpl. repeat apply pair_eq; field. }
  assert (A1 : dist (0, 0) (6, 8) = 10) by (apply hypot_is; simpl; lra).
  assert (A2 : 0 <= dist (6, 8) (11, 12) < 65 / 10) by (apply hypot_bound; simpl; lra).
  assert (A3 : dist (11, 12) (16, 12) = 5) by (apply hypot_is; simpl; lra).
  assert (A4 : dist (0, 0) (16, 12) = 20) by (apply hypot_is; simpl; lra).
  assert (B1 : dist (16, 12) (21, 12) = 5) by (apply hypot_is; simpl; lra).
  assert (B2 : 0 <= dist (21, 12) (26, 8) < 65 / 10) by (apply hypot_bound; simpl; lra).
  assert (B3 : dist (26, 8) (32, 0) = 10) by (apply hypot_is; simpl; lra).
  assert (B4 : dist (16, 12) (32, 0) = 20) by (apply hypot_is; simpl; lra).
  assert (X1 : excess ((0, 0), (6, 8), (11, 12), (16, 12)) < 2) by (rewrite excess_gap; unfold polygon, chord; lra).
  assert (X2 : excess ((16, 12), (21, 12), (26, 8), (32, 0)) < 2) by (rewrite excess_gap; unfold polygon, chord; lra).
  destruct (curve_lengths_partial (0, 0) (12, 16) (20, 16) (32, 0) 2 ltac:(lra)) as (n & N).
  - intros d P. inversion P as [? ? ? [D|D] X|? ? d' ? [D|D] X]; subst.
    + rewrite E1. apply short_middle; [intros [= Q]; lra|]. rewrite A1, A3.
      apply Rle_lt_trans with (65 / 10 * (65 / 10)); [apply Rmult_le_compat; lra|lra].
    + rewrite E2. apply short_middle; [intros [= Q]; lra|]. rewrite B1, B3.
      apply Rle_lt_trans with (65 / 10 * (65 / 10)); [apply Rmult_le_compat; lra|lra].
    + rewrite E1 in X. lra.
    + rewrite E2 in X. lra.
  - destruct (N (S n) ltac:(lia)) as (total & T & K).
    rewrite curve_arclen_S, first_left, second_right, E1, E2 in T. unfold sub_arclen in T. rewrite <- !excess_gap in T.
    destruct (Rlt_dec _ _) as [_|]; [|lra]. destruct (Rlt_dec _ _) as [_|]; [|lra]. unfold chord in T. rewrite A4, B4 in T.
    assert (total = 40) by (injection T; lra). subst total.
    destruct (K len) as (t & P & Q & _). destruct (Q ltac:(lra)) as (B & s & I & R). exists (S n), t, s. repeat split; try assumption; try apply B; try apply I; lra.
Qed.
(** the point at length 30 of 40 *)
Example curve_lengths_ex : exists fuel t s,
  curve_param fuel ((0, 0), (12, 16), (20, 16), (32, 0)) 2 30 = Some (t, 40) /\ 0 <= t <= 1 /\
  is_arc_length (at_pt (Curve (0, 0) (12, 16) (20, 16) (32, 0))) 0 t s /\ Rabs (s - 30) < 4.
Proof. apply arch_at. lra. Qed.

(** C171: when the wrong values of a double root are returned, a parameter before the curve is
    found for the length 0, for every epsilon; so the statement does not hold for all curves. *)
Theorem length_zero_refuted : forall fuel epsilon, 0 < epsilon ->
  curve_param (S fuel) ((0, 0), (2, 0), (12, 0), (54, 0)) epsilon 0 = Some (- (1 / 6), 54).
Proof.
  intros fuel eps He. rewrite curve_param_S, first_left, second_right.
  assert (E1 : first_half ((0, 0), (2, 0), (12, 0), (54, 0)) = ((0, 0), (1, 0), (4, 0), (12, 0))).
  { unfold first_half, middle. simpl. repeat apply pair_eq; field. }
  assert (E2 : second_half ((0, 0), (2, 0), (12, 0), (54, 0)) = ((12, 0), (20, 0), (33, 0), (54, 0))).
  { unfold second_half, middle. simpl. repeat apply pair_eq; field. }
  rewrite E1, E2.
  assert (A1 : dist (0, 0) (1, 0) = 1) by (apply hypot_is; simpl; lra).
  assert (A2 : dist (1, 0) (4, 0) = 3) by (apply hypot_is; simpl; lra).
  assert (A3 : dist (4, 0) (12, 0) = 8) by (apply hypot_is; simpl; lra).
  assert (A4 : dist (0, 0) (12, 0) = 12) by (apply hypot_is; simpl; lra).
  assert (B1 : dist (12, 0) (20, 0) = 8) by (apply hypot_is; simpl; lra).
  assert (B2 : dist (20, 0) (33, 0) = 13) by (apply hypot_is; simpl; lra).
  assert (B3 : dist (33, 0) (54, 0) = 21) by (apply hypot_is; simpl; lra).
  assert (B4 : dist (12, 0) (54, 0) = 42) by (apply hypot_is; simpl; lra).
  unfold sub_param, conv_param, polygon, chord. rewrite A1, A2, A3, A4, B1, B2, B3, B4.
  destruct (Rlt_dec _ eps) as [_|]; [|lra]. destruct (Rlt_dec _ eps) as [_|]; [|lra].
  destruct (Req_EM_T 12 0); [lra|]. destruct (Req_EM_T 42 0); [lra|]. destruct (Rgt_dec 0 12); [lra|].
  unfold piece_param. destruct (Rle_dec 0 (0 / 12)); [|lra]. destruct (Rle_dec (0 / 12) 1); [|lra].
  rewrite roots_lead by lra. simpl map. cbv iota. rewrite (cubic_bad_wrong _ _ _ (-1) 0); [|lra|intros; unfold cub; field].
  assert (C : forall r1 r2, r1 = - (4 / 3) -> r2 = - (1 / 3) -> closest r1 [r2] = - (1 / 3)).
  { intros r1 r2 -> ->. unfold closest. cbn [fold_left]. destruct (Rlt_dec _ _) as [|L]; [reflexivity|]. exfalso. apply L.
    unfold Rabs. destruct (Rcase_abs _), (Rcase_abs _); lra. }
  rewrite C by field. cbn [option_map]. f_equal. apply pair_eq; field.
Qed.
Print Assumptions length_zero_refuted.
Example length_zero_ex : at_pt (Curve (0, 0) (2, 0) (12, 0) (54, 0)) (- (1 / 6)) = (- (4 / 9), 0).
Proof. unfold at_pt, curve_coord. apply pair_eq; field. Qed.

(** C171: a curve longer than epsilon, whose first half returns to its begin within epsilon, gives
    no parameters at all. *)
Theorem closed_half_refuted : forall epsilon, 0 < epsilon ->
  let c := ((0, 0), (4 / 5 * epsilon, 0), (0, 0), (- (12 / 5) * epsilon, 0)) in
  epsilon < chord c /\ forall fuel len, curve_param fuel c epsilon len = None.
Proof.
  intros eps He c. split.
  - unfold c, chord, dist. rewrite (hypot_is _ _ (12 / 5 * eps)); simpl; try lra.
  - intros [|fuel] len; [reflexivity|]. rewrite curve_param_S, first_left.
    assert (E1 : first_half c = ((0, 0), (2 / 5 * eps, 0), (2 / 5 * eps, 0), (0, 0))).
    { unfold c, first_half, middle. simpl. repeat apply pair_eq; field. }
    rewrite E1. unfold sub_param, polygon, chord.
    assert (A1 : dist (0, 0) (2 / 5 * eps, 0) = 2 / 5 * eps) by (apply hypot_is; simpl; lra).
    assert (A3 : dist (2 / 5 * eps, 0) (0, 0) = 2 / 5 * eps) by (apply hypot_is; simpl; lra).
    rewrite A1, A3, !dist_self. destruct (Rlt_dec _ eps) as [_|]; [|lra]. destruct (Req_EM_T 0 0); [reflexivity|lra].
Qed.
Print Assumptions closed_half_refuted.
Example closed_half_ex : curve_param 5 ((0, 0), (4, 0), (0, 0), (-12, 0)) 5 3 = None.
Proof.
  pose proof (proj2 (closed_half_refuted 5 ltac:(lra)) 5%nat 3) as H. cbv zeta in H.
  replace (4 / 5 * 5) with 4 in H by field. replace (- (12 / 5) * 5) with (-12) in H by field. exact H.
Qed.
