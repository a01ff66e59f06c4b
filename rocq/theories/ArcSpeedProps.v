(** The curves made for an arc are not slow. *)
From Coq Require Import Reals Bool List Lra Lia ZArith.
From Verif Require Import TrafoModel BboxModel CurveModel CurveSpec CurveProofs2 ArcModel ArcSpec ArcProofs ArcProps ParterProofs NormsubModel NormsubSpec NormsubProofs NormsubProofs2 NormsubProofs3 PathModel PathNormModel PathNormProofs PathNormProps.
Import ListNotations.
Open Scope R_scope.

Local Notation pt := (R * R)%type.

Lemma mix_ge A B k t : 0 <= t <= 1 -> k <= A -> k <= B -> k <= (1 - t) * (1 - t) * A + 2 * t * (1 - t) * B + t * t * A.
Proof.
  intros T HA HB. assert (0 <= (1 - t) * (1 - t)) by apply Rle_0_sqr. assert (0 <= t * t) by apply Rle_0_sqr. assert (0 <= 2 * t * (1 - t)) by (apply Rmult_le_pos; lra).
  assert ((1 - t) * (1 - t) * k <= (1 - t) * (1 - t) * A) by (apply Rmult_le_compat_l; lra).
  assert (2 * t * (1 - t) * k <= 2 * t * (1 - t) * B) by (apply Rmult_le_compat_l; lra). assert (t * t * k <= t * t * A) by (apply Rmult_le_compat_l; lra).
  replace k with ((1 - t) * (1 - t) * k + 2 * t * (1 - t) * k + t * t * k) by ring. lra.
Qed.

(** one curve *)
Lemma piece_fast x y r a b i : 0 < r -> 0 < b - a <= PI / 2 -> arctobcurve x y r a b = Some i -> fast (r * sin (b - a)) i.
Proof.
  intros Hr D E. unfold arctobcurve in E. replace (eqb (b - a) 0) with false in E by (symmetry; apply eqb_false; lra).
  set (m := (a + b) / 2) in *. set (h := (b - a) / 2) in *.
  assert (EA : a = m - h) by (unfold m, h; lra). assert (EB : b = m + h) by (unfold m, h; lra). assert (EH : b - a = 2 * h) by (unfold h; lra).
  assert (HH : 0 < h <= PI / 4) by (unfold h; lra). clearbody m h. subst a b. clear EH.
  assert (P := PI_RGT_0).
  assert (S0 : 0 < sin h) by (apply sin_gt_0; lra). assert (C0 : 0 < cos h) by (apply cos_gt_0; lra).
  assert (SC := sin2_cos2 h). assert (SM := sin2_cos2 m). unfold Rsqr in SC, SM.
  set (S := sin h) in *. set (C := cos h) in *.
  assert (C1 : C < 1) by nra.
  set (l := r * 4 * (1 - C) / (3 * S)) in E.
  assert (EL : l * (3 * (1 + C)) = 4 * r * S).
  { unfold l. replace (r * 4 * (1 - C) / (3 * S) * (3 * (1 + C))) with (4 * r * (1 - C * C) / S) by (field; lra). replace (1 - C * C) with (S * S) by lra. field. lra. }
  assert (LP : 0 < l) by (apply Rmult_lt_reg_r with (3 * (1 + C)); [lra|]; rewrite EL; assert (0 < r * S) by (now apply Rmult_lt_0_compat); lra).
  replace (m + h - (m - h)) with (2 * h) by ring. rewrite sin_2a. fold S C.
  injection E as <-. clearbody l. intros t Ht. unfold sq, der_coefs. cbn [fst snd].
  rewrite !sin_minus, !cos_minus, !sin_plus, !cos_plus. fold S C. set (sm := sin m) in *. set (cm := cos m) in *.
  match goal with |- _ <= 9 * (?vx ^ 2 + ?vy ^ 2) => set (X := vx); set (Y := vy) end.
  set (A := l * C). set (B := 2 * r * S - 2 * A).
  assert (RS : 0 < r * S) by now apply Rmult_lt_0_compat.
  assert (KA : 2 / 3 * (r * S * C) <= A).
  { unfold A. apply Rmult_le_reg_r with (3 * (1 + C)); [lra|]. replace (l * C * (3 * (1 + C))) with (C * (4 * r * S)) by (rewrite <- EL; ring).
    assert (0 <= r * S * C * (1 - C)) by (apply Rmult_le_pos; [apply Rmult_le_pos; lra|lra]). lra. }
  assert (KB : 2 / 3 * (r * S * C) <= B).
  { unfold B, A. apply Rmult_le_reg_r with (3 * (1 + C)); [lra|].
    replace ((2 * r * S - 2 * (l * C)) * (3 * (1 + C))) with (6 * (r * S) * (1 + C) - 2 * C * (l * (3 * (1 + C)))) by ring. rewrite EL.
    replace (2 / 3 * (r * S * C) * (3 * (1 + C))) with (2 * (r * S) * (C + C * C)) by field. replace (6 * (r * S) * (1 + C) - 2 * C * (4 * r * S)) with (2 * (r * S) * (3 - C)) by ring.
    apply Rmult_le_compat_l; nra. }
  assert (V : - sm * X + cm * Y = (1 - t) * (1 - t) * A + 2 * t * (1 - t) * B + t * t * A).
  { transitivity ((sm * sm + cm * cm) * ((1 - t) * (1 - t) * A + 2 * t * (1 - t) * B + t * t * A)); [unfold X, Y, B, A; ring|rewrite SM; ring]. }
  assert (G := mix_ge A B _ t Ht KA KB). rewrite <- V in G.
  assert (W : X ^ 2 + Y ^ 2 = (- sm * X + cm * Y) ^ 2 + (cm * X + sm * Y) ^ 2).
  { transitivity ((sm * sm + cm * cm) * (X ^ 2 + Y ^ 2)); [rewrite SM; ring|ring]. }
  rewrite W. set (z := - sm * X + cm * Y) in *. assert (0 <= (cm * X + sm * Y) ^ 2) by (rewrite <- Rsqr_pow2; apply Rle_0_sqr).
  assert (RC : 0 < r * S * C) by now apply Rmult_lt_0_compat.
  assert (2 / 3 * (r * S * C) * (2 / 3 * (r * S * C)) <= z * z) by (apply Rmult_le_compat; lra).
  replace (r * (2 * S * C) * (r * (2 * S * C))) with (9 * (2 / 3 * (r * S * C) * (2 / 3 * (r * S * C)))) by field. replace (z ^ 2) with (z * z) by ring. lra.
Qed.

(** the angle of each curve *)
Lemma arc_count x y r a1 a2 : r <> 0 -> let e := bezier_end (rad a1) (rad a2) in e <> rad a1 ->
  Rmin (e - rad a1) (PI / 8) <= (e - rad a1) / INR (length (arctobezierpath x y r a1 a2 45)).
Proof.
  intros Hr e Ne. assert (P := PI_RGT_0). assert (Le := bezier_end_le (rad a1) (rad a2)). fold e in Le.
  unfold arctobezierpath. rewrite !rad_radians. fold (bezier_end (rad a1) (rad a2)). fold e.
  replace (eqb r 0) with false by (symmetry; now apply eqb_false). replace (eqb (rad a1 - e) 0) with false by (symmetry; apply eqb_false; lra).
  cbn [orb]. rewrite map_length, seq_length.
  assert (R4 : rad 45 = PI / 4) by (unfold rad; field). rewrite R4.
  set (D := e - rad a1) in *. assert (D0 : 0 < D) by (unfold D; lra).
  assert (F := floor_spec (D / (PI / 4))). set (k := floor (D / (PI / 4))) in *.
  assert (Q0 : 0 < D / (PI / 4)) by (apply Rdiv_lt_0_compat; lra).
  assert (K0 : (0 <= k)%Z) by (assert (-1 < k)%Z; [apply lt_IZR; rewrite ?opp_IZR; lra|lia]).
  rewrite INR_IZR_INZ, Z2Nat.id, plus_IZR by lia.
  assert (KR : 0 <= IZR k) by (apply IZR_le in K0; lra).
  destruct (Z.eq_dec k 0) as [->|NK].
  - eapply Rle_trans; [apply Rmin_l|]. right. field.
  - assert (K1 : 1 <= IZR k) by (apply IZR_le; lia). eapply Rle_trans; [apply Rmin_r|].
    apply Rmult_le_reg_r with (IZR k + 1); [lra|]. unfold Rdiv at 2. rewrite Rmult_assoc, Rinv_l, Rmult_1_r by lra.
    assert (HD : IZR k * (PI / 4) <= D).
    { replace D with (D / (PI / 4) * (PI / 4)) by (field; lra). apply Rmult_le_compat_r; lra. }
    assert (PI / 8 * (IZR k + 1) <= IZR k * (PI / 4)); [|lra]. replace (IZR k * (PI / 4)) with (PI / 8 * (2 * IZR k)) by field. apply Rmult_le_compat_l; lra.
Qed.
Lemma arc_end_known a1 a2 e : arc_end a1 a2 e -> a2 <= a1 + 2 * PI -> e = bezier_end a1 a2.
Proof.
  intros E L. destruct (bezier_end_spec a1 a2) as [A _]. specialize (A L). set (b := bezier_end a1 a2) in *.
  destruct E as [[H ->]|(H & (k & ->) & B)], A as [[H' ->]|(H' & (k' & ->) & B')]; auto; try lra.
  assert (P := PI_RGT_0).
  assert (k = k'); [|congruence]. assert (X : (IZR k - IZR k') * (2 * PI) < 1 * (2 * PI)) by lra. assert (Y : (IZR k' - IZR k) * (2 * PI) < 1 * (2 * PI)) by lra.
  apply Rmult_lt_reg_r in X; [|lra]. apply Rmult_lt_reg_r in Y; [|lra]. rewrite <- minus_IZR in X, Y. apply lt_IZR in X, Y. lia.
Qed.
Lemma arc_items_fast x y r a1 a2 e : 0 < r -> arc_end (rad a1) (rad a2) e -> rad a2 <= rad a1 + 2 * PI ->
  Forall (fast (r * sin (Rmin (e - rad a1) (PI / 8)))) (arc_items x y r a1 a2).
Proof.
  intros Hr AE L. rewrite (arc_end_known _ _ _ AE L). assert (P := PI_RGT_0). apply Forall_forall. intros i I.
  apply In_nth_error in I as (n & I). change (arc_items x y r a1 a2) with (somes (arctobezierpath x y r a1 a2 45)) in I.
  destruct (arc_curves_structure x y r a1 a2 45 ltac:(lra) ltac:(lra)) as [CN D].
  destruct (arc_curves x y r a1 a2 45 ltac:(lra) ltac:(lra)) as (e' & _ & _ & _ & _ & E5).
  destruct (somes_nth (arctobezierpath x y r a1 a2 45)) as [_ NN].
  { intros j o H. destruct (E5 j o H) as (p1 & p2 & ->). discriminate. }
  apply NN in I. destruct (D n _ I) as [Q E]. clear NN E5 e'.
  assert (Ne : bezier_end (rad a1) (rad a2) <> rad a1).
  { intros H. apply CN in H. apply length_zero_iff_nil in H. rewrite H in I. destruct n; discriminate. }
  assert (AC := arc_count x y r a1 a2 ltac:(lra) Ne). cbv zeta in AC.
  set (dphi := (bezier_end (rad a1) (rad a2) - rad a1) / INR (length (arctobezierpath x y r a1 a2 45))) in *.
  assert (R4 : rad 45 = PI / 4) by (unfold rad; field). rewrite R4 in Q.
  assert (FP := piece_fast x y r (rad a1 + INR n * dphi) (rad a1 + (INR n + 1) * dphi) i Hr ltac:(lra) (eq_sym E)).
  replace (rad a1 + (INR n + 1) * dphi - (rad a1 + INR n * dphi)) with dphi in FP by ring.
  assert (Le := bezier_end_le (rad a1) (rad a2)).
  set (m := Rmin (bezier_end (rad a1) (rad a2) - rad a1) (PI / 8)) in *.
  assert (M0 : 0 <= m) by (unfold m; apply Rmin_glb; lra). assert (M1 : m <= PI / 8) by apply Rmin_r.
  assert (SS : sin m <= sin dphi) by (apply sin_incr_1; lra). assert (S0 : 0 <= sin m) by (apply sin_ge_0; lra).
  apply nrm_fast; [apply Rmult_le_pos; lra|]. intros t Ht. eapply Rle_trans; [|apply fast_nrm; [exact FP|auto]]. apply Rmult_le_compat_l; lra.
Qed.

(** C59: every curve of an arc has at each parameter at least the speed r sin(phi) where phi is the angle of the whole arc, or an
    eighth of half a turn for longer ones. *)
Theorem arc_curves_speed : forall x y r a1 a2 e i, 0 < r -> arc_end (rad a1) (rad a2) e -> rad a2 <= rad a1 + 2 * PI ->
  In i (arc_items x y r a1 a2) -> speed_at_least (r * sin (Rmin (e - rad a1) (PI / 8))) i.
Proof.
  intros x y r a1 a2 e i Hr AE L I. assert (F := arc_items_fast x y r a1 a2 e Hr AE L). rewrite Forall_forall in F. specialize (F i I).
  apply fast_speed; auto. assert (P := PI_RGT_0).
  assert (rad a1 <= e) by (destruct AE as [[H ->]|(_ & _ & B)]; lra).
  assert (M0 : 0 <= Rmin (e - rad a1) (PI / 8)) by (apply Rmin_glb; lra). assert (M1 := Rmin_r (e - rad a1) (PI / 8)).
  apply Rmult_le_pos; [lra|apply sin_ge_0; lra].
Qed.
Print Assumptions arc_curves_speed.
Example arc_curves_speed_ex : exists i, In i (arc_items 0 0 2 0 15) /\ speed_at_least (2 * sin (PI / 12)) i.
Proof.
  assert (P := PI_RGT_0). assert (E0 : rad 0 = 0) by (unfold rad; field). assert (E1 : rad 15 = PI / 12) by (unfold rad; field).
  destruct (arc_items 0 0 2 0 15) as [|i l] eqn:I.
  - exfalso. assert (C := proj1 (arc_items_chained 0 0 2 0 15)). rewrite I in C. cbn [chained] in C. unfold arcpoint in C.
    replace (radians 0) with 0 in C by (unfold radians; field). replace (radians 15) with (PI / 12) in C by (unfold radians; field).
    injection C as _ C. rewrite sin_0 in C. assert (0 < sin (PI / 12)) by (apply sin_gt_0; lra). lra.
  - exists i. split; [now left|].
    assert (S := arc_curves_speed 0 0 2 0 15 (PI / 12) i ltac:(lra)). rewrite E0, E1, Rmin_left in S by lra. rewrite Rminus_0_r in S.
    apply S; [left; lra|lra|]. rewrite I. now left.
Qed.
