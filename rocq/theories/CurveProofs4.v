(** Derivatives, tangents and curvature. *)
From Coq Require Import Reals List Lra Lia Bool.
From Verif Require Import TrafoModel BboxModel CurveModel CurveSpec CurveProofs2 CurveProofs3.
Import ListNotations.
Open Scope R_scope.

Local Notation pt := (R * R)%type.

Lemma deriv_ext f g t l : (forall u, f u = g u) -> derivable_pt_lim f t l -> derivable_pt_lim g t l.
Proof. intros H D eps He. destruct (D eps He) as [d Hd]. exists d. intros h H0 H1. rewrite <- !H. auto. Qed.
Lemma poly_deriv a b c d t : derivable_pt_lim (fun t => ((a * t + b) * t + c) * t + d) t (3 * a * t * t + 2 * b * t + c).
Proof.
  replace (3 * a * t * t + 2 * b * t + c) with
    (((a * 1 + 0) * t + (a * t + b) * 1 + 0) * t + ((a * t + b) * t + c) * 1 + 0) by ring.
  assert (I : derivable_pt_lim id t 1) by apply derivable_pt_lim_id.
  change (fun t0 : R => ((a * t0 + b) * t0 + c) * t0 + d) with
    (plus_fct (mult_fct (plus_fct (mult_fct (plus_fct (mult_real_fct a id) (fct_cte b)) id) (fct_cte c)) id) (fct_cte d)).
  exact (derivable_pt_lim_plus _ _ t _ _ (derivable_pt_lim_mult _ _ t _ _ (derivable_pt_lim_plus _ _ t _ _
          (derivable_pt_lim_mult _ _ t _ _ (derivable_pt_lim_plus _ _ t _ _ (derivable_pt_lim_scal _ a t _ I)
          (derivable_pt_lim_const b t)) I) (derivable_pt_lim_const c t)) I) (derivable_pt_lim_const d t)).
Qed.
Lemma deriv_cubic f a b c d t l : (forall u, f u = ((a * u + b) * u + c) * u + d) -> l = 3 * a * t * t + 2 * b * t + c ->
  derivable_pt_lim f t l.
Proof. intros H ->. apply deriv_ext with (fun t => ((a * t + b) * t + c) * t + d); [intros; symmetry; apply H|apply poly_deriv]. Qed.

Lemma curve_coord_deriv x0 x1 x2 x3 t : derivable_pt_lim (curve_coord x0 x1 x2 x3) t (tangent_coord x0 x1 x2 x3 t).
Proof.
  apply deriv_cubic with (- x0 + 3 * x1 - 3 * x2 + x3) (3 * x0 - 6 * x1 + 3 * x2) (-3 * x0 + 3 * x1) x0.
  - intros u. unfold curve_coord. ring.
  - unfold tangent_coord. ring.
Qed.
Lemma tangent_dot x0 x1 x2 x3 t : tangent_coord x0 x1 x2 x3 t = dot_coord x0 x1 x2 x3 t.
Proof. unfold tangent_coord, dot_coord. ring. Qed.
Lemma dot_deriv x0 x1 x2 x3 t : derivable_pt_lim (dot_coord x0 x1 x2 x3) t (ddot_coord x0 x1 x2 x3 t).
Proof.
  apply deriv_cubic with 0 (3 * (- x0 + x1) - 6 * (- x1 + x2) + 3 * (- x2 + x3)) (-6 * (- x0 + x1) + 6 * (- x1 + x2)) (3 * (- x0 + x1)).
  - intros u. unfold dot_coord. ring.
  - unfold ddot_coord. ring.
Qed.

(** the derivative of the coordinates of an item *)
Definition velocity (i : item) (t : R) : pt :=
  match i with
  | Line (x0, y0) (x1, y1) => (x1 - x0, y1 - y0)
  | Curve (x0, y0) (x1, y1) (x2, y2) (x3, y3) => (tangent_coord x0 x1 x2 x3 t, tangent_coord y0 y1 y2 y3 t)
  end.
Lemma velocity_deriv i t : derivable_pt_lim (fun u => fst (at_pt i u)) t (fst (velocity i t)) /\
  derivable_pt_lim (fun u => snd (at_pt i u)) t (snd (velocity i t)).
Proof.
  destruct i as [[x0 y0] [x1 y1]|[x0 y0] [x1 y1] [x2 y2] [x3 y3]]; simpl.
  - split; [apply deriv_cubic with 0 0 (x1 - x0) x0|apply deriv_cubic with 0 0 (y1 - y0) y0]; intros; ring.
  - split; apply curve_coord_deriv.
Qed.

(** ** atan2 *)
Lemma sqrt_quot x y : x <> 0 -> sqrt (1 + Rsqr (y / x)) = hypot x y / Rabs x.
Proof.
  intros Hx. assert (A : 0 < Rabs x) by now apply Rabs_pos_lt.
  apply (Rmult_eq_reg_r (Rabs x)); [|lra]. unfold Rdiv at 2. rewrite Rmult_assoc, Rinv_l, Rmult_1_r by lra.
  rewrite <- (sqrt_Rsqr_abs x), <- sqrt_mult.
  - unfold hypot. f_equal. unfold Rsqr. field. exact Hx.
  - pose proof (Rle_0_sqr (y / x)). lra.
  - apply Rle_0_sqr.
Qed.
Lemma hypot_pos_x x y : x <> 0 -> 0 < hypot x y.
Proof. intros H. apply sqrt_lt_R0. pose proof (Rlt_0_sqr x H) as A. pose proof (Rle_0_sqr y) as B. unfold Rsqr in *. lra. Qed.
Lemma cos_sin_atan2 y x : hypot x y <> 0 -> cos (atan2 y x) = x / hypot x y /\ sin (atan2 y x) = y / hypot x y.
Proof.
  intros N. unfold atan2. destruct (Rlt_dec 0 x) as [P|P]; [|destruct (Rlt_dec x 0) as [Q|Q]].
  - rewrite cos_atan, sin_atan, sqrt_quot by lra. rewrite Rabs_pos_eq by lra. split; field; split; auto; lra.
  - assert (C : forall k, k = PI \/ k = - PI -> cos (atan (y / x) + k) = - cos (atan (y / x)) /\ sin (atan (y / x) + k) = - sin (atan (y / x))).
    { intros k [->| ->]; rewrite cos_plus, sin_plus, ?cos_neg, ?sin_neg, cos_PI, sin_PI; split; ring. }
    assert (cos (atan (y / x)) = - (x / hypot x y) /\ sin (atan (y / x)) = - (y / hypot x y)) as [A B].
    { rewrite cos_atan, sin_atan, sqrt_quot by lra. rewrite Rabs_left by lra. split; field; split; auto; lra. }
    destruct (Rge_dec y 0).
    + destruct (C PI (or_introl eq_refl)) as [-> ->]. rewrite A, B. split; ring.
    + replace (atan (y / x) - PI) with (atan (y / x) + - PI) by ring. destruct (C (- PI) (or_intror eq_refl)) as [-> ->].
      rewrite A, B. split; ring.
  - assert (x = 0) as -> by lra. assert (H : hypot 0 y = Rabs y).
    { unfold hypot. replace (0 * 0 + y * y) with (Rsqr y) by (unfold Rsqr; ring). apply sqrt_Rsqr_abs. }
    rewrite H in *. destruct (Rlt_dec 0 y) as [Y|Y]; [|destruct (Rlt_dec y 0) as [Y'|Y']].
    + rewrite cos_PI2, sin_PI2, Rabs_pos_eq by lra. split; field; lra.
    + rewrite cos_neg, sin_neg, cos_PI2, sin_PI2, Rabs_left by lra. split; field; lra.
    + exfalso. apply N. replace y with 0 by lra. apply Rabs_R0.
Qed.
Lemma radians_degrees a : radians (degrees a) = a.
Proof. unfold radians, degrees. field. apply PI_neq0. Qed.

(** ** unit tangent *)
Lemma unit_deriv (f g : R -> R) t df dg : derivable_pt_lim f t df -> derivable_pt_lim g t dg -> hypot (f t) (g t) <> 0 ->
  derivable_pt_lim (fun u => f u / hypot (f u) (g u)) t
    ((f t * dg - g t * df) / hypot (f t) (g t) ^ 3 * hypot (f t) (g t) * (- (g t / hypot (f t) (g t)))).
Proof.
  intros Df Dg N. set (h := hypot (f t) (g t)) in *.
  assert (H2 : h * h = f t * f t + g t * g t) by apply hypot_sqr.
  assert (Hp : 0 < h) by (pose proof (hypot_pos (f t) (g t)) as HH; fold h in HH; lra).
  assert (P : 0 < f t * f t + g t * g t) by (rewrite <- H2; nra).
  pose proof (derivable_pt_lim_plus _ _ t _ _ (derivable_pt_lim_mult _ _ t _ _ Df Df) (derivable_pt_lim_mult _ _ t _ _ Dg Dg)) as D2.
  pose proof (derivable_pt_lim_comp _ sqrt t _ _ D2 (derivable_pt_lim_sqrt _ P)) as D3.
  assert (N' : comp sqrt (plus_fct (mult_fct f f) (mult_fct g g)) t <> 0) by exact N.
  pose proof (derivable_pt_lim_div _ _ t _ _ Df D3 N') as D4.
  match type of D4 with derivable_pt_lim _ _ ?a => match goal with |- derivable_pt_lim _ _ ?b => replace b with a end end.
  - exact D4.
  - change (comp sqrt (plus_fct (mult_fct f f) (mult_fct g g)) t) with h.
    change (sqrt (f t * f t + g t * g t)) with h.
    unfold Rsqr. field_simplify_eq; [|lra].
    replace (h ^ 2) with (f t * f t + g t * g t) by (rewrite <- H2; ring). ring.
Qed.
