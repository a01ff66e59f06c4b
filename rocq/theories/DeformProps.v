(** Corners between lines are replaced by smooth curves. *)
From Coq Require Import Reals List Bool Lia Lra.
From Verif Require Import TrafoModel CurveModel CurveSpec CurveProofs2 CurveProofs3 CurveProofs4 RootsModel DeformModel.
Import ListNotations.
Open Scope R_scope.

(** the same direction *)
Definition same_direction (v w : pt) : Prop := exists k, 0 < k /\ v = (k * fst w, k * snd w).
Definition curvature (i : item) (t : R) : R := match item_curvature i t with Some k => k | None => 0 end.

(** ** f and g *)
Lemma soft_g_eq : forall f, soft_g f = (15 * f + sqrt (24 * f - 15 * f * f)) / 12.
Proof. intros f. unfold soft_g. replace (- 15.0 * f * f + 24.0 * f) with (24 * f - 15 * f * f) by lra. lra. Qed.
Lemma g_between : forall f, 0 < f < 0.6 -> f < soft_g f < 1.
Proof.
  intros f H. rewrite soft_g_eq.
  assert (P : 0 < 24 * f - 15 * f * f) by (replace (24 * f - 15 * f * f) with (f * (24 - 15 * f)) by ring; apply Rmult_lt_0_compat; lra).
  split.
  - pose proof (sqrt_lt_R0 _ P). lra.
  - assert (sqrt (24 * f - 15 * f * f) < 12 - 15 * f); [|lra].
    apply Rsqr_incrst_0; [|apply sqrt_pos|lra]. rewrite Rsqr_sqrt by lra. unfold Rsqr.
    assert (0 < (3 - 5 * f) * (1 - f)) by (apply Rmult_lt_0_compat; lra). nra.
Qed.
Lemma g_equation : forall f, 0 < f < 0.6 -> 6 * soft_g f * soft_g f - 15 * f * soft_g f + 10 * f * f - f = 0.
Proof.
  intros f H. rewrite soft_g_eq.
  assert (P : 0 < 24 * f - 15 * f * f) by (replace (24 * f - 15 * f * f) with (f * (24 - 15 * f)) by ring; apply Rmult_lt_0_compat; lra).
  pose proof (sqrt_sqrt _ (Rlt_le _ _ P)) as S.
  set (s := sqrt (24 * f - 15 * f * f)) in *.
  replace (6 * ((15 * f + s) / 12) * ((15 * f + s) / 12)) with ((225 * f * f + 30 * f * s + s * s) / 24) by field. rewrite S. field.
Qed.

(** ** The curves in terms of the vectors from the corner to their ends *)
Definition at_corner (B u w : pt) (c1 c2 : R) : pt := (fst B + c1 * fst u + c2 * fst w, snd B + c1 * snd u + c2 * snd w).
Definition curve1 (B u w : pt) (f g : R) : item := Curve (at_corner B u w 1 0) (at_corner B u w g 0) (at_corner B u w f 0) (at_corner B u w (f / 2) (f / 2)).
Definition curve2 (B u w : pt) (f g : R) : item := Curve (at_corner B u w (f / 2) (f / 2)) (at_corner B u w 0 f) (at_corner B u w 0 g) (at_corner B u w 0 1).
Definition scaled (r : R) (t : pt) : pt := (r * (fst t / hypot (fst t) (snd t)), r * (snd t / hypot (fst t) (snd t))).
Lemma corner_curves_eq : forall B t1 t2 r1 r2 s,
  corner_curves B t1 t2 r1 r2 s = (curve1 B (scaled (- r1) t1) (scaled r2 t2) (soft_f s) (soft_g (soft_f s)),
    curve2 B (scaled (- r1) t1) (scaled r2 t2) (soft_f s) (soft_g (soft_f s))).
Proof.
  intros [bx by_] [t1x t1y] [t2x t2y] r1 r2 s. unfold corner_curves, corner_points, curve1, curve2, at_corner, from_corner, scaled. cbn [fst snd].
  set (g := soft_g (soft_f s)). set (f := soft_f s). unfold Rdiv. set (h1 := / hypot t1x t1y). set (h2 := / hypot t2x t2y).
  replace 0.5 with (/ 2) by lra. f_equal; f_equal; f_equal; first [ring|clearbody h1 h2 f; field].
Qed.

Lemma velocity_ends : forall p0 p1 p2 p3, velocity (Curve p0 p1 p2 p3) 0 = (3 * (fst p1 - fst p0), 3 * (snd p1 - snd p0)) /\
  velocity (Curve p0 p1 p2 p3) 1 = (3 * (fst p3 - fst p2), 3 * (snd p3 - snd p2)).
Proof. intros [] [] [] []. cbn. unfold tangent_coord. split; f_equal; ring. Qed.
(** the numerator of the curvature and the speed *)
Definition num (i : item) (t : R) : R :=
  match i with
  | Line _ _ => 0
  | Curve (x0, y0) (x1, y1) (x2, y2) (x3, y3) => dot_coord x0 x1 x2 x3 t * ddot_coord y0 y1 y2 y3 t - dot_coord y0 y1 y2 y3 t * ddot_coord x0 x1 x2 x3 t
  end.
Lemma curvature_num : forall p0 p1 p2 p3 t, item_curvature (Curve p0 p1 p2 p3) t =
  if Req_EM_T (hypot (fst (velocity (Curve p0 p1 p2 p3) t)) (snd (velocity (Curve p0 p1 p2 p3) t))) 0 then None
  else Some (num (Curve p0 p1 p2 p3) t / hypot (fst (velocity (Curve p0 p1 p2 p3) t)) (snd (velocity (Curve p0 p1 p2 p3) t)) ^ 3).
Proof. intros [] [] [] [] t. cbn [velocity fst snd item_curvature num]. rewrite !tangent_dot. reflexivity. Qed.

Lemma num_1_0 : forall B u w f g, num (curve1 B u w f g) 0 = 0.
Proof. intros [] [] [] f g. cbn. unfold dot_coord, ddot_coord. field. Qed.
Lemma num_2_1 : forall B u w f g, num (curve2 B u w f g) 1 = 0.
Proof. intros [] [] [] f g. cbn. unfold dot_coord, ddot_coord. field. Qed.
Lemma num_middle : forall B u w f g, num (curve1 B u w f g) 1 = 9 * f * (g - f) * (fst w * snd u - snd w * fst u) /\
  num (curve2 B u w f g) 0 = 9 * f * (g - f) * (fst w * snd u - snd w * fst u).
Proof. intros [] [] [] f g. cbn. unfold dot_coord, ddot_coord. split; field. Qed.

Lemma hypot_0 : forall x y, hypot x y = 0 -> x = 0 /\ y = 0.
Proof.
  intros x y H. unfold hypot in H. apply sqrt_eq_0 in H; [|pose proof (Rle_0_sqr x); pose proof (Rle_0_sqr y); unfold Rsqr in *; lra].
  pose proof (Rle_0_sqr x) as A. pose proof (Rle_0_sqr y) as B. split; apply Rsqr_0_uniq; unfold Rsqr in *; lra.
Qed.
Lemma hypot_scale : forall k x y, 0 < k -> hypot (k * x) (k * y) = k * hypot x y.
Proof.
  intros k x y K. unfold hypot. transitivity (sqrt (k * k) * sqrt (x * x + y * y)); [|rewrite sqrt_square by lra; reflexivity].
  rewrite <- sqrt_mult; [f_equal; ring|nra|].
  pose proof (Rle_0_sqr x); pose proof (Rle_0_sqr y); unfold Rsqr in *; lra.
Qed.

(** C121: the curves begin and end on the lines, in the directions of the lines and with the curvature of lines; in the middle the velocities and
    the curvatures agree. *)
Theorem corner_smooth : forall B t1 t2 r1 r2 softness,
  t1 <> (0, 0) -> t2 <> (0, 0) -> 0 < r1 -> 0 < r2 -> 0 < softness -> 0.3192 * softness < 0.6 ->
  let '(c1, c2) := corner_curves B t1 t2 r1 r2 softness in
  (exists k1, 0 < k1 /\ atbegin_pt c1 = (fst B - k1 * fst t1, snd B - k1 * snd t1) /\ distance B (atbegin_pt c1) = r1) /\
  (exists k2, 0 < k2 /\ atend_pt c2 = (fst B + k2 * fst t2, snd B + k2 * snd t2) /\ distance B (atend_pt c2) = r2) /\
  same_direction (velocity c1 0) t1 /\ item_curvature c1 0 = Some 0 /\
  same_direction (velocity c2 1) t2 /\ item_curvature c2 1 = Some 0 /\
  atend_pt c1 = atbegin_pt c2 /\ velocity c1 1 = velocity c2 0 /\ item_curvature c1 1 = item_curvature c2 0.
Proof.
  intros B t1 t2 r1 r2 s N1 N2 R1 R2 S F. rewrite corner_curves_eq. set (f := soft_f s).
  assert (Ff : 0 < f < 0.6) by (unfold f, soft_f; lra). pose proof (g_between f Ff) as G. set (g := soft_g f) in *.
  destruct t1 as [t1x t1y], t2 as [t2x t2y], B as [bx by_].
  assert (H1 : 0 < hypot t1x t1y).
  { destruct (Req_dec (hypot t1x t1y) 0) as [E|E]; [|pose proof (hypot_pos t1x t1y); lra]. apply hypot_0 in E as [-> ->]. contradiction. }
  assert (H2 : 0 < hypot t2x t2y).
  { destruct (Req_dec (hypot t2x t2y) 0) as [E|E]; [|pose proof (hypot_pos t2x t2y); lra]. apply hypot_0 in E as [-> ->]. contradiction. }
  set (u := scaled (- r1) (t1x, t1y)). set (w := scaled r2 (t2x, t2y)).
  assert (K : forall h r, 0 < h -> 0 < r -> 0 < r / h) by (intros; apply Rdiv_lt_0_compat; auto).
  assert (Q1 : hypot t1x t1y * hypot t1x t1y = t1x * t1x + t1y * t1y) by apply hypot_sqr.
  assert (Q2 : hypot t2x t2y * hypot t2x t2y = t2x * t2x + t2y * t2y) by apply hypot_sqr.
  assert (V1 : same_direction (velocity (curve1 (bx, by_) u w f g) 0) (t1x, t1y)).
  { unfold curve1. rewrite (proj1 (velocity_ends _ _ _ _)). exists (3 * (1 - g) * (r1 / hypot t1x t1y)).
    split; [apply Rmult_lt_0_compat; [lra|auto]|]. unfold u, scaled, at_corner. cbn [fst snd]. f_equal; field; lra. }
  assert (V2 : same_direction (velocity (curve2 (bx, by_) u w f g) 1) (t2x, t2y)).
  { unfold curve2. rewrite (proj2 (velocity_ends _ _ _ _)). exists (3 * (1 - g) * (r2 / hypot t2x t2y)).
    split; [apply Rmult_lt_0_compat; [lra|auto]|]. unfold w, scaled, at_corner. cbn [fst snd]. f_equal; field; lra. }
  assert (NZ : forall v t, same_direction v t -> 0 < hypot (fst t) (snd t) -> hypot (fst v) (snd v) <> 0).
  { intros v t (k & Kp & ->) P. cbn [fst snd]. rewrite hypot_scale by auto. pose proof (Rmult_lt_0_compat _ _ Kp P). lra. }
  split; [|split; [|split; [|split; [|split; [|split; [|split; [|split]]]]]]].
  - exists (r1 / hypot t1x t1y). split; [auto|]. unfold curve1, atbegin_pt, at_corner, u, scaled. cbn [fst snd]. split; [f_equal; field; lra|].
    unfold distance. cbn [fst snd]. transitivity (sqrt (r1 * r1)); [f_equal|apply sqrt_square; lra].
    transitivity (r1 * r1 * (t1x * t1x + t1y * t1y) / (hypot t1x t1y * hypot t1x t1y)); [|rewrite <- Q1]; field; lra.
  - exists (r2 / hypot t2x t2y). split; [auto|]. unfold curve2, atend_pt, at_corner, w, scaled. cbn [fst snd]. split; [f_equal; field; lra|].
    unfold distance. cbn [fst snd]. transitivity (sqrt (r2 * r2)); [f_equal|apply sqrt_square; lra].
    transitivity (r2 * r2 * (t2x * t2x + t2y * t2y) / (hypot t2x t2y * hypot t2x t2y)); [|rewrite <- Q2]; field; lra.
  - exact V1.
  - unfold curve1. rewrite curvature_num. fold (curve1 (bx, by_) u w f g). destruct (Req_EM_T _ 0) as [E|E]; [exfalso; exact (NZ _ _ V1 H1 E)|].
    rewrite num_1_0. f_equal. unfold Rdiv. ring.
  - exact V2.
  - unfold curve2. rewrite curvature_num. fold (curve2 (bx, by_) u w f g). destruct (Req_EM_T _ 0) as [E|E]; [exfalso; exact (NZ _ _ V2 H2 E)|].
    rewrite num_2_1. f_equal. unfold Rdiv. ring.
  - reflexivity.
  - unfold curve1, curve2. rewrite (proj2 (velocity_ends _ _ _ _)), (proj1 (velocity_ends _ _ _ _)). unfold at_corner. cbn [fst snd]. f_equal; field.
  - assert (V : velocity (curve1 (bx, by_) u w f g) 1 = velocity (curve2 (bx, by_) u w f g) 0).
    { unfold curve1, curve2. rewrite (proj2 (velocity_ends _ _ _ _)), (proj1 (velocity_ends _ _ _ _)). unfold at_corner. cbn [fst snd]. f_equal; field. }
    unfold curve1, curve2. rewrite !curvature_num. fold (curve1 (bx, by_) u w f g). fold (curve2 (bx, by_) u w f g). rewrite V.
    destruct (num_middle (bx, by_) u w f g) as [-> ->]. reflexivity.
Qed.
Print Assumptions corner_smooth.

(** ** The derivative of the curvature in the middle *)
Definition acc (i : item) (t : R) : pt :=
  match i with
  | Line _ _ => (0, 0)
  | Curve (x0, y0) (x1, y1) (x2, y2) (x3, y3) => (ddot_coord x0 x1 x2 x3 t, ddot_coord y0 y1 y2 y3 t)
  end.
Definition jerk (i : item) : pt :=
  match i with
  | Line _ _ => (0, 0)
  | Curve (x0, y0) (x1, y1) (x2, y2) (x3, y3) => (6 * (x3 - 3 * x2 + 3 * x1 - x0), 6 * (y3 - 3 * y2 + 3 * y1 - y0))
  end.
Lemma ddot_deriv x0 x1 x2 x3 t : derivable_pt_lim (ddot_coord x0 x1 x2 x3) t (6 * (x3 - 3 * x2 + 3 * x1 - x0)).
Proof.
  apply deriv_cubic with 0 0 (6 * (x3 - 3 * x2 + 3 * x1 - x0)) (6 * (x0 - 2 * x1 + x2)); [intros u; unfold ddot_coord; ring|ring].
Qed.
Lemma curvature_deriv : forall p0 p1 p2 p3 t, let i := Curve p0 p1 p2 p3 in
  let v := velocity i t in let a := acc i t in let j := jerk i in
  let h := hypot (fst v) (snd v) in h <> 0 ->
  derivable_pt_lim (curvature i) t
    (((fst v * snd j - snd v * fst j) * (h * h) - 3 * (fst v * snd a - snd v * fst a) * (fst v * fst a + snd v * snd a)) / (h * h * h * h * h)).
Proof.
  intros [x0 y0] [x1 y1] [x2 y2] [x3 y3] t i v a j h N.
  set (f := dot_coord x0 x1 x2 x3). set (g := dot_coord y0 y1 y2 y3). set (df := ddot_coord x0 x1 x2 x3). set (dg := ddot_coord y0 y1 y2 y3).
  apply deriv_ext with (fun u => (f u * dg u - g u * df u) / (hypot (f u) (g u) * (hypot (f u) (g u) * hypot (f u) (g u)))).
  { intros u. unfold curvature, i, item_curvature. fold f g df dg. destruct (Req_EM_T (hypot (f u) (g u)) 0) as [Z|Z].
    - apply hypot_0 in Z as [-> ->]. unfold Rdiv. ring.
    - unfold Rdiv. f_equal. f_equal. ring. }
  assert (Ev : v = (f t, g t)) by (unfold v, i, velocity; rewrite !tangent_dot; reflexivity).
  assert (Ea : a = (df t, dg t)) by reflexivity.
  assert (Ej : j = (6 * (x3 - 3 * x2 + 3 * x1 - x0), 6 * (y3 - 3 * y2 + 3 * y1 - y0))) by reflexivity.
  unfold h in *. clear h. rewrite Ev, Ea, Ej in *. cbn [fst snd] in *. clear v a j Ev Ea Ej. set (jx := 6 * (x3 - 3 * x2 + 3 * x1 - x0)). set (jy := 6 * (y3 - 3 * y2 + 3 * y1 - y0)).
  pose proof (dot_deriv x0 x1 x2 x3 t) as Df. pose proof (dot_deriv y0 y1 y2 y3 t) as Dg.
  pose proof (ddot_deriv x0 x1 x2 x3 t) as Ddf. pose proof (ddot_deriv y0 y1 y2 y3 t) as Ddg. fold f in Df. fold g in Dg. fold df in Df, Ddf. fold dg in Dg, Ddg. fold jx in Ddf. fold jy in Ddg.
  set (h := hypot (f t) (g t)) in *.
  assert (H2 : h * h = f t * f t + g t * g t) by apply hypot_sqr.
  assert (Hp : 0 < h) by (pose proof (hypot_pos (f t) (g t)) as HH; fold h in HH; lra).
  assert (P : 0 < f t * f t + g t * g t) by (rewrite <- H2; nra).
  pose proof (derivable_pt_lim_plus _ _ t _ _ (derivable_pt_lim_mult _ _ t _ _ Df Df) (derivable_pt_lim_mult _ _ t _ _ Dg Dg)) as D2.
  pose proof (derivable_pt_lim_comp _ sqrt t _ _ D2 (derivable_pt_lim_sqrt _ P)) as D3.
  pose proof (derivable_pt_lim_mult _ _ t _ _ D3 (derivable_pt_lim_mult _ _ t _ _ D3 D3)) as D4.
  pose proof (derivable_pt_lim_minus _ _ t _ _ (derivable_pt_lim_mult _ _ t _ _ Df Ddg) (derivable_pt_lim_mult _ _ t _ _ Dg Ddf)) as D5.
  assert (N' : mult_fct (comp sqrt (plus_fct (mult_fct f f) (mult_fct g g))) (mult_fct (comp sqrt (plus_fct (mult_fct f f) (mult_fct g g))) (comp sqrt (plus_fct (mult_fct f f) (mult_fct g g)))) t <> 0).
  { change (h * (h * h) <> 0). apply Rmult_integral_contrapositive_currified; [lra|nra]. }
  pose proof (derivable_pt_lim_div _ _ t _ _ D5 D4 N') as D6.
  match type of D6 with derivable_pt_lim _ _ ?a => match goal with |- derivable_pt_lim _ _ ?b => replace b with a end end.
  - exact D6.
  - unfold mult_fct, minus_fct. change (comp sqrt (plus_fct (fun x : R => f x * f x) (fun x : R => g x * g x)) t) with h. change (comp sqrt (plus_fct (mult_fct f f) (mult_fct g g)) t) with h.
    change (sqrt (f t * f t + g t * g t)) with h. unfold mult_fct. clear D2 D3 D4 D5 D6 N'.
    unfold Rsqr. field. lra.
Qed.

(** the condition for the derivative of the curvature of the first curve at its end to vanish *)
Lemma middle_deriv : forall B u w f g, let i := curve1 B u w f g in let v := velocity i 1 in let a := acc i 1 in let j := jerk i in
  (fst v * snd j - snd v * fst j) * (fst v * fst v + snd v * snd v) - 3 * (fst v * snd a - snd v * fst a) * (fst v * fst a + snd v * snd a) =
  9 * f * (fst w * snd u - snd w * fst u) *
   ((3 * g - 2 * f - 1) * (9 / 4 * f * f * ((fst w - fst u) ^ 2 + (snd w - snd u) ^ 2)) -
    3 * (g - f) * (9 * f * (f / 2 * (fst w ^ 2 + snd w ^ 2) - (g - 3 / 2 * f) * (fst u ^ 2 + snd u ^ 2) + (g - 2 * f) * (fst u * fst w + snd u * snd w)))).
Proof. intros [bx by_] [ux uy] [wx wy] f g. cbn. unfold tangent_coord, ddot_coord. field. Qed.
Lemma middle_deriv2 : forall B u w f g, let i := curve2 B u w f g in let v := velocity i 0 in let a := acc i 0 in let j := jerk i in
  (fst v * snd j - snd v * fst j) * (fst v * fst v + snd v * snd v) - 3 * (fst v * snd a - snd v * fst a) * (fst v * fst a + snd v * snd a) =
  - (9 * f * (fst w * snd u - snd w * fst u) *
   ((3 * g - 2 * f - 1) * (9 / 4 * f * f * ((fst w - fst u) ^ 2 + (snd w - snd u) ^ 2)) -
    3 * (g - f) * (9 * f * (f / 2 * (fst u ^ 2 + snd u ^ 2) - (g - 3 / 2 * f) * (fst w ^ 2 + snd w ^ 2) + (g - 2 * f) * (fst u * fst w + snd u * snd w))))).
Proof. intros [bx by_] [ux uy] [wx wy] f g. cbn. unfold tangent_coord, ddot_coord. field. Qed.

Lemma scaled_norm : forall r t, t <> (0, 0) -> fst (scaled r t) ^ 2 + snd (scaled r t) ^ 2 = r * r.
Proof.
  intros r [x y] N. cbn [scaled fst snd]. pose proof (hypot_sqr x y) as Q.
  assert (hypot x y <> 0) by (intros E; apply hypot_0 in E as [-> ->]; contradiction).
  transitivity (r * r * (x * x + y * y) / (hypot x y * hypot x y)); [|rewrite <- Q]; field; auto.
Qed.

(** C121: with equal distances from the corner the curvature has its extremum in the middle: its derivative is zero from both sides. *)
Theorem corner_curvature_flat : forall B t1 t2 r softness,
  t1 <> (0, 0) -> t2 <> (0, 0) -> 0 < r -> 0 < softness -> 0.3192 * softness < 0.6 -> ~ same_direction t1 (- fst t2, - snd t2) ->
  let '(c1, c2) := corner_curves B t1 t2 r r softness in
  derivable_pt_lim (curvature c1) 1 0 /\ derivable_pt_lim (curvature c2) 0 0.
Proof.
  intros B t1 t2 r s N1 N2 R1 S F O. rewrite corner_curves_eq. set (f := soft_f s).
  assert (Ff : 0 < f < 0.6) by (unfold f, soft_f; lra). pose proof (g_between f Ff) as G. pose proof (g_equation f Ff) as GE. set (g := soft_g f) in *.
  pose proof (scaled_norm (- r) t1 N1) as U. pose proof (scaled_norm r t2 N2) as W.
  assert (Oc : ~ (fst (scaled (- r) t1) = fst (scaled r t2) /\ snd (scaled (- r) t1) = snd (scaled r t2))).
  { intros [E1 E2]. apply O. destruct t1 as [x1 y1], t2 as [x2 y2]. cbn [scaled fst snd] in *.
    assert (P1 : 0 < hypot x1 y1).
    { destruct (Req_dec (hypot x1 y1) 0) as [E|E]; [|pose proof (hypot_pos x1 y1); lra]. apply hypot_0 in E as [-> ->]. contradiction. }
    assert (P2 : 0 < hypot x2 y2).
    { destruct (Req_dec (hypot x2 y2) 0) as [E|E]; [|pose proof (hypot_pos x2 y2); lra]. apply hypot_0 in E as [-> ->]. contradiction. }
    exists (hypot x1 y1 / hypot x2 y2). split; [apply Rdiv_lt_0_compat; auto|]. cbn [fst snd].
    assert (X : x1 / hypot x1 y1 = - (x2 / hypot x2 y2)) by (apply (Rmult_eq_reg_l r); lra).
    assert (Y : y1 / hypot x1 y1 = - (y2 / hypot x2 y2)) by (apply (Rmult_eq_reg_l r); lra).
    f_equal.
    - replace x1 with (x1 / hypot x1 y1 * hypot x1 y1) at 1 by (field; lra). rewrite X. field. lra.
    - replace y1 with (y1 / hypot x1 y1 * hypot x1 y1) at 1 by (field; lra). rewrite Y. field. lra. }
  set (u := scaled (- r) t1) in *. set (w := scaled r t2) in *.
  assert (V : velocity (curve1 B u w f g) 1 = (3 / 2 * f * (fst w - fst u), 3 / 2 * f * (snd w - snd u)) /\ velocity (curve2 B u w f g) 0 = (3 / 2 * f * (fst w - fst u), 3 / 2 * f * (snd w - snd u))).
  { unfold curve1, curve2. rewrite (proj2 (velocity_ends _ _ _ _)), (proj1 (velocity_ends _ _ _ _)). unfold at_corner. cbn [fst snd]. split; f_equal; field. }
  assert (NZ : hypot (3 / 2 * f * (fst w - fst u)) (3 / 2 * f * (snd w - snd u)) <> 0).
  { intros E. apply hypot_0 in E as [E1 E2]. apply Oc. apply Rmult_integral in E1. apply Rmult_integral in E2. split; lra. }
  destruct V as [V1 V2].
  assert (Key : (3 * g - 2 * f - 1) * (9 / 4 * f * f * ((fst w - fst u) ^ 2 + (snd w - snd u) ^ 2)) -
    3 * (g - f) * (9 * f * (f / 2 * (r * r) - (g - 3 / 2 * f) * (r * r) + (g - 2 * f) * (fst u * fst w + snd u * snd w))) = 0).
  { set (c := fst u * fst w + snd u * snd w).
    replace ((fst w - fst u) ^ 2 + (snd w - snd u) ^ 2) with ((fst w ^ 2 + snd w ^ 2) + (fst u ^ 2 + snd u ^ 2) - 2 * c) by (unfold c; ring). rewrite U, W.
    replace (_ - _) with (9 / 2 * f * (r * r - c) * (6 * g * g - 15 * f * g + 10 * f * f - f)) by field. rewrite GE. ring. }
  replace (- r * - r) with (r * r) in U by ring.
  split.
  - pose proof (curvature_deriv (at_corner B u w 1 0) (at_corner B u w g 0) (at_corner B u w f 0) (at_corner B u w (f / 2) (f / 2)) 1) as Dv.
    fold (curve1 B u w f g) in Dv. cbv zeta in Dv. pose proof (middle_deriv B u w f g) as M. cbv zeta in M.
    rewrite V1 in Dv, M. cbn [fst snd] in Dv, M. specialize (Dv NZ). rewrite hypot_sqr, M, U, W, Key in Dv.
    match type of Dv with derivable_pt_lim _ _ ?y => assert (Zy : y = 0) by (unfold Rdiv; ring) end. rewrite Zy in Dv. exact Dv.
  - pose proof (curvature_deriv (at_corner B u w (f / 2) (f / 2)) (at_corner B u w 0 f) (at_corner B u w 0 g) (at_corner B u w 0 1) 0) as Dv.
    fold (curve2 B u w f g) in Dv. cbv zeta in Dv. pose proof (middle_deriv2 B u w f g) as M. cbv zeta in M.
    rewrite V2 in Dv, M. cbn [fst snd] in Dv, M. specialize (Dv NZ). rewrite hypot_sqr, M, U, W, Key in Dv.
    match type of Dv with derivable_pt_lim _ _ ?y => assert (Zy : y = 0) by (unfold Rdiv; ring) end. rewrite Zy in Dv. exact Dv.
Qed.
Print Assumptions corner_curvature_flat.

(** The documentation promises this for all corners, but it fails if the distances differ, as they do when one of the lines is short. *)
Theorem corner_curvature_flat_refuted : exists t1 t2 r1 r2, t1 <> (0, 0) /\ t2 <> (0, 0) /\ 0 < r1 /\ 0 < r2 /\ ~ same_direction t1 (- fst t2, - snd t2) /\
  let '(c1, c2) := corner_curves (0, 0) t1 t2 r1 r2 1 in exists k, k <> 0 /\ derivable_pt_lim (curvature c1) 1 k.
Proof.
  exists (0, -1), (1, 0), 1, 2. split; [intros E; injection E; lra|]. split; [intros E; injection E; lra|]. split; [lra|]. split; [lra|].
  split; [intros (k & K & E); cbn in E; injection E; lra|]. rewrite corner_curves_eq. set (f := soft_f 1).
  assert (Ff : f = 0.3192) by (unfold f, soft_f; lra). pose proof (soft_g_eq f) as GE. set (g := soft_g f) in *.
  assert (Eu : scaled (Ropp 1) (0, -1) = (0, 1)).
  { unfold scaled, hypot. cbn [fst snd]. replace (0 * 0 + -1 * -1) with 1 by ring. rewrite sqrt_1. f_equal; field. }
  assert (Ew : scaled 2 (1, 0) = (2, 0)).
  { unfold scaled, hypot. cbn [fst snd]. replace (1 * 1 + 0 * 0) with 1 by ring. rewrite sqrt_1. f_equal; field. }
  rewrite Eu, Ew. set (u := (0, 1) : pt). set (w := (2, 0) : pt).
  assert (V : velocity (curve1 (0, 0) u w f g) 1 = (3 / 2 * f * (fst w - fst u), 3 / 2 * f * (snd w - snd u))).
  { unfold curve1. rewrite (proj2 (velocity_ends _ _ _ _)). unfold at_corner. cbn [fst snd]. f_equal; field. }
  assert (NZ : hypot (3 / 2 * f * (fst w - fst u)) (3 / 2 * f * (snd w - snd u)) <> 0).
  { intros E. apply hypot_0 in E as [E1 E2]. cbn in E1, E2. lra. }
  pose proof (curvature_deriv (at_corner (0, 0) u w 1 0) (at_corner (0, 0) u w g 0) (at_corner (0, 0) u w f 0) (at_corner (0, 0) u w (f / 2) (f / 2)) 1) as Dv.
  fold (curve1 (0, 0) u w f g) in Dv. cbv zeta in Dv. pose proof (middle_deriv (0, 0) u w f g) as M. cbv zeta in M.
  rewrite V in Dv, M. cbn [fst snd] in Dv, M. specialize (Dv NZ). rewrite hypot_sqr, M in Dv. eexists. split; [|exact Dv].
  set (h := hypot (3 / 2 * f * (fst w - fst u)) (3 / 2 * f * (snd w - snd u))) in *.
  unfold Rdiv. apply Rmult_integral_contrapositive_currified.
  - unfold u, w. cbn [fst snd]. intros E.
    assert (P : 0 <= 24 * f - 15 * f * f) by (rewrite Ff; lra). pose proof (sqrt_sqrt _ P) as SS. pose proof (sqrt_pos (24 * f - 15 * f * f)) as SP.
    set (s := sqrt (24 * f - 15 * f * f)) in *. rewrite Ff in *.
    assert (S1 : 2.476 < s) by (apply Rsqr_incrst_0; unfold Rsqr; lra).
    assert (S2 : s < 2.477) by (apply Rsqr_incrst_0; unfold Rsqr; lra).
    assert (G1 : 0.6053 < g) by lra. assert (G2 : g < 0.6055) by lra. clear - E G1 G2.
    set (q := (g - 0.3192) * (7 / 2 * 0.3192 - g)).
    assert (Y : 0.28 * 0.5 < q) by (apply Rmult_le_0_lt_compat; lra).
    assert (Z : 9 * 0.3192 * (2 * 1 - 0 * 0) * ((3 * g - 2 * 0.3192 - 1) * (9 / 4 * 0.3192 * 0.3192 * 5) - 27 * 0.3192 * q) = 0) by (etransitivity; [|exact E]; unfold q; lra).
    clear E. clearbody q. lra.
  - apply Rinv_neq_0_compat. assert (0 < h) by (pose proof (hypot_pos (3 / 2 * f * (fst w - fst u)) (3 / 2 * f * (snd w - snd u))) as HH; fold h in HH; lra).
    rewrite <- hypot_sqr; fold h; repeat apply Rmult_integral_contrapositive_currified; apply Rgt_not_eq; assumption.
Qed.
Print Assumptions corner_curvature_flat_refuted.
