(** The curves at the corners stay near to them. *)
From Coq Require Import Reals List Bool Lia Lra.
From Verif Require Import TrafoModel CurveModel CurveSpec CurveProofs2 CurveProofs3 CurveProofs4 RootsModel DeformModel DeformProps DeformProps2.
Import ListNotations.
Open Scope R_scope.

Lemma curve_at : forall p0 p1 p2 p3 t, at_pt (Curve p0 p1 p2 p3) t = (bernstein (fst p0) (fst p1) (fst p2) (fst p3) t, bernstein (snd p0) (snd p1) (snd p2) (snd p3) t).
Proof. intros [] [] [] [] t. cbn. unfold curve_coord, bernstein. f_equal; ring. Qed.
Lemma bernstein_bounds : forall x0 x1 x2 x3 lo hi t, lo <= x0 <= hi -> lo <= x1 <= hi -> lo <= x2 <= hi -> lo <= x3 <= hi -> 0 <= t <= 1 ->
  lo <= bernstein x0 x1 x2 x3 t <= hi.
Proof.
  intros x0 x1 x2 x3 lo hi t H0 H1 H2 H3 T. unfold bernstein.
  assert (A0 : 0 <= (1 - t) ^ 3) by (apply pow_le; lra).
  assert (A1 : 0 <= 3 * t * (1 - t) ^ 2) by (apply Rmult_le_pos; [lra|apply pow_le; lra]).
  assert (A2 : 0 <= 3 * t ^ 2 * (1 - t)) by (apply Rmult_le_pos; [apply Rmult_le_pos; [lra|apply pow_le; lra]|lra]).
  assert (A3 : 0 <= t ^ 3) by (apply pow_le; lra).
  assert (S : (1 - t) ^ 3 + 3 * t * (1 - t) ^ 2 + 3 * t ^ 2 * (1 - t) + t ^ 3 = 1) by ring.
  set (c0 := (1 - t) ^ 3) in *. set (c1 := 3 * t * (1 - t) ^ 2) in *. set (c2 := 3 * t ^ 2 * (1 - t)) in *. set (c3 := t ^ 3) in *. clearbody c0 c1 c2 c3.
  split.
  - replace lo with (c0 * lo + c1 * lo + c2 * lo + c3 * lo) by (rewrite <- !Rmult_plus_distr_r, S; ring).
    repeat apply Rplus_le_compat; apply Rmult_le_compat_l; lra.
  - replace hi with (c0 * hi + c1 * hi + c2 * hi + c3 * hi) by (rewrite <- !Rmult_plus_distr_r, S; ring).
    repeat apply Rplus_le_compat; apply Rmult_le_compat_l; lra.
Qed.

Lemma combination_near : forall B u w a b r, 0 <= a -> 0 <= b -> a + b <= 1 -> hypot (fst u) (snd u) <= r -> hypot (fst w) (snd w) <= r ->
  distance B (at_corner B u w a b) <= r.
Proof.
  intros [bx by_] [ux uy] [wx wy] a b r A Bp S U W. cbn [fst snd] in *. unfold distance, at_corner. cbn [fst snd].
  assert (H : forall k x y, 0 <= k -> hypot (k * x) (k * y) = k * hypot x y).
  { intros k x y [K|<-]; [apply hypot_scale; auto|]. rewrite !Rmult_0_l. unfold hypot. rewrite Rmult_0_l, Rplus_0_l. apply sqrt_0. }
  pose proof (nrm_triangle (a * ux, a * uy) (b * wx, b * wy)) as N. unfold nrm, vadd in N. cbn [fst snd] in N.
  rewrite !H in N by auto.
  assert (E : sqrt ((bx - (bx + a * ux + b * wx)) ^ 2 + (by_ - (by_ + a * uy + b * wy)) ^ 2) = hypot (a * ux + b * wx) (a * uy + b * wy)).
  { unfold hypot. f_equal. ring. }
  rewrite E. eapply Rle_trans; [exact N|].
  assert (0 <= r) by (pose proof (hypot_pos ux uy); lra).
  pose proof (Rmult_le_compat_l a _ _ A U). pose proof (Rmult_le_compat_l b _ _ Bp W). assert ((a + b) * r <= 1 * r) by (apply Rmult_le_compat_r; lra). lra.
Qed.
Lemma hypot_scaled : forall r t, t <> (0, 0) -> 0 <= r -> hypot (fst (scaled r t)) (snd (scaled r t)) = r /\ hypot (fst (scaled (- r) t)) (snd (scaled (- r) t)) = r.
Proof.
  intros r t N R. pose proof (scaled_norm r t N) as A. pose proof (scaled_norm (- r) t N) as B. unfold hypot.
  split; [replace (_ + _) with (r * r) by (rewrite <- A; ring)|replace (_ + _) with (- r * - r) by (rewrite <- B; ring); replace (- r * - r) with (r * r) by ring]; apply sqrt_square; auto.
Qed.
Lemma corner_near : forall B t1 t2 r1 r2 s radius t, t1 <> (0, 0) -> t2 <> (0, 0) -> 0 <= r1 <= radius -> 0 <= r2 <= radius -> 0 < s -> 0.3192 * s < 0.6 -> 0 <= t <= 1 ->
  distance B (at_pt (fst (corner_curves B t1 t2 r1 r2 s)) t) <= radius /\ distance B (at_pt (snd (corner_curves B t1 t2 r1 r2 s)) t) <= radius.
Proof.
  intros B t1 t2 r1 r2 s radius t N1 N2 R1 R2 S F T. rewrite corner_curves_eq. cbn [fst snd].
  assert (Ff : 0 < soft_f s < 0.6) by (unfold soft_f; lra). pose proof (g_between _ Ff) as G. set (g := soft_g (soft_f s)) in *. set (f := soft_f s) in *.
  set (u := scaled (- r1) t1). set (w := scaled r2 t2).
  assert (U : hypot (fst u) (snd u) <= radius) by (unfold u; rewrite (proj2 (hypot_scaled r1 t1 N1 (proj1 R1))); lra).
  assert (W : hypot (fst w) (snd w) <= radius) by (unfold w; rewrite (proj1 (hypot_scaled r2 t2 N2 (proj1 R2))); lra).
  assert (E1 : at_pt (curve1 B u w f g) t = at_corner B u w (bernstein 1 g f (f / 2) t) (bernstein 0 0 0 (f / 2) t)).
  { unfold curve1. rewrite curve_at. unfold at_corner. cbn [fst snd]. unfold bernstein. f_equal; field. }
  assert (E2 : at_pt (curve2 B u w f g) t = at_corner B u w (bernstein (f / 2) 0 0 0 t) (bernstein (f / 2) f g 1 t)).
  { unfold curve2. rewrite curve_at. unfold at_corner. cbn [fst snd]. unfold bernstein. f_equal; field. }
  rewrite E1, E2. split; (apply combination_near; auto; [apply (bernstein_bounds _ _ _ _ 0 1); lra|apply (bernstein_bounds _ _ _ _ 0 1); lra|]).
  - replace (_ + _) with (bernstein 1 g f f t) by (unfold bernstein; field). apply (bernstein_bounds _ _ _ _ 0 1); lra.
  - replace (_ + _) with (bernstein f f g 1 t) by (unfold bernstein; field). apply (bernstein_bounds _ _ _ _ 0 1); lra.
Qed.

(** the corners are at most the radius away from the cuts *)
Definition near (radius : R) (lp : lline * (R * R)) : Prop :=
  proper (fst lp) /\ 0 <= line_arclen (fst (fst lp)) (snd (fst lp)) * fst (snd lp) <= radius /\
  0 <= line_arclen (fst (fst lp)) (snd (fst lp)) * (1 - snd (snd lp)) <= radius /\
  0 <= fst (snd lp) <= 1 /\ 0 <= snd (snd lp) <= 1.
Lemma params_near : forall radius first last l, 0 < radius -> proper l -> near radius (l, line_params radius first last l).
Proof.
  intros radius first last l R P. destruct (line_length _ P) as [L _]. unfold near, line_params. cbn [fst snd]. split; [exact P|].
  set (len := line_arclen (fst l) (snd l)) in *. replace 0.5 with (1 / 2) by lra.
  assert (Q : forall x, len * (x / len) = x) by (intros; field; lra). assert (Q' : forall x, len * (1 - x / len) = len - x) by (intros; field; lra).
  assert (B : forall x, 0 <= x <= len -> 0 <= x / len <= 1).
  { intros x X. split; [apply Rmult_le_pos; [lra|]; apply Rlt_le, Rinv_0_lt_compat; auto|]. apply (Rmult_le_reg_r len); [auto|]. unfold Rdiv. rewrite Rmult_assoc, Rinv_l by lra. lra. }
  destruct last; [|destruct first]; cbn [fst snd]; rewrite Q, Q'; unfold Rmin, Rmax;
    repeat match goal with |- context [Rle_dec ?a ?b] => destruct (Rle_dec a b) end; (split; [lra|]; split; [lra|]; split; apply B; lra).
Qed.
Lemma with_params_near : forall radius closed ls first, 0 < radius -> Forall proper ls -> Forall (near radius) (with_params radius closed first ls).
Proof. intros radius closed. induction ls as [|l ls IH]; intros first R P; [constructor|]. inversion_clear P. cbn [with_params]. constructor; [apply params_near; auto|auto]. Qed.

Lemma corner_items_near : forall radius s this tp next np t i, near radius (this, tp) -> near radius (next, np) -> 0 < s -> 0.3192 * s < 0.6 -> 0 <= t <= 1 ->
  In i (corner s this tp next np) -> distance (snd this) (at_pt i t) <= radius.
Proof.
  intros radius s this tp next np t i (P & _ & N1 & _) (Q & N2 & _) S F T I. cbn [fst snd] in *. unfold corner in I. rewrite !line_rotation in I by auto.
  match type of I with In _ (let '(_, _) := corner_curves ?B ?t1 ?t2 ?r1 ?r2 ?s in _) => pose proof (corner_near B t1 t2 r1 r2 s radius t) as K; destruct (corner_curves B t1 t2 r1 r2 s) as [c1 c2] end.
  assert (Z : forall l, proper l -> (fst (dir l) / hypot (fst (dir l)) (snd (dir l)), snd (dir l) / hypot (fst (dir l)) (snd (dir l))) <> (0, 0)).
  { intros l Pl E. pose proof (f_equal fst E) as E1. pose proof (f_equal snd E) as E2. cbn [fst snd] in E1, E2. clear E. destruct (line_length _ Pl) as [L LE]. rewrite LE in L. set (h := hypot (fst (dir l)) (snd (dir l))) in *.
    apply (dir_nonzero l Pl). destruct (dir l) as [x y]. cbn [fst snd] in *. f_equal.
    - replace x with (x / h * h) by (field; lra). rewrite E1. ring.
    - replace y with (y / h * h) by (field; lra). rewrite E2. ring. }
  destruct (K (Z _ P) (Z _ Q) N1 N2 S F T) as [K1 K2]. cbn [fst snd] in K1, K2. destruct I as [<-|[<-|[]]]; auto.
Qed.

Lemma line_between : forall (tp : R * R) t, 0 <= fst tp <= 1 -> 0 <= snd tp <= 1 -> 0 <= t <= 1 -> 0 <= fst tp + t * (snd tp - fst tp) <= 1.
Proof. intros [a b] t. cbn. intros A B T. nra. Qed.
(** C121: each point of the smoothed path is on one of the lines or at most the radius from one of the corners. *)
Theorem smoothed_near : forall radius softness closed ls i t, 0 < radius -> 0 < softness -> 0.3192 * softness < 0.6 -> Forall proper ls ->
  In i (smoothed radius softness closed ls) -> 0 <= t <= 1 ->
  exists l, In l ls /\ ((exists a b s, i = Line a b /\ 0 <= s <= 1 /\ at_pt i t = along (fst l) (snd l) s) \/ distance (snd l) (at_pt i t) <= radius).
Proof.
  intros radius s closed ls i t R S F P I T. unfold smoothed in I. cbv zeta in I.
  pose proof (with_params_near radius closed ls true R P) as N. pose proof (with_params_fst radius closed ls true) as M. rewrite <- M. clear M P.
  assert (W : match (if closed then hd_error (with_params radius closed true ls) else None) with Some lp => near radius lp | None => True end).
  { destruct closed; [|exact I0 || exact Logic.I]. destruct (with_params radius true true ls); [exact Logic.I|]. inversion N; auto. }
  set (wrap := if closed then hd_error (with_params radius closed true ls) else None) in *. clearbody wrap.
  induction (with_params radius closed true ls) as [|[this tp] l IH]; [contradiction|]. inversion_clear N. rename H into N0. rename H0 into N.
  cbn [smooth_loop] in I. apply in_app_or in I as [I|I]; [|apply in_app_or in I as [I|I]].
  - exists this. split; [left; reflexivity|]. left. unfold middle in I. destruct (Req_EM_T _ 0); [contradiction|]. destruct I as [<-|[]].
    unfold line_segment. do 2 eexists. exists (fst tp + t * (snd tp - fst tp)). split; [reflexivity|]. split; [apply (line_between tp t); [apply N0|apply N0|auto]|]. destruct this as [[px py] [qx qy]]. unfold along. cbn. f_equal; ring.
  - exists this. split; [left; reflexivity|]. right. destruct l as [|[next np] l].
    + destruct wrap as [[next np]|]; [|contradiction]. exact (corner_items_near _ _ _ _ _ _ _ _ N0 W S F T I).
    + inversion_clear N as [|? ? N1 _]. exact (corner_items_near _ _ _ _ _ _ _ _ N0 N1 S F T I).
  - destruct (IH I N) as (l' & I' & K). exists l'. split; [right; exact I'|exact K].
Qed.
Print Assumptions smoothed_near.

(** a right angle with long lines; the smoothed path consists of two lines and two curves *)
Example ex_smoothed_lines : list lline := [((0, 0), (0, 3)); ((0, 3), (4, 3))].
Example ex_smoothed : Forall proper ex_smoothed_lines /\ consecutive ex_smoothed_lines /\
  exists c1 c2, smoothed 1 1 false ex_smoothed_lines = [Line (0, 0) (0, 2); c1; c2; Line (1, 3) (4, 3)] /\ joined c1 c2 /\ atbegin_pt c1 = (0, 2) /\ atend_pt c2 = (1, 3).
Proof.
  assert (P : Forall proper ex_smoothed_lines) by (repeat (constructor; [unfold proper; cbn; intros E; injection E; lra|]); constructor).
  assert (C : consecutive ex_smoothed_lines) by (cbn; auto).
  split; [exact P|]. split; [exact C|].
  destruct (smoothed_smooth 1 1 false ex_smoothed_lines ltac:(lra) ltac:(lra) ltac:(lra) P C ltac:(cbn; lia) ltac:(discriminate)) as (_ & J & _).
  assert (L1 : line_arclen (0, 0) (0, 3) = 3) by (unfold line_arclen, hypot; cbn; replace ((0 - 0) * (0 - 0) + (0 - 3) * (0 - 3)) with (3 * 3) by ring; apply sqrt_square; lra).
  assert (L2 : line_arclen (0, 3) (4, 3) = 4) by (unfold line_arclen, hypot; cbn; replace ((0 - 4) * (0 - 4) + (3 - 3) * (3 - 3)) with (4 * 4) by ring; apply sqrt_square; lra).
  unfold smoothed, ex_smoothed_lines in *. cbn [with_params negb andb smooth_loop hd_error] in *.
  assert (P1 : line_params 1 true false ((0, 0), (0, 3)) = (0, 2 / 3)).
  { unfold line_params. cbn [fst snd]. rewrite L1, Rmax_right by lra. f_equal; field. }
  assert (P2 : line_params 1 false true ((0, 3), (4, 3)) = (1 / 4, 1)).
  { unfold line_params. cbn [fst snd]. rewrite L2, Rmin_left by lra. f_equal; field. }
  assert (M1 : middle ((0, 0), (0, 3)) (0, 2 / 3) = [Line (0, 0) (0, 2)]).
  { unfold middle. destruct (Req_EM_T _ 0) as [Z|_]; [exfalso; unfold line_arclen in Z; apply hypot_0 in Z; cbn in Z; lra|].
    unfold line_segment. cbn. do 3 f_equal; field. }
  assert (M2 : middle ((0, 3), (4, 3)) (1 / 4, 1) = [Line (1, 3) (4, 3)]).
  { unfold middle. destruct (Req_EM_T _ 0) as [Z|_]; [exfalso; unfold line_arclen in Z; apply hypot_0 in Z; cbn in Z; lra|].
    unfold line_segment. cbn. do 3 f_equal; field. }
  rewrite P1, P2, M1, M2 in *. revert J.
  unfold corner. destruct (corner_curves _ _ _ _ _ _) as [c1 c2]. cbn [app]. intros J. exists c1, c2. split; [reflexivity|].
  split; [apply (J 1%nat); reflexivity|]. split.
  - destruct (J 0%nat _ _ eq_refl eq_refl) as [E _]. symmetry. exact E.
  - destruct (J 2%nat _ _ eq_refl eq_refl) as [E _]. exact E.
Qed.
(** a corner of two lines of equal and of different lengths *)
Example ex_corner : same_direction (0, 3) (0, 1) /\ exists c1 c2, corner_curves (0, 3) (0, 1) (1, 0) 1 1 1 = (c1, c2) /\ atbegin_pt c1 = (0, 2) /\ atend_pt c2 = (1, 3).
Proof.
  split; [exists 3; split; [lra|]; cbn; f_equal; ring|].
  assert (H1 : hypot 0 1 = 1) by (unfold hypot; replace (0 * 0 + 1 * 1) with (1 * 1) by ring; apply sqrt_square; lra).
  assert (H2 : hypot 1 0 = 1) by (unfold hypot; replace (1 * 1 + 0 * 0) with (1 * 1) by ring; apply sqrt_square; lra).
  unfold corner_curves, corner_points. cbn [fst snd]. rewrite H1, H2. cbv zeta. unfold from_corner. cbn [fst snd atbegin_pt atend_pt].
  do 2 eexists. split; [reflexivity|]. cbn. split; f_equal; field.
Qed.
