(** * Three dimensional graphs: lines, angles, planes and axes (C100, C101) *)

From Coq Require Import Reals Bool List Lra.
From Verif Require Import Graph3dModel Graph3dSpec Graph3dProps.
Import ListNotations.
Open Scope R_scope.

(** ** Lines *)
Lemma position_between g v w t : position g (between v w t) = between (position g v) (position g w) t.
Proof. destruct v as [[? ?] ?], w as [[? ?] ?]. cbn. apply vec_ext; lra. Qed.
Lemma dot_between u v w t : dot u (between v w t) = (1 - t) * dot u v + t * dot u w.
Proof. unfold between. rewrite dot_add, !dot_scaled. reflexivity. Qed.

Lemma point_between p v w t u : in_front p v -> in_front p w -> 0 <= t <= 1 ->
  (match p with
   | Central D phi theta => u * ((1 - t) * (D - dot (view phi theta) v) + t * (D - dot (view phi theta) w)) = t * (D - dot (view phi theta) w)
   | Parallel _ _ => u = t
   end) ->
  forall q r, point p v = Some q -> point p w = Some r -> point p (between v w t) = Some (between2 q r u).
Proof.
  intros HV HW Ht HU q r. destruct p as [D phi theta|phi theta]; cbn [in_front] in *.
  - set (dv := D - dot (view phi theta) v) in *. set (dw := D - dot (view phi theta) w) in *.
    assert (0 < dv) by (unfold dv; lra). assert (0 < dw) by (unfold dw; lra).
    assert (0 < (1 - t) * dv + t * dw) as P by (destruct (Req_dec t 0) as [->|]; nra).
    assert (D - dot (view phi theta) (between v w t) = (1 - t) * dv + t * dw) as E by (rewrite dot_between; unfold dv, dw; ring).
    rewrite !image_central by lra. rewrite E. fold dv dw. intros Q S.
    replace q with (D * dot (right phi) v / dv, D * dot (up phi theta) v / dv) by congruence.
    replace r with (D * dot (right phi) w / dw, D * dot (up phi theta) w / dw) by congruence.
    assert (u = t * dw / ((1 - t) * dv + t * dw)) as ->.
    { apply (Rmult_eq_reg_r ((1 - t) * dv + t * dw)); [rewrite HU; field|]; lra. }
    rewrite !dot_between. unfold between2. cbn [fst snd]. f_equal. f_equal; field; repeat split; lra.
  - rewrite !point_parallel. intros Q S. subst u.
    replace q with (dot (right phi) v, dot (up phi theta) v) by congruence.
    replace r with (dot (right phi) w, dot (up phi theta) w) by congruence.
    rewrite !dot_between. reflexivity.
Qed.

Lemma vpos_some g v : in_front (proj g) (position g v) -> exists q, point (proj g) (position g v) = Some q /\
  vpos_pt g v = Some (xpos_pt g + fst q * size_pt g, ypos_pt g + snd q * size_pt g).
Proof.
  intros H. unfold vpos_pt. destruct (proj g) as [D phi theta|phi theta]; cbn [in_front] in H.
  - rewrite image_central by assumption. eexists. split; reflexivity.
  - rewrite point_parallel. eexists. split; reflexivity.
Qed.

(** The image of a straight line is the straight line between the images of its ends: each of its points is on that line, and each
    point of that line is the image of one of its points. *)
Theorem geodesic_image : forall g v w, in_front (proj g) (position g v) -> in_front (proj g) (position g w) ->
  exists p q, vgeodesic g v w = Some (p, q) /\
    (forall t, 0 <= t <= 1 -> exists u, 0 <= u <= 1 /\ vpos_pt g (between v w t) = Some (between2 p q u)) /\
    (forall u, 0 <= u <= 1 -> exists t, 0 <= t <= 1 /\ vpos_pt g (between v w t) = Some (between2 p q u)).
Proof.
  intros g v w HV HW. destruct (vpos_some g v HV) as (q & Q1 & Q2). destruct (vpos_some g w HW) as (r & R1 & R2).
  unfold vgeodesic. rewrite Q2, R2. eexists. eexists. split; [reflexivity|].
  assert (forall t u, 0 <= t <= 1 ->
    (match proj g with
     | Central D phi theta => u * ((1 - t) * (D - dot (view phi theta) (position g v)) + t * (D - dot (view phi theta) (position g w))) = t * (D - dot (view phi theta) (position g w))
     | Parallel _ _ => u = t
     end) ->
    vpos_pt g (between v w t) = Some (between2 (xpos_pt g + fst q * size_pt g, ypos_pt g + snd q * size_pt g) (xpos_pt g + fst r * size_pt g, ypos_pt g + snd r * size_pt g) u)) as A.
  { intros t u Ht HU. unfold vpos_pt. rewrite position_between, (point_between (proj g) _ _ t u HV HW Ht HU q r Q1 R1).
    unfold between2. cbn [fst snd]. f_equal. f_equal; ring. }
  destruct (proj g) as [D phi theta|phi theta] eqn:E; cbn [in_front] in HV, HW.
  - set (dv := D - dot (view phi theta) (position g v)) in *. set (dw := D - dot (view phi theta) (position g w)) in *.
    assert (0 < dv) by (unfold dv; lra). assert (0 < dw) by (unfold dw; lra). split.
    + intros t Ht. assert (0 < (1 - t) * dv + t * dw) as P by (destruct (Req_dec t 0) as [->|]; nra).
      exists (t * dw / ((1 - t) * dv + t * dw)). split.
      * split; [apply Rmult_le_pos; [nra|left; apply Rinv_0_lt_compat; lra]|].
        apply (Rmult_le_reg_r ((1 - t) * dv + t * dw)); [lra|]. replace (t * dw / ((1 - t) * dv + t * dw) * ((1 - t) * dv + t * dw)) with (t * dw) by (field; lra). nra.
      * apply A; [assumption|]. field. lra.
    + intros u Hu. assert (0 < (1 - u) * dw + u * dv) as P by (destruct (Req_dec u 0) as [->|]; nra).
      assert (0 <= u * dv / ((1 - u) * dw + u * dv) <= 1) as T.
      { split; [apply Rmult_le_pos; [nra|left; apply Rinv_0_lt_compat; lra]|].
        apply (Rmult_le_reg_r ((1 - u) * dw + u * dv)); [lra|]. replace (u * dv / ((1 - u) * dw + u * dv) * ((1 - u) * dw + u * dv)) with (u * dv) by (field; lra). nra. }
      exists (u * dv / ((1 - u) * dw + u * dv)). split; [exact T|]. apply A; [exact T|]. field. lra.
  - split; intros t Ht; exists t; (split; [assumption|apply A; auto]).
Qed.
Print Assumptions geodesic_image.

(** ** Angles *)
Definition normal (v1 v2 v3 : vec) : vec := cross (sub v2 v1) (sub v3 v1).
Definition sight (p : projector) (v : vec) : vec :=
  match p with Central D phi theta => sub v (eye D phi theta) | Parallel phi theta => scaled (-1) (view phi theta) end.

Lemma view_unit phi theta : dot (view phi theta) (view phi theta) = 1.
Proof. destruct (dots phi theta) as (_ & _ & A & _). exact A. Qed.
Lemma sight_parallel phi theta v : sqrt (dot (sight (Parallel phi theta) v) (sight (Parallel phi theta) v)) = 1.
Proof. cbn [sight]. rewrite dot_scaled, dot_comm, dot_scaled, view_unit. replace (-1 * (-1 * 1)) with 1 by ring. apply sqrt_1. Qed.

Lemma angle_dot p v1 v2 v3 :
  angle p v1 v2 v3 =
  let n := normal v1 v2 v3 in let s := sight p v1 in
  match divide (dot s n) (sqrt (dot n n)) with Some q => divide q (sqrt (dot s s)) | None => None end.
Proof.
  cbn zeta. destruct v1 as [[x1 y1] z1], v2 as [[x2 y2] z2], v3 as [[x3 y3] z3]. unfold angle.
  assert (normal (x1, y1, z1) (x2, y2, z2) (x3, y3, z3) =
    ((y2 - y1) * (z3 - z1) - (z2 - z1) * (y3 - y1), (z2 - z1) * (x3 - x1) - (x2 - x1) * (z3 - z1), (x2 - x1) * (y3 - y1) - (y2 - y1) * (x3 - x1))) as ->.
  { unfold normal, cross, sub, add, scaled. apply vec_ext; ring. }
  destruct p as [D phi theta|phi theta].
  - rewrite eye_attr. unfold sight. destruct (eye D phi theta) as [[e0 e1] e2].
    replace (sub (x1, y1, z1) (e0, e1, e2)) with ((x1 - e0, y1 - e1, z1 - e2) : vec) by (cbn; apply vec_ext; ring). reflexivity.
  - rewrite sight_parallel. unfold sight. rewrite c_attr. destruct (scaled (-1) (view phi theta)) as [[c0 c1] c2]. cbn [dot].
    unfold divide. destruct (Req_EM_T _ 0); [reflexivity|]. destruct (Req_EM_T 1 0); [lra|]. f_equal. field. assumption.
Qed.

(** determinants in the coordinates of the page *)
Lemma triple phi theta p q r :
  dot p (cross q r) =
  dot (right phi) p * (dot (up phi theta) q * dot (view phi theta) r - dot (view phi theta) q * dot (up phi theta) r)
  + dot (up phi theta) p * (dot (view phi theta) q * dot (right phi) r - dot (right phi) q * dot (view phi theta) r)
  + dot (view phi theta) p * (dot (right phi) q * dot (up phi theta) r - dot (up phi theta) q * dot (right phi) r).
Proof.
  assert (cross (right phi) (up phi theta) = view phi theta) as C1.
  { rewrite page_up. unfold cross, right, view. pose proof (trig phi). apply vec_ext; [ring|ring|].
    replace (- sin phi * (- sin phi * sin theta) - cos phi * (- cos phi * sin theta)) with (sin theta * (cos phi * cos phi + sin phi * sin phi)) by ring. rewrite H. ring. }
  assert (cross (up phi theta) (view phi theta) = right phi) as C2.
  { rewrite page_up. unfold cross, right, view. pose proof (trig theta). apply vec_ext.
    - replace (- sin phi * sin theta * sin theta - cos theta * (cos theta * sin phi)) with (- sin phi * (cos theta * cos theta + sin theta * sin theta)) by ring. rewrite H. ring.
    - replace (cos theta * (cos theta * cos phi) - - cos phi * sin theta * sin theta) with (cos phi * (cos theta * cos theta + sin theta * sin theta)) by ring. rewrite H. ring.
    - ring. }
  assert (cross (view phi theta) (right phi) = up phi theta) as C3 by reflexivity.
  rewrite (frame phi theta p) at 1. rewrite (frame phi theta q) at 1. rewrite (frame phi theta r) at 1.
  destruct (dots phi theta) as (D1 & D2 & D3 & D4 & D5 & D6).
  set (p1 := dot (right phi) p). set (p2 := dot (up phi theta) p). set (p3 := dot (view phi theta) p).
  set (q1 := dot (right phi) q). set (q2 := dot (up phi theta) q). set (q3 := dot (view phi theta) q).
  set (r1 := dot (right phi) r). set (r2 := dot (up phi theta) r). set (r3 := dot (view phi theta) r).
  clearbody p1 p2 p3 q1 q2 q3 r1 r2 r3.
  assert (cross (add (add (scaled q1 (right phi)) (scaled q2 (up phi theta))) (scaled q3 (view phi theta)))
            (add (add (scaled r1 (right phi)) (scaled r2 (up phi theta))) (scaled r3 (view phi theta))) =
    add (add (scaled (q1 * r2 - q2 * r1) (cross (right phi) (up phi theta))) (scaled (q2 * r3 - q3 * r2) (cross (up phi theta) (view phi theta))))
      (scaled (q3 * r1 - q1 * r3) (cross (view phi theta) (right phi)))) as ->.
  { clear. destruct (right phi) as [[a b] c], (up phi theta) as [[a' b'] c'], (view phi theta) as [[a'' b''] c''].
    unfold cross, add, scaled. apply vec_ext; ring. }
  rewrite C1, C2, C3. dotting phi theta. rewrite (dot_comm _ (right phi)), (dot_comm _ (up phi theta)), (dot_comm _ (view phi theta)). dotting phi theta.
  ring.
Qed.

Lemma dot_sub u v w : dot u (sub v w) = dot u v - dot u w.
Proof. unfold sub. rewrite dot_add, dot_scaled. ring. Qed.

(** the area of the image of a triangle *)
Lemma area_image p v1 v2 v3 q1 q2 q3 : in_front p v1 -> in_front p v2 -> in_front p v3 ->
  point p v1 = Some q1 -> point p v2 = Some q2 -> point p v3 = Some q3 ->
  match p with
  | Central D phi theta =>
      area q1 q2 q3 * ((D - dot (view phi theta) v1) * (D - dot (view phi theta) v2) * (D - dot (view phi theta) v3)) = - (D * D * dot (sight p v1) (normal v1 v2 v3))
  | Parallel _ _ => area q1 q2 q3 = - dot (sight p v1) (normal v1 v2 v3)
  end.
Proof.
  intros H1 H2 H3. destruct p as [D phi theta|phi theta]; cbn [in_front sight] in *.
  - rewrite !image_central by assumption. intros E1 E2 E3. unfold normal. rewrite (triple phi theta), !dot_sub.
    set (w1 := D - dot (view phi theta) v1) in *. set (w2 := D - dot (view phi theta) v2) in *. set (w3 := D - dot (view phi theta) v3) in *.
    replace q1 with (D * dot (right phi) v1 / w1, D * dot (up phi theta) v1 / w1) by congruence.
    replace q2 with (D * dot (right phi) v2 / w2, D * dot (up phi theta) v2 / w2) by congruence.
    replace q3 with (D * dot (right phi) v3 / w3, D * dot (up phi theta) v3 / w3) by congruence.
    assert (dot (view phi theta) v1 = D - w1) as -> by (unfold w1; ring). assert (dot (view phi theta) v2 = D - w2) as -> by (unfold w2; ring).
    assert (dot (view phi theta) v3 = D - w3) as -> by (unfold w3; ring).
    assert (0 < w1 /\ 0 < w2 /\ 0 < w3) as (W1 & W2 & W3) by (unfold w1, w2, w3; lra). clearbody w1 w2 w3.
    dotting phi theta. unfold area. cbn [fst snd]. field. repeat split; lra.
  - rewrite !point_parallel. intros E1 E2 E3. unfold normal. rewrite (triple phi theta), !dot_sub.
    replace q1 with (dot (right phi) v1, dot (up phi theta) v1) by congruence.
    replace q2 with (dot (right phi) v2, dot (up phi theta) v2) by congruence.
    replace q3 with (dot (right phi) v3, dot (up phi theta) v3) by congruence.
    dotting phi theta. unfold area. cbn [fst snd]. ring.
Qed.

Lemma cauchy s n : dot s n * dot s n <= dot s s * dot n n.
Proof.
  assert (dot s s * dot n n - dot s n * dot s n = dot (cross s n) (cross s n)) as E by (destruct s as [[? ?] ?], n as [[? ?] ?]; cbn; ring).
  pose proof (dot_self (cross s n)). lra.
Qed.

(** The angle is between -1 and 1, and it is positive if the image of the triangle goes around clockwise and negative if it goes
    around counterclockwise. *)
Theorem angle_orientation : forall p v1 v2 v3 q1 q2 q3 a, (match p with Central d _ _ => 0 < d | _ => True end) ->
  in_front p v1 -> in_front p v2 -> in_front p v3 ->
  point p v1 = Some q1 -> point p v2 = Some q2 -> point p v3 = Some q3 -> angle p v1 v2 v3 = Some a ->
  -1 <= a <= 1 /\ (0 < a <-> area q1 q2 q3 < 0) /\ (a < 0 <-> 0 < area q1 q2 q3).
Proof.
  intros p v1 v2 v3 q1 q2 q3 a HD H1 H2 H3 E1 E2 E3 A.
  pose proof (area_image p v1 v2 v3 q1 q2 q3 H1 H2 H3 E1 E2 E3) as R.
  rewrite angle_dot in A. cbn zeta in A. set (n := normal v1 v2 v3) in *. set (s := sight p v1) in *.
  unfold divide in A. destruct (Req_EM_T (sqrt (dot n n)) 0) as [|N]; [discriminate|]. destruct (Req_EM_T (sqrt (dot s s)) 0) as [|M]; [discriminate|].
  pose proof (sqrt_pos (dot n n)). pose proof (sqrt_pos (dot s s)). pose proof (sqrt_sqrt (dot n n) (dot_self n)). pose proof (sqrt_sqrt (dot s s) (dot_self s)).
  pose proof (cauchy s n) as C. set (sn := sqrt (dot n n)) in *. set (ss := sqrt (dot s s)) in *. set (d := dot s n) in *.
  assert (a * (sn * ss) = d) as Ea by (injection A as <-; field; split; assumption).
  assert (0 < sn * ss) as P by (assert (0 < sn) by lra; assert (0 < ss) by lra; nra).
  assert ((0 < a <-> 0 < d) /\ (a < 0 <-> d < 0)) as (S1 & S2).
  { rewrite <- Ea. split; split; intros; nra. }
  assert ((0 < d <-> area q1 q2 q3 < 0) /\ (d < 0 <-> 0 < area q1 q2 q3)) as (T1 & T2).
  { destruct p as [D phi theta|phi theta]; cbn [in_front] in *.
    - set (k := (D - dot (view phi theta) v1) * (D - dot (view phi theta) v2) * (D - dot (view phi theta) v3)) in *.
      assert (0 < k) by (unfold k; apply Rmult_lt_0_compat; [apply Rmult_lt_0_compat|]; lra).
      fold d in R. assert (0 < D * D) by nra. split; split; intros; nra.
    - fold d in R. rewrite R. split; split; intros; lra. }
  split; [|tauto].
  assert (d * d <= (sn * ss) * (sn * ss)) as B by (replace (sn * ss * (sn * ss)) with ((ss * ss) * (sn * sn)) by ring; congruence).
  rewrite <- Ea in B. set (m := sn * ss) in *. assert (0 < m * m) by (apply Rmult_lt_0_compat; assumption).
  assert (a * a <= 1) by (apply (Rmult_le_reg_r (m * m)); lra). nra.
Qed.
Print Assumptions angle_orientation.

(** ** Planes and axes *)
Definition outward (p : plane) : vec :=
  match p with PX0 => (-1, 0, 0) | PX1 => (1, 0, 0) | PY0 => (0, -1, 0) | PY1 => (0, 1, 0) | PZ0 => (0, 0, -1) | PZ1 => (0, 0, 1) end.
(** points on the planes, and those which are not at the border *)
Definition on_plane (p : plane) (v : vec) : Prop :=
  let '(x, y, z) := v in
  match p with
  | PX0 => x = 0 /\ unit_range y /\ unit_range z | PX1 => x = 1 /\ unit_range y /\ unit_range z
  | PY0 => y = 0 /\ unit_range x /\ unit_range z | PY1 => y = 1 /\ unit_range x /\ unit_range z
  | PZ0 => z = 0 /\ unit_range x /\ unit_range y | PZ1 => z = 1 /\ unit_range x /\ unit_range y
  end.
Definition inner (x : R) : Prop := 0 < x < 1.
Definition inside_plane (p : plane) (v : vec) : Prop :=
  let '(x, y, z) := v in
  on_plane p v /\
  match p with PX0 | PX1 => inner y /\ inner z | PY0 | PY1 => inner x /\ inner z | PZ0 | PZ1 => inner x /\ inner y end.

(** graphs with sizes, whose points are all in front of the viewer *)
Definition well_placed (g : graphxyz) : Prop :=
  0 < xscale g /\ 0 < yscale g /\ 0 < zscale g /\ (match proj g with Central d _ _ => 0 < d | _ => True end) /\
  forall v, in_graph v -> in_front (proj g) (position g v).

Lemma faces_sight p v n : faces p v n <-> dot (sight p v) n < 0.
Proof.
  destruct p as [D phi theta|phi theta]; cbn [faces sight].
  - assert (dot (sub (eye D phi theta) v) n = - dot (sub v (eye D phi theta)) n) as -> by (destruct v as [[? ?] ?], n as [[? ?] ?], (eye D phi theta) as [[? ?] ?]; cbn; ring). split; lra.
  - rewrite (dot_comm (scaled _ _)), dot_scaled, (dot_comm n). split; lra.
Qed.
Lemma sight_zero p v : in_front p v -> dot (sight p v) (sight p v) <> 0.
Proof.
  intros H E. destruct p as [D phi theta|phi theta]; cbn [sight in_front] in *.
  - apply dot_zero in E. assert (v = eye D phi theta) as ->.
    { destruct v as [[? ?] ?], (eye D phi theta) as [[? ?] ?]. cbn in E. injection E as E1 E2 E3. apply vec_ext; lra. }
    dotting phi theta. lra.
  - rewrite dot_scaled, dot_comm, dot_scaled, view_unit in E. lra.
Qed.
Lemma sqrt_zero x : 0 <= x -> sqrt x = 0 -> x = 0.
Proof. intros H E. rewrite <- (sqrt_sqrt x H), E. ring. Qed.

(** the sign of the angle for a normal which is a multiple of n *)
Lemma angle_faces p v1 v2 v3 n k : in_front p v1 -> 0 < k -> dot n n = 1 -> normal v1 v2 v3 = scaled (- k) n ->
  exists a, angle p v1 v2 v3 = Some a /\ (0 < a <-> faces p v1 n).
Proof.
  intros H1 K N E. rewrite angle_dot. cbn zeta. rewrite E.
  assert (dot (scaled (- k) n) (scaled (- k) n) = k * k) as -> by (rewrite dot_scaled, (dot_comm _ n), dot_scaled, N; ring).
  rewrite sqrt_square by lra. rewrite dot_scaled. unfold divide.
  destruct (Req_EM_T k 0); [lra|]. pose proof (sight_zero p v1 H1) as Z.
  destruct (Req_EM_T _ 0) as [F|F]; [apply sqrt_zero in F; [contradiction|apply dot_self]|].
  eexists. split; [reflexivity|]. rewrite faces_sight. pose proof (sqrt_pos (dot (sight p v1) (sight p v1))) as P.
  set (r := sqrt _) in *. set (d := dot _ n). assert (0 < r) by lra.
  replace (- k * d / k / r) with (- d * / r) by (field; split; lra). assert (0 < / r) by (apply Rinv_0_lt_compat; lra).
  split; intros; nra.
Qed.

Lemma faces_plane p v w n : dot v n = dot w n -> faces p v n <-> faces p w n.
Proof.
  intros E. destruct p as [D phi theta|phi theta]; cbn [faces]; [|reflexivity].
  rewrite !(dot_comm _ n), !dot_sub, !(dot_comm n), E. reflexivity.
Qed.

(** A plane is shown if and only if the viewer looks at it from outside. *)
Theorem plane_faces : forall g p v, well_placed g -> on_plane p v ->
  exists b, show g p = Some b /\ (b = true <-> faces (proj g) (position g v) (outward p)).
Proof.
  intros g p v (X & Y & Z & D & F) O.
  assert (exists v1 v2 v3 k, corners p = (v1, v2, v3) /\ in_graph v1 /\ 0 < k /\ normal (position g v1) (position g v2) (position g v3) = scaled (- k) (outward p) /\ dot (position g v1) (outward p) = dot (position g v) (outward p)) as (v1 & v2 & v3 & k & E & G & K & N & S).
  { destruct v as [[x y] z]. assert (0 < 4 * xscale g * yscale g) by nra. assert (0 < 4 * xscale g * zscale g) by nra. assert (0 < 4 * yscale g * zscale g) by nra.
    destruct p; cbn in O; destruct O as (O & _);
      (eexists; eexists; eexists);
      [exists (4 * yscale g * zscale g)|exists (4 * yscale g * zscale g)|exists (4 * xscale g * zscale g)|exists (4 * xscale g * zscale g)|exists (4 * xscale g * yscale g)|exists (4 * xscale g * yscale g)];
      (split; [reflexivity|split; [cbn; unfold unit_range; lra|split; [assumption|split; [unfold normal, position, sub, cross, add, scaled, outward; apply vec_ext; field|cbn; subst; lra]]]]). }
  unfold show, vangle. rewrite E. destruct (angle_faces (proj g) _ _ _ (outward p) k (F v1 G) K ltac:(destruct p; cbn; ring) N) as (a & A & B).
  rewrite A. cbn [option_map]. eexists. split; [reflexivity|]. rewrite ltb_iff, B. apply faces_plane. exact S.
Qed.
Print Assumptions plane_faces.
