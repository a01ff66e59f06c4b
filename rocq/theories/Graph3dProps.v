(** * Three dimensional graphs: the image is the one which is seen from the eye (C100) *)

From Coq Require Import Reals Bool List Lra Nsatz.
From Verif Require Import Graph3dModel Graph3dSpec.
Import ListNotations.
Open Scope R_scope.

Lemma ltb_true a b : a < b -> ltb a b = true.
Proof. unfold ltb. destruct (Rlt_dec a b); tauto. Qed.
Lemma ltb_iff a b : ltb a b = true <-> a < b.
Proof. unfold ltb. destruct (Rlt_dec a b); split; intros; auto; discriminate. Qed.

Lemma vec_ext (a b c x y z : R) : a = x -> b = y -> c = z -> ((a, b, c) : vec) = (x, y, z).
Proof. intros. subst. reflexivity. Qed.

Lemma trig x : cos x * cos x + sin x * sin x = 1.
Proof. pose proof (sin2_cos2 x) as H. unfold Rsqr in H. lra. Qed.
Ltac trigs phi theta :=
  let H1 := fresh in let H2 := fresh in
  pose proof (trig phi) as H1; pose proof (trig theta) as H2;
  set (cp := cos phi) in *; set (sp := sin phi) in *; set (ct := cos theta) in *; set (st := sin theta) in *;
  clearbody cp sp ct st.

(** the page is spanned by unit vectors, perpendicular to each other and to the direction of view; one is horizontal, and the
    other one goes upwards *)
Lemma page_right phi : dot (right phi) (right phi) = 1 /\ snd (right phi) = 0.
Proof. cbn. split; [|reflexivity]. pose proof (trig phi). nra. Qed.
Lemma page_up phi theta :
  up phi theta = (- cos phi * sin theta, - sin phi * sin theta, cos theta).
Proof. unfold up, cross, view, right. pose proof (trig phi). apply vec_ext; [ring|ring|]. replace (cos theta * cos phi * cos phi - cos theta * sin phi * - sin phi) with (cos theta * (cos phi * cos phi + sin phi * sin phi)) by ring. rewrite H. ring. Qed.

Theorem page_upright : forall phi theta,
  dot (right phi) (right phi) = 1 /\ dot (up phi theta) (up phi theta) = 1 /\ dot (view phi theta) (view phi theta) = 1 /\
  dot (right phi) (up phi theta) = 0 /\ dot (right phi) (view phi theta) = 0 /\ dot (up phi theta) (view phi theta) = 0 /\
  (- (PI / 2) < theta < PI / 2 -> 0 < snd (up phi theta)) /\ snd (right phi) = 0.
Proof.
  intros phi theta. rewrite page_up.
  assert (0 < cos theta \/ ~ (- (PI / 2) < theta < PI / 2)) as K.
  { destruct (Rlt_dec (- (PI / 2)) theta); [|right; tauto]. destruct (Rlt_dec theta (PI / 2)); [|right; tauto]. left. apply cos_gt_0; lra. }
  cbn. pose proof (trig phi). pose proof (trig theta).
  set (cp := cos phi) in *; set (sp := sin phi) in *; set (ct := cos theta) in *; set (st := sin theta) in *.
  refine (conj _ (conj _ (conj _ (conj _ (conj _ (conj _ (conj _ eq_refl))))))); try nsatz. tauto.
Qed.
Print Assumptions page_upright.

(** the projection in terms of scalar products *)
Lemma point_central D phi theta v :
  point (Central D phi theta) v =
  if Req_EM_T (dot (view phi theta) v - D) 0 then None
  else Some (D * dot (right phi) v / (D - dot (view phi theta) v), D * dot (up phi theta) v / (D - dot (view phi theta) v)).
Proof.
  destruct v as [[x y] z]. rewrite page_up. cbn [point attr_a attr_b attr_eye].
  match goal with |- (if Req_EM_T ?d 0 then None else Some (?a / _, ?b / _)) = _ => set (d0 := d); set (da := a); set (db := b) end.
  assert (d0 = dot (view phi theta) (x, y, z) - D) as E0.
  { unfold d0, dot, view. trigs phi theta. nsatz. }
  assert (da = - (D * dot (right phi) (x, y, z))) as Ea.
  { unfold da, dot, right. trigs phi theta. nsatz. }
  assert (db = - (D * dot (- cos phi * sin theta, - sin phi * sin theta, cos theta) (x, y, z))) as Eb.
  { unfold db, dot. trigs phi theta. nsatz. }
  rewrite E0, Ea, Eb. clearbody d0 da db. clear.
  destruct (Req_EM_T _ 0) as [_|N]; [reflexivity|]. f_equal. f_equal; field; lra.
Qed.
Lemma point_parallel phi theta v : point (Parallel phi theta) v = Some (dot (right phi) v, dot (up phi theta) v).
Proof. destruct v as [[x y] z]. rewrite page_up. reflexivity. Qed.
Lemma eye_attr D phi theta : attr_eye D phi theta = eye D phi theta.
Proof. unfold attr_eye, eye, scaled, view. apply vec_ext; ring. Qed.
Lemma c_attr phi theta : attr_c phi theta = scaled (-1) (view phi theta).
Proof. unfold attr_c, scaled, view. apply vec_ext; ring. Qed.

(** every vector in terms of the page *)
Lemma frame phi theta v :
  v = add (add (scaled (dot (right phi) v) (right phi)) (scaled (dot (up phi theta) v) (up phi theta))) (scaled (dot (view phi theta) v) (view phi theta)).
Proof.
  rewrite page_up. destruct v as [[x y] z]. unfold add, scaled, dot, right, view. trigs phi theta. apply vec_ext; nsatz.
Qed.
Lemma dot_add u v w : dot u (add v w) = dot u v + dot u w.
Proof. destruct u as [[? ?] ?], v as [[? ?] ?], w as [[? ?] ?]. cbn. ring. Qed.
Lemma dot_scaled u t v : dot u (scaled t v) = t * dot u v.
Proof. destruct u as [[? ?] ?], v as [[? ?] ?]. cbn. ring. Qed.
Lemma dot_comm u v : dot u v = dot v u.
Proof. destruct u as [[? ?] ?], v as [[? ?] ?]. cbn. ring. Qed.
Lemma vec_by phi theta v w :
  dot (right phi) v = dot (right phi) w -> dot (up phi theta) v = dot (up phi theta) w -> dot (view phi theta) v = dot (view phi theta) w -> v = w.
Proof. intros A B C. rewrite (frame phi theta v), (frame phi theta w), A, B, C. reflexivity. Qed.

(** scalar products with the vectors of the page *)
Lemma dots phi theta :
  dot (right phi) (right phi) = 1 /\ dot (up phi theta) (up phi theta) = 1 /\ dot (view phi theta) (view phi theta) = 1 /\
  dot (right phi) (up phi theta) = 0 /\ dot (right phi) (view phi theta) = 0 /\ dot (up phi theta) (view phi theta) = 0.
Proof. destruct (page_upright phi theta) as (A & B & C & D & E & F & _). tauto. Qed.
Ltac dotting phi theta :=
  let A := fresh in let B := fresh in let C := fresh in let D := fresh in let E := fresh in let F := fresh in
  destruct (dots phi theta) as (A & B & C & D & E & F);
  unfold sub, on_page, eye in *; cbn [fst snd] in *;
  repeat rewrite ?dot_add, ?dot_scaled in *;
  rewrite ?(dot_comm (view phi theta) (up phi theta)), ?(dot_comm (view phi theta) (right phi)), ?(dot_comm (up phi theta) (right phi)) in *;
  rewrite ?A, ?B, ?C, ?D, ?E, ?F in *.

(** The image of a point in front of the viewer is the place of the page which is seen in the same direction, and there is only
    one such place. *)
Theorem seen_in_same_direction : forall p v, (match p with Central d _ _ => 0 < d | _ => True end) -> in_front p v ->
  exists q, point p v = Some q /\ seen_at p v q /\ forall q', seen_at p v q' -> q' = q.
Proof.
  intros [D phi theta|phi theta] v HD HF.
  - cbn [in_front] in HF. rewrite point_central. destruct (Req_EM_T _ 0) as [E|_]; [lra|].
    set (w := D - dot (view phi theta) v). assert (0 < w) by (unfold w; lra).
    eexists. split; [reflexivity|]. split.
    + exists (D / w). split; [apply Rdiv_lt_0_compat; lra|].
      apply (vec_by phi theta); dotting phi theta; fold w; [field; lra|field; lra|].
      replace (dot (view phi theta) v) with (D - w) by (unfold w; ring). field. lra.
    + intros [a b] (t & Ht & E).
      pose proof (f_equal (dot (right phi)) E) as E1. pose proof (f_equal (dot (up phi theta)) E) as E2. pose proof (f_equal (dot (view phi theta)) E) as E3.
      dotting phi theta.
      assert (t = D / w) as -> by (apply (Rmult_eq_reg_r w); [transitivity D; [unfold w; lra|field; lra]|lra]).
      f_equal.
      * transitivity (D / w * dot (right phi) v); [lra|field; lra].
      * transitivity (D / w * dot (up phi theta) v); [lra|field; lra].
  - rewrite point_parallel. eexists. split; [reflexivity|]. split.
    + exists (- dot (view phi theta) v). apply (vec_by phi theta); dotting phi theta; lra.
    + intros [a b] (t & E).
      pose proof (f_equal (dot (right phi)) E) as E1. pose proof (f_equal (dot (up phi theta)) E) as E2. dotting phi theta. f_equal; lra.
Qed.
Print Assumptions seen_in_same_direction.

(** images of points in front of the viewer, in terms of scalar products *)
Lemma image_central D phi theta v : dot (view phi theta) v < D ->
  point (Central D phi theta) v =
  Some (D * dot (right phi) v / (D - dot (view phi theta) v), D * dot (up phi theta) v / (D - dot (view phi theta) v)).
Proof. intros H. rewrite point_central. destruct (Req_EM_T _ 0); [lra|reflexivity]. Qed.

Lemma zindex_central D phi theta v :
  zindex (Central D phi theta) v = sqrt (dot (sub v (eye D phi theta)) (sub v (eye D phi theta))) - D.
Proof.
  destruct v as [[x y] z]. cbn [zindex]. rewrite eye_attr. destruct (eye D phi theta) as [[e0 e1] e2].
  cbn. f_equal. f_equal. ring.
Qed.
Lemma zindex_parallel phi theta v : zindex (Parallel phi theta) v = - dot (view phi theta) v.
Proof. destruct v as [[x y] z]. cbn [zindex]. rewrite c_attr. destruct (view phi theta) as [[a b] c]. cbn. ring. Qed.

Lemma dot_self v : 0 <= dot v v.
Proof. destruct v as [[x y] z]. cbn. nra. Qed.
Lemma dot_zero v : dot v v = 0 -> v = (0, 0, 0).
Proof.
  destruct v as [[x y] z]. cbn. intros E. pose proof (Rle_0_sqr x). pose proof (Rle_0_sqr y). pose proof (Rle_0_sqr z). unfold Rsqr in *.
  apply vec_ext; apply Rsqr_0_uniq; unfold Rsqr; lra.
Qed.
Lemma sub_add v w : sub (add w v) w = v.
Proof. destruct v as [[? ?] ?], w as [[? ?] ?]. cbn. apply vec_ext; ring. Qed.

(** a point covers another one if and only if both have the same image and it has the smaller zindex *)
Theorem zindex_order : forall p v w, (match p with Central d _ _ => 0 < d | _ => True end) -> in_front p v -> in_front p w ->
  (covers p v w <-> point p v = point p w /\ zindex p v < zindex p w).
Proof.
  intros [D phi theta|phi theta] v w HD HV HW; cbn [in_front] in *.
  - set (dv := D - dot (view phi theta) v). set (dw := D - dot (view phi theta) w).
    assert (0 < dv) by (unfold dv; lra). assert (0 < dw) by (unfold dw; lra).
    set (e := eye D phi theta). set (k := sub w e).
    assert (dot k k <> 0) as K0.
    { intros E. assert (w = e) as ->.
      { clear - E. unfold k in E. apply dot_zero in E. destruct w as [[a b] c], e as [[x y] z]. cbn in E.
        injection E as E1 E2 E3. apply vec_ext; lra. }
      clearbody dv. unfold dw, e in *. dotting phi theta. lra. }
    pose proof (dot_self k) as K1. assert (0 < sqrt (dot k k)) as K2 by (apply sqrt_lt_R0; lra).
    assert (forall t, 0 < t -> v = add e (scaled t k) -> zindex (Central D phi theta) v - zindex (Central D phi theta) w = (t - 1) * sqrt (dot k k)) as Z.
    { intros t Ht E. rewrite !zindex_central. fold e. rewrite E, sub_add, dot_scaled, (dot_comm (scaled t k)), dot_scaled.
      fold k. replace (t * (t * dot k k)) with ((t * t) * dot k k) by ring. rewrite sqrt_mult by nra. rewrite sqrt_square by lra. ring. }
    split.
    + intros (t & Ht & E). fold e k in E. split.
      * rewrite !image_central by assumption. fold dv dw.
        assert (dv = t * dw) as Ed.
        { unfold dv, dw. rewrite E. unfold k, e. clear. dotting phi theta. ring. }
        assert (dot (right phi) v = t * dot (right phi) w) as Er.
        { rewrite E. unfold k, e. clear. dotting phi theta. ring. }
        assert (dot (up phi theta) v = t * dot (up phi theta) w) as Eu.
        { rewrite E. unfold k, e. clear. dotting phi theta. ring. }
        rewrite Ed, Er, Eu. f_equal. f_equal; field; lra.
      * pose proof (Z t ltac:(lra) E) as Z1. assert ((t - 1) * sqrt (dot k k) < 0) by nra. lra.
    + rewrite !image_central by assumption. fold dv dw. intros (E & L). assert (D * dot (right phi) v / dv = D * dot (right phi) w / dw) as E1 by congruence. assert (D * dot (up phi theta) v / dv = D * dot (up phi theta) w / dw) as E2 by congruence.
      set (t := dv / dw). assert (0 < t) by (apply Rdiv_lt_0_compat; lra).
      assert (dv = t * dw) as Ed by (unfold t; field; lra).
      assert (v = add e (scaled t k)) as Ev.
      { apply (vec_by phi theta).
        - transitivity (t * dot (right phi) w).
          + apply (Rmult_eq_reg_l (D / dv)); [|apply Rgt_not_eq, Rdiv_lt_0_compat; lra].
            transitivity (D * dot (right phi) v / dv); [field; lra|]. rewrite E1. rewrite Ed. field. split; lra.
          + unfold k, e. clear. dotting phi theta. ring.
        - transitivity (t * dot (up phi theta) w).
          + apply (Rmult_eq_reg_l (D / dv)); [|apply Rgt_not_eq, Rdiv_lt_0_compat; lra].
            transitivity (D * dot (up phi theta) v / dv); [field; lra|]. rewrite E2. rewrite Ed. field. split; lra.
          + unfold k, e. clear. dotting phi theta. ring.
        - transitivity (D - t * dw); [unfold dv in Ed; lra|]. unfold dw, k, e. clear. dotting phi theta. ring. }
      pose proof (Z t ltac:(assumption) Ev) as Z1.
      exists t. fold e. split; [|exact Ev]. split; [assumption|]. nra.
  - rewrite !point_parallel, !zindex_parallel. split.
    + intros (t & Ht & ->). dotting phi theta. split; [f_equal; f_equal; ring|lra].
    + intros (E & L). assert (dot (right phi) v = dot (right phi) w) as E1 by congruence. assert (dot (up phi theta) v = dot (up phi theta) w) as E2 by congruence.
      exists (dot (view phi theta) v - dot (view phi theta) w). split; [lra|].
      apply (vec_by phi theta); dotting phi theta; lra.
Qed.
Print Assumptions zindex_order.
