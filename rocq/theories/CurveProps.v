(** Properties of lines and Bezier curves. *)
From Coq Require Import Reals List Lra Lia Bool.
From Verif Require Import TrafoModel BboxModel BboxSpec BboxProps CurveModel CurveSpec CurveProofs CurveProofs2 CurveProofs3 CurveProofs4.
Import ListNotations.
Open Scope R_scope.

Local Notation pt := (R * R)%type.

Lemma curve_coord_bernstein x0 x1 x2 x3 t : curve_coord x0 x1 x2 x3 t = bernstein x0 x1 x2 x3 t.
Proof. unfold curve_coord, bernstein. ring. Qed.
Lemma at_pt_cat p0 p1 p2 p3 t : at_pt (Curve p0 p1 p2 p3) t = cat (p0, p1, p2, p3) t.
Proof. destruct p0, p1, p2, p3. simpl. now rewrite !curve_coord_bernstein. Qed.
Lemma at_pt_along p0 p1 t : at_pt (Line p0 p1) t = along p0 p1 t.
Proof. destruct p0, p1. unfold at_pt, along. simpl. f_equal; ring. Qed.

(** The points of lines and curves are given by linear interpolation and Bernstein
    polynomials, with the end points at 0 and 1. *)
Theorem item_points : forall i t,
  match i with
  | Line p0 p1 => at_pt i t = along p0 p1 t
  | Curve p0 p1 p2 p3 => at_pt i t = (bernstein (fst p0) (fst p1) (fst p2) (fst p3) t, bernstein (snd p0) (snd p1) (snd p2) (snd p3) t)
  end /\ at_pt i 0 = atbegin_pt i /\ at_pt i 1 = atend_pt i.
Proof.
  intros [p0 p1|p0 p1 p2 p3] t.
  - rewrite !at_pt_along, along_0, along_1. repeat split.
  - rewrite !at_pt_cat, cat_0, cat_1. repeat split.
Qed.
Print Assumptions item_points.
Example item_points_example : at_pt (Curve (0, 0) (0, 16) (18, 16) (18, 0)) (1 / 2) = (9, 12).
Proof. simpl. unfold curve_coord. f_equal; field. Qed.

(** ** C44 *)
(** C44: the range of a Bezier polynomial is exact. *)
Theorem bezier_range_exact : forall x0 x1 x2 x3,
  exact_range (bernstein x0 x1 x2 x3) (fst (bezierpolyrange x0 x1 x2 x3)) (snd (bezierpolyrange x0 x1 x2 x3)).
Proof. exact bezierpolyrange_exact. Qed.
Print Assumptions bezier_range_exact.
Example bezier_range_example : bezierpolyrange 0 1 1 0 = (0, 3 / 4).
Proof.
  unfold bezierpolyrange. cbv zeta.
  replace (0 - 3 * 1 + 3 * 1 - 0) with 0 by ring. replace (2 * 0 - 4 * 1 + 2 * 1) with (-2) by ring.
  replace (1 - 0) with 1 by ring. replace (-2 * -2 - 4 * 0 * 1) with (2 * 2) by ring. rewrite sqrt_square by lra.
  destruct (Rge_dec (2 * 2) 0); [|lra]. destruct (Rge_dec (-2) 0); [lra|].
  replace (- (1 / 2) * (-2 - 2)) with 2 by field.
  unfold ltb. destruct (Rlt_dec 0 2); [|lra]. destruct (Rlt_dec 2 0); [lra|]. destruct (Rlt_dec 0 1); [|lra].
  destruct (Rlt_dec 1 2); [|lra]. simpl.
  replace (((0 * 0 + 3 / 2 * -2) * 0 + 3 * 1) * 0 + 0) with 0 by field.
  replace (((0 * 1 + 3 / 2 * -2) * 1 + 3 * 1) * 1 + 0) with 0 by field.
  replace (((0 * (1 / 2) + 3 / 2 * -2) * (1 / 2) + 3 * 1) * (1 / 2) + 0) with (3 / 4) by field.
  f_equal; mm; lra.
Qed.

(** ** C46 *)
Lemma at_pt_left p0 p1 p2 p3 t u : let '(a0, a1, a2, a3) := fst (split p0 p1 p2 p3 t) in
  at_pt (Curve a0 a1 a2 a3) u = at_pt (Curve p0 p1 p2 p3) (t * u).
Proof. destruct p0, p1, p2, p3. unfold split, mix, at_pt, curve_coord. simpl. f_equal; ring. Qed.

(** C46: both parts of a split curve trace the original. *)
Theorem split_traces : forall p0 p1 p2 p3 t a0 a1 a2 a3 b0 b1 b2 b3,
  split p0 p1 p2 p3 t = ((a0, a1, a2, a3), (b0, b1, b2, b3)) ->
  a0 = p0 /\ b3 = p3 /\ a3 = b0 /\ a3 = at_pt (Curve p0 p1 p2 p3) t /\
  forall u, at_pt (Curve a0 a1 a2 a3) u = at_pt (Curve p0 p1 p2 p3) (t * u) /\
            at_pt (Curve b0 b1 b2 b3) u = at_pt (Curve p0 p1 p2 p3) (t + (1 - t) * u).
Proof.
  intros p0 p1 p2 p3 t a0 a1 a2 a3 b0 b1 b2 b3 H.
  assert (A : forall u, at_pt (Curve a0 a1 a2 a3) u = at_pt (Curve p0 p1 p2 p3) (t * u)).
  { intros u. pose proof (cat_left (p0, p1, p2, p3) t u) as E. unfold left_part in E. rewrite H in E. simpl fst in E. now rewrite !at_pt_cat. }
  assert (B : forall u, at_pt (Curve b0 b1 b2 b3) u = at_pt (Curve p0 p1 p2 p3) (t + (1 - t) * u)).
  { intros u. pose proof (cat_right (p0, p1, p2, p3) t u) as E. unfold right_part in E. rewrite H in E. simpl snd in E. now rewrite !at_pt_cat. }
  pose proof (A 1) as A1. rewrite Rmult_1_r in A1. rewrite at_pt_cat, cat_1 in A1. simpl in A1.
  unfold split in H. injection H as <- <- <- E3 E4 <- <- <-.
  repeat split; auto. congruence.
Qed.
Print Assumptions split_traces.
Example split_example : split (0, 0) (0, 16) (18, 16) (18, 0) (1 / 2) =
  (((0, 0), (0, 8), (9 / 2, 12), (9, 12)), ((9, 12), (27 / 2, 12), (18, 8), (18, 0))).
Proof. unfold split, mix. simpl. repeat apply pair_eq; field. Qed.

Lemma segment_at i t t' u : at_pt (segment i t t') u = at_pt i (t + u * (t' - t)).
Proof.
  destruct i as [[x0 y0] [x1 y1]|[x0 y0] [x1 y1] [x2 y2] [x3 y3]].
  - unfold segment, line_segment, at_pt. simpl. f_equal; ring.
  - unfold segment, curve_segment, segment_coord, at_pt, curve_coord. simpl. f_equal; field.
Qed.
Lemma pairs_nth {A B} (f : A -> A -> B) l : forall k s, nth_error (pairs f l) k = Some s ->
  exists a b, nth_error l k = Some a /\ nth_error l (S k) = Some b /\ s = f a b.
Proof.
  induction l as [|a l IH]; intros k s H; [destruct k; discriminate|]. destruct l as [|b l]; [destruct k; discriminate|].
  destruct k as [|k]; simpl in H.
  - injection H as <-. exists a, b. auto.
  - destruct (IH k s H) as [a' [b' [H1 [H2 H3]]]]. exists a', b'. auto.
Qed.
Lemma pairs_length {A B} (f : A -> A -> B) l : List.length (pairs f l) = pred (List.length l).
Proof.
  induction l as [|a l IH]; auto. destruct l as [|b l]; auto. simpl in *. now rewrite IH.
Qed.

(** C46: the segments for a list of parameters trace the original between neighbouring
    parameters and fit together; segments are refused for fewer than two parameters. *)
Theorem segments_trace : forall i params,
  match item_segments i params with
  | None => (List.length params < 2)%nat
  | Some segs => S (List.length segs) = List.length params /\
      (forall k s, nth_error segs k = Some s -> exists t t', nth_error params k = Some t /\ nth_error params (S k) = Some t' /\
         forall u, at_pt s u = at_pt i (t + u * (t' - t))) /\
      (forall k s s', nth_error segs k = Some s -> nth_error segs (S k) = Some s' -> atend_pt s = atbegin_pt s')
  end.
Proof.
  intros i params. unfold item_segments. destruct params as [|a [|b l]]; [simpl; lia|simpl; lia|].
  remember (a :: b :: l) as params. assert (N : (2 <= List.length params)%nat) by (subst; simpl; lia). clear Heqparams a b l.
  split; [rewrite pairs_length; lia|]. split.
  - intros k s H. apply pairs_nth in H. destruct H as [t [t' [H1 [H2 ->]]]]. exists t, t'. repeat split; auto. intros; apply segment_at.
  - intros k s s' H H'. apply pairs_nth in H. apply pairs_nth in H'. destruct H as [t [t' [H1 [H2 ->]]]], H' as [u [u' [H3 [H4 ->]]]].
    assert (u = t') by congruence. subst u.
    rewrite <- (proj2 (proj2 (item_points (segment i t t') 0))), <- (proj1 (proj2 (item_points (segment i t' u') 0))).
    rewrite !segment_at. f_equal. ring.
Qed.
Print Assumptions segments_trace.
Example segments_example : item_segments (Curve (0, 0) (0, 16) (18, 16) (18, 0)) [1 / 2; 0; 1] =
  Some [Curve (9, 12) (9 / 2, 12) (0, 8) (0, 0); Curve (0, 0) (0, 16) (18, 16) (18, 0)].
Proof.
  simpl. unfold curve_segment, segment_coord. simpl. f_equal. f_equal; [|f_equal]; f_equal; apply pair_eq; field.
Qed.

(** ** C47 *)
Lemma bernstein_between x0 x1 x2 x3 lo hi t : 0 <= t <= 1 -> lo <= x0 <= hi -> lo <= x1 <= hi -> lo <= x2 <= hi -> lo <= x3 <= hi ->
  lo <= bernstein x0 x1 x2 x3 t <= hi.
Proof.
  intros Ht H0 H1 H2 H3. unfold bernstein.
  set (w0 := (1 - t) ^ 3). set (w1 := 3 * t * (1 - t) ^ 2). set (w2 := 3 * t ^ 2 * (1 - t)). set (w3 := t ^ 3).
  assert (W0 : 0 <= w0) by (apply pow_le; lra).
  assert (W1 : 0 <= w1) by (unfold w1; apply Rmult_le_pos; [lra|apply pow_le; lra]).
  assert (W2 : 0 <= w2) by (unfold w2; apply Rmult_le_pos; [|lra]; apply Rmult_le_pos; [lra|apply pow_le; lra]).
  assert (W3 : 0 <= w3) by (apply pow_le; lra).
  assert (W : w3 = 1 - w0 - w1 - w2) by (unfold w0, w1, w2, w3; ring).
  clearbody w0 w1 w2 w3. 
  assert (forall w x, 0 <= w -> lo <= x <= hi -> w * lo <= w * x <= w * hi) as M.
  { intros w x Hw Hx. split; apply Rmult_le_compat_l; lra. }
  pose proof (M w0 x0 W0 H0). pose proof (M w1 x1 W1 H1). pose proof (M w2 x2 W2 H2). pose proof (M w3 x3 W3 H3).
  assert (E : forall z, w0 * z + w1 * z + w2 * z + w3 * z = z) by (intros; rewrite W; ring).
  pose proof (E lo). pose proof (E hi). lra.
Qed.
Lemma min4_le a b c d : min4 a b c d <= a /\ min4 a b c d <= b /\ min4 a b c d <= c /\ min4 a b c d <= d.
Proof. unfold min4. mm; lra. Qed.
Lemma max4_ge a b c d : a <= max4 a b c d /\ b <= max4 a b c d /\ c <= max4 a b c d /\ d <= max4 a b c d.
Proof. unfold max4. mm; lra. Qed.

(** C47: the bounding box of an item is the smallest box containing its points. *)
Theorem item_bbox_smallest : forall i, smallest (item_bbox i) (fun p => exists t, 0 <= t <= 1 /\ p = at_pt i t).
Proof.
  intros [[x0 y0] [x1 y1]|[x0 y0] [x1 y1] [x2 y2] [x3 y3]].
  - simpl. split; [|split].
    + intros l [= <-]. simpl. mm; lra.
    + intros p [t [Ht ->]]. assert (G : forall a b, Rmin a b <= a + (b - a) * t <= Rmax a b) by (intros a b; mm; nra).
      apply inside_intro; apply G.
    + intros c H p Hp. apply inside_inv in Hp.
      pose proof (H (x0, y0)) as C0. pose proof (H (x1, y1)) as C1.
      destruct C0 as [l [E C0]]; [exists 0; split; [lra|f_equal; ring]|].
      destruct C1 as [l' [E' C1]]; [exists 1; split; [lra|f_equal; ring]|].
      rewrite E' in E. injection E as ->. exists l. simpl in *. split; auto. revert Hp. mm; lra.
  - unfold item_bbox. pose proof (bezierpolyrange_exact x0 x1 x2 x3) as X. pose proof (bezierpolyrange_exact y0 y1 y2 y3) as Y.
    destruct (bezierpolyrange x0 x1 x2 x3) as [xmin xmax]. destruct (bezierpolyrange y0 y1 y2 y3) as [ymin ymax]. cbn [fst snd] in X, Y.
    destruct X as [X [[tx1 [T1 X1]] [tx2 [T2 X2]]]], Y as [Y [[ty1 [T3 Y1]] [ty2 [T4 Y2]]]].
    split; [|split].
    + intros l [= <-]. simpl. specialize (X 0 ltac:(lra)). specialize (Y 0 ltac:(lra)). lra.
    + intros p [t [Ht ->]]. simpl. rewrite !curve_coord_bernstein. apply inside_intro; auto.
    + intros c H p Hp. apply inside_inv in Hp.
      assert (K : forall t, 0 <= t <= 1 -> inside c (bernstein x0 x1 x2 x3 t, bernstein y0 y1 y2 y3 t)).
      { intros t Ht. apply H. exists t. split; auto. simpl. now rewrite !curve_coord_bernstein. }
      destruct (K tx1 T1) as [l [E K1]]. destruct (K tx2 T2) as [l2 [E2 K2]]. destruct (K ty1 T3) as [l3 [E3 K3]].
      destruct (K ty2 T4) as [l4 [E4 K4]]. rewrite E in *. injection E2 as <-. injection E3 as <-. injection E4 as <-.
      simpl in *. exists l. split; auto. lra.
Qed.
Print Assumptions item_bbox_smallest.
Lemma range_bounds f lo hi a b : exact_range f lo hi -> (forall t, 0 <= t <= 1 -> a <= f t <= b) -> a <= lo /\ hi <= b.
Proof. intros [_ [[t [Ht <-]] [u [Hu <-]]]] H. split; apply H; auto. Qed.

(** C47: every point of an item lies in its control box, which contains the bounding box. *)
Theorem item_cbox_contains : forall i,
  (forall t, 0 <= t <= 1 -> inside (item_cbox i) (at_pt i t)) /\ within (item_bbox i) (item_cbox i).
Proof.
  intros i.
  assert (P : forall t, 0 <= t <= 1 -> inside (item_cbox i) (at_pt i t)).
  { intros t Ht. destruct i as [p0 p1|[x0 y0] [x1 y1] [x2 y2] [x3 y3]].
    - destruct (item_bbox_smallest (Line p0 p1)) as [_ [H _]]. apply H. eauto.
    - simpl. rewrite !curve_coord_bernstein.
      pose proof (min4_le x0 x1 x2 x3). pose proof (min4_le y0 y1 y2 y3). pose proof (max4_ge x0 x1 x2 x3). pose proof (max4_ge y0 y1 y2 y3).
      apply inside_intro; apply bernstein_between; auto; lra. }
  split; auto. destruct (item_bbox_smallest i) as [_ [_ H]]. apply H. intros p [t [Ht ->]]. auto.
Qed.
Print Assumptions item_cbox_contains.
Example item_box_example : item_bbox (Curve (0, 0) (0, 1) (1, 1) (1, 0)) = mkbbox (Some 0) 0 1 (3 / 4) /\
  item_cbox (Curve (0, 0) (0, 1) (1, 1) (1, 0)) = mkbbox (Some 0) 0 1 1.
Proof.
  split.
  - unfold item_bbox. rewrite bezier_range_example.
    assert (R : bezierpolyrange 0 0 1 1 = (0, 1)); [|now rewrite R].
    unfold bezierpolyrange. cbv zeta.
    replace (1 - 3 * 1 + 3 * 0 - 0) with (-2) by ring. replace (2 * 0 - 4 * 0 + 2 * 1) with 2 by ring.
    replace (0 - 0) with 0 by ring. replace (2 * 2 - 4 * -2 * 0) with (2 * 2) by ring. rewrite sqrt_square by lra.
    destruct (Rge_dec (2 * 2) 0); [|lra]. destruct (Rge_dec 2 0); [|lra].
    replace (- (1 / 2) * (2 + 2)) with (-2) by field.
    unfold ltb. destruct (Rlt_dec 0 (-2)); [lra|]. destruct (Rlt_dec (-2) (-2)); [lra|]. destruct (Rlt_dec 0 0); [lra|].
    destruct (Rlt_dec (-2) 0); [|lra]. simpl. f_equal; [rewrite Rmin_left|rewrite Rmax_right]; lra.
  - simpl. unfold min4, max4. f_equal; [f_equal| | |]; mm; lra.
Qed.

(** ** C48 *)
(** C48: the arc length of a curve is computed with finite recursion; it encloses the arc
    length (the least upper bound of the inscribed chains, which exists) from below and
    above, less than twice epsilon apart. *)
Theorem arclen_enclosed : forall p0 p1 p2 p3 epsilon, 0 < epsilon ->
  exists needed, forall fuel, (needed <= fuel)%nat ->
  exists lower upper len,
    curve_arclen fuel false (p0, p1, p2, p3) epsilon = Some lower /\
    curve_arclen fuel true (p0, p1, p2, p3) epsilon = Some upper /\
    is_arc_length (at_pt (Curve p0 p1 p2 p3)) 0 1 len /\
    lower <= len <= upper /\ upper - lower < 2 * epsilon.
Proof.
  intros p0 p1 p2 p3 eps He. set (c := (p0, p1, p2, p3)).
  set (d := Rmax (nrm (second p0 p1 p2)) (nrm (second p1 p2 p3))).
  assert (B : bend c d) by (split; [apply Rmax_l|apply Rmax_r]).
  destruct (pow2_unbounded (8 / 3 * d / eps)) as [n Hn].
  assert (Hn' : 8 / 3 * d < eps * 2 ^ n).
  { apply (Rmult_lt_compat_l eps) in Hn; auto. replace (eps * (8 / 3 * d / eps)) with (8 / 3 * d) in Hn by (field; lra). exact Hn. }
  exists (S n). intros fuel F.
  destruct (arclen_terminates n false c d eps B Hn' He fuel F) as [lo L].
  destruct (arclen_terminates n true c d eps B Hn' He fuel F) as [up U].
  assert (CE : forall l t, chain (at_pt (Curve p0 p1 p2 p3)) t l = chain (cat c) t l).
  { induction l as [|u l IH]; intros t; cbn [chain]; auto. now rewrite IH, !at_pt_cat. }
  pose proof (arclen_upper fuel c eps up U) as HU. destruct (arclen_lower fuel c eps lo L) as [l [I El]].
  destruct (completeness (chain_length (at_pt (Curve p0 p1 p2 p3)) 0 1)) as [len Hlen].
  - exists up. intros x [l' [I' ->]]. rewrite CE. auto.
  - exists lo, l. rewrite CE. auto.
  - exists lo, up, len. repeat split; auto; try apply Hlen.
    + exists l. rewrite CE. auto.
    + intros x [l' [I' ->]]. rewrite CE. auto.
    + apply (arclen_gap fuel c eps lo up L U).
Qed.
Print Assumptions arclen_enclosed.
Example arclen_example : curve_arclen 1 false ((0, 0), (0, 16), (18, 16), (18, 0)) 4 = Some 30.
Proof.
  unfold curve_arclen. rewrite split_example.

  assert (H15 : forall x y, x * x + y * y = 15 * 15 -> hypot x y = 15).
  { intros x y H. unfold hypot. rewrite H. apply sqrt_square. lra. }
  assert (H8 : forall x y, x * x + y * y = 8 * 8 -> hypot x y = 8).
  { intros x y H. unfold hypot. rewrite H. apply sqrt_square. lra. }
  assert (H9 : forall x y, x * x + y * y = 9 / 2 * (9 / 2) -> hypot x y = 9 / 2).
  { intros x y H. unfold hypot. rewrite H. apply sqrt_square. lra. }
  assert (H7 : forall x y, x * x + y * y = 9 / 2 * (9 / 2) + 4 * 4 -> hypot x y < 13 / 2).
  { intros x y H. apply hypot_lt; lra. }
  unfold polygon, chord, dist. simpl.
  rewrite (H15 (9 - 0) (12 - 0)), (H15 (18 - 9) (0 - 12)) by ring.
  rewrite (H8 (0 - 0) (8 - 0)), (H8 (18 - 18) (0 - 8)) by ring.
  rewrite (H9 (9 - 9 / 2) (12 - 12)), (H9 (27 / 2 - 9) (12 - 12)) by field.
  pose proof (H7 (9 / 2 - 0) (12 - 8) ltac:(field)). pose proof (H7 (18 - 27 / 2) (8 - 12) ltac:(field)).
  destruct (Rlt_dec _ _) as [_|N]; [|lra]. destruct (Rlt_dec _ _) as [_|N]; [|lra]. f_equal. ring.
Qed.
(** the length of a line is the distance of its end points, which is its arc length *)
Theorem line_arclen_exact : forall p0 p1, is_arc_length (at_pt (Line p0 p1)) 0 1 (line_arclen p0 p1).
Proof.
  intros p0 p1. assert (E : line_arclen p0 p1 = dist p0 p1).
  { unfold line_arclen, dist, hypot. f_equal. ring. }
  rewrite E.
  assert (D : forall t u, t <= u -> distance (at_pt (Line p0 p1) t) (at_pt (Line p0 p1) u) = (u - t) * dist p0 p1).
  { intros t u H. rewrite !at_pt_along, distance_nrm. replace (vsub (along p0 p1 u) (along p0 p1 t)) with (vscale (u - t) (vsub p1 p0)).
    - rewrite nrm_scale_pos by lra. reflexivity.
    - unfold vsub, vscale, along. simpl. f_equal; ring. }
  assert (C : forall l t last, increasing t l last -> chain (at_pt (Line p0 p1)) t l = (last - t) * dist p0 p1).
  { induction l as [|u l IH]; intros t last I; simpl in *; [subst; ring|]. destruct I as [I1 I2]. rewrite D, (IH u last) by auto. ring. }
  split.
  - intros x [l [I ->]]. rewrite (C _ _ _ I). lra.
  - intros b H. apply H. exists [1]. split; [simpl; lra|]. rewrite (C [1] 0 1) by (simpl; lra). ring.
Qed.
Print Assumptions line_arclen_exact.
Example line_arclen_example : line_arclen (1, 2) (4, -2) = 5.
Proof. unfold line_arclen, hypot. simpl. replace (_ + _) with (5 * 5) by ring. apply sqrt_square. lra. Qed.

(** ** C50 *)
(** the determinant measuring whether two lines are parallel *)
Definition spanned (a0 a1 b0 b1 : pt) : R := (fst b1 - fst b0) * (snd a1 - snd a0) - (snd b1 - snd b0) * (fst a1 - fst a0).
Definition crossing (a0 a1 b0 b1 : pt) (s t : R) : Prop := 0 <= s <= 1 /\ 0 <= t <= 1 /\ along a0 a1 s = along b0 b1 t.

(** C50: if this line is not shorter than epsilon, every pair reported is a pair of
    parameters on the lines whose points are at most epsilon apart. *)
Theorem line_intersect_sound : forall epsilon a0 a1 b0 b1 s t, 0 < epsilon ->
  epsilon <= distance a0 a1 \/ epsilon * epsilon <= Rabs (spanned a0 a1 b0 b1) ->
  In (s, t) (line_intersect epsilon a0 a1 b0 b1) ->
  0 <= s <= 1 /\ 0 <= t <= 1 /\ distance (at_pt (Line a0 a1) s) (at_pt (Line b0 b1) t) <= epsilon.
Proof. intros e a0 a1 b0 b1 s t He H I. rewrite !at_pt_along. eapply intersect_sound; eauto. Qed.
Print Assumptions line_intersect_sound.
(** C50: if this line is not shorter than epsilon and the lines have a common point, exactly
    one intersection is reported, also for lines parallel up to the accuracy. *)
Theorem line_intersect_complete : forall epsilon a0 a1 b0 b1 s t, 0 < epsilon -> epsilon <= distance a0 a1 ->
  crossing a0 a1 b0 b1 s t -> exists r, line_intersect epsilon a0 a1 b0 b1 = [r].
Proof. intros e a0 a1 b0 b1 s t He H (Hs & Ht & E). exact (intersect_complete e a0 a1 b0 b1 s t He H Hs Ht E). Qed.
Print Assumptions line_intersect_complete.
(** C50: for lines which are not parallel up to the accuracy it is the common point. *)
Theorem line_intersect_exact : forall epsilon a0 a1 b0 b1 s t, 0 < epsilon ->
  epsilon * epsilon <= Rabs (spanned a0 a1 b0 b1) ->
  crossing a0 a1 b0 b1 s t -> line_intersect epsilon a0 a1 b0 b1 = [(s, t)].
Proof. intros e a0 a1 b0 b1 s t He H (Hs & Ht & E). now apply intersect_exact. Qed.
Print Assumptions line_intersect_exact.
Example line_intersect_example : line_intersect (1 / 100) (0, 0) (4, 4) (0, 2) (4, 2) = [(1 / 2, 1 / 2)] /\
  line_intersect (1 / 100) (0, 0) (4, 4) (5, 0) (5, 4) = [].
Proof.
  split.
  - apply line_intersect_exact; [lra| |].
    + unfold spanned. simpl. replace (_ - _) with 16 by ring. rewrite Rabs_pos_eq; lra.
    + repeat split; try lra. unfold along. simpl. f_equal; field.
  - unfold line_intersect. simpl. destruct (Rlt_dec _ _) as [L|_].
    + exfalso. replace (_ - _) with (-16) in L by ring. rewrite Rabs_left in L; lra.
    + replace (((5 - 5) * (0 - 0) - (4 - 0) * (5 - 0)) * (1 / ((5 - 5) * (4 - 0) - (4 - 0) * (4 - 0)))) with (5 / 4) by field.
      unfold leb. destruct (Rle_dec 0 (5 / 4)); [|lra]. destruct (Rle_dec (5 / 4) 1); [lra|]. simpl.
      replace (((4 - 0) * (0 - 0) - (4 - 0) * (5 - 0)) * (1 / ((5 - 5) * (4 - 0) - (4 - 0) * (4 - 0)))) with (5 / 4) by field.
      replace (clamp (5 / 4)) with 1. 2:{ unfold clamp. rewrite Rmax_right by lra. rewrite Rmin_left; lra. }
      destruct (Rlt_dec _ _) as [_|N]; auto. exfalso. apply N. clear N.
      unfold hypot. replace (_ + _) with (1 * 1) by ring. rewrite sqrt_square; lra.
Qed.

(** ** C51 *)
(** C51, the second line: a line shorter than epsilon, met by a longer parallel one, is
    represented by its middle. *)
Theorem short_other_middle_partial : forall epsilon a0 a1 b0 b1, 0 < epsilon ->
  epsilon <= distance a0 a1 -> distance b0 b1 < epsilon -> Rabs (spanned a0 a1 b0 b1) < epsilon * epsilon ->
  (forall s t, In (s, t) (line_intersect epsilon a0 a1 b0 b1) ->
     t = 1 / 2 /\ 0 <= s <= 1 /\ distance (along a0 a1 s) (along b0 b1 (1 / 2)) < epsilon) /\
  ((exists q, 0 <= q <= 1 /\ distance (along a0 a1 q) (along b0 b1 (1 / 2)) < epsilon) ->
   exists s, line_intersect epsilon a0 a1 b0 b1 = [(s, 1 / 2)]).
Proof.
  intros e a0 a1 b0 b1 He La Lb P. rewrite distance_dist in La, Lb. unfold dist in La, Lb. unfold spanned in P. unfold line_intersect.
  destruct (Rlt_dec (Rabs _) _) as [_|]; [|contradiction].
  destruct (Rlt_dec (hypot (fst a1 - fst a0) (snd a1 - snd a0)) e) as [S1|S1]; [lra|].
  destruct (Rlt_dec (hypot (fst b1 - fst b0) (snd b1 - snd b0)) e) as [S2|S2]; [|lra].
  rewrite <- along_mid. split.
  - intros s t. destruct (closepoint e _ a0 a1) as [p|] eqn:E; [|intros []]. intros [[= <- <-]|[]].
    apply closepoint_sound in E. tauto.
  - intros [q [Hq D]]. destruct (closepoint_complete e (along b0 b1 (1 / 2)) a0 a1 q He (long_neq _ _ _ He S1) Hq D) as [s ->]. eauto.
Qed.
Print Assumptions short_other_middle_partial.
Lemma hypot_0 : hypot 0 0 = 0.
Proof. unfold hypot. rewrite Rmult_0_l, Rplus_0_l. apply sqrt_0. Qed.
Lemma hypot_x x : 0 <= x -> hypot x 0 = x.
Proof. intros H. unfold hypot. rewrite Rmult_0_l, Rplus_0_r. now apply sqrt_square. Qed.
Lemma hypot_y y : hypot 0 y = Rabs y.
Proof. unfold hypot. rewrite Rmult_0_l, Rplus_0_l. apply sqrt_Rsqr_abs. Qed.
(** C51, this line: a point on the other line is not found, as its vertical coordinate is
    taken from the horizontal one (l.228). *)
Theorem short_self_middle_refuted : exists epsilon a b0 b1, 0 < epsilon /\ along b0 b1 (1 / 2) = a /\
  line_intersect epsilon a a b0 b1 = [] /\ line_intersect epsilon b0 b1 a a = [(1 / 2, 1 / 2)].
Proof.
  exists (1 / 100000), (100, 1), (0, 1), (200, 1). split; [lra|]. split; [unfold along; simpl; f_equal; field|]. split.
  - unfold line_intersect. simpl.
    replace ((200 - 0) * (1 - 1) - (1 - 1) * (100 - 100)) with 0 by ring. rewrite Rabs_R0.
    destruct (Rlt_dec 0 _) as [_|N]; [|exfalso; apply N; lra].
    replace (100 - 100) with 0 by ring. replace (1 - 1) with 0 by ring. rewrite hypot_0.
    destruct (Rlt_dec 0 _) as [_|N]; [|exfalso; apply N; lra].
    replace (200 - 0) with 200 by ring. rewrite hypot_x by lra. destruct (Rlt_dec 200 _) as [N|_]; [lra|].
    unfold closepoint. set (s := clamp _). assert (Es : s = 1 / 2).
    { unfold s, clamp. match goal with |- Rmin 1 (Rmax 0 ?x) = _ => replace x with (1 / 2) by field end.
      rewrite Rmax_right by lra. rewrite Rmin_right; lra. }
    rewrite Es. destruct (Rlt_dec _ _) as [L|]; auto. exfalso.
    replace (0 + 1 / 2 * 200 - 1 / 2 * (100 + 100)) with 0 in L by field. rewrite hypot_y in L.
    rewrite Rabs_left in L; lra.
  - unfold line_intersect. simpl.
    replace ((100 - 100) * (1 - 1) - (1 - 1) * (200 - 0)) with 0 by ring. rewrite Rabs_R0.
    destruct (Rlt_dec 0 _) as [_|N]; [|exfalso; apply N; lra].
    replace (100 - 100) with 0 by ring. replace (1 - 1) with 0 by ring. rewrite hypot_0.
    replace (200 - 0) with 200 by ring. rewrite hypot_x by lra. destruct (Rlt_dec 200 _) as [N|_]; [lra|].
    destruct (Rlt_dec 0 _) as [_|N]; [|exfalso; apply N; lra].
    unfold closepoint. set (s := clamp _). assert (Es : s = 1 / 2).
    { unfold s, clamp. match goal with |- Rmin 1 (Rmax 0 ?x) = _ => replace x with (1 / 2) by field end.
      rewrite Rmax_right by lra. rewrite Rmin_right; lra. }
    rewrite Es. destruct (Rlt_dec _ _) as [L|N]; auto. exfalso. apply N; clear N.
    replace (0 + 1 / 2 * 200 - 1 / 2 * (100 + 100)) with 0 by field. rewrite hypot_y.
    replace (1 + 1 / 2 * 0 - 1 / 2 * (1 + 1)) with 0 by field. rewrite Rabs_R0. lra.
Qed.
Print Assumptions short_self_middle_refuted.

(** ** C53, C54: single items *)
(** C53: reversing an item mirrors its parameter and is an involution. *)
Theorem item_reversed_mirror : forall i t,
  at_pt (item_reversed i) t = at_pt i (1 - t) /\ item_reversed (item_reversed i) = i /\
  atbegin_pt (item_reversed i) = atend_pt i /\ atend_pt (item_reversed i) = atbegin_pt i.
Proof.
  intros [[x0 y0] [x1 y1]|[x0 y0] [x1 y1] [x2 y2] [x3 y3]] t; repeat split; simpl; unfold curve_coord; f_equal; ring.
Qed.
Print Assumptions item_reversed_mirror.
Example item_reversed_example : at_pt (item_reversed (Curve (0, 0) (1, 2) (3, 4) (5, 0))) 0 = (5, 0).
Proof. simpl. unfold curve_coord. f_equal; ring. Qed.
(** C54: transforming an item transforms each of its points. *)
Theorem item_transformed_points : forall m i t, at_pt (item_transformed m i) t = apply_pt m (at_pt i t).
Proof.
  intros m [[x0 y0] [x1 y1]|[x0 y0] [x1 y1] [x2 y2] [x3 y3]] t; unfold item_transformed, at_pt, apply_pt, curve_coord; simpl; f_equal; ring.
Qed.
Print Assumptions item_transformed_points.
Example item_transformed_example : at_pt (item_transformed (mktrafo 0 (-1) 1 0 7 8) (Line (1, 2) (3, 6))) (1 / 2) = (3, 10).
Proof. simpl. unfold apply_pt. simpl. f_equal; field. Qed.

(** ** C74 *)
(** C74: the transformation attached to a parameter moves the origin to the point of the
    item and turns the coordinate axes to its tangent and normal. *)
Theorem item_trafo_frame : forall i t dx dy,
  derivable_pt_lim (fun u => fst (at_pt i u)) t dx -> derivable_pt_lim (fun u => snd (at_pt i u)) t dy ->
  distance (0, 0) (dx, dy) <> 0 ->
  let speed := distance (0, 0) (dx, dy) in
  let '(x, y) := at_pt i t in
  apply_pt (item_trafo i t) (0, 0) = (x, y) /\
  apply_pt (item_trafo i t) (1, 0) = (x + dx / speed, y + dy / speed) /\
  apply_pt (item_trafo i t) (0, 1) = (x - dy / speed, y + dx / speed) /\
  apply_pt (item_rotation i t) (1, 0) = (dx / speed, dy / speed).
Proof.
  intros i t dx dy Dx Dy N speed. destruct (velocity_deriv i t) as [Vx Vy].
  pose proof (uniqueness_limite _ _ _ _ Dx Vx) as Ex. pose proof (uniqueness_limite _ _ _ _ Dy Vy) as Ey.
  assert (S : speed = hypot dx dy).
  { unfold speed, distance, hypot. simpl. f_equal. ring. }
  fold speed in N. rewrite S in *.
  destruct (cos_sin_atan2 dy dx N) as [C D].
  assert (R : item_rotation i t = rotate_degrees (degrees (atan2 dy dx))).
  { rewrite Ex, Ey. destruct i as [[x0 y0] [x1 y1]|[x0 y0] [x1 y1] [x2 y2] [x3 y3]]; reflexivity. }
  unfold item_trafo. rewrite R. unfold rotate_degrees. rewrite radians_degrees, C, D.
  destruct (at_pt i t) as [x y]. unfold apply_pt, tmul, translate_pt. simpl.
  repeat split; f_equal; field; exact N.
Qed.
Print Assumptions item_trafo_frame.
Example item_trafo_example : apply_pt (item_trafo (Line (1, 1) (4, 5)) (1 / 2)) (5, 0) = (11 / 2, 7).
Proof.
  assert (S : distance (0, 0) (3, 4) = 5) by (unfold distance; simpl; replace (_ + _) with (5 * 5) by ring; apply sqrt_square; lra).
  pose proof (velocity_deriv (Line (1, 1) (4, 5)) (1 / 2)) as [A B].
  replace (fst (velocity _ _)) with 3 in A by (simpl; ring). replace (snd (velocity _ _)) with 4 in B by (simpl; ring).
  pose proof (item_trafo_frame (Line (1, 1) (4, 5)) (1 / 2) 3 4 A B) as F. simpl at_pt in F. cbv zeta iota beta in F. rewrite S in F.
  destruct (F ltac:(discrR)) as [F0 [F1 _]]. unfold apply_pt in *. cbn [fst snd] in *.
  pose proof (f_equal fst F0) as A0. pose proof (f_equal snd F0) as A1. pose proof (f_equal fst F1) as B0. pose proof (f_equal snd F1) as B1.
  cbn [fst snd] in *. apply pair_eq; lra.
Qed.
(** C74: the four coordinate functions of a curve are the coordinate and its first three
    derivatives. *)
Theorem coordinate_derivatives : forall x0 x1 x2 x3 t,
  coord_0 x0 x1 x2 x3 t = bernstein x0 x1 x2 x3 t /\
  derivable_pt_lim (coord_0 x0 x1 x2 x3) t (coord_1 x0 x1 x2 x3 t) /\
  derivable_pt_lim (coord_1 x0 x1 x2 x3) t (coord_2 x0 x1 x2 x3 t) /\
  derivable_pt_lim (coord_2 x0 x1 x2 x3) t (coord_3 x0 x1 x2 x3 t).
Proof.
  intros x0 x1 x2 x3 t. split; [unfold coord_0, bernstein; ring|]. split; [|split].
  - apply deriv_cubic with (x3 - 3 * x2 + 3 * x1 - x0) (3 * x0 - 6 * x1 + 3 * x2) (3 * x1 - 3 * x0) x0;
      [intros u; unfold coord_0; ring|unfold coord_1; ring].
  - apply deriv_cubic with 0 (3 * x3 - 9 * x2 + 9 * x1 - 3 * x0) (6 * x0 - 12 * x1 + 6 * x2) (3 * x1 - 3 * x0);
      [intros u; unfold coord_1; ring|unfold coord_2; ring].
  - apply deriv_cubic with 0 0 (6 * x3 - 18 * x2 + 18 * x1 - 6 * x0) (6 * x0 - 12 * x1 + 6 * x2);
      [intros u; unfold coord_2; ring|unfold coord_3; ring].
Qed.
Print Assumptions coordinate_derivatives.
Example coordinate_example : coord_1 0 1 2 4 (1 / 2) = 15 / 4 /\ coord_3 0 1 2 4 (1 / 2) = 6.
Proof. unfold coord_1, coord_3. split; field. Qed.

(** ** C75 *)
(** C75: the curvature turns the unit tangent: its derivative is curvature times speed times
    the unit normal (Frenet).  It fails exactly where the speed is zero. *)
Theorem curvature_frenet : forall i dx dy, 
  (forall u, derivable_pt_lim (fun u => fst (at_pt i u)) u (dx u)) ->
  (forall u, derivable_pt_lim (fun u => snd (at_pt i u)) u (dy u)) ->
  forall t,
  let speed := fun u => distance (0, 0) (dx u, dy u) in
  match item_curvature i t with
  | None => speed t = 0
  | Some k =>
      derivable_pt_lim (fun u => dx u / speed u) t (k * speed t * - (dy t / speed t)) /\
      derivable_pt_lim (fun u => dy u / speed u) t (k * speed t * (dx t / speed t))
  end.
Proof.
  intros i dx dy Dx Dy t speed.
  assert (S : forall u, speed u = hypot (dx u) (dy u)).
  { intros u. unfold speed, distance, hypot. simpl. f_equal. ring. }
  assert (Ex : forall u, dx u = fst (velocity i u)) by (intros u; apply (uniqueness_limite _ _ _ _ (Dx u)), velocity_deriv).
  assert (Ey : forall u, dy u = snd (velocity i u)) by (intros u; apply (uniqueness_limite _ _ _ _ (Dy u)), velocity_deriv).
  destruct i as [[x0 y0] [x1 y1]|[x0 y0] [x1 y1] [x2 y2] [x3 y3]].
  - simpl in *. split.
    + apply deriv_ext with (fct_cte ((x1 - x0) / hypot (x1 - x0) (y1 - y0))); [intros u; now rewrite S, Ex, Ey|].
      replace (0 * _ * _) with 0 by ring. apply derivable_pt_lim_const.
    + apply deriv_ext with (fct_cte ((y1 - y0) / hypot (x1 - x0) (y1 - y0))); [intros u; now rewrite S, Ex, Ey|].
      replace (0 * _ * _) with 0 by ring. apply derivable_pt_lim_const.
  - unfold velocity in Ex, Ey. cbn [fst snd] in Ex, Ey. unfold item_curvature.
    set (f := dot_coord x0 x1 x2 x3). set (g := dot_coord y0 y1 y2 y3).
    assert (Ef : forall u, dx u = f u) by (intros u; rewrite Ex; apply tangent_dot).
    assert (Eg : forall u, dy u = g u) by (intros u; rewrite Ey; apply tangent_dot).
    destruct (Req_EM_T (hypot (f t) (g t)) 0) as [Z|NZ]; [now rewrite S, Ef, Eg|].
    rewrite S, Ef, Eg. split.
    + apply deriv_ext with (fun u => f u / hypot (f u) (g u)); [intros u; now rewrite S, Ef, Eg|].
      apply unit_deriv; auto; apply dot_deriv.
    + apply deriv_ext with (fun u => g u / hypot (g u) (f u)).
      { intros u. rewrite S, Ef, Eg. replace (hypot (g u) (f u)) with (hypot (f u) (g u)) by (unfold hypot; f_equal; ring). reflexivity. }
      assert (HS : hypot (g t) (f t) = hypot (f t) (g t)) by (unfold hypot; f_equal; ring).
      pose proof (unit_deriv g f t _ _ (dot_deriv y0 y1 y2 y3 t) (dot_deriv x0 x1 x2 x3 t)) as U. rewrite HS in U. specialize (U NZ).
      match type of U with derivable_pt_lim _ _ ?a => match goal with |- derivable_pt_lim _ _ ?b => replace b with a end end; [exact U|].
      field. exact NZ.
Qed.
Print Assumptions curvature_frenet.
Example curvature_example : item_curvature (Curve (0, 0) (1, 0) (2, 0) (3, 3)) 0 = Some 0 /\
  item_curvature (Curve (0, 0) (1, 0) (2, 3) (3, 9)) 0 = Some 2.
Proof.
  assert (H3 : hypot (dot_coord 0 1 2 3 0) 0 = 3).
  { replace (dot_coord 0 1 2 3 0) with 3 by (unfold dot_coord; ring). apply hypot_x. lra. }
  split; unfold item_curvature.
  - replace (dot_coord 0 0 0 3 0) with 0 by (unfold dot_coord; ring). rewrite H3. destruct (Req_EM_T 3 0); [lra|]. f_equal.
    unfold dot_coord, ddot_coord. field.
  - replace (dot_coord 0 0 3 9 0) with 0 by (unfold dot_coord; ring). rewrite H3. destruct (Req_EM_T 3 0); [lra|]. f_equal.
    unfold dot_coord, ddot_coord. field.
Qed.
