(** Intersections of lines. *)
From Coq Require Import Reals List Lra Lia Bool.
From Verif Require Import TrafoModel BboxModel CurveModel CurveSpec CurveProofs2.
Import ListNotations.
Open Scope R_scope.

Local Notation pt := (R * R)%type.

Lemma hypot_sqr x y : hypot x y * hypot x y = x * x + y * y.
Proof. apply sqrt_sqrt. nra. Qed.
Lemma hypot_pos x y : 0 <= hypot x y.
Proof. apply sqrt_pos. Qed.
Lemma hypot_lt x y e : 0 < e -> x * x + y * y < e * e -> hypot x y < e.
Proof. intros He H. unfold hypot. rewrite <- (sqrt_square e) by lra. apply sqrt_lt_1; nra. Qed.
Lemma hypot_lt_inv x y e : hypot x y < e -> x * x + y * y < e * e.
Proof. intros H. pose proof (hypot_sqr x y). pose proof (hypot_pos x y). nra. Qed.
Lemma hypot_ge_inv x y e : 0 < e -> ~ hypot x y < e -> e * e <= x * x + y * y.
Proof. intros He H. pose proof (hypot_sqr x y). pose proof (hypot_pos x y). nra. Qed.
Lemma clamp_range x : 0 <= clamp x <= 1.
Proof. unfold clamp, Rmin, Rmax. destruct (Rle_dec 0 x); destruct (Rle_dec _ _); lra. Qed.
Lemma leb_true x y : leb x y = true <-> x <= y.
Proof. unfold leb. destruct (Rle_dec x y); split; intros; try discriminate; auto; contradiction. Qed.
Lemma leb_false x y : leb x y = false <-> y < x.
Proof. unfold leb. destruct (Rle_dec x y); split; intros; try discriminate; auto; lra. Qed.

Lemma closepoint_sound e p q0 q1 s : closepoint e p q0 q1 = Some s -> 0 <= s <= 1 /\ distance (along q0 q1 s) p < e.
Proof.
  destruct p as [x y], q0 as [x0 y0], q1 as [x1 y1]. unfold closepoint. destruct (Rlt_dec _ _) as [L|]; [|discriminate].
  intros [= <-]. split; [apply clamp_range|]. unfold distance, along. simpl. unfold hypot in L.
  match goal with |- sqrt ?a < _ => match type of L with sqrt ?b < _ => replace a with b by ring end end. exact L.
Qed.
Lemma clamp_best v m q : 0 <= v -> 0 <= q <= 1 -> v * (clamp m - q) * (clamp m + q - 2 * m) <= 0.
Proof.
  intros Hv Hq. unfold clamp, Rmin, Rmax. destruct (Rle_dec 0 m) as [M|M]; destruct (Rle_dec _ _) as [N|N].
  - assert (0 <= v * (1 - q)) by (apply Rmult_le_pos; lra). assert (0 <= v * (1 - q) * (2 * m - 1 - q)) by (apply Rmult_le_pos; lra). lra.
  - replace (v * (m - q) * (m + q - 2 * m)) with (- (v * ((m - q) * (m - q)))) by ring.
    assert (0 <= v * ((m - q) * (m - q))) by (apply Rmult_le_pos; [lra|apply Rle_0_sqr]). lra.
  - lra.
  - assert (0 <= v * q) by (apply Rmult_le_pos; lra). assert (0 <= v * q * (q - 2 * m)) by (apply Rmult_le_pos; lra). lra.
Qed.
Lemma closepoint_complete e p q0 q1 q : 0 < e -> q0 <> q1 -> 0 <= q <= 1 -> distance (along q0 q1 q) p < e ->
  exists s, closepoint e p q0 q1 = Some s.
Proof.
  intros He N Hq D. destruct p as [x y], q0 as [x0 y0], q1 as [x1 y1]. unfold closepoint.
  destruct (Rlt_dec _ _) as [|C]; [eauto|]. exfalso. apply C; clear C. apply hypot_lt; [assumption|].
  assert (D' : hypot (x0 + q * (x1 - x0) - x) (y0 + q * (y1 - y0) - y) < e).
  { unfold distance, along in D. simpl in D. unfold hypot.
    match goal with |- sqrt ?a < _ => match type of D with sqrt ?b < _ => replace a with b by ring end end. exact D. }
  apply hypot_lt_inv in D'.
  assert (V : 0 < (x1 - x0) * (x1 - x0) + (y1 - y0) * (y1 - y0)).
  { pose proof (Rle_0_sqr (x1 - x0)) as X1. pose proof (Rle_0_sqr (y1 - y0)) as Y1. unfold Rsqr in X1, Y1.
    destruct (Req_dec x0 x1) as [Ex|Ex].
    - destruct (Req_dec y0 y1) as [Ey|Ey]; [destruct N; congruence|].
      pose proof (Rlt_0_sqr (y1 - y0) ltac:(lra)) as Y2. unfold Rsqr in Y2. lra.
    - pose proof (Rlt_0_sqr (x1 - x0) ltac:(lra)) as X2. unfold Rsqr in X2. lra. }
  set (v := (x1 - x0) * (x1 - x0) + (y1 - y0) * (y1 - y0)) in *.
  set (m := ((x0 - x) * (x0 - x1) + (y0 - y) * (y0 - y1)) / v).
  assert (M : m * v = (x - x0) * (x1 - x0) + (y - y0) * (y1 - y0)) by (unfold m; field; lra).
  pose proof (clamp_best v m q ltac:(lra) Hq) as B. set (s := clamp m) in *. clearbody s m.
  replace ((x0 + s * (x1 - x0) - x) * (x0 + s * (x1 - x0) - x) + (y0 + s * (y1 - y0) - y) * (y0 + s * (y1 - y0) - y))
    with ((x0 + q * (x1 - x0) - x) * (x0 + q * (x1 - x0) - x) + (y0 + q * (y1 - y0) - y) * (y0 + q * (y1 - y0) - y)
          + v * (s - q) * (s + q - 2 * m)); [lra|].
  replace (v * (s - q) * (s + q - 2 * m)) with ((s - q) * ((s + q) * v - 2 * (m * v))) by ring.
  rewrite M. unfold v. ring.
Qed.

Lemma long_neq p q e : 0 < e -> ~ hypot (fst q - fst p) (snd q - snd p) < e -> p <> q.
Proof. intros He H ->. apply H. unfold hypot. rewrite !Rminus_diag_eq by reflexivity. rewrite Rmult_0_l, Rplus_0_l, sqrt_0. exact He. Qed.
Lemma distance_sym p q : distance p q = distance q p.
Proof. unfold distance. f_equal. ring. Qed.
Lemma distance_self p : distance p p = 0.
Proof. unfold distance. replace (_ + _) with 0 by ring. apply sqrt_0. Qed.
Lemma along_0 p q : along p q 0 = p.
Proof. destruct p. unfold along. simpl. f_equal; ring. Qed.
Lemma along_1 p q : along p q 1 = q.
Proof. destruct p, q. unfold along. simpl. f_equal; ring. Qed.
Lemma along_mid p q : along p q (1 / 2) = (1 / 2 * (fst p + fst q), 1 / 2 * (snd p + snd q)).
Proof. unfold along. f_equal; field. Qed.
Lemma along_flip p q t : along q p t = along p q (1 - t).
Proof. unfold along. f_equal; ring. Qed.

Lemma intersect_sound e a0 a1 b0 b1 s t : 0 < e ->
  e <= distance a0 a1 \/ e * e <= Rabs ((fst b1 - fst b0) * (snd a1 - snd a0) - (snd b1 - snd b0) * (fst a1 - fst a0)) ->
  In (s, t) (line_intersect e a0 a1 b0 b1) ->
  0 <= s <= 1 /\ 0 <= t <= 1 /\ distance (along a0 a1 s) (along b0 b1 t) <= e.
Proof.
  intros He Hs. unfold line_intersect. destruct (Rlt_dec (Rabs _) (e * e)) as [P|P].
  - destruct (Rlt_dec (hypot (fst a1 - fst a0) (snd a1 - snd a0)) e) as [S1|S1].
    + exfalso. destruct Hs as [Hs|Hs]; [|lra]. rewrite distance_dist in Hs. unfold dist in Hs. lra.
    + destruct (Rlt_dec (hypot (fst b1 - fst b0) (snd b1 - snd b0)) e) as [S2|S2].
      * rewrite <- along_mid. destruct (closepoint e _ a0 a1) as [p|] eqn:E; [|intros []].
        intros [[= <- <-]|[]]. apply closepoint_sound in E. destruct E. repeat split; try lra.
      * destruct (closepoint e a0 b0 b1) as [p|] eqn:E1.
        { intros [[= <- <-]|[]]. apply closepoint_sound in E1. destruct E1. rewrite along_0, distance_sym. repeat split; lra. }
        destruct (closepoint e a1 b0 b1) as [p|] eqn:E2.
        { intros [[= <- <-]|[]]. apply closepoint_sound in E2. destruct E2. rewrite along_1, distance_sym. repeat split; lra. }
        destruct (closepoint e b0 a0 a1) as [p|] eqn:E3.
        { intros [[= <- <-]|[]]. apply closepoint_sound in E3. destruct E3. rewrite along_0. repeat split; lra. }
        destruct (closepoint e b1 a0 a1) as [p|] eqn:E4; [|intros []].
        intros [[= <- <-]|[]]. apply closepoint_sound in E4. destruct E4. rewrite along_1. repeat split; lra.
  - set (inv := (fst b1 - fst b0) * (snd a1 - snd a0) - (snd b1 - snd b0) * (fst a1 - fst a0)) in *.
    assert (inv <> 0) by (intros Z; rewrite Z, Rabs_R0 in P; apply P; apply Rmult_lt_0_compat; lra).
    set (at_ := ((fst b1 - fst b0) * (snd b0 - snd a0) - (snd b1 - snd b0) * (fst b0 - fst a0)) * (1 / inv)).
    set (bt := ((fst a1 - fst a0) * (snd b0 - snd a0) - (snd a1 - snd a0) * (fst b0 - fst a0)) * (1 / inv)).
    destruct (leb 0 at_ && leb at_ 1 && leb 0 bt && leb bt 1)%bool eqn:B.
    + intros [[= <- <-]|[]]. rewrite !andb_true_iff, !leb_true in B. repeat split; try lra.
      replace (along b0 b1 bt) with (along a0 a1 at_); [rewrite distance_self; lra|].
      unfold along, at_, bt. apply pair_eq; field_simplify_eq; auto; unfold inv; ring.
    + destruct (Rlt_dec e _) as [L|L]; [intros []|]. intros [[= <- <-]|[]].
      split; [apply clamp_range|]. split; [apply clamp_range|].
      apply Rnot_lt_le in L. unfold distance, along. simpl. unfold hypot in L.
      match goal with |- sqrt ?a <= _ => match type of L with sqrt ?b <= _ => replace a with b by ring end end. exact L.
Qed.

(* an end point of one of two crossing, almost parallel long lines is close to the other *)
Lemma crossing_close e a0 a1 b0 b1 s t : 0 < e ->
  ~ hypot (fst a1 - fst a0) (snd a1 - snd a0) < e -> ~ hypot (fst b1 - fst b0) (snd b1 - snd b0) < e ->
  Rabs ((fst b1 - fst b0) * (snd a1 - snd a0) - (snd b1 - snd b0) * (fst a1 - fst a0)) < e * e ->
  0 <= s <= 1 -> 0 <= t <= 1 -> along a0 a1 s = along b0 b1 t ->
  0 <= (fst a1 - fst a0) * (fst b1 - fst b0) + (snd a1 - snd a0) * (snd b1 - snd b0) ->
  (exists q, 0 <= q <= 1 /\ distance (along b0 b1 q) a1 < e) \/ (exists q, 0 <= q <= 1 /\ distance (along a0 a1 q) b1 < e).
Proof.
  intros He La Lb X Hs Ht E O.
  apply hypot_ge_inv in La; auto. apply hypot_ge_inv in Lb; auto.
  destruct a0 as [ax ay], a1 as [a'x a'y], b0 as [bx by_], b1 as [b'x b'y]. unfold along in *. simpl in *.
  injection E as Ex Ey.
  set (ux := a'x - ax) in *. set (uy := a'y - ay) in *. set (vx := b'x - bx) in *. set (vy := b'y - by_) in *.
  set (U := ux * ux + uy * uy) in *. set (V := vx * vx + vy * vy) in *. set (D := ux * vx + uy * vy) in *.
  set (C := vx * uy - vy * ux) in *.
  assert (L : D * D + C * C = U * V) by (unfold D, C, U, V; ring).
  assert (C2 : C * C < e * e * (e * e)).
  { replace (C * C) with (Rabs C * Rabs C) by (rewrite <- Rabs_mult; apply Rabs_pos_eq; nra).
    pose proof (Rabs_pos C). apply Rmult_le_0_lt_compat; lra. }
  assert (E2 : 0 < e * e) by (apply Rmult_lt_0_compat; lra).
  assert (G : forall k W, 0 <= k <= 1 -> e * e <= W -> k * k * (C * C / W) < e * e).
  { intros k W Hk HW. assert (C * C / W < e * e).
    { apply (Rmult_lt_reg_r W); [lra|]. unfold Rdiv. rewrite Rmult_assoc, Rinv_l by lra. nra. }
    assert (0 <= C * C / W) by (apply Rle_mult_inv_pos; [apply Rle_0_sqr|lra]).
    assert (k * k <= 1 * 1) by (apply Rmult_le_compat; lra).
    apply Rle_lt_trans with (1 * (C * C / W)); [apply Rmult_le_compat_r; lra|lra]. }
  destruct (Rle_dec ((1 - s) * D) ((1 - t) * V)) as [K|K].
  - left. exists (t + (1 - s) * D / V).
    assert (Q : (1 - s) * D / V * V = (1 - s) * D) by (field; lra).
    assert (0 <= (1 - s) * D / V) by (apply Rle_mult_inv_pos; [apply Rmult_le_pos; lra|lra]).
    split; [split; [lra|]; apply (Rmult_le_reg_r V); [lra|]; rewrite Rmult_plus_distr_r, Q; lra|].
    unfold distance. simpl fst. simpl snd.
    replace (sqrt _) with (hypot ((1 - s) * (D / V * vx - ux)) ((1 - s) * (D / V * vy - uy))).
    + apply hypot_lt; auto. specialize (G (1 - s) V ltac:(lra) Lb). eapply Rle_lt_trans; [|exact G]. apply Req_le.
      replace (C * C) with (U * V - D * D) by lra. transitivity ((1 - s) * (1 - s) * (U - 2 * (D / V) * D + D / V * (D / V) * V)).
      * unfold U, D, V. ring.
      * field. lra.
    + unfold hypot. f_equal.
      replace (bx + (t + (1 - s) * D / V) * vx - a'x) with ((1 - s) * (D / V * vx - ux)).
      2:{ replace a'x with (ax + ux) by (unfold ux; ring). unfold Rdiv. lra. }
      replace (by_ + (t + (1 - s) * D / V) * vy - a'y) with ((1 - s) * (D / V * vy - uy)).
      2:{ replace a'y with (ay + uy) by (unfold uy; ring). unfold Rdiv. lra. }
      ring.
  - right. exists (s + (1 - t) * D / U).
    assert (Q : (1 - t) * D / U * U = (1 - t) * D) by (field; lra).
    assert (0 <= (1 - t) * D / U) by (apply Rle_mult_inv_pos; [apply Rmult_le_pos; lra|lra]).
    assert (K' : (1 - t) * D <= (1 - s) * U).
    { assert (Dp : 0 < D). { assert (0 <= (1 - t) * V) by (apply Rmult_le_pos; lra). destruct (Rle_lt_or_eq_dec 0 D O) as [|Z]; auto.
        rewrite <- Z, Rmult_0_r in K. lra. }
      apply (Rmult_le_reg_r D); auto. apply (Rle_trans _ ((1 - t) * (U * V))).
      - rewrite Rmult_assoc. apply Rmult_le_compat_l; [lra|]. assert (0 <= C * C) by apply Rle_0_sqr. lra.
      - replace ((1 - t) * (U * V)) with ((1 - t) * V * U) by ring. replace ((1 - s) * U * D) with ((1 - s) * D * U) by ring.
        apply Rmult_le_compat_r; lra. }
    split; [split; [lra|]; apply (Rmult_le_reg_r U); [lra|]; rewrite Rmult_plus_distr_r, Q; lra|].
    unfold distance. simpl fst. simpl snd.
    replace (sqrt _) with (hypot ((1 - t) * (D / U * ux - vx)) ((1 - t) * (D / U * uy - vy))).
    + apply hypot_lt; auto. specialize (G (1 - t) U ltac:(lra) La). eapply Rle_lt_trans; [|exact G]. apply Req_le.
      replace (C * C) with (U * V - D * D) by lra. transitivity ((1 - t) * (1 - t) * (V - 2 * (D / U) * D + D / U * (D / U) * U)).
      * unfold U, D, V. ring.
      * field. lra.
    + unfold hypot. f_equal.
      replace (ax + (s + (1 - t) * D / U) * ux - b'x) with ((1 - t) * (D / U * ux - vx)).
      2:{ replace b'x with (bx + vx) by (unfold vx; ring). unfold Rdiv. lra. }
      replace (ay + (s + (1 - t) * D / U) * uy - b'y) with ((1 - t) * (D / U * uy - vy)).
      2:{ replace b'y with (by_ + vy) by (unfold vy; ring). unfold Rdiv. lra. }
      ring.
Qed.

Lemma short_mid e b0 b1 t : hypot (fst b1 - fst b0) (snd b1 - snd b0) < e -> 0 <= t <= 1 ->
  distance (along b0 b1 t) (along b0 b1 (1 / 2)) < e.
Proof.
  intros S Ht. rewrite distance_nrm.
  replace (vsub (along b0 b1 (1 / 2)) (along b0 b1 t)) with (vscale (1 / 2 - t) (vsub b1 b0)).
  2:{ unfold vscale, vsub, along. simpl. f_equal; ring. }
  rewrite nrm_scale. unfold nrm, vsub. simpl. pose proof (hypot_pos (fst b1 - fst b0) (snd b1 - snd b0)) as H.
  assert (Rabs (1 / 2 - t) <= 1) by (apply Rabs_le; lra). pose proof (Rabs_pos (1 / 2 - t)). nra.
Qed.

Lemma intersect_complete e a0 a1 b0 b1 s t : 0 < e -> e <= distance a0 a1 ->
  0 <= s <= 1 -> 0 <= t <= 1 -> along a0 a1 s = along b0 b1 t ->
  exists r, line_intersect e a0 a1 b0 b1 = [r].
Proof.
  intros He La Hs Ht E. unfold line_intersect.
  assert (S1' : ~ hypot (fst a1 - fst a0) (snd a1 - snd a0) < e) by (rewrite distance_dist in La; unfold dist in La; lra).
  destruct (Rlt_dec (Rabs _) (e * e)) as [P|P].
  - destruct (Rlt_dec (hypot (fst a1 - fst a0) (snd a1 - snd a0)) e) as [S1|S1]; [contradiction|].
    destruct (Rlt_dec (hypot (fst b1 - fst b0) (snd b1 - snd b0)) e) as [S2|S2].
    + rewrite <- along_mid. destruct (closepoint_complete e (along b0 b1 (1 / 2)) a0 a1 s He (long_neq _ _ _ He S1) Hs) as [p ->].
      * rewrite E. now apply short_mid.
      * eauto.
    + assert (K : (exists q, 0 <= q <= 1 /\ distance (along b0 b1 q) a1 < e) \/
                  (exists q, 0 <= q <= 1 /\ distance (along a0 a1 q) b1 < e) \/
                  (exists q, 0 <= q <= 1 /\ distance (along a0 a1 q) b0 < e)).
      { destruct (Rle_dec 0 ((fst a1 - fst a0) * (fst b1 - fst b0) + (snd a1 - snd a0) * (snd b1 - snd b0))) as [O|O].
        - destruct (crossing_close e a0 a1 b0 b1 s t He S1 S2 P Hs Ht E O) as [H|H]; auto.
        - assert (S2' : ~ hypot (fst b0 - fst b1) (snd b0 - snd b1) < e).
          { unfold hypot in *. replace ((fst b0 - fst b1) * (fst b0 - fst b1) + (snd b0 - snd b1) * (snd b0 - snd b1))
              with ((fst b1 - fst b0) * (fst b1 - fst b0) + (snd b1 - snd b0) * (snd b1 - snd b0)) by ring. exact S2. }
          destruct (crossing_close e a0 a1 b1 b0 s (1 - t) He S1 S2') as [[q [Q1 Q2]]|[q [Q1 Q2]]]; auto; try lra.
          + rewrite <- Rabs_Ropp. match goal with |- Rabs ?x < _ => match type of P with Rabs ?y < _ => replace x with y by ring end end. exact P.
          + rewrite (along_flip b0 b1). replace (1 - (1 - t)) with t by ring. exact E.
          + left. exists (1 - q). split; [lra|]. rewrite <- along_flip. exact Q2.
          + right. right. exists q. auto. }
      pose proof (long_neq _ _ _ He S1) as N1. pose proof (long_neq _ _ _ He S2) as N2.
      destruct (closepoint e a0 b0 b1) as [p|] eqn:E1; [eauto|].
      destruct (closepoint e a1 b0 b1) as [p|] eqn:E2; [eauto|].
      destruct (closepoint e b0 a0 a1) as [p|] eqn:E3; [eauto|].
      destruct (closepoint e b1 a0 a1) as [p|] eqn:E4; [eauto|]. exfalso.
      destruct K as [[q [Q1 Q2]]|[[q [Q1 Q2]]|[q [Q1 Q2]]]].
      * destruct (closepoint_complete e a1 b0 b1 q He N2 Q1 Q2). congruence.
      * destruct (closepoint_complete e b1 a0 a1 q He N1 Q1 Q2). congruence.
      * destruct (closepoint_complete e b0 a0 a1 q He N1 Q1 Q2). congruence.
  - destruct (_ && _)%bool eqn:B; [eauto|]. exfalso.
    set (inv := (fst b1 - fst b0) * (snd a1 - snd a0) - (snd b1 - snd b0) * (fst a1 - fst a0)) in *.
    assert (N0 : inv <> 0) by (intros Z; rewrite Z, Rabs_R0 in P; apply P; apply Rmult_lt_0_compat; lra).
    unfold along in E. injection E as Ex Ey.
    assert (Dx : fst b0 - fst a0 = s * (fst a1 - fst a0) - t * (fst b1 - fst b0)) by lra.
    assert (Dy : snd b0 - snd a0 = s * (snd a1 - snd a0) - t * (snd b1 - snd b0)) by lra.
    assert (As : ((fst b1 - fst b0) * (snd b0 - snd a0) - (snd b1 - snd b0) * (fst b0 - fst a0)) * (1 / inv) = s).
    { rewrite Dx, Dy. unfold inv. field. exact N0. }
    assert (Bt : ((fst a1 - fst a0) * (snd b0 - snd a0) - (snd a1 - snd a0) * (fst b0 - fst a0)) * (1 / inv) = t).
    { rewrite Dx, Dy. unfold inv. field. exact N0. }
    rewrite As, Bt in B. apply not_true_iff_false in B. apply B. rewrite !andb_true_iff, !leb_true. lra.
Qed.
Lemma intersect_exact e a0 a1 b0 b1 s t : 0 < e ->
  e * e <= Rabs ((fst b1 - fst b0) * (snd a1 - snd a0) - (snd b1 - snd b0) * (fst a1 - fst a0)) ->
  0 <= s <= 1 -> 0 <= t <= 1 -> along a0 a1 s = along b0 b1 t -> line_intersect e a0 a1 b0 b1 = [(s, t)].
Proof.
  intros He P Hs Ht E. unfold line_intersect. destruct (Rlt_dec (Rabs _) (e * e)) as [P'|_]; [lra|].
  set (inv := (fst b1 - fst b0) * (snd a1 - snd a0) - (snd b1 - snd b0) * (fst a1 - fst a0)) in *.
  assert (N0 : inv <> 0). { intros Z. rewrite Z, Rabs_R0 in P. assert (0 < e * e) by (apply Rmult_lt_0_compat; lra). lra. }
  unfold along in E. injection E as Ex Ey.
  assert (Dx : fst b0 - fst a0 = s * (fst a1 - fst a0) - t * (fst b1 - fst b0)) by lra.
  assert (Dy : snd b0 - snd a0 = s * (snd a1 - snd a0) - t * (snd b1 - snd b0)) by lra.
  assert (As : ((fst b1 - fst b0) * (snd b0 - snd a0) - (snd b1 - snd b0) * (fst b0 - fst a0)) * (1 / inv) = s).
  { rewrite Dx, Dy. unfold inv. field. exact N0. }
  assert (Bt : ((fst a1 - fst a0) * (snd b0 - snd a0) - (snd a1 - snd a0) * (fst b0 - fst a0)) * (1 / inv) = t).
  { rewrite Dx, Dy. unfold inv. field. exact N0. }
  rewrite As, Bt. replace (leb 0 s && leb s 1 && leb 0 t && leb t 1)%bool with true; auto.
  symmetry. rewrite !andb_true_iff, !leb_true. lra.
Qed.
