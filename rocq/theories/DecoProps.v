(** Arrows: the tip is where it should be, the wings are the path turned about the tip, and the outline is closed.  C132. *)
From Coq Require Import Reals ZArith List Bool.
From Verif Require Import TrafoModel CurveModel BoxModel DecoModel DecoSpec.
From Coq Require Import Lra.
Import ListNotations.
Open Scope R_scope.

Lemma half_neg : forall a, radians (- a / 2) = - radians (a / 2).
Proof. intros a. unfold radians. field. Qed.
Lemma half_twice : forall a, radians a = radians (a / 2) + radians (a / 2).
Proof. intros a. unfold radians. field. Qed.
Lemma rotate_turned : forall a c q, turned (radians a) c q (rotate_about a c q).
Proof. intros a c q. unfold turned, rotate_about, px, py. simpl. split; ring. Qed.
Lemma turned_unique : forall a c q p p', turned a c q p -> turned a c q p' -> p = p'.
Proof.
  intros a c q [x y] [x' y'] [A B] [C D]. unfold px, py in *. simpl in *. apply f_equal2; lra.
Qed.
Lemma distance_turned : forall a c q p, turned a c q p -> distance c p = distance c q.
Proof.
  intros a c q p [A B]. unfold distance. f_equal. rewrite A, B. pose proof (sin2_cos2 a) as T. unfold Rsqr in T.
  set (x := px q - px c) in *. set (y := py q - py c) in *.
  replace ((cos a * x - sin a * y) * (cos a * x - sin a * y) + (sin a * x + cos a * y) * (sin a * x + cos a * y))
    with ((sin a * sin a + cos a * cos a) * (x * x + y * y)) by ring. rewrite T. ring.
Qed.
Lemma rotate_self : forall a c, rotate_about a c c = c.
Proof. intros a [x y]. unfold rotate_about, px, py. simpl. apply f_equal2; ring. Qed.
Lemma straight_start : forall a b, starts (straight a b) = a.
Proof. intros [x y] b. unfold starts, straight. simpl. unfold Rdiv. unfold px, py. simpl. apply f_equal2; ring. Qed.
Lemma straight_end : forall a b, ends (straight a b) = b.
Proof.
  intros a b. unfold ends, straight. simpl. set (d := sqrt _).
  destruct (Req_dec d 0) as [E|N].
  - unfold d in E. apply sqrt_eq_0 in E; [|apply Rplus_le_le_0_compat; apply Rle_0_sqr].
    pose proof (Rle_0_sqr (px b - px a)) as V. pose proof (Rle_0_sqr (py b - py a)) as W. unfold Rsqr in V, W.
    assert ((px b - px a) * (px b - px a) = 0) as V2 by lra. assert ((py b - py a) * (py b - py a) = 0) as W2 by lra.
    apply Rsqr_0_uniq in V2. apply Rsqr_0_uniq in W2. assert (px b = px a) as P by lra. assert (py b = py a) as Q by lra.
    clear E V W V2 W2. clearbody d. destruct b as [bx by_]. unfold px, py in *. simpl in *. apply f_equal2; rewrite ?P, ?Q; ring.
  - replace (d / d) with 1 by (field; exact N). rewrite (surjective_pairing b). unfold px, py. simpl. apply f_equal2; ring.
Qed.

(** the arrow takes the length [clen] of the path, and the rest of the path is divided between the parts before and after as [pos] says;
    the tip is at the end of this part where the arrow points to *)
Theorem arrow_position : forall at_ len pos reversed size angle constriction (clen := constrictionlen size angle constriction),
  0 <= pos <= 1 -> 0 <= clen <= len ->
  exists b e, 0 <= b /\ e - b = clen /\ e <= len /\ b = pos * (len - clen) /\
    joined (arrow_outline at_ len pos reversed size angle constriction) /\
    (forall l r rest, arrow_outline at_ len pos reversed size angle constriction = l :: r :: rest ->
      ends l = at_ (if reversed then b else e) /\ starts r = at_ (if reversed then b else e) /\
      (constriction <> None -> exists s, rest = [s] /\ ends s = at_ (if reversed then e else b)) /\
      (constriction = None -> rest = [])).
Proof.
  intros at_ len pos reversed size angle constriction clen P C.
  assert (0 <= pos * (len - clen) <= len - clen) as B by nra.
  exists (pos * (len - clen)), (pos * (len - clen) + clen).
  split; [lra|]. split; [lra|]. split; [lra|]. split; [reflexivity|].
  assert (arclenfrombegin len pos reversed clen = if reversed then pos * (len - clen) else pos * (len - clen) + clen) as T
    by (unfold arclenfrombegin; destruct reversed; ring).
  assert (arclenfrombegin len pos reversed clen - direction reversed * clen = if reversed then pos * (len - clen) + clen else pos * (len - clen)) as U
    by (unfold arclenfrombegin, direction; destruct reversed; ring).
  unfold arrow_outline. fold clen. unfold arrowhead. rewrite U. set (t := arclenfrombegin len pos reversed clen) in *. clearbody t.
  assert (forall a, rotate_about a (at_ t) (at_ (t - direction reversed * 0)) = at_ t) as Z.
  { intros a. rewrite Rmult_0_r, Rminus_0_r. apply rotate_self. }
  assert (forall a, ends (reverse_piece (map_piece (rotate_about a (at_ t)) {| plength := size; ppoint := fun s => at_ (t - direction reversed * s) |})) = at_ t) as L.
  { intros a. unfold ends, reverse_piece, map_piece. cbn [plength ppoint]. replace (size - size) with 0 by ring. apply Z. }
  assert (forall a, starts (map_piece (rotate_about a (at_ t)) {| plength := size; ppoint := fun s => at_ (t - direction reversed * s) |}) = at_ t) as Q.
  { intros a. unfold starts, map_piece. cbn [plength ppoint]. apply Z. }
  split.
  - destruct constriction; cbn [joined]; rewrite L, Q; split; try reflexivity; try exact I.
    split; [|exact I]. symmetry. apply straight_start.
  - intros l r rest E. destruct constriction as [c|]; injection E as <- <- <-; rewrite L, Q, T.
    + split; [reflexivity|]. split; [reflexivity|]. split; [|discriminate].
      intros _. eexists. split; [reflexivity|]. apply straight_end.
    + split; [reflexivity|]. split; [reflexivity|]. split; [congruence|reflexivity].
Qed.
Print Assumptions arrow_position.

(** the sides of the arrow: the parts of the path behind the tip turned by half the angle to both sides, so that a point of one side is
    the point of the other side turned by the whole angle, and all points keep their distance from the tip *)
Theorem arrow_sides : forall at_ len pos reversed size angle constriction l r rest,
  arrow_outline at_ len pos reversed size angle constriction = l :: r :: rest ->
  plength l = size /\ plength r = size /\
  forall s, turned (radians angle) (starts r) (ppoint l (size - s)) (ppoint r s) /\
    exists q, (exists t, starts r = at_ t /\ q = at_ (if reversed then t + s else t - s)) /\
      turned (radians (angle / 2)) (starts r) q (ppoint r s) /\ turned (radians (angle / 2)) (starts r) (ppoint l (size - s)) q /\
      distance (starts r) (ppoint r s) = distance (starts r) q /\ distance (starts r) (ppoint l (size - s)) = distance (starts r) q.
Proof.
  intros at_ len pos reversed size angle constriction l r rest. unfold arrow_outline.
  set (clen := constrictionlen _ _ _). set (t := arclenfrombegin _ _ _ _). clearbody t. unfold arrowhead.
  intros E.
  assert (l = reverse_piece (map_piece (rotate_about (- angle / 2) (at_ t)) {| plength := size; ppoint := fun s => at_ (t - direction reversed * s) |}) /\
          r = map_piece (rotate_about (angle / 2) (at_ t)) {| plength := size; ppoint := fun s => at_ (t - direction reversed * s) |}) as [-> ->]
    by (destruct constriction; injection E as <- <- <-; split; reflexivity).
  clear E. unfold starts, reverse_piece, map_piece. cbn [plength ppoint].
  rewrite Rmult_0_r, Rminus_0_r, rotate_self.
  split; [reflexivity|]. split; [reflexivity|]. intros s.
  replace (size - (size - s)) with s by ring. set (q := at_ (t - direction reversed * s)).
  pose proof (rotate_turned (angle / 2) (at_ t) q) as R.
  pose proof (rotate_turned (- angle / 2) (at_ t) q) as L. rewrite half_neg in L.
  assert (turned (radians (angle / 2)) (at_ t) (rotate_about (- angle / 2) (at_ t) q) q) as L2.
  { destruct L as [L1 L2]. unfold turned. rewrite L1, L2, cos_neg, sin_neg. pose proof (sin2_cos2 (radians (angle / 2))) as W. unfold Rsqr in W.
    set (c := cos (radians (angle / 2))) in *. set (n := sin (radians (angle / 2))) in *. set (x := px q - px (at_ t)). set (y := py q - py (at_ t)). split.
    - replace (c * (c * x - - n * y) - n * (- n * x + c * y)) with ((n * n + c * c) * x) by ring. rewrite W. ring.
    - replace (n * (c * x - - n * y) + c * (- n * x + c * y)) with ((n * n + c * c) * y) by ring. rewrite W. ring. }
  split.
  - destruct R as [R1 R2]. destruct L2 as [L3 L4]. unfold turned. rewrite R1, R2, L3, L4, (half_twice angle), cos_plus, sin_plus. split; ring.
  - exists q. split; [exists t; split; [reflexivity|]; unfold q, direction; destruct reversed; f_equal; ring|].
    split; [exact R|]. split; [exact L2|].
    split; [exact (distance_turned _ _ _ _ R)|]. symmetry. exact (distance_turned _ _ _ _ L2).
Qed.
Print Assumptions arrow_sides.

(** on a straight path: the ends of the sides have the distance [size] from the tip, their middle is on the path, and the constriction point
    divides the way from the tip to this middle as [constriction] says; with constriction 1 the back of the arrow is straight *)
Theorem arrow_straight : forall a u len pos reversed size angle c l r s, px u * px u + py u * py u = 1 -> 0 <= size ->
  arrow_outline (along a u) len pos reversed size angle (Some c) = [l; r; s] ->
  let tip := starts r in let m := middle (starts l) (ends r) in
  distance tip (ends r) = size /\ distance tip (starts l) = size /\
  px m - px tip = (if reversed then 1 else - (1)) * (size * cos (radians (angle / 2))) * px u /\
  py m - py tip = (if reversed then 1 else - (1)) * (size * cos (radians (angle / 2))) * py u /\
  px (ends s) - px tip = c * (px m - px tip) /\ py (ends s) - py tip = c * (py m - py tip) /\
  (c = 1 -> ends s = m).
Proof.
  intros a u len pos reversed size angle c l r s U S E.
  destruct (arrow_sides _ _ _ _ _ _ _ _ _ _ E) as [PL [PR H]]. destruct (H size) as [_ [q [[t [T Q]] [R [L [D1 D2]]]]]].
  replace (size - size) with 0 in L, D2 by ring.
  assert (exists t', starts r = along a u t' /\ ends s = along a u (t' - direction reversed * constrictionlen size angle (Some c))) as [t' [T' C]].
  { unfold arrow_outline in E. set (t0 := arclenfrombegin _ _ _ _) in E. clearbody t0. unfold arrowhead in E. injection E as <- <- <-.
    exists t0. split; [|apply straight_end]. unfold starts, map_piece. cbn [plength ppoint]. rewrite Rmult_0_r, Rminus_0_r. apply rotate_self. }
  clear E H. unfold ends in *. rewrite PR in *. change (ppoint l 0) with (starts l) in L, D2.
  set (A := starts l) in *. set (B := ppoint r size) in *. set (O := starts r) in *. set (G := ppoint s (plength s)) in *.
  clearbody A B O G. clear PL PR l r s. cbv zeta. set (m := middle A B). set (tip := O).
  assert (px q - px O = (if reversed then 1 else - (1)) * size * px u /\ py q - py O = (if reversed then 1 else - (1)) * size * py u) as [Q1 Q2].
  { rewrite Q, T. unfold along, px, py. simpl. destruct reversed; split; ring. }
  assert (distance O q = size) as DQ.
  { unfold distance. rewrite Q1, Q2. rewrite <- (sqrt_square size S) at 5. f_equal.
    replace (size * size) with (size * size * (px u * px u + py u * py u)) by (rewrite U; ring). destruct reversed; ring. }
  split; [unfold tip; rewrite D1; exact DQ|]. split; [unfold tip; rewrite D2; exact DQ|].
  destruct R as [R1 R2]. destruct L as [L1 L2].
  set (k := cos (radians (angle / 2))) in *. set (n := sin (radians (angle / 2))) in *.
  pose proof (sin2_cos2 (radians (angle / 2))) as W. unfold Rsqr in W. fold k n in W.
  assert (px A - px O = k * (px q - px O) + n * (py q - py O) /\ py A - py O = - n * (px q - px O) + k * (py q - py O)) as [A1 A2].
  { rewrite L1, L2. set (x := px A - px O). set (y := py A - py O). split.
    - replace (k * (k * x - n * y) + n * (n * x + k * y)) with ((n * n + k * k) * x) by ring. rewrite W. ring.
    - replace (- n * (k * x - n * y) + k * (n * x + k * y)) with ((n * n + k * k) * y) by ring. rewrite W. ring. }
  assert (px m - px tip = k * (px q - px O) /\ py m - py tip = k * (py q - py O)) as [M1 M2].
  { unfold m, tip, middle, px, py in *. simpl. split; lra. }
  assert (px G - px O = c * (px m - px tip) /\ py G - py O = c * (py m - py tip)) as [G1 G2].
  { rewrite M1, M2, Q1, Q2, C, T'. unfold along, constrictionlen, direction. fold k. unfold px, py. simpl. destruct reversed; split; ring. }
  rewrite M1, M2 in *. rewrite Q1, Q2 in *.
  split; [ring|]. split; [ring|]. unfold tip at 1 2. split; [exact G1|]. split; [exact G2|].
  intros ->. unfold tip in *. rewrite (surjective_pairing G), (surjective_pairing m). unfold px, py in *. apply f_equal2; lra.
Qed.
Print Assumptions arrow_straight.

(** the stroke of the path keeps everything but the part between the tip at an end of the path and the constriction point, so it does not show in
    front of the arrow nor leaves a gap behind it; arrows elsewhere leave the stroke alone *)
Theorem arrow_stroke : forall at_ len pos reversed size angle c l r s x, 0 <= pos <= 1 -> 0 <= size -> c <= 1 -> 0 <= cos (radians (angle / 2)) ->
  constrictionlen size angle (Some c) <= len ->
  arrow_outline at_ len pos reversed size angle (Some c) = [l; r; s] -> arrow_excludes len pos reversed size (constrictionlen size angle (Some c)) = Some x ->
  (fst x = 0 /\ starts r = at_ (fst x) /\ ends s = at_ (snd x) /\ reversed = true) \/
  (snd x = len /\ starts r = at_ (snd x) /\ ends s = at_ (fst x) /\ reversed = false).
Proof.
  intros at_ len pos reversed size angle c l r s x P S C K F E X.
  assert (constrictionlen size angle (Some c) <= size) as B.
  { unfold constrictionlen. pose proof (COS_bound (radians (angle / 2))) as [_ W].
    assert (c * cos (radians (angle / 2)) <= 1) by (destruct (Rle_lt_dec 0 c); nra). nra. }
  unfold arrow_excludes, reqb in X. rewrite Rmin_right in X by exact B.
  unfold arrow_outline, arrowhead in E. injection E as <- <- <-. rewrite straight_end. unfold starts, map_piece. cbn [plength ppoint].
  rewrite Rmult_0_r, Rminus_0_r, rotate_self.
  destruct (Req_EM_T pos 0) as [P0|P0]; destruct reversed; simpl in X.
  - injection X as <-. left. simpl. subst pos. unfold arclenfrombegin, direction.
    split; [reflexivity|]. split; [f_equal; ring|]. split; [f_equal; ring|reflexivity].
  - destruct (Req_EM_T pos 1); [lra|discriminate].
  - destruct (Req_EM_T pos 1); discriminate.
  - destruct (Req_EM_T pos 1) as [->|]; [|discriminate]. injection X as <-. right. simpl. unfold arclenfrombegin, direction.
    split; [reflexivity|]. split; [f_equal; ring|]. split; [f_equal; ring|reflexivity].
Qed.
Print Assumptions arrow_stroke.

(** the usual arrow at the end of a line of length 100 in the direction (3/5, 4/5), with an angle of 120 degrees *)
Lemma cos_60 : cos (radians (120 / 2)) = 1 / 2.
Proof. unfold radians. replace (PI * (120 / 2) / 180) with (PI / 3) by field. apply cos_PI3. Qed.
Example arrow_ex : exists l r s, arrow_outline (along (0, 0) (3 / 5, 4 / 5)) 100 1 false 10 120 (Some 0.8) = [l; r; s] /\
  starts r = (60, 80) /\ ends s = (57.6, 76.8) /\ middle (starts l) (ends r) = (57, 76) /\ arrow_excludes 100 1 false 10 4 = Some (96, 100).
Proof.
  unfold arrow_outline, arrowhead. do 3 eexists. split; [reflexivity|].
  rewrite straight_end. unfold starts, ends, reverse_piece, map_piece, arclenfrombegin, direction, constrictionlen. cbn [plength ppoint].
  rewrite cos_60. split; [|split; [|split]].
  - unfold along, rotate_about, px, py. simpl. apply f_equal2; lra.
  - unfold along, px, py. simpl. apply f_equal2; lra.
  - unfold along, rotate_about, middle, px, py. simpl. rewrite half_neg, cos_neg, sin_neg, cos_60. apply f_equal2; lra.
  - unfold arrow_excludes, reqb. simpl. destruct (Req_EM_T 1 0); [lra|]. destruct (Req_EM_T 1 1); [|lra]. simpl.
    rewrite Rmin_right by lra. f_equal. apply f_equal2; lra.
Qed.
