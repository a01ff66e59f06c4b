(** C130: the direction of texts; C131: subaxes, bars and breaks *)
From Coq Require Import Reals List Bool Arith ZArith Lia Lra.
From Verif Require Import TrafoModel CurveModel CurveProofs4 BoxModel BoxAlign AxisPaintModel AxisPaintSpec AxisPaintProps AxisPaintProps2.
Import ListNotations.
Open Scope R_scope.

(** ** loops *)
Lemma turned_fun test s a b c : turned test s a b -> turned test s a c -> b = c.
Proof. induction 1; inversion 1; subst; auto; contradiction. Qed.
Lemma down_loop m s a : 0 < s -> exists b, turned (fun x => m < x) (- s) a b /\ b <= m /\ (b = a \/ m - s < b) /\ exists n : nat, b = a - INR n * s.
Proof.
  intros SP. destruct (Rlt_dec m a) as [L|L].
  2: { exists a. split; [now constructor|]. split; [lra|]. split; auto. exists 0%nat. cbn. ring. }
  assert (exists n : nat, a - m <= INR n * s) as (n & N).
  { destruct (archimed ((a - m) / s)) as [A _]. assert (0 < (a - m) / s) as P by (apply Rdiv_lt_0_compat; lra).
    exists (Z.to_nat (up ((a - m) / s))). rewrite INR_IZR_INZ, Z2Nat.id by (apply le_IZR; lra).
    apply Rmult_le_reg_r with (/ s); [now apply Rinv_0_lt_compat|]. rewrite Rmult_assoc, Rinv_r by lra. unfold Rdiv in A. lra. }
  revert a L N. induction n as [|n IH]; intros a L N; [cbn in N; lra|]. rewrite S_INR in N.
  destruct (Rlt_dec m (a - s)) as [L'|L'].
  - destruct (IH (a - s) L') as (b & T & B & C & k & K); [lra|]. exists b. split; [apply turned_step; auto|]. split; auto. split.
    { right. destruct C as [->|C]; lra. } exists (S k). rewrite S_INR. lra.
  - exists (a - s). split; [apply turned_step; auto; now constructor|]. split; [lra|]. split; [right; lra|]. exists 1%nat. cbn. ring.
Qed.
Lemma turned_opp (P Q : R -> Prop) s a b : (forall x, P x <-> Q (- x)) -> turned P (- s) a b -> turned Q s (- a) (- b).
Proof.
  intros E. induction 1.
  - constructor. now rewrite <- E.
  - apply turned_step; [now apply E|]. replace (- a + s) with (- (a + - s)) by ring. exact IHturned.
Qed.
Lemma up_loop m s a : 0 < s -> exists b, turned (fun x => x < m) s a b /\ m <= b /\ (b = a \/ b < m + s) /\ exists n : nat, b = a + INR n * s.
Proof.
  intros S. destruct (down_loop (- m) s (- a) S) as (b & T & B & C & n & N). exists (- b). split.
  { replace a with (- - a) by ring. apply turned_opp with (P := fun x => - m < x); auto. intros x. split; lra. }
  split; [lra|]. split; [destruct C; [left|right]; lra|]. exists n. lra.
Qed.
(** C130: the loops end, and the text is turned by half turns only so that it is not upside down *)
Theorem text_upright : forall direction eps dx dy, 0 <= eps -> exists r, textangle direction eps dx dy r /\
  (forall r', textangle direction eps dx dy r' -> r' = r) /\ - (90) - eps <= r <= 90 + eps /\
  exists k, r = direction + degrees (atan2 dy dx) + 180 * IZR k.
Proof.
  intros direction eps dx dy E. set (x := direction + atan2 dy dx * 180 / PI).
  destruct (down_loop (180 + eps) 360 x) as (a & T1 & A1 & A2 & n1 & N1); [lra|].
  destruct (up_loop (- (180) - eps) 360 a) as (b & T2 & B1 & B2 & n2 & N2); [lra|].
  destruct (down_loop (90 + eps) 180 b) as (c & T3 & C1 & C2 & n3 & N3); [lra|].
  destruct (up_loop (- (90) - eps) 180 c) as (r & T4 & D1 & D2 & n4 & N4); [lra|].
  exists r. split; [exists a, b, c; auto|]. split.
  { intros r' (a' & b' & c' & U1 & U2 & U3 & U4). rewrite (turned_fun _ _ _ _ _ U1 T1) in *. rewrite (turned_fun _ _ _ _ _ U2 T2) in *. rewrite (turned_fun _ _ _ _ _ U3 T3) in *. exact (turned_fun _ _ _ _ _ U4 T4). }
  split.
  { split; auto. destruct D2 as [->|D2]; lra. }
  exists (2 * Z.of_nat n2 - 2 * Z.of_nat n1 - Z.of_nat n3 + Z.of_nat n4)%Z.
  rewrite plus_IZR, !minus_IZR, !mult_IZR, <- !INR_IZR_INZ. unfold degrees. fold x. lra.
Qed.
Print Assumptions text_upright.
Lemma half_turns a k : (cos (a + PI * IZR k) = cos a /\ sin (a + PI * IZR k) = sin a) \/ (cos (a + PI * IZR k) = - cos a /\ sin (a + PI * IZR k) = - sin a).
Proof.
  assert (forall n : nat, (cos (a + PI * INR n) = cos a /\ sin (a + PI * INR n) = sin a) \/ (cos (a + PI * INR n) = - cos a /\ sin (a + PI * INR n) = - sin a)) as P.
  { induction n as [|n IH]; [left; cbn [INR]; rewrite Rmult_0_r, Rplus_0_r; auto|]. rewrite S_INR. replace (a + PI * (INR n + 1)) with (a + PI * INR n + PI) by ring.
    rewrite neg_cos, neg_sin. destruct IH as [[-> ->]|[-> ->]]; [right|left]; split; ring. }
  assert (forall n : nat, (cos (a - PI * INR n) = cos a /\ sin (a - PI * INR n) = sin a) \/ (cos (a - PI * INR n) = - cos a /\ sin (a - PI * INR n) = - sin a)) as N.
  { induction n as [|n IH]; [left; cbn [INR]; rewrite Rmult_0_r, Rminus_0_r; auto|]. rewrite S_INR. set (z := a - PI * (INR n + 1)). replace (a - PI * INR n) with (z + PI) in IH by (unfold z; ring).
    rewrite neg_cos, neg_sin in IH. destruct IH as [[E1 E2]|[E1 E2]]; [right|left]; split; lra. }
  destruct (Z_le_gt_dec 0 k).
  - specialize (P (Z.to_nat k)). now rewrite INR_IZR_INZ, Z2Nat.id in P by auto.
  - specialize (N (Z.to_nat (- k))). rewrite INR_IZR_INZ, Z2Nat.id, opp_IZR in N by lia. now replace (a - PI * - IZR k) with (a + PI * IZR k) in N by ring.
Qed.
Lemma upright_cos eps r : 0 <= eps -> - (90) - eps <= r <= 90 + eps -> eps <= 90 -> - radians eps <= cos (radians r).
Proof.
  intros E R B. pose proof PI_RGT_0 as PP. unfold radians.
  assert (forall s, 0 <= s -> sin s <= s) as SX. { intros s S. destruct (Req_dec s 0) as [->|N]; [rewrite sin_0; lra|]. apply Rlt_le, sin_lt_x. lra. }
  assert (0 <= PI * eps / 180) as PE. { apply Rmult_le_pos; [apply Rmult_le_pos; lra|]. lra. }
  assert (forall z, 0 <= z <= 90 + eps -> - (PI * eps / 180) <= cos (PI * z / 180)) as Z.
  { intros z [Z1 Z2]. destruct (Rle_dec z 90) as [L|L].
    - assert (0 <= cos (PI * z / 180)); [|lra]. apply cos_ge_0.
      + assert (0 <= PI * z / 180). { apply Rmult_le_pos; [apply Rmult_le_pos; lra|]. lra. } lra.
      + assert (PI * z <= PI * 90) by (apply Rmult_le_compat_l; lra). lra.
    - replace (PI * z / 180) with (PI / 2 + PI * (z - 90) / 180) by lra. rewrite cos_plus, cos_PI2, sin_PI2.
      assert (0 <= PI * (z - 90) / 180) as P0. { apply Rmult_le_pos; [apply Rmult_le_pos; lra|]. lra. }
      specialize (SX _ P0). assert (PI * (z - 90) <= PI * eps) by (apply Rmult_le_compat_l; lra). lra. }
  destruct (Rle_dec 0 r) as [L|L].
  - apply Z. lra.
  - rewrite <- cos_neg. replace (- (PI * r / 180)) with (PI * (- r) / 180) by lra. apply Z. lra.
Qed.
Lemma text_direction direction eps dx dy r : 0 <= eps -> textangle direction eps dx dy r ->
  (- (90) - eps <= r <= 90 + eps) /\
  ((cos (radians r) = cos (radians direction + atan2 dy dx) /\ sin (radians r) = sin (radians direction + atan2 dy dx)) \/
   (cos (radians r) = - cos (radians direction + atan2 dy dx) /\ sin (radians r) = - sin (radians direction + atan2 dy dx))).
Proof.
  intros E T. destruct (text_upright direction eps dx dy E) as (r' & _ & U & B & k & K). rewrite <- (U r T) in *. split; auto.
  replace (radians r) with (radians direction + atan2 dy dx + PI * IZR k); [apply half_turns|].
  rewrite K. pose proof (radians_degrees (atan2 dy dx)) as RD. unfold radians in *. lra.
Qed.
Definition tiny : R := radians (/ 10 ^ 10).
(** C130: texts put parallel are orthogonal to the ticks, texts put orthogonal go along the ticks; the lines of the text do not go to
    the left *)
Theorem text_along : forall dx dy r, (dx, dy) <> (0, 0) ->
  (parallel dx dy r -> cos (radians r) * dx + sin (radians r) * dy = 0 /\ - tiny <= cos (radians r)) /\
  (orthogonal dx dy r -> cos (radians r) * dy - sin (radians r) * dx = 0 /\ - tiny <= cos (radians r)).
Proof.
  intros dx dy r N.
  assert (CurveModel.hypot dx dy <> 0) as H.
  { intros H. apply N. unfold CurveModel.hypot in H. apply sqrt_eq_0 in H; [|pose proof (Rle_0_sqr dx); pose proof (Rle_0_sqr dy); unfold Rsqr in *; lra].
    pose proof (Rle_0_sqr dx) as A. pose proof (Rle_0_sqr dy) as B. unfold Rsqr in *. f_equal; apply Rsqr_0_uniq; unfold Rsqr; lra. }
  destruct (cos_sin_atan2 dy dx H) as [EC ES].
  assert (dx = CurveModel.hypot dx dy * cos (atan2 dy dx)) as Ex by (rewrite EC; field; auto).
  assert (dy = CurveModel.hypot dx dy * sin (atan2 dy dx)) as Ey by (rewrite ES; field; auto).
  set (h := CurveModel.hypot dx dy) in *. set (a := atan2 dy dx) in *.
  assert (0 <= / 10 ^ 10) as E0 by (apply Rlt_le, eps_pos). assert (/ 10 ^ 10 <= 90) as E9. { apply Rle_trans with 1; [|lra]. rewrite <- Rinv_1. apply Rinv_le_contravar; lra. }
  split; intros T; destruct (text_direction _ _ _ _ _ E0 T) as [B D]; (split; [|now apply upright_cos]).
  - assert (radians 90 = PI / 2) as R90 by (unfold radians; lra). fold a in D. rewrite R90, Rplus_comm in D. rewrite cos_plus, sin_plus, cos_PI2, sin_PI2 in D.
    rewrite Ex, Ey. destruct D as [[-> ->]|[-> ->]]; ring.
  - assert (radians 180 = PI) as R180 by (unfold radians; lra). fold a in D. rewrite R180, Rplus_comm in D. rewrite neg_cos, neg_sin in D.
    rewrite Ex, Ey. destruct D as [[-> ->]|[-> ->]]; ring.
Qed.
Print Assumptions text_along.
(** C130: the title goes along the axis: parallel to the line between two near tick points *)
Theorem title_along : forall p v r, vtickpoint p v <> vtickpoint p (v + 0.001) ->
  parallel (px (titlevector p v)) (py (titlevector p v)) r ->
  let a := vtickpoint p v in let b := vtickpoint p (v + 0.001) in
  cos (radians r) * (py b - py a) - sin (radians r) * (px b - px a) = 0 /\ - tiny <= cos (radians r).
Proof.
  intros p v r N T a b. fold a b in N. unfold titlevector in T. fold a b in T. destruct a as [x y], b as [x2 y2]. destruct (vtickdirection p v) as [dx dy]. cbn [px py fst snd] in *.
  match type of T with parallel ?u ?w r => destruct (text_along u w r) as [H _] end.
  - intros E. apply N. destruct (ltb _ 0); injection E as E1 E2; f_equal; lra.
  - destruct (H T) as [H1 H2]. split; auto. destruct (ltb _ 0); lra.
Qed.
Print Assumptions title_along.
(** titles of the left axis of a graph are turned by 90 degrees, labels put parallel at the bottom axis are not turned *)
Example text_along_ex : parallel 1 0 90 /\ parallel 0 1 0.
Proof.
  assert (0 < / 10 ^ 10) as E by apply eps_pos. split.
  - unfold parallel, textangle. replace (90 + atan2 0 1 * 180 / PI) with 90.
    2: { unfold atan2. destruct (Rlt_dec 0 1); [|lra]. replace (0 / 1) with 0 by field. rewrite atan_0. field. apply PI_neq0. }
    exists 90, 90, 90. repeat split; constructor; lra.
  - unfold parallel, textangle. replace (90 + atan2 1 0 * 180 / PI) with 180.
    2: { unfold atan2. destruct (Rlt_dec 0 0); [lra|]. destruct (Rlt_dec 0 0); [lra|]. destruct (Rlt_dec 0 1); [|lra]. field. apply PI_neq0. }
    assert (/ 10 ^ 10 <= 1) as E9. { rewrite <- Rinv_1. apply Rinv_le_contravar; lra. }
    exists 180, 180, 0. split; [constructor; lra|]. split; [constructor; lra|]. split; [|constructor; lra].
    apply turned_step; [lra|]. replace (180 + - (180)) with 0 by ring. constructor. lra.
Qed.
(** C130: titles of vertical axes are turned so that their lower side is at the side of the tick direction, which is the inside of the graph: they are read upwards if the ticks
    point to the right (the left axis) and downwards if they point to the left *)
Theorem title_vertical : forall p v r, let a := vtickpoint p v in let b := vtickpoint p (v + 0.001) in let d := vtickdirection p v in
  px b = px a -> py b <> py a -> px d <> 0 -> parallel (px (titlevector p v)) (py (titlevector p v)) r ->
  (0 < px d -> r = 90) /\ (px d < 0 -> r = - (90)).
Proof.
  intros p v r a b d X Y D T. unfold titlevector in T. fold a b d in T. destruct a as [x y], b as [x2 y2], d as [dx dy]. cbn [px py fst snd] in *.
  assert (E1 : 0 < / 10 ^ 10) by apply eps_pos. assert (E2 : / 10 ^ 10 <= 1) by (rewrite <- Rinv_1; apply Rinv_le_contravar; lra).
  set (eps := / 10 ^ 10) in *.
  assert (G : forall s, 0 < s -> parallel s (- 0) r -> r = 90).
  { intros s S P. replace (- 0) with 0 in P by ring. destruct P as (u & w & c & P1 & P2 & P3 & P4). fold eps in P1, P2, P3, P4. revert P1.
    replace (90 + atan2 0 s * 180 / PI) with 90.
    2: { unfold atan2. destruct (Rlt_dec 0 s); [|lra]. replace (0 / s) with 0 by (field; lra). rewrite atan_0. field. apply PI_neq0. }
    intros P1. assert (A : forall test st m n, turned test st m n -> ~ test m -> n = m) by (intros t st m n [|? ? ? ?] N; auto; contradiction).
    apply A in P1; [|lra]. subst u. apply A in P2; [|lra]. subst w. apply A in P3; [|lra]. subst c. apply A in P4; [|lra]. auto. }
  assert (H : forall s, s < 0 -> parallel s (- 0) r -> r = - (90)).
  { intros s S P. replace (- 0) with 0 in P by ring. destruct P as (u & w & c & P1 & P2 & P3 & P4). fold eps in P1, P2, P3, P4. revert P1.
    replace (90 + atan2 0 s * 180 / PI) with 270.
    2: { unfold atan2. destruct (Rlt_dec 0 s); [lra|]. destruct (Rlt_dec s 0); [|lra]. destruct (Rge_dec 0 0); [|lra]. replace (0 / s) with 0 by (field; lra). rewrite atan_0. field. apply PI_neq0. }
    intros P1. assert (A : forall test st m n, turned test st m n -> ~ test m -> n = m) by (intros t st m n [|? ? ? ?] N; auto; contradiction).
    inversion P1 as [? N|? ? N P1']; subst; [exfalso; apply N; lra|].
    apply A in P1'; [|lra]. replace (270 + - (360)) with (- (90)) in P1' by ring. subst u. apply A in P2; [|lra]. subst w. apply A in P3; [|lra]. subst c. apply A in P4; [|lra]. auto. }
  assert (Z : dx * (y2 - y) - dy * (x2 - x) = dx * (y2 - y)) by (rewrite X; ring). rewrite Z in T.
  assert (Tx : forall k : bool, (if k then (x2 - x) * - (1) else x2 - x) = 0) by (intros []; lra). rewrite Tx in T.
  unfold ltb in T. split; intros L; destruct (Rlt_dec (dx * (y2 - y)) 0) as [Q|Q].
  - apply (G ((y2 - y) * - (1))); auto. destruct (Rlt_dec (y2 - y) 0); [lra|]. assert (0 <= dx * (y2 - y)) by (apply Rmult_le_pos; lra). lra.
  - apply (G (y2 - y)); auto. destruct (Rlt_dec 0 (y2 - y)); [lra|]. assert (0 < dx * (y - y2)) by (apply Rmult_lt_0_compat; lra). lra.
  - apply (H ((y2 - y) * - (1))); auto. destruct (Rlt_dec 0 (y2 - y)); [lra|]. assert (0 < (- dx) * (y - y2)) by (apply Rmult_lt_0_compat; lra). lra.
  - apply (H (y2 - y)); auto. destruct (Rlt_dec (y2 - y) 0); [lra|]. assert (0 <= (- dx) * (y2 - y)) by (apply Rmult_le_pos; lra).
    assert (0 < (- dx) * (y2 - y)) by (apply Rmult_lt_0_compat; lra). lra.
Qed.
Print Assumptions title_vertical.
Example title_vertical_ex : let p := linepositioner (0, 0) (0, 100) (1, 0) in px (vtickpoint p (0.5 + 0.001)) = px (vtickpoint p 0.5) /\ py (vtickpoint p (0.5 + 0.001)) <> py (vtickpoint p 0.5) /\
  0 < px (vtickdirection p 0.5) /\ titlevector p 0.5 = (0.1, - 0).
Proof.
  cbn. unfold px, py. cbn. split; [lra|]. split; [lra|]. split; [lra|]. unfold titlevector, ltb. cbn. destruct (Rlt_dec _ 0) as [H|H]; [unfold px, py in H; cbn in H; lra|].
  unfold px, py. cbn. f_equal; lra.
Qed.
