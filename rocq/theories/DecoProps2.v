(** Hatchings cover the path evenly, color gradients show each color in its part, texts are placed beside the path or along it.  C133. *)
From Coq Require Import Reals ZArith List Bool Lia.
From Verif Require Import TrafoModel CurveModel CurveProofs4 BoxModel BoxAlign DecoModel DecoSpec DecoProps.
From Coq Require Import Lra.
Import ListNotations.
Open Scope R_scope.

Lemma turn_norm : forall a x y, (cos a * x + sin a * y) * (cos a * x + sin a * y) + (- sin a * x + cos a * y) * (- sin a * x + cos a * y) = x * x + y * y.
Proof.
  intros a x y. pose proof (sin2_cos2 a) as T. unfold Rsqr in T.
  replace (x * x + y * y) with ((sin a * sin a + cos a * cos a) * (x * x + y * y)) by (rewrite T; ring). ring.
Qed.
Lemma below_sqrt : forall x y z, 0 <= z -> x * x + y * y <= z -> - sqrt z <= x <= sqrt z.
Proof.
  intros x y z Z H. pose proof (sqrt_pos z) as P. pose proof (sqrt_sqrt z Z) as S. pose proof (Rle_0_sqr y) as Y. unfold Rsqr in Y.
  split; nra.
Qed.
Lemma Int_part_bounds : forall r, IZR (Int_part r) <= r < IZR (Int_part r) + 1.
Proof. intros r. pose proof (base_Int_part r) as [A B]. lra. Qed.

(** the lines of a hatching: each line is the one before moved by [dist] in the direction of the angle, and each point of the bounding box of
    the path is on or between two consecutive lines, not beyond their ends *)
Theorem hatch_covers : forall dist angle llx lly urx ury x y, 0 < dist -> llx <= x <= urx -> lly <= y <= ury ->
  exists i a b s e, nth_error (hatch_lines dist angle llx lly urx ury) i = Some (a, b) /\
    nth_error (hatch_lines dist angle llx lly urx ury) (S i) = Some ((px a + dist * cos (radians angle), py a + dist * sin (radians angle)),
                                                                     (px b + dist * cos (radians angle), py b + dist * sin (radians angle))) /\
    0 <= s <= 1 /\ 0 <= e < dist /\
    x = px a + s * (px b - px a) + e * cos (radians angle) /\ y = py a + s * (py b - py a) + e * sin (radians angle).
Proof.
  intros dist angle llx lly urx ury x y D X Y. unfold hatch_lines.
  set (c := hatch_center llx lly urx ury). set (r := hatch_radius dist llx lly urx ury).
  set (k := cos (radians angle)). set (n := sin (radians angle)).
  set (dx := x - px c). set (dy := y - py c). set (u := k * dx + n * dy). set (v := - n * dx + k * dy).
  set (w := (urx - llx) * (urx - llx) + (ury - lly) * (ury - lly)).
  assert (0 <= w) as W by (unfold w; apply Rplus_le_le_0_compat; apply Rle_0_sqr).
  assert (u * u + v * v = dx * dx + dy * dy) as N by (apply turn_norm).
  assert (- ((urx - llx) / 2) <= dx <= (urx - llx) / 2) as DX by (unfold dx, c, hatch_center, px; simpl; lra).
  assert (- ((ury - lly) / 2) <= dy <= (ury - lly) / 2) as DY by (unfold dy, c, hatch_center, py; simpl; lra).
  assert ((2 * u) * (2 * u) + (2 * v) * (2 * v) <= w) as B.
  { replace ((2 * u) * (2 * u) + (2 * v) * (2 * v)) with (4 * (u * u + v * v)) by ring. rewrite N. unfold w.
    assert (4 * (dx * dx) <= (urx - llx) * (urx - llx)) by nra. assert (4 * (dy * dy) <= (ury - lly) * (ury - lly)) by nra. lra. }
  pose proof (below_sqrt _ _ _ W B) as BU. assert (r = 0.5 * sqrt w + dist) as ER by reflexivity.
  assert ((2 * v) * (2 * v) + (2 * u) * (2 * u) <= w) as B' by lra. pose proof (below_sqrt _ _ _ W B') as BV.
  pose proof (sqrt_pos w) as SW. clearbody w.
  set (f := fun i => (rotate_about angle c (px c - r + INR i * dist, py c - r), rotate_about angle c (px c - r + INR i * dist, py c + r))).
  assert (dist <= u + r <= 2 * r - dist) as O by lra. assert (0 < r) as RP by lra.
  set (z := Int_part ((u + r) / dist)). pose proof (Int_part_bounds ((u + r) / dist)) as Z. fold z in Z.
  assert (IZR z * dist <= u + r < (IZR z + 1) * dist) as ZB.
  { assert ((u + r) / dist * dist = u + r) as Q by (field; lra). split; [rewrite <- Q; apply Rmult_le_compat_r; lra|rewrite <- Q at 1; apply Rmult_lt_compat_r; lra]. }
  assert (0 <= z)%Z as ZP.
  { assert (0 < IZR z + 1) as P by (apply (Rmult_lt_reg_r dist); lra). rewrite <- plus_IZR in P. apply lt_IZR in P. lia. }
  set (m := Int_part (2 * r / dist)). pose proof (Int_part_bounds (2 * r / dist)) as M. fold m in M.
  assert (z + 1 <= m)%Z as ZM.
  { assert (IZR z + 1 < IZR m + 1) as P.
    { apply Rle_lt_trans with (2 * r / dist); [|lra]. apply (Rmult_le_reg_r dist); [lra|].
      replace (2 * r / dist * dist) with (2 * r) by (field; lra). lra. }
    rewrite <- !plus_IZR in P. apply lt_IZR in P. lia. }
  set (i := Z.to_nat z). assert (INR i = IZR z) as IZ by (unfold i; rewrite INR_IZR_INZ, Z2Nat.id by exact ZP; reflexivity).
  assert (forall j, (j <= S i)%nat -> nth_error (map f (seq 0 (Z.to_nat (m + 1)))) j = Some (f j)) as NT.
  { intros j J. rewrite nth_error_map. rewrite (nth_error_nth' _ 0%nat) by (rewrite seq_length; unfold i in J; lia).
    simpl. rewrite seq_nth by (unfold i in J; lia). reflexivity. }
  exists i, (fst (f i)), (snd (f i)), ((v + r) / (2 * r)), (u + r - IZR z * dist).
  split; [rewrite NT by lia; reflexivity|]. split.
  { rewrite NT by lia. f_equal. unfold f. rewrite S_INR. unfold rotate_about. fold k n. unfold px, py. simpl. repeat apply (f_equal2 pair); ring. }
  split; [split; [apply Rmult_le_pos; [lra|apply Rlt_le, Rinv_0_lt_compat; lra]|apply (Rmult_le_reg_r (2 * r)); [lra|]; replace ((v + r) / (2 * r) * (2 * r)) with (v + r) by (field; lra); lra]|].
  split; [lra|].
  assert (k * k + n * n = 1) as T by (pose proof (sin2_cos2 (radians angle)) as T; unfold Rsqr in T; fold k n in T; lra).
  assert (x = px c + (k * u - n * v) /\ y = py c + (n * u + k * v)) as [EX EY].
  { unfold u, v. split.
    - replace (k * (k * dx + n * dy) - n * (- n * dx + k * dy)) with ((k * k + n * n) * dx) by ring. rewrite T. unfold dx. ring.
    - replace (n * (k * dx + n * dy) + k * (- n * dx + k * dy)) with ((k * k + n * n) * dy) by ring. rewrite T. unfold dy. ring. }
  rewrite EX, EY. unfold f. cbn [fst snd]. rewrite IZ. unfold rotate_about. fold k n. clearbody u v k n r. unfold px, py. cbn [fst snd].
  split; field; lra.
Qed.
Print Assumptions hatch_covers.

(** in a crossed hatching the second lines are perpendicular to the first *)
Theorem hatch_cross : forall dist angle llx lly urx ury, exists l m, hatched dist angle true llx lly urx ury = [l; m] /\
  hatched dist angle false llx lly urx ury = [l] /\
  forall a b c d, In (a, b) l -> In (c, d) m -> (px b - px a) * (px d - px c) + (py b - py a) * (py d - py c) = 0.
Proof.
  intros dist angle llx lly urx ury. eexists. eexists. split; [reflexivity|]. split; [reflexivity|].
  intros a b c d I J. unfold hatch_lines in I, J. apply in_map_iff in I. destruct I as [i [I _]]. apply in_map_iff in J. destruct J as [j [J _]].
  injection I as <- <-. injection J as <- <-. unfold rotate_about, px, py. cbn [fst snd].
  assert (radians (angle + 90) = PI / 2 + radians angle) as E by (unfold radians; field). rewrite E, <- cos_sin.
  assert (cos (PI / 2 + radians angle) = - sin (radians angle)) as C by (rewrite sin_cos; ring). rewrite C. ring.
Qed.
Print Assumptions hatch_cross.

(** a hatching of a square of size 6 with lines in distance 1 *)
Example hatch_ex : exists i a b s e, nth_error (hatch_lines 1 30 0 0 6 6) i = Some (a, b) /\ 0 <= s <= 1 /\ 0 <= e < 1 /\
  6 = px a + s * (px b - px a) + e * cos (radians 30) /\ 6 = py a + s * (py b - py a) + e * sin (radians 30).
Proof.
  destruct (hatch_covers 1 30 0 0 6 6 6 6) as (i & a & b & s & e & A & _ & B & C & D & E); try lra.
  exists i, a, b, s, e. split; [exact A|]. split; [exact B|]. split; [exact C|]. split; [exact D|exact E].
Qed.

(** ** color gradients *)
Lemma nth_error_rev_map_seq : forall {B} (g : nat -> B) m j, (j < m)%nat -> nth_error (rev (map g (seq 0 m))) j = Some (g (m - 1 - j)%nat).
Proof.
  intros B g m j J. rewrite (nth_error_nth' _ (g 0%nat)) by (rewrite rev_length, map_length, seq_length; exact J).
  rewrite rev_nth by (rewrite map_length, seq_length; exact J). rewrite map_length, seq_length. rewrite map_nth, seq_nth by lia.
  f_equal. f_equal. lia.
Qed.
Lemma nth_rev_map_seq : forall {B} (g : nat -> B) m j d, (j < m)%nat -> nth j (rev (map g (seq 0 m))) d = g (m - 1 - j)%nat.
Proof. intros B g m j d J. apply nth_error_nth. now apply nth_error_rev_map_seq. Qed.

Lemma strokes_shape : forall {A} (select : nat -> nat -> A) len steps, (2 <= steps)%nat ->
  let q := fun i => len * INR i / INR steps in
  gradient_strokes select len steps = Some ((q (steps - 2)%nat, len, select (steps - 1)%nat steps) ::
    map (fun n => (q (steps - n)%nat, q (steps - 2 - n)%nat, select (steps - 1 - n)%nat steps)) (seq 1 (steps - 2)) ++ [(0, q 1%nat, select 0%nat steps)]).
Proof.
  intros A select len steps S2 q. unfold gradient_strokes. fold q.
  rewrite !nth_error_rev_map_seq by lia.
  replace (steps - 1 - 1)%nat with (steps - 2)%nat by lia. replace (steps - 1 - 0)%nat with (steps - 1)%nat by lia.
  replace (steps - 1 - (steps - 2))%nat with 1%nat by lia. replace (steps - 1 - (steps - 1))%nat with 0%nat by lia.
  do 2 f_equal. f_equal. apply map_ext_in. intros n I. apply in_seq in I.
  rewrite !nth_rev_map_seq by lia. replace (steps - 1 - (n - 1))%nat with (steps - n)%nat by lia. replace (steps - 1 - (n + 1))%nat with (steps - 2 - n)%nat by lia. reflexivity.
Qed.
Lemma q_mono : forall len steps i j, 0 <= len -> (0 < steps)%nat -> (i <= j)%nat -> len * INR i / INR steps <= len * INR j / INR steps.
Proof.
  intros len steps i j L S I. apply le_INR in I. assert (0 < INR steps) by (apply lt_0_INR; exact S).
  apply Rmult_le_compat_r; [apply Rlt_le, Rinv_0_lt_compat; assumption|]. now apply Rmult_le_compat_l.
Qed.

(** the part number [k] of the path, when it is divided into [steps] equal parts, is seen in the color number [k] *)
Theorem gradient_seen : forall {A} (select : nat -> nat -> A) len steps k x, 0 <= len -> (2 <= steps)%nat -> (k < steps)%nat ->
  len * INR k / INR steps < x < len * INR (S k) / INR steps ->
  exists l, gradient_strokes select len steps = Some l /\ seen l x (select k steps).
Proof.
  intros A select len steps k x L S2 K X. eexists. split; [exact (strokes_shape select len steps S2)|]. cbv zeta.
  set (q := fun i => len * INR i / INR steps) in *. fold (q k) (q (S k)) in X.
  assert (forall i j, (i <= j)%nat -> q i <= q j) as M by (intros i j I; apply q_mono; [exact L|lia|exact I]).
  assert (q steps = len) as QS by (unfold q; field; apply not_0_INR; lia).
  assert (q 0%nat = 0) as Q0 by (unfold q; simpl; unfold Rdiv; ring).
  assert (forall n, (n <= steps - 2)%nat -> Rmax (q (steps - n)%nat) (q (steps - 2 - n)%nat) = q (steps - n)%nat /\ Rmin (q (steps - n)%nat) (q (steps - 2 - n)%nat) = q (steps - 2 - n)%nat) as MM
    by (intros n N; split; [apply Rmax_left; apply M; lia|apply Rmin_right; apply M; lia]).
  assert (k = steps - 1 \/ (1 <= k <= steps - 2) \/ k = 0)%nat as [C|[C|C]] by lia.
  - exists [], (q (steps - 2)%nat, len, select (steps - 1)%nat steps). eexists. split; [reflexivity|]. split; [|split; [simpl; now rewrite C|]].
    + unfold covers. cbn [fst snd]. rewrite <- QS. rewrite Rmin_left, Rmax_right by (apply M; lia).
      pose proof (M (steps - 2)%nat k ltac:(lia)). pose proof (M (S k) steps ltac:(lia)). lra.
    + intros s I. apply in_app_or in I. destruct I as [I|[<-|[]]].
      * apply in_map_iff in I. destruct I as [n [<- I]]. apply in_seq in I. unfold covers. cbn [fst snd].
        destruct (MM n ltac:(lia)) as [-> _]. pose proof (M (steps - n)%nat k ltac:(lia)). lra.
      * unfold covers. cbn [fst snd]. rewrite <- Q0, Rmax_right by (apply M; lia). pose proof (M 1%nat k ltac:(lia)). lra.
  - set (n := (steps - 1 - k)%nat).
    assert (seq 1 (steps - 2) = seq 1 (n - 1) ++ n :: seq (S n) (steps - 2 - n)) as E.
    { replace (steps - 2)%nat with ((n - 1) + S (steps - 2 - n))%nat at 1 by lia. rewrite seq_app. simpl. f_equal.
      replace (S (n - 1)) with n by lia. reflexivity. }
    rewrite E, map_app. cbn [map].
    exists ((q (steps - 2)%nat, len, select (steps - 1)%nat steps) :: map (fun n => (q (steps - n)%nat, q (steps - 2 - n)%nat, select (steps - 1 - n)%nat steps)) (seq 1 (n - 1))).
    eexists. eexists. split; [rewrite <- app_assoc; cbn [app]; reflexivity|]. split; [|split; [simpl; f_equal; lia|]].
    + unfold covers. cbn [fst snd]. destruct (MM n ltac:(lia)) as [-> ->].
      pose proof (M (steps - 2 - n)%nat k ltac:(lia)). pose proof (M (S k) (steps - n)%nat ltac:(lia)). lra.
    + intros s I. apply in_app_or in I. destruct I as [I|[<-|[]]].
      * apply in_map_iff in I. destruct I as [n' [<- I]]. apply in_seq in I. unfold covers. cbn [fst snd].
        destruct (MM n' ltac:(lia)) as [-> _]. pose proof (M (steps - n')%nat k ltac:(lia)). lra.
      * unfold covers. cbn [fst snd]. rewrite <- Q0, Rmax_right by (apply M; lia). pose proof (M 1%nat k ltac:(lia)). lra.
  - eexists (_ :: _), (0, q 1%nat, select 0%nat steps), []. split; [cbn [app]; reflexivity|]. split; [|split; [simpl; now rewrite C|intros s []]].
    unfold covers. cbn [fst snd]. subst k. rewrite Q0 in X. rewrite Rmin_left, Rmax_right by lra. lra.
Qed.
Print Assumptions gradient_seen.
(** with a single step there is no second parameter, and nothing is painted (IndexError) *)
Theorem gradient_single_refuted : forall {A} (select : nat -> nat -> A) len, gradient_strokes select len 1 = None.
Proof. intros A select len. reflexivity. Qed.
Print Assumptions gradient_single_refuted.
Example gradient_ex : exists l, gradient_strokes (fun n m => (n, m)) 10 4 = Some l /\ seen l 6 (2, 4)%nat.
Proof. apply (gradient_seen (fun n m => (n, m)) 10 4 2 6); [lra|lia|lia|simpl; lra]. Qed.

(** ** texts *)
Lemma unit_height : forall a p, height (cos a) (sin a) p = px p * cos a + py p * sin a.
Proof.
  intros a p. unfold height. replace (cos a * cos a + sin a * sin a) with 1; [rewrite sqrt_1; field|].
  pose proof (sin2_cos2 a) as T. unfold Rsqr in T. lra.
Qed.
(** the angle of a text relative to the path with the tangent [u]: the direction is [u] turned by this angle *)
Lemma text_direction_relative : forall o u angle r, px u * px u + py u * py u = 1 ->
  let a := text_angle (frame o u) angle (Some r) in
  cos a = cos (radians r) * px u - sin (radians r) * py u /\ sin a = cos (radians r) * py u + sin (radians r) * px u.
Proof.
  intros o u angle r U. unfold text_angle. cbv zeta.
  replace (r * PI / 180) with (radians r) by (unfold radians; field).
  unfold frame. set (k := cos (radians r)). set (n := sin (radians r)).
  assert (k * k + n * n = 1) as T by (pose proof (sin2_cos2 (radians r)) as T; unfold Rsqr in T; fold k n in T; lra). clearbody k n.
  unfold px, py in *. cbn [fst snd].
  set (X := fst o + k * fst u - n * snd u - (fst o + 0 * fst u - 0 * snd u)).
  set (Y := snd o + k * snd u + n * fst u - (snd o + 0 * snd u + 0 * fst u)).
  assert (X = k * fst u - n * snd u) as EX by (unfold X; ring). assert (Y = k * snd u + n * fst u) as EY by (unfold Y; ring).
  assert (CurveModel.hypot X Y = 1) as H.
  { unfold CurveModel.hypot. rewrite EX, EY.
    replace ((k * fst u - n * snd u) * (k * fst u - n * snd u) + (k * snd u + n * fst u) * (k * snd u + n * fst u)) with ((k * k + n * n) * (fst u * fst u + snd u * snd u)) by ring.
    rewrite T, U. replace (1 * 1) with 1 by ring. apply sqrt_1. }
  destruct (cos_sin_atan2 Y X) as [C S]; [rewrite H; lra|]. rewrite C, S, H, EX, EY. split; field.
Qed.

(** a text is moved from the point of the path in the direction given (absolute, or relative to the path), until its nearest corner
    in this direction is in the distance [textdist] *)
Theorem text_beside : forall o u angle relangle textdist box d, px u * px u + py u * py u = 1 -> center box = o -> convex (corners box) ->
  d = match relangle with
      | Some r => (cos (radians r) * px u - sin (radians r) * py u, cos (radians r) * py u + sin (radians r) * px u)
      | None => (cos (radians angle), sin (radians angle))
      end ->
  distinct (corners box) (px d) (py d) ->
  exists k, corners (decorate_text (frame o u) angle relangle textdist box) = map (translation (k * px d, k * py d)) (corners box) /\
    (forall q, In q (corners (decorate_text (frame o u) angle relangle textdist box)) -> textdist <= (px q - px o) * px d + (py q - py o) * py d) /\
    exists q, In q (corners (decorate_text (frame o u) angle relangle textdist box)) /\ (px q - px o) * px d + (py q - py o) * py d = textdist.
Proof.
  intros o u angle relangle textdist box d U O CX D DI.
  assert (px d = cos (text_angle (frame o u) angle relangle) /\ py d = sin (text_angle (frame o u) angle relangle)) as [C S].
  { destruct relangle as [r|].
    - pose proof (text_direction_relative o u angle r U) as [C S]. cbv zeta in C, S. rewrite C, S, D. split; reflexivity.
    - unfold text_angle. replace (angle * PI / 180) with (radians angle) by (unfold radians; field). rewrite D. split; reflexivity. }
  unfold decorate_text. cbv zeta. set (a := text_angle (frame o u) angle relangle) in *. clearbody a. rewrite C, S in *.
  assert ((cos a, sin a) <> (0, 0)) as N.
  { intros E. injection E as E1 E2. pose proof (sin2_cos2 a) as T. unfold Rsqr in T. rewrite E1, E2 in T. lra. }
  destruct (align_convex box textdist (cos a) (sin a) CX N DI) as [[k K] [A [q [I Q]]]].
  unfold linealign, transform. cbn [corners]. exists k. rewrite K in *. split; [reflexivity|]. split.
  - intros p P. apply in_map_iff in P. destruct P as [p0 [<- P]]. pose proof (A p0 P) as B. rewrite !unit_height, O in B. lra.
  - exists (translation (k * cos a, k * sin a) q). split; [now apply in_map|]. rewrite !unit_height, O in Q. lra.
Qed.
Print Assumptions text_beside.

(** a curved text: the point of the base line below the middle of a letter is on the path, at the arc length it has on the base line,
    the base line is tangential there, and letters are not deformed *)
Theorem text_curved : forall at_ tangent textpos x p q, (forall s, px (tangent s) * px (tangent s) + py (tangent s) * py (tangent s) = 1) ->
  let f := curved_point (fun s => frame (at_ s) (tangent s)) textpos x in
  f (x, 0) = at_ (textpos + x) /\
  (forall h, px (f (x + h, 0)) - px (f (x, 0)) = h * px (tangent (textpos + x)) /\ py (f (x + h, 0)) - py (f (x, 0)) = h * py (tangent (textpos + x))) /\
  distance (f p) (f q) = distance p q /\
  forall left right e, left <= x <= right -> 0 <= e ->
    fst (curved_excludes textpos left right e) <= textpos + x <= snd (curved_excludes textpos left right e).
Proof.
  intros at_ tangent textpos x p q U f. unfold f, curved_point, frame. specialize (U (textpos + x)). set (u := tangent (textpos + x)) in *. set (o := at_ (textpos + x)).
  clearbody u o. unfold px, py, distance in *. cbn [fst snd]. split; [|split; [|split]].
  - rewrite (surjective_pairing o) at 3. apply f_equal2; ring.
  - intros h. split; ring.
  - f_equal. unfold px, py. cbn [fst snd].
    replace ((fst q - fst p) * (fst q - fst p) + (snd q - snd p) * (snd q - snd p)) with ((fst u * fst u + snd u * snd u) * ((fst q - fst p) * (fst q - fst p) + (snd q - snd p) * (snd q - snd p))) by (rewrite U; ring).
    ring.
  - intros left right e H E. unfold curved_excludes. cbn [fst snd]. lra.
Qed.
Print Assumptions text_curved.
Example curved_ex : curved_point (fun s => frame (along (1, 2) (0, 1) s) (0, 1)) 10 3 (5, 1) = (0, 17).
Proof. unfold curved_point, frame, along, px, py. simpl. apply f_equal2; lra. Qed.
Example beside_ex : exists q, In q (corners (decorate_text (frame (0, 0) (1, 0)) 0 None 3 unit_square)) /\ px q = 3.
Proof.
  destruct (text_beside (0, 0) (1, 0) 0 None 3 unit_square (1, 0)) as (k & _ & _ & q & I & Q).
  - unfold px, py. simpl. lra.
  - unfold unit_square, new_rect, new_polygon. simpl. unfold px, py. simpl. apply f_equal2; lra.
  - apply square_convex.
  - unfold radians. replace (PI * 0 / 180) with 0 by field. now rewrite cos_0, sin_0.
  - apply (square_distinct 1). now left.
  - exists q. split; [exact I|]. unfold px, py in *. simpl in Q. lra.
Qed.

(** C133: a text at a place of the path counted from one end is at the same place as the text of the reversed path counted from the other end *)
Theorem text_place_reversed : forall (at_ : R -> point) len rel frombegin fromend, frombegin = None \/ fromend = None ->
  let reversed := fun s => at_ (len - s) in
  reversed (text_param len (1 - rel) fromend frombegin) = at_ (text_param len rel frombegin fromend) /\
  (forall a, frombegin = Some a -> at_ (text_param len rel frombegin fromend) = at_ a).
Proof.
  intros at_ len rel fb fe N reversed. unfold reversed. destruct fb as [a|], fe as [b|]; cbn [text_param]; try (destruct N; discriminate);
    (split; [f_equal; ring|intros c E; inversion E; subst; f_equal; ring]).
Qed.
Print Assumptions text_place_reversed.
Example text_place_ex : text_param 10 0.5 None (Some 3) = 7 /\ text_param 10 0.5 (Some 3) None = 3 /\ text_param 10 0.5 None None = 5.
Proof. cbn. lra. Qed.
