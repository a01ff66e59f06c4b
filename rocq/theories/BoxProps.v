(** C68: distances of points and polygons *)
From Coq Require Import Reals List Bool Arith Lra Lia Psatz.
From Verif Require Import BoxModel.
Import ListNotations.
Open Scope R_scope.

(** ** specification *)
Definition along (p q : point) (t : R) : point := (px p + t * (px q - px p), py p + t * (py q - py p)).
(** the points on the edges of a polygon *)
Definition edge (l : list point) (p q : point) : Prop := exists k, (k < length l)%nat /\ p = corner l k /\ q = corner l ((k + 1) mod length l).
Definition boundary (l : list point) (q : point) : Prop := exists a b t, edge l a b /\ 0 <= t <= 1 /\ q = along a b t.
Definition dist (p q : point) : R := sqrt ((px p - px q) ^ 2 + (py p - py q) ^ 2).
Definition length2 (a b : point) : R := (px b - px a) ^ 2 + (py b - py a) ^ 2.
(** no edge is shorter than 1e-5 points but not of length zero *)
Definition long_edges (l : list point) : Prop := forall a b, edge l a b -> length2 a b = 0 \/ / 10 ^ 10 <= length2 a b.

Lemma ltb_case a b : (a < b /\ ltb a b = true) \/ (b <= a /\ ltb a b = false).
Proof. unfold ltb. destruct (Rlt_dec a b); [left|right]; split; auto; lra. Qed.
Ltac tb a b := let L := fresh "L" in destruct (ltb_case a b) as [[L ->]|[L ->]].
Lemma dist_sym p q : dist p q = dist q p.
Proof. unfold dist. f_equal. ring. Qed.
Lemma dist_triangle p q r : dist p r <= dist p q + dist q r.
Proof.
  pose proof (triangle (px p) (py p) (px r) (py r) (px q) (py q)) as H. unfold dist_euc, Rsqr, dist in *.
  replace ((px p - px r) ^ 2 + (py p - py r) ^ 2) with ((px p - px r) * (px p - px r) + (py p - py r) * (py p - py r)) by ring.
  replace ((px p - px q) ^ 2 + (py p - py q) ^ 2) with ((px p - px q) * (px p - px q) + (py p - py q) * (py p - py q)) by ring.
  replace ((px q - px r) ^ 2 + (py q - py r) ^ 2) with ((px q - px r) * (px q - px r) + (py q - py r) * (py q - py r)) by ring. exact H.
Qed.
Lemma successive_edge l a b : In (a, b) (successivepoints l) <-> edge l a b.
Proof.
  unfold successivepoints, successivepointnumbers, edge. rewrite map_map. rewrite in_map_iff. split.
  - intros (i & E & I). apply in_seq in I. assert (length l <> 0)%nat as N by lia.
    destruct (Nat.eqb i 0) eqn:Ei; [apply Nat.eqb_eq in Ei|apply Nat.eqb_neq in Ei]; cbn [fst snd] in E; injection E as <- <-.
    + exists (length l - 1)%nat. split; [lia|]. split; auto. replace (length l - 1 + 1)%nat with (length l) by lia. now rewrite Nat.mod_same.
    + exists (i - 1)%nat. split; [lia|]. split; auto. replace (i - 1 + 1)%nat with i by lia. now rewrite Nat.mod_small by lia.
  - intros (k & K & -> & ->). destruct (Nat.eq_dec (k + 1) (length l)) as [E|N].
    + exists 0%nat. cbn. split; [|apply in_seq; lia]. rewrite E, Nat.mod_same by lia. f_equal. f_equal. lia.
    + exists (k + 1)%nat. split; [|apply in_seq; lia]. destruct (Nat.eqb_spec (k + 1) 0); [lia|]. cbn. rewrite Nat.mod_small by lia. f_equal. f_equal. lia.
Qed.
Lemma successive_all l (P : point * point -> Prop) : (forall e, In e (successivepoints l) -> P e) <-> (forall a b, edge l a b -> P (a, b)).
Proof. split; [intros H a b E; apply H; now apply successive_edge|]. intros H [a b] I. apply H. now apply successive_edge. Qed.

(** ** one edge *)
Lemma edge_attained x y p1 p2 : exists t, 0 <= t <= 1 /\ edge_distance x y (p1, p2) = dist (x, y) (along p1 p2 t).
Proof.
  unfold edge_distance, dist, along, hypot. cbn [px py fst snd].
  assert (exists t, 0 <= t <= 1 /\ sqrt ((px p1 - x) * (px p1 - x) + (py p1 - y) * (py p1 - y)) = sqrt ((x - (px p1 + t * (px p2 - px p1))) ^ 2 + (y - (py p1 + t * (py p2 - py p1))) ^ 2)) as A0.
  { exists 0. split; [lra|]. f_equal. ring. }
  destruct (ltb_case ((px p2 - px p1) * (px p2 - px p1) + (py p2 - py p1) * (py p2 - py p1)) eps) as [[L E]|[L E]].
  { unfold px, py in *. cbn [fst snd]. rewrite E. exact A0. }
  unfold px, py in *. cbn [fst snd]. rewrite E. set (a := (_ / _)). tb a 0; [exact A0|]. tb 1 a.
  - exists 1. split; [lra|]. f_equal. ring.
  - exists a. split; [lra|]. f_equal. ring.
Qed.
Lemma edge_least x y p1 p2 t : 0 <= t <= 1 ->
  edge_distance x y (p1, p2) <= dist (x, y) (along p1 p2 t) + / 10 ^ 5 /\
  (length2 p1 p2 = 0 \/ / 10 ^ 10 <= length2 p1 p2 -> edge_distance x y (p1, p2) <= dist (x, y) (along p1 p2 t)).
Proof.
  intros T. assert (0 < / 10 ^ 5) as P5 by (apply Rinv_0_lt_compat; lra).
  cut ((length2 p1 p2 = 0 \/ / 10 ^ 10 <= length2 p1 p2 -> edge_distance x y (p1, p2) <= dist (x, y) (along p1 p2 t)) /\
       (length2 p1 p2 < / 10 ^ 10 -> edge_distance x y (p1, p2) <= dist (x, y) (along p1 p2 t) + / 10 ^ 5)).
  { intros [A B]. split; auto. destruct (Rlt_dec (length2 p1 p2) (/ 10 ^ 10)) as [L|L]; auto. assert (edge_distance x y (p1, p2) <= dist (x, y) (along p1 p2 t)); [apply A; right; lra|lra]. }
  unfold edge_distance. set (gx := px p2 - px p1) in *. set (gy := py p2 - py p1) in *.
  assert (length2 p1 p2 = gx * gx + gy * gy) as EL by (unfold length2, gx, gy; ring). rewrite EL. fold eps.
  assert (dist (x, y) (along p1 p2 t) = sqrt ((x - px p1 - t * gx) * (x - px p1 - t * gx) + (y - py p1 - t * gy) * (y - py p1 - t * gy))) as ED.
  { unfold dist, along, gx, gy. cbn [px py fst snd]. f_equal. ring. }
  tb (gx * gx + gy * gy) eps.
  - split.
    + intros [Z|Z]; [|lra]. assert (gx = 0 /\ gy = 0) as [X Y] by (split; nra). rewrite ED, X, Y. unfold hypot. apply Req_le. f_equal. ring.
    + intros _. pose proof (dist_triangle p1 (along p1 p2 t) (x, y)) as TR.
      assert (dist p1 (along p1 p2 t) <= / 10 ^ 5) as S.
      { unfold dist, along. cbn [px py fst snd]. apply Rsqr_incr_0_var; [|lra]. rewrite Rsqr_sqrt by (apply Rplus_le_le_0_compat; apply pow2_ge_0).
        assert (forall a, (a - (a + t * gx)) ^ 2 = t * t * (gx * gx)) as Q1 by (intros; ring).
        replace ((px p1 - (px p1 + t * (px p2 - px p1))) ^ 2 + (py p1 - (py p1 + t * (py p2 - py p1))) ^ 2) with (t * t * (gx * gx + gy * gy)) by (unfold gx, gy; ring).
        apply Rle_trans with (gx * gx + gy * gy); [pose proof (Rle_0_sqr gx) as G1; pose proof (Rle_0_sqr gy) as G2; unfold Rsqr in G1, G2; assert (t * t <= 1) as T1 by (clear - T; nra); set (G := gx * gx + gy * gy) in *; assert (0 <= G) as GG by (unfold G; lra); clearbody G; clear - GG T1; idtac; apply Rle_trans with (1 * G); [apply Rmult_le_compat_r; auto|lra]|]. unfold Rsqr. replace (/ 10 ^ 5 * / 10 ^ 5) with eps; [lra|]. unfold eps. rewrite <- Rinv_mult. f_equal. ring. }
      rewrite (dist_sym (x, y)). replace (hypot (px p1 - x) (py p1 - y)) with (dist p1 (x, y)) by (unfold dist, hypot; cbn [px py fst snd]; f_equal; unfold px, py; ring). lra.
  - split; [|intros; lra]. intros _. assert (0 < eps) as PE by (unfold eps; apply Rinv_0_lt_compat; lra).
    assert (0 < gx * gx + gy * gy) as G by lra. set (a := (gx * (x - px p1) + gy * (y - py p1)) / (gx * gx + gy * gy)).
    assert (gx * (x - px p1) + gy * (y - py p1) = a * (gx * gx + gy * gy)) as EA by (unfold a; field; lra). rewrite ED. unfold hypot.
    set (wx := x - px p1) in *. set (wy := y - py p1) in *.
    assert (forall t, (wx - t * gx) * (wx - t * gx) + (wy - t * gy) * (wy - t * gy) = wx * wx + wy * wy - 2 * t * a * (gx * gx + gy * gy) + t * t * (gx * gx + gy * gy)) as EX.
    { intros t'. replace (2 * t' * a * (gx * gx + gy * gy)) with (2 * t' * (a * (gx * gx + gy * gy))) by ring. rewrite <- EA. ring. }
    tb a 0; [|tb 1 a].
    + replace ((px p1 - x) * (px p1 - x) + (py p1 - y) * (py p1 - y)) with (wx * wx + wy * wy) by (unfold wx, wy; ring).
      apply sqrt_le_1_alt. rewrite EX. assert (0 <= t * (t - 2 * a)) as U by (apply Rmult_le_pos; lra). pose proof (Rmult_le_pos _ _ (Rlt_le _ _ G) U). lra.
    + replace ((px p2 - x) * (px p2 - x) + (py p2 - y) * (py p2 - y)) with ((wx - 1 * gx) * (wx - 1 * gx) + (wy - 1 * gy) * (wy - 1 * gy)) by (unfold wx, wy, gx, gy; ring).
      apply sqrt_le_1_alt. rewrite !EX. assert (0 <= (1 - t) * (2 * a - 1 - t)) as U by (apply Rmult_le_pos; lra). pose proof (Rmult_le_pos _ _ (Rlt_le _ _ G) U). lra.
    + apply sqrt_le_1_alt. rewrite !EX. assert (0 <= (t - a) * (t - a)) as U by apply Rle_0_sqr. pose proof (Rmult_le_pos _ _ (Rlt_le _ _ G) U). lra.
Qed.
(** the least of some numbers *)
Lemma fold_least {A} (f : A -> R) l r0 : let r := fold_left (fun r e => least r (f e)) l r0 in
  (forall d, r = Some d -> r0 = Some d \/ exists e, In e l /\ d = f e) /\
  (forall d, r = Some d -> (forall e, In e l -> d <= f e) /\ (forall d0, r0 = Some d0 -> d <= d0)) /\
  (r = None -> r0 = None /\ l = []).
Proof.
  cbv zeta. revert r0. induction l as [|e l IH]; intros r0; cbn.
  - split; [auto|]. split; [|auto]. intros d ->. split; [contradiction|]. intros d0 E. injection E as <-. lra.
  - destruct (IH (least r0 (f e))) as (I1 & I2 & I3). split; [|split].
    + intros d E. destruct (I1 d E) as [H|(e' & J & H)]; [|right; exists e'; auto].
      unfold least in H. destruct r0 as [o|]; [|injection H as <-; right; exists e; auto]. destruct (ltb (f e) o).
      * injection H as <-. right. exists e. auto.
      * injection H as <-. auto.
    + intros d E. destruct (I2 d E) as [H1 H2]. assert (forall d0, least r0 (f e) = Some d0 -> d0 <= f e /\ (forall o, r0 = Some o -> d0 <= o)) as K.
      { intros d0 Q. unfold least in Q. destruct r0 as [o|]; [|injection Q as <-; split; [lra|discriminate]].
        destruct (ltb_case (f e) o) as [[L X]|[L X]]; rewrite X in Q; injection Q as <-; (split; [lra|intros o' O; injection O as <-; lra]). }
      destruct (least r0 (f e)) as [d0|] eqn:Q.
      * destruct (K d0 eq_refl) as [K1 K2]. specialize (H2 d0 eq_refl). split.
        -- intros e' [<-|J]; [lra|auto].
        -- intros o O. specialize (K2 o O). lra.
      * exfalso. unfold least in Q. destruct r0 as [o|]; [destruct (ltb (f e) o)|]; discriminate.
    + intros E. destruct (I3 E) as [H _]. unfold least in H. destruct r0 as [o|]; [destruct (ltb (f e) o)|]; discriminate.
Qed.

(** C68: the distance of a point to a polygon is attained on its boundary, and no point of the boundary is nearer *)
Theorem point_distance : forall l x y, l <> [] -> exists d, pointdistance l x y = Some d /\
  (exists q, boundary l q /\ d = dist (x, y) q) /\
  (forall q, boundary l q -> d <= dist (x, y) q + / 10 ^ 5) /\
  (long_edges l -> forall q, boundary l q -> d <= dist (x, y) q).
Proof.
  intros l x y N. unfold pointdistance. destruct (fold_least (edge_distance x y) (successivepoints l) None) as (F1 & F2 & F3).
  destruct (fold_left _ (successivepoints l) None) as [d|].
  2:{ exfalso. destruct (F3 eq_refl) as [_ E]. assert (length (successivepoints l) = length l) as LL by (unfold successivepoints, successivepointnumbers; now rewrite !map_length, seq_length).
      rewrite E in LL. destruct l; [congruence|discriminate]. }
  exists d. split; auto. destruct (F2 d eq_refl) as [H _]. split; [|split].
  - destruct (F1 d eq_refl) as [Q|([a b] & I & ->)]; [discriminate|]. destruct (edge_attained x y a b) as (t & T & E).
    exists (along a b t). split; auto. exists a, b, t. split; auto. now apply successive_edge.
  - intros q (a & b & t & E & T & ->). specialize (H (a, b) (proj2 (successive_edge l a b) E)). destruct (edge_least x y a b t T). lra.
  - intros LE q (a & b & t & E & T & ->). specialize (H (a, b) (proj2 (successive_edge l a b) E)). destruct (edge_least x y a b t T) as [_ K]. specialize (K (LE a b E)). lra.
Qed.
Print Assumptions point_distance.

(** ** two edges *)
Definition cross (a b c d : point) : R := (px b - px a) * (py d - py c) - (py b - py a) * (px d - px c).
(** moving from a point of the unit square towards a point outside one meets the border *)
Lemma exit_square s0 t0 s1 t1 : 0 <= s0 <= 1 -> 0 <= t0 <= 1 -> ~ (0 <= s1 <= 1 /\ 0 <= t1 <= 1) ->
  exists m, 0 <= m <= 1 /\ 0 <= s0 + m * (s1 - s0) <= 1 /\ 0 <= t0 + m * (t1 - t0) <= 1 /\
    (s0 + m * (s1 - s0) = 0 \/ s0 + m * (s1 - s0) = 1 \/ t0 + m * (t1 - t0) = 0 \/ t0 + m * (t1 - t0) = 1).
Proof.
  intros S T N.
  assert (forall u0 u1, 0 <= u0 <= 1 -> exists k, 0 <= k <= 1 /\ (forall m, 0 <= m <= k -> 0 <= u0 + m * (u1 - u0) <= 1) /\ (~ 0 <= u1 <= 1 -> u0 + k * (u1 - u0) = 0 \/ u0 + k * (u1 - u0) = 1) /\ (0 <= u1 <= 1 -> k = 1)) as K.
  { intros u0 u1 U. destruct (Rlt_dec 1 u1) as [L|L]; [|destruct (Rlt_dec u1 0) as [L'|L']].
    - exists ((1 - u0) / (u1 - u0)). assert ((1 - u0) / (u1 - u0) * (u1 - u0) = 1 - u0) as E by (field; lra). set (k := (1 - u0) / (u1 - u0)) in *. clearbody k.
      assert (0 <= k <= 1) as KK by (split; nra). split; auto. split; [intros m M; split; nra|]. split; [intros _; right; lra|lra].
    - exists (u0 / (u0 - u1)). assert (u0 / (u0 - u1) * (u0 - u1) = u0) as E by (field; lra). set (k := u0 / (u0 - u1)) in *. clearbody k.
      assert (0 <= k <= 1) as KK by (split; nra). split; auto. split; [intros m M; split; nra|]. split; [intros _; left; lra|lra].
    - exists 1. split; [lra|]. split; [intros m M; split; nra|]. split; [lra|auto]. }
  destruct (K s0 s1 S) as (ks & K1 & K2 & K3 & K4). destruct (K t0 t1 T) as (kt & J1 & J2 & J3 & J4).
  destruct (Rle_dec ks kt) as [L|L].
  - exists ks. split; auto. split; [apply K2; lra|]. split; [apply J2; lra|].
    destruct (Rle_dec 0 s1) as [A|A]; [destruct (Rle_dec s1 1) as [B|B]|].
    + assert (ks = 1) as E by (apply K4; lra). assert (kt = 1) as E' by lra. rewrite E in *. rewrite E' in *. assert (~ 0 <= t1 <= 1) as NT by tauto. destruct (J3 NT); auto.
    + destruct K3; auto; lra.
    + destruct K3; auto; lra.
  - exists kt. split; auto. split; [apply K2; lra|]. split; [apply J2; lra|].
    destruct (Rle_dec 0 t1) as [A|A]; [destruct (Rle_dec t1 1) as [B|B]|].
    + assert (kt = 1) as E by (apply J4; lra). lra.
    + destruct J3; auto; lra.
    + destruct J3; auto; lra.
Qed.
(** two edges which do not cross transversally come nearest at an end of one of them *)
Lemma segments_border a b c d s0 t0 : 0 <= s0 <= 1 -> 0 <= t0 <= 1 ->
  (cross a b c d <> 0 /\ exists s t, 0 <= s <= 1 /\ 0 <= t <= 1 /\ along a b s = along c d t) \/
  exists s t, 0 <= s <= 1 /\ 0 <= t <= 1 /\ (s = 0 \/ s = 1 \/ t = 0 \/ t = 1) /\ dist (along a b s) (along c d t) <= dist (along a b s0) (along c d t0).
Proof.
  intros S T. unfold along, dist, cross. cbn [px py fst snd].
  set (ux := px b - px a). set (uy := py b - py a). set (vx := px d - px c). set (vy := py d - py c).
  assert (forall s t m s1 t1, s = s0 + m * (s1 - s0) -> t = t0 + m * (t1 - t0) -> forall k,
    (px a + s1 * ux - (px c + t1 * vx) = k * (px a + s0 * ux - (px c + t0 * vx))) -> (py a + s1 * uy - (py c + t1 * vy) = k * (py a + s0 * uy - (py c + t0 * vy))) -> 0 <= m <= 1 -> 0 <= k <= 1 ->
    sqrt ((px a + s * ux - (px c + t * vx)) ^ 2 + (py a + s * uy - (py c + t * vy)) ^ 2) <= sqrt ((px a + s0 * ux - (px c + t0 * vx)) ^ 2 + (py a + s0 * uy - (py c + t0 * vy)) ^ 2)) as MOVE.
  { intros s t m s1 t1 -> -> k E1 E2 M K. apply sqrt_le_1_alt.
    set (wx := px a + s0 * ux - (px c + t0 * vx)) in *. set (wy := py a + s0 * uy - (py c + t0 * vy)) in *.
    replace (px a + (s0 + m * (s1 - s0)) * ux - (px c + (t0 + m * (t1 - t0)) * vx)) with ((1 - m + m * k) * wx).
    2:{ replace ((1 - m + m * k) * wx) with ((1 - m) * wx + m * (k * wx)) by ring. rewrite <- E1. unfold wx. ring. }
    replace (py a + (s0 + m * (s1 - s0)) * uy - (py c + (t0 + m * (t1 - t0)) * vy)) with ((1 - m + m * k) * wy).
    2:{ replace ((1 - m + m * k) * wy) with ((1 - m) * wy + m * (k * wy)) by ring. rewrite <- E2. unfold wy. ring. }
    set (q := 1 - m + m * k). assert (0 <= q <= 1) as Q by (unfold q; nra). replace ((q * wx) ^ 2 + (q * wy) ^ 2) with (q * q * (wx ^ 2 + wy ^ 2)) by ring.
    assert (0 <= wx ^ 2 + wy ^ 2) by nra. assert (q * q <= 1) by nra. nra. }
  destruct (Req_dec (ux * vy - uy * vx) 0) as [Z|NZ].
  - right.
    assert (exists s1 t1, ~ (0 <= s1 <= 1 /\ 0 <= t1 <= 1) /\ (s1 - s0) * ux = (t1 - t0) * vx /\ (s1 - s0) * uy = (t1 - t0) * vy) as (s1 & t1 & N & E1 & E2).
    { destruct (Req_dec (ux * ux + uy * uy) 0) as [Zu|NZu].
      - assert (ux = 0 /\ uy = 0) as [X Y] by (split; nra). exists (s0 + 2), t0. split; [lra|]. rewrite X, Y. split; ring.
      - set (k := (ux * vx + uy * vy) / (ux * ux + uy * uy)).
        assert (k * ux = vx /\ k * uy = vy) as [K1 K2].
        { unfold k. split.
          - replace ((ux * vx + uy * vy) / (ux * ux + uy * uy) * ux) with ((vx * (ux * ux + uy * uy) + uy * (ux * vy - uy * vx)) / (ux * ux + uy * uy)) by (field; lra). rewrite Z. field. lra.
          - replace ((ux * vx + uy * vy) / (ux * ux + uy * uy) * uy) with ((vy * (ux * ux + uy * uy) - ux * (ux * vy - uy * vx)) / (ux * ux + uy * uy)) by (field; lra). rewrite Z. field. lra. }
        exists (s0 + 2 * k), (t0 + 2). split; [lra|]. split; [replace (s0 + 2 * k - s0) with (2 * k) by ring|replace (s0 + 2 * k - s0) with (2 * k) by ring]; [rewrite <- K1|rewrite <- K2]; ring. }
    destruct (exit_square s0 t0 s1 t1 S T N) as (m & M & M1 & M2 & M3).
    exists (s0 + m * (s1 - s0)), (t0 + m * (t1 - t0)). split; auto. split; auto. split; auto.
    apply (MOVE _ _ m s1 t1 eq_refl eq_refl 1); auto; lra.
  - set (D := ux * vy - uy * vx) in *.
    set (rx := px c - px a). set (ry := py c - py a).
    set (s1 := (rx * vy - ry * vx) / D). set (t1 := (rx * uy - ry * ux) / D).
    assert (px a + s1 * ux = px c + t1 * vx) as E1.
    { assert (s1 * ux - t1 * vx = rx); [|unfold rx in *; lra]. unfold s1, t1. replace ((rx * vy - ry * vx) / D * ux - (rx * uy - ry * ux) / D * vx) with (rx * (ux * vy - uy * vx) / D) by (field; auto). fold D. field. auto. }
    assert (py a + s1 * uy = py c + t1 * vy) as E2.
    { assert (s1 * uy - t1 * vy = ry); [|unfold ry in *; lra]. unfold s1, t1. replace ((rx * vy - ry * vx) / D * uy - (rx * uy - ry * ux) / D * vy) with (ry * (ux * vy - uy * vx) / D) by (field; auto). fold D. field. auto. }
    destruct (Rle_dec 0 s1) as [A1|A1]; [destruct (Rle_dec s1 1) as [A2|A2]; [destruct (Rle_dec 0 t1) as [A3|A3]; [destruct (Rle_dec t1 1) as [A4|A4]|]|]|].
    { left. split; auto. exists s1, t1. split; auto. split; auto. f_equal; auto. }
    all: right; (destruct (exit_square s0 t0 s1 t1 S T) as (m & M & M1 & M2 & M3); [lra|]);
      exists (s0 + m * (s1 - s0)), (t0 + m * (t1 - t0)); split; auto; split; auto; split; auto; apply (MOVE _ _ m s1 t1 eq_refl eq_refl 0); auto; lra.
Qed.

Lemma fold_least_of {A} (f : A -> option R) l r0 : (forall e, In e l -> f e <> None) -> let r := fold_left (fun r e => least_of r (f e)) l r0 in
  (forall d, r = Some d -> r0 = Some d \/ exists e, In e l /\ f e = Some d) /\
  (forall d, r = Some d -> (forall e x, In e l -> f e = Some x -> d <= x) /\ (forall d0, r0 = Some d0 -> d <= d0)) /\
  (r = None -> r0 = None /\ l = []).
Proof.
  intros NN. cbv zeta. set (g := fun e => match f e with Some x => x | None => 0 end).
  assert (forall l r0, (forall e, In e l -> f e <> None) -> fold_left (fun r e => least_of r (f e)) l r0 = fold_left (fun r e => least r (g e)) l r0) as E.
  { clear. induction l as [|e l IH]; intros r0 NN; auto. cbn. rewrite IH by (intros; apply NN; now right). f_equal. unfold least_of, g.
    destruct (f e) eqn:X; auto. exfalso. apply (NN e); [now left|auto]. }
  rewrite E by auto. destruct (fold_least g l r0) as (F1 & F2 & F3). split; [|split; auto].
  - intros d D. destruct (F1 d D) as [H|(e & I & ->)]; auto. right. exists e. split; auto. unfold g. specialize (NN e I). destruct (f e); congruence.
  - intros d D. destruct (F2 d D) as [H1 H2]. split; auto. intros e x I X. specialize (H1 e I). unfold g in H1. now rewrite X in H1.
Qed.
Lemma corner_boundary l p : In p l -> boundary l p.
Proof.
  intros I. destruct (In_nth l p (0, 0) I) as (k & K & E). exists p, (corner l ((k + 1) mod length l)), 0. split; [exists k; auto|]. split; [lra|].
  unfold along. destruct p as [a b]. cbn. f_equal; ring.
Qed.
Lemma edge_corners l a b : edge l a b -> In a l /\ In b l.
Proof.
  intros (k & K & -> & ->). split; apply nth_In; auto. apply Nat.mod_upper_bound. lia.
Qed.
Lemma along_0 a b : along a b 0 = a. Proof. unfold along. destruct a. cbn. f_equal; ring. Qed.
Lemma along_1 a b : along a b 1 = b. Proof. unfold along. destruct a, b. cbn. f_equal; ring. Qed.
(** edges crossing almost in parallel, which the test does not see *)
Definition nearly_parallel (l m : list point) : Prop := exists a b c d s t, edge l a b /\ edge m c d /\ 0 <= s <= 1 /\ 0 <= t <= 1 /\
  along a b s = along c d t /\ 0 < Rabs (cross a b c d) <= / 10 ^ 10.
Lemma crossing_found a b c d s t : 0 <= s <= 1 -> 0 <= t <= 1 -> along a b s = along c d t -> / 10 ^ 10 < Rabs (cross a b c d) -> crossing (a, b) (c, d) = true.
Proof.
  intros S T E C. unfold crossing. fold (cross a b c d). set (D := cross a b c d) in *.
  assert (0 < / 10 ^ 10) as PE by (apply Rinv_0_lt_compat; lra).
  assert (D <> 0) as ND by (intros Z; rewrite Z, Rabs_R0 in C; lra).
  unfold along in E. injection E as E1 E2.
  assert (((py d - py c) * (px c - px a) - (px d - px c) * (py c - py a)) / D = s) as ->.
  { replace ((py d - py c) * (px c - px a) - (px d - px c) * (py c - py a)) with (s * D); [field; auto|].
    unfold D, cross. replace (px c - px a) with (s * (px b - px a) - t * (px d - px c)) by lra. replace (py c - py a) with (s * (py b - py a) - t * (py d - py c)) by lra. ring. }
  assert (((py b - py a) * (px c - px a) - (px b - px a) * (py c - py a)) / D = t) as ->.
  { replace ((py b - py a) * (px c - px a) - (px b - px a) * (py c - py a)) with (t * D); [field; auto|].
    unfold D, cross. replace (px c - px a) with (s * (px b - px a) - t * (px d - px c)) by lra. replace (py c - py a) with (s * (py b - py a) - t * (py d - py c)) by lra. ring. }
  fold eps in PE, C. tb eps (Rabs D); [|lra]. tb (- eps) s; [|lra]. tb s (1 + eps); [|lra]. tb (- eps) t; [|lra]. tb t (1 + eps); [|lra]. reflexivity.
Qed.
(** C68: the distance of two polygons is attained by points of their boundaries, and no points of
    the boundaries are nearer.  If edges cross, an error is raised. *)
Theorem box_distance : forall l m, l <> [] -> m <> [] -> ~ nearly_parallel l m ->
  match boxdistance l m with
  | Crossing => exists a b c d s t, edge l a b /\ edge m c d /\ - / 10 ^ 10 < s < 1 + / 10 ^ 10 /\ - / 10 ^ 10 < t < 1 + / 10 ^ 10 /\ along a b s = along c d t
  | Distance r => exists d, r = Some d /\ (exists p q, boundary l p /\ boundary m q /\ d = dist p q) /\
      (forall p q, boundary l p -> boundary m q -> d <= dist p q + / 10 ^ 5) /\
      (long_edges l -> long_edges m -> forall p q, boundary l p -> boundary m q -> d <= dist p q)
  end.
Proof.
  intros l m NL NM NP. unfold boxdistance.
  destruct (existsb _ (successivepoints l)) eqn:EX.
  - apply existsb_exists in EX as ([a b] & I & EX). apply existsb_exists in EX as ([c d] & J & EX). apply successive_edge in I, J.
    unfold crossing in EX. fold (cross a b c d) in EX. set (D := cross a b c d) in *. rewrite !andb_true_iff in EX. destruct EX as [[[[X0 X1] X2] X3] X4].
    set (s := ((py d - py c) * (px c - px a) - (px d - px c) * (py c - py a)) / D) in *. set (t := ((py b - py a) * (px c - px a) - (px b - px a) * (py c - py a)) / D) in *.
    assert (forall u v, ltb u v = true -> u < v) as LT by (intros u v; unfold ltb; destruct (Rlt_dec u v); auto; discriminate).
    apply LT in X0, X1, X2, X3, X4. fold eps. exists a, b, c, d, s, t. split; auto. split; auto. split; auto. split; auto.
    assert (0 < eps) as PE by (unfold eps; apply Rinv_0_lt_compat; lra).
    assert (D <> 0) as ND by (intros Z; rewrite Z, Rabs_R0 in X0; lra).
    unfold along. f_equal.
    + unfold s, t. apply Rmult_eq_reg_r with D; auto.
      replace ((px a + ((py d - py c) * (px c - px a) - (px d - px c) * (py c - py a)) / D * (px b - px a)) * D) with (px a * D + ((py d - py c) * (px c - px a) - (px d - px c) * (py c - py a)) * (px b - px a)) by (field; auto).
      replace ((px c + ((py b - py a) * (px c - px a) - (px b - px a) * (py c - py a)) / D * (px d - px c)) * D) with (px c * D + ((py b - py a) * (px c - px a) - (px b - px a) * (py c - py a)) * (px d - px c)) by (field; auto).
      unfold D, cross. ring.
    + unfold s, t. apply Rmult_eq_reg_r with D; auto.
      replace ((py a + ((py d - py c) * (px c - px a) - (px d - px c) * (py c - py a)) / D * (py b - py a)) * D) with (py a * D + ((py d - py c) * (px c - px a) - (px d - px c) * (py c - py a)) * (py b - py a)) by (field; auto).
      replace ((py c + ((py b - py a) * (px c - px a) - (px b - px a) * (py c - py a)) / D * (py d - py c)) * D) with (py c * D + ((py b - py a) * (px c - px a) - (px b - px a) * (py c - py a)) * (py d - py c)) by (field; auto).
      unfold D, cross. ring.
  - assert (forall k x y, k <> [] -> pointdistance k x y <> None) as PD by (intros k x y N; destruct (point_distance k x y N) as (d & -> & _); discriminate).
    destruct (fold_least_of (fun p => pointdistance l (px p) (py p)) m None) as (A1 & A2 & A3); [intros; apply PD; auto|].
    set (r1 := fold_left (fun r p => least_of r (pointdistance l (px p) (py p))) m None) in *.
    destruct (fold_least_of (fun p => pointdistance m (px p) (py p)) l r1) as (B1 & B2 & B3); [intros; apply PD; auto|].
    destruct (fold_left _ l r1) as [d|]; [|destruct (B3 eq_refl); congruence]. exists d. split; auto.
    assert (forall p, In p l -> d <= match pointdistance m (px p) (py p) with Some x => x | None => 0 end) as HL.
    { intros p I. destruct (B2 d eq_refl) as [H _]. destruct (pointdistance m (px p) (py p)) as [x|] eqn:E; [apply (H p); auto|]. exfalso. eapply PD; [|exact E]. auto. }
    assert (forall p, In p m -> d <= match pointdistance l (px p) (py p) with Some x => x | None => 0 end) as HM.
    { intros p I. destruct (B2 d eq_refl) as [_ H]. destruct r1 as [d1|]; [|destruct (A3 eq_refl); subst; contradiction].
      specialize (H d1 eq_refl). destruct (A2 d1 eq_refl) as [H' _]. destruct (pointdistance l (px p) (py p)) as [x|] eqn:E; [specialize (H' p x I E); lra|]. exfalso. eapply PD; [|exact E]. auto. }
    assert (forall p q, boundary l p -> boundary m q -> exists p' q', boundary l p' /\ boundary m q' /\ (In p' l \/ In q' m) /\ dist p' q' <= dist p q) as BORDER.
    { intros p q (a & b & s0 & E & S & ->) (c & e & t0 & F & T & ->).
      assert (edge l a b -> edge m c e -> forall s t, 0 <= s <= 1 -> 0 <= t <= 1 -> along a b s = along c e t -> cross a b c e <> 0 -> False) as NC.
      { intros Ee Ef s t Ss Tt Q NZ. assert (0 < Rabs (cross a b c e)) as PA by now apply Rabs_pos_lt.
        destruct (Rle_dec (Rabs (cross a b c e)) (/ 10 ^ 10)) as [L|L].
        - apply NP. exists a, b, c, e, s, t. repeat split; auto; try apply Ee; try apply Ef; lra.
        - assert (existsb (fun e => existsb (crossing e) (successivepoints m)) (successivepoints l) = true) as X; [|congruence].
          apply existsb_exists. exists (a, b). split; [now apply successive_edge|]. apply existsb_exists. exists (c, e). split; [now apply successive_edge|].
          apply crossing_found with s t; auto. lra. }
      destruct (segments_border a b c e s0 t0 S T) as [(NZ & s & t & Ss & Tt & Q)|(s & t & Ss & Tt & EN & LE)].
      - destruct (NC E F s t Ss Tt Q NZ).
      - exists (along a b s), (along c e t). destruct (edge_corners _ _ _ E) as [Ea Eb]. destruct (edge_corners _ _ _ F) as [Fc Fd].
        split; [exists a, b, s; auto|]. split; [exists c, e, t; auto|]. split; auto.
        destruct EN as [-> |[-> |[-> | ->]]]; rewrite ?along_0, ?along_1; auto. }
    split; [|split].
    + destruct (B1 d eq_refl) as [H|(p & I & E)].
      * destruct (A1 d H) as [Q|(p & I & E)]; [discriminate|]. destruct (point_distance l (px p) (py p) NL) as (d' & E' & (q & Bq & Dq) & _).
        assert (d' = d) as Ed by congruence. rewrite Ed in Dq. exists q, p. split; auto. split; [now apply corner_boundary|]. rewrite dist_sym. destruct p. exact Dq.
      * destruct (point_distance m (px p) (py p) NM) as (d' & E' & (q & Bq & Dq) & _).
        assert (d' = d) as Ed by congruence. rewrite Ed in Dq. exists p, q. split; [now apply corner_boundary|]. split; [auto|]. destruct p. exact Dq.
    + intros p q Bp Bq. destruct (BORDER p q Bp Bq) as (p' & q' & Bp' & Bq' & [I|I] & LE).
      * specialize (HL p' I). destruct (point_distance m (px p') (py p') NM) as (d' & E' & _ & H & _). rewrite E' in HL. specialize (H q' Bq'). destruct p' as [u v]. cbn [px py fst snd] in H. lra.
      * specialize (HM q' I). destruct (point_distance l (px q') (py q') NL) as (d' & E' & _ & H & _). rewrite E' in HM. specialize (H p' Bp'). destruct q' as [u v]. cbn [px py fst snd] in H. rewrite (dist_sym p') in LE. lra.
    + intros Ll Lm p q Bp Bq. destruct (BORDER p q Bp Bq) as (p' & q' & Bp' & Bq' & [I|I] & LE).
      * specialize (HL p' I). destruct (point_distance m (px p') (py p') NM) as (d' & E' & _ & _ & H). rewrite E' in HL. specialize (H Lm q' Bq'). destruct p' as [u v]. cbn [px py fst snd] in H. lra.
      * specialize (HM q' I). destruct (point_distance l (px q') (py q') NL) as (d' & E' & _ & _ & H). rewrite E' in HM. specialize (H Ll p' Bp'). destruct q' as [u v]. cbn [px py fst snd] in H. rewrite (dist_sym p') in LE. lra.
Qed.
Print Assumptions box_distance.
(** edges which cross are reported *)
Theorem box_crossing : forall l m a b c d s t, edge l a b -> edge m c d -> 0 <= s <= 1 -> 0 <= t <= 1 -> along a b s = along c d t ->
  / 10 ^ 10 < Rabs (cross a b c d) -> boxdistance l m = Crossing.
Proof.
  intros l m a b c d s t E F S T Q C. unfold boxdistance.
  assert (existsb (fun e => existsb (crossing e) (successivepoints m)) (successivepoints l) = true) as ->; auto.
  apply existsb_exists. exists (a, b). split; [now apply successive_edge|]. apply existsb_exists. exists (c, d). split; [now apply successive_edge|].
  apply crossing_found with s t; auto.
Qed.
Print Assumptions box_crossing.

(** the unit square and a point beside it; the square and another one *)
Definition square (x y : R) : list point := [(x, y); (x + 1, y); (x + 1, y + 1); (x, y + 1)].
Lemma square_long x y : long_edges (square x y).
Proof.
  assert (0 < / 10 ^ 10 <= 1) as PE by (split; [apply Rinv_0_lt_compat; lra|rewrite <- Rinv_1; apply Rinv_le_contravar; lra]).
  intros a b (k & K & -> & ->). right. cbn in K.
  destruct k as [|[|[|[|k]]]]; [| | | |lia]; unfold length2; cbn; lra.
Qed.
Lemma square_right x y q : boundary (square x y) q -> x <= px q <= x + 1 /\ y <= py q <= y + 1.
Proof.
  intros (a & b & t & (k & K & -> & ->) & T & ->). cbn in K. destruct k as [|[|[|[|k]]]]; [| | | |lia]; cbn; lra.
Qed.
Example point_distance_ex : pointdistance (square 0 0) 3 (1/2) = Some 2.
Proof.
  destruct (point_distance (square 0 0) 3 (1/2)) as (d & E & (q & B & D) & _ & L); [discriminate|]. rewrite E. f_equal.
  specialize (L (square_long 0 0)). apply Rle_antisym.
  - replace 2 with (dist (3, 1/2) (1, 1/2)).
    + apply L. exists (1, 0), (1, 1), (1/2). split; [exists 1%nat; cbn; split; [lia|split; f_equal; lra]|]. split; [lra|]. unfold along. cbn. f_equal; lra.
    + unfold dist. cbn. replace ((3 - 1) * ((3 - 1) * 1) + (1 / 2 - 1 / 2) * ((1 / 2 - 1 / 2) * 1)) with (Rsqr 2) by (unfold Rsqr; lra). rewrite sqrt_Rsqr; lra.
  - rewrite D. apply square_right in B. unfold dist. cbn [px py fst snd]. apply Rsqr_incr_0_var; [|apply sqrt_pos]. rewrite Rsqr_sqrt by (apply Rplus_le_le_0_compat; apply pow2_ge_0).
    unfold Rsqr. pose proof (pow2_ge_0 (1 / 2 - py q)). unfold px, py in *. nra.
Qed.
Example box_distance_ex : boxdistance (square 0 0) (square (1/2) (1/2)) = Crossing.
Proof.
  apply (box_crossing _ _ (1, 0) (1, 1) (1/2, 1/2) (3/2, 1/2) (1/2) (1/2)); try lra.
  - exists 1%nat. cbn. split; [lia|]. split; f_equal; lra.
  - exists 0%nat. cbn. split; [lia|]. split; f_equal; lra.
  - unfold along. cbn. f_equal; lra.
  - unfold cross. cbn [px py fst snd]. replace ((1 - 1) * (1 / 2 - 1 / 2) - (1 - 0) * (3 / 2 - 1 / 2)) with (-1) by lra. rewrite Rabs_left by lra.
    replace (- -1) with (/ 1) by lra. apply Rinv_lt_contravar; lra.
Qed.
Example box_distance_ex2 : boxdistance (square 0 0) (square 2 0) = Distance (Some 1).
Proof.
  assert (0 < / 10 ^ 10 < / 4) as PE by (split; [apply Rinv_0_lt_compat; lra|apply Rinv_lt_contravar; lra]).
  assert (forall x y a b s, edge (square x y) a b -> - / 4 <= s <= 1 + / 4 -> x - / 4 <= px (along a b s) <= x + 1 + / 4) as IN.
  { intros x y a b s (k & K & -> & ->) S. cbn in K. destruct k as [|[|[|[|k]]]]; [| | | |lia]; cbn; lra. }
  pose proof (box_distance (square 0 0) (square 2 0)) as H.
  destruct (boxdistance (square 0 0) (square 2 0)) as [|r].
  - exfalso. destruct H as (a & b & c & d & s & t & E & F & S & T & Q); try discriminate.
    + intros (a & b & c & d & s & t & E & F & S & T & Q & _). assert (px (along a b s) = px (along c d t)) as X by now rewrite Q.
      pose proof (IN _ _ _ _ s E ltac:(lra)). pose proof (IN _ _ _ _ t F ltac:(lra)). lra.
    + assert (px (along a b s) = px (along c d t)) as X by now rewrite Q. pose proof (IN _ _ _ _ s E ltac:(lra)). pose proof (IN _ _ _ _ t F ltac:(lra)). lra.
  - destruct H as (d & -> & (p & q & Bp & Bq & D) & _ & L); try discriminate.
    + intros (a & b & c & d & s & t & E & F & S & T & Q & _). assert (px (along a b s) = px (along c d t)) as X by now rewrite Q.
      pose proof (IN _ _ _ _ s E ltac:(lra)). pose proof (IN _ _ _ _ t F ltac:(lra)). lra.
    + specialize (L (square_long 0 0) (square_long 2 0)). f_equal. f_equal. apply Rle_antisym.
      * replace 1 with (dist (1, 0) (2, 0)).
        -- apply L; apply corner_boundary; cbn; [right; left; f_equal; lra|left; reflexivity].
        -- unfold dist. cbn. replace ((1 - 2) * ((1 - 2) * 1) + (0 - 0) * ((0 - 0) * 1)) with (Rsqr 1) by (unfold Rsqr; lra). rewrite sqrt_Rsqr; lra.
      * rewrite D. apply square_right in Bp, Bq. unfold dist. apply Rsqr_incr_0_var; [|apply sqrt_pos]. rewrite Rsqr_sqrt by (apply Rplus_le_le_0_compat; apply pow2_ge_0).
        unfold Rsqr. pose proof (pow2_ge_0 (py p - py q)). nra.
Qed.
