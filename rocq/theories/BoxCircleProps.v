(** C144: alignment of convex polygons at circles *)
From Coq Require Import Reals List Bool Arith Lra Lia.
From Verif Require Import BoxModel BoxAlign BoxCircleModel.
Import ListNotations.
Open Scope R_scope.

(** ** specification *)
Definition distance (p q : point) : R := sqrt ((px p - px q) ^ 2 + (py p - py q) ^ 2).
Definition on_line (e f : point) (t : R) : point := (px e + t * (px f - px e), py e + t * (py f - py e)).
(** the points of a convex polygon are those to the left of all edges *)
Definition within (l : list point) (q : point) : Prop := forall i, (i < length l)%nat ->
  let a := corner l i in let b := corner l (next (length l) i) in 0 <= (px b - px a) * (py q - py a) - (py b - py a) * (px q - px a).
(** no edge is too short, and none that faces the center is nearly parallel to the direction *)
Definition clear_edges (l : list point) (dx dy : R) : Prop := forall i, (i < length l)%nat ->
  let e := corner l i in let f := corner l (next (length l) i) in
  / 10 ^ 10 <= (px e - px f) ^ 2 + (py e - py f) ^ 2 /\
  (sideways dx dy e <= sideways dx dy f \/ / 10 ^ 10 * ((px e - px f) ^ 2 + (py e - py f) ^ 2) <= (sideways dx dy e - sideways dx dy f) ^ 2).
(** the center is in the shadow of the polygon *)
Definition in_shadow (l : list point) (dx dy : R) (c : point) : Prop :=
  (exists q, In q l /\ sideways dx dy q <= sideways dx dy c) /\ (exists q, In q l /\ sideways dx dy c <= sideways dx dy q).

(** ** the geometry, with a direction (dx, dy) of length one *)
Section DIR.
Variables dx dy : R.
Hypothesis D : dx * dx + dy * dy = 1.
Notation h := (h dx dy). Notation sw := (sw dx dy).
Lemma square_hs u v : u * u + v * v = (u * dx + v * dy) * (u * dx + v * dy) + (v * dx - u * dy) * (v * dx - u * dy).
Proof. replace ((u * dx + v * dy) * (u * dx + v * dy) + (v * dx - u * dy) * (v * dx - u * dy)) with ((u * u + v * v) * (dx * dx + dy * dy)) by ring. rewrite D. ring. Qed.
(** what the result for an edge says *)
Definition clear_edge (e f : point) : Prop :=
  eps <= (h e - h f) * (h e - h f) + (sw e - sw f) * (sw e - sw f) /\
  (sw e - sw f <= 0 \/ eps * ((h e - h f) * (h e - h f) + (sw e - sw f) * (sw e - sw f)) <= (sw e - sw f) * (sw e - sw f)).
Definition glen (e f : point) : R := sqrt ((h e - h f) * (h e - h f) + (sw e - sw f) * (sw e - sw f)).
Definition touch (c : point) (a : R) (e f : point) : R := (sw e - sw c + a * (h e - h f) / glen e f) / (sw e - sw f).
Lemma glen_pos e f : clear_edge e f -> 0 < glen e f /\ glen e f * glen e f = (h e - h f) * (h e - h f) + (sw e - sw f) * (sw e - sw f).
Proof. intros [G _]. pose proof eps_pos. unfold glen. split; [apply sqrt_lt_R0; lra|apply sqrt_sqrt; lra]. Qed.
Lemma circle_line_result c a e f : clear_edge e f ->
  match circlealignline c a dx dy e f with
  | Nothing => sw e - sw f <= 0
  | UseE => 0 < sw e - sw f /\ touch c a e f < 0
  | UseF => 0 < sw e - sw f /\ 1 < touch c a e f
  | Vector v => 0 < sw e - sw f /\ - eps < touch c a e f < 1 + eps /\
      exists beta, v = (beta * dx, beta * dy) /\ h e - touch c a e f * (h e - h f) + beta = h c + a * (sw e - sw f) / glen e f
  end /\ (sw e - sw f <= 0 -> circlealignline c a dx dy e f = Nothing).
Proof.
  intros CE. destruct (glen_pos e f CE) as [GP GG]. destruct CE as [G1 G2]. pose proof eps_pos as PE. unfold circlealignline.
  set (gx := px e - px f). set (gy := py e - py f).
  assert (EH : h e - h f = gx * dx + gy * dy) by (unfold BoxAlign.h, gx, gy; ring). assert (ES : sw e - sw f = gy * dx - gx * dy) by (unfold BoxAlign.sw, gx, gy; ring).
  assert (Q : gx * gx + gy * gy = glen e f * glen e f) by (rewrite GG, EH, ES; apply square_hs).
  set (G := glen e f) in *. set (gh := h e - h f) in *. set (gs := sw e - sw f) in *. rewrite Q.
  destruct (ltb_case (G * G) eps) as [[L _]|[_ ->]]; [lra|]. cbv zeta.
  set (r := (dx * gx + dy * gy) * 1 / (G * G)). assert (ER : r = gh / (G * G)) by (unfold r; rewrite EH; unfold Rdiv; ring).
  set (bx := dx - gx * r). set (by_ := dy - gy * r).
  assert (BB : bx * bx + by_ * by_ = (gs / G) * (gs / G)).
  { replace (bx * bx + by_ * by_) with ((dx * dx + dy * dy) - 2 * r * (gx * dx + gy * dy) + r * r * (gx * gx + gy * gy)) by (unfold bx, by_; ring).
    rewrite D, Q, <- EH, ER. replace (gs / G * (gs / G)) with ((gs * gs) / (G * G)) by (field; lra). replace (gs * gs) with (G * G - gh * gh) by lra. field. lra. }
  assert (BC : bx * gy - by_ * gx = gs) by (unfold bx, by_; rewrite ES; ring).
  rewrite BB, BC.
  assert (BE : gs <= 0 \/ eps <= gs / G * (gs / G)).
  { destruct G2 as [G2|G2]; [left; exact G2|right]. replace (gs / G * (gs / G)) with ((gs * gs) / (G * G)) by (field; lra). apply (Rmult_le_reg_r (G * G)); [nra|].
    unfold Rdiv. rewrite Rmult_assoc, Rinv_l by nra. rewrite GG. lra. }
  destruct (ltb_case (gs / G * (gs / G)) eps) as [[L ->]|[L ->]]; [split; [destruct BE; [assumption|lra]|reflexivity]|].
  destruct (ltb_case gs 0) as [[N ->]|[N ->]]; [split; [lra|reflexivity]|].
  assert (NZ : gs <> 0) by (intros Z; rewrite Z in L; unfold Rdiv in L; rewrite !Rmult_0_l in L; lra). assert (PG : 0 < gs) by lra. clear N BE.
  split; [|intros C; lra].
  assert (SF : sqrt ((dx * dx + dy * dy) / (gs / G * (gs / G))) = G / gs).
  { rewrite D. replace (1 / (gs / G * (gs / G))) with ((G / gs) * (G / gs)) by (field; lra). apply sqrt_square. left. apply Rdiv_lt_0_compat; lra. }
  rewrite SF. set (b1 := a * bx * (G / gs)). set (b2 := a * by_ * (G / gs)).
  assert (HB : b1 * dx + b2 * dy = a * gs / G).
  { unfold b1, b2. replace (a * bx * (G / gs) * dx + a * by_ * (G / gs) * dy) with (a * (G / gs) * (dx * dx + dy * dy - r * (gx * dx + gy * dy))) by (unfold bx, by_; ring).
    rewrite D, <- EH, ER. replace (1 - gh / (G * G) * gh) with ((G * G - gh * gh) / (G * G)) by (field; lra). replace (G * G - gh * gh) with (gs * gs) by lra. field. lra. }
  assert (SB : b2 * dx - b1 * dy = - a * gh / G).
  { unfold b1, b2. replace (a * by_ * (G / gs) * dx - a * bx * (G / gs) * dy) with (- a * (G / gs) * r * (gy * dx - gx * dy)) by (unfold bx, by_; ring). rewrite <- ES, ER. field. lra. }
  assert (AL : ((b1 + px c - px e) * dy - (b2 + py c - py e) * dx) * 1 / (gy * dx - gx * dy) = touch c a e f).
  { unfold touch. fold G gh gs. rewrite <- ES. unfold Rdiv. f_equal. rewrite Rmult_1_r.
    replace ((b1 + px c - px e) * dy - (b2 + py c - py e) * dx) with (sw e - sw c - (b2 * dx - b1 * dy)) by (unfold BoxAlign.sw; ring). rewrite SB. unfold Rdiv. ring. }
  rewrite AL. set (al := touch c a e f) in *.
  destruct (ltb_case (0 - eps) al) as [[L1 ->]|[L1 ->]]; [destruct (ltb_case al (1 + eps)) as [[L2 ->]|[L2 ->]]|]; cbn [andb].
  - split; [exact PG|split; [lra|]]. eexists. split; [reflexivity|].
    assert (AG : al * gs = sw e - sw c + a * gh / G) by (unfold al, touch; fold G gh gs; field; lra).
    assert (CR : (px e - b1 - px c) * gy - (py e - b2 - py c) * gx = (h e - a * gs / G - h c) * gs - (sw e + a * gh / G - sw c) * gh).
    { replace (h e - a * gs / G - h c) with ((px e - b1 - px c) * dx + (py e - b2 - py c) * dy) by (rewrite <- HB; unfold BoxAlign.h; ring).
      replace (sw e + a * gh / G - sw c) with ((py e - b2 - py c) * dx - (px e - b1 - px c) * dy) by (replace (a * gh / G) with (- (b2 * dx - b1 * dy)) by (rewrite SB; unfold Rdiv; ring); unfold BoxAlign.sw; ring).
      rewrite EH, ES. set (u := px e - b1 - px c). set (v := py e - b2 - py c).
      replace ((u * dx + v * dy) * (gy * dx - gx * dy) - (v * dx - u * dy) * (gx * dx + gy * dy)) with ((u * gy - v * gx) * (dx * dx + dy * dy)) by ring. rewrite D. ring. }
    rewrite CR. replace (gx * dy - gy * dx) with (- gs) by (rewrite ES; ring). replace (sw e + a * gh / G - sw c) with (al * gs) by lra. field; lra.
  - destruct (ltb_case al 0) as [[L3 ->]|[L3 ->]]; [lra|]. split; [exact PG|lra].
  - destruct (ltb_case al 0) as [[L3 ->]|[L3 ->]]; split; try exact PG; lra.
Qed.
(** Cauchy *)
Lemma far H S gh gs G a : 0 <= a -> 0 < G -> G * G = gh * gh + gs * gs -> a * G <= H * gs - S * gh -> a * a <= H * H + S * S.
Proof.
  intros A P Q L. assert (a * G * (a * G) <= (H * gs - S * gh) * (H * gs - S * gh)) as M by (apply Rmult_le_compat; try assumption; apply Rmult_le_pos; lra).
  assert ((H * gs - S * gh) * (H * gs - S * gh) <= (H * H + S * S) * (G * G)) as C by (rewrite Q; pose proof (Rle_0_sqr (H * gh + S * gs)) as Z; unfold Rsqr in Z; lra).
  apply (Rmult_le_reg_r (G * G)); [nra|]. lra.
Qed.
(** the position of a point which is on the circle in the direction t *)
Lemma side_pos H s a gh gs G : 0 <= a -> 0 <= H -> H * H + s * s = a * a -> 0 < gs -> 0 < G -> G * G = gh * gh + gs * gs -> s * G < - (a * gh) -> H * gh + s * gs <= 0.
Proof.
  intros A HH Q PS PG GG L. apply Rnot_lt_le. intros C.
  destruct (Rle_dec 0 s) as [S|S].
  - assert (0 <= s * G) as B by (apply Rmult_le_pos; lra). assert (s * G * (s * G) < (- (a * gh)) * (- (a * gh))) as M by (apply Rmult_le_0_lt_compat; lra).
    assert (gh < 0) as N. { apply Rnot_le_lt. intros N. pose proof (Rmult_le_pos _ _ A N). lra. }
    assert (H * - gh < s * gs) as K by lra. assert (0 <= H * - gh) as K0 by (apply Rmult_le_pos; lra).
    assert (H * - gh * (H * - gh) < s * gs * (s * gs)) as K2 by (apply Rmult_le_0_lt_compat; lra).
    assert (s * G * (s * G) = s * s * (gh * gh) + s * gs * (s * gs)) as E1 by (replace (s * G * (s * G)) with (s * s * (G * G)) by ring; rewrite GG; ring).
    assert (- (a * gh) * - (a * gh) = (H * H + s * s) * (gh * gh)) as E2 by (rewrite Q; ring). lra.
  - destruct (Rle_dec gh 0) as [N|N].
    + assert (0 <= H * - gh) by (apply Rmult_le_pos; lra). assert (0 < - s * gs) by (apply Rmult_lt_0_compat; lra). lra.
    + assert (0 <= a * gh) as K0 by (apply Rmult_le_pos; lra). assert (a * gh < - (s * G)) as K by lra.
      assert (a * gh * (a * gh) < - (s * G) * - (s * G)) as M by (apply Rmult_le_0_lt_compat; lra).
      assert (0 < - s * gs) as K1 by (apply Rmult_lt_0_compat; lra). assert (- s * gs < H * gh) as K2 by lra.
      assert (- s * gs * (- s * gs) < H * gh * (H * gh)) as K3 by (apply Rmult_le_0_lt_compat; lra).
      assert (- (s * G) * - (s * G) = s * s * (gh * gh) + s * gs * (s * gs)) as E1 by (replace (- (s * G) * - (s * G)) with (s * s * (G * G)) by ring; rewrite GG; ring).
      assert (a * gh * (a * gh) = (H * H + s * s) * (gh * gh)) as E2 by (rewrite Q; ring). lra.
Qed.
End DIR.

(** ** the search *)
Section POLY.
Variables dx dy : R.
Hypothesis D : dx * dx + dy * dy = 1.
Notation h := (h dx dy). Notation sw := (sw dx dy).
Variable l : list point.
Hypothesis CX : convex l.
Notation n := (length l). Notation pr := (pred_ l).
Hypothesis GE : forall i, (i < n)%nat -> clear_edge dx dy (corner l i) (corner l (next n i)).
Variable c : point.
Variable a : R.
Hypothesis PA : 0 < a.
Hypothesis AE : eps <= a * a.
Hypothesis SHL : exists q, In q l /\ sw q <= sw c.
Hypothesis SHR : exists q, In q l /\ sw c <= sw q.
Definition clv (k : nat) : align := circlealignline c a dx dy (corner l (pr k)) (corner l k).
Definition clvs : list align := map (fun ps => circlealignline c a dx dy (fst ps) (snd ps)) (successivepoints l).
Lemma clvs_length : length clvs = n.
Proof. unfold clvs, successivepoints, successivepointnumbers. now rewrite !map_length, seq_length. Qed.
Lemma clvs_nth k : (k < n)%nat -> nth k clvs Nothing = clv k.
Proof.
  intros K. unfold clvs. assert (length (successivepoints l) = n) as LN by (unfold successivepoints, successivepointnumbers; now rewrite !map_length, seq_length).
  rewrite (nth_map (fun ps : point * point => circlealignline c a dx dy (fst ps) (snd ps)) (successivepoints l) k Nothing ((0, 0), (0, 0))) by (rewrite LN; exact K). rewrite sp_nth by auto. reflexivity.
Qed.
Lemma clear_k k : (k < n)%nat -> clear_edge dx dy (corner l (pr k)) (corner l k).
Proof. intros K. pose proof (GE (pr k) (pred_lt l CX k K)) as G. rewrite next_pred in G by auto. exact G. Qed.
Definition covers (k0 : R) : Prop :=
  (forall q k, within l q -> k0 <= k -> a * a <= (h q + k - h c) * (h q + k - h c) + (sw q - sw c) * (sw q - sw c)) /\
  (exists i t, (i < n)%nat /\ - eps < t < 1 + eps /\ let e := corner l i in let f := corner l (next n i) in
     (h e + t * (h f - h e) + k0 - h c) * (h e + t * (h f - h e) + k0 - h c) + (sw e + t * (sw f - sw e) - sw c) * (sw e + t * (sw f - sw e) - sw c) = a * a).
Lemma within_k q k : within l q -> (k < n)%nat -> 0 <= pcross (corner l (pr k)) (corner l k) q.
Proof. intros W K. pose proof (W (pr k) (pred_lt l CX k K)) as G. cbv zeta in G. rewrite next_pred in G by auto. exact G. Qed.
(** a touching edge *)
Lemma edge_covers k v : (k < n)%nat -> clv k = Vector v -> exists b, v = (b * dx, b * dy) /\ covers b.
Proof.
  intros K E. destruct (circle_line_result dx dy D c a _ _ (clear_k k K)) as [R _]. destruct (glen_pos dx dy _ _ (clear_k k K)) as [GP GG].
  fold (clv k) in R. rewrite E in R. destruct R as (PS & T & b & -> & EB). exists b. split; [reflexivity|].
  set (e := corner l (pr k)) in *. set (f := corner l k) in *. set (G := glen dx dy e f) in *. set (al := touch dx dy c a e f) in *.
  assert (AG : al * (sw e - sw f) = sw e - sw c + a * (h e - h f) / G) by (unfold al, touch; fold G; field; split; lra). split.
  - intros q b' W BB. pose proof (within_k q k W K) as L. fold e f in L. rewrite (pcross_hs dx dy D) in L.
    apply (far (h q + b' - h c) (sw q - sw c) (h e - h f) (sw e - sw f) G a); [lra|exact GP|exact GG|].
    set (gh := h e - h f) in *. set (gs := sw e - sw f) in *.
    replace (h q + b' - h c) with (h q + (a * gs / G - h e + al * gh) + (b' - b)) by lra.
    apply Rle_trans with ((h q + (a * gs / G - h e + al * gh)) * gs - (sw q - sw c) * gh);
      [|assert (0 <= (b' - b) * gs) by (apply Rmult_le_pos; lra); lra].
    replace ((h q + (a * gs / G - h e + al * gh)) * gs - (sw q - sw c) * gh) with ((h q - h e) * gs - (sw q - sw e) * gh + a * gs / G * gs + gh * (al * gs - (sw e - sw c))) by ring.
    replace (al * gs - (sw e - sw c)) with (a * gh / G) by lra.
    assert (a * G = a * gs / G * gs + gh * (a * gh / G)) as -> by (apply Rmult_eq_reg_r with G; [|lra]; replace (a * G * G) with (a * (G * G)) by ring; rewrite GG; field; lra).
    unfold gs, gh in *. lra.
  - exists (pr k), al. split; [now apply pred_lt|]. split; [lra|]. cbv zeta. rewrite next_pred by auto. fold e f.
    replace (h e + al * (h f - h e) + b - h c) with (a * (sw e - sw f) / G) by lra. replace (sw e + al * (sw f - sw e) - sw c) with (- (a * (h e - h f) / G)) by lra.
    apply Rmult_eq_reg_r with (G * G); [|nra]. rewrite GG at 2. field. lra.
Qed.
(** the cone at a corner *)
Lemma cone i q : (i < n)%nat -> within l q ->
  let P := corner l i in let A := corner l (pr i) in let B := corner l (next n i) in
  exists X u v, 0 < X /\ 0 <= u /\ 0 <= v /\ X = (h B - h P) * (sw A - sw P) - (sw B - sw P) * (h A - h P) /\
    X * (h q - h P) = u * (h A - h P) + v * (h B - h P) /\ X * (sw q - sw P) = u * (sw A - sw P) + v * (sw B - sw P).
Proof.
  intros I W P A B. pose proof (next_lt l CX i) as J. set (j := next n i) in *. assert (pr j = i) as PJ by (unfold j; apply pred_next; auto).
  assert (0 < pcross P B A) as X.
  { unfold P, B, A. rewrite <- PJ at 1. apply strictly_left; auto; [now apply pred_lt| |].
    - rewrite PJ. pose proof (n_pos l CX). unfold pred_. destruct (Nat.eqb_spec i 0); lia.
    - pose proof (n_pos l CX). unfold j. destruct (next_cases l i I) as [[? ->]|[? ->]]; unfold pred_; destruct (Nat.eqb_spec i 0); lia. }
  pose proof (within_k q i W I) as L1. pose proof (within_k q j W J) as L2. rewrite PJ in L2. fold P A in L1. fold P B in L2.
  rewrite (pcross_hs dx dy D) in X, L1, L2.
  exists ((h B - h P) * (sw A - sw P) - (sw B - sw P) * (h A - h P)), ((h B - h P) * (sw q - sw P) - (sw B - sw P) * (h q - h P)),
    ((h P - h A) * (sw q - sw A) - (sw P - sw A) * (h q - h A)).
  repeat split; try assumption; ring.
Qed.
Lemma corner_within j : (j < n)%nat -> within l (corner l j).
Proof. intros J i I. cbv zeta. pose proof (left_of l CX (next n i) j (next_lt l CX i) J) as L. rewrite pred_next in L by auto. exact L. Qed.
(** a chosen corner *)
Lemma corner_covers i : (i < n)%nat -> cond (clv i) (clv (next n i)) = true -> exists b, circlealignpoint c a dx dy (corner l i) = Some (b * dx, b * dy) /\ covers b.
Proof.
  intros I C. pose proof (next_lt l CX i) as J. set (j := next n i) in *. assert (pr j = i) as PJ by (unfold j; apply pred_next; auto).
  destruct (circle_line_result dx dy D c a _ _ (clear_k i I)) as [R1 _]. destruct (glen_pos dx dy _ _ (clear_k i I)) as [GP1 GG1]. fold (clv i) in R1.
  destruct (circle_line_result dx dy D c a _ _ (clear_k j J)) as [R2 _]. destruct (glen_pos dx dy _ _ (clear_k j J)) as [GP2 GG2]. fold (clv j) in R2. rewrite PJ in R2, GP2, GG2.
  set (P := corner l i) in *. set (A := corner l (pr i)) in *. set (B := corner l j) in *.
  set (s := sw P - sw c).
  set (g1h := h A - h P) in *. set (g1s := sw A - sw P) in *. set (g2h := h P - h B) in *. set (g2s := sw P - sw B) in *. set (G1 := glen dx dy A P) in *. set (G2 := glen dx dy P B) in *.
  assert (T1 : clv i = UseF -> 0 < g1s /\ - (a * g1h) < s * G1).
  { intros E. rewrite E in R1. destruct R1 as [S1 T]. split; [exact S1|]. unfold touch in T. fold G1 g1h g1s in T.
    apply (Rmult_lt_compat_r g1s) in T; [|exact S1]. replace ((sw A - sw c + a * g1h / G1) / g1s * g1s) with (sw A - sw c + a * g1h / G1) in T by (field; lra).
    assert (0 < s + a * g1h / G1) as Q by (unfold s, g1s in *; lra). apply (Rmult_lt_compat_r G1) in Q; [|exact GP1].
    replace ((s + a * g1h / G1) * G1) with (s * G1 + a * g1h) in Q by (field; lra). lra. }
  assert (T2 : clv j = UseE -> 0 < g2s /\ s * G2 < - (a * g2h)).
  { intros E. rewrite E in R2. destruct R2 as [S1 T]. split; [exact S1|]. unfold touch in T. fold G2 g2h g2s in T.
    apply (Rmult_lt_compat_r g2s) in T; [|exact S1]. replace ((sw P - sw c + a * g2h / G2) / g2s * g2s) with (sw P - sw c + a * g2h / G2) in T by (field; lra).
    assert (s + a * g2h / G2 < 0) as Q by (unfold s, g2s in *; lra). apply (Rmult_lt_compat_r G2) in Q; [|exact GP2].
    replace ((s + a * g2h / G2) * G2) with (s * G2 + a * g2h) in Q by (field; lra). lra. }
  assert (BOUND : forall gh gs G, 0 < G -> G * G = gh * gh + gs * gs -> - G <= gh <= G).
  { intros gh gs G Gp E. split; apply Rnot_lt_le; intros L; pose proof (Rle_0_sqr gs) as Z; unfold Rsqr in Z; [assert (G * G < - gh * - gh) by (apply Rmult_le_0_lt_compat; lra)|assert (G * G < gh * gh) by (apply Rmult_le_0_lt_compat; lra)]; lra. }
  assert (LOW : clv i = UseF -> - a <= s).
  { intros E. destruct (T1 E) as [_ T]. destruct (BOUND g1h g1s G1 GP1 GG1) as [_ B1]. apply Rnot_lt_le. intros L.
    pose proof (Rmult_le_compat_l a _ _ (Rlt_le _ _ PA) B1). pose proof (Rmult_lt_compat_r G1 _ _ GP1 L). lra. }
  assert (UP : clv j = UseE -> s <= a).
  { intros E. destruct (T2 E) as [_ T]. destruct (BOUND g2h g2s G2 GP2 GG2) as [B1 _]. apply Rnot_lt_le. intros L.
    pose proof (Rmult_le_compat_l a _ _ (Rlt_le _ _ PA) B1). pose proof (Rmult_lt_compat_r G2 _ _ GP2 L). lra. }
  assert (CASES : (clv i = UseF \/ clv i = Nothing /\ g1s <= 0) /\ (clv j = UseE \/ clv j = Nothing /\ g2s <= 0) /\ (clv i = UseF \/ clv j = UseE)).
  { unfold cond in C. destruct (clv i), (clv j); try discriminate C; auto; repeat split; auto. }
  destruct CASES as (C1 & C2 & C3).
  assert (EXT : forall q, within l q -> (g1s <= 0 -> 0 <= g2s -> sw q <= sw P) /\ (0 <= g1s -> g2s <= 0 -> sw P <= sw q)).
  { intros q W. destruct (cone i q I W) as (X & u & v & PX & PU & PV & _ & _ & E2). fold j P A B in E2. fold g1s in E2. replace (sw B - sw P) with (- g2s) in E2 by (unfold g2s; ring). split; intros S1 S2.
    - assert (0 <= u * - g1s) by (apply Rmult_le_pos; lra). assert (0 <= v * g2s) by (apply Rmult_le_pos; lra). apply Rnot_lt_le. intros L.
      assert (0 < X * (sw q - sw P)) by (apply Rmult_lt_0_compat; lra). lra.
    - assert (0 <= u * g1s) by (apply Rmult_le_pos; lra). assert (0 <= v * - g2s) by (apply Rmult_le_pos; lra). apply Rnot_lt_le. intros L.
      assert (0 < X * (sw P - sw q)) by (apply Rmult_lt_0_compat; lra). lra. }
  assert (SB : - a <= s <= a).
  { split.
    - destruct C1 as [E|[_ S1]]; [auto|]. destruct C3 as [E|E]; [auto|]. destruct (T2 E) as [S2 _]. destruct SHR as (q & IQ & LQ). apply (in_corner l) in IQ as (m & M & ->).
      destruct (EXT _ (corner_within m M)) as [X _]. specialize (X S1 ltac:(lra)). unfold s. lra.
    - destruct C2 as [E|[_ S1]]; [auto|]. destruct C3 as [E|E]; [|auto]. destruct (T1 E) as [S2 _]. destruct SHL as (q & IQ & LQ). apply (in_corner l) in IQ as (m & M & ->).
      destruct (EXT _ (corner_within m M)) as [_ X]. specialize (X ltac:(lra) S1). unfold s. lra. }
  assert (SS : 0 <= a * a - s * s) by (replace (a * a - s * s) with ((a - s) * (a + s)) by ring; apply Rmult_le_pos; lra).
  set (H := sqrt (a * a - s * s)). assert (PH : 0 <= H) by apply sqrt_pos. assert (HS : H * H + s * s = a * a) by (unfold H; rewrite sqrt_sqrt by exact SS; ring).
  exists (H - (h P - h c)). split.
  { unfold circlealignpoint. destruct (ltb_case (a * a) eps) as [[L _]|[_ ->]]; [lra|]. cbv zeta.
    assert (EP : (px P - px c) * dx + (py P - py c) * dy = h P - h c) by (unfold BoxAlign.h; ring). rewrite EP.
    rewrite (square_hs dx dy D (px P - px c) (py P - py c)), EP. replace ((py P - py c) * dx - (px P - px c) * dy) with s by (unfold s, BoxAlign.sw; ring).
    replace (2 * (h P - h c) * (2 * (h P - h c)) / 4 - ((h P - h c) * (h P - h c) + s * s - a * a)) with (a * a - s * s) by field. fold H.
    destruct (ltb_case (a * a - s * s) 0) as [[L _]|[_ ->]]; [lra|]. destruct (ltb_case 0 a) as [[_ ->]|[L _]]; [|lra]. replace (- (2 * (h P - h c)) / 2 + H) with (H - (h P - h c)) by field. reflexivity. }
  (* the corner is on the circle, the edges lead away from it *)
  destruct (cone i P I (corner_within i I)) as (X & _ & _ & PX & _ & _ & EX & _). fold j P A B in EX. fold g1s g1h in EX.
  assert (X = g2s * g1h - g2h * g1s) as EX2 by (rewrite EX; unfold g2s, g2h; ring).
  assert (W2' : clv j = UseE -> H * g2h + s * g2s <= 0) by (intros E; destruct (T2 E) as [S2 T]; apply (side_pos H s a g2h g2s G2); auto; lra).
  assert (W1' : clv i = UseF -> 0 <= H * g1h + s * g1s).
  { intros E. destruct (T1 E) as [S1 T]. assert (H * - g1h + - s * g1s <= 0); [|lra]. apply (side_pos H (- s) a (- g1h) g1s G1); auto; lra. }
  assert (W1 : 0 <= H * g1h + s * g1s).
  { destruct C1 as [E|[_ S1]]; [auto|]. destruct C3 as [E|E]; [auto|]. destruct (T2 E) as [S2 _]. specialize (W2' E).
    apply Rnot_lt_le. intros L. assert (0 < g2s * - (H * g1h + s * g1s)) as Q by (apply Rmult_lt_0_compat; lra).
    assert (0 <= - g1s * - (H * g2h + s * g2s)) as Q2 by (apply Rmult_le_pos; lra). assert (0 <= H * X) as Q3 by (apply Rmult_le_pos; lra). rewrite EX2 in Q3. lra. }
  assert (W2 : H * g2h + s * g2s <= 0).
  { destruct C2 as [E|[_ S1]]; [auto|]. destruct C3 as [E|E]; [|auto]. destruct (T1 E) as [S2 _]. specialize (W1' E).
    apply Rnot_lt_le. intros L. assert (0 < g1s * (H * g2h + s * g2s)) as Q by (apply Rmult_lt_0_compat; lra).
    assert (0 <= - g2s * (H * g1h + s * g1s)) as Q2 by (apply Rmult_le_pos; lra). assert (0 <= H * X) as Q3 by (apply Rmult_le_pos; lra). rewrite EX2 in Q3. lra. }
  split.
  - intros q k W KK. destruct (cone i q I W) as (X' & u & v & PX' & PU & PV & _ & E1 & E2). fold j P A B in E1, E2. fold g1h in E1. fold g1s in E2.
    replace (h B - h P) with (- g2h) in E1 by (unfold g2h; ring). replace (sw B - sw P) with (- g2s) in E2 by (unfold g2s; ring).
    set (dk := k - (H - (h P - h c))) in *. assert (0 <= dk) as PD by (unfold dk; lra). replace (h q + k - h c) with (H + (h q - h P) + dk) by (unfold dk; ring). replace (sw q - sw c) with (s + (sw q - sw P)) by (unfold s; ring).
    set (y1 := h q - h P) in *. set (y2 := sw q - sw P) in *.
    assert (0 <= H * y1 + s * y2) as DOT.
    { apply Rnot_lt_le. intros L. assert (0 < X' * - (H * y1 + s * y2)) as Q by (apply Rmult_lt_0_compat; lra).
      assert (X' * (H * y1 + s * y2) = u * (H * g1h + s * g1s) + v * - (H * g2h + s * g2s)) as EQ by (replace (X' * (H * y1 + s * y2)) with (H * (X' * y1) + s * (X' * y2)) by ring; rewrite E1, E2; ring).
      assert (0 <= u * (H * g1h + s * g1s)) by (apply Rmult_le_pos; lra). assert (0 <= v * - (H * g2h + s * g2s)) by (apply Rmult_le_pos; lra). lra. }
    pose proof (Rle_0_sqr (y1 + dk)) as Z1. pose proof (Rle_0_sqr y2) as Z2. unfold Rsqr in Z1, Z2. pose proof (Rmult_le_pos _ _ PH PD). lra.
  - exists i, 0. split; [exact I|]. split; [pose proof eps_pos; lra|]. cbv zeta. fold P. replace (h P + 0 * (h (corner l (next n i)) - h P) + (H - (h P - h c)) - h c) with H by ring.
    replace (sw P + 0 * (sw (corner l (next n i)) - sw P) - sw c) with s by (unfold s; ring). exact HS.
Qed.
(** there are edges on both sides *)
Lemma exists_min (f : point -> R) (r : list point) : r <> [] -> exists p, In p r /\ forall q, In q r -> f p <= f q.
Proof.
  induction r as [|p r IH]; [congruence|]. intros _. destruct r as [|p' r].
  - exists p. split; [now left|]. intros q [->|[]]; lra.
  - destruct IH as (m & I & M); [discriminate|]. destruct (Rle_dec (f p) (f m)) as [L|L].
    + exists p. split; [now left|]. intros q [->|J]; [lra|]. specialize (M q J). lra.
    + exists m. split; [now right|]. intros q [->|J]; [lra|]. auto.
Qed.
Lemma some_nothing : exists k, (k < n)%nat /\ clv k = Nothing.
Proof.
  destruct (exists_min sw l) as (p & IP & M); [intros E; pose proof (n_pos l CX) as N3; rewrite E in N3; cbn in N3; lia|]. apply (in_corner l) in IP as (i & I & ->).
  exists (next n i). pose proof (next_lt l CX i) as J. split; [exact J|].
  destruct (circle_line_result dx dy D c a _ _ (clear_k _ J)) as [_ N]. apply N. rewrite pred_next by auto.
  assert (sw (corner l i) <= sw (corner l (next n i))) as L by (apply M; apply in_corner; eauto). lra.
Qed.
Lemma some_edge : ~ (forall k, (k < n)%nat -> clv k = Nothing).
Proof.
  intros ALL. pose proof (n_pos l CX) as N3.
  assert (LE : forall k, (k < n)%nat -> sw (corner l (pr k)) <= sw (corner l k)).
  { intros k K. destruct (circle_line_result dx dy D c a _ _ (clear_k k K)) as [R _]. fold (clv k) in R. rewrite (ALL k K) in R. lra. }
  assert (CH : forall k m, (m + k < n)%nat -> sw (corner l m) <= sw (corner l (m + k))).
  { induction k as [|k IH]; intros m K; [rewrite Nat.add_0_r; lra|]. apply Rle_trans with (sw (corner l (m + k))); [apply IH; lia|].
    pose proof (LE (m + S k)%nat K) as L. destruct (pred_cases l (m + S k)) as [[? _]|[_ E]]; [lia|]. rewrite E in L. replace (m + S k - 1)%nat with (m + k)%nat in L by lia. exact L. }
  pose proof (LE 0%nat ltac:(lia)) as L0. destruct (pred_cases l 0) as [[_ E]|[? _]]; [|lia]. rewrite E in L0.
  pose proof (CH 1%nat 0%nat ltac:(lia)) as A. pose proof (CH 1%nat 1%nat ltac:(lia)) as B. pose proof (CH (n - 1 - 2)%nat 2%nat ltac:(lia)) as Q. replace (2 + (n - 1 - 2))%nat with (n - 1)%nat in Q by lia. cbn [Nat.add] in A, B.
  assert (0 < pcross (corner l (pr 1)) (corner l 1) (corner l 2)) as X by (apply strictly_left; auto; try lia; destruct (pred_cases l 1) as [[? _]|[_ E']]; lia).
  destruct (pred_cases l 1) as [[? _]|[_ E']]; [lia|]. rewrite E' in X. cbn [Nat.sub] in X. rewrite (pcross_hs dx dy D) in X.
  replace (sw (corner l 2) - sw (corner l 0)) with 0 in X by lra. replace (sw (corner l 1) - sw (corner l 0)) with 0 in X by lra. lra.
Qed.
Lemma circle_search_finds : first_vector clvs <> None \/ exists i, (i < n)%nat /\ cond (clv i) (clv (next n i)) = true.
Proof.
  assert (forall v k, (k < n)%nat -> clv k = Vector v -> first_vector clvs <> None) as FV.
  { intros v k K E. assert (In (Vector v) clvs) as IN by (rewrite <- E, <- clvs_nth by auto; apply nth_In; rewrite clvs_length; auto).
    clear - IN. induction clvs as [|x r IH]; [destruct IN|]. destruct IN as [->|IN]; cbn; [discriminate|]. destruct x; auto; discriminate. }
  destruct (first_vector clvs) as [w|] eqn:EV; [left; discriminate|right].
  assert (NV : forall v k, (k < n)%nat -> clv k <> Vector v) by (intros v k K E; exact (FV v k K E eq_refl)).
  destruct some_nothing as (k0 & K0 & E0). pose proof (n_pos l CX) as N3.
  set (g := fun k => ((k0 + k) mod n)%nat). assert (GL : forall k, (g k < n)%nat) by (intros k; apply Nat.mod_upper_bound; lia).
  assert (GN : forall k, next n (g k) = g (S k)) by (intros k; unfold next, g; rewrite Nat.add_mod_idemp_l by lia; f_equal; lia).
  set (F := exists i, (i < n)%nat /\ cond (clv i) (clv (next n i)) = true).
  assert (INV : forall m, F \/ (forall k, (k <= m)%nat -> clv (g k) = Nothing) \/ clv (g m) = UseF).
  { induction m as [|m IH].
    - right. left. intros k K. replace k with 0%nat by lia. unfold g. rewrite Nat.add_0_r, Nat.mod_small by exact K0. exact E0.
    - destruct IH as [IH|[IH|IH]]; [left; exact IH| |].
      + pose proof (IH m (le_n m)) as Em. destruct (clv (g (S m))) as [| | |v] eqn:E.
        * right. left. intros k K. destruct (Nat.eq_dec k (S m)) as [->|]; [exact E|]. apply IH. lia.
        * left. exists (g m). split; [apply GL|]. rewrite GN, Em, E. reflexivity.
        * right. right. reflexivity.
        * exfalso. exact (NV v _ (GL _) E).
      + destruct (clv (g (S m))) as [| | |v] eqn:E.
        * left. exists (g m). split; [apply GL|]. rewrite GN, IH, E. reflexivity.
        * left. exists (g m). split; [apply GL|]. rewrite GN, IH, E. reflexivity.
        * right. right. reflexivity.
        * exfalso. exact (NV v _ (GL _) E). }
  destruct (INV n) as [H|[H|H]]; [exact H| |].
  - exfalso. apply some_edge. intros k K. destruct (le_lt_dec k0 k) as [L|L].
    + specialize (H (k - k0)%nat ltac:(lia)). unfold g in H. replace (k0 + (k - k0))%nat with k in H by lia. rewrite Nat.mod_small in H by exact K. exact H.
    + specialize (H (k + n - k0)%nat ltac:(lia)). unfold g in H. replace (k0 + (k + n - k0))%nat with (k + 1 * n)%nat in H by lia. rewrite Nat.mod_add in H by lia. rewrite Nat.mod_small in H by exact K. exact H.
  - exfalso. unfold g in H. replace (k0 + n)%nat with (k0 + 1 * n)%nat in H by lia. rewrite Nat.mod_add, Nat.mod_small in H by lia. congruence.
Qed.
Definition cfound : option point :=
  match first_vector clvs with
  | Some v => Some v
  | None => match find (fun ij => cond (nth (fst ij) clvs Nothing) (nth (snd ij) clvs Nothing)) (successivepointnumbers n) with
            | Some ij => circlealignpoint c a dx dy (fst (nth (snd ij) (successivepoints l) ((0, 0), (0, 0))))
            | None => Some (a * dx, a * dy)
            end
  end.
Lemma found_covers : exists b, cfound = Some (b * dx, b * dy) /\ covers b.
Proof.
  unfold cfound. destruct (first_vector clvs) as [v|] eqn:E.
  - assert (In (Vector v) clvs) as IN. { clear - E. induction clvs as [|x r IH]; [discriminate|]. cbn in E. destruct x; try (right; auto; fail). injection E as ->. now left. }
    destruct (In_nth _ _ Nothing IN) as (k & K & Ek). rewrite clvs_length in K. rewrite clvs_nth in Ek by auto.
    destruct (edge_covers k v K Ek) as (b & -> & CV). exists b. auto.
  - assert (length (successivepointnumbers n) = n) as LN by (unfold successivepointnumbers; now rewrite map_length, seq_length).
    destruct (find _ (successivepointnumbers n)) as [ij|] eqn:F.
    + apply find_some in F as [IN C]. destruct (In_nth _ _ (0, 0)%nat IN) as (k & K & Ek). rewrite LN in K. rewrite numbers_nth in Ek by auto. subst ij. cbn [fst snd] in *.
      rewrite sp_nth by auto. cbn [fst]. rewrite !clvs_nth in C by (auto; now apply pred_lt).
      apply corner_covers; [now apply pred_lt|]. now rewrite next_pred.
    + exfalso. destruct circle_search_finds as [H|(i & I & C)]; [congruence|]. pose proof (next_lt l CX i) as J.
      assert (In (nth (next n i) (successivepointnumbers n) (0, 0)%nat) (successivepointnumbers n)) as IN by (apply nth_In; lia).
      rewrite numbers_nth in IN by auto. pose proof (find_none _ _ F _ IN) as Q. cbn [fst snd] in Q. rewrite pred_next in Q by auto. rewrite !clvs_nth in Q by auto. congruence.
Qed.
End POLY.

(** ** the theorems *)
Lemma directions dx dy : (dx, dy) <> (0, 0) -> let r := sqrt (dx * dx + dy * dy) in 0 < r /\ dx / r * (dx / r) + dy / r * (dy / r) = 1 /\
  (forall q, BoxAlign.h (dx / r) (dy / r) q = height dx dy q) /\ (forall q, BoxAlign.sw (dx / r) (dy / r) q = sideways dx dy q).
Proof.
  intros N r. pose proof (norm_pos dx dy N) as PR. fold r in PR.
  assert (r * r = dx * dx + dy * dy) as RR by (apply sqrt_sqrt; pose proof (Rle_0_sqr dx) as A; pose proof (Rle_0_sqr dy) as B; unfold Rsqr in *; lra).
  split; [exact PR|]. split; [|split].
  - replace (dx / r * (dx / r) + dy / r * (dy / r)) with ((dx * dx + dy * dy) / (r * r)) by (field; lra). rewrite RR. field. rewrite <- RR. nra.
  - intros q. unfold BoxAlign.h, height. fold r. field. lra.
  - intros q. unfold BoxAlign.sw, sideways. fold r. field. lra.
Qed.
Lemma circle_general p a dx dy : convex (corners p) -> (dx, dy) <> (0, 0) -> clear_edges (corners p) dx dy -> in_shadow (corners p) dx dy (center p) -> 0 < a -> / 10 ^ 10 <= a ^ 2 ->
  exists k0, circlealignvector p a dx dy = Some (k0 * dx, k0 * dy) /\
    (forall q k, within (corners p) q -> k0 <= k -> a <= distance (translation (k * dx, k * dy) q) (center p)) /\
    (exists i t, (i < length (corners p))%nat /\ - / 10 ^ 10 < t < 1 + / 10 ^ 10 /\
       distance (translation (k0 * dx, k0 * dy) (on_line (corner (corners p) i) (corner (corners p) (next (length (corners p)) i)) t)) (center p) = a).
Proof.
  intros CX N CE (SL & SR) PA AE. destruct (directions dx dy N) as (PR & D & EH & ES). set (r := sqrt (dx * dx + dy * dy)) in *.
  assert (AE' : eps <= a * a) by (unfold eps; replace (a * a) with (a ^ 2) by ring; exact AE).
  destruct (found_covers (dx / r) (dy / r) D (corners p) CX) with (c := center p) (a := a) as (b & F & FAR & i & t & I & T & TO); try assumption.
  { intros i I. destruct (CE i I) as [C1 C2]. unfold clear_edge. pose proof (square_hs (dx / r) (dy / r) D) as Q. unfold eps. set (e := corner (corners p) i) in *. set (f := corner (corners p) (next (length (corners p)) i)) in *.
    assert ((px e - px f) ^ 2 + (py e - py f) ^ 2 = (BoxAlign.h (dx / r) (dy / r) e - BoxAlign.h (dx / r) (dy / r) f) * (BoxAlign.h (dx / r) (dy / r) e - BoxAlign.h (dx / r) (dy / r) f) +
      (BoxAlign.sw (dx / r) (dy / r) e - BoxAlign.sw (dx / r) (dy / r) f) * (BoxAlign.sw (dx / r) (dy / r) e - BoxAlign.sw (dx / r) (dy / r) f)) as E2.
    { replace ((px e - px f) ^ 2 + (py e - py f) ^ 2) with ((px e - px f) * (px e - px f) + (py e - py f) * (py e - py f)) by ring. rewrite Q. unfold BoxAlign.h, BoxAlign.sw. ring. }
    rewrite <- E2. split; [exact C1|]. rewrite !ES. destruct C2 as [C2|C2]; [left; lra|right]. replace ((sideways dx dy e - sideways dx dy f) * (sideways dx dy e - sideways dx dy f)) with ((sideways dx dy e - sideways dx dy f) ^ 2) by ring. exact C2. }
  { destruct SL as (q & IQ & L). exists q. rewrite !ES. auto. }
  { destruct SR as (q & IQ & L). exists q. rewrite !ES. auto. }
  assert (DI : forall k q, distance (translation (k / r * dx, k / r * dy) q) (center p) =
    sqrt ((BoxAlign.h (dx / r) (dy / r) q + k - BoxAlign.h (dx / r) (dy / r) (center p)) * (BoxAlign.h (dx / r) (dy / r) q + k - BoxAlign.h (dx / r) (dy / r) (center p)) +
          (BoxAlign.sw (dx / r) (dy / r) q - BoxAlign.sw (dx / r) (dy / r) (center p)) * (BoxAlign.sw (dx / r) (dy / r) q - BoxAlign.sw (dx / r) (dy / r) (center p)))).
  { intros k q. unfold distance. f_equal. set (u := px (translation (k / r * dx, k / r * dy) q) - px (center p)). set (v := py (translation (k / r * dx, k / r * dy) q) - py (center p)).
    replace (u ^ 2 + v ^ 2) with (u * u + v * v) by ring. rewrite (square_hs (dx / r) (dy / r) D u v).
    assert (u = px q - px (center p) + k * (dx / r)) as -> by (unfold u, translation; cbn [px py fst snd]; unfold px; cbn [fst]; field; lra).
    assert (v = py q - py (center p) + k * (dy / r)) as -> by (unfold v, translation; cbn [px py fst snd]; unfold py; cbn [snd]; field; lra).
    set (ex := dx / r) in *. set (ey := dy / r) in *.
    replace ((px q - px (center p) + k * ex) * ex + (py q - py (center p) + k * ey) * ey) with (BoxAlign.h ex ey q + k * (ex * ex + ey * ey) - BoxAlign.h ex ey (center p)) by (unfold BoxAlign.h; ring).
    rewrite D. unfold BoxAlign.h, BoxAlign.sw. ring. }
  assert (sqrt (a * a) = a) as SA by (apply sqrt_square; lra).
  exists (b / r). split; [|split].
  - transitivity (Some (b * (dx / r), b * (dy / r))); [exact F|]. f_equal. f_equal; field; lra.
  - intros q k W L. replace k with (k * r / r) by (field; lra). rewrite DI, <- SA at 1. apply sqrt_le_1_alt. apply FAR; [exact W|].
    apply (Rmult_le_compat_r r) in L; [|lra]. replace (b / r * r) with b in L by (field; lra). exact L.
  - exists i, t. split; [exact I|]. split; [exact T|]. cbv zeta in TO. set (e := corner (corners p) i) in *. set (f := corner (corners p) (next (length (corners p)) i)) in *.
    assert (forall ex ey, BoxAlign.h ex ey (on_line e f t) = BoxAlign.h ex ey e + t * (BoxAlign.h ex ey f - BoxAlign.h ex ey e)) as L1 by (intros; unfold BoxAlign.h, on_line; cbn [px py fst snd]; unfold px, py; cbn [fst snd]; ring).
    assert (forall ex ey, BoxAlign.sw ex ey (on_line e f t) = BoxAlign.sw ex ey e + t * (BoxAlign.sw ex ey f - BoxAlign.sw ex ey e)) as L2 by (intros; unfold BoxAlign.sw, on_line; cbn [px py fst snd]; unfold px, py; cbn [fst snd]; ring).
    rewrite DI, L1, L2, TO. exact SA.
Qed.
(** C144: aligning a convex polygon at a circle around its center moves it along the direction; afterwards none of its points is within the circle, nor
    would be if it was moved on, and a point of its boundary is on the circle *)
Theorem circle_align : forall p a dx dy, convex (corners p) -> (dx, dy) <> (0, 0) -> clear_edges (corners p) dx dy -> in_shadow (corners p) dx dy (center p) -> 0 < a -> / 10 ^ 10 <= a ^ 2 ->
  exists v, circlealignvector p a dx dy = Some v /\ (exists k, v = (k * dx, k * dy)) /\
    (forall q m, within (corners p) q -> 0 <= m -> a <= distance (translation (px v + m * dx, py v + m * dy) q) (center p)) /\
    (exists i t, (i < length (corners p))%nat /\ - / 10 ^ 10 < t < 1 + / 10 ^ 10 /\
       distance (translation v (on_line (corner (corners p) i) (corner (corners p) (next (length (corners p)) i)) t)) (center p) = a).
Proof.
  intros p a dx dy CX N CE SH PA AE. destruct (circle_general p a dx dy CX N CE SH PA AE) as (k & E & FA & TO). exists (k * dx, k * dy).
  split; [exact E|]. split; [eauto|]. split; [|exact TO]. intros q m W M. cbn [px py fst snd]. unfold px, py; cbn [fst snd].
  replace (k * dx + m * dx, k * dy + m * dy) with ((k + m) * dx, (k + m) * dy) by (f_equal; ring). apply FA; [exact W|lra].
Qed.
Print Assumptions circle_align.
(** C144: aligning several polygons equally moves them by the same vector, such that none of them has points within the circle around its center, and that of one of them is touched *)
Theorem circle_equal : forall l a dx dy, (dx, dy) <> (0, 0) -> 0 < a -> / 10 ^ 10 <= a ^ 2 -> l <> [] ->
  (forall p, In p l -> convex (corners p) /\ clear_edges (corners p) dx dy /\ in_shadow (corners p) dx dy (center p)) ->
  exists v, circlealignequal l a dx dy = Some (map (transform (translation v) false) l) /\ (exists k, v = (k * dx, k * dy)) /\
    (forall p q, In p l -> within (corners p) q -> a <= distance (translation v q) (center p)) /\
    (exists p i t, In p l /\ (i < length (corners p))%nat /\ - / 10 ^ 10 < t < 1 + / 10 ^ 10 /\
       distance (translation v (on_line (corner (corners p) i) (corner (corners p) (next (length (corners p)) i)) t)) (center p) = a).
Proof.
  intros l a dx dy N PA AE NE ALL. pose proof (norm_pos dx dy N) as PR.
  assert (PD : 0 < dx * dx + dy * dy) by (apply Rnot_le_lt; intros C; rewrite sqrt_neg_0 in PR by exact C; lra).
  (* each has a vector *)
  assert (forall p, In p l -> exists k0, circlealignvector p a dx dy = Some (k0 * dx, k0 * dy) /\
    (forall q k, within (corners p) q -> k0 <= k -> a <= distance (translation (k * dx, k * dy) q) (center p)) /\
    (exists i t, (i < length (corners p))%nat /\ - / 10 ^ 10 < t < 1 + / 10 ^ 10 /\
       distance (translation (k0 * dx, k0 * dy) (on_line (corner (corners p) i) (corner (corners p) (next (length (corners p)) i)) t)) (center p) = a)) as G.
  { intros p I. destruct (ALL p I) as (C1 & C2 & C3). apply circle_general; assumption. }
  clear ALL.
  assert (forall r k1, (forall p, In p r -> In p l) -> (exists p, In p l /\ circlealignvector p a dx dy = Some (k1 * dx, k1 * dy)) ->
    exists k, fold_left (fun vec p => let v := circlealignvector p a dx dy in
      match vec, v with
      | None, _ => None
      | Some None, _ => Some v
      | Some (Some w), None => None
      | Some (Some w), Some u => Some (Some (if ltb (px w * dx + py w * dy) (px u * dx + py u * dy) then u else w))
      end) r (Some (Some (k1 * dx, k1 * dy))) = Some (Some (k * dx, k * dy)) /\ k1 <= k /\
      (exists p, In p l /\ circlealignvector p a dx dy = Some (k * dx, k * dy)) /\
      (forall p k', In p r -> circlealignvector p a dx dy = Some (k' * dx, k' * dy) -> k' <= k)) as FOLD.
  { induction r as [|p r IH]; intros k1 S W; [exists k1; split; [reflexivity|split; [lra|split; [exact W|intros ? ? []]]]|].
    destruct (G p (S p (or_introl eq_refl))) as (k2 & E & _). cbn [fold_left]. cbv zeta. rewrite E. cbn [px py fst snd].
    assert (UN : forall k k', circlealignvector p a dx dy = Some (k' * dx, k' * dy) -> k2 <= k -> k' <= k).
    { intros k k' E' L. rewrite E in E'. assert (px (k2 * dx, k2 * dy) = px (k' * dx, k' * dy) /\ py (k2 * dx, k2 * dy) = py (k' * dx, k' * dy)) as [X Y] by (inversion E' as [[X Y]]; cbn [px py fst snd]; rewrite X, Y; auto).
      cbn in X, Y. assert (k2 * (dx * dx + dy * dy) = k' * (dx * dx + dy * dy)) as Z by (replace (k2 * (dx * dx + dy * dy)) with (k2 * dx * dx + k2 * dy * dy) by ring; rewrite X, Y; ring).
      apply Rmult_eq_reg_r in Z; lra. }
    unfold px, py; cbn [fst snd].
    assert (forall k, k * dx * dx + k * dy * dy = k * (dx * dx + dy * dy)) as F by (intros; ring). rewrite !F.
    destruct (ltb_case (k1 * (dx * dx + dy * dy)) (k2 * (dx * dx + dy * dy))) as [[L ->]|[L ->]].
    - apply Rmult_lt_reg_r in L; [|exact PD]. destruct (IH k2) as (k & E1 & L1 & W1 & A1); [intros; apply S; now right|exists p; split; [apply S; now left|exact E]|].
      exists k. split; [exact E1|]. split; [lra|]. split; [exact W1|]. intros p' k' [<-|I] E'; [eapply UN; eauto|eauto].
    - apply Rmult_le_reg_r in L; [|exact PD]. destruct (IH k1) as (k & E1 & L1 & W1 & A1); [intros; apply S; now right|exact W|].
      exists k. split; [exact E1|]. split; [lra|]. split; [exact W1|]. intros p' k' [<-|I] E'; [apply (UN k k' E'); lra|eauto]. }
  destruct l as [|p0 l]; [congruence|]. destruct (G p0 (or_introl eq_refl)) as (k1 & E & _).
  destruct (FOLD l k1) as (k & E1 & L1 & (pw & IW & EW) & A1); [intros; now right|exists p0; split; [now left|exact E]|].
  assert (circlefarthest a dx dy (p0 :: l) = Some (Some (k * dx, k * dy))) as EF by (unfold circlefarthest; cbn [fold_left]; cbv zeta; rewrite E; exact E1).
  exists (k * dx, k * dy). split; [unfold circlealignequal; rewrite EF; reflexivity|]. split; [eauto|]. split.
  - intros p q I W. destruct (G p I) as (k' & E' & FA & _). apply FA; [exact W|]. destruct I as [<-|I]; [|eapply A1; eauto].
    rewrite E in E'. assert (k1 * dx = k' * dx /\ k1 * dy = k' * dy) as [X Y] by (inversion E' as [[X Y]]; rewrite X, Y; auto).
    assert (k1 * (dx * dx + dy * dy) = k' * (dx * dx + dy * dy)) as Z by (replace (k1 * (dx * dx + dy * dy)) with (k1 * dx * dx + k1 * dy * dy) by ring; rewrite X, Y; ring). apply Rmult_eq_reg_r in Z; lra.
  - destruct (G pw IW) as (k' & E' & _ & i & t & I & T & TO). exists pw, i, t. split; [exact IW|]. split; [exact I|]. split; [exact T|].
    rewrite EW in E'. assert ((k * dx, k * dy) = (k' * dx, k' * dy)) as -> by (apply (f_equal (fun o => match o with Some x => x | None => (0, 0) end)) in E'; exact E'). exact TO.
Qed.
Print Assumptions circle_equal.

(** ** examples *)
(** a square with its center at a height y *)
Definition at_height (y : R) : polygon := {| corners := [(-1, -1); (1, -1); (1, 1); (-1, 1)]; center := (0, y) |}.
Lemma at_height_convex y : convex (corners (at_height y)).
Proof.
  split; [cbn; lia|]. intros i j I J N1 N2. cbn in I, J. unfold next in N2. cbn in N2.
  destruct i as [|[|[|[|i]]]]; [| | | |lia]; destruct j as [|[|[|[|j]]]]; try lia; cbn in *; try congruence; lra.
Qed.
Lemma sideways_right q : sideways 1 0 q = py q.
Proof. unfold sideways. replace (1 * 1 + 0 * 0) with 1 by ring. rewrite sqrt_1. field. Qed.
Lemma at_height_clear y : clear_edges (corners (at_height y)) 1 0.
Proof.
  intros i I. pose proof eps_small as PE. cbn in I. cbv zeta. rewrite !sideways_right.
  destruct i as [|[|[|[|i]]]]; [| | | |lia]; (split; [cbn; lra|cbn; try (left; lra); right; lra]).
Qed.
Lemma one_unit : sqrt (1 * 1 + 0 * 0) = 1.
Proof. replace (1 * 1 + 0 * 0) with 1 by ring. apply sqrt_1. Qed.
(** the result for the edge at the left *)
Lemma left_edge y : circlealignline (0, y) 3 1 0 (-1, 1) (-1, -1) =
  (if ltb (0 - eps) ((1 - y) / 2) && ltb ((1 - y) / 2) (1 + eps) then Vector (4, 0) else if ltb ((1 - y) / 2) 0 then UseE else UseF).
Proof.
  pose proof eps_small as PE. fold eps in PE. unfold circlealignline, px, py; cbn [fst snd].
  replace ((-1 - -1) * (-1 - -1) + (1 - -1) * (1 - -1)) with 4 by ring. destruct (ltb_case 4 eps) as [[L _]|[_ ->]]; [lra|]. cbv zeta.
  replace ((1 * (-1 - -1) + 0 * (1 - -1)) * 1 / 4) with 0 by field. replace (1 - (-1 - -1) * 0) with 1 by ring. replace (0 - (1 - -1) * 0) with 0 by ring.
  destruct (ltb_case (1 * 1 + 0 * 0) eps) as [[L _]|[_ ->]]; [lra|]. destruct (ltb_case (1 * (1 - -1) - 0 * (-1 - -1)) 0) as [[L _]|[_ ->]]; [lra|].
  replace ((1 * 1 + 0 * 0) / (1 * 1 + 0 * 0)) with 1 by field. rewrite sqrt_1.
  replace (((3 * 1 * 1 + 0 - -1) * 0 - (3 * 0 * 1 + y - 1) * 1) * 1 / ((1 - -1) * 1 - (-1 - -1) * 0)) with ((1 - y) / 2) by field.
  replace (((-1 - 3 * 1 * 1 - 0) * (1 - -1) - (1 - 3 * 0 * 1 - y) * (-1 - -1)) * 1 / ((-1 - -1) * 0 - (1 - -1) * 1)) with 4 by field.
  replace (4 * 1) with 4 by ring. replace (4 * 0) with 0 by ring. reflexivity.
Qed.
Example circle_align_ex : circlealignvector (at_height 0) 3 1 0 = Some (4, 0) /\ in_shadow (corners (at_height 0)) 1 0 (center (at_height 0)).
Proof.
  pose proof eps_small as PE. fold eps in PE. split.
  - unfold circlealignvector. rewrite one_unit. replace (1 / 1) with 1 by field. replace (0 / 1) with 0 by field. cbv zeta.
    change (successivepoints (corners (at_height 0))) with [((-1, 1), (-1, -1)); ((-1, -1), (1, -1)); ((1, -1), (1, 1)); ((1, 1), (-1, 1))]. cbn [map fst snd center at_height]. rewrite left_edge.
    destruct (ltb_case (0 - eps) ((1 - 0) / 2)) as [[_ ->]|[L _]]; [|lra]. destruct (ltb_case ((1 - 0) / 2) (1 + eps)) as [[_ ->]|[L _]]; [|lra]. reflexivity.
  - split; [exists (-1, -1)|exists (1, 1)]; (split; [cbn; auto|rewrite !sideways_right; cbn; lra]).
Qed.
Example circle_equal_ex : circlealignequal [at_height 0; at_height 0] 3 1 0 =
  Some [{| corners := [(3, -1); (5, -1); (5, 1); (3, 1)]; center := (4, 0) |}; {| corners := [(3, -1); (5, -1); (5, 1); (3, 1)]; center := (4, 0) |}].
Proof.
  destruct circle_align_ex as [E _]. unfold circlealignequal, circlefarthest. cbn [fold_left]. cbv zeta. rewrite E. unfold px, py; cbn [fst snd].
  destruct (ltb_case (4 * 1 + 0 * 0) (4 * 1 + 0 * 0)) as [[L _]|[_ ->]]; [lra|]. unfold transform, translation. cbn. repeat f_equal; lra.
Qed.
(** C144: with a center beside the polygon there is no result, which is an error *)
Theorem circle_outside_refuted : exists p a dx dy, convex (corners p) /\ (dx, dy) <> (0, 0) /\ clear_edges (corners p) dx dy /\ 0 < a /\ / 10 ^ 10 <= a ^ 2 /\ circlealign p a dx dy = None.
Proof.
  exists (at_height 5), 3, 1, 0. pose proof eps_small as PE. split; [apply at_height_convex|]. split; [intros E; injection E; lra|]. split; [apply at_height_clear|]. split; [lra|]. split; [lra|]. fold eps in PE.
  unfold circlealign, circlealignvector. rewrite one_unit. replace (1 / 1) with 1 by field. replace (0 / 1) with 0 by field. cbv zeta.
  change (successivepoints (corners (at_height 5))) with [((-1, 1), (-1, -1)); ((-1, -1), (1, -1)); ((1, -1), (1, 1)); ((1, 1), (-1, 1))]. cbn [map fst snd center at_height]. rewrite left_edge.
  destruct (ltb_case (0 - eps) ((1 - 5) / 2)) as [[L _]|[_ ->]]; [lra|]. cbn [andb]. destruct (ltb_case ((1 - 5) / 2) 0) as [[_ ->]|[L _]]; [|lra].
  assert (forall e f, clear_edge 1 0 e f -> BoxAlign.sw 1 0 e - BoxAlign.sw 1 0 f <= 0 -> circlealignline (0, 5) 3 1 0 e f = Nothing) as NO by (intros e f C L; apply (circle_line_result 1 0 ltac:(ring) (0, 5) 3 e f C); exact L).
  rewrite !NO by (unfold clear_edge, BoxAlign.h, BoxAlign.sw, px, py; cbn [fst snd]; lra).
  cbn. unfold circlealignpoint, px, py; cbn [fst snd]. destruct (ltb_case (3 * 3) eps) as [[L _]|[_ ->]]; [lra|]. cbv zeta.
  match goal with |- context [ltb ?x 0] => destruct (ltb_case x 0) as [[_ ->]|[L _]]; [reflexivity|lra] end.
Qed.
Print Assumptions circle_outside_refuted.
