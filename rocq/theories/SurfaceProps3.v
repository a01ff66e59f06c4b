(** * The sides of surfaces, and where the order of the elements is wrong (C106) *)

From Coq Require Import Reals Bool List Lra Lia Arith Sorted.
From Verif Require Import Graph3dModel Graph3dSpec Graph3dProps Graph3dProps2 Graph3dProps3 GraphBar3dProps SurfaceModel SurfaceSpec SurfaceProps SurfaceProps2.
Import ListNotations.
Open Scope R_scope.

(** the sign of the angle is that of the scalar product *)
Lemma angle_sign p v1 v2 v3 : in_front p v1 -> normal v1 v2 v3 <> (0, 0, 0) ->
  exists a k, angle p v1 v2 v3 = Some a /\ 0 < k /\ a = k * dot (sight p v1) (normal v1 v2 v3).
Proof.
  intros F N. rewrite angle_dot. cbn zeta. set (n := normal v1 v2 v3) in *. set (s := sight p v1).
  pose proof (sight_zero p v1 F) as Z. fold s in Z. pose proof (dot_self s) as S1. pose proof (dot_self n) as S2.
  assert (dot n n <> 0) as Z' by (intros Q; apply N, dot_zero, Q).
  assert (0 < sqrt (dot n n)) by (apply sqrt_lt_R0; lra). assert (0 < sqrt (dot s s)) by (apply sqrt_lt_R0; lra).
  unfold divide. destruct (Req_EM_T (sqrt (dot n n)) 0); [lra|]. destruct (Req_EM_T (sqrt (dot s s)) 0); [lra|].
  eexists. exists (/ (sqrt (dot n n) * sqrt (dot s s))). split; [reflexivity|]. split; [apply Rinv_0_lt_compat, Rmult_lt_0_compat; assumption|]. field. lra.
Qed.

(** the components of the normals of the triangles *)
Definition third (i1 i2 : nat) (n : vec) : R :=
  match i1, i2 with 0, 1 => coord 2 n | 1, 0 => - coord 2 n | 1, 2 => coord 0 n | 2, 1 => - coord 0 n | 2, 0 => coord 1 n | _, _ => - coord 1 n end%nat.
Definition corner (t : vec * vec * vec) : vec := fst (fst t).
Lemma third_cross i1 i2 u w : (i1 < 3)%nat -> (i2 < 3)%nat -> i1 <> i2 -> third i1 i2 (cross u w) = coord i1 u * coord i2 w - coord i2 u * coord i1 w.
Proof.
  intros I1 I2 N. destruct u as [[? ?] ?], w as [[? ?] ?].
  destruct i1 as [|[|[|?]]]; try lia; destruct i2 as [|[|[|?]]]; try lia; cbn; ring.
Qed.
Lemma normal_third g i1 i2 a b v1 v2 v3 v4 n : (i1 < 3)%nat -> (i2 < 3)%nat -> i1 <> i2 -> corners_at i1 i2 a b v1 v2 v3 v4 -> (n < 4)%nat ->
  let '(p, q, r) := triangle v1 v2 v3 v4 n in
  third i1 i2 (normal (position g p) (position g q) (position g r)) = - 2 * scale_of g i1 * scale_of g i2 * (snd a - fst a) * (snd b - fst b).
Proof.
  intros I1 I2 N (A1 & B1 & A2 & B2 & A3 & B3 & A4 & B4 & _) L.
  destruct n as [|[|[|[|n]]]]; [| | | |lia]; unfold triangle, normal; rewrite third_cross by assumption; unfold sub; rewrite !coord_add, !coord_scaled, !coord_position, !coord_mid, ?A1, ?B1, ?A2, ?B2, ?A3, ?B3, ?A4, ?B4; lra.
Qed.
Lemma cross_zero i1 i2 n u w s : (i1 < 3)%nat -> (i2 < 3)%nat -> i1 <> i2 -> dot n u = 0 -> dot n w = 0 ->
  dot s (cross u w) * third i1 i2 n = third i1 i2 (cross u w) * dot s n.
Proof.
  intros I1 I2 N U W. destruct n as [[n0 n1] n2], u as [[u0 u1] u2], w as [[w0 w1] w2], s as [[s0 s1] s2]. unfold dot in U, W.
  (* (u x w) x n = w (u n) - u (w n) = 0 *)
  assert ((u1 * w2 - u2 * w1) * n2 = (u0 * w1 - u1 * w0) * n0) as Q1.
  { transitivity ((u0 * w1 - u1 * w0) * n0 + (u1 * (n0 * w0 + n1 * w1 + n2 * w2) - w1 * (n0 * u0 + n1 * u1 + n2 * u2))); [ring|]. rewrite U, W. ring. }
  assert ((u2 * w0 - u0 * w2) * n2 = (u0 * w1 - u1 * w0) * n1) as Q2.
  { transitivity ((u0 * w1 - u1 * w0) * n1 + (w0 * (n0 * u0 + n1 * u1 + n2 * u2) - u0 * (n0 * w0 + n1 * w1 + n2 * w2))); [ring|]. rewrite U, W. ring. }
  assert ((u1 * w2 - u2 * w1) * n1 = (u2 * w0 - u0 * w2) * n0) as Q3.
  { transitivity ((u2 * w0 - u0 * w2) * n0 + (w2 * (n0 * u0 + n1 * u1 + n2 * u2) - u2 * (n0 * w0 + n1 * w1 + n2 * w2))); [ring|]. rewrite U, W. ring. }
  unfold cross, dot. set (c0 := u1 * w2 - u2 * w1) in *. set (c1 := u2 * w0 - u0 * w2) in *. set (c2 := u0 * w1 - u1 * w0) in *.
  assert ((s0 * c0 + s1 * c1 + s2 * c2) * n2 = c2 * (s0 * n0 + s1 * n1 + s2 * n2)) as R2.
  { transitivity (s0 * (c0 * n2) + s1 * (c1 * n2) + s2 * c2 * n2); [ring|]. rewrite Q1, Q2. ring. }
  assert ((s0 * c0 + s1 * c1 + s2 * c2) * n1 = c1 * (s0 * n0 + s1 * n1 + s2 * n2)) as R1.
  { transitivity (s0 * (c0 * n1) + s1 * c1 * n1 + s2 * (c2 * n1)); [ring|]. rewrite Q3, <- Q2. ring. }
  assert ((s0 * c0 + s1 * c1 + s2 * c2) * n0 = c0 * (s0 * n0 + s1 * n1 + s2 * n2)) as R0'.
  { transitivity (s0 * c0 * n0 + s1 * (c1 * n0) + s2 * (c2 * n0)); [ring|]. rewrite <- Q3, <- Q1. ring. }
  destruct i1 as [|[|[|?]]]; try lia; destruct i2 as [|[|[|?]]]; try lia; cbn [third coord]; lra.
Qed.

(** Elements have the backcolor if and only if the viewer looks at their back; the front is where the third coordinate increases. *)
Theorem surface_back : forall g index1 index2 data values1 values2 elements e n,
  well_placed g -> (index1 < 3)%nat -> (index2 < 3)%nat -> index1 <> index2 ->
  on_grid index1 index2 data -> StronglySorted Rlt values1 -> StronglySorted Rlt values2 ->
  surface g index1 index2 data values1 values2 = Some elements -> In e elements -> front_normal g index1 index2 (tri e) n ->
  (back e = true <-> faces (proj g) (position g (corner (tri e))) (scaled (-1) n)).
Proof.
  intros g i1 i2 data vs1 vs2 out e n (X & Y & Z & _ & W) I1 I2 N G S1 S2 E I F.
  destruct (surface_spec g i1 i2 data vs1 vs2 out G S1 S2 E) as (r1 & r2 & order & R1 & R2 & Or & Sp & _).
  destruct (Sp e I) as (v1 & v2 & v3 & v4 & l & T & Il & H & D1 & D2). destruct (triangles_spec _ _ _ _ _ _ _ _ _ _ T) as (M & Tr).
  destruct (Tr e Il) as (_ & _ & Te & B).
  assert (number e < 4)%nat as L.
  { assert (In (number e) (map snd order)) as J by (rewrite <- M; apply in_map; exact Il). apply in_map_iff in J as ([z i] & J & J'). cbn in J. subst i. eapply numbers; eauto. }
  pose proof (normal_third g i1 i2 _ _ _ _ _ _ _ I1 I2 N H L) as Nt. rewrite <- Te in Nt.
  assert (in_graph (corner (tri e))) as Gc.
  { rewrite Te. destruct H as (_ & _ & _ & _ & _ & _ & _ & _ & G1 & G2 & G3 & G4). destruct (number e) as [|[|[|?]]]; cbn; assumption. }
  destruct (tri e) as [[p q] r]. cbn [corner fst] in *. destruct F as (F1 & F2 & F3).
  assert (0 < third i1 i2 n) as F0 by (destruct i1 as [|[|[|?]]]; try lia; destruct i2 as [|[|[|?]]]; try lia; cbn [third]; lra). clear F3.
  set (m := normal (position g p) (position g q) (position g r)) in *.
  assert ((if xorb r1 r2 then -1 else 1) * third i1 i2 m < 0) as Sg.
  { rewrite Nt. pose proof (scale_pos g i1 X Y Z). pose proof (scale_pos g i2 X Y Z).
    assert (forall c d, 0 < c -> 0 < d -> 0 < scale_of g i1 * scale_of g i2 * (c * d)) as Ps by (intros; repeat apply Rmult_lt_0_compat; assumption).
    unfold ordered in *. destruct r1, r2; cbn [xorb].
    - pose proof (Ps (fst (range1 e) - snd (range1 e)) (fst (range2 e) - snd (range2 e)) ltac:(lra) ltac:(lra)). lra.
    - pose proof (Ps (fst (range1 e) - snd (range1 e)) (snd (range2 e) - fst (range2 e)) ltac:(lra) ltac:(lra)). lra.
    - pose proof (Ps (snd (range1 e) - fst (range1 e)) (fst (range2 e) - snd (range2 e)) ltac:(lra) ltac:(lra)). lra.
    - pose proof (Ps (snd (range1 e) - fst (range1 e)) (snd (range2 e) - fst (range2 e)) ltac:(lra) ltac:(lra)). lra. }
  assert (m <> (0, 0, 0)) as M0.
  { intros Q. rewrite Q in Sg. assert (third i1 i2 (0, 0, 0) = 0) as Q0 by (destruct i1 as [|[|[|?]]]; try lia; destruct i2 as [|[|[|?]]]; try lia; cbn; ring). rewrite Q0 in Sg. lra. }
  destruct (angle_sign (proj g) (position g p) (position g q) (position g r) (W p Gc) M0) as (a & k & Ea & K & ->). fold m in Ea.
  cbn [is_back] in B. unfold vangle in B. rewrite Ea in B. cbn [bind] in B. injection B as <-. rewrite ltb_iff, faces_sight, dot_scaled.
  pose proof (cross_zero i1 i2 n (sub (position g q) (position g p)) (sub (position g r) (position g p)) (sight (proj g) (position g p)) I1 I2 N F1 F2) as Cz.
  change (cross (sub (position g q) (position g p)) (sub (position g r) (position g p))) with m in Cz.
  set (sm := dot (sight (proj g) (position g p)) m) in *. set (sn := dot (sight (proj g) (position g p)) n) in *.
  set (sg := if xorb r1 r2 then -1 else 1) in *. set (tn := third i1 i2 n) in *. set (tm := third i1 i2 m) in *.
  assert (sg * (k * sm) < 0 <-> sg * sm < 0) as -> by (split; intros; nra).
  assert (sg * sm < 0 <-> (sg * tm) * sn < 0) as ->.
  { replace (sg * tm * sn) with (sg * sm * tn) by (transitivity (sg * (sm * tn)); [ring|rewrite Cz; ring]). split; intros; nra. }
  split; intros; nra.
Qed.
Print Assumptions surface_back.
