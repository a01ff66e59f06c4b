(** * The triangles of a cell and their colors (C106) *)

From Coq Require Import Reals Bool List Lra Lia Arith Sorted Permutation.
From Verif Require Import Graph3dModel Graph3dSpec Graph3dProps Graph3dProps2 Graph3dProps3 GraphBar3dProps SurfaceModel SurfaceSpec SurfaceProps.
Import ListNotations.
Open Scope R_scope.

Definition bef (x y : R * nat) : Prop := fst x < fst y \/ fst x = fst y /\ (snd x <= snd y)%nat.
Lemma before_iff x y : before x y = true <-> bef x y.
Proof.
  unfold before, bef, ltb. destruct (Rlt_dec (fst x) (fst y)); cbn; [tauto|]. destruct (Rlt_dec (fst y) (fst x)); cbn; [split; [discriminate|intros [?|[? _]]; lra]|].
  rewrite Nat.leb_le. split; [intros; right; split; [lra|assumption]|intros [?|[_ ?]]; [lra|assumption]].
Qed.
Lemma insert_perm x l : Permutation (insert x l) (x :: l).
Proof. induction l as [|y l IH]; cbn; [auto|]. destruct (before x y); [auto|]. etransitivity; [apply perm_skip, IH|]. apply perm_swap. Qed.
Lemma sort_perm l : Permutation (sort l) l.
Proof. induction l as [|x l IH]; cbn; [auto|]. etransitivity; [apply insert_perm|]. constructor. exact IH. Qed.
Lemma sort_sorted l : StronglySorted bef (sort l).
Proof.
  induction l as [|x l IH]; [constructor|]. change (StronglySorted bef (insert x (sort l))). set (s := sort l) in *. clearbody s. rename IH into Ss. induction Ss as [|y s' S' IH F]; cbn; [repeat constructor|].
  destruct (before x y) eqn:B.
  - apply before_iff in B. constructor; [constructor; assumption|]. constructor; [exact B|]. eapply Forall_impl; [|exact F]. intros z Z. unfold bef in *. (destruct B as [B|[B1 B2]], Z as [Z|[Z1 Z2]]; try (left; lra); right; split; [lra|lia]).
  - constructor; [exact IH|]. eapply Permutation_Forall; [symmetry; apply insert_perm|]. constructor; [|exact F].
    assert (~ bef x y) as N by (intros H; apply before_iff in H; congruence). unfold bef in *. destruct (Rlt_dec (fst y) (fst x)); [left; assumption|].
    destruct (Req_EM_T (fst x) (fst y)) as [Q|Q]; [|exfalso; apply N; left; lra]. right. split; [auto|]. destruct (Nat.le_gt_cases (snd y) (snd x)); [assumption|]. exfalso. apply N. right. split; [exact Q|lia].
Qed.
Lemma sorted_precedes {A} (Q : A -> A -> Prop) l x y : StronglySorted Q l -> precedes l x y -> Q x y.
Proof.
  intros S (l1 & l2 & l3 & ->). induction l1 as [|a l1 IH]; cbn in S; inversion_clear S as [|? ? S' F].
  - apply (proj1 (Forall_forall _ _) F). apply in_or_app. right. left. reflexivity.
  - apply IH, S'.
Qed.
Lemma nodup_precedes {A} (l : list A) x y : NoDup l -> precedes l x y -> x <> y.
Proof.
  intros N (l1 & l2 & l3 & ->) ->. induction l1 as [|a l1 IH]; cbn in N; inversion_clear N as [|? ? N1 N2]; [|auto].
  apply N1. apply in_or_app. right. left. reflexivity.
Qed.
Lemma map_precedes {A B} (f : A -> B) l x y : precedes l x y -> precedes (map f l) (f x) (f y).
Proof. intros (l1 & l2 & l3 & ->). rewrite map_app. cbn. rewrite map_app. cbn. eexists _, _, _. reflexivity. Qed.
Lemma precedes_map {A B} (f : A -> B) l u v : precedes (map f l) u v -> exists x y, f x = u /\ f y = v /\ precedes l x y.
Proof.
  intros (l1 & l2 & l3 & E). revert l1 E. induction l as [|a l IH]; intros [|b l1] E; try discriminate; cbn in E; injection E as E1 E2.
  - assert (In v (map f l)) as I by (rewrite E2; apply in_or_app; right; left; reflexivity). apply in_map_iff in I as (y & Y & I).
    apply in_split in I as (k2 & k3 & ->). exists a, y. split; [exact E1|]. split; [exact Y|]. exists [], k2, k3. reflexivity.
  - destruct (IH l1 E2) as (x & y & Fx & Fy & k1 & k2 & k3 & ->). exists x, y. split; [exact Fx|]. split; [exact Fy|]. exists (a :: k1), k2, k3. reflexivity.
Qed.

(** the values by which the triangles are sorted, in parallel projections *)
Lemma sort_elements_parallel g i1 i2 r1 r2 phi theta : 0 < xscale g -> 0 < yscale g -> 0 < zscale g -> (i1 < 3)%nat -> (i2 < 3)%nat -> i1 <> i2 ->
  proj g = Parallel phi theta -> reversed g i1 = Some r1 -> reversed g i2 = Some r2 ->
  exists k, let w1 := Rabs (coord i1 (view phi theta)) * scale_of g i1 in let w2 := Rabs (coord i2 (view phi theta)) * scale_of g i2 in
  sort_elements g i1 i2 r1 r2 = Some (sort [((k - w1) / zindexscale g, 0%nat); ((k - w2) / zindexscale g, 1%nat); ((k + w2) / zindexscale g, 2%nat); ((k + w1) / zindexscale g, 3%nat)]).
Proof.
  intros X Y Z I1 I2 N Pj R1 R2.
  assert (forall i r, (i < 3)%nat -> reversed g i = Some r -> Rabs (coord i (view phi theta)) = if r then - coord i (view phi theta) else coord i (view phi theta)) as A.
  { intros i r I E. destruct (reversed_spec g i X Y Z I) as (r' & E' & D). rewrite Pj in D. assert (r' = r) as -> by congruence. destruct r.
    - apply Rabs_left. apply D. reflexivity.
    - apply Rabs_right. destruct (Rlt_dec (coord i (view phi theta)) 0) as [L|L]; [apply D in L; discriminate|lra]. }
  rewrite (A i1 r1 I1 R1), (A i2 r2 I2 R2). clear A R1 R2. unfold sort_elements. rewrite !vzindex_some by exact X. cbn [bind]. rewrite Pj, !zindex_parallel.
  assert (forall z, - (- z / zindexscale g) = z / zindexscale g) as Op by (intros; unfold Rdiv; ring). rewrite !Op.
  exists (match (i1 + i2)%nat with 1%nat => - coord 2 (view phi theta) * zscale g | 2%nat => - coord 1 (view phi theta) * yscale g | _ => - coord 0 (view phi theta) * xscale g end).
  cbv zeta. destruct (view phi theta) as [[c0 c1] c2].
  assert (forall (a b c d a' b' c' d' : R), a = a' -> b = b' -> c = c' -> d = d' -> Some (sort [(a, 0%nat); (b, 1%nat); (c, 2%nat); (d, 3%nat)]) = Some (sort [(a', 0%nat); (b', 1%nat); (c', 2%nat); (d', 3%nat)])) as Cg by (intros; subst; reflexivity).
  destruct i1 as [|[|[|?]]]; try lia; destruct i2 as [|[|[|?]]]; try lia; destruct r1, r2; cbn [Nat.add]; apply Cg; f_equal;
    unfold setitem, zero, position, dot; cbn [coord scale_of]; lra.
Qed.

(** In parallel projections the same is true for the elements of one cell, if the sizes of the cells fit to the sizes of the graph
    (as for square cells in graphs with the same size in both directions). *)
Theorem surface_order : forall g index1 index2 data values1 values2 elements e f p q phi theta,
  0 < xscale g -> 0 < yscale g -> 0 < zscale g -> (index1 < 3)%nat -> (index2 < 3)%nat -> index1 <> index2 -> proj g = Parallel phi theta ->
  on_grid index1 index2 data -> StronglySorted Rlt values1 -> StronglySorted Rlt values2 ->
  surface g index1 index2 data values1 values2 = Some elements -> precedes elements e f ->
  scale_of g index1 * scale_of g index1 * Rabs (snd (range1 e) - fst (range1 e)) = scale_of g index2 * scale_of g index2 * Rabs (snd (range2 e) - fst (range2 e)) ->
  in_triangle (tri e) p -> in_triangle (tri f) q -> ~ covers (proj g) (position g p) (position g q).
Proof.
  intros g i1 i2 data vs1 vs2 out e f p q phi theta X Y Z I1 I2 N Pj G S1 S2 E P Sq Tp Tq C.
  assert (outside g i1 /\ outside g i2) as (O1 & O2) by (unfold outside; rewrite Pj; auto).
  assert ((range1 e, range2 e) = (range1 f, range2 f)) as Same.
  { destruct (Req_EM_T (fst (range1 e)) (fst (range1 f))), (Req_EM_T (snd (range1 e)) (snd (range1 f))), (Req_EM_T (fst (range2 e)) (fst (range2 f))), (Req_EM_T (snd (range2 e)) (snd (range2 f)));
      try (exfalso; refine (surface_cells_order g i1 i2 data vs1 vs2 out e f p q X Y Z I1 I2 O1 O2 G S1 S2 E P _ Tp Tq C); intros Q; injection Q; intros; congruence).
    destruct (range1 e), (range1 f), (range2 e), (range2 f). cbn in *. congruence. }
  destruct (surface_spec g i1 i2 data vs1 vs2 out G S1 S2 E) as (r1 & r2 & order & R1 & R2 & Or & Sp & Pr).
  destruct (precedes_in _ _ _ P) as (Ie & If).
  destruct (Sp e Ie) as (_ & _ & _ & _ & _ & _ & _ & _ & D1 & D2).
  injection Same as Q1 Q2. destruct (Pr e f P) as [A|[(_ & A)|(_ & _ & v1 & v2 & v3 & v4 & l & T & H & L)]].
  { exfalso. unfold ordered, after in *. rewrite <- Q1 in A. destruct r1; lra. }
  { exfalso. unfold ordered, after in *. rewrite <- Q2 in A. destruct r2; lra. }
  destruct (triangles_spec _ _ _ _ _ _ _ _ _ _ T) as (M & Tr). destruct (precedes_in _ _ _ L) as (Le & Lf).
  destruct (Tr e Le) as (_ & _ & Te & _). destruct (Tr f Lf) as (_ & _ & Tf & _). rewrite Te in Tp. rewrite Tf in Tq.
  pose proof (map_precedes number _ _ _ L) as L'. rewrite M in L'. apply precedes_map in L' as ([z i] & [z' j] & Ei & Ej & L'). cbn in Ei, Ej.
  destruct (sort_elements_parallel g i1 i2 r1 r2 phi theta X Y Z I1 I2 N Pj R1 R2) as (k & So). cbv zeta in So. rewrite Or in So.
  apply (f_equal (fun o => match o with Some l => l | None => [] end)) in So. cbv beta iota in So.
  set (w1 := Rabs (coord i1 (view phi theta)) * scale_of g i1) in *. set (w2 := Rabs (coord i2 (view phi theta)) * scale_of g i2) in *.
  match type of So with _ = sort ?l0 => set (l4 := l0) in * end.
  assert (bef (z, i) (z', j)) as B by (apply (sorted_precedes bef order); [rewrite So; apply sort_sorted|exact L']).
  assert (NoDup (map snd order)) as ND.
  { rewrite So. eapply Permutation_NoDup; [apply Permutation_map; symmetry; apply sort_perm|]. unfold l4. cbn. repeat (constructor; [cbn; lia|]). constructor. }
  assert (i <> j) as Nij by (exact (nodup_precedes _ i j ND (map_precedes snd _ _ _ L'))).
  destruct (precedes_in _ _ _ L') as (Hi & Hj). rewrite So in Hi, Hj. apply sort_in_list in Hi, Hj.
  assert (i < 4)%nat as Bi by (unfold l4 in Hi; destruct Hi as [Hi|[Hi|[Hi|[Hi|[]]]]]; injection Hi; lia).
  assert (j < 4)%nat as Bj by (unfold l4 in Hj; destruct Hj as [Hj|[Hj|[Hj|[Hj|[]]]]]; injection Hj; lia).
  rewrite <- Ei in Tp. rewrite <- Ej in Tq.
  destruct (triangle_point i1 i2 _ _ v1 v2 v3 v4 i p H Bi Tp) as (x & y & Px & Py & Hx & Hy & Hxy).
  destruct (triangle_point i1 i2 _ _ v1 v2 v3 v4 j q H Bj Tq) as (x' & y' & Qx & Qy & Hx' & Hy' & Hxy').
  (* the difference of the positions *)
  rewrite Pj in C. cbn [covers] in C. destruct C as (t & Ht & C).
  assert (forall i0 r ra a b u v, (i0 < 3)%nat -> reversed g i0 = Some r -> ordered r ra -> coord i0 p = fst ra + u * (snd ra - fst ra) -> coord i0 q = fst ra + v * (snd ra - fst ra) ->
    a = Rabs (coord i0 (view phi theta)) * scale_of g i0 -> b = scale_of g i0 * scale_of g i0 * Rabs (snd ra - fst ra) -> (u - v) * (2 * b) = t * a /\ 0 <= a /\ 0 < b) as K.
  { clear - X Y Z C Pj Ht. intros i0 r ra a b u v I0 Rv Od Eu Ev -> ->. pose proof (scale_pos g i0 X Y Z) as Sc.
    apply (f_equal (coord i0)) in C. rewrite coord_add, coord_scaled, !coord_position, Eu, Ev in C. set (s := scale_of g i0) in *.
    destruct (reversed_spec g i0 X Y Z I0) as (r' & E' & D). rewrite Pj in D. assert (r' = r) as -> by congruence. set (c := coord i0 (view phi theta)) in *.
    unfold ordered in Od. destruct r.
    - assert (c < 0) as Lc by (apply D; reflexivity). rewrite (Rabs_left c Lc), (Rabs_left (snd ra - fst ra)) by lra. split; [|split; [apply Rmult_le_pos; lra|apply Rmult_lt_0_compat; [nra|lra]]].
      transitivity (- s * (2 * s * ((u - v) * (snd ra - fst ra)))); [ring|]. replace (2 * s * ((u - v) * (snd ra - fst ra))) with (t * c) by lra. ring.
    - assert (0 <= c) as Lc by (destruct (Rlt_dec c 0) as [Q|Q]; [apply D in Q; discriminate|lra]). rewrite (Rabs_right c), (Rabs_right (snd ra - fst ra)) by lra. split; [|split; [apply Rmult_le_pos; lra|apply Rmult_lt_0_compat; [nra|lra]]].
      transitivity (s * (2 * s * ((u - v) * (snd ra - fst ra)))); [ring|]. replace (2 * s * ((u - v) * (snd ra - fst ra))) with (t * c) by lra. ring. }
  set (b := scale_of g i1 * scale_of g i1 * Rabs (snd (range1 e) - fst (range1 e))) in *.
  destruct (K i1 r1 (range1 e) w1 b x x' I1 R1 D1 Px Qx eq_refl eq_refl) as (K1 & W1 & B0).
  destruct (K i2 r2 (range2 e) w2 b y y' I2 R2 D2 Py Qy eq_refl Sq) as (K2 & W2 & _). clear K.
  assert (0 <= x - x') as U1 by (apply (Rmult_le_reg_r (2 * b)); [lra|]; rewrite K1; nra).
  assert (0 <= y - y') as U2 by (apply (Rmult_le_reg_r (2 * b)); [lra|]; rewrite K2; nra).
  assert (w1 <= w2 -> x - x' <= y - y') as U12 by (intros; apply (Rmult_le_reg_r (2 * b)); [lra|]; rewrite K1, K2; nra).
  assert (w2 <= w1 -> y - y' <= x - x') as U21 by (intros; apply (Rmult_le_reg_r (2 * b)); [lra|]; rewrite K1, K2; nra).
  clear K1 K2. pose proof (zindexscale_pos g X) as Zs.
  assert (z <= z') as Bz by (destruct B as [B|[B _]]; cbn in B; lra).
  assert (forall u v, u / zindexscale g <= v / zindexscale g -> u <= v) as Dv.
  { intros u v Q. apply (Rmult_le_reg_r (/ zindexscale g)); [apply Rinv_0_lt_compat; exact Zs|]. exact Q. }
  assert (z = z' -> (i < j)%nat) as Tie by (intros ->; destruct B as [B|[_ B]]; cbn in B; [lra|lia]).
  unfold l4 in Hi, Hj. cbn [In] in Hi, Hj. clear - Hi Hj Nij Bz Dv Tie Hxy Hxy' U1 U2 U12 U21 W1 W2.
  assert (forall (u v : R) (n m : nat), (u, n) = (v, m) -> u = v /\ n = m) as Inj by (intros; split; congruence).
  assert (forall u v, z = u / zindexscale g -> z' = v / zindexscale g -> u <= v) as Dz by (intros u v -> ->; auto).
  destruct Hi as [Hi|[Hi|[Hi|[Hi|[]]]]]; destruct Hj as [Hj|[Hj|[Hj|[Hj|[]]]]]; apply Inj in Hi as [Hz <-]; apply Inj in Hj as [Hz' <-]; try (exfalso; apply Nij; reflexivity);
    pose proof (Dz _ _ (eq_sym Hz) (eq_sym Hz')) as Le; try (assert (w1 <= w2) by lra); try (assert (w2 <= w1) by lra); try lra.
  all: try (exfalso; assert (w1 = 0) by lra; assert (w2 = 0) by lra; assert (z = z') as Q by (rewrite <- Hz, <- Hz'; f_equal; lra); apply Tie in Q; lia).
  all: try (exfalso; assert (w1 = 0) by lra; assert (z = z') as Q by (rewrite <- Hz, <- Hz'; f_equal; lra); apply Tie in Q; lia).
  all: try (exfalso; assert (w2 = 0) by lra; assert (z = z') as Q by (rewrite <- Hz, <- Hz'; f_equal; lra); apply Tie in Q; lia).
Qed.
Print Assumptions surface_order.
