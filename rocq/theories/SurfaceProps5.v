(** * Where the order of the elements of surfaces is wrong (C106) *)

From Coq Require Import Reals Bool List Lra Lia Arith Sorted.
From Verif Require Import Graph3dModel Graph3dSpec Graph3dProps Graph3dProps2 Graph3dProps3 GraphBar3dProps SurfaceModel SurfaceSpec SurfaceProps SurfaceProps2 SurfaceProps3 SurfaceProps4.
Import ListNotations.
Open Scope R_scope.

Lemma sort_id l : StronglySorted bef l -> sort l = l.
Proof.
  induction 1 as [|x l S IH F]; [reflexivity|]. change (insert x (sort l) = x :: l). rewrite IH. destruct l as [|y l]; [reflexivity|].
  cbn. rewrite (proj2 (before_iff x y) (Forall_inv F)). reflexivity.
Qed.
Lemma four_sorted a b c d : bef a b -> bef a c -> bef a d -> bef b c -> bef b d -> bef c d -> StronglySorted bef [a; b; c; d].
Proof. intros. repeat (apply SSorted_cons || apply SSorted_nil || apply Forall_cons || apply Forall_nil || assumption). Qed.
(** data for all positions: the heights [h] *)
Definition heights (h : R -> R -> R) (a b : R) : option (bool * bool * vec) := Some (true, (if Rle_dec 0 a then if Rle_dec a 1 then if Rle_dec 0 b then if Rle_dec b 1 then if Rle_dec 0 (h a b) then if Rle_dec (h a b) 1 then true else false else false else false else false else false else false), (a, b, h a b)).
Lemma heights_grid h : on_grid 0 1 (heights h).
Proof.
  intros a b x valid v E. unfold heights in E. injection E as _ <- <-. cbn. split; [reflexivity|]. split; [reflexivity|]. unfold unit_range.
  destruct (Rle_dec 0 a), (Rle_dec a 1), (Rle_dec 0 b), (Rle_dec b 1), (Rle_dec 0 (h a b)), (Rle_dec (h a b) 1); try discriminate. lra.
Qed.
Lemma heights_valid h a b : 0 <= a <= 1 -> 0 <= b <= 1 -> 0 <= h a b <= 1 -> heights h a b = Some (true, true, (a, b, h a b)).
Proof.
  intros. unfold heights.
  destruct (Rle_dec 0 a), (Rle_dec a 1), (Rle_dec 0 b), (Rle_dec b 1), (Rle_dec 0 (h a b)), (Rle_dec (h a b) 1); try lra. reflexivity.
Qed.
(** the elements of a valid cell *)
Lemma heights_cell g h neg order a b : well_placed g -> (forall z i, In (z, i) order -> (i < 4)%nat) ->
  let at_ x y := 0 <= x <= 1 /\ 0 <= y <= 1 /\ 0 <= h x y <= 1 in
  at_ (fst a) (fst b) -> at_ (fst a) (snd b) -> at_ (snd a) (fst b) -> at_ (snd a) (snd b) -> fst a <> snd a -> fst b <> snd b ->
  exists l, cell g (heights h) neg order a b = Some l /\ map number l = map snd order /\
  forall e, In e l -> range1 e = a /\ range2 e = b /\ tri e = triangle (fst a, fst b, h (fst a) (fst b)) (fst a, snd b, h (fst a) (snd b)) (snd a, fst b, h (snd a) (fst b)) (snd a, snd b, h (snd a) (snd b)) (number e).
Proof.
  intros W L at_ A1 A2 A3 A4 Da Db. unfold at_ in *. unfold cell. rewrite !heights_valid by tauto. cbn [negb orb].
  destruct (triangles_some g 0 1 neg a b (fst a, fst b, h (fst a) (fst b)) (fst a, snd b, h (fst a) (snd b)) (snd a, fst b, h (snd a) (fst b)) (snd a, snd b, h (snd a) (snd b)) order W ltac:(lia) ltac:(lia) ltac:(lia)) as (l & T); auto.
  - unfold corners_at. cbn. unfold unit_range. tauto.
  - exists l. split; [exact T|]. destruct (triangles_spec _ _ _ _ _ _ _ _ _ _ T) as (M & Tr). split; [exact M|]. intros e I. destruct (Tr e I) as (? & ? & ? & _). auto.
Qed.

(** a graph with equal sizes, seen from the direction (2, 1, 0); one cell with ten times the size in x direction *)
Definition slope (a b : R) : R := if Rlt_dec a (1 / 2) then 0 else if Rlt_dec b (1 / 20) then 7 / 10 else 3 / 10.
Definition wide_graph : graphxyz := mkgraph 0 0 1 1 1 1 (Parallel (atan (1 / 2)) 0).
Lemma wide_view : exists c, 0 < c /\ view (atan (1 / 2)) 0 = (2 * c, c, 0).
Proof.
  unfold view. rewrite sin_0, cos_0, cos_atan, sin_atan. exists (1 / 2 / sqrt (1 + (1 / 2)²)).
  assert (0 < sqrt (1 + (1 / 2)²)) by (apply sqrt_lt_R0; unfold Rsqr; lra). split; [apply Rdiv_lt_0_compat; lra|]. apply vec_ext; [field; lra|field; lra|reflexivity].
Qed.
Theorem surface_order_refuted : exists g data values1 values2 elements e f p q, well_placed g /\ on_grid 0 1 data /\
  StronglySorted Rlt values1 /\ StronglySorted Rlt values2 /\ surface g 0 1 data values1 values2 = Some elements /\ precedes elements e f /\
  in_triangle (tri e) p /\ in_triangle (tri f) q /\ covers (proj g) (position g p) (position g q).
Proof.
  destruct wide_view as (c & C & V).
  assert (well_placed wide_graph) as W by (unfold well_placed, wide_graph; cbn; repeat split; lra).
  assert (forall i, (i < 2)%nat -> reversed wide_graph i = Some false) as Rv.
  { intros i I. destruct (reversed_spec wide_graph i ltac:(cbn; lra) ltac:(cbn; lra) ltac:(cbn; lra) ltac:(lia)) as (r & -> & D). f_equal. destruct r; [|reflexivity].
    exfalso. assert (coord i (view (atan (1 / 2)) 0) < 0) as L by (apply D; reflexivity). rewrite V in L. destruct i as [|[|i]]; cbn in L; lra || lia. }
  destruct (sort_elements_parallel wide_graph 0 1 false false (atan (1 / 2)) 0 ltac:(cbn; lra) ltac:(cbn; lra) ltac:(cbn; lra) ltac:(lia) ltac:(lia) ltac:(lia) eq_refl (Rv 0%nat ltac:(lia)) (Rv 1%nat ltac:(lia))) as (k & So).
  cbv zeta in So. rewrite V in So. cbn [coord scale_of] in So. change (xscale wide_graph) with 1 in So. change (yscale wide_graph) with 1 in So.
  rewrite !Rmult_1_r, !Rabs_right in So by lra. pose proof (zindexscale_pos wide_graph ltac:(cbn; lra)) as Zs. rewrite sort_id in So.
  2: { assert (forall u v (n m : nat), u < v -> bef (u / zindexscale wide_graph, n) (v / zindexscale wide_graph, m)) as Q by (intros; left; cbn [fst]; apply div_lt; assumption).
       apply four_sorted; apply Q; lra. }
  set (order := [((k - 2 * c) / zindexscale wide_graph, 0%nat); ((k - c) / zindexscale wide_graph, 1%nat); ((k + c) / zindexscale wide_graph, 2%nat); ((k + 2 * c) / zindexscale wide_graph, 3%nat)]) in *.
  assert (slope 0 0 = 0) as H1 by (unfold slope; destruct (Rlt_dec 0 (1 / 2)); lra).
  assert (slope 0 (1 / 10) = 0) as H2 by (unfold slope; destruct (Rlt_dec 0 (1 / 2)); lra).
  assert (slope 1 0 = 7 / 10) as H3 by (unfold slope; destruct (Rlt_dec 1 (1 / 2)); [lra|]; destruct (Rlt_dec 0 (1 / 20)); lra).
  assert (slope 1 (1 / 10) = 3 / 10) as H4 by (unfold slope; destruct (Rlt_dec 1 (1 / 2)); [lra|]; destruct (Rlt_dec (1 / 10) (1 / 20)); lra).
  destruct (heights_cell wide_graph slope false order (0, 1) (0, 1 / 10) W) as (l & Cl & M & Tr).
  { intros z i I. unfold order in I. cbn in I. destruct I as [I|[I|[I|[I|[]]]]]; apply (f_equal snd) in I; cbn in I; lia. }
  1-6: cbn [fst snd]; rewrite ?H1, ?H2, ?H3, ?H4; lra.
  cbn [fst snd] in Tr. rewrite H1, H2, H3, H4 in Tr. cbn [map snd order] in M.
  destruct l as [|e [|f [|e2 [|e3 [|? ?]]]]]; try discriminate M. cbn in M. injection M as M0 M1 M2 M3.
  exists wide_graph, (heights slope), [0; 1], [0; 1 / 10], [e; f; e2; e3], e, f, (19 / 50, 1 / 20, 19 / 100), (3 / 10, 1 / 100, 19 / 100).
  split; [exact W|]. split; [apply heights_grid|]. split; [repeat (constructor; try lra)|]. split; [repeat (constructor; try lra)|]. split.
  { unfold surface. rewrite (Rv 0%nat), (Rv 1%nat) by lia. cbn [bind]. rewrite So. cbn [bind xorb]. unfold pairs. cbn [removelast tl combine collect]. rewrite Cl. reflexivity. }
  split; [exists [], [], [e2; e3]; reflexivity|].
  destruct (Tr e) as (_ & _ & Te); [left; reflexivity|]. destruct (Tr f) as (_ & _ & Tf); [right; left; reflexivity|]. rewrite Te, Tf, M0, M1. cbn [triangle midvalue in_triangle].
  split; [|split].
  - exists (12 / 100), (12 / 100), (76 / 100). repeat split; try lra. unfold add, scaled. apply vec_ext; lra.
  - exists (2 / 10), (6 / 10), (2 / 10). repeat split; try lra. unfold add, scaled. apply vec_ext; lra.
  - change (proj wide_graph) with (Parallel (atan (1 / 2)) 0). cbn [covers]. rewrite V. exists (8 / 100 / c). split; [apply Rdiv_lt_0_compat; lra|].
    unfold position, wide_graph, add, scaled. cbn [xscale yscale zscale]. apply vec_ext; field_simplify; lra.
Qed.
Print Assumptions surface_order_refuted.

(** a graph seen from the middle of one side; a valley along the direction of the view *)
Definition valley (a b : R) : R := if Rlt_dec a (6 / 10) then 29 / 40 else if Rlt_dec a (8 / 10) then 1 / 2 else 31 / 40.
Definition front_graph : graphxyz := mkgraph 0 0 1 1 1 1 (Central 5 (PI / 2) 0).
Lemma front_eye : eye 5 (PI / 2) 0 = (0, 5, 0).
Proof. unfold eye, view, scaled. rewrite sin_0, cos_0, cos_PI2, sin_PI2. apply vec_ext; ring. Qed.
Theorem surface_cells_order_refuted : exists g data values1 values2 elements e f p q, well_placed g /\ on_grid 0 1 data /\
  StronglySorted Rlt values1 /\ StronglySorted Rlt values2 /\ surface g 0 1 data values1 values2 = Some elements /\ precedes elements e f /\
  range1 e <> range1 f /\ in_triangle (tri e) p /\ in_triangle (tri f) q /\ covers (proj g) (position g p) (position g q).
Proof.
  assert (well_placed front_graph) as W.
  { unfold well_placed, front_graph. cbn [xscale yscale zscale proj]. repeat split; try lra. intros [[x y] z] (U1 & U2 & U3). unfold unit_range in *.
    cbn [in_front]. unfold view, position, dot. cbn [xscale yscale zscale]. rewrite sin_0, cos_0, cos_PI2, sin_PI2. lra. }
  assert (forall i, (i < 2)%nat -> reversed front_graph i = Some false) as Rv.
  { intros i I. destruct (reversed_spec front_graph i ltac:(cbn; lra) ltac:(cbn; lra) ltac:(cbn; lra) ltac:(lia)) as (r & -> & D). f_equal. destruct r; [|reflexivity].
    exfalso. assert (coord i (eye 5 (PI / 2) 0) < - scale_of front_graph i) as L by (apply D; reflexivity). rewrite front_eye in L. destruct i as [|[|i]]; cbn in L; lra || lia. }
  destruct (sort_elements_some front_graph 0 1 false false ltac:(cbn; lra)) as (order & So & Nums).
  assert (valley (1 / 2) 0 = 29 / 40 /\ valley (1 / 2) 1 = 29 / 40) as (H1 & H2) by (unfold valley; destruct (Rlt_dec (1 / 2) (6 / 10)); lra).
  assert (valley (3 / 4) 0 = 1 / 2 /\ valley (3 / 4) 1 = 1 / 2) as (H3 & H4) by (unfold valley; destruct (Rlt_dec (3 / 4) (6 / 10)); [lra|]; destruct (Rlt_dec (3 / 4) (8 / 10)); lra).
  assert (valley 1 0 = 31 / 40 /\ valley 1 1 = 31 / 40) as (H5 & H6) by (unfold valley; destruct (Rlt_dec 1 (6 / 10)); [lra|]; destruct (Rlt_dec 1 (8 / 10)); lra).
  destruct (heights_cell front_graph valley false order (1 / 2, 3 / 4) (0, 1) W (numbers _ _ _ _ _ _ So)) as (l & Cl & M & Tr).
  1-6: cbn [fst snd]; rewrite ?H1, ?H2, ?H3, ?H4, ?H5, ?H6; lra.
  destruct (heights_cell front_graph valley false order (3 / 4, 1) (0, 1) W (numbers _ _ _ _ _ _ So)) as (l' & Cl' & M' & Tr').
  1-6: cbn [fst snd]; rewrite ?H1, ?H2, ?H3, ?H4, ?H5, ?H6; lra.
  cbn [fst snd] in Tr, Tr'. rewrite H1, H2, H3, H4 in Tr. rewrite H3, H4, H5, H6 in Tr'.
  pose proof (Nums 3%nat ltac:(lia)) as N3. rewrite <- M in N3. apply in_map_iff in N3 as (e & Ne & Ie).
  pose proof (Nums 0%nat ltac:(lia)) as N0. rewrite <- M' in N0. apply in_map_iff in N0 as (f & Nf & If).
  destruct (Tr e Ie) as (Ra & _ & Te). destruct (Tr' f If) as (Rb & _ & Tf). rewrite Ne in Te. rewrite Nf in Tf.
  exists front_graph, (heights valley), [1 / 2; 3 / 4; 1], [0; 1], (l ++ l'), e, f, (29 / 40, 3 / 4, 209 / 400), (31 / 40, 1 / 4, 211 / 400).
  split; [exact W|]. split; [apply heights_grid|].
  split; [repeat (apply SSorted_cons || apply SSorted_nil || apply Forall_cons || apply Forall_nil || lra)|].
  split; [repeat (apply SSorted_cons || apply SSorted_nil || apply Forall_cons || apply Forall_nil || lra)|]. split.
  { unfold surface. rewrite (Rv 0%nat), (Rv 1%nat) by lia. cbn [bind]. rewrite So. cbn [bind xorb]. unfold pairs. cbn [removelast tl combine collect]. rewrite Cl, Cl'. cbn [bind]. rewrite !app_nil_r. reflexivity. }
  split. { apply in_split in Ie as (k1 & k2 & ->). apply in_split in If as (k3 & k4 & ->). exists k1, (k2 ++ k3), k4. rewrite <- !app_assoc. cbn. reflexivity. }
  split; [rewrite Ra, Rb; intros Q; injection Q; lra|]. rewrite Te, Tf. cbn [triangle midvalue in_triangle]. split; [|split].
  - exists (65 / 100), (15 / 100), (2 / 10). repeat split; try lra. unfold add, scaled. apply vec_ext; lra.
  - exists (65 / 100), (15 / 100), (2 / 10). repeat split; try lra. unfold add, scaled. apply vec_ext; lra.
  - change (proj front_graph) with (Central 5 (PI / 2) 0). cbn [covers]. rewrite front_eye. exists (9 / 11). split; [lra|].
    unfold position, front_graph, sub, add, scaled. cbn [xscale yscale zscale]. apply vec_ext; lra.
Qed.
Print Assumptions surface_cells_order_refuted.

(** a square cell seen from above: all four triangles are drawn with their front *)
Example surface_ex : exists elements, surface (mkgraph 0 0 1 1 1 1 (Parallel 0 (PI / 2))) 0 1 (heights (fun _ _ => 1 / 2)) [0; 1] [0; 1] = Some elements /\
  elements <> [] /\ forall e, In e elements -> back e = false.
Proof.
  set (g := mkgraph 0 0 1 1 1 1 (Parallel 0 (PI / 2))).
  assert (well_placed g) as W by (unfold well_placed, g; cbn; repeat split; lra).
  assert (StronglySorted Rlt [0; 1]) as S by (repeat (apply SSorted_cons || apply SSorted_nil || apply Forall_cons || apply Forall_nil || lra)).
  destruct (surface_complete g 0 1 (heights (fun _ _ => 1 / 2)) [0; 1] [0; 1] W ltac:(lia) ltac:(lia) ltac:(lia) (heights_grid _) S S) as (l & E & C).
  exists l. split; [exact E|]. split.
  - destruct (C 0 1 0 1 (0, 0, 1 / 2) (0, 1, 1 / 2) (1, 0, 1 / 2) (1, 1, 1 / 2)) with (p := (0, 0, 1 / 2) : vec) (q := (0, 1, 1 / 2) : vec) as (e & I & _);
      try (left; reflexivity); try (apply (heights_valid (fun _ _ => 1 / 2)); cbv beta; lra). intros ->. destruct I.
  - intros e I. destruct (back e) eqn:B; [exfalso|reflexivity].
    assert (front_normal g 0 1 (tri e) (0, 0, 1)) as F.
    { destruct (surface_spec g 0 1 _ [0; 1] [0; 1] l (heights_grid _) S S E) as (r1 & r2 & order & _ & _ & Or & Sp & _). clear C.
      unfold surface in E. destruct (reversed g 0) as [s1|]; [|discriminate]. destruct (reversed g 1) as [s2|]; [|discriminate]. cbn [bind] in E.
      destruct (sort_elements g 0 1 s1 s2) as [o|]; [|discriminate]. cbn [bind] in E. destruct (collect_spec _ _ _ E) as (C1 & _).
      destruct (C1 e I) as (a & xs & _ & Fa & Ix). destruct (collect_spec _ _ _ Fa) as (C2 & _). destruct (C2 e Ix) as (b & ys & _ & Fb & Iy).
      unfold cell, heights in Fb. repeat match type of Fb with context [if ?c then _ else _] => destruct c end; cbn in Fb; try (injection Fb as <-; destruct Iy; fail); try discriminate.
      all: destruct (triangles_spec _ _ _ _ _ _ _ _ _ _ Fb) as (_ & Tr); destruct (Tr e Iy) as (_ & _ & -> & _); destruct (number e) as [|[|[|?]]]; cbn; lra. }
    apply (surface_back g 0 1 _ _ _ l e _ W ltac:(lia) ltac:(lia) ltac:(lia) (heights_grid _) S S E I F) in B.
    unfold g in B. cbn [proj faces] in B. unfold view, scaled, dot in B. rewrite sin_PI2 in B. lra.
Qed.
