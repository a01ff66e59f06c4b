(** * Three dimensional graphs: which planes and axes are hidden (C101) *)

From Coq Require Import Reals Bool List Lra.
From Verif Require Import Graph3dModel Graph3dSpec Graph3dProps Graph3dProps2.
Import ListNotations.
Open Scope R_scope.

(** the direction to the viewer in the coordinates of the graph *)
Definition toward (g : graphxyz) (v : vec) : vec :=
  let '(x, y, z) := sight (proj g) (position g v) in (- x / (2 * xscale g), - y / (2 * yscale g), - z / (2 * zscale g)).

Lemma toward_covers g v t : 0 < xscale g -> 0 < yscale g -> 0 < zscale g -> 0 < t < 1 ->
  covers (proj g) (position g (add v (scaled t (toward g v)))) (position g v).
Proof.
  intros X Y Z T. unfold toward. destruct (sight (proj g) (position g v)) as [[sx sy] sz] eqn:S.
  assert (position g (add v (scaled t (- sx / (2 * xscale g), - sy / (2 * yscale g), - sz / (2 * zscale g)))) = add (position g v) (scaled (- t) (sx, sy, sz))) as ->.
  { destruct v as [[x y] z]. unfold add, scaled, position. apply vec_ext; field; lra. }
  rewrite <- S. destruct (proj g) as [D phi theta|phi theta]; cbn [covers sight].
  - exists (1 - t). split; [lra|]. destruct (position g v) as [[? ?] ?], (eye D phi theta) as [[? ?] ?]. cbn. apply vec_ext; ring.
  - exists t. split; [lra|]. destruct (position g v) as [[? ?] ?], (view phi theta) as [[? ?] ?]. cbn. apply vec_ext; ring.
Qed.

Lemma Rabs_le_inv x k : Rabs x <= k -> - k <= x <= k.
Proof. intros H. pose proof (Rle_abs x). pose proof (Rle_abs (- x)). rewrite Rabs_Ropp in *. lra. Qed.
(** there is room in the direction d *)
Definition room (x d : R) : Prop := inner x \/ (x = 0 /\ 0 <= d) \/ (x = 1 /\ d <= 0).
Lemma room_step x d : room x d -> exists m, 0 < m /\ forall s, 0 < s <= m -> unit_range (x + s * d).
Proof.
  intros H. assert (forall k, 0 < k -> exists m, 0 < m /\ forall s, 0 < s <= m -> Rabs (s * d) <= k) as A.
  { intros k K. pose proof (Rabs_pos d). exists (k / (Rabs d + 1)). split; [apply Rdiv_lt_0_compat; lra|].
    intros s (S1 & S2). rewrite Rabs_mult, (Rabs_pos_eq s) by lra.
    apply Rle_trans with (k / (Rabs d + 1) * Rabs d); [apply Rmult_le_compat_r; lra|].
    apply (Rmult_le_reg_r (Rabs d + 1)); [lra|]. replace (k / (Rabs d + 1) * Rabs d * (Rabs d + 1)) with (k * Rabs d) by (field; lra). nra. }
  destruct H as [(H1 & H2)|[(-> & H)|(-> & H)]].
  - destruct (A (Rmin x (1 - x))) as (m & M & B); [apply Rmin_pos; lra|]. exists m. split; [exact M|]. intros s S. specialize (B s S).
    pose proof (Rmin_l x (1 - x)). pose proof (Rmin_r x (1 - x)). unfold unit_range.
    destruct (Rabs_le_inv (s * d) (Rmin x (1 - x)) B). lra.
  - destruct (A 1 ltac:(lra)) as (m & M & B). exists m. split; [exact M|]. intros s S. specialize (B s S). unfold unit_range.
    destruct (Rabs_le_inv _ _ B). nra.
  - destruct (A 1 ltac:(lra)) as (m & M & B). exists m. split; [exact M|]. intros s S. specialize (B s S). unfold unit_range.
    destruct (Rabs_le_inv _ _ B). nra.
Qed.
Lemma room_covered g x y z : 0 < xscale g -> 0 < yscale g -> 0 < zscale g ->
  (let '(dx, dy, dz) := toward g (x, y, z) in room x dx /\ room y dy /\ room z dz) ->
  exists w, in_graph w /\ covers (proj g) (position g w) (position g (x, y, z)).
Proof.
  intros X Y Z R. pose proof (fun t => toward_covers g (x, y, z) t X Y Z) as C.
  destruct (toward g (x, y, z)) as [[dx dy] dz]. destruct R as (R1 & R2 & R3).
  destruct (room_step x dx R1) as (m1 & M1 & N1). destruct (room_step y dy R2) as (m2 & M2 & N2). destruct (room_step z dz R3) as (m3 & M3 & N3).
  set (s := Rmin (1 / 2) (Rmin m1 (Rmin m2 m3))).
  assert (0 < s) by (unfold s; repeat apply Rmin_pos; lra).
  pose proof (Rmin_l (1 / 2) (Rmin m1 (Rmin m2 m3))). pose proof (Rmin_r (1 / 2) (Rmin m1 (Rmin m2 m3))).
  pose proof (Rmin_l m1 (Rmin m2 m3)). pose proof (Rmin_r m1 (Rmin m2 m3)). pose proof (Rmin_l m2 m3). pose proof (Rmin_r m2 m3). fold s in H0, H1.
  eexists. split; [|apply (C s); lra]. cbn. split; [apply N1; lra|]. split; [apply N2; lra|apply N3; lra].
Qed.

Lemma toward_room g p v : 0 < xscale g -> 0 < yscale g -> 0 < zscale g -> ~ faces (proj g) (position g v) (outward p) ->
  let '(dx, dy, dz) := toward g v in match p with PX0 => 0 <= dx | PX1 => dx <= 0 | PY0 => 0 <= dy | PY1 => dy <= 0 | PZ0 => 0 <= dz | PZ1 => dz <= 0 end.
Proof.
  intros X Y Z N. rewrite faces_sight in N. unfold toward. destruct (sight (proj g) (position g v)) as [[sx sy] sz].
  assert (0 < / (2 * xscale g)) by (apply Rinv_0_lt_compat; lra). assert (0 < / (2 * yscale g)) by (apply Rinv_0_lt_compat; lra). assert (0 < / (2 * zscale g)) by (apply Rinv_0_lt_compat; lra).
  unfold Rdiv. destruct p; cbn in N; nra.
Qed.

Lemma outer_half g p v w : 0 < xscale g -> 0 < yscale g -> 0 < zscale g -> on_plane p v -> in_graph w ->
  dot (position g w) (outward p) <= dot (position g v) (outward p).
Proof.
  intros X Y Z O I. destruct v as [[x y] z], w as [[a b] c]. cbn in I. unfold unit_range in I.
  destruct p; cbn in O; destruct O as (-> & _); cbn; nra.
Qed.

Lemma faces_not_covered g p v w : 0 < xscale g -> 0 < yscale g -> 0 < zscale g -> on_plane p v -> in_graph w ->
  faces (proj g) (position g v) (outward p) -> ~ covers (proj g) (position g w) (position g v).
Proof.
  intros X Y Z O I F C. pose proof (outer_half g p v w X Y Z O I) as L.
  destruct (proj g) as [D phi theta|phi theta]; cbn [faces covers] in *; destruct C as (t & T & E); rewrite E in L;
    rewrite !(dot_comm _ (outward p)) in *; rewrite ?dot_add, ?dot_scaled, ?dot_sub in *; nra.
Qed.

(** A plane which is shown is covered by no point of the graph; all points within a plane which is not shown are covered by
    points of the graph. *)
Theorem plane_visible : forall g p v b, well_placed g -> show g p = Some b -> on_plane p v ->
  (b = true -> forall w, in_graph w -> ~ covers (proj g) (position g w) (position g v)) /\
  (b = false -> inside_plane p v -> exists w, in_graph w /\ covers (proj g) (position g w) (position g v)).
Proof.
  intros g p v b W S O. destruct (plane_faces g p v W O) as (b' & S' & F). assert (b' = b) as -> by congruence.
  destruct W as (X & Y & Z & _ & _). split.
  - intros -> w I. apply (faces_not_covered g p v w X Y Z O I). tauto.
  - intros -> I. assert (~ faces (proj g) (position g v) (outward p)) as N by (intros H; apply F in H; discriminate).
    pose proof (toward_room g p v X Y Z N) as T. destruct v as [[x y] z]. apply room_covered; try assumption.
    destruct (toward g (x, y, z)) as [[dx dy] dz]. unfold room.
    destruct p; cbn in I; destruct I as ((-> & _) & I1 & I2); auto 10.
Qed.
Print Assumptions plane_visible.

(** ** Axes *)
(** The hidden attribute tells whether the axis is hidden by the graph: an axis which is not hidden is covered by no point of the
    graph, and of an axis which is hidden, every point but the ends is covered.  (xy12axesat is not used.) *)
Theorem axis_visible : forall g n h v, well_placed g -> hidden g n = Some h ->
  (h = false -> unit_range v -> forall w, in_graph w -> ~ covers (proj g) (position g w) (position g (axis_point g 0 n v))) /\
  (h = true -> inner v -> exists w, in_graph w /\ covers (proj g) (position g w) (position g (axis_point g 0 n v))).
Proof.
  intros g n h v W H.
  assert (exists p q a b, show g p = Some a /\ show g q = Some b /\ h = negb a && negb b /\
    (unit_range v -> on_plane p (axis_point g 0 n v)) /\ (unit_range v -> on_plane q (axis_point g 0 n v)) /\
    (inner v -> forall dx dy dz,
       match p with PX0 => 0 <= dx | PX1 => dx <= 0 | PY0 => 0 <= dy | PY1 => dy <= 0 | PZ0 => 0 <= dz | PZ1 => dz <= 0 end ->
       match q with PX0 => 0 <= dx | PX1 => dx <= 0 | PY0 => 0 <= dy | PY1 => dy <= 0 | PZ0 => 0 <= dz | PZ1 => dz <= 0 end ->
       let '(x, y, z) := axis_point g 0 n v in room x dx /\ room y dy /\ room z dz)) as (p & q & a & b & Sp & Sq & E & Op & Oq & Rm).
  { assert (0 <= 0 <= 1 /\ 0 <= 1 <= 1 /\ 0 <= 1 - 0 <= 1 /\ 0 <= 1 - 1 <= 1) as B by lra.
    unfold hidden in H. unfold axis_point, coordinate. unfold unit_range, on_plane, inner, room in *.
    destruct n as [[]|[]|[]];
      try destruct (xorder g); try destruct (yorder g);
      match type of H with match show g ?p with _ => _ end = _ =>
        match type of H with context [show g ?q] => lazymatch q with p => fail | _ => exists p; exists q end end end;
      destruct (show g _) as [a|]; try discriminate; destruct (show g _) as [b|]; try discriminate; exists a; exists b; injection H as <-;
      (split; [reflexivity|split; [reflexivity|split; [reflexivity|split; [intros; repeat split; lra|split; [intros; repeat split; lra|]]]]]);
      intros V dx dy dz P Q; (split; [|split]); unfold inner; lra. }
  split.
  - intros -> V w I. destruct a.
    + destruct (plane_visible g p _ true W Sp (Op V)) as (A & _). exact (A eq_refl w I).
    + destruct b; [|discriminate]. destruct (plane_visible g q _ true W Sq (Oq V)) as (A & _). exact (A eq_refl w I).
  - intros -> V. destruct a; [discriminate|]. destruct b; [discriminate|].
    assert (unit_range v) as V' by (unfold unit_range, inner in *; lra).
    destruct (plane_faces g p _ W (Op V')) as (a & A & F). rewrite Sp in A. injection A as <-.
    destruct (plane_faces g q _ W (Oq V')) as (a & A & G). rewrite Sq in A. injection A as <-.
    destruct W as (X & Y & Z & _ & _).
    pose proof (toward_room g p _ X Y Z (fun K => Bool.diff_false_true (proj2 F K))) as T1.
    pose proof (toward_room g q _ X Y Z (fun K => Bool.diff_false_true (proj2 G K))) as T2.
    specialize (Rm V). destruct (axis_point g 0 n v) as [[x y] z]. apply room_covered; try assumption.
    destruct (toward g (x, y, z)) as [[dx dy] dz]. apply Rm; assumption.
Qed.
Print Assumptions axis_visible.

Lemma sqrt_iff a b : 0 <= a -> 0 <= b -> (sqrt a < sqrt b <-> a < b).
Proof.
  intros A B. split; intros H.
  - apply sqrt_lt_0_alt. exact H.
  - apply sqrt_lt_1_alt. lra.
Qed.
(** of two points, which differ in one coordinate only, by its sign, the one on the side of the viewer has the smaller zindex *)
Lemma zindex_sides p v n k : dot v n = 0 -> dot n n = 1 -> 0 < k ->
  (zindex p (add v (scaled k n)) < zindex p (add v (scaled (- k) n)) <-> match p with Central D phi theta => 0 < dot (eye D phi theta) n | Parallel phi theta => 0 < dot (view phi theta) n end).
Proof.
  intros V N K. destruct p as [D phi theta|phi theta].
  - rewrite !zindex_central. set (e := eye D phi theta).
    assert (forall j, dot (sub (add v (scaled j n)) e) (sub (add v (scaled j n)) e) = dot (sub v e) (sub v e) + j * j - 2 * j * dot e n) as E.
    { intros j. transitivity (dot (sub v e) (sub v e) + j * j * dot n n + 2 * j * dot v n - 2 * j * dot e n).
      - destruct v as [[? ?] ?], e as [[? ?] ?], n as [[? ?] ?]. cbn. ring.
      - rewrite V, N. ring. }
    pose proof (dot_self (sub (add v (scaled k n)) e)). pose proof (dot_self (sub (add v (scaled (- k) n)) e)).
    pose proof (sqrt_iff _ _ H H0) as Q. rewrite !E in Q |- *. split; intros L.
    + assert (sqrt (dot (sub v e) (sub v e) + k * k - 2 * k * dot e n) < sqrt (dot (sub v e) (sub v e) + - k * - k - 2 * - k * dot e n)) as L' by lra.
      apply Q in L'. nra.
    + apply Rplus_lt_compat_r. apply Q. nra.
  - rewrite !zindex_parallel, !dot_add, !dot_scaled. split; intros; nra.
Qed.

(** The axes with odd numbers of the x and y axes are at the side of the viewer. *)
Theorem axes_order : forall g at_ v, 0 < xscale g -> 0 < yscale g ->
  zindex (proj g) (position g (axis_point g at_ (AX N1) v)) <= zindex (proj g) (position g (axis_point g at_ (AX N2) v)) /\
  zindex (proj g) (position g (axis_point g at_ (AX N3) v)) <= zindex (proj g) (position g (axis_point g at_ (AX N4) v)) /\
  zindex (proj g) (position g (axis_point g at_ (AY N1) v)) <= zindex (proj g) (position g (axis_point g at_ (AY N2) v)) /\
  zindex (proj g) (position g (axis_point g at_ (AY N3) v)) <= zindex (proj g) (position g (axis_point g at_ (AY N4) v)).
Proof.
  intros g at_ v X Y.
  assert (forall z, zindex (proj g) (position g (v, coordinate (xorder g), z)) <= zindex (proj g) (position g (v, 1 - coordinate (xorder g), z))) as A.
  { intros z. pose proof (zindex_sides (proj g) (0, 0, 0) (0, 1, 0) 1 ltac:(cbn; ring) ltac:(cbn; ring) ltac:(lra)) as P.
    pose proof (zindex_sides (proj g) (2 * xscale g * (v - 0.5), 0, 2 * zscale g * (z - 0.5)) (0, 1, 0) (yscale g) ltac:(cbn; ring) ltac:(cbn; ring) Y) as Q.
    assert (xorder g = true <-> zindex (proj g) (add (0, 0, 0) (scaled 1 (0, 1, 0))) < zindex (proj g) (add (0, 0, 0) (scaled (- (1)) (0, 1, 0)))) as O.
    { unfold xorder. rewrite ltb_iff. replace (add (0, 0, 0) (scaled 1 (0, 1, 0))) with ((0, 1, 0) : vec) by (cbn; apply vec_ext; ring).
      replace (add (0, 0, 0) (scaled (- (1)) (0, 1, 0))) with ((0, -1, 0) : vec) by (cbn; apply vec_ext; ring). reflexivity. }
    rewrite P, <- Q in O. unfold position.
    assert (forall c, add (2 * xscale g * (v - 0.5), 0, 2 * zscale g * (z - 0.5)) (scaled c (0, 1, 0)) = (2 * xscale g * (v - 0.5), c, 2 * zscale g * (z - 0.5))) as S by (intros; cbn; apply vec_ext; ring).
    rewrite !S in O. destruct (xorder g); cbn [coordinate].
    - left. replace (2 * yscale g * (1 - 0.5)) with (yscale g) by lra. replace (2 * yscale g * (1 - 1 - 0.5)) with (- yscale g) by lra. apply O. reflexivity.
    - replace (2 * yscale g * (0 - 0.5)) with (- yscale g) by lra. replace (2 * yscale g * (1 - 0 - 0.5)) with (yscale g) by lra.
      apply Rnot_lt_le. intros L. apply O in L. discriminate. }
  assert (forall z, zindex (proj g) (position g (coordinate (yorder g), v, z)) <= zindex (proj g) (position g (1 - coordinate (yorder g), v, z))) as B.
  { intros z. pose proof (zindex_sides (proj g) (0, 0, 0) (1, 0, 0) 1 ltac:(cbn; ring) ltac:(cbn; ring) ltac:(lra)) as P.
    pose proof (zindex_sides (proj g) (0, 2 * yscale g * (v - 0.5), 2 * zscale g * (z - 0.5)) (1, 0, 0) (xscale g) ltac:(cbn; ring) ltac:(cbn; ring) X) as Q.
    assert (yorder g = true <-> zindex (proj g) (add (0, 0, 0) (scaled 1 (1, 0, 0))) < zindex (proj g) (add (0, 0, 0) (scaled (- (1)) (1, 0, 0)))) as O.
    { unfold yorder. rewrite ltb_iff. replace (add (0, 0, 0) (scaled 1 (1, 0, 0))) with ((1, 0, 0) : vec) by (cbn; apply vec_ext; ring).
      replace (add (0, 0, 0) (scaled (- (1)) (1, 0, 0))) with ((-1, 0, 0) : vec) by (cbn; apply vec_ext; ring). reflexivity. }
    rewrite P, <- Q in O. unfold position.
    assert (forall c, add (0, 2 * yscale g * (v - 0.5), 2 * zscale g * (z - 0.5)) (scaled c (1, 0, 0)) = (c, 2 * yscale g * (v - 0.5), 2 * zscale g * (z - 0.5))) as S by (intros; cbn; apply vec_ext; ring).
    rewrite !S in O. destruct (yorder g); cbn [coordinate].
    - left. replace (2 * xscale g * (1 - 0.5)) with (xscale g) by lra. replace (2 * xscale g * (1 - 1 - 0.5)) with (- xscale g) by lra. apply O. reflexivity.
    - replace (2 * xscale g * (0 - 0.5)) with (- xscale g) by lra. replace (2 * xscale g * (1 - 0 - 0.5)) with (xscale g) by lra.
      apply Rnot_lt_le. intros L. apply O in L. discriminate. }
  cbn [axis_point]. auto.
Qed.
Print Assumptions axes_order.

(** The ticks of an axis go in the direction of the page from the axis towards the other side of the graph, at the same value:
    from the tick point to a point whose position differs from it only in directions perpendicular to the axis and, for x and y axes, not in z. *)
Definition opposite (n : axisname) (v : vec) : vec :=
  let '(x, y, z) := v in match n with AX _ => (x, 1 - y, z) | AY _ => (1 - x, y, z) | AZ _ => (1 - x, 1 - y, z) end.
Theorem tick_directions : forall g n v p q d, vpos_pt g (axis_point g 0 n v) = Some p -> vpos_pt g (opposite n (axis_point g 0 n v)) = Some q ->
  vtickdirection g (axis_direction g 0 n v) = Some d ->
  fst d * fst d + snd d * snd d = 1 /\ exists k, 0 < k /\ fst q - fst p = k * fst d /\ snd q - snd p = k * snd d.
Proof.
  intros g n v p q d P Q D.
  assert (axis_direction g 0 n v = (axis_point g 0 n v, opposite n (axis_point g 0 n v))) as E.
  { destruct n as [[]|[]|[]]; cbn [axis_direction axis_point opposite]; f_equal; apply vec_ext; ring. }
  rewrite E in D. unfold vtickdirection in D. cbn [fst snd] in D. rewrite P, Q in D. destruct p as [x1 y1], q as [x2 y2]. unfold divide in D.
  set (norm := sqrt ((x2 - x1) * (x2 - x1) + (y2 - y1) * (y2 - y1))) in *. destruct (Req_EM_T norm 0) as [|N]; [discriminate|]. injection D as <-.
  pose proof (sqrt_pos ((x2 - x1) * (x2 - x1) + (y2 - y1) * (y2 - y1))) as S. pose proof (sqrt_sqrt ((x2 - x1) * (x2 - x1) + (y2 - y1) * (y2 - y1)) (Rplus_le_le_0_compat _ _ (Rle_0_sqr _) (Rle_0_sqr _))) as T. fold norm in S, T.
  cbn [fst snd]. split.
  - transitivity (((x2 - x1) * (x2 - x1) + (y2 - y1) * (y2 - y1)) / (norm * norm)); [field; assumption|]. rewrite T. field. rewrite <- T. intros Z. apply Rmult_integral in Z. tauto.
  - exists norm. split; [lra|]. split; field; assumption.
Qed.
Print Assumptions tick_directions.

(** With xy12axesat this is not so: the tick directions of the x axis and of the y axis begin at the bottom of the graph, but end at
    the height of the axis. *)
Theorem tick_directions_xy12axesat_refuted : exists g at_ v p q d,
  unit_range at_ /\ vpos_pt g (axis_point g at_ (AX N1) v) = Some p /\ vpos_pt g (opposite (AX N1) (axis_point g at_ (AX N1) v)) = Some q /\
  vtickdirection g (axis_direction g at_ (AX N1) v) = Some d /\ ~ exists k, fst q - fst p = k * fst d /\ snd q - snd p = k * snd d.
Proof.
  set (g := mkgraph 0 0 1 1 1 1 (Parallel 0 0)).
  assert (forall v, vpos_pt g v = Some (2 * (snd (fst v) - 0.5), 2 * (snd v - 0.5))) as V.
  { intros [[x y] z]. unfold vpos_pt, g. cbn [proj position xscale yscale zscale point attr_a attr_b xpos_pt ypos_pt size_pt fst snd].
    rewrite sin_0, cos_0. f_equal. f_equal; ring. }
  assert (xorder g = false) as O.
  { unfold xorder, g. cbn [proj zindex attr_c]. rewrite sin_0, cos_0. unfold ltb. destruct (Rlt_dec _ _); [exfalso; lra|reflexivity]. }
  exists g, 0.5, 0. eexists. eexists. eexists. split; [unfold unit_range; lra|]. split; [apply V|]. split; [apply V|].
  cbn [axis_point axis_direction opposite]. rewrite O. cbn [coordinate fst snd]. split.
  - unfold vtickdirection. cbn [fst snd]. rewrite !V. cbn [fst snd]. unfold divide.
    destruct (Req_EM_T _ 0) as [E|E]; [|reflexivity].
    apply sqrt_zero in E; lra.
  - intros (k & K1 & K2). cbn [fst snd] in *. set (n := sqrt _) in *.
    assert (n <> 0) as N by (intros E; unfold n in E; apply sqrt_zero in E; lra).
    assert (k * (2 * (0.5 - 0.5) - 2 * (0 - 0.5)) / n = 0) as A by (unfold Rdiv in *; lra).
    assert (k = 0) as ->.
    { apply (Rmult_eq_reg_r (/ n)); [|apply Rinv_neq_0_compat; exact N]. unfold Rdiv in A. lra. }
    lra.
Qed.
Print Assumptions tick_directions_xy12axesat_refuted.

(** ** Examples *)
Lemma central_ex : point (new_central 10 0 0 (PI / 180)) (5, 1, -2) = Some (2, -4) /\ zindex (new_central 10 0 0 (PI / 180)) (6, 0, 3) = -5.
Proof.
  unfold new_central. replace (0 * (PI / 180)) with 0 by ring. cbn [point zindex attr_a attr_b attr_eye]. rewrite sin_0, cos_0. split.
  - destruct (Req_EM_T _ 0); [exfalso; lra|]. f_equal. f_equal; field.
  - replace ((6 - 10 * 1 * 1) * (6 - 10 * 1 * 1) + (0 - 10 * 0 * 1) * (0 - 10 * 0 * 1) + (3 - 10 * 0) * (3 - 10 * 0)) with (5 * 5) by ring.
    rewrite sqrt_square by lra. ring.
Qed.
Example graph3d_ex :
  let g := mkgraph 0 0 100 1 1 0.5 (Central 10 0 0) in
  well_placed g /\ vpos_pt g (0.5, 1, 0) = Some (100, -50) /\
  show g PX1 = Some true /\ show g PX0 = Some false /\ show g PZ1 = Some false /\ hidden g (AZ N1) = Some true /\ hidden g (AZ N4) = Some false /\
  vtickdirection g (axis_direction g 0 (AX N1) 0.5) = Some (1, 0).
Proof.
  intros g.
  assert (well_placed g) as W.
  { unfold well_placed, g. cbn [xscale yscale zscale proj]. repeat apply conj; try lra.
    intros [[x y] z] (A & B & C). unfold unit_range in *. cbn [in_front]. unfold view, position, dot. cbn [xscale yscale zscale]. rewrite sin_0, cos_0. lra. }
  assert (forall p v (b : bool), on_plane p v -> (if b then faces (proj g) (position g v) (outward p) else ~ faces (proj g) (position g v) (outward p)) -> show g p = Some b) as S.
  { intros p v b O F. destruct (plane_faces g p v W O) as (c & E & I). rewrite E. f_equal. destruct b, c; try reflexivity; [apply I; exact F|exfalso; apply F, I; reflexivity]. }
  assert (show g PX1 = Some true) as S1.
  { apply (S PX1 (1, 0, 0) true); [cbn; unfold unit_range; lra|]. unfold g. cbn [faces proj]. unfold eye, view, position, outward. cbn [xscale yscale zscale]. rewrite sin_0, cos_0. cbn. lra. }
  assert (show g PX0 = Some false) as S2.
  { apply (S PX0 (0, 0, 0) false); [cbn; unfold unit_range; lra|]. unfold g. cbn [faces proj]. unfold eye, view, position, outward. cbn [xscale yscale zscale]. rewrite sin_0, cos_0. cbn. lra. }
  assert (show g PZ1 = Some false) as S3.
  { apply (S PZ1 (0, 0, 1) false); [cbn; unfold unit_range; lra|]. unfold g. cbn [faces proj]. unfold eye, view, position, outward. cbn [xscale yscale zscale]. rewrite sin_0, cos_0. cbn. lra. }
  assert (show g PY0 = Some false) as S4.
  { apply (S PY0 (0, 0, 0) false); [cbn; unfold unit_range; lra|]. unfold g. cbn [faces proj]. unfold eye, view, position, outward. cbn [xscale yscale zscale]. rewrite sin_0, cos_0. cbn. lra. }
  assert (show g PY1 = Some false) as S5.
  { apply (S PY1 (0, 1, 0) false); [cbn; unfold unit_range; lra|]. unfold g. cbn [faces proj]. unfold eye, view, position, outward. cbn [xscale yscale zscale]. rewrite sin_0, cos_0. cbn. lra. }
  assert (forall y z, vpos_pt g (0.5, y, z) = Some (100 * (2 * (y - 0.5)), 100 * (z - 0.5))) as V.
  { intros y z. unfold vpos_pt, g. cbn [proj position xscale yscale zscale point attr_a attr_b attr_eye xpos_pt ypos_pt size_pt].
    rewrite sin_0, cos_0. destruct (Req_EM_T _ 0); [exfalso; lra|].
    repeat match goal with |- context [?a / ?b] => lazymatch b with IZR _ => fail | - (10) => fail | _ => replace b with (-10) by lra end end.
    f_equal. f_equal; lra. }
  split; [exact W|]. split; [rewrite V; f_equal; f_equal; lra|]. split; [exact S1|]. split; [exact S2|]. split; [exact S3|].
  unfold hidden. rewrite S1, S2, S4, S5. split; [reflexivity|]. split; [reflexivity|].
  cbn [axis_direction]. assert (xorder g = false) as ->.
  { unfold xorder, g. cbn [proj zindex attr_eye]. rewrite sin_0, cos_0. unfold ltb. destruct (Rlt_dec _ _) as [L|]; [exfalso|reflexivity].
    apply Rlt_irrefl with (r := sqrt (101) - 10). 
    replace ((0 - 10 * 1 * 1) * (0 - 10 * 1 * 1) + (1 - 10 * 0 * 1) * (1 - 10 * 0 * 1) + (0 - 10 * 0) * (0 - 10 * 0)) with 101 in L by ring.
    replace ((0 - 10 * 1 * 1) * (0 - 10 * 1 * 1) + (-1 - 10 * 0 * 1) * (-1 - 10 * 0 * 1) + (0 - 10 * 0) * (0 - 10 * 0)) with 101 in L by ring. exact L. }
  cbn [coordinate]. unfold vtickdirection. cbn [fst snd]. rewrite !V. unfold divide.
  replace ((100 * (2 * (1 - 0 - 0.5)) - 100 * (2 * (0 - 0.5))) * (100 * (2 * (1 - 0 - 0.5)) - 100 * (2 * (0 - 0.5))) + (100 * (0 - 0.5) - 100 * (0 - 0.5)) * (100 * (0 - 0.5) - 100 * (0 - 0.5))) with (200 * 200) by lra.
  rewrite sqrt_square by lra. destruct (Req_EM_T 200 0); [lra|]. f_equal. f_equal; field.
Qed.
(** the viewer looks along the x axis: the point nearer to the viewer covers the other one; a triangle which goes around clockwise
    on the page has a positive angle *)
Example projection_ex :
  let p := Parallel 0 0 in
  covers p (2, 1, 1) (-1, 1, 1) /\ point p (2, 1, 1) = Some (1, 1) /\ zindex p (2, 1, 1) = -2 /\ zindex p (-1, 1, 1) = 1 /\
  angle p (0, 0, 0) (0, 0, 1) (0, 1, 0) = Some 1 /\ area (0, 0) (0, 1) (1, 0) = -1 /\
  vgeodesic (mkgraph 5 5 10 1 1 1 p) (0, 0, 0) (1, 1, 1) = Some (-5, -5, (15, 15)).
Proof.
  intros p. unfold p. cbn [covers point zindex angle vgeodesic vpos_pt position proj xscale yscale zscale attr_a attr_b attr_c xpos_pt ypos_pt size_pt].
  unfold vgeodesic, vpos_pt. cbn [position proj xscale yscale zscale point attr_a attr_b xpos_pt ypos_pt size_pt].
  rewrite sin_0, cos_0. refine (conj _ (conj _ (conj _ (conj _ (conj _ (conj _ _)))))); try lra.
  - exists 3. split; [lra|]. cbn. apply vec_ext; rewrite ?sin_0, ?cos_0; lra.
  - f_equal. f_equal; lra.
  - unfold divide. match goal with |- context [sqrt ?e] => replace e with (1 * 1) by ring end. rewrite sqrt_square by lra. destruct (Req_EM_T 1 0); [lra|]. f_equal. field.
  - unfold area. cbn. ring.
  - repeat f_equal; lra.
Qed.
