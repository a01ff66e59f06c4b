(** * Surfaces are drawn from the back to the front (C106) *)

From Coq Require Import Reals Bool List Lra Lia Arith Sorted.
From Verif Require Import Graph3dModel Graph3dSpec Graph3dProps Graph3dProps2 Graph3dProps3 GraphBar3dProps SurfaceModel SurfaceSpec.
Import ListNotations.
Open Scope R_scope.

(** [x] is before [y] in the list *)
Definition precedes {A} (l : list A) (x y : A) : Prop := exists l1 l2 l3, l = l1 ++ x :: l2 ++ y :: l3.

Lemma precedes_in {A} (l : list A) x y : precedes l x y -> In x l /\ In y l.
Proof. intros (l1 & l2 & l3 & ->). split; apply in_or_app; right; [left; reflexivity|right; apply in_or_app; right; left; reflexivity]. Qed.
Lemma precedes_cons {A} (l : list A) a x y : precedes (a :: l) x y -> a = x /\ In y l \/ precedes l x y.
Proof.
  intros (l1 & l2 & l3 & E). destruct l1 as [|b l1]; cbn in E.
  - injection E as -> ->. left. split; [reflexivity|]. apply in_or_app. right. left. reflexivity.
  - injection E as -> ->. right. exists l1, l2, l3. reflexivity.
Qed.
Lemma precedes_app {A} (k l : list A) x y : precedes (k ++ l) x y -> precedes k x y \/ precedes l x y \/ In x k /\ In y l.
Proof.
  induction k as [|a k IH]; cbn; [auto|]. intros H. apply precedes_cons in H as [(-> & H)|H].
  - apply in_app_or in H as [H|H]; [left|right; right; auto]. apply in_split in H as (l2 & l3 & ->). exists [], l2, l3. reflexivity.
  - destruct (IH H) as [(l1 & l2 & l3 & ->)|[Q|(Q & Q')]]; [left; exists (a :: l1), l2, l3; reflexivity|auto|auto].
Qed.

Lemma collect_spec {A B} (f : A -> option (list B)) l out : collect f l = Some out ->
  (forall x, In x out -> exists a xs, In a l /\ f a = Some xs /\ In x xs) /\
  (forall x y, precedes out x y ->
     (exists a xs, In a l /\ f a = Some xs /\ precedes xs x y) \/
     (exists a b xs ys, precedes l a b /\ f a = Some xs /\ f b = Some ys /\ In x xs /\ In y ys)).
Proof.
  revert out. induction l as [|a l IH]; intros out; cbn.
  - intros [= <-]. split; [intros x []|]. intros x y (l1 & l2 & l3 & E). destruct l1; discriminate.
  - destruct (f a) as [xs|] eqn:F; [|discriminate]. cbn. destruct (collect f l) as [ys|]; [|discriminate]. cbn. intros [= <-].
    destruct (IH ys eq_refl) as (I1 & I2). split.
    + intros x X. apply in_app_or in X as [X|X]; [exists a, xs; auto|]. destruct (I1 x X) as (b & zs & ? & ? & ?). exists b, zs. auto.
    + intros x y P. apply precedes_app in P as [P|[P|(X & Y)]].
      * left. exists a, xs. auto.
      * destruct (I2 x y P) as [(b & zs & ? & ? & ?)|(b & c & zs & ws & (l1 & l2 & l3 & E) & H)]; [left; exists b, zs; auto|].
        right. exists b, c, zs, ws. split; [|exact H]. exists (a :: l1), l2, l3. rewrite E. reflexivity.
      * destruct (I1 y Y) as (c & ws & C & FC & W). right. exists a, c, xs, ws. split; [|auto].
        apply in_split in C as (l2 & l3 & ->). exists [], l2, l3. reflexivity.
Qed.

Lemma pairs_cons a b l : pairs (a :: b :: l) = (a, b) :: pairs (b :: l).
Proof. unfold pairs. cbn [tl]. change (removelast (a :: b :: l)) with (a :: removelast (b :: l)). reflexivity. Qed.
Lemma pairs_spec (R : R -> R -> Prop) l : StronglySorted R l ->
  (forall p, In p (pairs l) -> R (fst p) (snd p) /\ In (fst p) l /\ In (snd p) l) /\
  (forall p q, precedes (pairs l) p q -> snd p = fst q \/ R (snd p) (fst q)).
Proof.
  induction l as [|a l IH]; intros S.
  - split; [intros p []|]. intros p q (l1 & l2 & l3 & E). destruct l1; discriminate.
  - destruct l as [|b l].
    + split; [intros p []|]. intros p q (l1 & l2 & l3 & E). destruct l1; discriminate.
    + rewrite pairs_cons. inversion_clear S as [|? ? S' F]. destruct (IH S') as (I1 & I2). split.
      * intros p [<-|P]; [cbn; split; [apply (Forall_inv F)|auto]|]. destruct (I1 p P) as (? & ? & ?). split; [assumption|]. split; right; assumption.
      * intros p q P. apply precedes_cons in P as [(<- & P)|P]; [|auto]. cbn. destruct (I1 q P) as (_ & [Q|Q] & _); [left; exact Q|].
        right. inversion_clear S' as [|? ? _ F']. apply (proj1 (Forall_forall _ _) F' _ Q).
Qed.

(** ** the vectors *)
Lemma coord_position g i v : coord i (position g v) = 2 * scale_of g i * (coord i v - 0.5).
Proof. destruct v as [[a b] c], i as [|[|i]]; reflexivity. Qed.
Lemma coord_add i v w : coord i (add v w) = coord i v + coord i w.
Proof. destruct v as [[? ?] ?], w as [[? ?] ?], i as [|[|i]]; reflexivity. Qed.
Lemma coord_scaled i t v : coord i (scaled t v) = t * coord i v.
Proof. destruct v as [[? ?] ?], i as [|[|i]]; reflexivity. Qed.
Lemma coord_mid i v1 v2 v3 v4 : coord i (midvalue v1 v2 v3 v4) = 0.25 * (coord i v1 + coord i v2 + coord i v3 + coord i v4).
Proof. destruct v1 as [[? ?] ?], v2 as [[? ?] ?], v3 as [[? ?] ?], v4 as [[? ?] ?], i as [|[|i]]; reflexivity. Qed.
Lemma in_graph_coord i v : in_graph v -> 0 <= coord i v <= 1.
Proof. destruct v as [[? ?] ?], i as [|[|i]]; cbn; unfold unit_range; tauto. Qed.
Lemma scale_pos g i : 0 < xscale g -> 0 < yscale g -> 0 < zscale g -> 0 < scale_of g i.
Proof. destruct i as [|[|i]]; cbn; auto. Qed.

Lemma vzindex_some g v : 0 < xscale g -> vzindex g v = Some (zindex (proj g) (position g v) / zindexscale g).
Proof. intros X. pose proof (zindexscale_pos g X). unfold vzindex, divide. destruct (Req_EM_T _ _); [lra|reflexivity]. Qed.
Lemma div_lt a b k : 0 < k -> (a / k < b / k <-> a < b).
Proof.
  intros K. unfold Rdiv. split; intros L.
  - apply (Rmult_lt_reg_r (/ k)); [apply Rinv_0_lt_compat, K|exact L].
  - apply Rmult_lt_compat_r; [apply Rinv_0_lt_compat, K|exact L].
Qed.

(** the order is reversed if the viewer is on the side of the lower values *)
Lemma reversed_spec g i : 0 < xscale g -> 0 < yscale g -> 0 < zscale g -> (i < 3)%nat ->
  exists r, reversed g i = Some r /\
    (r = true <-> match proj g with Central d phi theta => coord i (eye d phi theta) < - scale_of g i | Parallel phi theta => coord i (view phi theta) < 0 end).
Proof.
  intros X Y Z I. unfold reversed. rewrite !vzindex_some by exact X. cbn [bind]. eexists. split; [reflexivity|]. rewrite ltb_iff.
  rewrite div_lt by (apply zindexscale_pos, X).
  destruct (proj g) as [d phi theta|phi theta].
  - rewrite !zindex_central. set (e := eye d phi theta).
    assert (forall a b, a - d < b - d <-> a < b) as -> by (intros; lra). rewrite sqrt_iff by apply dot_self. destruct e as [[e0 e1] e2].
    assert (forall s e u v, 0 < s -> u - v = 8 * s * (s + e) -> (u < v <-> e < - s)) as K by (intros s e u v S E; split; intros; nra).
    destruct i as [|[|[|i]]]; [| | |lia]; unfold position, setitem, zero, sub, add, scaled, dot; cbn [coord scale_of]; apply K; auto; lra.
  - rewrite !zindex_parallel. destruct (view phi theta) as [[e0 e1] e2].
    destruct i as [|[|[|i]]]; [| | |lia]; unfold position, setitem, zero, dot; cbn [coord scale_of]; split; intros; nra.
Qed.

(** points which cover others are on the side of the viewer *)
Lemma covers_side g i r p q : 0 < xscale g -> 0 < yscale g -> 0 < zscale g -> (i < 3)%nat -> reversed g i = Some r -> outside g i ->
  0 <= coord i q <= 1 -> covers (proj g) (position g p) (position g q) -> if r then coord i p <= coord i q else coord i q <= coord i p.
Proof.
  intros X Y Z I Rv O Q C. destruct (reversed_spec g i X Y Z I) as (r' & E & D). assert (r' = r) as -> by congruence. pose proof (scale_pos g i X Y Z) as S.
  unfold outside in O. destruct (proj g) as [d phi theta|phi theta]; cbn [covers] in C; destruct C as (t & T & C); apply (f_equal (coord i)) in C.
  - unfold sub in C. rewrite !coord_add, coord_scaled, coord_add, coord_scaled, !coord_position in C. set (e := coord i (eye d phi theta)) in *.
    set (s := scale_of g i) in *. set (x := coord i p) in *. set (y := coord i q) in *.
    assert (2 * s * (x - y) = (1 - t) * (e - 2 * s * (y - 0.5))) as E' by lra.
    destruct r.
    + assert (e < - s) as L by (apply D; reflexivity). assert (e - 2 * s * (y - 0.5) < 0) by nra.
      assert (s * (x - y) < 0) by nra. nra.
    + assert (s <= e) as L. { destruct O as [O|O]; [exact O|]. apply D in O. discriminate. }
      assert (0 <= e - 2 * s * (y - 0.5)) by nra. assert (0 <= s * (x - y)) by nra. nra.
  - rewrite coord_add, coord_scaled, !coord_position in C. set (e := coord i (view phi theta)) in *.
    set (s := scale_of g i) in *. set (x := coord i p) in *. set (y := coord i q) in *.
    assert (2 * s * (x - y) = t * e) as E' by lra. destruct r.
    + assert (e < 0) by (apply D; reflexivity). assert (s * (x - y) < 0) by nra. nra.
    + assert (0 <= e) by (destruct (Rlt_dec e 0) as [L|L]; [apply D in L; discriminate|lra]). assert (0 <= s * (x - y)) by nra. nra.
Qed.

(** ** the elements of a cell *)
Definition corners_at (i1 i2 : nat) (a b : R * R) (v1 v2 v3 v4 : vec) : Prop :=
  coord i1 v1 = fst a /\ coord i2 v1 = fst b /\ coord i1 v2 = fst a /\ coord i2 v2 = snd b /\
  coord i1 v3 = snd a /\ coord i2 v3 = fst b /\ coord i1 v4 = snd a /\ coord i2 v4 = snd b /\
  in_graph v1 /\ in_graph v2 /\ in_graph v3 /\ in_graph v4.
Lemma triangles_spec g a b neg v1 v2 v3 v4 order l : triangles g a b neg v1 v2 v3 v4 order = Some l ->
  map number l = map snd order /\
  forall e, In e l -> range1 e = a /\ range2 e = b /\ tri e = triangle v1 v2 v3 v4 (number e) /\ is_back g neg (tri e) = Some (back e).
Proof.
  revert l. induction order as [|[z i] order IH]; intros l; cbn.
  - intros [= <-]. split; [reflexivity|]. intros e [].
  - destruct (is_back g neg _) as [x|] eqn:B; [|discriminate]. cbn. destruct (triangles g a b neg v1 v2 v3 v4 order) as [l'|]; [|discriminate]. cbn. intros [= <-].
    destruct (IH l' eq_refl) as (I1 & I2). split; [cbn; f_equal; exact I1|]. intros e [<-|E]; [cbn; auto|auto].
Qed.
Lemma cell_spec g i1 i2 data neg order a b l : on_grid i1 i2 data -> cell g data neg order a b = Some l ->
  l = [] \/ exists v1 v2 v3 v4, corners_at i1 i2 a b v1 v2 v3 v4 /\ triangles g a b neg v1 v2 v3 v4 order = Some l.
Proof.
  intros G. unfold cell.
  destruct (data (fst a) (fst b)) as [[[x1 y1] v1]|] eqn:D1; [|intros [= <-]; auto].
  destruct (data (fst a) (snd b)) as [[[x2 y2] v2]|] eqn:D2; [|intros [= <-]; auto].
  destruct (data (snd a) (fst b)) as [[[x3 y3] v3]|] eqn:D3; [|intros [= <-]; auto].
  destruct (data (snd a) (snd b)) as [[[x4 y4] v4]|] eqn:D4; [|intros [= <-]; auto].
  destruct (_ || _ || _ || _)%bool; [intros [= <-]; auto|].
  destruct y1, y2, y3, y4; cbn [negb orb]; try (intros [= <-]; auto; fail). intros T. right. exists v1, v2, v3, v4. split; [|exact T].
  apply G in D1 as (A1 & B1 & C1), D2 as (A2 & B2 & C2), D3 as (A3 & B3 & C3), D4 as (A4 & B4 & C4). unfold corners_at. auto 20.
Qed.
(** the position of points of the triangles within the cell *)
Lemma triangle_point i1 i2 a b v1 v2 v3 v4 n p : corners_at i1 i2 a b v1 v2 v3 v4 -> (n < 4)%nat -> in_triangle (triangle v1 v2 v3 v4 n) p ->
  exists x y, coord i1 p = fst a + x * (snd a - fst a) /\ coord i2 p = fst b + y * (snd b - fst b) /\ 0 < x < 1 /\ 0 < y < 1 /\
  match n with 0%nat => x < y /\ x + y < 1 | 1%nat => y < x /\ x + y < 1 | 2%nat => x < y /\ 1 < x + y | _ => y < x /\ 1 < x + y end.
Proof.
  intros (A1 & B1 & A2 & B2 & A3 & B3 & A4 & B4 & _) N T.
  destruct n as [|[|[|[|n]]]]; [| | | |lia]; destruct T as (r & s & u & R0 & S0 & U0 & E & ->);
    rewrite !coord_add, !coord_scaled, !coord_mid, ?A1, ?B1, ?A2, ?B2, ?A3, ?B3, ?A4, ?B4.
  - exists (u / 2), (s + u / 2). repeat split; try lra; replace r with (1 - s - u) by lra; lra.
  - exists (r + u / 2), (u / 2). repeat split; try lra; replace s with (1 - r - u) by lra; lra.
  - exists (s + u / 2), (r + s + u / 2). repeat split; try lra; replace r with (1 - s - u) by lra; lra.
  - exists (r + s + u / 2), (r + u / 2). repeat split; try lra; replace s with (1 - r - u) by lra; lra.
Qed.

(** ** the whole surface *)
(** the elements and their order *)
Lemma sorted_rev (l : list R) : StronglySorted Rlt l -> StronglySorted Rgt (rev l).
Proof.
  induction 1 as [|a l S IH F]; cbn; [constructor|]. revert IH. assert (Forall (fun x => x > a) (rev l)) as G.
  { apply Forall_forall. intros x X. apply in_rev in X. apply (proj1 (Forall_forall _ _) F x X). }
  induction G as [|x r Hx G IH']; cbn; intros IH; [repeat constructor|]. inversion_clear IH as [|? ? IH1 IH2]. constructor; [auto|].
  apply Forall_app. split; [exact IH2|]. constructor; [exact Hx|constructor].
Qed.
Definition ordered (r : bool) (p : R * R) : Prop := if r then snd p < fst p else fst p < snd p.
Definition after (r : bool) (p q : R * R) : Prop := if r then fst q <= snd p else snd p <= fst q.
Lemma pairs_order (r : bool) vs : StronglySorted Rlt vs ->
  (forall p, In p (pairs (if r then rev vs else vs)) -> ordered r p) /\
  (forall p q, precedes (pairs (if r then rev vs else vs)) p q -> after r p q).
Proof.
  intros S. destruct r.
  - destruct (pairs_spec Rgt (rev vs) (sorted_rev vs S)) as (A & B). split.
    + intros p P. apply A in P as (P & _). unfold ordered. lra.
    + intros p q P. apply B in P. unfold after. lra.
  - destruct (pairs_spec Rlt vs S) as (A & B). split.
    + intros p P. apply A in P as (P & _). unfold ordered. lra.
    + intros p q P. apply B in P. unfold after. lra.
Qed.

Lemma surface_spec g i1 i2 data vs1 vs2 out : on_grid i1 i2 data -> StronglySorted Rlt vs1 -> StronglySorted Rlt vs2 ->
  surface g i1 i2 data vs1 vs2 = Some out ->
  exists r1 r2 order, reversed g i1 = Some r1 /\ reversed g i2 = Some r2 /\ sort_elements g i1 i2 r1 r2 = Some order /\
  (forall e, In e out -> exists v1 v2 v3 v4 l, triangles g (range1 e) (range2 e) (xorb r1 r2) v1 v2 v3 v4 order = Some l /\ In e l /\
      corners_at i1 i2 (range1 e) (range2 e) v1 v2 v3 v4 /\ ordered r1 (range1 e) /\ ordered r2 (range2 e)) /\
  (forall e f, precedes out e f ->
      after r1 (range1 e) (range1 f) \/ range1 e = range1 f /\ after r2 (range2 e) (range2 f) \/
      range1 e = range1 f /\ range2 e = range2 f /\
      exists v1 v2 v3 v4 l, triangles g (range1 e) (range2 e) (xorb r1 r2) v1 v2 v3 v4 order = Some l /\ corners_at i1 i2 (range1 e) (range2 e) v1 v2 v3 v4 /\ precedes l e f).
Proof.
  intros G S1 S2. unfold surface. destruct (reversed g i1) as [r1|]; [|discriminate]. destruct (reversed g i2) as [r2|]; [|discriminate]. cbn [bind].
  destruct (sort_elements g i1 i2 r1 r2) as [order|] eqn:O; [|discriminate]. cbn [bind]. intros C. exists r1, r2, order. do 3 (split; [auto|]).
  destruct (pairs_order r1 vs1 S1) as (P1 & Q1). destruct (pairs_order r2 vs2 S2) as (P2 & Q2).
  destruct (collect_spec _ _ _ C) as (C1 & C2).
  assert (forall a b l e, cell g data (xorb r1 r2) order a b = Some l -> In e l -> range1 e = a /\ range2 e = b /\ exists v1 v2 v3 v4,
    triangles g a b (xorb r1 r2) v1 v2 v3 v4 order = Some l /\ corners_at i1 i2 a b v1 v2 v3 v4) as K.
  { intros a b l e E I. destruct (cell_spec g i1 i2 data _ _ _ _ _ G E) as [->|(v1 & v2 & v3 & v4 & H & T)]; [destruct I|].
    destruct (triangles_spec _ _ _ _ _ _ _ _ _ _ T) as (_ & T'). destruct (T' e I) as (? & ? & _). split; [assumption|]. split; [assumption|]. exists v1, v2, v3, v4. auto. }
  split.
  - intros e E. destruct (C1 e E) as (a & xs & Ia & Fa & Ie). destruct (collect_spec _ _ _ Fa) as (D1 & _). destruct (D1 e Ie) as (b & l & Ib & Fb & Il).
    destruct (K a b l e Fb Il) as (-> & -> & v1 & v2 & v3 & v4 & T & H). exists v1, v2, v3, v4, l. auto 8.
  - intros e f E. destruct (C2 e f E) as [(a & xs & Ia & Fa & Ie)|(a & a' & xs & ys & Pa & Fa & Fa' & Ie & If)].
    + destruct (collect_spec _ _ _ Fa) as (_ & D2). destruct (D2 e f Ie) as [(b & l & Ib & Fb & Il)|(b & b' & l & l' & Pb & Fb & Fb' & Il & Il')].
      * destruct (precedes_in _ _ _ Il) as (Il1 & Il2). destruct (K a b l e Fb Il1) as (-> & -> & v1 & v2 & v3 & v4 & T & H).
        destruct (K a b l f Fb Il2) as (-> & -> & _). right. right. do 2 (split; [reflexivity|]). exists v1, v2, v3, v4, l. auto.
      * destruct (K a b l e Fb Il) as (-> & -> & _). destruct (K a b' l' f Fb' Il') as (-> & -> & _). right. left. split; [reflexivity|]. apply Q2. exact Pb.
    + destruct (collect_spec _ _ _ Fa) as (D1 & _). destruct (D1 e Ie) as (b & l & Ib & Fb & Il).
      destruct (collect_spec _ _ _ Fa') as (D1' & _). destruct (D1' f If) as (b' & l' & Ib' & Fb' & Il').
      destruct (K a b l e Fb Il) as (-> & -> & _). destruct (K a' b' l' f Fb' Il') as (-> & -> & _). left. apply Q1. exact Pa.
Qed.

Lemma insert_in x y l : In x (insert y l) -> x = y \/ In x l.
Proof. induction l as [|z l IH]; cbn; [intros [H|[]]; auto|]. destruct (before y z); cbn; intros [H|H]; auto. destruct (IH H); auto. Qed.
Lemma sort_in_list x l : In x (sort l) -> In x l.
Proof. induction l as [|y l IH]; cbn; [auto|]. intros H. apply insert_in in H as [->|H]; auto. Qed.
Lemma numbers g i1 i2 r1 r2 order : sort_elements g i1 i2 r1 r2 = Some order -> forall z i, In (z, i) order -> (i < 4)%nat.
Proof.
  unfold sort_elements. destruct (vzindex g _); [|discriminate]. cbn [bind]. destruct (vzindex g _); [|discriminate]. cbn [bind]. destruct (vzindex g _); [|discriminate]. cbn [bind]. destruct (vzindex g _); [|discriminate]. cbn [bind].
  intros E z i I. destruct r1, r2; cbv beta iota zeta in E; apply (f_equal (fun o => match o with Some l => l | None => [] end)) in E; cbv beta iota in E; subst order;
    apply sort_in_list in I; destruct I as [I|[I|[I|[I|[]]]]]; injection I; lia.
Qed.

(** Of two elements of different cells, no point of the one drawn first is between the viewer and a point of the other one, if the
    viewer is not above or below the surface in between its ends. *)
Theorem surface_cells_order : forall g index1 index2 data values1 values2 elements e f p q,
  0 < xscale g -> 0 < yscale g -> 0 < zscale g -> (index1 < 3)%nat -> (index2 < 3)%nat -> outside g index1 -> outside g index2 ->
  on_grid index1 index2 data -> StronglySorted Rlt values1 -> StronglySorted Rlt values2 ->
  surface g index1 index2 data values1 values2 = Some elements -> precedes elements e f -> (range1 e, range2 e) <> (range1 f, range2 f) ->
  in_triangle (tri e) p -> in_triangle (tri f) q -> ~ covers (proj g) (position g p) (position g q).
Proof.
  intros g i1 i2 data vs1 vs2 out e f p q X Y Z I1 I2 O1 O2 G S1 S2 E P D Tp Tq C.
  destruct (surface_spec g i1 i2 data vs1 vs2 out G S1 S2 E) as (r1 & r2 & order & R1 & R2 & Or & Sp & Pr).
  destruct (precedes_in _ _ _ P) as (Ie & If).
  assert (forall e p, In e out -> in_triangle (tri e) p -> exists x y, coord i1 p = fst (range1 e) + x * (snd (range1 e) - fst (range1 e)) /\
    coord i2 p = fst (range2 e) + y * (snd (range2 e) - fst (range2 e)) /\ 0 < x < 1 /\ 0 < y < 1 /\ ordered r1 (range1 e) /\ ordered r2 (range2 e) /\
    0 <= coord i1 p <= 1 /\ 0 <= coord i2 p <= 1) as K.
  { clear - Sp Or. intros e p I T. destruct (Sp e I) as (v1 & v2 & v3 & v4 & l & Tr & Il & H & D1 & D2). destruct (triangles_spec _ _ _ _ _ _ _ _ _ _ Tr) as (M & N).
    destruct (N e Il) as (_ & _ & Q & _). rewrite Q in T.
    assert (number e < 4)%nat as L.
    { assert (In (number e) (map snd order)) as J by (rewrite <- M; apply in_map; exact Il). apply in_map_iff in J as ([z i] & J & J'). cbn in J. subst i. eapply numbers; eauto. }
    destruct (triangle_point i1 i2 _ _ v1 v2 v3 v4 _ p H L T) as (x & y & E1 & E2 & Hx & Hy & _). exists x, y. do 6 (split; [assumption|]).
    destruct H as (A1 & B1 & A2 & B2 & A3 & B3 & A4 & B4 & G1 & G2 & G3 & G4).
    pose proof (in_graph_coord i1 _ G1). pose proof (in_graph_coord i2 _ G1). pose proof (in_graph_coord i1 _ G4). pose proof (in_graph_coord i2 _ G4).
    rewrite E1, E2. rewrite A1, B1, A4, B4 in *. split; nra. }
  destruct (K e p Ie Tp) as (x & y & Px & Py & Hx & Hy & D1 & D2 & _ & _).
  destruct (K f q If Tq) as (x' & y' & Qx & Qy & Hx' & Hy' & D1' & D2' & U1 & U2).
  pose proof (covers_side g i1 r1 p q X Y Z I1 R1 O1 U1 C) as V1. pose proof (covers_side g i2 r2 p q X Y Z I2 R2 O2 U2 C) as V2.
  assert (forall r (u v : R * R) a b (s t : R), ordered r u -> ordered r v -> after r u v -> a = fst u + s * (snd u - fst u) -> b = fst v + t * (snd v - fst v) -> 0 < s < 1 -> 0 < t < 1 ->
    (if r then a <= b else b <= a) -> False) as F.
  { clear. intros r u v a b s t Du Dv A -> -> S T L. unfold ordered, after in *. destruct r; nra. }
  destruct (Pr e f P) as [A|[(_ & A)|(E1 & E2 & _)]].
  - exact (F r1 _ _ _ _ _ _ D1 D1' A Px Qx Hx Hx' V1).
  - exact (F r2 _ _ _ _ _ _ D2 D2' A Py Qy Hy Hy' V2).
  - apply D. congruence.
Qed.
Print Assumptions surface_cells_order.
