(** * Bars in three dimensional graphs (C103) *)

From Coq Require Import Reals Bool List Lra Lia.
From Verif Require Import Graph3dModel GraphBarModel Graph3dSpec GraphBarSpec Graph3dProps Graph3dProps2 Graph3dProps3 GraphBarProps.
Import ListNotations.
Open Scope R_scope.

Lemma in_bar_graph x y z v : unit_range (fst x) -> unit_range (snd x) -> unit_range (fst y) -> unit_range (snd y) -> unit_range (fst z) -> unit_range (snd z) ->
  in_bar (x, y, z) v -> in_graph v.
Proof. destruct v as [[a b] c]. unfold unit_range. cbn. unfold inside, unit_range. lra. Qed.

(** a plane of the list, and its side *)
Definition plane_of (s : plane) (x y z : R * R) : face :=
  let '(x0, x1) := x in let '(y0, y1) := y in let '(z0, z1) := z in
  match s with
  | PZ0 => ((x0, y0, z0), (x1, y0, z0), (x1, y1, z0), (x0, y1, z0))
  | PZ1 => ((x0, y0, z1), (x0, y1, z1), (x1, y1, z1), (x1, y0, z1))
  | PY0 => ((x0, y0, z0), (x0, y0, z1), (x1, y0, z1), (x1, y0, z0))
  | PY1 => ((x0, y1, z0), (x1, y1, z0), (x1, y1, z1), (x0, y1, z1))
  | PX0 => ((x0, y0, z0), (x0, y1, z0), (x0, y1, z1), (x0, y0, z1))
  | PX1 => ((x1, y0, z0), (x1, y0, z1), (x1, y1, z1), (x1, y1, z0))
  end.
Lemma plane_face s x y z : fst x <= snd x -> fst y <= snd y -> fst z <= snd z -> face_of s (x, y, z) (plane_of s x y z).
Proof.
  destruct x as [x0 x1], y as [y0 y1], z as [z0 z1]. cbn [fst snd]. intros X Y Z. unfold face_of, vertex, on_side, in_bar, at_end, inside.
  destruct s; cbn [plane_of axis_parallel fst snd]; (split; [|tauto]); intros [[a b] c]; split.
  all: try (intros (((I1 & I2 & I3) & E) & [A|A] & [B|B] & [C|C]); subst; try subst; intuition congruence).
  all: intros [E|[E|[E|E]]]; injection E as -> -> ->; cbn [fst snd]; intuition lra.
Qed.
Lemma plane_normal g s x y z : 0 < xscale g -> 0 < yscale g -> 0 < zscale g ->
  let '(v1, v2, v3, v4) := plane_of s x y z in
  normal (position g v1) (position g v2) (position g v4) =
  scaled (- match s with
            | PX0 | PX1 => 4 * yscale g * zscale g * ((snd y - fst y) * (snd z - fst z))
            | PY0 | PY1 => 4 * xscale g * zscale g * ((snd x - fst x) * (snd z - fst z))
            | PZ0 | PZ1 => 4 * xscale g * yscale g * ((snd x - fst x) * (snd y - fst y))
            end) (outward s).
Proof.
  intros X Y Z. destruct x as [x0 x1], y as [y0 y1], z as [z0 z1]. destruct s; cbn; apply vec_ext; lra.
Qed.
Definition lengths (s : plane) (x y z : R * R) : (R * R) * (R * R) := match s with PX0 | PX1 => (y, z) | PY0 | PY1 => (x, z) | PZ0 | PZ1 => (x, y) end.
Lemma planes_in e x y z f : In f (planes e x y z) <-> exists s, f = plane_of s x y z /\ far e (fst (lengths s x y z)) = true /\ differ (snd (lengths s x y z)) = true.
Proof.
  unfold planes. destruct x as [x0 x1], y as [y0 y1], z as [z0 z1]. rewrite !in_app_iff. split.
  - intros [H|[H|H]].
    + destruct (far e (x0, x1) && differ (y0, y1)) eqn:E; [|destruct H]. apply andb_prop in E. destruct H as [<-|[<-|[]]]; [exists PZ0|exists PZ1]; cbn [lengths fst snd plane_of]; tauto.
    + destruct (far e (x0, x1) && differ (z0, z1)) eqn:E; [|destruct H]. apply andb_prop in E. destruct H as [<-|[<-|[]]]; [exists PY0|exists PY1]; cbn [lengths fst snd plane_of]; tauto.
    + destruct (far e (y0, y1) && differ (z0, z1)) eqn:E; [|destruct H]. apply andb_prop in E. destruct H as [<-|[<-|[]]]; [exists PX0|exists PX1]; cbn [lengths fst snd plane_of]; tauto.
  - intros (s & -> & F & D). destruct s; cbn [lengths fst snd plane_of] in *.
    1, 2: right; right. 3, 4: right; left. 5, 6: left. all: rewrite F, D; cbn; tauto.
Qed.
Lemma far_iff e r : fst r <= snd r -> (far e r = true <-> e < snd r - fst r).
Proof. intros H. unfold far. rewrite ltb_iff, Rabs_left1 by lra. split; lra. Qed.
Lemma differ_iff r : fst r <= snd r -> (differ r = true <-> fst r < snd r).
Proof. intros H. unfold differ. rewrite Rabs_left1 by lra. destruct (Req_EM_T _ 0); split; intros; try discriminate; try lra; reflexivity. Qed.

Lemma draw_in g zi l d : draw_planes g zi l = Some d -> forall k f, In (k, f) d <-> k = - zi /\ In f l /\ exists a, (let '(v1, v2, v3, v4) := f in vangle g v1 v2 v4) = Some a /\ 0 < a.
Proof.
  revert d. induction l as [|[[[v1 v2] v3] v4] l IH]; intros d E k f; cbn [draw_planes] in E.
  - injection E as <-. cbn. tauto.
  - destruct (vangle g v1 v2 v4) as [a|] eqn:A; [|discriminate]. destruct (draw_planes g zi l) as [m|]; [|discriminate]. specialize (IH m eq_refl k f).
    injection E as <-. unfold ltb. destruct (Rlt_dec 0 a) as [P|P]; cbn [In]; rewrite IH.
    + split.
      * intros [H|(H1 & H2 & H3)]; [injection H as <- <-; split; [reflexivity|]; split; [left; reflexivity|exists a; auto]|tauto].
      * intros (H1 & [<-|H2] & H3); [left; congruence|right; tauto].
    + split; [tauto|]. intros (H1 & [<-|H2] & a' & H3 & H4); [|split; [exact H1|]; split; [exact H2|exists a'; auto]]. exfalso. assert (a' = a) by congruence. subst. contradiction.
Qed.

Lemma side_dot g s x y z v w : 0 < xscale g -> 0 < yscale g -> 0 < zscale g -> on_side s (x, y, z) v -> in_bar (x, y, z) w ->
  dot (position g w) (outward s) <= dot (position g v) (outward s).
Proof.
  intros X Y Z O I. destruct v as [[a b] c], w as [[a' b'] c']. cbn in O, I. unfold inside in *.
  destruct s; destruct O as (_ & ->); cbn; nra.
Qed.
Lemma side_dot_eq g s x y z v w : 0 < xscale g -> 0 < yscale g -> 0 < zscale g -> on_side s (x, y, z) v -> on_side s (x, y, z) w ->
  dot (position g v) (outward s) = dot (position g w) (outward s).
Proof.
  intros X Y Z O I. destruct v as [[a b] c], w as [[a' b'] c']. cbn in O, I.
  destruct s; destruct O as (_ & ->); destruct I as (_ & ->); cbn; ring.
Qed.
Lemma outward_unit s : dot (outward s) (outward s) = 1.
Proof. destruct s; cbn; ring. Qed.

Definition pick (b : bool) (r : R * R) : R := if b then snd r else fst r.
Definition has (s : plane) (i j k : bool) : bool :=
  match s with PX0 => negb i | PX1 => i | PY0 => negb j | PY1 => j | PZ0 => negb k | PZ1 => k end.
Lemma vertex_pick s x y z i j k : fst x < snd x -> fst y < snd y -> fst z < snd z ->
  (vertex s (x, y, z) (pick i x, pick j y, pick k z) <-> has s i j k = true).
Proof.
  intros X Y Z. unfold vertex, on_side, in_bar, at_end, inside.
  destruct i, j, k; cbn [pick]; destruct s; cbn [has negb]; split; intros H; try reflexivity; try discriminate; intuition lra.
Qed.
Lemma side_unique x y z s' s : fst x < snd x -> fst y < snd y -> fst z < snd z ->
  (forall w, vertex s' (x, y, z) w <-> vertex s (x, y, z) w) -> s' = s.
Proof.
  intros X Y Z H.
  assert (forall i j k, has s' i j k = has s i j k) as E.
  { intros i j k. specialize (H (pick i x, pick j y, pick k z)). rewrite !vertex_pick in H by assumption. destruct (has s' i j k), (has s i j k); intuition congruence. }
  pose proof (E false false false). pose proof (E true false false). pose proof (E false true false). pose proof (E false false true).
  destruct s', s; cbn in *; congruence.
Qed.

(** A side of a bar is drawn if and only if it faces the viewer; then no part of the bar covers it.  If it is not drawn, all of it
    is covered or seen edge-on: no point of it faces the viewer. *)
Theorem bar_sides : forall g epsilon valueindex x y z d s v, well_placed g -> 0 <= epsilon ->
  unit_range (fst x) -> unit_range (snd x) -> unit_range (fst y) -> unit_range (snd y) -> unit_range (fst z) -> unit_range (snd z) ->
  fst x < snd x -> fst y < snd y -> fst z < snd z ->
  draw_bar g epsilon valueindex x y z = Some d -> wide_side epsilon s (x, y, z) -> on_side s (x, y, z) v ->
  ((exists k f, In (k, f) d /\ face_of s (x, y, z) f) <-> faces (proj g) (position g v) (outward s)) /\
  (faces (proj g) (position g v) (outward s) -> forall w, in_bar (x, y, z) w -> ~ covers (proj g) (position g w) (position g v)).
Proof.
  intros g e vi x y z d s v W E X0 X1 Y0 Y1 Z0 Z1 X' Y' Z' D WS O.
  assert (fst x <= snd x) as X by lra. assert (fst y <= snd y) as Y by lra. assert (fst z <= snd z) as Z by lra.
  destruct W as (SX & SY & SZ & SD & F). unfold draw_bar in D. destruct (vzindex g _) as [zi|]; [|discriminate].
  pose proof (draw_in g zi _ d D) as I. split.
  - assert (exists a, (let '(v1, v2, v3, v4) := plane_of s x y z in vangle g v1 v2 v4) = Some a /\ (0 < a <-> faces (proj g) (position g v) (outward s))) as (a & A1 & A2).
    { pose proof (plane_normal g s x y z SX SY SZ) as N. pose proof (plane_face s x y z X Y Z) as PF. destruct (plane_of s x y z) as [[[v1 v2] v3] v4]. destruct PF as (PF & _).
      destruct (PF v1) as (_ & (V1 & _)); [left; reflexivity|].
      assert (in_graph v1) as G1 by (apply (in_bar_graph x y z); auto; destruct v1 as [[? ?] ?]; apply V1).
      set (k := match s with PX0 | PX1 => _ | _ => _ end) in N.
      assert (0 < k) as K.
      { assert (0 < 4 * xscale g * yscale g) by nra. assert (0 < 4 * xscale g * zscale g) by nra. assert (0 < 4 * yscale g * zscale g) by nra.
        unfold k; destruct s; cbn in WS; unfold wide in WS; (apply Rmult_lt_0_compat; [assumption|]); apply Rmult_lt_0_compat; lra. }
      destruct (angle_faces (proj g) (position g v1) (position g v2) (position g v4) (outward s) k (F v1 G1) K (outward_unit s) N) as (a & A1 & A2).
      exists a. split; [exact A1|]. rewrite A2. apply faces_plane. apply (side_dot_eq g s x y z); assumption. }
    rewrite <- A2. split.
    + intros (k & f & If & Ff). apply I in If. destruct If as (_ & P & a' & A' & Pa). apply planes_in in P. destruct P as (s' & -> & P1 & P2).
      assert (s' = s) as ->.
      { (* a face of side s has the corners of that side only *)
        pose proof (plane_face s' x y z X Y Z) as PF.
        assert (forall w, vertex s' (x, y, z) w <-> vertex s (x, y, z) w) as Same.
        { intros w. destruct (plane_of s' x y z) as [[[v1 v2] v3] v4]. destruct PF as (PF & _), Ff as (Ff & _). rewrite PF, Ff. reflexivity. }
        apply (side_unique x y z); [lra|lra|lra|exact Same]. }
      assert (a' = a) as <- by congruence. exact Pa.
    + intros Pa. exists (- zi), (plane_of s x y z). split; [|apply plane_face; assumption]. apply I. split; [reflexivity|]. split; [|exists a; auto].
      apply planes_in. exists s. split; [reflexivity|]. rewrite far_iff, differ_iff by (destruct s; cbn; assumption). destruct s; cbn in *; unfold wide in WS; lra.
  - intros Fv w Iw C. pose proof (side_dot g s x y z v w SX SY SZ O Iw) as L.
    destruct (proj g) as [D' phi theta|phi theta]; cbn [faces covers] in *; destruct C as (t & T & E'); rewrite E' in L;
      rewrite !(dot_comm _ (outward s)) in *; rewrite ?dot_add, ?dot_scaled, ?dot_sub in *; nra.
Qed.
Print Assumptions bar_sides.

(** ** The order of painting *)
Lemma insert_in {A} (x y : R * A) l : In y (insert_key x l) <-> y = x \/ In y l.
Proof.
  induction l as [|z l IH]; cbn [insert_key]; [cbn; intuition congruence|].
  destruct (ltb _ _); cbn [In]; [rewrite IH|]; intuition congruence.
Qed.
Lemma sort_in {A} (l : list (R * A)) y : In y (sort_key l) <-> In y l.
Proof. induction l as [|x l IH]; cbn; [reflexivity|]. rewrite insert_in, IH. intuition congruence. Qed.
Fixpoint increasing {A} (l : list (R * A)) : Prop :=
  match l with [] => True | x :: l' => (forall y, In y l' -> fst x <= fst y) /\ increasing l' end.
Lemma insert_increasing {A} (x : R * A) l : increasing l -> increasing (insert_key x l).
Proof.
  induction l as [|z l IH]; cbn [insert_key]; intros H; [cbn; split; [intros y []|exact I]|].
  destruct H as (H1 & H2). unfold ltb. destruct (Rlt_dec (fst z) (fst x)) as [L|L]; cbn [increasing].
  - split; [|auto]. intros y Y. apply insert_in in Y. destruct Y as [->|Y]; [lra|auto].
  - split; [|split; [exact H1|exact H2]]. intros y [<-|Y]; [lra|]. specialize (H1 y Y). lra.
Qed.
Lemma sort_increasing {A} (l : list (R * A)) : increasing (sort_key l).
Proof. induction l as [|x l IH]; cbn; [exact I|]. apply insert_increasing. exact IH. Qed.
Lemma increasing_split {A} (l1 : list (R * A)) x l2 : increasing (l1 ++ x :: l2) -> forall y, In y l2 -> fst x <= fst y.
Proof. induction l1 as [|z l1 IH]; cbn; [tauto|]. intros (_ & H). apply IH. exact H. Qed.

(** a single dimension *)
Lemma dim_central e t s a b A B : 0 < s -> 0 < t < 1 -> 2 * s * (b - 0.5) = e + t * (2 * s * (a - 0.5) - e) -> inside A a -> inside B b ->
  apart A B -> snd A - fst A = snd B - fst B ->
  (2 * s * (0.5 * (fst B + snd B) - 0.5) - e) * (2 * s * (0.5 * (fst B + snd B) - 0.5) - e) < (2 * s * (0.5 * (fst A + snd A) - 0.5) - e) * (2 * s * (0.5 * (fst A + snd A) - 0.5) - e).
Proof.
  destruct A as [A0 A1], B as [B0 B1]. unfold inside, apart. cbn [fst snd]. intros S T E IA IB AP W.
  set (u := 2 * s) in *. assert (0 < u) as U by (unfold u; lra). clearbody u.
  set (p := u * (a - 0.5)) in *. set (q := u * (b - 0.5)) in *.
  assert (q - p = (1 - t) * (e - p)) as Q by lra. assert (e - q = t * (e - p)) as Q' by lra.
  set (mB := u * (0.5 * (B0 + B1) - 0.5)). set (mA := u * (0.5 * (A0 + A1) - 0.5)).
  assert (q - p = u * (b - a)) as QP by (unfold q, p; ring).
  destruct AP as [AP|AP].
  - assert (0 < q - p) by (rewrite QP; apply Rmult_lt_0_compat; lra).
    assert (0 < e - p) as EP. { apply Rnot_le_lt. intros L. nra. }
    assert (q < e) by nra.
    assert (mA < mB) by (unfold mA, mB; apply Rmult_lt_compat_l; lra).
    assert (mA + mB = u * (A1 - 0.5) + u * (B0 - 0.5)) as M by (unfold mA, mB; replace B1 with (A1 - A0 + B0) by lra; lra).
    assert (u * (A1 - 0.5) < u * (B0 - 0.5)) by (apply Rmult_lt_compat_l; lra).
    assert (u * (B0 - 0.5) <= q) by (unfold q; apply Rmult_le_compat_l; lra).
    clearbody mA mB p q. nra.
  - assert (0 < p - q) by (replace (p - q) with (u * (a - b)) by lra; apply Rmult_lt_0_compat; lra).
    assert (e - p < 0) as EP. { apply Rnot_le_lt. intros L. nra. }
    assert (e < q) by nra.
    assert (mB < mA) by (unfold mA, mB; apply Rmult_lt_compat_l; lra).
    assert (mA + mB = u * (A0 - 0.5) + u * (B1 - 0.5)) as M by (unfold mA, mB; replace B0 with (B1 - (A1 - A0)) by lra; lra).
    assert (u * (B1 - 0.5) < u * (A0 - 0.5)) by (apply Rmult_lt_compat_l; lra).
    assert (q <= u * (B1 - 0.5)) by (unfold q; apply Rmult_le_compat_l; lra).
    clearbody mA mB p q. nra.
Qed.
Lemma dim_parallel w t s a b A B : 0 < s -> 0 < t -> 2 * s * (b - 0.5) = 2 * s * (a - 0.5) + t * w -> inside A a -> inside B b -> apart A B ->
  w * (2 * s * (0.5 * (fst A + snd A) - 0.5)) < w * (2 * s * (0.5 * (fst B + snd B) - 0.5)).
Proof.
  destruct A as [A0 A1], B as [B0 B1]. unfold inside, apart. cbn [fst snd]. intros S T E IA IB AP.
  assert (t * w = 2 * s * (b - a)) as E' by lra.
  destruct AP as [AP|AP].
  - assert (0 < t * w) by (rewrite E'; apply Rmult_lt_0_compat; lra). assert (0 < w) by nra.
    apply Rmult_lt_compat_l; [assumption|]. apply Rmult_lt_compat_l; lra.
  - assert (0 < - (t * w)) by (rewrite E'; replace (- (2 * s * (b - a))) with (2 * s * (a - b)) by ring; apply Rmult_lt_0_compat; lra). assert (w < 0) by nra.
    apply Ropp_lt_cancel. rewrite <- !Ropp_mult_distr_l_reverse. apply Rmult_lt_compat_l; [lra|]. apply Rmult_lt_compat_l; lra.
Qed.

Lemma zindexscale_pos g : 0 < xscale g -> 0 < zindexscale g.
Proof. intros H. apply sqrt_lt_R0. pose proof (Rle_0_sqr (yscale g)). pose proof (Rle_0_sqr (zscale g)). unfold Rsqr in *. nra. Qed.
Lemma middle_order g vi A B a b : 0 < xscale g -> 0 < yscale g -> 0 < zscale g -> arranged (proj g) vi A B -> in_bar A a -> in_bar B b ->
  covers (proj g) (position g b) (position g a) ->
  zindex (proj g) (position g (let '(x, y, z) := B in middle vi x y z)) < zindex (proj g) (position g (let '(x, y, z) := A in middle vi x y z)).
Proof.
  intros X Y Z (AR & j & J1 & J2 & J3) IA IB C.
  destruct A as [[Ax Ay] Az], B as [[Bx By] Bz], a as [[a0 a1] a2], b as [[b0 b1] b2]. destruct IA as (IA0 & IA1 & IA2), IB as (IB0 & IB1 & IB2).
  pose proof (AR 0%nat ltac:(lia)) as R0. pose proof (AR 1%nat ltac:(lia)) as R1. pose proof (AR 2%nat ltac:(lia)) as R2. cbn [dimension] in R0, R1, R2. clear AR.
  destruct (proj g) as [D phi theta|phi theta]; cbn [covers central_widths] in *.
  - destruct C as (t & T & E). rewrite !zindex_central. destruct (eye D phi theta) as [[e0 e1] e2]. unfold position, add, sub, scaled, add in E. injection E as E0 E1 E2.
    apply Rplus_lt_compat_r. apply sqrt_lt_1_alt. split; [apply dot_self|]. unfold middle, position, sub, add, scaled, dot.
    assert (forall i r r' s e a b, 0 < s -> (i <> vi -> r = r' \/ (apart r r' /\ snd r - fst r = snd r' - fst r')) -> 2 * s * (b - 0.5) = e + t * (2 * s * (a - 0.5) + -1 * e) -> inside r a -> inside r' b ->
      let m r := if Nat.eqb i vi then 0.5 else 0.5 * (fst r + snd r) in
      (2 * s * (m r' - 0.5) + -1 * e) * (2 * s * (m r' - 0.5) + -1 * e) <= (2 * s * (m r - 0.5) + -1 * e) * (2 * s * (m r - 0.5) + -1 * e) /\
      (i <> vi -> apart r r' -> (2 * s * (m r' - 0.5) + -1 * e) * (2 * s * (m r' - 0.5) + -1 * e) < (2 * s * (m r - 0.5) + -1 * e) * (2 * s * (m r - 0.5) + -1 * e))) as L.
    { intros i r r' s e a b S H E I I'. cbv zeta. destruct (Nat.eqb_spec i vi) as [->|N]; [split; [lra|congruence]|].
      assert (apart r r' -> snd r - fst r = snd r' - fst r' -> (2 * s * (0.5 * (fst r' + snd r') - 0.5) + -1 * e) * (2 * s * (0.5 * (fst r' + snd r') - 0.5) + -1 * e) < (2 * s * (0.5 * (fst r + snd r) - 0.5) + -1 * e) * (2 * s * (0.5 * (fst r + snd r) - 0.5) + -1 * e)) as K.
      { intros AP WW. pose proof (dim_central e t s a b r r' S T ltac:(lra) I I' AP WW). lra. }
      destruct (H N) as [->|(AP & WW)]; [split; [lra|]|split; [left; auto|auto]].
      intros _ [AP|AP]; destruct I, I'; lra. }
    destruct (L 0%nat Ax Bx (xscale g) e0 a0 b0 X R0 ltac:(lra) IA0 IB0) as (L0 & S0).
    destruct (L 1%nat Ay By (yscale g) e1 a1 b1 Y R1 ltac:(lra) IA1 IB1) as (L1 & S1).
    destruct (L 2%nat Az Bz (zscale g) e2 a2 b2 Z R2 ltac:(lra) IA2 IB2) as (L2 & S2). cbv zeta in *.
    destruct j as [|[|[|j]]]; [specialize (S0 J2 J3)|specialize (S1 J2 J3)|specialize (S2 J2 J3)|lia]; lra.
  - destruct C as (t & T & E). rewrite !zindex_parallel. destruct (view phi theta) as [[e0 e1] e2]. unfold position, add, scaled in E. injection E as E0 E1 E2.
    apply Ropp_lt_contravar. unfold middle, position, dot.
    assert (forall i r r' s e a b, 0 < s -> (i <> vi -> r = r' \/ (apart r r' /\ True)) -> 2 * s * (b - 0.5) = 2 * s * (a - 0.5) + t * e -> inside r a -> inside r' b ->
      let m r := if Nat.eqb i vi then 0.5 else 0.5 * (fst r + snd r) in
      e * (2 * s * (m r - 0.5)) <= e * (2 * s * (m r' - 0.5)) /\
      (i <> vi -> apart r r' -> e * (2 * s * (m r - 0.5)) < e * (2 * s * (m r' - 0.5)))) as L.
    { intros i r r' s e a b S H E I I'. cbv zeta. destruct (Nat.eqb_spec i vi) as [->|N]; [split; [lra|congruence]|].
      assert (apart r r' -> e * (2 * s * (0.5 * (fst r + snd r) - 0.5)) < e * (2 * s * (0.5 * (fst r' + snd r') - 0.5))) as K.
      { intros AP. exact (dim_parallel e t s a b r r' S T E I I' AP). }
      destruct (H N) as [->|(AP & _)]; [split; [lra|]|split; [left; auto|auto]].
      intros _ AP. apply K. exact AP. }
    destruct (L 0%nat Ax Bx (xscale g) e0 a0 b0 X R0 ltac:(lra) IA0 IB0) as (L0 & S0).
    destruct (L 1%nat Ay By (yscale g) e1 a1 b1 Y R1 ltac:(lra) IA1 IB1) as (L1 & S1).
    destruct (L 2%nat Az Bz (zscale g) e2 a2 b2 Z R2 ltac:(lra) IA2 IB2) as (L2 & S2). cbv zeta in *.
    destruct j as [|[|[|j]]]; [specialize (S0 J2 J3)|specialize (S1 J2 J3)|specialize (S2 J2 J3)|lia]; lra.
Qed.

(** The bars are painted from the back to the front: when a point of a bar covers a point of another one, all planes of the
    former are painted after all planes of the latter. *)
Theorem bars_back_to_front : forall g epsilon valueindex bars order A B a b dA dB,
  0 < xscale g -> 0 < yscale g -> 0 < zscale g -> draw_bars g epsilon valueindex bars = Some order ->
  In A bars -> In B bars -> arranged (proj g) valueindex A B -> in_bar A a -> in_bar B b ->
  covers (proj g) (position g b) (position g a) ->
  (let '(x, y, z) := A in draw_bar g epsilon valueindex x y z) = Some dA -> (let '(x, y, z) := B in draw_bar g epsilon valueindex x y z) = Some dB ->
  forall fA fB, In fA dA -> In fB dB ->
  In fA order /\ In fB order /\ forall l1 l2, order = l1 ++ fB :: l2 -> ~ In fA l2.
Proof.
  intros g e vi bars order A B a b dA dB X Y Z O IA IB AR Ia Ib C DA DB fA fB FA FB.
  unfold draw_bars in O. destruct (fold_right _ _ bars) as [m|] eqn:M; [|discriminate]. injection O as <-.
  assert (forall bar d f, In bar bars -> (let '(x, y, z) := bar in draw_bar g e vi x y z) = Some d -> In f d -> In f m) as Im.
  { clear - M. revert m M. induction bars as [|b' bars IH]; intros m M bar d f I D F; [destruct I|].
    cbn [fold_right] in M. destruct b' as [[x y] z]. destruct (draw_bar g e vi x y z) as [d'|] eqn:D'; [|discriminate].
    destruct (fold_right _ _ bars) as [m'|]; [|discriminate]. injection M as <-. apply in_app_iff. destruct I as [<-|I].
    - left. cbn in D. congruence.
    - right. apply (IH m' eq_refl bar d); assumption. }
  assert (forall bar d f, (let '(x, y, z) := bar in draw_bar g e vi x y z) = Some d -> In f d ->
    fst f = - (zindex (proj g) (position g (let '(x, y, z) := bar in middle vi x y z)) / zindexscale g)) as Key.
  { intros [[x y] z] d [k f] D F. unfold draw_bar, vzindex, divide in D. destruct (Req_EM_T _ 0); [discriminate|]. cbn [fst].
    apply (draw_in g _ _ _ D) in F. destruct F as (-> & _). reflexivity. }
  split; [apply sort_in; apply (Im A dA); assumption|]. split; [apply sort_in; apply (Im B dB); assumption|].
  intros l1 l2 E I. pose proof (sort_increasing m) as S. rewrite E in S. pose proof (increasing_split _ _ _ S fA I) as L.
  rewrite (Key A dA fA DA FA), (Key B dB fB DB FB) in L.
  pose proof (middle_order g vi A B a b X Y Z AR Ia Ib C) as Q. pose proof (zindexscale_pos g X) as P.
  apply (Rmult_lt_compat_r (/ zindexscale g)) in Q; [|apply Rinv_0_lt_compat; exact P]. unfold Rdiv in L. lra.
Qed.
Print Assumptions bars_back_to_front.

(** ** Example: two bars, one behind the other, seen along the x axis; only the sides towards the viewer are drawn *)
Lemma ex_angle x y z s : fst x < snd x -> fst y < snd y -> fst z < snd z ->
  (let '(v1, v2, v3, v4) := plane_of s x y z in vangle (mkgraph 0 0 1 1 1 1 (Parallel 0 0)) v1 v2 v4) = Some (match s with PX0 => -1 | PX1 => 1 | _ => 0 end).
Proof.
  intros X Y Z. set (g := mkgraph 0 0 1 1 1 1 (Parallel 0 0)). pose proof (plane_normal g s x y z ltac:(cbn; lra) ltac:(cbn; lra) ltac:(cbn; lra)) as N.
  destruct (plane_of s x y z) as [[[v1 v2] v3] v4]. unfold vangle. rewrite angle_dot. cbv zeta. rewrite N. unfold g. cbn [xscale yscale zscale proj]. rewrite sight_parallel.
  set (k := match s with PX0 | PX1 => _ | _ => _ end).
  assert (0 < k) as K by (unfold k; destruct s; (apply Rmult_lt_0_compat; [lra|]); apply Rmult_lt_0_compat; lra).
  assert (dot (scaled (- k) (outward s)) (scaled (- k) (outward s)) = k * k) as -> by (rewrite dot_scaled, (dot_comm _ (outward s)), dot_scaled, outward_unit; ring).
  rewrite sqrt_square by lra. unfold divide. destruct (Req_EM_T k 0); [lra|]. destruct (Req_EM_T 1 0); [lra|]. f_equal.
  rewrite dot_scaled. cbn [sight]. unfold view. rewrite sin_0, cos_0. destruct s; cbn; field; assumption.
Qed.
Lemma ex_draw x y z : fst x < snd x -> fst y < snd y -> fst z < snd z ->
  draw_bar (mkgraph 0 0 1 1 1 1 (Parallel 0 0)) 0 2 x y z = Some [(- ((1 - fst x - snd x) / sqrt 3), plane_of PX1 x y z)].
Proof.
  intros X Y Z. set (g := mkgraph 0 0 1 1 1 1 (Parallel 0 0)). unfold draw_bar, vzindex, divide.
  assert (zindexscale g = sqrt 3) as -> by (unfold zindexscale, g; cbn; f_equal; ring).
  pose proof (sqrt_lt_R0 3 ltac:(lra)). destruct (Req_EM_T (sqrt 3) 0); [lra|].
  replace (zindex (proj g) (position g (middle 2 x y z))) with (1 - fst x - snd x).
  2: { unfold g, middle. cbn [proj zindex position xscale yscale zscale attr_c]. rewrite sin_0, cos_0. cbn. lra. }
  pose proof (far_iff 0 x ltac:(lra)) as FX. pose proof (far_iff 0 y ltac:(lra)) as FY. pose proof (differ_iff y ltac:(lra)) as DY. pose proof (differ_iff z ltac:(lra)) as DZ.
  pose proof (ex_angle x y z PX0 X Y Z) as A1. pose proof (ex_angle x y z PX1 X Y Z) as A2. pose proof (ex_angle x y z PY0 X Y Z) as A3.
  pose proof (ex_angle x y z PY1 X Y Z) as A4. pose proof (ex_angle x y z PZ0 X Y Z) as A5. pose proof (ex_angle x y z PZ1 X Y Z) as A6.
  fold g in A1, A2, A3, A4, A5, A6. unfold planes. destruct x as [x0 x1], y as [y0 y1], z as [z0 z1]. cbn [fst snd] in *.
  rewrite (proj2 FX), (proj2 FY), (proj2 DY), (proj2 DZ) by lra. cbn [andb app draw_planes plane_of] in *. rewrite A1, A2, A3, A4, A5, A6.
  unfold ltb. destruct (Rlt_dec 0 1); [|lra]. destruct (Rlt_dec 0 0); [lra|]. destruct (Rlt_dec 0 (-1)); [lra|]. reflexivity.
Qed.
Example bars_ex :
  let g := mkgraph 0 0 1 1 1 1 (Parallel 0 0) in let A := ((0.1, 0.3), (0, 0.2), (0, 0.5)) in let B := ((0.6, 0.8), (0, 0.2), (0, 0.4)) in
  arranged (proj g) 2 A B /\ covers (proj g) (position g (0.7, 0.1, 0.1)) (position g (0.2, 0.1, 0.1)) /\
  option_map (map snd) (draw_bars g 0 2 [B; A]) = Some [plane_of PX1 (0.1, 0.3) (0, 0.2) (0, 0.5); plane_of PX1 (0.6, 0.8) (0, 0.2) (0, 0.4)].
Proof.
  cbv zeta. split; [|split].
  - split.
    + intros [|[|[|i]]] I J; cbn; [right; unfold apart; cbn; split; [lra|exact Logic.I]|left; reflexivity|congruence|lia].
    + exists 0%nat. split; [lia|]. split; [lia|]. unfold apart. cbn. lra.
  - cbn [proj covers]. exists 1. split; [lra|]. unfold view. rewrite sin_0, cos_0. cbn. apply vec_ext; lra.
  - unfold draw_bars. cbn [fold_right]. rewrite !ex_draw by (cbn; lra). cbn [app option_map]. unfold sort_key. cbn [fold_right insert_key fst].
    unfold ltb. destruct (Rlt_dec _ _) as [L|L]; [reflexivity|exfalso]. apply L.
    apply Ropp_lt_contravar. apply Rmult_lt_compat_r; [apply Rinv_0_lt_compat, sqrt_lt_R0; lra|]. cbn. lra.
Qed.
