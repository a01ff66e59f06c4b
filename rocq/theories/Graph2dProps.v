(** * Two dimensional graphs: coordinates, axes, and the key graph (C107) *)

From Coq Require Import Reals Bool List Arith String Ascii Lra Lia.
From Verif Require Import Graph2dModel Graph2dSpec.
Import ListNotations.
Open Scope R_scope.

(** The ratio is the width over the height, whichever is given. *)
Theorem graph_ratio : forall w h r, 0 < r ->
  (graph_size (Some w) (Some h) (Some r) = Some (w, h)) /\
  (forall a b, graph_size None (Some h) (Some r) = Some (a, b) -> b = h /\ a = r * b) /\
  (forall a b, graph_size (Some w) None (Some r) = Some (a, b) -> a = w /\ a = r * b) /\
  (exists s, graph_size (Some w) None (Some r) = Some s) /\ (exists s, graph_size None (Some h) (Some r) = Some s).
Proof.
  intros w h r H. split; [reflexivity|]. unfold graph_size. destruct (Req_EM_T r 0) as [E|_]; [lra|].
  split; [|split; [|split; eexists; reflexivity]].
  - intros a b E. injection E as <- <-. auto.
  - intros a b E. injection E as <- <-. split; [reflexivity|]. replace 1.0 with 1 by lra. field; lra.
Qed.
Print Assumptions graph_ratio.
Example graph_ratio_ex : graph_size (Some 6) None (Some 3) = Some (6, 1.0 / 3 * 6) /\ 1.0 / 3 * 6 = 2.
Proof. unfold graph_size. destruct (Req_EM_T 3 0) as [E|_]; [lra|]. split; [reflexivity|lra]. Qed.

(** The unit square of the graph coordinates is the rectangle of the graph, flipped or not, and different coordinates are different
    points. *)
Theorem graph_area : forall g, 0 < width g -> 0 < height g ->
  (forall p, (exists v, inside v /\ vpos g (fst v) (snd v) = p) <->
             xpos g <= fst p <= xpos g + width g /\ ypos g <= snd p <= ypos g + height g) /\
  (forall a b a' b', vpos g a b = vpos g a' b' -> a = a' /\ b = b').
Proof.
  intros [x y w h d f] W H. cbn in W, H. unfold vpos, inside. cbn. split.
  - intros [px py]. cbn. split.
    + intros [[a b] [[A B] E]]. cbn in *. destruct f; injection E as <- <-; split; nra.
    + intros [A B]. assert (U : 0 <= (px - x) / w <= 1).
      { split; [apply Rmult_le_pos; [lra|left; apply Rinv_0_lt_compat; lra]|]. apply (Rmult_le_reg_r w); [lra|]. unfold Rdiv. rewrite Rmult_assoc, Rinv_l by lra. lra. }
      assert (V : 0 <= (py - y) / h <= 1).
      { split; [apply Rmult_le_pos; [lra|left; apply Rinv_0_lt_compat; lra]|]. apply (Rmult_le_reg_r h); [lra|]. unfold Rdiv. rewrite Rmult_assoc, Rinv_l by lra. lra. }
      exists (if f then ((py - y) / h, (px - x) / w) else ((px - x) / w, (py - y) / h)).
      destruct f; cbn; (split; [tauto|f_equal; field; lra]).
  - intros a b a' b' E. destruct f; injection E as E1 E2; split; nra.
Qed.
Print Assumptions graph_area.
Example graph_area_ex : vpos (mkgraph 10 20 100 50 5 true) 0.2 0.5 = (60, 30).
Proof. unfold vpos. cbn. f_equal; lra. Qed.

(** A flipped graph has the axes exchanged; positions are those of the converted values. *)
Theorem graph_flipped : forall x y w h d cx cy a b,
  vpos (mkgraph x y w h d true) a b = vpos (mkgraph x y w h d false) b a /\
  (forall g, pos g cx cy a b = vpos g (cx a) (cy b)).
Proof. intros. split; [reflexivity|]. intros g. unfold pos, vpos. destruct (flipped g); reflexivity. Qed.
Print Assumptions graph_flipped.
Example graph_flipped_ex : pos (mkgraph 0 0 100 50 0 true) (fun x => x / 2) (fun y => y) 1 1 = (100, 25).
Proof. unfold pos. cbn. f_equal; lra. Qed.

(** The path between two points consists of the points in between in graph coordinates. *)
Theorem graph_geodesic : forall g a b a' b' t,
  vgeodesic_el g a b a' b' = vpos g a' b' /\
  let l := vgeodesic g a b a' b' in
  (fst (fst l) + t * (fst (snd l) - fst (fst l)), snd (fst l) + t * (snd (snd l) - snd (fst l))) =
  vpos g (a + t * (a' - a)) (b + t * (b' - b)).
Proof.
  intros g a b a' b' t. unfold vgeodesic_el, vgeodesic, vpos. destruct (flipped g); cbn; (split; [reflexivity|f_equal; ring]).
Qed.
Print Assumptions graph_geodesic.
Example graph_geodesic_ex : vgeodesic (mkgraph 0 0 10 20 0 false) 0 0 1 0.5 = ((0, 0), (10, 10)).
Proof. unfold vgeodesic. cbn. repeat f_equal; lra. Qed.

(** A cap has the given length, has the point as its center, and runs along the coordinate. *)
Theorem graph_cap : forall g c len vx vy l, 0 < width g -> 0 < height g -> vcap g c len vx vy = Some l ->
  (c = 0 \/ c = 1)%nat /\
  (fst (fst l) + fst (snd l)) / 2 = fst (vpos g vx vy) /\ (snd (fst l) + snd (snd l)) / 2 = snd (vpos g vx vy) /\
  exists s, s * (if (Nat.eqb c 0) then (if flipped g then height g else width g) else (if flipped g then width g else height g)) = len /\
    let e := fst (coords c (s / 2) 0) in let e' := snd (coords c (s / 2) 0) in
    fst l = vpos g (vx - e) (vy - e') /\ snd l = vpos g (vx + e) (vy + e').
Proof.
  intros [x y w h d f] c len vx vy l W H. cbn in W, H. unfold vcap, vpos. cbn. destruct f; destruct c as [|[|c]]; cbn; intros E; try discriminate;
    injection E as <-; cbn; (split; [auto|]); (split; [lra|]); (split; [lra|]).
  - exists (len / h). split; [field; lra|]. split; f_equal; try ring; field_simplify; lra.
  - exists (len / w). split; [field; lra|]. split; f_equal; try ring; field_simplify; lra.
  - exists (len / w). split; [field; lra|]. split; f_equal; try ring; field_simplify; lra.
  - exists (len / h). split; [field; lra|]. split; f_equal; try ring; field_simplify; lra.
Qed.
Print Assumptions graph_cap.
Example graph_cap_ex : vcap (mkgraph 0 0 10 20 0 true) 0 4 0.5 0.5 = Some ((5, 8), (5, 12)) /\ vcap (mkgraph 0 0 10 20 0 true) 2 4 0.5 0.5 = None.
Proof. unfold vcap. cbn. split; [repeat f_equal; lra|reflexivity]. Qed.

(** ** Axes *)

(** How far outside of the graph an axis is *)
Fixpoint offset (ext : letter * nat -> R) (dist : R) (l : letter) (n : nat) : R :=
  match n with S (S m) => match m with 0%nat => 0 | S _ => offset ext dist l m + (ext (l, m) + dist) end | _ => 0 end.
(** Whether it is at the side of the coordinate 0 *)
Definition low (g : graph) (l : letter) (n : nat) : bool := xorb (Nat.odd n) (match l with X => flipped g | Y => false end).
Definition side (g : graph) (l : letter) : bool := match l with X => flipped g | Y => negb (flipped g) end.
(** The positioner of any axis: side true for vertical axes *)
Definition place (g : graph) (gx gy : R -> option line) (vertical lo : bool) (o : R) : positioner :=
  if vertical then
    let x := if lo then xpos g - o else xpos g + width g + o in mkpos x (ypos g) x (ypos g + height g) (if lo then 1 else -1, 0) gy
  else
    let y := if lo then ypos g - o else ypos g + height g + o in mkpos (xpos g) y (xpos g + width g) y (0, if lo then 1 else -1) gx.

Definition psame (p q : positioner) : Prop :=
  x1 p = x1 q /\ y1 p = y1 q /\ x2 p = x2 q /\ y2 p = y2 q /\ fixtickdirection p = fixtickdirection q /\ vgridpath p = vgridpath q.

Lemma two (P : nat -> Prop) : P 0%nat -> P 1%nat -> P 2%nat -> (forall n, P (S n) -> P (S (S (S n)))) -> forall n, P n.
Proof.
  intros A B C D. assert (K : forall n, P n /\ P (S n) /\ P (S (S n))); [|intros n; apply K].
  induction n as [|n [I1 [I2 I3]]]; [auto|]. split; [|split]; auto.
Qed.

Lemma odd_SS n : Nat.odd (S (S n)) = Nat.odd n. Proof. reflexivity. Qed.
Lemma mod2 n : INR (n mod 2) = if Nat.odd n then 1 else 0.
Proof.
  destruct (Nat.odd n) eqn:O.
  - apply Nat.odd_spec in O. destruct O as [m ->]. replace (2 * m + 1)%nat with (1 + m * 2)%nat by lia. rewrite Nat.mod_add by lia. cbn. lra.
  - assert (E : Nat.even n = true) by (rewrite <- Nat.negb_odd, O; reflexivity). apply Nat.even_spec in E. destruct E as [m ->].
    replace (2 * m)%nat with (0 + m * 2)%nat by lia. rewrite Nat.mod_add by lia. reflexivity.
Qed.

Lemma step g gx gy has ext l n : axis_positioner g gx gy has ext l (S (S (S n))) =
  if has (l, S (S (S n))) then
    match axis_positioner g gx gy has ext l (S n) with
    | None => None
    | Some p =>
        let sign := 2 * INR (S (S (S n)) mod 2) - 1 in
        let sign := if (match l with X => true | Y => false end) && flipped g then - sign else sign in
        if (match l with X => negb (flipped g) | Y => flipped g end)
        then Some (mkpos (xpos g) (y1 p - sign * (ext (l, S n) + axesdist g)) (xpos g + width g) (y1 p - sign * (ext (l, S n) + axesdist g)) (0, sign) gx)
        else Some (mkpos (x1 p - sign * (ext (l, S n) + axesdist g)) (ypos g) (x1 p - sign * (ext (l, S n) + axesdist g)) (ypos g + height g) (sign, 0) gy)
    end
  else None.
Proof. reflexivity. Qed.

Lemma placed g gx gy has ext l : forall n p, axis_positioner g gx gy has ext l n = Some p ->
  psame p (place g gx gy (side g l) (low g l n) (offset ext (axesdist g) l n)).
Proof.
  apply (two (fun n => forall p, axis_positioner g gx gy has ext l n = Some p ->
    psame p (place g gx gy (side g l) (low g l n) (offset ext (axesdist g) l n)))).
  - intros p. cbn. destruct (has (l, 0%nat)); discriminate.
  - intros p. cbn. destruct (has (l, 1%nat)); [|discriminate]. unfold low, side.
    destruct l; destruct (flipped g); intros E; injection E as <-; unfold psame, place; cbn; repeat split; lra.
  - intros p. cbn. destruct (has (l, 2%nat)); [|discriminate]. unfold low, side.
    destruct l; destruct (flipped g); intros E; injection E as <-; unfold psame, place; cbn; repeat split; lra.
  - intros n I p E. change (offset ext (axesdist g) l (S (S (S n)))) with (offset ext (axesdist g) l (S n) + (ext (l, S n) + axesdist g)).
    rewrite step in E. destruct (has (l, S (S (S n)))); [|discriminate]. destruct (axis_positioner g gx gy has ext l (S n)) as [q|] eqn:Q; [|discriminate].
    specialize (I q eq_refl). unfold low in *. cbv zeta in E. rewrite mod2, odd_SS in E. rewrite (odd_SS (S n)).
    set (o := offset ext (axesdist g) l (S n)) in *. set (s := ext (l, S n) + axesdist g) in *. unfold side in *.
    destruct I as (I1 & I2 & I3 & I4 & I5 & I6).
    destruct l; destruct (flipped g); destruct (Nat.odd (S n)); cbn in E, I1, I2, I3, I4, I5, I6;
      apply (f_equal (fun o => match o with Some p => p | None => p end)) in E; cbv beta iota in E; subst p;
      unfold psame, place; cbn; rewrite ?I1, ?I2; repeat split; try lra; f_equal; lra.
Qed.

Lemma offset_nonneg ext dist l : 0 <= dist -> (forall a, 0 <= ext a) -> forall n, 0 <= offset ext dist l n.
Proof.
  intros D E. apply two; try (cbn; lra). intros n I. change (0 <= offset ext dist l (S n) + (ext (l, S n) + dist)).
  pose proof (E (l, S n)). lra.
Qed.

Definition coordinate (l : letter) : nat := match l with X => 0%nat | Y => 1%nat end.
Definition vp (g : graph) (v : R * R) : pt := vpos g (fst v) (snd v).

Lemma vp_coords g l a b : vp g (coords (coordinate l) a b) =
  if side g l then (xpos g + b * width g, ypos g + a * height g) else (xpos g + a * width g, ypos g + b * height g).
Proof. unfold vp, vpos, coords, coordinate, side. destruct l, (flipped g); reflexivity. Qed.

(** Each axis, flipped or not and however many there are, runs along its own coordinate outside of the graph, with its ticks pointing to
    the graph and its grid lines being the lines of constant coordinate across the graph. *)
Theorem graph_axis : forall g has ext l n p, 0 < width g -> 0 < height g -> 0 <= axesdist g -> (forall a, 0 <= ext a) ->
  xy_positioner g has ext l n = Some p ->
  exists w, (w <= 0 \/ 1 <= w) /\
    (forall v, vtickpoint_pt p v = vpos g (fst (coords (coordinate l) v w)) (snd (coords (coordinate l) v w))) /\
    (forall v s, 0 < s -> exists w', (w <= 0 -> w < w') /\ (1 <= w -> w' < w) /\
       (fst (vtickpoint_pt p v) + s * fst (fixtickdirection p), snd (vtickpoint_pt p v) + s * snd (fixtickdirection p)) =
       vpos g (fst (coords (coordinate l) v w')) (snd (coords (coordinate l) v w'))) /\
    (forall v, exists a b, vgridpath p v = Some (a, b) /\
       forall r, on_line a b r <-> exists u, 0 <= u <= 1 /\ r = vpos g (fst (coords (coordinate l) v u)) (snd (coords (coordinate l) v u))).
Proof.
  intros g has ext l n p W H D E P. pose proof (placed _ _ _ _ _ _ _ _ P) as (X1 & Y1 & X2 & Y2 & T & G).
  pose proof (offset_nonneg ext (axesdist g) l D E n) as O. set (o := offset ext (axesdist g) l n) in *. clearbody o.
  fold (vp g). change (exists w, (w <= 0 \/ 1 <= w) /\
    (forall v, vtickpoint_pt p v = vp g (coords (coordinate l) v w)) /\
    (forall v s, 0 < s -> exists w', (w <= 0 -> w < w') /\ (1 <= w -> w' < w) /\
       (fst (vtickpoint_pt p v) + s * fst (fixtickdirection p), snd (vtickpoint_pt p v) + s * snd (fixtickdirection p)) =
       vp g (coords (coordinate l) v w')) /\
    (forall v, exists a b, vgridpath p v = Some (a, b) /\
       forall r, on_line a b r <-> exists u, 0 <= u <= 1 /\ r = vp g (coords (coordinate l) v u))).
  pose (sz := if side g l then width g else height g). assert (S : 0 < sz) by (unfold sz; destruct (side g l); lra).
  assert (K : o / sz * sz = o) by (field; lra). assert (K' : 0 <= o / sz) by (apply Rmult_le_pos; [lra|left; apply Rinv_0_lt_compat; lra]).
  exists (if low g l n then - (o / sz) else 1 + o / sz). unfold vtickpoint_pt. rewrite X1, Y1, X2, Y2, T, G.
  split; [destruct (low g l n); lra|]. split; [|split].
  - intros v. rewrite vp_coords. subst sz. unfold place. destruct (side g l), (low g l n); cbn; f_equal; nra.
  - intros v s Hs. assert (Ks : s / sz * sz = s) by (field; lra). assert (Ks' : 0 < s / sz) by (apply Rmult_lt_0_compat; [lra|apply Rinv_0_lt_compat; lra]).
    exists (if low g l n then - (o / sz) + s / sz else 1 + o / sz - s / sz).
    split; [destruct (low g l n); lra|]. split; [destruct (low g l n); lra|]. rewrite vp_coords. subst sz. unfold place.
    destruct (side g l), (low g l n); cbn; f_equal; nra.
  - intros v. unfold place. destruct (side g l) eqn:SD; cbn -[on_line]; unfold yvgridpath, xvgridpath.
    all: eexists; eexists; (split; [reflexivity|]); intros r; unfold on_line; cbn [fst snd].
    all: split; intros [t [Ht ->]]; exists t; (split; [exact Ht|]); rewrite vp_coords, SD; f_equal; ring.
Qed.
Print Assumptions graph_axis.
Example graph_axis_ex : exists p, xy_positioner (mkgraph 0 0 100 50 5 true) (fun _ => true) (fun _ => 20) X 3 = Some p /\
  vtickpoint_pt p 0.5 = (125, 25) /\ fixtickdirection p = (-1, 0).
Proof.
  eexists. split; [reflexivity|]. cbn. unfold vtickpoint_pt. cbn. split; f_equal; lra.
Qed.

(** Axes at the same side are apart from each other: an axis is further outside by more than the extent of each axis before it, and
    exactly by the extent and the distance for the next one. *)
Definition outward (p : positioner) (q : pt) : R := - (fst q * fst (fixtickdirection p) + snd q * snd (fixtickdirection p)).

Lemma outward_place g gx gy b lo o q v : psame q (place g gx gy b lo o) -> forall r, fixtickdirection r = fixtickdirection q ->
  outward r (vtickpoint_pt q v) = o + if b then (if lo then - xpos g else xpos g + width g) else (if lo then - ypos g else ypos g + height g).
Proof.
  intros (X1 & Y1 & X2 & Y2 & T & _) r F. unfold outward, vtickpoint_pt. rewrite F, X1, Y1, X2, Y2, T. unfold place. destruct b, lo; cbn; lra.
Qed.

Theorem graph_axes_apart : forall g has ext l n m p q, 0 <= axesdist g -> (forall a, 0 <= ext a) -> (n < m)%nat -> chain m n ->
  xy_positioner g has ext l n = Some p -> xy_positioner g has ext l m = Some q ->
  fixtickdirection q = fixtickdirection p /\
  forall v v', outward p (vtickpoint_pt q v) >= outward p (vtickpoint_pt p v') + ext (l, n) + axesdist g /\
    (m = (n + 2)%nat -> outward p (vtickpoint_pt q v) = outward p (vtickpoint_pt p v') + ext (l, n) + axesdist g).
Proof.
  intros g has ext l n m p q D E L C P Q. pose proof (placed _ _ _ _ _ _ _ _ P) as SP. pose proof (placed _ _ _ _ _ _ _ _ Q) as SQ.
  assert (N : (1 <= n)%nat). { destruct n; [|lia]. cbn in P. destruct (has (l, 0%nat)); discriminate. }
  assert (O : Nat.odd m = Nat.odd n).
  { clear -C. induction C; [reflexivity|]. rewrite odd_SS. exact IHC. }
  assert (LO : low g l m = low g l n) by (unfold low; rewrite O; reflexivity). rewrite LO in SQ.
  assert (F : fixtickdirection q = fixtickdirection p).
  { destruct SP as (_ & _ & _ & _ & -> & _). destruct SQ as (_ & _ & _ & _ & -> & _). unfold place. destruct (side g l); reflexivity. }
  split; [exact F|]. intros v v'.
  rewrite (outward_place _ _ _ _ _ _ _ _ SQ p (eq_sym F)), (outward_place _ _ _ _ _ _ _ _ SP p eq_refl).
  set (z := if side g l then _ else _). clearbody z.
  assert (M : offset ext (axesdist g) l m >= offset ext (axesdist g) l n + ext (l, n) + axesdist g).
  { clear -C L N D E. induction C as [|n m C I]; [lia|]. destruct n as [|n]; [inversion C; subst; lia|].
    change (offset ext (axesdist g) l (S (S (S n)))) with (offset ext (axesdist g) l (S n) + (ext (l, S n) + axesdist g)).
    destruct (Nat.eq_dec (S n) m) as [<-|NE]; [lra|].
    assert (m < S n)%nat. { clear -C NE. assert (m <= S n)%nat; [|lia]. clear NE. induction C; lia. }
    specialize (I H N). pose proof (E (l, S n)). lra. }
  split; [lra|]. intros ->. destruct n as [|n]; [lia|]. replace (S n + 2)%nat with (S (S (S n))) in M |- * by lia.
  change (offset ext (axesdist g) l (S (S (S n)))) with (offset ext (axesdist g) l (S n) + (ext (l, S n) + axesdist g)). lra.
Qed.
Print Assumptions graph_axes_apart.
Example graph_axes_apart_ex : exists p q, chain 5 1 /\ xy_positioner (mkgraph 0 0 100 50 5 false) (fun _ => true) (fun _ => 20) Y 1 = Some p /\
  xy_positioner (mkgraph 0 0 100 50 5 false) (fun _ => true) (fun _ => 20) Y 5 = Some q /\ outward p (vtickpoint_pt q 0) = 50.
Proof.
  eexists. eexists. split; [repeat constructor|]. split; [reflexivity|]. split; [reflexivity|]. unfold outward, vtickpoint_pt. cbn. lra.
Qed.

(** An axis can be placed if and only if it and all axes at the same side before it exist. *)
Theorem graph_axis_defined : forall g has ext l n,
  (exists p, xy_positioner g has ext l n = Some p) <-> (1 <= n)%nat /\ (forall m, (1 <= m)%nat -> chain n m -> has (l, m) = true).
Proof.
  intros g has ext l. apply two.
  - split; [|lia]. intros [p E]. cbn in E. destruct (has (l, 0%nat)); discriminate.
  - split.
    + intros [p E]. split; [lia|]. intros m M C. inversion C; subst. unfold xy_positioner in E. cbn in E. destruct (has (l, 1%nat)); [reflexivity|discriminate].
    + intros [_ F]. unfold xy_positioner. cbn. rewrite (F 1%nat) by (lia || constructor). destruct l; eexists; reflexivity.
  - split.
    + intros [p E]. split; [lia|]. intros m M C. inversion C; subst; [|match goal with K : chain 0 _ |- _ => inversion K; subst; lia end].
      unfold xy_positioner in E. cbn in E. destruct (has (l, 2%nat)); [reflexivity|discriminate].
    + intros [_ F]. unfold xy_positioner. cbn. rewrite (F 2%nat) by (lia || constructor). destruct l; eexists; reflexivity.
  - intros n I. unfold xy_positioner in *. rewrite step.
    split.
    + intros [p E]. split; [lia|]. destruct (has (l, S (S (S n)))) eqn:HS; [|discriminate].
      intros m M C. inversion C; subst; [exact HS|]. refine (proj2 (proj1 I _) m M _); [|assumption].
      match type of E with match ?x with _ => _ end = _ => destruct x end; [eexists; reflexivity|discriminate].
    + intros [_ F]. rewrite (F (S (S (S n)))) by (lia || constructor).
      destruct (proj2 I) as [p ->]; [|destruct l, (flipped g); eexists; reflexivity].
      split; [lia|]. intros m M C. apply F; [exact M|]. constructor. exact C.
Qed.
Print Assumptions graph_axis_defined.
Example graph_axis_defined_ex : xy_positioner (mkgraph 0 0 100 50 5 false) (fun a => negb (Nat.eqb (snd a) 3)) (fun _ => 20) X 5 = None /\
  exists p, xy_positioner (mkgraph 0 0 100 50 5 false) (fun a => negb (Nat.eqb (snd a) 3)) (fun _ => 20) X 4 = Some p.
Proof. split; [reflexivity|eexists; reflexivity]. Qed.

(** The check of the axis names does not refuse all names for which there is no place: "x0" passes and gives a KeyError later. *)
Theorem graph_axis_names_refuted : exists s, valid_name s = true /\
  forall g has ext, (forall a, has a = true) -> xy_positioner g has ext X (name_number s) = None.
Proof. exists "x0"%string. split; [reflexivity|]. intros g has ext H. change (name_number "x0"%string) with 0%nat. unfold xy_positioner. cbn [axis_positioner]. rewrite H. reflexivity. Qed.
Print Assumptions graph_axis_names_refuted.
Example valid_name_ex : map valid_name ["x"; "y2"; "x1"; "x10"; "z"; "xa"; "y03"]%string = [true; true; false; true; false; false; true].
Proof. reflexivity. Qed.

(** Two names which pass the check and have no leading zeros never mean the same axis: the name is determined by its letter and its number.  (Names with
    leading zeros pass the check too: "x2" and "x02" mean the same axis.) *)
Definition digits_value (r : list ascii) : nat := fold_left (fun n c => 10 * n + (nat_of_ascii c - 48))%nat r 0%nat.
Lemma digits_snoc : forall r c, digits_value (r ++ [c]) = (10 * digits_value r + (nat_of_ascii c - 48))%nat.
Proof. intros r c. unfold digits_value. rewrite fold_left_app. reflexivity. Qed.
Lemma digits_positive : forall r, forallb isdigit r = true -> r <> [] -> hd "0"%char r <> "0"%char -> (0 < digits_value r)%nat.
Proof.
  induction r as [|c r IH] using rev_ind; intros D N Z; [contradiction|]. rewrite digits_snoc. rewrite forallb_app in D. apply andb_true_iff in D as [D1 D2].
  destruct r as [|a r].
  - cbn in D2, Z. rewrite andb_true_r in D2. unfold isdigit in D2. apply andb_true_iff in D2 as [A B]. apply Nat.leb_le in A. apply Nat.leb_le in B.
    assert (nat_of_ascii c <> 48%nat); [|cbn; lia]. intros E. apply Z. rewrite <- (ascii_nat_embedding c), E. reflexivity.
  - specialize (IH D1 ltac:(discriminate) Z). lia.
Qed.
Lemma digits_inj : forall r s, forallb isdigit r = true -> forallb isdigit s = true -> (r <> [] -> hd "0"%char r <> "0"%char) -> (s <> [] -> hd "0"%char s <> "0"%char) ->
  digits_value r = digits_value s -> r = s.
Proof.
  induction r as [|c r IH] using rev_ind; intros s DR DS ZR ZS E.
  - destruct s as [|a s]; [reflexivity|]. pose proof (digits_positive (a :: s) DS ltac:(discriminate) (ZS ltac:(discriminate))) as P. change (digits_value []) with 0%nat in E. lia.
  - destruct s as [|d s _] using rev_ind.
    + pose proof (digits_positive (r ++ [c]) DR ltac:(destruct r; discriminate) (ZR ltac:(destruct r; discriminate))) as P. change (digits_value []) with 0%nat in E. lia.
    + rewrite !digits_snoc in E. rewrite forallb_app in DR, DS. apply andb_true_iff in DR as [DR1 DR2]. apply andb_true_iff in DS as [DS1 DS2].
      cbn in DR2, DS2. rewrite andb_true_r in DR2, DS2. unfold isdigit in DR2, DS2. apply andb_true_iff in DR2 as [A B]. apply andb_true_iff in DS2 as [A' B'].
      apply Nat.leb_le in A. apply Nat.leb_le in B. apply Nat.leb_le in A'. apply Nat.leb_le in B'.
      assert (nat_of_ascii c = nat_of_ascii d) by lia. assert (c = d) as -> by (rewrite <- (ascii_nat_embedding c), <- (ascii_nat_embedding d); f_equal; assumption).
      f_equal. apply IH; try assumption; try lia.
      * intros N. specialize (ZR ltac:(destruct r; discriminate)). destruct r; [contradiction|exact ZR].
      * intros N. specialize (ZS ltac:(destruct s; discriminate)). destruct s; [contradiction|exact ZS].
Qed.
Theorem graph_axis_names_partial : forall s t, valid_name s = true -> valid_name t = true ->
  String.get 1 s <> Some "0"%char -> String.get 1 t <> Some "0"%char -> String.get 0 s = String.get 0 t -> name_number s = name_number t -> s = t.
Proof.
  intros s t VS VT ZS ZT L N. rewrite <- (string_of_list_ascii_of_string s), <- (string_of_list_ascii_of_string t). f_equal. unfold valid_name, name_number in *.
  destruct s as [|c s]; [discriminate|]. destruct t as [|d t]; [discriminate|]. cbn [String.get] in *. injection L as <-. cbn [list_ascii_of_string] in *. f_equal.
  assert (H : forall u, String.get 0 u <> Some "0"%char -> list_ascii_of_string u <> [] -> hd "0"%char (list_ascii_of_string u) <> "0"%char).
  { intros [|a u] G Q; [contradiction|]. cbn in G |- *. congruence. }
  pose proof (H s ZS) as HS. pose proof (H t ZT) as HT. clear H ZS ZT. set (r := list_ascii_of_string s) in *. set (q := list_ascii_of_string t) in *. clearbody r q.
  assert (ONE : forall r : list ascii, r <> [] -> forallb isdigit r = true -> (r <> [] -> hd "0"%char r <> "0"%char) -> digits_value r = 1%nat -> r = ["1"%char]).
  { intros x X D Z V. apply (digits_inj x ["1"%char] D eq_refl Z); [intros _; discriminate|exact V]. }
  destruct r as [|a r], q as [|b q]; [reflexivity| | |].
  - apply andb_true_iff in VT as [VT V1]. apply andb_true_iff in VT as [_ VT]. pose proof (ONE (b :: q) ltac:(discriminate) VT HT (eq_sym N)) as E. injection E as -> ->. discriminate.
  - apply andb_true_iff in VS as [VS V1]. apply andb_true_iff in VS as [_ VS]. pose proof (ONE (a :: r) ltac:(discriminate) VS HS N) as E. injection E as -> ->. discriminate.
  - apply andb_true_iff in VS as [VS _]. apply andb_true_iff in VS as [_ VS]. apply andb_true_iff in VT as [VT _]. apply andb_true_iff in VT as [_ VT].
    exact (digits_inj (a :: r) (b :: q) VS VT HS HT N).
Qed.
Print Assumptions graph_axis_names_partial.

(** An axis moved by xaxisat or yaxisat is at the given value of the other coordinate. *)
Theorem graph_axisat : forall g has ext l n p v w, 0 < width g -> 0 < height g -> xy_positioner g has ext l n = Some p ->
  axisatv g p w (vtickpoint_pt p v) = vpos g (fst (coords (coordinate l) v w)) (snd (coords (coordinate l) v w)).
Proof.
  intros g has ext l n p v w W H P. pose proof (placed _ _ _ _ _ _ _ _ P) as (X1 & Y1 & X2 & Y2 & T & _).
  change (axisatv g p w (vtickpoint_pt p v) = vp g (coords (coordinate l) v w)). rewrite vp_coords.
  unfold axisatv, vtickpoint_pt. rewrite X1, Y1, X2, Y2, T. unfold place. destruct (side g l), (low g l n); cbn -[Req_EM_T];
    destruct (Req_EM_T _ 0); cbn; try lra; f_equal; ring.
Qed.
Print Assumptions graph_axisat.
Example graph_axisat_ex : exists p, xy_positioner (mkgraph 0 0 100 50 5 true) (fun _ => true) (fun _ => 20) X 1 = Some p /\
  vtickpoint_pt p 0.5 = (100, 25) /\ axisatv (mkgraph 0 0 100 50 5 true) p 0.3 (vtickpoint_pt p 0.5) = (30, 25).
Proof.
  eexists. split; [reflexivity|]. cbn. unfold axisatv, vtickpoint_pt. cbn -[Req_EM_T]. destruct (Req_EM_T (-1) 0); [lra|]. cbn. split; f_equal; lra.
Qed.
(** The methods for tick points do not know about this: they continue to give points at the side of the graph. *)
Theorem graph_axisat_methods_refuted : exists g p conv x w q, xy_positioner g (fun _ => true) (fun _ => 0) X 1 = Some p /\
  axis_tickpoint_pt conv p x = Some q /\ axisatv g p w (vtickpoint_pt p (conv x)) <> q.
Proof.
  exists (mkgraph 0 0 100 50 5 false). eexists. exists (fun x => x), 0, 0.5. eexists. split; [reflexivity|]. split; [reflexivity|].
  cbn. unfold axisatv, vtickpoint_pt. cbn -[Req_EM_T]. destruct (Req_EM_T 0 0); [|lra]. cbn. intros E. injection E as E. lra.
Qed.
Print Assumptions graph_axisat_methods_refuted.

(** The methods with graph coordinates: xvtickpoint and yvtickpoint should give the same points as xvtickpoint_pt and yvtickpoint_pt,
    but the first is another method and the second always fails. *)
Theorem graph_vtickpoint_refuted :
  (exists g p conv v, xy_positioner g (fun _ => true) (fun _ => 0) X 1 = Some p /\ graph_xvtickpoint conv p v <> graph_xvtickpoint_pt conv p v) /\
  (forall conv p v, graph_yvtickpoint conv p v <> graph_yvtickpoint_pt conv p v).
Proof.
  split; [|discriminate]. exists (mkgraph 0 0 100 50 5 false). eexists. exists (fun x => x / 10), 1. split; [reflexivity|].
  unfold graph_xvtickpoint, graph_xvtickpoint_pt, axis_tickpoint, axis_vtickpoint_pt, vtickpoint_pt. cbn. intros E. injection E as E. lra.
Qed.
Print Assumptions graph_vtickpoint_refuted.
(** What does agree: the methods in points and the method for values. *)
Theorem graph_tickpoint : forall g has ext n p conv x, 0 < width g -> 0 < height g -> (n = 1 \/ n = 2)%nat -> xy_positioner g has ext X n = Some p ->
  axis_tickpoint conv p x = axis_vtickpoint_pt conv p (conv x) /\
  exists w, (w = 0 \/ w = 1) /\ axis_tickpoint_pt conv p x = Some (vpos g (conv x) w).
Proof.
  intros g has ext n p conv x W H N P. split; [reflexivity|]. pose proof (placed _ _ _ _ _ _ _ _ P) as (X1 & Y1 & X2 & Y2 & _ & _).
  assert (O : offset ext (axesdist g) X n = 0) by (destruct N; subst n; reflexivity). rewrite O in *. clear O.
  exists (if low g X n then 0 else 1). split; [destruct (low g X n); auto|]. unfold axis_tickpoint_pt. f_equal.
  change (vpos g (conv x) ?w) with (vp g (coords (coordinate X) (conv x) w)). rewrite vp_coords.
  unfold vtickpoint_pt. rewrite X1, Y1, X2, Y2. unfold place. destruct (side g X), (low g X n); cbn; f_equal; lra.
Qed.
Print Assumptions graph_tickpoint.
Example graph_tickpoint_ex : exists p, xy_positioner (mkgraph 0 0 100 50 5 false) (fun _ => true) (fun _ => 0) X 2 = Some p /\
  axis_tickpoint_pt (fun x => x / 10) p 5 = Some (50, 50).
Proof. eexists. split; [reflexivity|]. unfold axis_tickpoint_pt, vtickpoint_pt. cbn. repeat f_equal; lra. Qed.

(** Parts of the base path run between the tick points. *)
Theorem graph_basepath : forall p v v' t,
  let l := vbasepath p (Some v) (Some v') in
  (fst (fst l) + t * (fst (snd l) - fst (fst l)), snd (fst l) + t * (snd (snd l) - snd (fst l))) = vtickpoint_pt p (v + t * (v' - v)) /\
  vbasepath p None None = (vtickpoint_pt p 0, vtickpoint_pt p 1).
Proof. intros p v v' t. cbn. unfold vtickpoint_pt. split; [f_equal; ring|reflexivity]. Qed.
Print Assumptions graph_basepath.
Example graph_basepath_ex : vbasepath (mkpos 0 0 10 20 (0, 1) (fun _ => None)) (Some 0.5) None = ((5, 10), (10, 20)).
Proof. unfold vbasepath. cbn. repeat f_equal; lra. Qed.

(** ** The key graph *)
Lemma dependson_spec g names :
  match dependson g names with
  | None => forall a, In a names -> fst a = (if flipped g then X else Y) -> Nat.odd (snd a) = negb (flipped g)
  | Some n => In ((if flipped g then X else Y), n) names /\ Nat.odd n = flipped g /\
              forall a, In a names -> fst a = (if flipped g then X else Y) -> Nat.odd (snd a) = flipped g -> (snd a <= n)%nat
  end.
Proof.
  unfold dependson.
  match goal with |- context [fold_left ?f names None] => set (F := f) end.
  assert (G : forall l done d,
    (match d with
     | None => forall a, In a done -> fst a = (if flipped g then X else Y) -> Nat.odd (snd a) = negb (flipped g)
     | Some n => In ((if flipped g then X else Y), n) done /\ Nat.odd n = flipped g /\
              forall a, In a done -> fst a = (if flipped g then X else Y) -> Nat.odd (snd a) = flipped g -> (snd a <= n)%nat
     end) ->
    match fold_left F l d with
    | None => forall a, In a (done ++ l) -> fst a = (if flipped g then X else Y) -> Nat.odd (snd a) = negb (flipped g)
    | Some n => In ((if flipped g then X else Y), n) (done ++ l) /\ Nat.odd n = flipped g /\
              forall a, In a (done ++ l) -> fst a = (if flipped g then X else Y) -> Nat.odd (snd a) = flipped g -> (snd a <= n)%nat
    end).
  { induction l as [|[k n] l IH]; intros done d Hd; cbn [fold_left].
    - rewrite app_nil_r. exact Hd.
    - replace (done ++ (k, n) :: l) with ((done ++ [(k, n)]) ++ l) by (rewrite <- app_assoc; reflexivity). apply IH. clear IH.
      unfold F. cbn [fst snd]. rewrite <- (Nat.negb_odd n).
      assert (A : forall a, In a (done ++ [(k, n)]) -> In a done \/ a = (k, n)).
      { intros a I. apply in_app_iff in I. destruct I as [I|[<-|[]]]; auto. }
      destruct k, (flipped g), (Nat.odd n) eqn:O; cbn [negb andb orb] in *; destruct d as [m|];
        try (destruct Hd as (H1 & H2 & H3)); try (destruct (m <? n)%nat eqn:L; [apply Nat.ltb_lt in L|apply Nat.ltb_ge in L]);
        try (refine (conj _ (conj _ _)));
        try (apply in_app_iff; (left; assumption) || (right; left; reflexivity)); try assumption;
        intros a I Fa; try intros Oa; destruct (A a I) as [I'| ->]; cbn [fst snd] in *; try discriminate; try congruence; try lia;
        try (specialize (H3 a I' Fa Oa); lia); try (specialize (Hd a I' Fa); congruence). }
  apply (G names [] None). intros a [].
Qed.

(** The key graph is to the right of the graph and of all axes there, with the distance of axes to each of them. *)
Theorem graph_autokey : forall g has ext names x, 0 < width g -> 0 < height g -> 0 <= axesdist g -> (forall a, 0 <= ext a) ->
  (forall a, has a = true <-> In a names) ->
  autokey_x g names (xy_positioner g has ext) ext = Some x ->
  xpos g + width g + axesdist g <= x /\
  forall n p, xy_positioner g has ext (if flipped g then X else Y) n = Some p -> xpos g + width g <= x1 p -> x1 p + ext ((if flipped g then X else Y), n) + axesdist g <= x.
Proof.
  intros g has ext names x W H D E NM K. unfold autokey_x in K. pose proof (dependson_spec g names) as DS.
  set (l := if flipped g then X else Y) in *.
  assert (SD : side g l = true) by (unfold side, l; destruct (flipped g) eqn:?; reflexivity).
  assert (LOW : forall n, Nat.odd n = flipped g -> low g l n = false).
  { intros n O. unfold low, l. rewrite O. destruct (flipped g); reflexivity. }
  assert (LOW' : forall n, Nat.odd n <> flipped g -> low g l n = true).
  { intros n O. unfold low, l. destruct (flipped g), (Nat.odd n); try reflexivity; congruence. }
  assert (IN : forall n p, xy_positioner g has ext l n = Some p -> In (l, n) names).
  { intros n p P. apply NM. destruct (proj1 (graph_axis_defined g has ext l n)) as [N1 N2]; [eexists; exact P|]. apply N2; [exact N1|constructor]. }
  assert (NL : forall n p, xy_positioner g has ext l n = Some p -> xpos g + width g <= x1 p -> Nat.odd n = flipped g).
  { intros n p P L. destruct (bool_dec (Nat.odd n) (flipped g)) as [|NE]; [assumption|]. exfalso.
    pose proof (placed _ _ _ _ _ _ _ _ P) as (X1 & _). rewrite SD, (LOW' n NE) in X1. cbn in X1. rewrite X1 in L.
    pose proof (offset_nonneg ext (axesdist g) l D E n). lra. }
  destruct (dependson g names) as [m|].
  - destruct (xy_positioner g has ext l m) as [q|] eqn:Q; [|discriminate]. injection K as <-. destruct DS as (D1 & D2 & D3).
    pose proof (placed _ _ _ _ _ _ _ _ Q) as SQ. pose proof SQ as (X1 & _). rewrite SD, (LOW m D2) in X1. cbn in X1.
    pose proof (offset_nonneg ext (axesdist g) l D E m). pose proof (E (l, m)). split; [lra|].
    intros n p P L. pose proof (NL n p P L) as O. pose proof (D3 (l, n) (IN n p P) eq_refl O) as LE. cbn in LE.
    destruct (Nat.eq_dec n m) as [->|NE]; [replace p with q by congruence; lra|].
    assert (C : chain m n).
    { clear -LE O D2. rewrite <- D2 in O. clear D2. revert n LE O. induction m as [m IH] using lt_wf_ind. intros n LE O.
      destruct (Nat.eq_dec n m) as [->|NE]; [constructor|]. destruct m as [|[|m]]; [lia|assert (n = 0%nat) by lia; subst n; discriminate|].
      constructor. apply IH; [lia| |exact O]. destruct (Nat.eq_dec n (S m)) as [->|]; [|lia].
      rewrite odd_SS in O. rewrite Nat.odd_succ in O. rewrite <- Nat.negb_odd in O. destruct (Nat.odd m); discriminate. }
    destruct (graph_axes_apart g has ext l n m p q D E ltac:(lia) C P Q) as [F A]. specialize (A 0 0). destruct A as [A _].
    pose proof (placed _ _ _ _ _ _ _ _ P) as (X1' & _ & _ & _ & T & _). rewrite SD, (LOW n O) in T, X1'. cbn in T, X1'.
    unfold outward, vtickpoint_pt in A. rewrite T in A. cbn in A. lra.
  - injection K as <-. split; [lra|]. intros n p P L. pose proof (NL n p P L) as O. specialize (DS (l, n) (IN n p P) eq_refl). cbn in DS. rewrite O in DS.
    destruct (flipped g); discriminate.
Qed.
Print Assumptions graph_autokey.
Example graph_autokey_ex : autokey_x (mkgraph 0 0 100 50 5 false) [(X, 1); (Y, 1); (Y, 4); (Y, 2); (X, 2)]%nat
  (xy_positioner (mkgraph 0 0 100 50 5 false) (fun _ => true) (fun _ => 20)) (fun _ => 20) = Some (100 - -1 * (20 + 5) + 20 + 5).
Proof. cbn. repeat f_equal; lra. Qed.

(** ** One dimensional graphs *)
(** A point is at the middle of the other direction, at the position given by the coordinate. *)
Theorem graphx_positions : forall x y len size dist v,
  graphx_vpos (graphx Horizontal x y len size dist) v = (x + v * len, y + size / 2) /\
  graphx_vpos (graphx Vertical x y len size dist) v = (x + size / 2, y + v * len) /\
  (forall d v' t, let l := graphx_vgeodesic (graphx d x y len size dist) v v' in
     (fst (fst l) + t * (fst (snd l) - fst (fst l)), snd (fst l) + t * (snd (snd l) - snd (fst l))) =
     graphx_vpos (graphx d x y len size dist) (v + t * (v' - v))).
Proof.
  intros x y len size dist v. unfold graphx_vpos, vpos, graphx_vgeodesic, vgeodesic. split; [cbn; f_equal; lra|]. split; [cbn; f_equal; lra|].
  intros d v' t. destruct d; cbn; f_equal; lra.
Qed.
Print Assumptions graphx_positions.
Example graphx_positions_ex : graphx_vpos (graphx Vertical 1 2 10 4 0) 0.5 = (3, 7).
Proof. unfold graphx_vpos, vpos. cbn. f_equal; lra. Qed.

(** A grid works for horizontal graphs and fails for the vertical ones, which are the default: there the x axis uses yvgridpath, which
    raises an exception. *)
Theorem graphx_grid_refuted : forall x y len size dist has ext n p v, has (X, n) = true ->
  (graphx_positioner (graphx Horizontal x y len size dist) has ext X n = Some p -> vgridpath p v <> None) /\
  (graphx_positioner (graphx Vertical x y len size dist) has ext X n = Some p -> vgridpath p v = None).
Proof.
  intros x y len size dist has ext n p v HX. split; intros P; pose proof (placed _ _ _ _ _ _ _ _ P) as (_ & _ & _ & _ & _ & G); rewrite G; cbn; [discriminate|reflexivity].
Qed.
Print Assumptions graphx_grid_refuted.
Example graphx_grid_refuted_ex : exists p, graphx_positioner (graphx Vertical 0 0 10 4 0) (fun _ => true) (fun _ => 0) X 1 = Some p.
Proof. eexists. reflexivity. Qed.
