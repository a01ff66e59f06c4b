(** Patterns: what is seen when the plane is filled with a pattern in PostScript, PDF and SVG, and what hatched patterns look like.  C138. *)
From Coq Require Import Reals List ZArith Lia Bool.
From Verif Require Import TrafoModel BboxModel BboxProps PatternModel.
From Coq Require Import Lra.
Import ListNotations.
Open Scope R_scope.

Lemma rabs_between : forall x a, Rabs x <= a -> - a <= x <= a.
Proof. intros x a. unfold Rabs. destruct (Rcase_abs x); lra. Qed.
(** what PostScript and PDF show: copies of what is drawn, each clipped to the box, at all multiples of the steps, transformed by the matrix *)
Definition tiled (drawn : R * R -> Prop) (w : written) (q : R * R) : Prop :=
  exists i j : Z, let x := fst q - IZR i * w_xstep w in let y := snd q - IZR j * w_ystep w in
    drawn (x, y) /\ w_llx w <= x <= w_urx w /\ w_lly w <= y <= w_ury w.
Definition shown (drawn : R * R -> Prop) (w : written) (p : R * R) : Prop := exists q, tiled drawn w q /\ p = apply_pt (w_matrix w) q.
(** what SVG shows: the plane is divided into rectangles of the given width and height, from the origin on, and each shows what is in the view box; y counts downwards *)
Definition svg_apply (m : R * R * R * R * R * R) (q : R * R) : R * R :=
  let '(a, b, c, d, e, f) := m in (a * fst q + c * snd q + e, b * fst q + d * snd q + f).
Definition svg_shown (drawn : R * R -> Prop) (s : svgpattern) (p : R * R) : Prop :=
  exists q, (fst p, - snd p) = svg_apply (s_matrix s) q /\ exists i j : Z,
    let x := fst q - IZR i * s_width s in let y := snd q - IZR j * s_height s in
    0 <= x <= s_width s /\ 0 <= y <= s_height s /\ drawn (s_x s + x, - (s_y s + y)).
(** the bounding box covers what is drawn *)
Definition covers (b : bbox) (drawn : R * R -> Prop) : Prop := forall q, drawn q -> exists l, llx b = Some l /\ l <= fst q <= urx b /\ lly b <= snd q <= ury b.

Lemma cell_covers : forall p real drawn, p_bbox p = None -> (match p_enlarge p with Some e => 0 <= e | None => True end) -> covers real drawn -> covers (cell p real) drawn.
Proof.
  intros p real drawn B E C q D. destruct (C q D) as (l & L & X & Y). unfold cell. rewrite B. destruct (p_enlarge p) as [e|]; [|exists l; auto].
  unfold zero. destruct (Req_EM_T e 0); [exists l; auto|]. unfold enlarge_pt. rewrite L. simpl. eexists. split; [reflexivity|]. lra.
Qed.
Lemma step_is : forall s z v, step s z = Some v -> v <> 0 /\ match s with Some u => v = u | None => z = Some v end.
Proof.
  intros s z v. unfold step, zero. destruct s as [u|].
  - destruct (Req_EM_T u 0); [discriminate|]. intros H. injection H as <-. auto.
  - destruct z as [u|]; [|discriminate]. destruct (Req_EM_T u 0); [discriminate|]. intros H. injection H as <-. auto.
Qed.
(** a pattern without an own bounding box shows nothing but whole copies of what is drawn, at all multiples of the steps; a step that is not given is the size of what is drawn;
    PostScript and PDF show the same *)
Theorem pattern_tiled : forall p real drawn, p_bbox p = None -> (match p_enlarge p with Some e => 0 <= e | None => True end) -> covers real drawn ->
  (forall w, ps_pattern p real = Some w -> exists w', pdf_pattern p real = Some w' /\ (forall q, shown drawn w q <-> shown drawn w' q) /\
    (match p_xstep p with Some s => w_xstep w = s | None => width_pt real = Some (w_xstep w) end) /\ (match p_ystep p with Some s => w_ystep w = s | None => height_pt real = Some (w_ystep w) end) /\
    w_xstep w <> 0 /\ w_ystep w <> 0 /\
    forall q, shown drawn w q <-> exists (i j : Z) x y, drawn (x, y) /\ q = apply_pt (match p_trafo p with Some t => t | None => mktrafo 1 0 0 1 0 0 end) (x + IZR i * w_xstep w, y + IZR j * w_ystep w)).
Proof.
  intros p real drawn B E C w W. unfold ps_pattern in W.
  destruct (step (p_xstep p) (width_pt real)) as [xs|] eqn:XS; [|discriminate]. destruct (step (p_ystep p) (height_pt real)) as [ys|] eqn:YS; [|discriminate].
  pose proof (cell_covers p real drawn B E C) as CC. unfold pdf_pattern. rewrite XS, YS.
  destruct (step_is _ _ _ XS) as (NX & SX), (step_is _ _ _ YS) as (NY & SY).
  unfold highrestuple_pt in W. unfold lowrestuple_pt. destruct (llx (cell p real)) as [l|] eqn:L; [|discriminate].
  apply (f_equal (fun o => match o with Some z => z | None => w end)) in W. cbv beta iota in W. subst w.
  eexists. split; [reflexivity|]. cbn [w_xstep w_ystep].
  assert (forall x1 y1 x2 y2, x1 <= l -> y1 <= lly (cell p real) -> urx (cell p real) <= x2 -> ury (cell p real) <= y2 ->
    forall q, shown drawn (mkwritten x1 y1 x2 y2 xs ys (matrix p)) q <-> exists (i j : Z) x y, drawn (x, y) /\ q = apply_pt (matrix p) (x + IZR i * xs, y + IZR j * ys)) as A.
  { intros x1 y1 x2 y2 H1 H2 H3 H4 q. unfold shown, tiled; cbn [w_xstep w_ystep w_llx w_lly w_urx w_ury w_matrix]. split.
    - intros ([qx qy] & (i & j & D & _) & ->). cbn [fst snd] in D. exists i, j, (qx - IZR i * xs), (qy - IZR j * ys). split; [exact D|]. do 2 f_equal; ring.
    - intros (i & j & x & y & D & ->). exists (x + IZR i * xs, y + IZR j * ys). split; [|reflexivity]. exists i, j. cbn [fst snd].
      replace (x + IZR i * xs - IZR i * xs) with x by ring. replace (y + IZR j * ys - IZR j * ys) with y by ring. split; [exact D|].
      destruct (CC _ D) as (l' & L' & X & Y). rewrite L in L'. injection L' as <-. cbn [fst snd] in X, Y. lra. }
  assert (forall q, shown drawn (mkwritten l (lly (cell p real)) (urx (cell p real)) (ury (cell p real)) xs ys (matrix p)) q <->
    exists (i j : Z) x y, drawn (x, y) /\ q = apply_pt (matrix p) (x + IZR i * xs, y + IZR j * ys)) as A1 by (apply A; lra).
  split; [|split; [destruct (p_xstep p); [exact SX|exact SX]|split; [destruct (p_ystep p); [exact SY|exact SY]|split; [exact NX|split; [exact NY|exact A1]]]]].
  intros q. rewrite A1. symmetry. apply A.
  - pose proof (floor_spec l). lra.
  - pose proof (floor_spec (lly (cell p real))). lra.
  - pose proof (ceil_spec (urx (cell p real))). lra.
  - pose proof (ceil_spec (ury (cell p real))). lra.
Qed.
Print Assumptions pattern_tiled.
(** with an own bounding box what is drawn is clipped to it in PostScript, but to a larger box of whole numbers in PDF *)
Theorem pattern_pdf_bbox_refuted : exists p real drawn w w' q, covers real drawn /\ ps_pattern p real = Some w /\ pdf_pattern p real = Some w' /\ shown drawn w' q /\ ~ shown drawn w q.
Proof.
  set (p := mkpattern 1 1 (Some 10) (Some 10) (Some (mkbbox (Some 0) 0 (1 / 2) (1 / 2))) None None).
  set (drawn := fun q : R * R => 0 <= fst q <= 1 /\ 0 <= snd q <= 1).
  exists p, (mkbbox (Some 0) 0 1 1), drawn. unfold ps_pattern, pdf_pattern, step, zero, cell, p; cbn [p_xstep p_ystep p_bbox nonempty llx].
  destruct (Req_EM_T 10 0); [lra|]. unfold highrestuple_pt, lowrestuple_pt; cbn [llx lly urx ury]. do 2 eexists. exists (3 / 4, 3 / 4).
  split; [|split; [reflexivity|split; [reflexivity|split]]].
  - intros q D. exists 0. split; [reflexivity|]. unfold drawn in D. simpl. lra.
  - exists (3 / 4, 3 / 4). split; [|unfold matrix, apply_pt; simpl; f_equal; lra]. exists 0%Z, 0%Z. unfold drawn; simpl.
    pose proof (ceil_spec (1 / 2)) as K. pose proof (floor_spec 0) as F.
    assert (ceil (1 / 2) = 1%Z) as ->. { apply Z.le_antisymm; [apply Z.lt_succ_r, lt_IZR; simpl; lra|apply Z.lt_pred_le, lt_IZR; simpl; lra]. }
    assert (IZR (floor 0) <= 0) by lra. lra.
  - intros ([qx qy] & (i & j & D & X & Y) & E). unfold matrix, apply_pt in E; simpl in *. injection E as E1 E2.
    assert (qx = 3 / 4) as -> by lra. assert (-1 < IZR i < 1) as I by lra.
    assert (i = 0)%Z as -> by (destruct I; apply Z.le_antisymm; [apply Z.lt_succ_r, lt_IZR; simpl; lra|apply Z.lt_pred_le, lt_IZR; simpl; lra]). lra.
Qed.
Print Assumptions pattern_pdf_bbox_refuted.

(** SVG shows the same as PostScript, but shifted: the upper left corner of the bounding box is at the origin *)
Theorem pattern_svg_shifted : forall p real drawn l w, p_paint p = 1%Z -> p_xstep p = None -> p_ystep p = None -> p_bbox p = None -> p_enlarge p = None -> p_trafo p = None ->
  covers real drawn -> llx real = Some l -> ps_pattern p real = Some w ->
  exists s, svg_pattern p real = Some s /\ forall x y, svg_shown drawn s (x, y) <-> shown drawn w (x + l, y + ury real).
Proof.
  intros p real drawn l w P X Y B E T C L W. unfold svg_pattern. rewrite P, X, Y, E, B. cbn [Z.eqb Pos.eqb negb]. unfold highrestuple_pt. rewrite L.
  eexists. split; [reflexivity|]. intros x y.
  destruct (pattern_tiled p real drawn B ltac:(now rewrite E) C w W) as (_ & _ & _ & XS & YS & _ & _ & A). rewrite A, T. rewrite X in XS. rewrite Y in YS. unfold width_pt, height_pt in XS, YS. rewrite L in XS, YS.
  injection XS as XS. injection YS as YS. rewrite <- XS, <- YS. clear A XS YS.
  unfold svg_shown, matrix. rewrite T. unfold svg_apply, svgmatrix, apply_pt; cbn [m00 m01 m10 m11 v0 v1 s_matrix s_width s_height s_x s_y fst snd]. split.
  - intros ([qx qy] & Q & i & j & HX & HY & D). cbn [fst snd] in *. injection Q as Q1 Q2. exists i, (- j)%Z. do 2 eexists. split; [exact D|]. rewrite opp_IZR. f_equal; nra.
  - intros (i & j & a & b & D & Q). injection Q as Q1 Q2. exists (x, - y). cbn [fst snd]. split; [f_equal; ring|]. exists i, (- j)%Z. rewrite opp_IZR.
    destruct (C _ D) as (l' & L' & HX & HY). rewrite L in L'. injection L' as <-. cbn [fst snd] in HX, HY.
    assert (x - IZR i * (urx real - l) = a - l) as EX by nra. assert (- y - - IZR j * (ury real - lly real) = ury real - b) as EY by nra.
    rewrite EX, EY. split; [lra|]. split; [lra|]. replace (l + (a - l)) with a by ring. replace (- (- ury real + (ury real - b))) with b by ring. exact D.
Qed.
Print Assumptions pattern_svg_shifted.
(** so the pattern is the same only if the corner is a multiple of the size; a pattern in general is at another place in SVG *)
Theorem pattern_svg_refuted : exists p real drawn w s q, covers real drawn /\ ps_pattern p real = Some w /\ svg_pattern p real = Some s /\ shown drawn w q /\ ~ svg_shown drawn s q.
Proof.
  set (p := mkpattern 1 1 None None None None None).
  set (real := mkbbox (Some (1 / 4)) 0 (5 / 4) 1).
  set (drawn := fun q : R * R => (1 / 4 <= fst q <= 1 / 2 \/ fst q = 5 / 4) /\ 0 <= snd q <= 1).
  assert (covers real drawn) as C by (intros q D; exists (1 / 4); split; [reflexivity|]; unfold drawn in D; simpl; lra).
  assert (exists w, ps_pattern p real = Some w /\ w_xstep w = 1 /\ w_matrix w = mktrafo 1 0 0 1 0 0) as (w & W & WX & WM).
  { unfold ps_pattern, p, step, zero, real, width_pt, height_pt, cell, highrestuple_pt; cbn [p_xstep p_ystep p_bbox p_enlarge llx lly urx ury].
    destruct (Req_EM_T (5 / 4 - 1 / 4) 0); [lra|]. destruct (Req_EM_T (1 - 0) 0); [lra|]. eexists. split; [reflexivity|]. split; [simpl; lra|reflexivity]. }
  destruct (pattern_svg_shifted p real drawn (1 / 4) w eq_refl eq_refl eq_refl eq_refl eq_refl eq_refl C eq_refl W) as (s & Sv & A).
  exists p, real, drawn, w, s, (1 / 3, 1 / 2). split; [exact C|]. split; [exact W|]. split; [exact Sv|].
  destruct (pattern_tiled p real drawn eq_refl I C w W) as (_ & _ & _ & _ & _ & _ & _ & B). split.
  - apply B. exists 0%Z, 0%Z, (1 / 3), (1 / 2). split; [unfold drawn; simpl; lra|]. unfold apply_pt; simpl. f_equal; lra.
  - rewrite A, B. intros (i & j & x & y & D & Q). unfold apply_pt in Q; simpl in Q. injection Q as Q1 Q2. unfold drawn in D; simpl in D. rewrite WX in Q1.
    assert (-1 < IZR i < 1) as HI by lra. assert (i = 0)%Z as -> by (destruct HI; apply Z.le_antisymm; [apply Z.lt_succ_r, lt_IZR; simpl; lra|apply Z.lt_pred_le, lt_IZR; simpl; lra]). lra.
Qed.
Print Assumptions pattern_svg_refuted.

(** ** hatched patterns *)
Lemma tile_of : forall z s, 0 < s -> exists k : Z, 0 <= z - IZR k * s <= s.
Proof.
  intros z s P. exists (floor (z / s)). pose proof (floor_spec (z / s)) as [A B]. assert (z = z / s * s) as E by (field; lra).
  assert (IZR (floor (z / s)) * s <= z / s * s) by (apply Rmult_le_compat_r; lra). assert (z / s * s <= (IZR (floor (z / s)) + 1) * s) by (apply Rmult_le_compat_r; lra). lra.
Qed.
(** a hatched pattern consists of infinite lines, in the direction of the transformed y axis, at all multiples of the distance, with the width of the line *)
Theorem hatched_lines : forall dist lw t, 0 < dist -> 0 <= lw ->
  exists w, ps_pattern (hatched dist t) (hatched_real lw) = Some w /\
  forall p, shown (hatched_drawn lw) w p <-> exists x y (k : Z), p = apply_pt t (x, y) /\ Rabs (x - IZR k * dist) <= lw / 2.
Proof.
  intros dist lw t P L.
  assert (covers (hatched_real lw) (hatched_drawn lw)) as C.
  { intros q (X & Y). exists (0 - 0.5 * lw). split; [reflexivity|]. unfold hatched_real, enlarge_pt; simpl. apply rabs_between in X. lra. }
  assert (exists w, ps_pattern (hatched dist t) (hatched_real lw) = Some w) as (w & W).
  { unfold ps_pattern, hatched, step, zero; cbn [p_xstep p_ystep]. destruct (Req_EM_T dist 0); [lra|]. destruct (Req_EM_T 100 0); [lra|]. simpl. eexists. reflexivity. }
  exists w. split; [exact W|]. destruct (pattern_tiled (hatched dist t) (hatched_real lw) (hatched_drawn lw) eq_refl I C w W) as (_ & _ & _ & XS & YS & _ & _ & A).
  simpl in XS, YS. intros p. rewrite A, XS, YS. cbn [p_trafo hatched]. split.
  - intros (i & j & x & y & (D & _) & ->). exists (x + IZR i * dist), (y + IZR j * 100), i. split; [reflexivity|]. replace (x + IZR i * dist - IZR i * dist) with x by ring. exact D.
  - intros (x & y & k & -> & D). destruct (tile_of (y + 50) 100 ltac:(lra)) as (j & J). exists k, j, (x - IZR k * dist), (y - IZR j * 100). split; [split; [exact D|simpl; lra]|].
    f_equal. f_equal; ring.
Qed.
Print Assumptions hatched_lines.
(** a crosshatched pattern consists of the lines in both directions *)
Theorem crosshatched_lines : forall dist lw t, 0 < dist -> 0 <= lw ->
  exists w, ps_pattern (crosshatched dist t) (crosshatched_real lw dist) = Some w /\
  forall p, shown (crosshatched_drawn lw dist) w p <-> exists x y (k : Z), p = apply_pt t (x, y) /\ (Rabs (x - IZR k * dist) <= lw / 2 \/ Rabs (y - IZR k * dist) <= lw / 2).
Proof.
  intros dist lw t P L.
  assert (crosshatched_real lw dist = mkbbox (Some (0 - 0.5 * lw)) (0 - 0.5 * lw) (dist + 0.5 * lw) (dist + 0.5 * lw)) as RB.
  { unfold crosshatched_real, enlarge_pt, badd; simpl. rewrite !Rmin_left by lra. rewrite Rmax_right by lra. rewrite Rmax_left by lra. reflexivity. }
  assert (covers (crosshatched_real lw dist) (crosshatched_drawn lw dist)) as C.
  { rewrite RB. intros q D. exists (0 - 0.5 * lw). split; [reflexivity|]. simpl. destruct D as [(X & Y)|(X & Y)]; apply rabs_between in X; lra. }
  assert (exists w, ps_pattern (crosshatched dist t) (crosshatched_real lw dist) = Some w) as (w & W).
  { rewrite RB. unfold ps_pattern, crosshatched, step, zero; cbn [p_xstep p_ystep]. destruct (Req_EM_T dist 0); [lra|]. simpl. eexists. reflexivity. }
  exists w. split; [exact W|]. destruct (pattern_tiled (crosshatched dist t) (crosshatched_real lw dist) (crosshatched_drawn lw dist) eq_refl I C w W) as (_ & _ & _ & XS & YS & _ & _ & A).
  simpl in XS, YS. intros p. rewrite A, XS, YS. cbn [p_trafo crosshatched]. split.
  - intros (i & j & x & y & [(D & _)|(D & _)] & ->); cbn [fst snd] in D.
    + exists (x + IZR i * dist), (y + IZR j * dist), i. split; [reflexivity|]. left. replace (x + IZR i * dist - IZR i * dist) with x by ring. exact D.
    + exists (x + IZR i * dist), (y + IZR j * dist), j. split; [reflexivity|]. right. replace (y + IZR j * dist - IZR j * dist) with y by ring. exact D.
  - intros (x & y & k & -> & [D|D]).
    + destruct (tile_of y dist P) as (j & J). exists k, j, (x - IZR k * dist), (y - IZR j * dist). split; [left; split; [exact D|exact J]|]. f_equal. f_equal; ring.
    + destruct (tile_of x dist P) as (j & J). exists j, k, (x - IZR j * dist), (y - IZR k * dist). split; [right; split; [exact D|exact J]|]. f_equal. f_equal; ring.
Qed.
Print Assumptions crosshatched_lines.
(** hatched patterns cannot be written to SVG: they have steps *)
Theorem hatched_svg_refuted : forall dist t real, svg_pattern (hatched dist t) real = None /\ svg_pattern (crosshatched dist t) real = None.
Proof. intros. split; reflexivity. Qed.
Print Assumptions hatched_svg_refuted.
(** calling a pattern to change its properties never gives a pattern that can be written: either there is an error at once, or later *)
Theorem pattern_call_refuted : forall p a real, match call p a with Some k => ps_called k real = None | None => True end.
Proof.
  intros p a real. unfold call. cbn [k_paint k_tiling]. destruct (a_paint a); [|exact I]. destruct (a_tiling a); [|exact I].
  match goal with |- context [if ?b then _ else _] => destruct b; [|exact I] end.
  unfold ps_called; cbn [k_xstep k_ystep k_bbox]. destruct (a_xstep a); [|reflexivity]. destruct (a_ystep a); [|reflexivity].
  destruct (step (p_xstep p) (width_pt real)); [|reflexivity]. destruct (step (p_ystep p) (height_pt real)); [|reflexivity]. destruct (a_bbox a); reflexivity.
Qed.
Print Assumptions pattern_call_refuted.
Example pattern_call_ex : call (mkpattern 1 1 None None None None None) (mkarguments None None (Some 5) None None None None) = None.
Proof. reflexivity. Qed.
Example hatched_ex : exists w, ps_pattern (hatched 3 (mktrafo 1 0 0 1 0 0)) (hatched_real 0.5) = Some w /\ shown (hatched_drawn 0.5) w (6.2, 1000) /\ ~ shown (hatched_drawn 0.5) w (4.5, 0).
Proof.
  destruct (hatched_lines 3 0.5 (mktrafo 1 0 0 1 0 0) ltac:(lra) ltac:(lra)) as (w & W & A). exists w. split; [exact W|]. rewrite !A. split.
  - exists 6.2, 1000, 2%Z. split; [unfold apply_pt; simpl; f_equal; lra|]. apply Rabs_le. lra.
  - intros (x & y & k & E & H). unfold apply_pt in E; simpl in E. injection E as E1 E2. apply rabs_between in H. assert (IZR k < 2) as K1 by lra. assert (1 < IZR k) as K2 by lra.
    apply lt_IZR in K1. apply lt_IZR in K2. lia.
Qed.
