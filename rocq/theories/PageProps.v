(** Pages are centered and fitted. *)
From Coq Require Import Reals Bool Lra.
From Verif Require Import UnitModel TrafoModel BboxModel ArcModel PageModel NormsubProofs ArcProps.
Open Scope R_scope.

Local Notation pt := (R * R)%type.

(** the box that is placed on the paper: the one given, or the box of the content enlarged on all sides *)
Definition placed_box (p : page) (content : bbox) (l b r t : R) : Prop :=
  match pagebbox p with
  | Some bb => bb = mkbbox (Some l) b r t
  | None => content = mkbbox (Some (l + bboxenlarge p)) (b + bboxenlarge p) (r - bboxenlarge p) (t - bboxenlarge p)
  end.
(** a point of the box of the placed content: the box scaled by s around the centre of the paper *)
Definition on_paper (turned : bool) (W H cx cy s : R) (q : pt) : pt :=
  if turned then (W / 2 - s * (snd q - cy), H / 2 + s * (fst q - cx)) else (W / 2 + s * (fst q - cx), H / 2 + s * (snd q - cy)).

Lemma box_known p content l b r t : placed_box p content l b r t ->
  match pagebbox p with
  | Some bb => if nonempty bb then bb else enlarge_pt content (bboxenlarge p) None None None None
  | None => enlarge_pt content (bboxenlarge p) None None None None
  end = mkbbox (Some l) b r t.
Proof.
  unfold placed_box. destruct (pagebbox p) as [bb|]; intros ->; [reflexivity|]. unfold enlarge_pt, given. cbn [llx lly urx ury]. f_equal; [f_equal|..]; ring.
Qed.
Lemma turn90 : cos (radians 90) = 0 /\ sin (radians 90) = 1.
Proof. unfold radians. replace (PI * 90 / 180) with (PI / 2) by field. now rewrite cos_PI2, sin_PI2. Qed.
Lemma place_known p W H l b w h : (centered p || fittosize p)%bool = true -> forall q,
  apply_pt (place p W H l b w h) q = on_paper (rotated p) W H (l + w / 2) (b + h / 2) 1 q.
Proof.
  intros C q. unfold place, on_paper. destruct turn90 as [C9 S9]. rewrite C, C9, S9.
  destruct (rotated p); unfold apply_pt, tmul, translate_pt; cbn [m00 m01 m10 m11 v0 v1 fst snd]; f_equal; field.
Qed.
Lemma scaled_known s M W H turned cx cy t q : (forall q, apply_pt t q = on_paper turned W H cx cy 1 q) ->
  apply_pt (tmul (mktrafo s 0 0 s ((1 - s) * (M + 1 / 2 * (W - 2 * M))) ((1 - s) * (M + 1 / 2 * (H - 2 * M)))) t) q = on_paper turned W H cx cy s q.
Proof.
  intros E. specialize (E q). destruct q as [x y]. unfold apply_pt in *. cbn [tmul m00 m01 m10 m11 v0 v1 fst snd] in *. 
  set (X := m00 t * x + m01 t * y + v0 t) in *. set (Y := m10 t * x + m11 t * y + v1 t) in *.
  transitivity (s * X + (1 - s) * (M + 1 / 2 * (W - 2 * M)), s * Y + (1 - s) * (M + 1 / 2 * (H - 2 * M))); [unfold X, Y; f_equal; ring|].
  unfold on_paper in *. cbn [fst snd] in *. destruct turned; injection E as -> ->; f_equal; field.
Qed.

(** C60: a centered page has the centre of its box at the centre of the paper, turned by a quarter
    counterclockwise if asked for, and not scaled. *)
Theorem page_centered : forall p content W H l b r t, paper p = Some (W, H) -> centered p = true -> fittosize p = false ->
  placed_box p content l b r t ->
  exists bb m, process_page p content = Done (bb, Some m) /\
    forall q, apply_pt m q = on_paper (rotated p) W H ((l + r) / 2) ((b + t) / 2) 1 q.
Proof.
  intros p content W H l b r t P C F B. unfold process_page. rewrite (box_known _ _ _ _ _ _ B), P, C, F. cbn [llx lly urx ury].
  rewrite orb_true_r. cbn [orb]. unfold fit. rewrite F. eexists. eexists. split; [reflexivity|]. intros q. rewrite place_known by (now rewrite C).
  f_equal; field.
Qed.
Print Assumptions page_centered.
Example page_centered_ex : exists bb m, process_page (mkpage (Some (100, 200)) true true false 0 1 None) (mkbbox (Some 1) 1 19 9) = Done (bb, Some m) /\
  apply_pt m (0, 0) = (55, 90).
Proof.
  destruct (page_centered (mkpage (Some (100, 200)) true true false 0 1 None) (mkbbox (Some 1) 1 19 9) 100 200 0 0 20 10) as (bb & m & E & H); auto.
  - unfold placed_box. cbn. f_equal; [f_equal|..]; lra.
  - exists bb, m. split; auto. rewrite H. unfold on_paper. cbn. f_equal; lra.
Qed.

(** C60: a fitted page is scaled around the centre of the paper by a positive factor such that the box stays within
    the margins, and touches the margins of two opposite sides. *)
Theorem page_fitted : forall p content W H l b r t, paper p = Some (W, H) -> fittosize p = true -> 2 * margin p < W -> 2 * margin p < H ->
  placed_box p content l b r t -> l < r -> b < t ->
  exists bb m s, process_page p content = Done (bb, Some m) /\ 0 < s /\
    (forall q, apply_pt m q = on_paper (rotated p) W H ((l + r) / 2) ((b + t) / 2) s q) /\
    (forall q, l <= fst q <= r -> b <= snd q <= t ->
      margin p <= fst (apply_pt m q) <= W - margin p /\ margin p <= snd (apply_pt m q) <= H - margin p) /\
    let corners := if rotated p then (apply_pt m (l, t), apply_pt m (r, b)) else (apply_pt m (l, b), apply_pt m (r, t)) in
    (fst (fst corners) = margin p /\ fst (snd corners) = W - margin p) \/ (snd (fst corners) = margin p /\ snd (snd corners) = H - margin p).
Proof.
  intros p content W H l b r t P F MW MH B X Y. unfold process_page. rewrite (box_known _ _ _ _ _ _ B), P, F. cbn [llx lly urx ury].
  rewrite !orb_true_r. unfold fit. rewrite F.
  replace (ltb W (2 * margin p)) with false by (symmetry; apply ArcProps.ltb_false; lra). replace (ltb H (2 * margin p)) with false by (symmetry; apply ArcProps.ltb_false; lra).
  replace (eqb (r - l) 0) with false by (symmetry; apply eqb_false; lra). replace (eqb (t - b) 0) with false by (symmetry; apply eqb_false; lra).
  cbn [orb]. set (M := margin p) in *. set (w := r - l) in *. set (h := t - b) in *. assert (w0 : 0 < w) by (unfold w; lra). assert (h0 : 0 < h) by (unfold h; lra).
  set (A := if rotated p then H - 2 * M else W - 2 * M). set (C := if rotated p then W - 2 * M else H - 2 * M).
  assert (A0 : 0 < A) by (unfold A; destruct (rotated p); lra). assert (C0 : 0 < C) by (unfold C; destruct (rotated p); lra).
  set (s := Rmin (A / w) (C / h)).
  replace (if rotated p then Rmin ((H - 2 * M) / w) ((W - 2 * M) / h) else Rmin ((W - 2 * M) / w) ((H - 2 * M) / h)) with s by (unfold s, A, C; destruct (rotated p); reflexivity).
  assert (S0 : 0 < s) by (unfold s; apply Rmin_glb_lt; apply Rdiv_lt_0_compat; auto).
  assert (SW : s * w <= A) by (apply Rle_trans with (A / w * w); [apply Rmult_le_compat_r; [lra|apply Rmin_l]|right; field; lra]).
  assert (SH : s * h <= C) by (apply Rle_trans with (C / h * h); [apply Rmult_le_compat_r; [lra|apply Rmin_r]|right; field; lra]).
  assert (SE : s * w = A \/ s * h = C).
  { unfold s, Rmin. destruct (Rle_dec (A / w) (C / h)); [left|right]; field; lra. }
  assert (PK := place_known p W H l b w h). rewrite F, orb_true_r in PK. specialize (PK eq_refl).
  replace (l + w / 2) with ((l + r) / 2) in PK by (unfold w; field). replace (b + h / 2) with ((b + t) / 2) in PK by (unfold h; field).
  assert (K : forall q, apply_pt (tmul (mktrafo s 0 0 s ((1 - s) * (M + 1 / 2 * (W - 2 * M))) ((1 - s) * (M + 1 / 2 * (H - 2 * M)))) (place p W H l b w h)) q =
    on_paper (rotated p) W H ((l + r) / 2) ((b + t) / 2) s q) by (intros q; now apply scaled_known).
  eexists. eexists. exists s. split; [reflexivity|]. split; auto. split; [exact K|]. split.
  - intros [x y] HX HY. cbn [fst snd] in HX, HY. rewrite K. unfold on_paper. cbn [fst snd].
    assert (S1 : s * (l - (l + r) / 2) = - (s * w) / 2) by (unfold w; field). assert (S2 : s * (r - (l + r) / 2) = s * w / 2) by (unfold w; field).
    assert (S3 : s * (b - (b + t) / 2) = - (s * h) / 2) by (unfold h; field). assert (S4 : s * (t - (b + t) / 2) = s * h / 2) by (unfold h; field).
    assert (T1 : s * (l - (l + r) / 2) <= s * (x - (l + r) / 2)) by (apply Rmult_le_compat_l; lra). assert (T2 : s * (x - (l + r) / 2) <= s * (r - (l + r) / 2)) by (apply Rmult_le_compat_l; lra).
    assert (T3 : s * (b - (b + t) / 2) <= s * (y - (b + t) / 2)) by (apply Rmult_le_compat_l; lra). assert (T4 : s * (y - (b + t) / 2) <= s * (t - (b + t) / 2)) by (apply Rmult_le_compat_l; lra).
    unfold A, C in *. destruct (rotated p); cbn [fst snd]; lra.
  - cbv zeta. rewrite !K. unfold on_paper.
    assert (S1 : s * (l - (l + r) / 2) = - (s * w) / 2) by (unfold w; field). assert (S2 : s * (r - (l + r) / 2) = s * w / 2) by (unfold w; field).
    assert (S3 : s * (b - (b + t) / 2) = - (s * h) / 2) by (unfold h; field). assert (S4 : s * (t - (b + t) / 2) = s * h / 2) by (unfold h; field).
    unfold A, C in *. destruct (rotated p); cbn [fst snd]; rewrite ?S1, ?S2, ?S3, ?S4; destruct SE as [-> | ->]; [right|left|left|right]; split; field.
Qed.
Print Assumptions page_fitted.
Example page_fitted_ex : exists bb m s, process_page (mkpage (Some (100, 200)) false false true 10 0 None) (mkbbox (Some 0) 0 20 10) = Done (bb, Some m) /\ s = 4 /\
  apply_pt m (0, 0) = (10, 80).
Proof.
  set (p := mkpage (Some (100, 200)) false false true 10 0 None).
  destruct (page_fitted p (mkbbox (Some 0) 0 20 10) 100 200 0 0 20 10) as (bb & m & s & E & S & K & I & C); auto; cbn; try lra.
  - unfold placed_box. cbn. f_equal; [f_equal|..]; lra.
  - exists bb, m, s. split; [exact E|]. assert (I1 := I (0, 0) ltac:(cbn; lra) ltac:(cbn; lra)). cbn zeta in C. rewrite !K in *. unfold on_paper in *. cbn in *.
    assert (s = 4) by lra. split; auto. rewrite H. f_equal; lra.
Qed.

(** C60: the error is raised exactly if a margin is more than half of the paper. *)
Theorem page_margin_error : forall p content W H l b r t, paper p = Some (W, H) -> placed_box p content l b r t ->
  (process_page p content = MarginError <-> fittosize p = true /\ (W < 2 * margin p \/ H < 2 * margin p)).
Proof.
  intros p content W H l b r t P B. unfold process_page. rewrite (box_known _ _ _ _ _ _ B), P. cbn [llx lly urx ury].
  destruct (rotated p || centered p || fittosize p)%bool eqn:O.
  - unfold fit. destruct (fittosize p); [|split; [discriminate|intros [? _]; discriminate]].
    destruct (ltb W (2 * margin p) || ltb H (2 * margin p))%bool eqn:L.
    + split; auto. intros _. split; auto. apply orb_true_iff in L as [L|L]; unfold ltb in L; [destruct (Rlt_dec W (2 * margin p))|destruct (Rlt_dec H (2 * margin p))]; auto; discriminate.
    + apply orb_false_iff in L as [L1 L2]. apply ArcProps.ltb_false in L1, L2. destruct (eqb (r - l) 0 || eqb (t - b) 0)%bool; (split; [intros E; simpl in E; discriminate|]); intros [_ [A|A]]; lra.
  - split; [discriminate|]. intros [F _]. rewrite F, orb_true_r in O. discriminate.
Qed.
Print Assumptions page_margin_error.
Example page_margin_error_ex : process_page (mkpage (Some (100, 200)) false false true 51 0 None) (mkbbox (Some 0) 0 20 10) = MarginError.
Proof.
  apply (page_margin_error _ _ 100 200 0 0 20 10); auto; cbn; [|lra]. unfold placed_box. cbn. f_equal; [f_equal|..]; lra.
Qed.

(** When the margins take all of the paper there is no error: everything is scaled to a point. *)
Theorem page_no_room_refuted : exists bb m, process_page (mkpage (Some (100, 200)) false false true 50 0 None) (mkbbox (Some 0) 0 20 10) = Done (bb, Some m) /\
  forall q, apply_pt m q = (50, 100).
Proof.
  unfold process_page, enlarge_pt, given. cbn [pagebbox paper llx lly urx ury rotated centered fittosize orb bboxenlarge]. unfold fit. cbn [fittosize margin rotated].
  replace (ltb 100 (2 * 50)) with false by (symmetry; apply ArcProps.ltb_false; lra). replace (ltb 200 (2 * 50)) with false by (symmetry; apply ArcProps.ltb_false; lra).
  replace (eqb (20 + 0 - (0 - 0)) 0) with false by (symmetry; apply eqb_false; lra). replace (eqb (10 + 0 - (0 - 0)) 0) with false by (symmetry; apply eqb_false; lra). cbn [orb].
  eexists. eexists. split; [reflexivity|]. intros [x y]. rewrite Rmin_left by lra. unfold apply_pt, tmul, place, translate_pt. cbn [rotated m00 m01 m10 m11 v0 v1 fst snd]. f_equal; field.
Qed.
Print Assumptions page_no_room_refuted.
(** A vertical line whose box is not enlarged cannot be fitted. *)
Theorem page_flat_refuted : process_page (mkpage (Some (100, 200)) false false true 5 0 None) (mkbbox (Some 0) 0 0 10) = ZeroDivision.
Proof.
  unfold process_page, enlarge_pt, given. cbn [pagebbox paper llx lly urx ury rotated centered fittosize orb bboxenlarge]. unfold fit. cbn [fittosize margin rotated].
  replace (ltb 100 (2 * 5)) with false by (symmetry; apply ArcProps.ltb_false; lra). replace (ltb 200 (2 * 5)) with false by (symmetry; apply ArcProps.ltb_false; lra).
  replace (eqb (0 + 0 - (0 - 0)) 0) with true by (symmetry; apply eqb_true; lra). reflexivity.
Qed.
Print Assumptions page_flat_refuted.

(** Without centering a rotated page is only turned by a quarter around the lower left corner of the paper and moved
    back onto it. *)
Theorem page_turned : forall p content W H l b r t, paper p = Some (W, H) -> rotated p = true -> centered p = false -> fittosize p = false ->
  placed_box p content l b r t ->
  exists bb m, process_page p content = Done (bb, Some m) /\ forall x y, apply_pt m (x, y) = (W - y, x).
Proof.
  intros p content W H l b r t P Ro C F B. unfold process_page. rewrite (box_known _ _ _ _ _ _ B), P, C, F, Ro. cbn [llx lly urx ury orb].
  unfold fit, place. rewrite F, Ro, C. cbn [orb]. eexists. eexists. split; [reflexivity|]. intros x y. destruct turn90 as [-> ->].
  unfold apply_pt, tmul, translate_pt. cbn [m00 m01 m10 m11 v0 v1 fst snd]. f_equal; ring.
Qed.
Print Assumptions page_turned.
Example page_turned_ex : exists bb m, process_page (mkpage (Some (100, 200)) true false false 0 0 (Some (mkbbox (Some 0) 0 10 20))) empty = Done (bb, Some m) /\
  apply_pt m (10, 20) = (80, 10).
Proof.
  destruct (page_turned (mkpage (Some (100, 200)) true false false 0 0 (Some (mkbbox (Some 0) 0 10 20))) empty 100 200 0 0 10 20) as (bb & m & E & K); try reflexivity.
  exists bb, m. split; auto. rewrite K. f_equal; lra.
Qed.
