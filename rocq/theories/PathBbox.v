(** C85: the bounding box of a path. *)
From Coq Require Import Reals Bool List Lra.
From Verif Require Import TrafoModel BboxModel BboxSpec BboxProps CurveModel CurveSpec CurveProofs CurveProps ArcModel ArcSpec ArcProofs ArcProps PathModel.
Import ListNotations.
Open Scope R_scope.

Local Notation pt := (R * R)%type.

(** The points drawn by path operators, with the current point and the start of the subpath
    as state (None in the beginning); moveto counts as drawing its point. *)
Definition on_segment (p q x : pt) : Prop :=
  exists t, 0 <= t <= 1 /\ x = (fst p + t * (fst q - fst p), snd p + t * (snd q - snd p)).
Definition bernstein_pt (p0 p1 p2 p3 : pt) (t : R) : pt :=
  (bernstein (fst p0) (fst p1) (fst p2) (fst p3) t, bernstein (snd p0) (snd p1) (snd p2) (snd p3) t).
Definition on_curve (p0 p1 p2 p3 x : pt) : Prop := exists t, 0 <= t <= 1 /\ x = bernstein_pt p0 p1 p2 p3 t.
Definition gpoint := option (pt * pt).
Definition shift (p d : pt) : pt := (fst p + fst d, snd p + snd d).
Definition arc_points (g : gpoint) (x y r a1 a2 : R) (on : pt -> Prop) : (pt -> Prop) * gpoint :=
  let s := circle_point x y r (rad a1) in
  let e := circle_point x y r (rad a2) in
  match g with
  | None => (on, Some (e, s))
  | Some (cur, first) => (fun z => on_segment cur s z \/ on z, Some (e, first))
  end.
Definition op_points (g : gpoint) (o : op) : (pt -> Prop) * gpoint :=
  match o, g with
  | Omove p, _ => (fun z => z = p, Some (p, p))
  | Ormove d, Some (cur, _) => (fun z => z = shift cur d, Some (shift cur d, shift cur d))
  | Oline p, Some (cur, first) => (on_segment cur p, Some (p, first))
  | Orline d, Some (cur, first) => (on_segment cur (shift cur d), Some (shift cur d, first))
  | Ocurve p1 p2 p3, Some (cur, first) => (on_curve cur p1 p2 p3, Some (p3, first))
  | Orcurve d1 d2 d3, Some (cur, first) =>
      (on_curve cur (shift cur d1) (shift cur d2) (shift cur d3), Some (shift cur d3, first))
  | Oclose, Some (cur, first) => (on_segment cur first, Some (first, first))
  | Oarc x y r a1 a2, _ => arc_points g x y r a1 a2 (on_arc x y r a1 a2)
  | Oarcn x y r a1 a2, _ => arc_points g x y r a1 a2 (on_arc x y r a2 a1)
  | _, _ => (fun _ => False, g)
  end.
Fixpoint points_drawn (g : gpoint) (l : list op) (z : pt) : Prop :=
  match l with
  | [] => False
  | o :: l' => fst (op_points g o) z \/ points_drawn (snd (op_points g o)) l' z
  end.

(** Items without arct, with radii that are not negative. *)
Definition bounded (i : pathitem) : Prop :=
  match i with
  | Arc _ _ r _ _ | Arcn _ _ r _ _ => 0 <= r
  | Arct _ _ _ => False
  | _ => True
  end.

Lemma inside_segment b p q z : inside b p -> inside b q -> on_segment p q z -> inside b z.
Proof.
  intros [l [E [P1 P2]]] [l' [E' [Q1 Q2]]] [t [T ->]]. rewrite E in E'. injection E' as <-. exists l. split; [assumption|]. cbn [fst snd].
  split; split; nra.
Qed.
Lemma smallest_union a b s s' : smallest a s -> smallest b s' -> smallest (badd a b) (fun z => s z \/ s' z).
Proof.
  intros [Pa [Ia Wa]] [Pb [Ib Wb]]. destruct (badd_smallest a b Pa Pb) as [P [I W]]. split; [exact P|]. split.
  - intros z [H|H]; apply I; [left; auto|right; auto].
  - intros c H. apply W. intros z [Hz|Hz]; [apply (Wa c)|apply (Wb c)]; auto.
Qed.
Lemma smallest_point p : smallest (mkbbox (Some (fst p)) (snd p) (fst p) (snd p)) (fun z => z = p).
Proof.
  split; [intros l [= <-]; cbn; lra|]. split.
  - intros z ->. exists (fst p). cbn. repeat split; lra.
  - intros c H z [l [[= <-] [A B]]]. cbn in A, B. replace z with p; [apply H; reflexivity|]. destruct z, p. cbn in *. f_equal; lra.
Qed.
Lemma smallest_more b (s s' : pt -> Prop) : smallest b s -> (forall z, s' z -> inside b z) -> smallest b (fun z => s z \/ s' z).
Proof. intros [P [I W]] H. split; [exact P|]. split; [intros z [Hz|Hz]; auto|]. intros c Hc. apply W. auto. Qed.
Lemma smallest_same b (s s' : pt -> Prop) : smallest b s -> (forall z, s z -> s' z) -> (forall z, s' z -> inside b z) -> smallest b s'.
Proof. intros [P [I W]] H K. split; [exact P|]. split; [exact K|]. intros c Hc. apply W. auto. Qed.

Lemma include_curve_add b p0 p1 p2 p3 : include_curve b p0 p1 p2 p3 = badd b (item_bbox (Curve p0 p1 p2 p3)).
Proof.
  destruct p0 as [x0 y0], p1 as [x1 y1], p2 as [x2 y2], p3 as [x3 y3]. unfold include_curve, item_bbox. cbn [fst snd].
  pose proof (proj1 (item_bbox_smallest (Curve (x0, y0) (x1, y1) (x2, y2) (x3, y3)))) as P. unfold item_bbox in P.
  destruct (bezierpolyrange x0 x1 x2 x3) as [xmin xmax]. destruct (bezierpolyrange y0 y1 y2 y3) as [ymin ymax].
  specialize (P _ eq_refl). cbn in P. unfold includepoint_pt, badd. destruct b as [[l|] y x u]; cbn; f_equal; try (f_equal; mm; lra); mm; lra.
Qed.
Lemma include_arc_add b x y r a1 a2 : 0 <= r -> include_arc b (arcbboxdata x y r a1 a2) = badd b (box4 (arcbboxdata x y r a1 a2)).
Proof.
  intros Hr. destruct (arcbboxdata x y r a1 a2) as [[[x1 y1] x2] y2] eqn:Ed.
  pose proof (proj1 (arc_bbox_smallest x y r a1 a2 x1 y1 x2 y2 Hr Ed)) as P. specialize (P _ eq_refl). cbn in P. clear Ed.
  unfold include_arc, box4, includepoint_pt, badd. destruct b as [[l|] yy xx u]; cbn; f_equal; try (f_equal; mm; lra); mm; lra.
Qed.
Lemma arc_box x y r a1 a2 : 0 <= r -> smallest (box4 (arcbboxdata x y r a1 a2)) (on_arc x y r a1 a2).
Proof.
  intros Hr. destruct (arcbboxdata x y r a1 a2) as [[[x1 y1] x2] y2] eqn:E. exact (arc_bbox_smallest x y r a1 a2 x1 y1 x2 y2 Hr E).
Qed.
Lemma curve_box p0 p1 p2 p3 : smallest (item_bbox (Curve p0 p1 p2 p3)) (on_curve p0 p1 p2 p3).
Proof.
  apply (smallest_iff _ _ _ (fun z => iff_refl _)). eapply smallest_iff; [|apply item_bbox_smallest].
  intros z. destruct p0, p1, p2, p3. unfold on_curve, bernstein_pt. cbn [fst snd at_pt].
  split; intros [t [T ->]]; exists t; (split; [exact T|]); cbn [at_pt]; unfold curve_coord, bernstein; f_equal; ring.
Qed.
Lemma curve_start p0 p1 p2 p3 : on_curve p0 p1 p2 p3 p0 /\ on_curve p0 p1 p2 p3 p3.
Proof.
  split; [exists 0|exists 1]; (split; [lra|]); unfold bernstein_pt, bernstein; destruct p0, p3; cbn; f_equal; ring.
Qed.
Lemma arc_ends x y r a1 a2 : on_arc x y r a1 a2 (circle_point x y r (rad a1)) /\ on_arc x y r a1 a2 (circle_point x y r (rad a2)).
Proof.
  destruct (bbox_end_spec (rad a1) (rad a2)) as [A [L [k K]]]. split.
  - exists (bbox_end (rad a1) (rad a2)), (rad a1). repeat split; auto; lra.
  - exists (bbox_end (rad a1) (rad a2)), (bbox_end (rad a1) (rad a2)). repeat split; auto; try lra.
    rewrite K. unfold circle_point. now rewrite cos_turn, sin_turn.
Qed.
Lemma arcpoint_circle x y r a : arcpoint x y r a = circle_point x y r (rad a).
Proof. unfold arcpoint, circle_point. now rewrite rad_radians. Qed.

(** the state of the computation of the bounding box after drawing the points of [s] *)
Definition covers (bc : bbox * context) (s : pt -> Prop) (g : gpoint) : Prop :=
  smallest (fst bc) s /\ s (current (snd bc)) /\ s (subfirst (snd bc)) /\ g = Some (current (snd bc), subfirst (snd bc)).

Lemma covers_point bc s g p f : covers bc s g -> (f = subfirst (snd bc) \/ f = p) -> forall (new : pt -> Prop),
  new p -> (forall b z, inside b (current (snd bc)) -> inside b p -> new z -> inside b z) ->
  covers (includepoint_pt (fst bc) p, mkcontext p f) (fun z => s z \/ new z) (Some (p, f)).
Proof.
  intros [S [C [F G]]] Hf new Np In. split; [|split; [|split]]; cbn [fst snd current subfirst]; [|right; exact Np|destruct Hf as [->| ->]; auto|reflexivity].
  rewrite includepoint_add. pose proof (smallest_union _ _ _ _ S (smallest_point p)) as U.
  eapply smallest_same; [exact U| |].
  - intros z [H| ->]; [now left|now right].
  - intros z [H|H]; [apply (proj1 (proj2 U)); now left|]. eapply In; [| |exact H]; apply (proj1 (proj2 U)); [now left|now right].
Qed.
Lemma covers_box bc s g b new p : covers bc s g -> smallest b new -> new p ->
  covers (badd (fst bc) b, mkcontext p (subfirst (snd bc))) (fun z => s z \/ new z) (Some (p, subfirst (snd bc))).
Proof.
  intros [S [C [F G]]] N Np. split; [|split; [|split]]; cbn [fst snd current subfirst]; auto. now apply smallest_union.
Qed.
Lemma covers_iff bc s s' g : (forall z, s z <-> s' z) -> covers bc s g -> covers bc s' g.
Proof. intros H [A [B [C D]]]. split; [|split; [|split]]; auto; try now apply H. eapply smallest_iff; eauto. Qed.
Lemma segment_end p q : on_segment p q q.
Proof. exists 1. split; [lra|]. destruct p, q. cbn. f_equal; ring. Qed.
Lemma segment_start p q : on_segment p q p.
Proof. exists 0. split; [lra|]. destruct p, q. cbn. f_equal; ring. Qed.

Lemma points_app l1 : forall g l2 z,
  points_drawn g (l1 ++ l2) z <-> points_drawn g l1 z \/ points_drawn (fold_left (fun g o => snd (op_points g o)) l1 g) l2 z.
Proof. induction l1 as [|o l1 IH]; intros g l2 z; cbn; [tauto|]. rewrite IH. tauto. Qed.

Lemma covers_arc b c s g x y r a1 a2 (on : pt -> Prop) d : covers (b, c) s g -> smallest d on ->
  on (circle_point x y r (rad a1)) -> on (circle_point x y r (rad a2)) ->
  covers (badd b d, mkcontext (arcpoint x y r a2) (subfirst c)) (fun z => s z \/ fst (arc_points g x y r a1 a2 on) z) (snd (arc_points g x y r a1 a2 on)).
Proof.
  intros H D O1 O2. rewrite arcpoint_circle. pose proof H as [S [C [F G]]]. cbn [fst snd] in *. subst g. cbn [arc_points fst snd].
  destruct (covers_box (b, c) s _ d on _ H D O2) as [S' [C' [F' G']]]. cbn [fst snd current subfirst] in *.
  split; [|split; [|split]]; cbn [fst snd current subfirst]; auto.
  apply (smallest_same _ _ _ S'); [tauto|]. intros z [Hz|[Hz|Hz]]; [apply (proj1 (proj2 S')); now left| |apply (proj1 (proj2 S')); now right].
  eapply inside_segment; [| |exact Hz]; apply (proj1 (proj2 S')); [now left|now right].
Qed.

Lemma covers_item i bc s g : bounded i -> covers bc s g ->
  covers (updatebbox_simple bc i) (fun z => s z \/ points_drawn g (item_outputPS i) z)
         (fold_left (fun g o => snd (op_points g o)) (item_outputPS i) g).
Proof.
  intros B H. pose proof H as [S [C [F G]]]. destruct bc as [b c]. cbn [fst snd] in *. subst g.
  assert (Seg : forall p q (bb : bbox) z, inside bb p -> inside bb q -> on_segment p q z -> inside bb z) by (intros p q bb z I1 I2 I3; exact (inside_segment bb p q z I1 I2 I3)).
  destruct i; cbn [bounded] in B; try contradiction; cbn [updatebbox_simple item_outputPS points_drawn fold_left].
  - cbn [op_points fst snd]. apply (covers_iff _ (fun z => s z \/ on_segment (current c) (subfirst c) z)); [intros z; tauto|].
    split; [|split; [|split]]; cbn [fst snd current subfirst]; auto. apply smallest_more; [exact S|]. intros z Hz.
    eapply inside_segment; [| |exact Hz]; apply (proj1 (proj2 S)); assumption.
  - cbn [op_points fst snd]. apply (covers_iff _ (fun z => s z \/ z = p)); [intros z; tauto|].
    apply (covers_point (b, c) s _ p p H); auto. intros; now subst.
  - cbn [op_points fst snd]. apply (covers_iff _ (fun z => s z \/ on_segment (current c) p z)); [intros z; tauto|].
    exact (covers_point (b, c) s _ p _ H (or_introl eq_refl) (on_segment (current c) p) (segment_end _ _) (Seg (current c) p)).
  - cbn [op_points fst snd]. apply (covers_iff _ (fun z => s z \/ on_curve (current c) p1 p2 p3 z)); [intros z; tauto|].
    rewrite include_curve_add. apply (covers_box (b, c) s _ _ _ _ H); [apply curve_box|apply curve_start].
  - cbn [op_points fst snd]. apply (covers_iff _ (fun z => s z \/ z = shift (current c) d)); [intros z; tauto|].
    apply (covers_point (b, c) s _ _ _ H); auto. intros; now subst.
  - cbn [op_points fst snd]. apply (covers_iff _ (fun z => s z \/ on_segment (current c) (shift (current c) d) z)); [intros z; tauto|].
    exact (covers_point (b, c) s _ _ _ H (or_introl eq_refl) (on_segment (current c) (shift (current c) d)) (segment_end _ _) (Seg (current c) _)).
  - cbn [op_points fst snd].
    apply (covers_iff _ (fun z => s z \/ on_curve (current c) (shift (current c) d1) (shift (current c) d2) (shift (current c) d3) z)); [intros z; tauto|].
    rewrite include_curve_add. apply (covers_box (b, c) s _ _ _ _ H); [apply curve_box|apply curve_start].
  - cbn [op_points]. rewrite include_arc_add by exact B.
    eapply covers_iff; [|apply (covers_arc b c s _ x y r angle1 angle2 (on_arc x y r angle1 angle2) _ H)]; [intros z; cbn beta; tauto|now apply arc_box|apply arc_ends..].
  - cbn [op_points]. rewrite include_arc_add by exact B.
    eapply covers_iff; [|apply (covers_arc b c s _ x y r angle1 angle2 (on_arc x y r angle2 angle1) _ H)]; [intros z; cbn beta; tauto|now apply arc_box|apply arc_ends..].
  - clear B. revert b c s S C F H. induction l as [|p l IH]; intros b c s S C F H.
    + cbn. apply (covers_iff _ s); [intros; cbn; tauto|exact H].
    + cbn [map fold_left points_drawn op_points fst snd].
      assert (H' : covers (includepoint_pt b p, mkcontext p (subfirst c)) (fun z => s z \/ on_segment (current c) p z) (Some (p, subfirst c)))
        by exact (covers_point (b, c) s _ p _ H (or_introl eq_refl) (on_segment (current c) p) (segment_end _ _) (Seg (current c) p)).
      pose proof H' as [S' [C' [F' _]]]. cbn [fst snd current subfirst] in *.
      specialize (IH _ (mkcontext p (subfirst c)) _ S' C' F' H'). cbn [current subfirst] in IH.
      replace (match rev (p :: l) with [] => c | p0 :: _ => mkcontext p0 (subfirst c) end)
        with (match rev l with [] => mkcontext p (subfirst c) | p0 :: _ => mkcontext p0 (subfirst c) end)
        by (cbn [rev]; destruct (rev l); reflexivity).
      eapply covers_iff; [|exact IH]. intros z. cbn beta. tauto.
  - clear B. revert b c s S C F H. induction l as [|[[p1 p2] p3] l IH]; intros b c s S C F H.
    + cbn. apply (covers_iff _ s); [intros; cbn; tauto|exact H].
    + cbn [map fold_left points_drawn op_points fst snd].
      assert (H' : covers (include_curve b (current c) p1 p2 p3, mkcontext p3 (subfirst c)) (fun z => s z \/ on_curve (current c) p1 p2 p3 z) (Some (p3, subfirst c)))
        by (rewrite include_curve_add; apply (covers_box (b, c) s _ _ _ _ H); [apply curve_box|apply curve_start]).
      pose proof H' as [S' [C' [F' _]]]. cbn [fst snd current subfirst] in *.
      specialize (IH _ (mkcontext p3 (subfirst c)) _ S' C' F' H'). cbn [current subfirst] in IH.
      eapply covers_iff; [|exact IH]. intros z. cbn beta. tauto.
Qed.

Lemma update_bounded i bc : bounded i -> updatebbox bc i = Some (updatebbox_simple bc i).
Proof. destruct i; try reflexivity. intros []. Qed.

Lemma covers_items l : forall bc s g, Forall bounded l -> covers bc s g ->
  exists bc' g', updatebboxes bc l = Some bc' /\ covers bc' (fun z => s z \/ points_drawn g (outputPS l) z) g'.
Proof.
  induction l as [|i l IH]; intros bc s g B H.
  - exists bc, g. split; [reflexivity|]. apply (covers_iff _ s); [intros; cbn; tauto|exact H].
  - inversion B as [|? ? Bi Bl]; subst. pose proof (covers_item i bc s g Bi H) as H'.
    destruct (IH _ _ _ Bl H') as [bc' [g' [U C]]]. exists bc', g'. split.
    + cbn [updatebboxes]. rewrite (update_bounded _ _ Bi). exact U.
    + eapply covers_iff; [|exact C]. intros z. unfold outputPS. cbn [flat_map]. rewrite points_app. cbn beta. tauto.
Qed.

(** C85: the bounding box of a path starting with moveto, arc or arcn, without arct and with radii which
    are not negative, is the smallest box containing all the points drawn by its PostScript
    code (and the points moved to). *)
Theorem pathitems_bbox_smallest : forall i l, Forall bounded (i :: l) -> createcontext i <> None ->
  exists b, pathitems_bbox (i :: l) = Some b /\ smallest b (points_drawn None (outputPS (i :: l))).
Proof.
  intros i l B N. inversion B as [|? ? Bi Bl]; subst.
  assert (H0 : exists b c, createbbox i = Some b /\ createcontext i = Some c /\
    covers (b, c) (points_drawn None (item_outputPS i)) (fold_left (fun g o => snd (op_points g o)) (item_outputPS i) None)).
  { destruct i; cbn in N; try congruence; cbn [bounded] in Bi; eexists _, _; (split; [reflexivity|]); (split; [reflexivity|]).
    - split; [|split; [|split]]; cbn; auto. eapply smallest_iff; [|apply smallest_point]. intros z. cbn. tauto.
    - cbn [item_outputPS points_drawn fold_left op_points arc_points fst snd].
      split; [|split; [|split]]; cbn [fst snd current subfirst]; rewrite ?arcpoint_circle; try (left; apply arc_ends); [|reflexivity].
      eapply smallest_iff; [|apply arc_box; exact Bi]. intros z. cbn beta. tauto.
    - cbn [item_outputPS points_drawn fold_left op_points arc_points fst snd].
      split; [|split; [|split]]; cbn [fst snd current subfirst]; rewrite ?arcpoint_circle; try (left; apply arc_ends); [|reflexivity].
      eapply smallest_iff; [|apply arc_box; exact Bi]. intros z. cbn beta. tauto. }
  destruct H0 as [b [c [Eb [Ec H]]]]. destruct (covers_items l _ _ _ Bl H) as [[b' c'] [g' [U [S _]]]].
  exists b'. split.
  - unfold pathitems_bbox. now rewrite Eb, Ec, U.
  - eapply smallest_iff; [|exact S]. intros z. unfold outputPS. cbn [flat_map]. rewrite points_app. cbn beta. reflexivity.
Qed.

Example pathitems_bbox_ex :
  pathitems_bbox [Moveto (0, 0); Rlineto (10, 5); Multilineto [(20, -5); (15, 0)]; Closepath; Lineto (1, 1)] = Some (mkbbox (Some 0) (-5) 20 5) /\
  Forall bounded [Moveto (0, 0); Rlineto (10, 5); Arcn 1 2 3 4 5].
Proof.
  split; [|repeat constructor; cbn; lra].
  cbn. unfold includepoint_pt. cbn. do 2 f_equal; [f_equal|..]; mm; lra.
Qed.

Print Assumptions pathitems_bbox_smallest.
