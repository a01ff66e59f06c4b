(** Properties of reading SVG paths: an example, quadratic curves, and paths read wrongly. *)
From Coq Require Import Reals Bool List Lra Lia.
From Verif Require Import TrafoModel BboxModel CurveModel CurveSpec ArcModel NormsubModel NormsubSpec NormsubProofs NormsubProofs2 NormsubProofs3 NormsubProps NormpathModel PathModel PathSpec PathNormModel PathNormSpec PathNormProofs PathNormProps SvgInModel SvgInSpec SvgInProofs SvgInProps.
Import ListNotations.
Open Scope R_scope.

Local Notation pt := (R * R)%type.
Local Ltac real_cbv := cbv -[IZR Rplus Rmult Rminus Rdiv Rinv Ropp].

Lemma fast_uniform a b c d k y0 y1 y2 y3 : b = a + k -> c = a + 2 * k -> d = a + 3 * k -> y0 = 0 -> y1 = 0 -> y2 = 0 -> y3 = 0 -> 1 <= k -> fast 1 (Curve (a, y0) (b, y1) (c, y2) (d, y3)).
Proof.
  intros -> -> -> -> -> -> -> K t T. unfold sq, der_coefs. cbn [fst snd].
  replace ((a + 3 * k - 3 * (a + 2 * k) + 3 * (a + k) - a) * t * t + (2 * a - 4 * (a + k) + 2 * (a + 2 * k)) * t + (a + k - a)) with k by ring.
  replace ((0 - 3 * 0 + 3 * 0 - 0) * t * t + (2 * 0 - 4 * 0 + 2 * 0) * t + (0 - 0)) with 0 by ring. nra.
Qed.
Lemma fast_flat a b y0 y1 : y0 = 0 -> y1 = 0 -> 1 <= Rabs (b - a) -> fast 1 (Line (a, y0) (b, y1)).
Proof.
  intros -> -> H. simpl. rewrite (dist_is (a, 0) (b, 0) (Rabs (b - a))); auto; [apply Rabs_pos|]. simpl.
  assert (E := Rsqr_abs (b - a)). unfold Rsqr in E. lra.
Qed.
Lemma fast_regular d : (forall its, drawn_items d its -> Forall (fast 1) its) -> regular 1 d.
Proof. intros H its I. specialize (H its I). apply (Forall_impl _ (fun i => proj1 (fast_speed 1 i ltac:(lra))) H). Qed.

Example svg_path_ex :
  let l := [SMove false (0, 0) [(5, 0)]; SHor true 10 []; SCurve true ((20, 0), (30, 0), (40, 0)) []; SSmooth true ((60, 0), (70, 0)) [];
            SLine false (10, 0) []; SQuad true ((95, 0), (110, 0)) []; SSmoothQuad true (140, 0) []; SClose true; SMove true (5, 5) []] in
  neat Moves l = true /\ matching Other l = true /\
  exists g c, perform_all blank l = Some (g, c) /\ Forall (regular 1) (ended g) /\
  map (fun d => (shut d, length (segs d))) (ended g) = [(true, 7%nat); (false, 0%nat)].
Proof.
  cbv zeta. split; [reflexivity|]. split; [reflexivity|]. eexists. eexists. split; [real_cbv; reflexivity|]. split; [|reflexivity].
  assert (A : forall x, 1 <= x -> 1 <= Rabs x) by (intros x X; rewrite Rabs_pos_eq; lra).
  unfold ended. cbn [finished now app]. constructor; [|constructor; [|constructor]].
  - apply fast_regular. intros its [[[=] _]|[[_ [E _]]|[_ [_ ->]]]]; [exfalso; unfold end_of in E; cbn [segs start map seg_end last] in E; injection E as E; lra|].
    cbn [segs start seg_items seg_item seg_end app end_of map last].
    repeat (apply Forall_cons || apply Forall_nil);
      first [apply (fast_uniform _ _ _ _ 10); lra | apply fast_flat; try lra; first [apply A; lra | rewrite Rabs_left; lra]].
  - apply fast_regular. intros its [[_ ->]|[[[=] _]|[[=] _]]]. constructor.
Qed.

(** The curve of the quadratic commands. *)
Theorem svg_quadratic_curve : forall p0 q p3, match from_quadratic p0 q p3 with
  | Curveto p1 p2 p3' => forall t, cubic_point p0 p1 p2 p3' t = quadratic_point p0 q p3 t
  | _ => False
  end.
Proof. intros [x0 y0] [x1 y1] [x2 y2] t. unfold cubic_point, quadratic_point. simpl. f_equal; field. Qed.
Print Assumptions svg_quadratic_curve.
Theorem svg_elevated_curve : forall p0 q p3, match elevated p0 q p3 with
  | SegCurve p1 p2 p3' => forall t, cubic_point p0 p1 p2 p3' t = quadratic_point p0 q p3 t
  | _ => False
  end.
Proof. intros [x0 y0] [x1 y1] [x2 y2] t. unfold cubic_point, quadratic_point. simpl. f_equal; field. Qed.
Print Assumptions svg_elevated_curve.
Example svg_quadratic_ex : from_quadratic (0, 0) (3, 3) (6, 0) = Curveto (2, 2) (4, 2) (6, 0) /\ quadratic_point (0, 0) (3, 3) (6, 0) (1 / 2) = (3, 3 / 2).
Proof. unfold from_quadratic, quadratic_point. cbn [fst snd]. split; repeat (f_equal; try lra). Qed.

Lemma blank_fine e up a : fine e (do_move up blank a).
Proof. unfold fine, do_move, ended. simpl. constructor; auto. intros its [[_ ->]|[[[=] _]|[[=] _]]]. constructor. Qed.
Lemma atend_first f e a : 0 < e -> atend (S (S f)) e [Moveto a] = Some a.
Proof. intros He. rewrite (atend_known f e He _ _ _ _ (first_move true a)); [reflexivity|apply blank_fine]. Qed.
Lemma fast_point e p : fastd e (mkdrawn p [] false).
Proof. intros its [[_ ->]|[[[=] _]|[[=] _]]]. constructor. Qed.

(** A smooth cubic curve after a quadratic one should have the current point as its first control point, but
    that of the quadratic curve is reflected. *)
Theorem svg_smooth_after_quadratic_refuted : exists e l g c, 0 < e /\ neat Moves l = true /\ perform_all blank l = Some (g, c) /\
  forall f, exists items d, toPath (S (S f)) e (map written l) = Some items /\ interpret (outputPS items) = Some d /\
    d <> filter visible (ended g).
Proof.
  exists 1, [SMove true (0, 0) []; SQuad true ((15, 0), (30, 0)) []; SSmooth false ((20, 0), (30, 10)) []].
  eexists. eexists. split; [lra|]. split; [reflexivity|]. split; [real_cbv; reflexivity|].
  intros f. eexists. eexists. split; [|split].
  - unfold toPath. cbn [map written read_commands read_command nums1 nums2 flat_map app fst snd read_lines orb].
    rewrite (read_quadratic_eq f 1 true 15 0 30 0 [] [Moveto (0, 0)] (0, 0) (atend_first f 1 (0, 0) Rlt_0_1)). cbv zeta.
    cbn [app read_smooth last_delta rev from_quadratic]. reflexivity.
  - real_cbv. reflexivity.
  - real_cbv. intros E. injection E as E. lra.
Qed.
Print Assumptions svg_smooth_after_quadratic_refuted.

(** And the other way round. *)
Theorem svg_smooth_after_cubic_refuted : exists e l g c, 0 < e /\ neat Moves l = true /\ perform_all blank l = Some (g, c) /\
  forall f, exists items d, toPath (S (S f)) e (map written l) = Some items /\ interpret (outputPS items) = Some d /\
    d <> filter visible (ended g).
Proof.
  set (l0 := [SMove true (0, 0) []; SCurve true ((10, 0), (20, 0), (30, 0)) []]).
  exists 1, (l0 ++ [SSmoothQuad true (40, 30) []]).
  eexists. eexists. split; [lra|]. split; [reflexivity|]. split; [real_cbv; reflexivity|].
  assert (He : 0 < 1) by lra. intros f.
  assert (A : atend (S (S f)) 1 [Moveto (0, 0); Curveto (10, 0) (20, 0) (30, 0)] = Some (30, 0)).
  { assert (V := proj1 (step_curve 1 true _ _ _ _ ((10, 0), (20, 0), (30, 0)) _ (first_move true (0, 0)) ltac:(discriminate) eq_refl)).
    refine (atend_known f 1 He _ _ _ _ V _).
    unfold fine. real_cbv. constructor; [|constructor]. intros its [[_ ->]|[[[=] _]|[[=] _]]].
    constructor; [|constructor]. apply (fast_uniform _ _ _ _ 10); lra. }
  eexists. eexists. split; [|split].
  - unfold toPath, l0. cbn [map app written read_commands read_command nums1 nums3 flat_map fst snd read_lines read_curves orb].
    rewrite (read_smooth_quadratic_eq f 1 true 40 30 [] _ _ (30 - 20, 0 - 0) A eq_refl). cbv zeta. reflexivity.
  - real_cbv. reflexivity.
  - real_cbv. intros E. injection E as E. lra.
Qed.
Print Assumptions svg_smooth_after_cubic_refuted.

(** Drawing after closing a subpath starts a new one at the same point; here an exception is raised as soon as the
    current point is needed. *)
Theorem svg_draw_after_close_refuted : exists e l g c, 0 < e /\ matching Other l = true /\ perform_all blank l = Some (g, c) /\
  Forall (regular e) (ended g) /\ forall f, toPath (S (S f)) e (map written l) = None.
Proof.
  exists 1, [SMove true (0, 0) []; SLine true (10, 0) []; SClose true; SLine true (0, 10) []; SHor true 10 []].
  eexists. eexists. split; [lra|]. split; [reflexivity|]. split; [real_cbv; reflexivity|].
  assert (He : 0 < 1) by lra.
  assert (L : forall p q, (fst q - fst p) * (fst q - fst p) + (snd q - snd p) * (snd q - snd p) = 10 * 10 -> fast 1 (Line p q)).
  { intros p q H. simpl. rewrite (dist_is p q 10); lra. }
  split.
  - unfold ended. cbn [finished now app]. constructor; [|constructor; [|constructor]]; apply fast_regular.
    + intros its [[[=] _]|[[_ [E _]]|[_ [_ ->]]]]; [unfold end_of in E; simpl in E; injection E; intros; lra|].
      repeat (apply Forall_cons || apply Forall_nil); unfold end_of; apply L; simpl; lra.
    + intros its [[_ ->]|[[[=] _]|[[=] _]]]. repeat (apply Forall_cons || apply Forall_nil); simpl seg_item; apply L; simpl; lra.
  - intros f. unfold toPath.
    cbn [map app written read_commands read_command nums1 flat_map fst snd read_lines orb].
    assert (N : convert (S (S f)) 1 [Moveto (0, 0); Lineto (10, 0); Closepath; Lineto (0, 10)] = Exn Normpath).
    { unfold convert. cbn [create_normpath createcontext]. unfold point_sub. rewrite (make_point 1 He f). cbn [bind].
      change (bind (updates (S (S f)) 1 ([] ++ [open_sub 1 (0, 0) []], mkcontext (end_of (0, 0) []) (0, 0))
                (map item_pathitem (seg_items (end_of (0, 0) []) [SegLine (10, 0)]) ++ [Closepath; Lineto (0, 10)])) (fun nc => Ok (fst nc)) = Exn Normpath).
      assert (FF : Forall (fast 1) (seg_items (0, 0) ([] ++ [SegLine (10, 0)]))) by (apply Forall_cons; [apply L; simpl; lra|apply Forall_nil]).
      rewrite updates_app, (add_segs f 1 He [] (0, 0) [SegLine (10, 0)] [] FF). cbn [bind updates update_normpath update_simple].
      rewrite last_sub_app. rewrite (close_line 1 He f _ (0, 0) (10, 0)); simpl; auto; [|discriminate|apply L; simpl; lra].
      cbn [bind update_simple]. unfold add_item, last_sub. cbn [rev app]. remember (S f) as g0. cbn [append epsilon]. unfold mismatch. cbn [skipped lastitem items rev app atend_pt atbegin_pt current].
      simpl. rewrite gap_self. rewrite (ltb_yes 0 1) by lra. reflexivity. }
    unfold atend. rewrite N. reflexivity.
Qed.
Print Assumptions svg_draw_after_close_refuted.
