(** Reading SVG paths: the steps, if nothing fails. *)
From Coq Require Import Reals Bool List Lra Lia.
From Verif Require Import TrafoModel BboxModel CurveModel CurveSpec ArcModel NormsubModel NormsubSpec NormsubProofs3 NormpathModel PathModel PathSpec PathNormModel PathNormSpec PathNormProofs PathNormProps PathEndProps SvgInModel SvgInSpec SvgInProofs SvgInProps.
Import ListNotations.
Open Scope R_scope.

Local Notation pt := (R * R)%type.

Section Svg.
  Variables (fuel : nat) (e : R).
  Hypothesis He : 0 < e.

  Definition Inv2 (p : list pathitem) (s : st) (d : degree) : Prop :=
    exists p0 l, p = Moveto p0 :: l /\ forallb straight l = true /\
    obey_all (mkgstate [] NoPoint) (outputPS p) = Some (fst s) /\ delta_ok p s d.
  Lemma atend_right p s d q : Inv2 p s d -> atend fuel e p = Some q -> here s = Some q.
  Proof.
    intros (p0 & l & -> & S & O & _) A. unfold atend in A. destruct (convert fuel e (Moveto p0 :: l)) as [np| |] eqn:C; try discriminate.
    rewrite <- A. symmetry. apply (path_end_point fuel e p0 l (fst s) np He S O C).
  Qed.
  Lemma grow2 p s d i g' c' d' : Inv2 p s d -> straight i = true ->
    obey_all (fst s) (item_outputPS i) = Some g' -> delta_ok (p ++ [i]) (g', c') d' -> Inv2 (p ++ [i]) (g', c') d'.
  Proof.
    intros (p0 & l & -> & S & O & _) Si Oi D. exists p0, (l ++ [i]). split; [reflexivity|].
    split; [rewrite forallb_app, S; simpl; now rewrite Si|]. split; auto.
    unfold outputPS in *. rewrite flat_map_app. rewrite (obey_all_snoc _ _ _ _ O). simpl. now rewrite app_nil_r.
  Qed.
  Lemma Inv2_nonempty p s d : Inv2 p s d -> exists i l, p = i :: l.
  Proof. intros (p0 & l & -> & _). eauto. Qed.
  Lemma grow_seg2 p s d i sg c' d' q : Inv2 p s d -> straight i = true -> here s = Some q ->
    obey_all (fst s) (item_outputPS i) = add_seg (fst s) sg ->
    forall s', drawing s (fun q => (sg, c')) = Some s' ->
    delta_ok (p ++ [i]) (fst s', c') d' -> Inv2 (p ++ [i]) s' d'.
  Proof.
    intros V S H O s' Dr D. unfold drawing in Dr. rewrite H in Dr. cbn [fst snd] in Dr.
    destruct (add_seg (fst s) sg) as [g|] eqn:A; [|discriminate]. injection Dr as <-. cbn [fst] in *. eapply grow2; eauto.
  Qed.
  (** * The commands, one set of numbers each *)
  Lemma step_line2 (up : bool) p s d a s' : Inv2 p s d -> do_line up s a = Some s' ->
    Inv2 (p ++ [if up then Lineto a else Rlineto a]) s' Other.
  Proof.
    intros V Dr. destruct (drawing_here _ _ _ Dr) as (q & H & H' & C'). unfold do_line in Dr. rewrite (drawing_known _ _ _ H) in Dr.
    eapply grow_seg2; [exact V|now destruct up|exact H| |exact Dr|].
    - unfold here in H. destruct up; simpl; unfold relative; rewrite ?H; destruct (add_seg _ _); auto.
    - eexists. eexists. split; [exact H'|]. split; [rewrite last_delta_snoc; reflexivity|]. destruct up; auto.
  Qed.
  Lemma step_move2 (up : bool) p s d a : Inv2 p s d ->
    Inv2 (p ++ [if up then Moveto a else Rmoveto a]) (do_move up s a) Other.
  Proof.
    intros V. assert (V' := V). destruct V' as (_ & _ & _ & _ & _ & q & _ & H & _).
    unfold do_move. rewrite H.
    assert (X : Inv2 (p ++ [if up then Moveto a else Rmoveto a]) (move (fst s) (at_pt up q a), NoControl) Other).
    { eapply grow2; [exact V|now destruct up| |].
      - unfold here in H. destruct up; simpl; unfold relative; rewrite ?H; auto.
      - eexists. eexists. split; [reflexivity|]. split; [rewrite last_delta_snoc; reflexivity|]. destruct up; auto. }
    destruct up; exact X.
  Qed.
  Lemma first_move2 up a : Inv2 [Moveto a] (do_move up blank a) Other.
  Proof.
    exists a, []. split; auto. split; auto. split; [reflexivity|].
    eexists. eexists. split; [reflexivity|]. split; [reflexivity|]. auto.
  Qed.
  Lemma step_hor2 (up : bool) p s d a s' q : Inv2 p s d -> here s = Some q -> do_hor up s a = Some s' ->
    Inv2 (p ++ [if up then Lineto (a, snd q) else Rlineto (a, 0)]) s' Other /\ here s' = Some (if up then a else fst q + a, snd q).
  Proof.
    intros V H Dr. destruct (drawing_here _ _ _ Dr) as (q' & H0 & H' & C'). assert (q' = q) as -> by congruence. unfold do_hor in Dr. rewrite (drawing_known _ _ _ H) in Dr.
    assert (X : Inv2 (p ++ [if up then Lineto (a, snd q) else Rlineto (a, 0)]) s' Other).
    { eapply grow_seg2; [exact V|now destruct up|exact H| |exact Dr|].
      - unfold here in H. destruct up; simpl; unfold relative; rewrite ?H; simpl; rewrite ?Rplus_0_r; destruct (add_seg _ _); auto.
      - eexists. eexists. split; [exact H'|]. split; [rewrite last_delta_snoc; reflexivity|]. destruct up; auto. }
    tauto.
  Qed.
  Lemma step_vert2 (up : bool) p s d a s' q : Inv2 p s d -> here s = Some q -> do_vert up s a = Some s' ->
    Inv2 (p ++ [if up then Lineto (fst q, a) else Rlineto (0, a)]) s' Other /\ here s' = Some (fst q, if up then a else snd q + a).
  Proof.
    intros V H Dr. destruct (drawing_here _ _ _ Dr) as (q' & H0 & H' & C'). assert (q' = q) as -> by congruence. unfold do_vert in Dr. rewrite (drawing_known _ _ _ H) in Dr.
    assert (X : Inv2 (p ++ [if up then Lineto (fst q, a) else Rlineto (0, a)]) s' Other).
    { eapply grow_seg2; [exact V|now destruct up|exact H| |exact Dr|].
      - unfold here in H. destruct up; simpl; unfold relative; rewrite ?H; simpl; rewrite ?Rplus_0_r; destruct (add_seg _ _); auto.
      - eexists. eexists. split; [exact H'|]. split; [rewrite last_delta_snoc; reflexivity|]. destruct up; auto. }
    tauto.
  Qed.
  Lemma step_curve2 (up : bool) p s d a s' : Inv2 p s d -> do_curve up s a = Some s' ->
    Inv2 (p ++ [let '(p1, p2, p3) := a in if up then Curveto p1 p2 p3 else Rcurveto p1 p2 p3]) s' Three.
  Proof.
    destruct a as [[p1 p2] p3]. intros V Dr. destruct (drawing_here _ _ _ Dr) as (q & H & H' & C'). unfold do_curve in Dr. rewrite (drawing_known _ _ _ H) in Dr.
    eapply grow_seg2; [exact V|now destruct up|exact H| |exact Dr|].
    - unfold here in H. destruct up; simpl; unfold relative; rewrite ?H; destruct (add_seg _ _); auto.
    - eexists. eexists. split; [exact H'|]. split; [rewrite last_delta_snoc; reflexivity|]. exists (at_pt up q p2). split; auto.
      destruct up; simpl; lra.
  Qed.
  Lemma step_smooth2 (up : bool) p s d a s' : Inv2 p s d -> d <> Two -> do_smooth up s a = Some s' ->
    forall dl p1, last_delta p = Some dl -> (if up then option_map (plus_pt dl) (atend fuel e p) else Some dl) = Some p1 ->
    Inv2 (p ++ [if up then Curveto p1 (fst a) (snd a) else Rcurveto p1 (fst a) (snd a)]) s' Three.
  Proof.
    destruct a as [p2 p3]. intros V ND Dr dl p1 LD0 AE0. destruct (drawing_here _ _ _ Dr) as (q & H & H' & C').
    assert (V' := V). destruct V' as (_ & _ & _ & _ & _ & q' & dl0 & H0 & LD & DD).
    assert (q' = q) as -> by congruence. assert (dl0 = dl) as -> by congruence.
    assert (RR : (fst q + fst dl, snd q + snd dl) = match snd s with Cubic c => reflected q c | _ => q end).
    { destruct d; [congruence| |].
      - destruct DD as (c & -> & E1 & E2). unfold reflected. rewrite E1, E2. f_equal; lra.
      - destruct DD as (-> & ->). simpl. destruct q; simpl. now rewrite !Rplus_0_r. }
    assert (p1 = if up then plus_pt dl q else dl) as ->.
    { destruct up; [|congruence]. destruct (atend fuel e p) as [q'|] eqn:AE; [|discriminate]. assert (X := atend_right _ _ _ _ V AE). simpl in AE0. congruence. }
    cbn [fst snd].
    unfold do_smooth in Dr. rewrite (drawing_known _ _ _ H) in Dr.
    apply (grow_seg2 p s d _ (SegCurve (match snd s with Cubic c => reflected q c | _ => q end) (at_pt up q p2) (at_pt up q p3)) (Cubic (at_pt up q p2)) Three q V); [now destruct up|exact H| |exact Dr|].
    - unfold here in H. rewrite <- RR. destruct up; cbn [item_outputPS obey_all obey]; unfold relative; rewrite ?H; unfold plus_pt;
        rewrite ?(Rplus_comm (fst dl)), ?(Rplus_comm (snd dl)); destruct (add_seg _ _); auto.
    - eexists. eexists. split; [exact H'|]. split; [rewrite last_delta_snoc; reflexivity|]. exists (at_pt up q p2). split; auto.
      destruct up; simpl; lra.
  Qed.
  Lemma step_quad2 (up : bool) p s d a s' : Inv2 p s d -> do_quad up s a = Some s' ->
    forall q, atend fuel e p = Some q -> Inv2 (p ++ [from_quadratic q (if up then fst a else plus_pt (fst a) q) (if up then snd a else plus_pt (snd a) q)]) s' Two.
  Proof.
    destruct a as [p1 p3]. intros V Dr q AE. destruct (drawing_here _ _ _ Dr) as (q' & H & H' & C').
    assert (q' = q) as -> by (assert (X := atend_right _ _ _ _ V AE); congruence). cbn [fst snd].
    assert (A : forall p, (if up then p else plus_pt p q) = at_pt up q p) by (intros u; unfold at_pt, plus_pt; destruct up; auto; f_equal; lra).
    rewrite !A. unfold do_quad in Dr. rewrite (drawing_known _ _ _ H) in Dr.
    apply (grow_seg2 p s d _ (elevated q (at_pt up q p1) (at_pt up q p3)) (Quadratic (at_pt up q p1)) Two q V); [reflexivity|exact H|apply elevate|exact Dr|].
    eexists. eexists. split; [exact H'|]. split; [rewrite last_delta_snoc; reflexivity|]. exists (at_pt up q p1). split; auto. simpl. lra.
  Qed.
  Lemma step_smoothquad2 (up : bool) p s d a s' : Inv2 p s d -> d <> Three -> do_smoothquad up s a = Some s' ->
    forall q dl, atend fuel e p = Some q -> last_delta p = Some dl ->
    Inv2 (p ++ [from_quadratic q (fst q + 3 / 2 * fst dl, snd q + 3 / 2 * snd dl) (if up then a else plus_pt a q)]) s' Two.
  Proof.
    intros V ND Dr q dl AE LD0. destruct (drawing_here _ _ _ Dr) as (q0 & H & H' & C').
    assert (q0 = q) as -> by (assert (X := atend_right _ _ _ _ V AE); congruence).
    assert (V' := V). destruct V' as (_ & _ & _ & _ & _ & q' & dl0 & H0 & LD & DD).
    assert (q' = q) as -> by congruence. assert (dl0 = dl) as -> by congruence.
    assert (A : forall p, (if up then p else plus_pt p q) = at_pt up q p) by (intros u; unfold at_pt, plus_pt; destruct up; auto; f_equal; lra).
    assert (RR : (fst q + 3 / 2 * fst dl, snd q + 3 / 2 * snd dl) = match snd s with Quadratic c => reflected q c | _ => q end).
    { destruct d; [|congruence|].
      - destruct DD as (c & -> & E1 & E2). unfold reflected. rewrite E1, E2. f_equal; lra.
      - destruct DD as (-> & ->). simpl. destruct q; simpl. now rewrite !Rmult_0_r, !Rplus_0_r. }
    rewrite A, RR. unfold do_smoothquad in Dr. rewrite (drawing_known _ _ _ H) in Dr. cbv zeta in Dr.
    set (p1 := match snd s with Quadratic c => reflected q c | _ => q end) in *.
    apply (grow_seg2 p s d _ (elevated q p1 (at_pt up q a)) (Quadratic p1) Two q V); [reflexivity|exact H|apply elevate|exact Dr|].
    eexists. eexists. split; [exact H'|]. split; [rewrite last_delta_snoc; reflexivity|]. exists p1. split; auto. simpl. lra.
  Qed.
  Lemma step_close2 p s d s' : Inv2 p s d -> do_close s = Some s' -> Inv2 (p ++ [Closepath]) s' Other.
  Proof.
    intros V Dr. unfold do_close in Dr. destruct (here s) as [q|] eqn:H; [|discriminate].
    destruct (obey (fst s) Oclose) as [g|] eqn:O; [|discriminate]. injection Dr as <-.
    eapply grow2; eauto.
    - cbn [item_outputPS obey_all]. rewrite O. reflexivity.
    - assert (exists q', here (g, NoControl) = Some q') as (q' & H').
      { unfold here in *. simpl in *. destruct (now (fst s)) eqn:N; injection O as <-; [discriminate| |]; rewrite ?N; simpl; eauto. }
      eexists. eexists. split; [exact H'|]. split; [rewrite last_delta_snoc; reflexivity|]. auto.
  Qed.
End Svg.
