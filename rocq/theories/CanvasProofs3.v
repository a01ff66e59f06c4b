(** Proofs about what canvases write to SVG *)
From Coq Require Import ZArith Reals List Bool.
From Verif Require Import TrafoModel CanvasModel CanvasSpec CanvasProofs.
Import ListNotations.

Definition svgrun := run svg_step.
Definition bare (a : attrs) : Prop := s_clip a = None /\ s_trafo a = None /\ s_stroke a = None /\ s_fill a = None /\ s_opacity a = None.
(** the place, the stroke side and the fill side *)
Definition at_place (g : look) (s : svgstate) : Prop := ctm g = v_ctm s /\ clips g = v_clips s.
Definition stroke_side (g : look) (s : svgstate) (a : attrs) (x : svgcontext) : Prop :=
  at_place g s /\ lines g = v_lines s ++ s_lines a /\ col g = x_strokecolor x /\ alpha g = x_strokeopacity x.
Definition fill_side (g : look) (s : svgstate) (a : attrs) (x : svgcontext) : Prop :=
  at_place g s /\ rule g = (match s_rule a with Some b => b | None => v_rule s end) /\ col g = x_fillcolor x /\ alpha g = x_fillopacity x.
Definition agreesv (g : look) (s : svgstate) (a : attrs) (x : svgcontext) : Prop := stroke_side g s a x /\ fill_side g s a x.

Lemma svg_both l : forall g s a x a' x', agreesv g s a x -> bare a -> svg_styles true true l (a, x) = (a', x') ->
  agreesv (set_styles g l) s a' x' /\ bare a'.
Proof.
  unfold svg_styles, set_styles. induction l as [|z l IH]; intros g s a x a' x' A N E.
  { cbn in E. injection E as <- <-. auto. }
  cbn [fold_left] in *. destruct A as [((P1 & P2) & A1 & A2 & A3) (_ & A4 & A5 & A6)].
  destruct z as [c|v|k v|b]; cbn [svg_style] in E; (eapply IH; [| |exact E]); try exact N;
    (split; (split; [split; auto|])); cbn; auto; try (repeat split; auto; fail).
  all: repeat split; auto; try (rewrite A1, <- app_assoc; auto).
Qed.
Lemma svg_stroke l : forall g gf s a x a' x', stroke_side g s a x -> fill_side gf s a x -> bare a -> forallb strokestyle l = true ->
  svg_styles true false l (a, x) = (a', x') -> stroke_side (set_styles g l) s a' x' /\ fill_side gf s a' x' /\ bare a'.
Proof.
  unfold svg_styles, set_styles. induction l as [|z l IH]; intros g gf s a x a' x' A A' N K E.
  { cbn in E. injection E as <- <-. auto. }
  cbn [fold_left] in *. cbn in K. apply andb_true_iff in K as [K1 K2].
  destruct A as ((P1 & P2) & A1 & A2 & A3). destruct A' as ((Q1 & Q2) & A4 & A5 & A6).
  destruct z as [c|v|k v|b]; try discriminate; cbn [svg_style] in E; (eapply IH; [| | |exact K2|exact E]); try exact N;
    (split; [try split; auto|]); cbn; auto; try (repeat split; auto; fail).
  all: repeat split; auto; try (rewrite A1, <- app_assoc; auto).
Qed.
Lemma svg_fill l : forall g gs s a x a' x', fill_side g s a x -> stroke_side gs s a x -> bare a -> forallb fillstyle l = true ->
  svg_styles false true l (a, x) = (a', x') -> fill_side (set_styles g l) s a' x' /\ stroke_side gs s a' x' /\ bare a'.
Proof.
  unfold svg_styles, set_styles. induction l as [|z l IH]; intros g gs s a x a' x' A A' N K E.
  { cbn in E. injection E as <- <-. auto. }
  cbn [fold_left] in *. cbn in K. apply andb_true_iff in K as [K1 K2].
  destruct A as ((P1 & P2) & A1 & A2 & A3). destruct A' as ((Q1 & Q2) & A4 & A5 & A6).
  destruct z as [c|v|k v|b]; try discriminate; cbn [svg_style] in E; (eapply IH; [| | |exact K2|exact E]); try exact N;
    (split; [try split; auto|]); cbn; auto; try (repeat split; auto; fail).
Qed.
(** no change of the context *)
Lemma svg_quiet b c l : forall a x a' x', forallb no_paint l = true -> svg_styles b c l (a, x) = (a', x') -> x' = x.
Proof.
  unfold svg_styles. induction l as [|z l IH]; intros a x a' x' K E; [cbn in E; congruence|].
  cbn in K, E. apply andb_true_iff in K as [K1 K2]. destruct z; try discriminate; eapply IH; eauto.
Qed.
Lemma svg_no_alpha b c l : forall a x a' x', forallb no_alpha l = true -> svg_styles b c l (a, x) = (a', x') ->
  x_strokeopacity x' = x_strokeopacity x /\ x_fillopacity x' = x_fillopacity x.
Proof.
  unfold svg_styles. induction l as [|z l IH]; intros a x a' x' K E; [cbn in E; split; congruence|].
  cbn in K, E. apply andb_true_iff in K as [K1 K2]. destruct z as [c0| | |]; try discriminate; eapply IH in E; auto.
Qed.
Lemma opacity_set v a : s_opacity a = None -> opacity_of (set_opacity v a) = v.
Proof. intros H. unfold set_opacity. destruct (Z.eqb_spec v 1); cbn; unfold opacity_of; [rewrite H|]; auto. Qed.
Lemma opacity_twice v a : s_opacity a = None -> opacity_of (set_opacity v (set_opacity v a)) = v.
Proof. intros H. unfold set_opacity. destruct (Z.eqb_spec v 1); cbn; unfold opacity_of; [rewrite H|]; auto. Qed.
Lemma set_opacity_keeps v a : s_lines (set_opacity v a) = s_lines a /\ s_rule (set_opacity v a) = s_rule a /\ s_clip (set_opacity v a) = s_clip a /\
  s_trafo (set_opacity v a) = s_trafo a /\ s_stroke (set_opacity v a) = s_stroke a /\ s_fill (set_opacity v a) = s_fill a.
Proof. unfold set_opacity. destruct (Z.eqb v 1); repeat split. Qed.

(** a path element with given attributes *)
Lemma path_el q a s st : s_clip a = None -> s_trafo a = None ->
  svgrun [PathEl q a] (s, st) = Some ((s, st),
    match s_fill a with Some c => [Filled q (v_ctm s) (v_clips s) c (opacity_of a) (match s_rule a with Some b => b | None => v_rule s end)] | None => [] end ++
    match s_stroke a with Some c => [Stroked q (v_ctm s) (v_clips s) c (opacity_of a) (v_lines s ++ s_lines a)] | None => [] end).
Proof.
  intros E1 E2. unfold svgrun. cbn. unfold into. rewrite E1, E2. cbn. rewrite !app_nil_r. reflexivity.
Qed.

Lemma given_all_nil (ss : option (list style)) : all_of strokestyle ss = true -> forallb strokestyle (or_nil ss) = true.
Proof. destruct ss; auto. Qed.
Lemma given_all_nil' (ss : option (list style)) : all_of fillstyle ss = true -> forallb fillstyle (or_nil ss) = true.
Proof. destruct ss; auto. Qed.

Lemma svg_paint_run g s x st p sp sty ss fs l els x' :
  agreesv g s no_attrs x -> all_of strokestyle ss = true -> all_of fillstyle fs = true -> svg_fit (Path p sp sty ss fs l) = true ->
  svg_paint x p sp ss fs = (els, x') ->
  svgrun els (s, st) = Some ((s, st),
    match fs with Some f => [filled (set_styles g f) p] | None => [] end ++
    match ss with Some z => [stroked (set_styles g z) (stroke_path p sp)] | None => [] end) /\ (l = [] \/ x' = x).
Proof.
  intros [As Af] Ws Wf Fit E. cbn in Fit. rewrite !andb_true_iff in Fit. destruct Fit as [[[F1 F2] F3] F4].
  assert (bare no_attrs) as BN by (repeat split).
  unfold svg_paint in E. destruct sp as [q|].
  - destruct ss as [z|], fs as [f|]; try discriminate.
    + destruct (svg_styles true false z (no_attrs, x)) as [a x1] eqn:E1. injection E as <- <-.
      destruct (svg_stroke z g g s no_attrs x a x1 As Af BN Ws E1) as (((P1 & P2) & A1 & A2 & A3) & _ & (B1 & B2 & B3 & B4 & B5)).
      split.
      * cbn [app]. pose proof (set_opacity_keeps (x_strokeopacity x1) (set_stroke (Some (x_strokecolor x1)) a)) as (K1 & K2 & K3 & K4 & K5 & K6).
        rewrite path_el; rewrite ?K3, ?K4; auto. rewrite K5, K6, K1. cbn. rewrite B4. cbn.
        rewrite opacity_set by exact B5. unfold stroked. now rewrite P1, P2, A1, A2, A3.
      * destruct (is_nil l) eqn:Z0; [left; now apply is_nil_true|right]. cbn in F3. rewrite andb_true_r in F3. eapply svg_quiet; eauto.
    + destruct (svg_styles false true f (no_attrs, x)) as [a x1] eqn:E1. injection E as <- <-.
      destruct (svg_fill f g g s no_attrs x a x1 Af As BN Wf E1) as (((P1 & P2) & A1 & A2 & A3) & _ & (B1 & B2 & B3 & B4 & B5)).
      split.
      * cbn [app]. pose proof (set_opacity_keeps (x_fillopacity x1) (set_fill (Some (x_fillcolor x1)) a)) as (K1 & K2 & K3 & K4 & K5 & K6).
        rewrite path_el; rewrite ?K3, ?K4; auto. rewrite K5, K6, K2. cbn. rewrite B3. cbn.
        rewrite opacity_set by exact B5. unfold filled. now rewrite P1, P2, A1, A2, A3.
      * destruct (is_nil l) eqn:Z0; [left; now apply is_nil_true|right]. cbn in F3. eapply svg_quiet; eauto.
    + injection E as <- <-. split; auto.
  - destruct (svg_styles true false (or_nil ss) (no_attrs, x)) as [a1 x1] eqn:E1.
    destruct (svg_styles false true (or_nil fs) (a1, x1)) as [a2 x2] eqn:E2.
    destruct (svg_stroke _ g g s no_attrs x a1 x1 As Af BN (given_all_nil ss Ws) E1) as (S1 & G1 & N1).
    destruct (svg_fill _ g (set_styles g (or_nil ss)) s a1 x1 a2 x2 G1 S1 N1 (given_all_nil' fs Wf) E2) as
      (((P1 & P2) & A1 & A2 & A3) & (_ & C1 & C2 & C3) & (B1 & B2 & B3 & B4 & B5)).
    assert (negb (Z.eqb (x_strokeopacity x2) (x_fillopacity x2)) && given ss && given fs = false) as OP.
    { destruct ss as [z|], fs as [f|]; cbn; rewrite ?andb_false_r, ?andb_true_r; auto.
      rewrite forallb_app, andb_true_iff in F2. destruct F2 as [F5 F6].
      destruct (svg_no_alpha _ _ _ _ _ _ _ F5 E1) as [O1 O2]. destruct (svg_no_alpha _ _ _ _ _ _ _ F6 E2) as [O3 O4].
      destruct As as (_ & _ & _ & AS). destruct Af as (_ & _ & _ & AF).
      rewrite O3, O1, O4, O2, <- AS, <- AF. rewrite Z.eqb_refl. reflexivity. }
    assert (ss <> None -> fs <> None -> x_strokeopacity x2 = x_fillopacity x2) as OE.
    { intros D1 D2. destruct ss as [z|]; [|congruence]. destruct fs as [f|]; [|congruence]. cbn in OP. rewrite !andb_true_r in OP.
      apply negb_false_iff, Z.eqb_eq in OP. auto. }
    rewrite OP in E. split.
    + injection E as <- _. destruct ss as [z|], fs as [f|]; cbn [given or_nil stroke_path] in *.
      * specialize (OE ltac:(congruence) ltac:(congruence)).
        match goal with |- svgrun [PathEl _ (set_opacity ?v (set_opacity ?u ?b))] _ = _ =>
          pose proof (set_opacity_keeps v (set_opacity u b)) as (K1 & K2 & K3 & K4 & K5 & K6);
          pose proof (set_opacity_keeps u b) as (L1 & L2 & L3 & L4 & L5 & L6) end.
        rewrite path_el; rewrite ?K3, ?K4, ?L3, ?L4; auto. rewrite K5, K6, K1, K2, L5, L6, L1, L2, OE. rewrite opacity_twice by exact B5.
        cbn. unfold filled, stroked. rewrite P1, P2, A1, A2, A3, C1, C2, C3, OE.
        destruct S1 as ((P3 & P4) & _). now rewrite P3, P4.
      * match goal with |- svgrun [PathEl _ (set_opacity ?u ?b)] _ = _ => pose proof (set_opacity_keeps u b) as (K1 & K2 & K3 & K4 & K5 & K6) end.
        rewrite path_el; rewrite ?K3, ?K4; auto. rewrite K5, K6, K1, K2. rewrite opacity_set by exact B5.
        cbn. unfold filled, stroked. rewrite C1, C2, C3. destruct S1 as ((P3 & P4) & _). now rewrite P3, P4.
      * match goal with |- svgrun [PathEl _ (set_opacity ?u ?b)] _ = _ => pose proof (set_opacity_keeps u b) as (K1 & K2 & K3 & K4 & K5 & K6) end.
        rewrite path_el; rewrite ?K3, ?K4; auto. rewrite K5, K6, K1, K2. rewrite opacity_set by exact B5.
        cbn. unfold filled. now rewrite P1, P2, A1, A2, A3.
      * rewrite path_el; auto.
    + injection E as _ <-. destruct (is_nil l) eqn:Z0; [left; now apply is_nil_true|right]. cbn in F3. apply andb_true_iff in F3 as [Q1 Q2].
      assert (x1 = x) as -> by (destruct ss; [eapply svg_quiet; eauto|cbn in E1; congruence]).
      destruct fs; [eapply svg_quiet; eauto|cbn in E2; congruence].
Qed.

Definition svgitems := fix items (x : svgcontext) (l : list item) : list svgop :=
    match l with [] => [] | i :: r => svg x i ++ items x r end.
Definition svg_good (it : item) : Prop := forall g x s st,
  agreesv g s no_attrs x -> alpha g <> 0%Z -> built it -> everywhere svg_fit it = true ->
  svgrun (svg x it) (s, st) = Some ((s, st), draw g it).
Lemma svg_items_good l : Forall svg_good l -> forall g x s st, agreesv g s no_attrs x -> alpha g <> 0%Z ->
  fold_right (fun i P => built i /\ P) True l -> forallb (everywhere svg_fit) l = true ->
  svgrun (svgitems x l) (s, st) = Some ((s, st), flat_map (draw g) l).
Proof.
  induction 1 as [|i l Hi Hl IH]; intros g x s st A V W F; [reflexivity|].
  cbn in W, F. destruct W as [W1 W2]. apply andb_true_iff in F as [F1 F2].
  unfold svgrun in *. cbn [svgitems]. rewrite run_app. pose proof (Hi g x s st A V W1 F1) as R. unfold svgrun in R. rewrite R.
  rewrite (IH g x s st A V W2 F2). reflexivity.
Qed.
Lemma svg_grouped a ops s st s' out : svgrun ops (into s a, s :: st) = Some ((s', s :: st), out) ->
  svgrun (StartG a :: ops ++ [EndG]) (s, st) = Some ((s, st), out).
Proof. intros H. unfold svgrun in *. cbn. rewrite run_app, H. cbn. now rewrite app_nil_r. Qed.
Lemma visible_alpha l : forall g, alpha g <> 0%Z -> forallb visible l = true -> alpha (set_styles g l) <> 0%Z.
Proof.
  unfold set_styles. induction l as [|z l IH]; intros g V F; auto. cbn in *. apply andb_true_iff in F as [F1 F2]. apply IH; auto.
  destruct z as [c|a|k v|b]; auto. cbn. cbn in F1. apply negb_true_iff, Z.eqb_neq in F1. auto.
Qed.
(** entering an element with the attributes of global styles *)
Lemma agrees_into g s a x : agreesv g s a x -> bare a -> agreesv g (into s a) no_attrs x.
Proof.
  intros [((P1 & P2) & A1 & A2 & A3) (_ & A4 & A5 & A6)] (B1 & B2 & B3 & B4 & B5).
  unfold agreesv, stroke_side, fill_side, at_place, into. cbn. rewrite B1, B2, !app_nil_r. repeat split; auto.
Qed.

Lemma svg_all_good it : svg_good it.
Proof.
  assert (bare no_attrs) as BN by (repeat split).
  induction it as [k f|p sp sty ss fs l Hl|c l Hl] using item_all.
  - intros g x s st A V W F. destruct A as [((P1 & P2) & _ & _ & _) (_ & A4 & A5 & A6)].
    cbn [svg]. assert (Z.eqb (x_fillopacity x) 0 = false) as -> by (apply Z.eqb_neq; congruence).
    unfold svgrun. cbn. rewrite app_nil_r. now rewrite P1, P2, A5, A6.
  - intros g x s st A V W F. cbn in W. destruct W as (W1 & W2 & W3). cbn [everywhere] in F. apply andb_true_iff in F as [F1 F2].
    cbn [svg]. change (fix items (x0 : svgcontext) (l0 : list item) {struct l0} : list svgop := match l0 with [] => [] | i :: r => svg x0 i ++ items x0 r end) with svgitems.
    destruct (svg_styles true true sty (no_attrs, x)) as [ga x1] eqn:E1.
    destruct (svg_both sty g s no_attrs x ga x1 A BN E1) as [A1 B1].
    set (g1 := set_styles g sty) in *.
    assert (alpha g1 <> 0%Z) as V1. { apply visible_alpha; auto. cbn in F1. rewrite !andb_true_iff in F1. tauto. }
    destruct (svg_paint x1 p sp ss fs) as [els x2] eqn:E2.
    assert (forall s0 st0, agreesv g1 s0 no_attrs x1 ->
       svgrun (els ++ match l with [] => [] | _ => svgitems x2 l end) (s0, st0) = Some ((s0, st0), draw g (Path p sp sty ss fs l))) as Body.
    { intros s0 st0 A0. destruct (svg_paint_run g1 s0 x1 st0 p sp sty ss fs l els x2 A0 W1 W2 F1 E2) as [R X].
      assert (svgrun (match l with [] => [] | _ => svgitems x2 l end) (s0, st0) = Some ((s0, st0), flat_map (draw g1) l)) as R2.
      { destruct X as [-> | ->]; [reflexivity|]. destruct l; [reflexivity|]. apply svg_items_good; auto. }
      unfold svgrun in *. rewrite run_app, R, R2. cbn [draw]. fold g1. now rewrite <- app_assoc. }
    destruct (has_attrs ga) eqn:HA.
    + eapply svg_grouped. apply Body. apply agrees_into; auto.
    + apply Body. unfold has_attrs in HA. apply orb_false_iff in HA as [H1 H2]. apply negb_false_iff, is_nil_true in H1.
      destruct A1 as [((P1 & P2) & A1 & A2 & A3) (_ & A4 & A5 & A6)]. rewrite H1 in A1. destruct (s_rule ga); [discriminate|].
      repeat split; auto.
  - intros g x s st A V W F. cbn in W. destruct W as [[a0 W1] W2]. cbn [everywhere] in F. apply andb_true_iff in F as [F1 F2]. cbn in F1.
    cbn [svg]. change (fix items (x0 : svgcontext) (l0 : list item) {struct l0} : list svgop := match l0 with [] => [] | i :: r => svg x0 i ++ items x0 r end) with svgitems.
    destruct (is_nil l) eqn:NL.
    { apply is_nil_true in NL. subst l. reflexivity. }
    destruct (c_modifies c) eqn:M.
    2: { assert (inner g c = g) as IG.
         { unfold new_canvas in W1. destruct (fold_left place (rev a0) (Some (None, None))) as [[c' t']|] eqn:Fo; [|discriminate].
           destruct a0 as [|a1 ar]; [|injection W1 as <-; discriminate]. cbn in Fo. injection Fo as <- <-. injection W1 as <-. reflexivity. }
         cbn [draw]. rewrite IG. apply svg_items_good; auto. }
    destruct (svg_styles true true (c_styles c) (no_attrs, x)) as [ga x1] eqn:E1.
    destruct (svg_both (c_styles c) g s no_attrs x ga x1 A BN E1) as [A1 B1].
    assert (forall s0 st0, agreesv (inner g c) s0 no_attrs x1 -> svgrun (svgitems x1 l) (s0, st0) = Some ((s0, st0), flat_map (draw (inner g c)) l)) as Body.
    { intros s0 st0 A0. apply svg_items_good; auto. pose proof (visible_alpha (c_styles c) g V F1) as V1. unfold inner.
      destruct (c_clip c), (c_trafo c); exact V1. }
    destruct A1 as [((P1 & P2) & A1 & A2 & A3) (_ & A4 & A5 & A6)]. destruct B1 as (B1 & B2 & B3 & B4 & B5).
    cbn [draw].
    destruct (c_clip c) as [q|] eqn:Cc, (c_trafo c) as [t|] eqn:Ct.
    + change [EndG; EndG] with ([EndG] ++ [EndG]). rewrite app_assoc. rewrite app_comm_cons.
      eapply svg_grouped. eapply svg_grouped. apply Body.
      unfold inner. rewrite Cc, Ct. unfold agreesv, stroke_side, fill_side, at_place, into. cbn. rewrite B2, !app_nil_r.
      repeat split; auto; try congruence.
    + eapply svg_grouped. apply Body.
      unfold inner. rewrite Cc, Ct. unfold agreesv, stroke_side, fill_side, at_place, into. cbn. rewrite B2, !app_nil_r.
      repeat split; auto; try congruence.
    + eapply svg_grouped. apply Body.
      unfold inner. rewrite Cc, Ct. unfold agreesv, stroke_side, fill_side, at_place, into. cbn. rewrite B1, !app_nil_r.
      repeat split; auto; try congruence.
    + eapply svg_grouped. apply Body.
      unfold inner. rewrite Cc, Ct. unfold agreesv, stroke_side, fill_side, at_place, into. cbn. rewrite B1, B2, !app_nil_r.
      repeat split; auto; try congruence.
Qed.
