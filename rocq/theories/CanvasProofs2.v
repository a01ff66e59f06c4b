(** Proofs about what canvases write to PDF *)
From Coq Require Import ZArith Reals List Bool.
From Verif Require Import TrafoModel CanvasModel CanvasSpec CanvasProofs.
Import ListNotations.

(** stroke and fill side of the graphics state *)
Definition agrees_stroke (g : look) (s : pdfstate) : Prop :=
  ctm g = d_ctm s /\ clips g = d_clips s /\ col g = d_scol s /\ alpha g = d_salpha s /\ lines g = d_lines s.
Definition agrees_fill (g : look) (s : pdfstate) : Prop :=
  ctm g = d_ctm s /\ clips g = d_clips s /\ col g = d_fcol s /\ alpha g = d_falpha s.
Definition agreesd (g : look) (x : context) (s : pdfstate) : Prop := agrees_stroke g s /\ agrees_fill g s /\ rule g = x_rule x.
Definition samed (s s' : pdfstate) : Prop :=
  d_ctm s' = d_ctm s /\ d_clips s' = d_clips s /\ d_scol s' = d_scol s /\ d_fcol s' = d_fcol s /\
  d_salpha s' = d_salpha s /\ d_falpha s' = d_falpha s /\ d_lines s' = d_lines s.
Lemma samed_refl s : samed s s.
Proof. repeat split. Qed.
Lemma samed_trans a b c : samed a b -> samed b c -> samed a c.
Proof. unfold samed. intuition congruence. Qed.
Lemma agreesd_same g x x' s s' : agreesd g x s -> samed s s' -> x_rule x' = x_rule x -> agreesd g x' s'.
Proof. unfold agreesd, agrees_stroke, agrees_fill, samed. intuition congruence. Qed.

Section Strict.
Variable strict : bool.
Definition pdfrun := run (pdf_step strict).
(** settings are allowed with this path *)
Definition allowed (q : option path) : Prop := strict = false \/ q = None.
Lemma allowed_true q : allowed q -> negb strict || match q with None => true | Some _ => false end = true.
Proof. intros [->| ->]; auto. apply orb_true_r. Qed.

Lemma pdf_both l : forall g x s st q t, allowed q -> agreesd g x s ->
  exists s', pdfrun (pdf_styles true true l) (mkpdfm s st q t) = Some (mkpdfm s' st q t, []) /\
             agreesd (set_styles g l) (styles_context x l) s' /\ d_font s' = d_font s.
Proof.
  induction l as [|a l IH]; intros g x s st q t AL A.
  { exists s. cbn. auto. }
  unfold pdfrun, pdf_styles in *. cbn [flat_map]. rewrite run_app. unfold set_styles, styles_context in *. cbn [fold_left].
  pose proof (allowed_true q AL) as Al.
  destruct A as ((A1 & A2 & A3 & A4 & A5) & (A6 & A7 & A8 & A9) & A10).
  destruct a as [c|a|k v|b]; cbn [pdf_style app run pdf_step d_path d_state d_stack d_text]; rewrite ?Al; cbn [run pdf_step d_path d_state d_stack d_text d_ctm d_clips d_scol d_fcol d_salpha d_falpha d_lines d_font]; rewrite ?Al.
  - destruct (IH (set_style g (Paint c)) x (mkpdf (d_ctm s) (d_clips s) c c (d_salpha s) (d_falpha s) (d_lines s) (d_font s)) st q t AL) as (s' & R & A' & E);
      [repeat split; auto|]. cbn. rewrite R. exists s'. auto.
  - destruct (IH (set_style g (Alpha a)) x (mkpdf (d_ctm s) (d_clips s) (d_scol s) (d_fcol s) a a (d_lines s) (d_font s)) st q t AL) as (s' & R & A' & E);
      [repeat split; auto|]. cbn. rewrite R. exists s'. auto.
  - destruct (IH (set_style g (Line k v)) x (mkpdf (d_ctm s) (d_clips s) (d_scol s) (d_fcol s) (d_salpha s) (d_falpha s) (d_lines s ++ [(k, v)]) (d_font s)) st q t AL) as (s' & R & A' & E);
      [repeat split; cbn; congruence|]. cbn. rewrite R. exists s'. auto.
  - destruct (IH (set_style g (Rule b)) (mkcontext b (x_font x)) s st q t AL) as (s' & R & A' & E);
      [repeat split; auto|]. rewrite R. exists s'. auto.
Qed.
Lemma pdf_fills l : forall g gs s st q t, allowed q -> agrees_fill g s -> agrees_stroke gs s -> forallb fillstyle l = true ->
  exists s', pdfrun (pdf_styles false true l) (mkpdfm s st q t) = Some (mkpdfm s' st q t, []) /\
             agrees_fill (set_styles g l) s' /\ agrees_stroke gs s'.
Proof.
  induction l as [|a l IH]; intros g gs s st q t AL A A' H.
  { exists s. cbn. auto. }
  unfold pdfrun, pdf_styles in *. cbn [flat_map]. rewrite run_app. unfold set_styles in *. cbn [fold_left].
  pose proof (allowed_true q AL) as Al. cbn in H. apply andb_true_iff in H as [H1 H2].
  destruct A as (A6 & A7 & A8 & A9).
  destruct a as [c|a|k v|b]; cbn [pdf_style app run pdf_step d_path d_state d_stack d_text]; rewrite ?Al; cbn [run pdf_step d_path d_state d_stack d_text d_ctm d_clips d_scol d_fcol d_salpha d_falpha d_lines d_font]; rewrite ?Al.
  - destruct (IH (set_style g (Paint c)) gs (mkpdf (d_ctm s) (d_clips s) (d_scol s) c (d_salpha s) (d_falpha s) (d_lines s) (d_font s)) st q t AL) as (s' & R & E);
      [repeat split; auto|exact A'|auto|]. cbn. rewrite R. exists s'. auto.
  - destruct (IH (set_style g (Alpha a)) gs (mkpdf (d_ctm s) (d_clips s) (d_scol s) (d_fcol s) (d_salpha s) a (d_lines s) (d_font s)) st q t AL) as (s' & R & E);
      [repeat split; auto|exact A'|auto|]. cbn. rewrite R. exists s'. auto.
  - discriminate.
  - destruct (IH (set_style g (Rule b)) gs s st q t AL) as (s' & R & E); [repeat split; auto|exact A'|auto|]. cbn. rewrite R. exists s'. auto.
Qed.
Lemma pdf_strokes l : forall g gf s st q t, allowed q -> agrees_stroke g s -> agrees_fill gf s ->
  exists s', pdfrun (pdf_styles true false l) (mkpdfm s st q t) = Some (mkpdfm s' st q t, []) /\
             agrees_stroke (set_styles g l) s' /\ agrees_fill gf s'.
Proof.
  induction l as [|a l IH]; intros g gf s st q t AL A A'.
  { exists s. cbn. auto. }
  unfold pdfrun, pdf_styles in *. cbn [flat_map]. rewrite run_app. unfold set_styles in *. cbn [fold_left].
  pose proof (allowed_true q AL) as Al.
  destruct A as (A6 & A7 & A8 & A9 & A10).
  destruct a as [c|a|k v|b]; cbn [pdf_style app run pdf_step d_path d_state d_stack d_text]; rewrite ?Al; cbn [run pdf_step d_path d_state d_stack d_text d_ctm d_clips d_scol d_fcol d_salpha d_falpha d_lines d_font]; rewrite ?Al.
  - destruct (IH (set_style g (Paint c)) gf (mkpdf (d_ctm s) (d_clips s) c (d_fcol s) (d_salpha s) (d_falpha s) (d_lines s) (d_font s)) st q t AL) as (s' & R & E);
      [repeat split; auto|exact A'|]. cbn. rewrite R. exists s'. auto.
  - destruct (IH (set_style g (Alpha a)) gf (mkpdf (d_ctm s) (d_clips s) (d_scol s) (d_fcol s) a (d_falpha s) (d_lines s) (d_font s)) st q t AL) as (s' & R & E);
      [repeat split; auto|exact A'|]. cbn. rewrite R. exists s'. auto.
  - destruct (IH (set_style g (Line k v)) gf (mkpdf (d_ctm s) (d_clips s) (d_scol s) (d_fcol s) (d_salpha s) (d_falpha s) (d_lines s ++ [(k, v)]) (d_font s)) st q t AL) as (s' & R & E);
      [repeat split; cbn; congruence|exact A'|]. cbn. rewrite R. exists s'. auto.
  - destruct (IH (set_style g (Rule b)) gf s st q t AL) as (s' & R & E); [repeat split; auto|exact A'|]. cbn. rewrite R. exists s'. auto.
Qed.

Lemma pdf_saved ops s st q q' s' out : allowed q -> allowed q' ->
  pdfrun ops (mkpdfm s (s :: st) q false) = Some (mkpdfm s' (s :: st) q' false, out) ->
  pdfrun (Q_save :: ops ++ [Q_restore]) (mkpdfm s st q false) = Some (mkpdfm s st q' false, out).
Proof.
  intros AL AL' H. unfold pdfrun in *. cbn [run pdf_step d_path d_state d_stack d_text]. rewrite (allowed_true q AL). cbn [negb andb app].
  rewrite run_app, H. cbn [run pdf_step d_path d_state d_stack d_text]. rewrite (allowed_true q' AL'). cbn. now rewrite app_nil_r.
Qed.
Lemma set_rule g l : forallb no_rule l = true -> rule (set_styles g l) = rule g.
Proof.
  unfold set_styles. revert g. induction l as [|a l IH]; intros g H; auto. cbn in *. apply andb_true_iff in H as [H1 H2].
  rewrite IH; auto. destruct a; auto. discriminate.
Qed.

(** a path that is filled without styles of its own and not at once stroked *)
Definition plain (it : item) : bool :=
  match it with Path _ sp _ ss (Some f) _ => is_nil f && match ss, sp with Some _, None => false | _, _ => true end | _ => true end.

Lemma pdf_paint_run g x s st p sp sty l ss fs : agreesd g x s -> all_of no_rule fs = true -> all_of fillstyle fs = true ->
  (strict = true -> plain (Path p sp sty ss fs l) = true) ->
  pdfrun (pdf_paint x p sp ss fs) (mkpdfm s st None false) = Some (mkpdfm s st None false,
    match fs with Some f => [filled (set_styles g f) p] | None => [] end ++
    match ss with Some z => [stroked (set_styles g z) (stroke_path p sp)] | None => [] end).
Proof.
  intros [A [A' A6]] N W PL. unfold pdf_paint.
  assert (allowed None) as AN by (right; reflexivity).
  assert (forall q z, pdfrun (if is_nil z then [Pathop q; S_] else Q_save :: pdf_styles true false z ++ [Pathop q; S_] ++ [Q_restore]) (mkpdfm s st None false)
            = Some (mkpdfm s st None false, [stroked (set_styles g z) q])) as Str.
  { intros q z. destruct (is_nil z) eqn:Z0.
    - apply is_nil_true in Z0 as ->. unfold pdfrun, stroked. destruct A as (A1 & A2 & A3 & A4 & A5). cbn. now rewrite A1, A2, A3, A4, A5.
    - destruct (pdf_strokes z g g s (s :: st) None false AN A A') as (s' & R & (A1 & A2 & A3 & A4 & A5) & _).
      rewrite app_assoc. apply pdf_saved with (s' := s'); auto. unfold pdfrun in *. rewrite run_app, R.
      unfold stroked. rewrite A1, A2, A3, A4, A5. reflexivity. }
  destruct fs as [f|].
  2: { destruct ss as [z|]; [|reflexivity]. cbn [app]. destruct sp; apply Str. }
  cbn [all_of] in N, W.
  assert (forall rest, pdfrun (Pathop p :: rest) (mkpdfm s st None false) = pdfrun rest (mkpdfm s st (Some p) false)) as Start.
  { intros rest. unfold pdfrun. cbn. destruct (run (pdf_step strict) rest _) as [[? ?]|]; auto. }
  assert (is_nil f = false -> allowed (Some p)) as AF.
  { intros Z0. left. destruct strict; auto. specialize (PL eq_refl). cbn in PL. rewrite Z0 in PL. discriminate. }
  assert (pdfrun (if is_nil f then [if x_rule x then Fstar else F] else Q_save :: pdf_styles false true f ++ [if x_rule x then Fstar else F; Q_restore]) (mkpdfm s st (Some p) false)
           = Some (mkpdfm s st None false, [filled (set_styles g f) p])) as Fil.
  { destruct (is_nil f) eqn:Z0.
    - apply is_nil_true in Z0 as ->. unfold pdfrun, filled. destruct A' as (A1 & A2 & A3 & A4). cbn. rewrite A1, A2, A3, A4, A6. destruct (x_rule x); reflexivity.
    - destruct (pdf_fills f g g s (s :: st) (Some p) false (AF eq_refl) A' A W) as (s' & R & (A1 & A2 & A3 & A4) & _).
      change [if x_rule x then Fstar else F; Q_restore] with ([if x_rule x then Fstar else F] ++ [Q_restore]). rewrite app_assoc.
      apply pdf_saved with (s' := s'); auto. unfold pdfrun in *. rewrite run_app, R.
      unfold filled. rewrite A1, A2, A3, A4, (set_rule g f N), A6. destruct (x_rule x); reflexivity. }
  destruct ss as [z|].
  2: { rewrite !app_nil_r. rewrite Start. exact Fil. }
  destruct sp as [q|].
  - rewrite <- app_comm_cons, Start. unfold pdfrun in *. rewrite run_app, Fil. cbn [stroke_path]. rewrite Str. reflexivity.
  - rewrite app_nil_r, Start. cbn [stroke_path].
    assert (strict = false) as S0.
    { destruct strict; auto. specialize (PL eq_refl). cbn in PL. rewrite andb_false_r in PL. discriminate. }
    assert (allowed (Some p)) as AP by (left; auto).
    destruct (pdf_fills f g g s (s :: st) (Some p) false AP A' A W) as (s1 & R1 & F1 & S1).
    destruct (pdf_strokes z g (set_styles g f) s1 (s :: st) (Some p) false AP S1 F1) as (s2 & R2 & (A1 & A2 & A3 & A4 & A5) & (B1 & B2 & B3 & B4)).
    change [if x_rule x then Bstar else B; Q_restore] with ([if x_rule x then Bstar else B] ++ [Q_restore]). rewrite !app_assoc.
    apply pdf_saved with (s' := s2); auto. unfold pdfrun in *. rewrite <- app_assoc, run_app, R1, run_app, R2.
    unfold filled, stroked. rewrite A1, A2, A3, A4, A5, B1, B2, B3, B4, (set_rule g f N), A6. destruct (x_rule x); reflexivity.
Qed.

Definition pdfitems := fix items (textregion : bool) (x : context) (l : list item) : list pdfop :=
    match l with
    | [] => if textregion then [ET] else []
    | i :: r => let x := region_context textregion i x in
                region_op textregion i ++ pdf x i ++ items (requiretextregion i) (after x i) r
    end.
Definition knownd (x : context) (s : pdfstate) : Prop := x_font x = None \/ d_font s = x_font x.

Definition pdf_good (it : item) : Prop := forall g x s st,
  agreesd g x s -> built it -> everywhere rule_free it = true -> (strict = true -> everywhere plain it = true) ->
  (if requiretextregion it then knownd x s else x_font x = None) ->
  exists s', pdfrun (pdf x it) (mkpdfm s st None (requiretextregion it)) = Some (mkpdfm s' st None (requiretextregion it), draw g it) /\
             samed s s' /\ knownd (after x it) s'.
Lemma pdf_items_good l : Forall pdf_good l -> forall tr g x s st, agreesd g x s -> fold_right (fun i P => built i /\ P) True l ->
  forallb (everywhere rule_free) l = true -> (strict = true -> forallb (everywhere plain) l = true) ->
  knownd x s -> (tr = false -> x_font x = None) ->
  exists s', pdfrun (pdfitems tr x l) (mkpdfm s st None tr) = Some (mkpdfm s' st None false, flat_map (draw g) l) /\ samed s s'.
Proof.
  induction 1 as [|i l Hi Hl IH]; intros tr g x s st A W N PL K T.
  { exists s. destruct tr; cbn; split; auto using samed_refl. }
  cbn in W, N. destruct W as [W1 W2]. apply andb_true_iff in N as [N1 N2].
  set (x1 := region_context tr i x).
  assert (pdfrun (region_op tr i) (mkpdfm s st None tr) = Some (mkpdfm s st None (requiretextregion i), [])) as R0.
  { unfold pdfrun, region_op. destruct (requiretextregion i), tr; cbn; auto. rewrite orb_true_r. reflexivity. }
  assert (x_rule x1 = x_rule x) as XR by (unfold x1, region_context; destruct (requiretextregion i), tr; auto).
  assert (agreesd g x1 s) as A0 by (apply agreesd_same with (x := x) (s := s); auto using samed_refl).
  destruct (Hi g x1 s st A0 W1 N1) as (s1 & R1 & S1 & K1).
  { intros Z0. specialize (PL Z0). cbn in PL. apply andb_true_iff in PL as [? ?]. auto. }
  { unfold x1, region_context. destruct (requiretextregion i); auto. destruct tr; auto. }
  assert (agreesd g (after x1 i) s1) as A1 by (apply agreesd_same with (x := x1) (s := s); auto; destruct i; reflexivity).
  destruct (IH (requiretextregion i) g (after x1 i) s1 st A1 W2 N2) as (s2 & R2 & S2); auto.
  { intros Z0. specialize (PL Z0). cbn in PL. apply andb_true_iff in PL as [? ?]. auto. }
  { intros Q. destruct i; try discriminate; cbn [after]; unfold x1, region_context; cbn; destruct tr; auto. }
  exists s2. split; [|eapply samed_trans; eauto].
  unfold pdfrun in *. cbn [pdfitems]. fold x1. rewrite run_app, R0, run_app, R1, R2. reflexivity.
Qed.

Lemma knownd_none x s : x_font x = None -> knownd x s.
Proof. left. auto. Qed.
Lemma pdf_all_good it : pdf_good it.
Proof.
  assert (allowed None) as AN by (right; reflexivity).
  induction it as [k f|p sp sty ss fs l Hl|c l Hl] using item_all.
  - intros g x s st A W N PL F. destruct A as (_ & (A1 & A2 & A3 & A4) & A6). cbn in F.
    cbn [pdf requiretextregion]. unfold font_known.
    assert (forall o r, pdfrun (Tf o :: r) (mkpdfm s st None true) = pdfrun r (mkpdfm (mkpdf (d_ctm s) (d_clips s) (d_scol s) (d_fcol s) (d_salpha s) (d_falpha s) (d_lines s) (Some o)) st None true)) as Sel.
    { intros. unfold pdfrun. cbn. rewrite orb_true_r. destruct (run (pdf_step strict) r _) as [[? ?]|]; auto. }
    destruct (x_font x) as [f'|] eqn:XF; [destruct (Z.eqb_spec f f') as [->|Ne]|].
    + exists s. assert (d_font s = Some f') as DF by (destruct F; congruence). split; [|split; [apply samed_refl|right; cbn; congruence]].
      cbn. now rewrite A1, A2, A3, A4, DF.
    + eexists. cbn [app]. rewrite Sel. split; [cbn; rewrite A1, A2, A3, A4; reflexivity|split; [repeat split|right; reflexivity]].
    + eexists. cbn [app]. rewrite Sel. split; [cbn; rewrite A1, A2, A3, A4; reflexivity|split; [repeat split|right; reflexivity]].
  - intros g x s st A W N PL F. cbn in W, N. destruct W as (W1 & W2 & W3). apply andb_true_iff in N as [N1 N2]. cbn in F.
    cbn [pdf requiretextregion]. change (fix items (tr : bool) (x0 : context) (l0 : list item) {struct l0} : list pdfop :=
      match l0 with [] => if tr then [ET] else [] | i :: r => region_op tr i ++ pdf (region_context tr i x0) i ++ items (requiretextregion i) (after (region_context tr i x0) i) r end) with pdfitems.
    set (x1 := styles_context x sty). set (g1 := set_styles g sty).
    assert (forall s0 st0, agreesd g1 x1 s0 ->
      exists s', pdfrun (pdf_paint x1 p sp ss fs ++ pdfitems false x1 l) (mkpdfm s0 st0 None false) = Some (mkpdfm s' st0 None false, draw g (Path p sp sty ss fs l)) /\ samed s0 s') as Body.
    { intros s0 st0 A0. assert (x_font x1 = None) as XN by (unfold x1; now rewrite styles_context_font).
      destruct (pdf_items_good l Hl false g1 x1 s0 st0 A0 W3 N2) as (s' & R' & S'); auto using knownd_none.
      { intros Z0. specialize (PL Z0). cbn in PL. apply andb_true_iff in PL as [? ?]. auto. }
      exists s'. split; auto. unfold pdfrun in *. rewrite run_app.
      pose proof (pdf_paint_run g1 x1 s0 st0 p sp sty l ss fs A0 N1 W2) as R. unfold pdfrun in R. rewrite R.
      - rewrite R'. cbn [draw]. fold g1. now rewrite <- app_assoc.
      - intros Z0. specialize (PL Z0). cbn [everywhere] in PL. apply andb_true_iff in PL as [? ?]. auto. }
    destruct (is_nil sty) eqn:Z0.
    + destruct (Body s st) as (s' & R & S'); [apply is_nil_true in Z0; subst sty; exact A|].
      exists s'. split; [exact R|]. split; [exact S'|]. apply knownd_none. exact F.
    + destruct (pdf_both sty g x s (s :: st) None false AN A) as (s1 & R1 & A1 & E1).
      destruct (Body s1 (s :: st) A1) as (s' & R & S').
      exists s. split; [|split; [apply samed_refl|apply knownd_none; exact F]].
      rewrite app_assoc. apply pdf_saved with (s' := s'); auto. unfold pdfrun in *. rewrite run_app, R1, R. reflexivity.
  - intros g x s st A W N PL F. cbn in W. destruct W as [[a W1] W2]. cbn in F.
    assert (forallb (everywhere rule_free) l = true) as N2 by exact N. clear N.
    assert (strict = true -> forallb (everywhere plain) l = true) as PL2 by exact PL. clear PL.
    cbn [pdf requiretextregion]. change (fix items (tr : bool) (x0 : context) (l0 : list item) {struct l0} : list pdfop :=
      match l0 with [] => if tr then [ET] else [] | i :: r => region_op tr i ++ pdf (region_context tr i x0) i ++ items (requiretextregion i) (after (region_context tr i x0) i) r end) with pdfitems.
    destruct (is_nil l) eqn:NL.
    { apply is_nil_true in NL. subst l. exists s. split; [reflexivity|]. split; [apply samed_refl|apply knownd_none; exact F]. }
    destruct (c_modifies c) eqn:M.
    2: { assert (inner g c = g) as IG.
         { unfold new_canvas in W1. destruct (fold_left place (rev a) (Some (None, None))) as [[c' t']|] eqn:Fo; [|discriminate].
           destruct a as [|a0 ar]; [|injection W1 as <-; discriminate]. cbn in Fo. injection Fo as <- <-. injection W1 as <-. reflexivity. }
         destruct (pdf_items_good l Hl false g x s st A W2 N2) as (s' & R & S'); auto using knownd_none.
         exists s'. cbn [draw]. rewrite IG. split; [exact R|]. split; [exact S'|apply knownd_none; exact F]. }
    destruct (pdf_both (c_styles c) g x s (s :: st) None false AN A) as (s1 & R1 & A1 & E1).
    set (x1 := styles_context x (c_styles c)) in *. set (g1 := set_styles g (c_styles c)) in *.
    assert (exists s2, pdfrun (pdf_clip (c_clip c) ++ pdf_trafo (c_trafo c)) (mkpdfm s1 (s :: st) None false) = Some (mkpdfm s2 (s :: st) None false, []) /\
            agreesd (inner g c) x1 s2) as (s2 & R2 & A2).
    { unfold inner. fold g1. destruct A1 as ((B1 & B2 & B3 & B4 & B5) & (B6 & B7 & B8 & B9) & B10).
      destruct (c_clip c) as [q|], (c_trafo c) as [t|]; eexists; (split; [unfold pdfrun; cbn; rewrite ?orb_true_r; reflexivity|]); repeat split; cbn; congruence. }
    destruct (pdf_items_good l Hl false (inner g c) x1 s2 (s :: st) A2 W2 N2) as (s' & R & S'); auto.
    { apply knownd_none. unfold x1. now rewrite styles_context_font. }
    { intros _. unfold x1. now rewrite styles_context_font. }
    exists s. split; [|split; [apply samed_refl|apply knownd_none; exact F]].
    rewrite !app_assoc. apply pdf_saved with (s' := s'); auto. unfold pdfrun in *. rewrite <- !app_assoc, run_app, R1.
    rewrite app_assoc, run_app, R2. rewrite R. reflexivity.
Qed.
End Strict.
