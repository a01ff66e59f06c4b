(** C58: the path operators written to PostScript, PDF and SVG describe the same curve. *)
From Coq Require Import Reals Bool List Lra.
From Verif Require Import CurveModel PathModel PathSpec.
Import ListNotations.
Open Scope R_scope.

Local Notation pt := (R * R)%type.

(** * Items of several points as several items *)

Definition expand (i : pathitem) : list pathitem :=
  match i with
  | Multilineto l => map Lineto l
  | Multicurveto l => map (fun '(p1, p2, p3) => Curveto p1 p2 p3) l
  | _ => [i]
  end.
Definition single (i : pathitem) : bool :=
  straight i && match i with Multilineto _ | Multicurveto _ => false | _ => true end.

Lemma expand_single l : forallb straight l = true -> forallb single (flat_map expand l) = true.
Proof.
  intros H. apply forallb_forall. intros x Hx. apply in_flat_map in Hx as [i [Hi Hx]].
  pose proof (proj1 (forallb_forall _ _) H i Hi) as S.
  destruct i; cbn in Hx, S; try discriminate; try (destruct Hx as [<-|[]]; reflexivity).
  - apply in_map_iff in Hx as [p [<- _]]. reflexivity.
  - apply in_map_iff in Hx as [[[? ?] ?] [<- _]]. reflexivity.
Qed.

Lemma expand_ps l : outputPS (flat_map expand l) = outputPS l.
Proof.
  unfold outputPS. induction l as [|i l IH]; [reflexivity|]. cbn [flat_map]. rewrite flat_map_app, IH. f_equal.
  destruct i; cbn [expand flat_map item_outputPS]; rewrite ?app_nil_r; try reflexivity.
  - induction l0; cbn; congruence.
  - induction l0 as [|[[? ?] ?] l0 IHl]; cbn; congruence.
Qed.

Lemma pdf_updates_app nc l1 l2 :
  pdf_updates nc (l1 ++ l2) = match pdf_updates nc l1 with Some nc' => pdf_updates nc' l2 | None => None end.
Proof. revert nc. induction l1 as [|i l1 IH]; intros nc; [reflexivity|]. cbn. destruct (pdf_update nc i); [apply IH|reflexivity]. Qed.

Lemma pdf_multiline l : forall np c, pdf_updates (np, c) (map Lineto l) = pdf_update (np, c) (Multilineto l).
Proof.
  induction l as [|p l IH]; intros np c; [cbn; now destruct c|].
  cbn [map pdf_updates]. cbn [pdf_update pdf_update_simple]. rewrite IH. reflexivity.
Qed.
Lemma pdf_multicurve l : forall np c,
  pdf_updates (np, c) (map (fun '(p1, p2, p3) => Curveto p1 p2 p3) l) = pdf_update (np, c) (Multicurveto l).
Proof.
  induction l as [|[[p1 p2] p3] l IH]; intros np c; [cbn; now destruct c|].
  cbn [map pdf_updates]. cbn [pdf_update pdf_update_simple]. rewrite IH. reflexivity.
Qed.
Lemma expand_pdf l : forall nc, pdf_updates nc (flat_map expand l) = pdf_updates nc l.
Proof.
  induction l as [|i l IH]; intros [np c]; [reflexivity|]. cbn [flat_map]. rewrite pdf_updates_app.
  transitivity (match pdf_update (np, c) i with Some nc' => pdf_updates nc' l | None => None end); [|reflexivity].
  replace (pdf_updates (np, c) (expand i)) with (pdf_update (np, c) i).
  - destruct (pdf_update (np, c) i); [apply IH|reflexivity].
  - destruct i; cbn [expand]; try (cbn [pdf_updates]; now destruct (pdf_update _ _)).
    + symmetry. apply pdf_multiline.
    + symmetry. apply pdf_multicurve.
Qed.

Lemma calm_lines l : forall prev rest, l <> [] -> prev <> Closes -> calm prev (map Lineto l ++ rest) = calm Draws rest.
Proof.
  induction l as [|p l IH]; intros prev rest H P; [congruence|]. cbn. destruct prev; try congruence;
    (destruct l; [reflexivity|now apply IH]).
Qed.
Lemma calm_curves l : forall prev rest, l <> [] -> prev <> Closes ->
  calm prev (map (fun '(p1, p2, p3) => Curveto p1 p2 p3) l ++ rest) = calm Draws rest.
Proof.
  induction l as [|[[p1 p2] p3] l IH]; intros prev rest H P; [congruence|]. cbn. destruct prev; try congruence;
    (destruct l; [reflexivity|now apply IH]).
Qed.
Lemma expand_calm l : forall prev, calm prev (flat_map expand l) = calm prev l.
Proof.
  induction l as [|i l IH]; intros prev; [reflexivity|]. cbn [flat_map].
  destruct i; try (cbn; rewrite ?IH; destruct prev; now rewrite ?IH).
  - cbn [expand]. destruct l0 as [|p l0]; [apply IH|]. destruct prev; try reflexivity;
      (rewrite calm_lines by congruence; apply IH).
  - cbn [expand]. destruct l0 as [|p l0]; [apply IH|]. destruct prev; try (destruct p as [[? ?] ?]; reflexivity);
      (rewrite calm_curves by congruence; apply IH).
Qed.

(** * PDF *)

(** the items drawing pieces from a point *)
Fixpoint chain (p : pt) (l : list seg) : list pdfitem :=
  match l with
  | [] => []
  | SegLine q :: l' => PdfItem (Line p q) :: chain q l'
  | SegCurve p1 p2 p3 :: l' => PdfItem (Curve p p1 p2 p3) :: chain p3 l'
  end.
Definition seg_item (p : pt) (s : seg) : item :=
  match s with SegLine q => Line p q | SegCurve p1 p2 p3 => Curve p p1 p2 p3 end.
Definition endpoint (p : pt) (l : list seg) : pt := last (map seg_end l) p.

Lemma last_cons {A} (a d : A) l : last (a :: l) d = last l a.
Proof. revert a d. induction l as [|b l IH]; intros a d; [reflexivity|]. change (last (b :: l) d = last (b :: l) a). now rewrite !IH. Qed.
Lemma endpoint_cons p s l : endpoint p (s :: l) = endpoint (seg_end s) l.
Proof. apply last_cons. Qed.
Lemma endpoint_snoc p l s : endpoint p (l ++ [s]) = seg_end s.
Proof. unfold endpoint. rewrite map_app. cbn. apply last_last. Qed.
Lemma chain_snoc l : forall p s, chain p (l ++ [s]) = chain p l ++ [PdfItem (seg_item (endpoint p l) s)].
Proof.
  induction l as [|t l IH]; intros p s; [destruct s; reflexivity|]. rewrite endpoint_cons.
  destruct t; cbn [chain app seg_end]; now rewrite IH.
Qed.
Lemma chain_begin p l i rest : chain p l = i :: rest -> pdf_begin i = p.
Proof. destruct l as [|[q|p1 p2 p3] l]; cbn; try discriminate; intros H; injection H as <- _; reflexivity. Qed.
Lemma chain_end l : forall p d, pdf_end (last (chain p l) (PdfMoveto d)) = match l with [] => d | _ => endpoint p l end.
Proof.
  intros p d. destruct l as [|t l] using rev_ind; [reflexivity|]. rewrite chain_snoc, last_last, endpoint_snoc.
  destruct t; destruct l; reflexivity.
Qed.

Definition closing (d : drawn) : list pdfitem :=
  if shut d then [PdfItem (Line (endpoint (start d) (segs d)) (start d))] else [].
Definition sub_draws (s : pdfsub) (d : drawn) : Prop :=
  exists pre, (pre = [] \/ pre = [PdfMoveto (start d)]) /\
    pdfitems s = pre ++ chain (start d) (segs d) ++ closing d /\
    pdfclosed s = shut d /\ (shut d = true -> pre ++ chain (start d) (segs d) <> []).

Lemma obey_chain l : forall f p l0 q,
  obey_all (mkgstate f (Drawing p l0)) (flat_map item_outputPDF (chain q l)) = Some (mkgstate f (Drawing p (l0 ++ l))).
Proof.
  induction l as [|[r|p1 p2 p3] l IH]; intros f p l0 q; cbn; [now rewrite app_nil_r|..]; rewrite IH, <- app_assoc; reflexivity.
Qed.
Lemma obey_app l1 : forall g l2, obey_all g (l1 ++ l2) = match obey_all g l1 with Some g' => obey_all g' l2 | None => None end.
Proof. induction l1 as [|o l1 IH]; intros g l2; [reflexivity|]. cbn. destruct (obey g o); [apply IH|reflexivity]. Qed.

Lemma begin_of pre p l c : (pre = [] \/ pre = [PdfMoveto p]) -> pre ++ chain p l <> [] ->
  exists first rest, pre ++ chain p l ++ c = first :: rest /\ pdf_begin first = p.
Proof.
  intros [-> | ->] H.
  - cbn in *. destruct (chain p l) as [|i r] eqn:E; [congruence|]. exists i, (r ++ c). split; [reflexivity|]. eapply chain_begin; eauto.
  - exists (PdfMoveto p), (chain p l ++ c). split; reflexivity.
Qed.
Lemma written_pre pre p : (pre = [] \/ pre = [PdfMoveto p]) -> flat_map item_outputPDF pre = [].
Proof. intros [-> | ->]; reflexivity. Qed.

Lemma sub_obeyed s d g : sub_draws s d ->
  exists g', obey_all g (sub_outputPDF s) = Some g' /\ filter visible (ended g') = filter visible (ended g) ++ filter visible [d].
Proof.
  intros [pre [Hp [Hi [Hc Hn]]]]. destruct d as [p l sh]. cbn [start segs shut] in *. unfold sub_outputPDF. rewrite Hc.
  unfold closing in Hi. cbn [start segs shut] in Hi. destruct sh.
  - destruct (begin_of pre p l [PdfItem (Line (endpoint p l) p)] Hp (Hn eq_refl)) as [first [rest [E B]]].
    rewrite Hi, E, <- E. rewrite !app_assoc, last_last, removelast_last. cbn [is_line andb]. rewrite B.
    rewrite flat_map_app, (written_pre _ _ Hp). cbn [app]. exists (mkgstate (ended g ++ [mkdrawn p l true]) (At p)). split.
    + cbn [obey_all obey move]. rewrite obey_app. unfold move. rewrite obey_chain. reflexivity.
    + unfold ended at 1. cbn [finished now]. rewrite app_nil_r, filter_app. reflexivity.
  - rewrite app_nil_r in Hi. destruct (pdfitems s) as [|first rest] eqn:E.
    + exists g. split; [reflexivity|]. symmetry in Hi. apply app_eq_nil in Hi as [_ Hl].
      destruct l as [|[?|? ? ?] ?]; cbn in Hl; try discriminate. cbn. now rewrite app_nil_r.
    + cbn [andb]. assert (Hne : pre ++ chain p l <> []) by (rewrite <- Hi; discriminate).
      destruct (begin_of pre p l [] Hp Hne) as [first' [rest' [E' B]]]. rewrite app_nil_r, <- Hi in E'.
      injection E' as <- <-. rewrite B, Hi, flat_map_app, (written_pre _ _ Hp), app_nil_r. cbn [app].
      exists (mkgstate (ended g) (Drawing p l)). split.
      * cbn [obey_all obey]. unfold move. rewrite obey_chain. reflexivity.
      * unfold ended at 1. cbn [finished now]. now rewrite filter_app.
Qed.
Lemma subs_obeyed ss ds : Forall2 sub_draws ss ds -> forall g,
  exists g', obey_all g (flat_map sub_outputPDF ss) = Some g' /\ filter visible (ended g') = filter visible (ended g) ++ filter visible ds.
Proof.
  induction 1 as [|s d ss ds Hs _ IH]; intros g; [exists g; cbn; now rewrite app_nil_r|].
  destruct (sub_obeyed s d g Hs) as [g1 [O1 F1]]. destruct (IH g1) as [g2 [O2 F2]]. exists g2. split.
  - cbn [flat_map]. now rewrite obey_app, O1.
  - rewrite F2, F1, <- app_assoc, <- filter_app. reflexivity.
Qed.

(** the state of the conversion and that of a PostScript interpreter *)
Definition agree (prev : kind) (np : pdfpath) (c : context) (g : gstate) : Prop :=
  exists ds d, Forall2 sub_draws (before np) ds /\ sub_draws (lastsub np) d /\
    current c = endpoint (start d) (if shut d then [] else segs d) /\ subfirst c = start d /\
    match prev with
    | Closes => shut d = true /\ g = mkgstate (ds ++ [d]) (At (start d))
    | _ => shut d = false /\ g = mkgstate ds (Drawing (start d) (segs d)) /\ (prev = Draws -> pdfitems (lastsub np) <> [])
    end.

Lemma agree_ended prev np c g : agree prev np c g -> exists ds, Forall2 sub_draws (pdf_subs np) ds /\ ended g = ds.
Proof.
  intros [ds [d [F [S [_ [_ H]]]]]]. exists (ds ++ [d]). split.
  - apply Forall2_app; [assumption|]. constructor; [assumption|constructor].
  - destruct d as [p l sh]. cbn [start segs shut] in H.
    destruct prev; [..|destruct H as [-> [-> _]]]; try (destruct H as [-> [-> _]]; reflexivity); [|reflexivity].
    destruct H as [-> ->]. unfold ended. cbn. now rewrite app_nil_r.
Qed.
Lemma agree_point prev np c g : agree prev np c g -> point_of (now g) = Some (current c).
Proof.
  intros [ds [d [_ [_ [C [_ H]]]]]]. rewrite C. destruct prev; try (destruct H as [-> [-> _]]; reflexivity).
  destruct H as [-> ->]. reflexivity.
Qed.

Lemma agree_move prev np c g p : agree prev np c g -> agree Moves (new_sub np (mkpdfsub [] false)) (mkcontext p p) (move g p).
Proof.
  intros H. destruct (agree_ended _ _ _ _ H) as [ds [F E]]. exists ds, (mkdrawn p [] false).
  unfold new_sub, move. cbn [before lastsub current subfirst start segs shut]. rewrite E. repeat split.
  - assumption.
  - exists []. repeat split; cbn; auto; discriminate.
  - discriminate.
Qed.
Lemma agree_add prev np c g s : agree prev np c g -> prev <> Closes ->
  exists g', add_seg g s = Some g' /\
    agree Draws (on_last (fun x => pdf_append x (seg_item (current c) s)) np) (mkcontext (seg_end s) (subfirst c)) g'.
Proof.
  intros [ds [d [F [S [C [Sf H]]]]]] P.
  assert (A : shut d = false /\ g = mkgstate ds (Drawing (start d) (segs d))) by (destruct prev; try congruence; tauto).
  clear H. destruct A as [A ->]. rewrite A in C. eexists. split; [reflexivity|].
  destruct d as [p l sh]. cbn [start segs shut] in *. subst sh. exists ds, (mkdrawn p (l ++ [s]) false).
  cbn [on_last before lastsub start segs shut current subfirst].
  split; [assumption|]. split; [|split; [now rewrite endpoint_snoc|split; [assumption|split; [reflexivity|split; [reflexivity|]]]]].
  - destruct S as [pre [Hp [Hi [Hc _]]]]. exists pre. cbn [start segs shut pdf_append pdfitems pdfclosed] in *. split; [assumption|].
    split; [|split; [assumption|discriminate]]. rewrite Hi. cbn [closing start segs shut]. unfold closing. cbn [shut]. rewrite !app_nil_r, chain_snoc, <- app_assoc, C. reflexivity.
  - intros _. cbn. intros E. now apply app_eq_nil in E as [_ E].
Qed.
Lemma agree_close np c g : agree Draws np c g ->
  exists g' s, obey g Oclose = Some g' /\ pdf_close (lastsub np) = Some s /\
    agree Closes (mkpdfpath (before np) s) (mkcontext (subfirst c) (subfirst c)) g'.
Proof.
  intros [ds [d [F [S [C [Sf [Sh [-> N]]]]]]]]. specialize (N eq_refl).
  destruct d as [p l sh]. cbn [start segs shut] in *. subst sh. destruct S as [pre [Hp [Hi [Hc _]]]].
  cbn [start segs shut] in *. unfold closing in Hi. cbn [shut] in Hi. rewrite app_nil_r in Hi.
  assert (Hne : pre ++ chain p l <> []) by (now rewrite <- Hi).
  destruct (begin_of pre p l [] Hp Hne) as [first [rest [E B]]]. rewrite app_nil_r, <- Hi in E.
  assert (L : pdf_end (last (pdfitems (lastsub np)) first) = endpoint p l).
  { rewrite Hi. destruct l as [|t l] using rev_ind.
    - cbn [chain] in *. rewrite app_nil_r in *. destruct Hp as [-> | ->]; [congruence|]. reflexivity.
    - rewrite chain_snoc, app_assoc, last_last, endpoint_snoc. destruct t; reflexivity. }
  exists (mkgstate (ds ++ [mkdrawn p l true]) (At p)), (mkpdfsub (pdfitems (lastsub np) ++ [PdfItem (Line (endpoint p l) p)]) true).
  split; [reflexivity|]. split.
  - unfold pdf_close. rewrite Hc. rewrite E at 1. rewrite L, B. reflexivity.
  - exists ds, (mkdrawn p l true). cbn [before lastsub start segs shut current subfirst]. repeat split; auto.
    exists pre. cbn [start segs shut pdfitems pdfclosed]. unfold closing. cbn [start segs shut]. repeat split; auto. now rewrite Hi, <- app_assoc.
Qed.

Lemma agree_step prev np c g i rest : single i = true -> calm prev (i :: rest) = true -> agree prev np c g ->
  exists np' c' g' o, pdf_update (np, c) i = Some (np', c') /\ item_outputPS i = [o] /\ obey g o = Some g' /\
    agree (kind_of i) np' c' g' /\ calm (kind_of i) rest = true.
Proof.
  intros S K A. pose proof (agree_point _ _ _ _ A) as P.
  destruct i; try discriminate; cbn [kind_of calm] in K |- *.
  - destruct prev; try discriminate. destruct (agree_close _ _ _ A) as [g' [s [O [C A']]]].
    exists (mkpdfpath (before np) s), (mkcontext (subfirst c) (subfirst c)), g', Oclose.
    split; [cbn [pdf_update pdf_update_simple]; now rewrite C|]. split; [reflexivity|]. split; [exact O|]. split; [exact A'|exact K].
  - eexists _, _, (move g p), (Omove p). repeat split; [|exact K]. apply (agree_move _ _ _ _ _ A).
  - assert (N : prev <> Closes) by (destruct prev; congruence). destruct (agree_add _ _ _ _ (SegLine p) A N) as [g' [G A']].
    eexists _, _, g', (Oline p). repeat split; [exact G|exact A'|destruct prev; congruence].
  - assert (N : prev <> Closes) by (destruct prev; congruence). destruct (agree_add _ _ _ _ (SegCurve p1 p2 p3) A N) as [g' [G A']].
    eexists _, _, g', (Ocurve p1 p2 p3). repeat split; [exact G|exact A'|destruct prev; congruence].
  - eexists _, _, (move g (plus_pt (current c) d)), (Ormove d). repeat split; [|apply (agree_move _ _ _ _ _ A)|exact K].
    cbn [obey]. unfold relative. now rewrite P.
  - assert (N : prev <> Closes) by (destruct prev; congruence).
    destruct (agree_add _ _ _ _ (SegLine (plus_pt (current c) d)) A N) as [g' [G A']].
    eexists _, _, g', (Orline d). repeat split; [|exact A'|destruct prev; congruence]. cbn [obey]. unfold relative. rewrite P. exact G.
  - assert (N : prev <> Closes) by (destruct prev; congruence).
    destruct (agree_add _ _ _ _ (SegCurve (plus_pt (current c) d1) (plus_pt (current c) d2) (plus_pt (current c) d3)) A N) as [g' [G A']].
    eexists _, _, g', (Orcurve d1 d2 d3). repeat split; [|exact A'|destruct prev; congruence]. cbn [obey]. unfold relative. rewrite P. exact G.
Qed.

Lemma agree_all l : forall prev np c g, forallb single l = true -> calm prev l = true -> agree prev np c g ->
  exists np' c' g' prev', pdf_updates (np, c) l = Some (np', c') /\ obey_all g (outputPS l) = Some g' /\ agree prev' np' c' g'.
Proof.
  induction l as [|i l IH]; intros prev np c g S K A; [exists np, c, g, prev; auto|].
  cbn [forallb] in S. apply andb_prop in S as [Si Sl].
  destruct (agree_step prev np c g i l Si K A) as [np1 [c1 [g1 [o [U [O [G [A1 K1]]]]]]]].
  destruct (IH _ np1 c1 g1 Sl K1 A1) as [np2 [c2 [g2 [prev' [U2 [G2 A2]]]]]].
  exists np2, c2, g2, prev'. split; [|split; [|exact A2]].
  - cbn [pdf_updates]. now rewrite U.
  - unfold outputPS in *. cbn [flat_map]. rewrite O. cbn [app obey_all]. now rewrite G.
Qed.

(** The operators written to PDF draw the same as those written to PostScript, for every
    path starting with moveto in which every closepath but that of the first subpath is
    preceded by an item drawing something, and is followed by a move or nothing. *)
Theorem pdf_same_as_ps : forall p l, forallb straight l = true -> calm Draws l = true ->
  exists ops d, outputPDF (Moveto p :: l) = Some ops /\ interpret ops = Some d /\ interpret (outputPS (Moveto p :: l)) = Some d.
Proof.
  intros p l S K.
  assert (A0 : agree Draws (mkpdfpath [] (mkpdfsub [PdfMoveto p] false)) (mkcontext p p) (mkgstate [] (Drawing p []))).
  { exists [], (mkdrawn p [] false). cbn. repeat split; auto; try discriminate. exists [PdfMoveto p]. cbn. repeat split; auto. discriminate. }
  assert (K' : calm Draws (flat_map expand l) = true) by now rewrite expand_calm.
  destruct (agree_all _ _ _ _ _ (expand_single _ S) K' A0) as [np [c [g [prev [U [G A]]]]]].
  rewrite expand_pdf in U. rewrite expand_ps in G.
  destruct (agree_ended _ _ _ _ A) as [ds [F E]]. destruct (subs_obeyed _ _ F (mkgstate [] NoPoint)) as [g' [O Fl]].
  exists (flat_map sub_outputPDF (pdf_subs np)), (filter visible ds). split; [|split].
  - unfold outputPDF, pdf_normpath. cbn [pdf_create createcontext]. rewrite U. reflexivity.
  - unfold interpret. rewrite O, Fl. reflexivity.
  - unfold interpret, outputPS. cbn [flat_map item_outputPS app obey_all obey]. fold (outputPS l).
    change (move (mkgstate [] NoPoint) p) with (mkgstate [] (Drawing p [])). rewrite G, E. reflexivity.
Qed.

(** Two subpaths, the first of them closed, with relative and absolute items. *)
Example pdf_same_ex :
  let l := [Rlineto (10, 0); Lineto (10, 10); Closepath; Rmoveto (20, 0); Curveto (20, 5) (25, 5) (30, 0); Multilineto [(30, 10); (20, 10)]; Closepath] in
  forallb straight l = true /\ calm Draws l = true /\
  option_map (@List.length op) (outputPDF (Moveto (0, 0) :: l)) = Some 9%nat.
Proof. repeat split. Qed.

(** A line after closepath: PostScript draws a line from the start of the closed subpath;
    the PDF file has the closed subpath only. *)
Theorem pdf_after_close_refuted : exists l ops d e,
  forallb straight l = true /\ outputPDF (Moveto (0, 0) :: l) = Some ops /\ interpret ops = Some d /\
  interpret (outputPS (Moveto (0, 0) :: l)) = Some e /\ e <> d /\ List.length e = 2%nat /\ List.length d = 1%nat.
Proof.
  exists [Lineto (10, 0); Lineto (10, 10); Closepath; Lineto (0, 50)]. eexists _, _, _.
  split; [reflexivity|]. split; [reflexivity|]. split; [reflexivity|]. split; [reflexivity|].
  split; [|split; reflexivity]. intros E. apply (f_equal (@List.length drawn)) in E. discriminate E.
Qed.

(** Closing a subpath twice, or one that has not been drawn, raises an exception in the PDF
    output; the PostScript output is fine. *)
Theorem pdf_close_refuted : exists l1 l2 d1 d2,
  outputPDF l1 = None /\ interpret (outputPS l1) = Some d1 /\
  outputPDF l2 = None /\ interpret (outputPS l2) = Some d2.
Proof.
  exists [Moveto (0, 0); Lineto (10, 0); Closepath; Closepath], [Moveto (0, 0); Lineto (10, 0); Moveto (5, 5); Closepath].
  eexists _, _. repeat split.
Qed.

(** * SVG *)

Lemma expand_svg inv l : forall c, svg_items inv false c (flat_map expand l) = svg_items inv false c l.
Proof.
  assert (AP : forall l1 l2 c1, svg_items inv false c1 (l1 ++ l2) =
    match l1 with [] => svg_items inv false c1 l2 | i :: l1' =>
      match item_svg inv false c1 i with Some (o, c2) => option_map (app o) (svg_items inv false c2 (l1' ++ l2)) | None => None end end).
  { intros [|i l1] l2 c1; reflexivity. }
  induction l as [|i l IH]; intros c; [reflexivity|].
  destruct i; try (cbn [flat_map expand app svg_items]; destruct (item_svg _ _ _ _) as [[? ?]|]; [now rewrite IH|reflexivity]).
  - cbn [flat_map expand]. cbn [svg_items item_svg item_svg_simple].
    rewrite <- (rev_involutive l0). generalize (rev l0). clear l0. intros l0. rewrite rev_involutive.
    assert (G : forall m c1, svg_items inv false c1 (map Lineto m ++ flat_map expand l) =
      option_map (app (map (fun p => Oline (flip inv p)) m))
        (svg_items inv false (match rev m with [] => c1 | p :: _ => mkcontext p (subfirst c1) end) l)).
    { induction m as [|p m IHm]; intros c1; cbn [map app].
      - rewrite IH. cbn [rev]. now destruct (svg_items inv false c1 l).
      - cbn [svg_items item_svg item_svg_simple]. rewrite IHm. cbn [rev].
        replace (match rev m ++ [p] with [] => c1 | p0 :: _ => mkcontext p0 (subfirst c1) end)
          with (match rev m with [] => mkcontext p (subfirst c1) | p0 :: _ => mkcontext p0 (subfirst (mkcontext p (subfirst c1))) end)
          by (destruct (rev m); reflexivity).
        destruct (svg_items _ _ _ l); reflexivity. }
    rewrite G, rev_involutive. reflexivity.
  - cbn [flat_map expand]. cbn [svg_items item_svg item_svg_simple].
    assert (G : forall m c1, svg_items inv false c1 (map (fun '(p1, p2, p3) => Curveto p1 p2 p3) m ++ flat_map expand l) =
      option_map (app (map (fun '(p1, p2, p3) => Ocurve (flip inv p1) (flip inv p2) (flip inv p3)) m))
        (svg_items inv false (match rev m with [] => c1 | (_, _, p) :: _ => mkcontext p (subfirst c1) end) l)).
    { induction m as [|[[p1 p2] p3] m IHm]; intros c1; cbn [map app].
      - rewrite IH. cbn [rev]. now destruct (svg_items inv false c1 l).
      - cbn [svg_items item_svg item_svg_simple]. rewrite IHm. cbn [rev].
        replace (match rev m ++ [(p1, p2, p3)] with [] => c1 | (_, _, p0) :: _ => mkcontext p0 (subfirst c1) end)
          with (match rev m with [] => mkcontext p3 (subfirst c1) | (_, _, p0) :: _ => mkcontext p0 (subfirst (mkcontext p3 (subfirst c1))) end)
          by (destruct (rev m) as [|[[? ?] ?] ?]; reflexivity).
        destruct (svg_items _ _ _ l); reflexivity. }
    apply G.
Qed.

Definition flip_seg (inv : bool) (s : seg) : seg := if inv then mirror_seg s else s.
Definition flip_drawn (inv : bool) (d : drawn) : drawn := if inv then mirror d else d.
Definition flip_pen (inv : bool) (n : pen) : pen :=
  match n with NoPoint => NoPoint | At p => At (flip inv p) | Drawing p l => Drawing (flip inv p) (map (flip_seg inv) l) end.
Definition flip_state (inv : bool) (g : gstate) : gstate := mkgstate (map (flip_drawn inv) (finished g)) (flip_pen inv (now g)).

Lemma flip_drawn_eq inv p l sh : flip_drawn inv (mkdrawn p l sh) = mkdrawn (flip inv p) (map (flip_seg inv) l) sh.
Proof. destruct inv; [reflexivity|]. cbn. now rewrite map_id. Qed.
Lemma flip_seg_end inv s : seg_end (flip_seg inv s) = flip inv (seg_end s).
Proof. destruct inv; [|reflexivity]. destruct s; reflexivity. Qed.
Lemma flip_point inv n : point_of (flip_pen inv n) = option_map (flip inv) (point_of n).
Proof.
  destruct n as [|p|p l]; try reflexivity. cbn. f_equal. rewrite map_map.
  induction l as [|s l IH] using rev_ind; [reflexivity|]. rewrite !map_app. cbn. now rewrite !last_last, flip_seg_end.
Qed.
Lemma flip_ended inv g : ended (flip_state inv g) = map (flip_drawn inv) (ended g).
Proof.
  unfold ended, flip_state. rewrite map_app. cbn. f_equal. destruct (now g); try reflexivity. cbn [flip_pen map]. now rewrite flip_drawn_eq.
Qed.
Lemma flip_plus inv p d : (fst (flip inv p) + fst (flip inv d), snd (flip inv p) + snd (flip inv d)) = flip inv (fst p + fst d, snd p + snd d).
Proof. destruct inv; [|reflexivity]. cbn. f_equal. lra. Qed.
Lemma flip_move inv g p : move (flip_state inv g) (flip inv p) = flip_state inv (move g p).
Proof. unfold move. rewrite flip_ended. reflexivity. Qed.
Lemma flip_add inv g s : add_seg (flip_state inv g) (flip_seg inv s) = option_map (flip_state inv) (add_seg g s).
Proof. unfold add_seg. cbn. destruct (now g); try reflexivity. cbn. unfold flip_state. cbn. now rewrite map_app. Qed.
Lemma flip_line inv p : SegLine (flip inv p) = flip_seg inv (SegLine p). Proof. destruct inv; reflexivity. Qed.
Lemma flip_curve inv p1 p2 p3 : SegCurve (flip inv p1) (flip inv p2) (flip inv p3) = flip_seg inv (SegCurve p1 p2 p3).
Proof. destruct inv; reflexivity. Qed.

Lemma svg_step inv c i g : single i = true ->
  exists o c', item_svg inv false c i = Some ([o], c') /\
    exists o', item_outputPS i = [o'] /\ obey (flip_state inv g) o = option_map (flip_state inv) (obey g o').
Proof.
  intros S. destruct i; try discriminate; eexists _, _; (split; [reflexivity|]); (eexists; split; [reflexivity|]); cbn [obey].
  - cbn [flip_state now]. destruct (now g); try reflexivity. cbn. unfold flip_state. cbn. rewrite map_app. cbn [map]. now rewrite flip_drawn_eq.
  - cbn. now rewrite flip_move.
  - rewrite flip_line. apply flip_add.
  - rewrite flip_curve. apply flip_add.
  - unfold relative. cbn [flip_state now]. rewrite flip_point. destruct (point_of (now g)) as [q|]; [|reflexivity].
    cbn [option_map]. rewrite flip_plus. fold (flip_state inv g). now rewrite flip_move.
  - unfold relative. cbn [flip_state now]. rewrite flip_point. destruct (point_of (now g)) as [q|]; [|reflexivity].
    cbn [option_map]. rewrite flip_plus, flip_line. apply flip_add.
  - unfold relative. cbn [flip_state now]. rewrite flip_point. destruct (point_of (now g)) as [q|]; [|reflexivity].
    cbn [option_map]. rewrite !flip_plus, flip_curve. apply flip_add.
Qed.
Lemma svg_all inv l : forall c g, forallb single l = true ->
  exists ops, svg_items inv false c l = Some ops /\
    obey_all (flip_state inv g) ops = option_map (flip_state inv) (obey_all g (outputPS l)).
Proof.
  induction l as [|i l IH]; intros c g S; [exists []; split; reflexivity|].
  cbn [forallb] in S. apply andb_prop in S as [Si Sl]. destruct (svg_step inv c i g Si) as [o [c' [I [o' [O E]]]]].
  unfold outputPS. cbn [flat_map svg_items]. rewrite I, O. cbn [app obey_all].
  destruct (obey g o') as [g'|] eqn:G.
  - destruct (IH c' g' Sl) as [ops [I2 E2]]. exists (o :: ops). rewrite I2. split; [reflexivity|]. cbn. now rewrite E.
  - destruct (IH c' g Sl) as [ops [I2 _]]. exists (o :: ops). rewrite I2. split; [reflexivity|]. cbn. now rewrite E.
Qed.
Lemma visible_flip1 inv d : visible (flip_drawn inv d) = visible d.
Proof. destruct d as [p s sh]. rewrite flip_drawn_eq. unfold visible. cbn. destruct s; reflexivity. Qed.
Lemma visible_flip inv l : filter visible (map (flip_drawn inv) l) = map (flip_drawn inv) (filter visible l).
Proof.
  induction l as [|d l IH]; [reflexivity|]. cbn [map filter]. rewrite visible_flip1, IH. now destruct (visible d).
Qed.
Lemma straight_obeyed l : forall g, forallb single l = true -> point_of (now g) <> None ->
  exists g', obey_all g (outputPS l) = Some g'.
Proof.
  induction l as [|i l IH]; intros g S P; [now exists g|]. cbn [forallb] in S. apply andb_prop in S as [Si Sl].
  assert (H : exists o g', item_outputPS i = [o] /\ obey g o = Some g' /\ point_of (now g') <> None).
  { destruct g as [f n]. cbn [now] in P. destruct i; try discriminate; eexists; destruct n as [|p0|p0 l0]; cbn in P; try congruence;
      (eexists; split; [reflexivity|]; split; [reflexivity|]; cbn; discriminate). }
  destruct H as [o [g' [O [G P']]]]. destruct (IH g' Sl P') as [g2 G2]. exists g2.
  unfold outputPS. cbn [flat_map]. rewrite O. cbn. now rewrite G.
Qed.

(** The operators written to SVG draw the picture upside down (or as it is, without
    inverse_y, as for the glyphs of a font), for every path starting with moveto without
    arcs, closed and continued in any way. *)
Theorem svg_same_as_ps : forall p l, forallb straight l = true ->
  exists ops ops' d, returnSVGdata true (Moveto p :: l) = Some ops /\ returnSVGdata false (Moveto p :: l) = Some ops' /\
    interpret (outputPS (Moveto p :: l)) = Some d /\ interpret ops = Some (map mirror d) /\ interpret ops' = Some d.
Proof.
  intros p l S.
  assert (H : forall inv, exists ops g, returnSVGdata inv (Moveto p :: l) = Some ops /\
    obey_all (mkgstate [] NoPoint) (outputPS (Moveto p :: l)) = Some g /\
    obey_all (mkgstate [] NoPoint) ops = Some (flip_state inv g)).
  { intros inv. pose proof (expand_single _ S) as S'.
    destruct (svg_all inv _ (mkcontext p p) (mkgstate [] (Drawing p [])) S') as [ops [I E]].
    destruct (straight_obeyed _ (mkgstate [] (Drawing p [])) S' ltac:(cbn; discriminate)) as [g G].
    rewrite expand_svg in I. rewrite G in E. rewrite expand_ps in G. exists (Omove (flip inv p) :: ops), g. split; [|split].
    - unfold returnSVGdata. cbn [createcontext svg_items item_svg item_svg_simple]. now rewrite I.
    - exact G.
    - exact E. }
  destruct (H true) as [ops [g [R [G E]]]]. destruct (H false) as [ops' [g' [R' [G' E']]]].
  assert (g' = g) by congruence. subst g'. exists ops, ops', (filter visible (ended g)). split; [exact R|]. split; [exact R'|].
  unfold interpret. rewrite G, E, E', !flip_ended, !visible_flip. split; [reflexivity|]. split; [reflexivity|].
  f_equal. cbn [flip_drawn]. apply map_id.
Qed.

Example svg_same_ex :
  let l := [Rlineto (10, 0); Lineto (10, 10); Closepath; Rlineto (20, 5); Curveto (20, 5) (25, 5) (30, 0); Multilineto [(30, 10); (20, 10)]; Closepath] in
  forallb straight l = true /\
  interpret (outputPS (Moveto (1, 2) :: l)) =
    Some [mkdrawn (1, 2) [SegLine (1 + 10, 2 + 0); SegLine (10, 10)] true;
          mkdrawn (1, 2) [SegLine (1 + 20, 2 + 5); SegCurve (20, 5) (25, 5) (30, 0); SegLine (30, 10); SegLine (20, 10)] true] /\
  returnSVGdata true (Moveto (1, 2) :: l) =
    Some [Omove (1, -2); Orline (10, - 0); Oline (10, -10); Oclose; Orline (20, -5); Ocurve (20, -5) (25, -5) (30, - 0); Oline (30, -10); Oline (20, -10); Oclose].
Proof. repeat split. Qed.

Print Assumptions pdf_same_as_ps.
Print Assumptions pdf_after_close_refuted.
Print Assumptions pdf_close_refuted.
Print Assumptions svg_same_as_ps.
