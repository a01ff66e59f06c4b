(** C61 and C62: transformations and clipping of canvases; the output of a canvas *)
From Coq Require Import ZArith Reals List Bool Lra.
From Verif Require Import TrafoModel TrafoProps CanvasModel CanvasSpec CanvasProofs CanvasProofs2 CanvasProofs3.
Import ListNotations.

(** ** C61 *)
Lemma one_apply pt : apply_pt one pt = pt.
Proof. unfold apply_pt, one. destruct pt as [x y]. cbn. f_equal; ring. Qed.
Lemma trafo_of_mul o u pt : apply_pt (trafo_of (Some (tmul (trafo_of o) u))) pt = apply_pt (trafo_of o) (apply_pt u pt).
Proof. cbn. apply apply_mul. Qed.
Lemma one_after_app a b pt : one_after_the_other (a ++ b) pt = one_after_the_other b (one_after_the_other a pt).
Proof. unfold one_after_the_other. apply fold_left_app. Qed.
Lemma trafos_app a b : trafos (a ++ b) = trafos a ++ trafos b.
Proof. apply flat_map_app. Qed.
Definition is_clip (a : cattr) : bool := match a with AClip _ => true | _ => false end.
(** the state of the loop of the constructor over the end of the list *)
Definition loop (l : list cattr) : option (option path * option trafo) := fold_left place (rev l) (Some (None, None)).
Lemma loop_cons a l : loop (a :: l) = place (loop l) a.
Proof. unfold loop. cbn. now rewrite fold_left_app. Qed.
Lemma loop_trafo l : forall c t, loop l = Some (c, t) -> forall pt, apply_pt (trafo_of t) pt = one_after_the_other (trafos l) pt.
Proof.
  induction l as [|a l IH]; intros c t E pt.
  { cbn in E. injection E as <- <-. apply one_apply. }
  rewrite loop_cons in E. destruct (loop l) as [[c0 t0]|]; [|discriminate]. specialize (IH c0 t0 eq_refl).
  destruct a as [s|p|u]; cbn in E.
  - injection E as <- <-. apply IH.
  - destruct c0; [discriminate|]. injection E as <- <-. apply IH.
  - assert (t = Some (tmul (trafo_of t0) u)) as -> by congruence. rewrite trafo_of_mul. rewrite IH. reflexivity.
Qed.
Lemma loop_noclip l : existsb is_clip l = false -> exists t, loop l = Some (None, t).
Proof.
  induction l as [|a l IH]; intros H; [eexists; reflexivity|]. cbn in H. apply orb_false_iff in H as [H1 H2].
  destruct (IH H2) as [t E]. rewrite loop_cons, E. destruct a; try discriminate; cbn; eauto.
Qed.
Lemma loop_none l : loop l = None <-> exists a p b q c, l = a ++ AClip p :: b ++ AClip q :: c.
Proof.
  assert (forall l, existsb is_clip l = true -> exists a p b, l = a ++ AClip p :: b) as Ex.
  { induction l0 as [|a l0 IH]; [discriminate|]. cbn. destruct a as [s|p|u]; cbn; intros H.
    - destruct (IH H) as (a & p & b & ->). exists (AStyle s :: a), p, b. reflexivity.
    - exists [], p, l0. reflexivity.
    - destruct (IH H) as (a & p & b & ->). exists (ATrafo u :: a), p, b. reflexivity. }
  induction l as [|a l IH]; split; intros H; try discriminate.
  - destruct H as ([|? ?] & ? & ? & ? & ? & H); discriminate.
  - rewrite loop_cons in H. destruct (loop l) as [[c t]|] eqn:E.
    + destruct a as [s|p|u]; try discriminate. cbn in H. destruct c as [q|]; [|discriminate].
      destruct (existsb is_clip l) eqn:X.
      * destruct (Ex _ X) as (a & p' & b & ->). exists [], p, a, p', b. reflexivity.
      * destruct (loop_noclip l X) as [t' E']. congruence.
    + destruct (proj1 IH eq_refl) as (a1 & p & b & q & c & ->). exists (a :: a1), p, b, q, c. reflexivity.
  - destruct H as (a1 & p & b & q & c & H). rewrite loop_cons. destruct a1 as [|z a1].
    + injection H as -> ->. destruct (loop (b ++ AClip q :: c)) as [[cl t]|] eqn:E; [|reflexivity].
      assert (cl <> None) as NN.
      { clear IH. revert cl t E. induction b as [|z b IHb]; intros cl t E; cbn [app] in E; rewrite loop_cons in E.
        - destruct (loop c) as [[c0 t0]|]; [|discriminate]. cbn in E. destruct c0; [discriminate|]. congruence.
        - destruct (loop (b ++ AClip q :: c)) as [[c0 t0]|]; [|discriminate]. specialize (IHb c0 t0 eq_refl).
          destruct z; cbn in E; [congruence| |congruence]. destruct c0; congruence. }
      cbn. destruct cl; congruence.
    + injection H as -> ->. rewrite (proj2 IH); [reflexivity|]. eauto 6.
Qed.
(** C61: attributes of a canvas act from left to right: a point of an item is moved by the
    transformations one after the other; the clip path is moved by those after it in the list. *)
Theorem attrs_left_to_right : forall attrs c, new_canvas attrs = Some c ->
  (forall pt, apply_pt (trafo_of (c_trafo c)) pt = one_after_the_other (trafos attrs) pt) /\
  (forall pre p post, attrs = pre ++ AClip p :: post -> c_clip c = Some (map (one_after_the_other (trafos post)) p)) /\
  ((forall p, ~ In (AClip p) attrs) -> c_clip c = None) /\
  (c_trafo c = None <-> trafos attrs = []) /\ (c_modifies c = true <-> attrs <> []).
Proof.
  intros attrs c H. unfold new_canvas in H. change (fold_left place (rev attrs) (Some (None, None))) with (loop attrs) in H.
  destruct (loop attrs) as [[cl t]|] eqn:E; [|discriminate]. injection H as <-. cbn.
  repeat split.
  - eapply loop_trafo; eauto.
  - intros pre p post ->.
    assert (forall l, (exists pre, l = pre ++ AClip p :: post) -> forall cl t, loop l = Some (cl, t) ->
      exists u, cl = Some (moved (trafo_of u) p) /\ (forall pt, apply_pt (trafo_of u) pt = one_after_the_other (trafos post) pt)) as K.
    { clear. induction l as [|a l IH]; intros [pre E] cl t L; [destruct pre; discriminate|].
      rewrite loop_cons in L. destruct (loop l) as [[c0 t0]|] eqn:L0; [|discriminate]. destruct pre as [|z pre]; injection E as -> ->.
      - cbn in L. destruct c0; [discriminate|]. assert (cl = Some (moved (trafo_of t0) p)) as -> by congruence. exists t0. split; auto. eapply loop_trafo; eauto.
      - destruct (IH (ex_intro _ pre eq_refl) c0 t0 eq_refl) as (u & -> & U). exists u. split; auto.
        destruct z; cbn in L; congruence. }
    destruct (K _ (ex_intro _ pre eq_refl) cl t E) as (u & -> & U). f_equal. unfold moved. apply map_ext. exact U.
  - intros N. destruct (existsb is_clip attrs) eqn:X.
    + apply existsb_exists in X as (a & I & A). destruct a; try discriminate. destruct (N p I).
    + destruct (loop_noclip attrs X) as [t' E']. congruence.
  - revert cl t E. induction attrs as [|a l IH]; intros cl t E Ht; auto. rewrite loop_cons in E.
    destruct (loop l) as [[c0 t0]|]; [|discriminate]. destruct a; cbn in *; try (eapply IH; eauto; congruence); [|congruence].
    destruct c0; [discriminate|]. eapply IH; eauto; congruence.
  - revert cl t E. induction attrs as [|a l IH]; intros cl t E Ht; [cbn in E; congruence|]. rewrite loop_cons in E.
    destruct (loop l) as [[c0 t0]|]; [|discriminate]. destruct a; cbn in *; try (assert (t = t0) as -> by congruence; eapply IH; eauto); [|discriminate].
    destruct c0; [discriminate|]. assert (t = t0) as -> by congruence. eapply IH; eauto.
  - destruct attrs; congruence.
  - destruct attrs; congruence.
Qed.
Print Assumptions attrs_left_to_right.
(** C61: the constructor fails exactly for two clip paths *)
Theorem single_clip_only : forall attrs, new_canvas attrs = None <-> exists a p b q c, attrs = a ++ AClip p :: b ++ AClip q :: c.
Proof.
  intros attrs. rewrite <- loop_none. unfold new_canvas. change (fold_left place (rev attrs) (Some (None, None))) with (loop attrs).
  destruct (loop attrs) as [[c t]|]; split; congruence.
Qed.
Print Assumptions single_clip_only.
Example attrs_ex : exists c, new_canvas [ATrafo (mktrafo 1 0 0 1 5 0); AClip [(1, 1)]; ATrafo (mktrafo 2 0 0 2 0 0)] = Some c /\
  c_clip c = Some [(2, 2)] /\ apply_pt (trafo_of (c_trafo c)) (1, 0) = (12, 0).
Proof.
  eexists. split; [reflexivity|]. cbn. unfold moved, apply_pt. cbn. split; [|f_equal; ring].
  f_equal. f_equal. f_equal; ring.
Qed.

(** ** C62 *)
Lemma psstate_eq s g : agrees g (mkcontext (rule g) None) s -> s = ps_state g (p_path s) (p_font s).
Proof. intros (A1 & A2 & A3 & A4 & A5 & A6). unfold ps_state. rewrite A1, A2, A3, A4, A5. destruct s; reflexivity. Qed.
Lemma ps_start g q f : agrees g (mkcontext (rule g) None) (ps_state g q f).
Proof. repeat split. Qed.
(** C62: interpreting the PostScript of any item makes exactly the marks that ought to be drawn, but
    possibly in other fonts, never restores a state that was not saved, and leaves stack and
    graphics state as before but for the font.  No fill rule may be given only for filling. *)
Theorem ps_draws : forall it g q f st, built it -> everywhere rule_free it = true ->
  exists m q' f', run ps_step (ps (mkcontext (rule g) None) it) (ps_state g q f, st) = Some ((ps_state g q' f', st), m) /\
    map unfont m = map unfont (draw g it).
Proof.
  intros it g q f st W N.
  destruct (ps_all_good false it g (mkcontext (rule g) None) (ps_state g q f) st (ps_start g q f) W N ltac:(discriminate))
    as (s' & m & R & E & S' & _).
  exists m, (p_path s'), (p_font s'). split; [|exact E]. unfold psrun in R. rewrite R. rewrite <- (psstate_eq s'); auto.
  eapply agrees_same; [apply ps_start|exact S'|reflexivity].
Qed.
Print Assumptions ps_draws.
(** C62: the fonts are right if texts stand beside text or in groups with attributes *)
Theorem ps_draws_fonts : forall c l g q f st, built (Canvas c l) -> everywhere rule_free (Canvas c l) = true ->
  forallb (everywhere font_tight) l = true ->
  exists q' f', run ps_step (ps (mkcontext (rule g) None) (Canvas c l)) (ps_state g q f, st) = Some ((ps_state g q' f', st), draw g (Canvas c l)).
Proof.
  intros c l g q f st W N F.
  destruct (ps_all_good true (Canvas c l) g (mkcontext (rule g) None) (ps_state g q f) st (ps_start g q f) W N)
    as (s' & m & R & E & S' & _).
  { intros _. split; [left; reflexivity|exact F]. }
  unfold view in E. rewrite !map_id in E. subst m.
  exists (p_path s'), (p_font s'). unfold psrun in R. rewrite R. rewrite <- (psstate_eq s'); auto.
  eapply agrees_same; [apply ps_start|exact S'|reflexivity].
Qed.
Print Assumptions ps_draws_fonts.
Definition plain_canvas : canvas := mkcanvas false [] None None.
Definition start : look := mklook one [] 0 1 [] false.
Lemma plain_built : exists a, new_canvas a = Some plain_canvas.
Proof. exists []. reflexivity. Qed.
(** C62 is false of PostScript: a canvas without attributes between two texts changes the font of
    the second *)
Theorem ps_font_refuted : exists c l, built (Canvas c l) /\ everywhere rule_free (Canvas c l) = true /\
  forall s m, run ps_step (ps (mkcontext false None) (Canvas c l)) (ps_state start [] None, []) = Some (s, m) -> m <> draw start (Canvas c l).
Proof.
  exists plain_canvas, [Text 1 10; Canvas plain_canvas [Text 2 20]; Text 3 10].
  split; [|split; [reflexivity|]].
  - cbn. pose proof plain_built. tauto.
  - intros s m H. cbn in H. injection H as _ <-. cbn. congruence.
Qed.
Print Assumptions ps_font_refuted.
(** C62 is false of PostScript and PDF: a fill rule among the styles for filling has no effect *)
Theorem fillrule_refuted : exists it, built it /\ font_tight it = true /\
  (forall s m, run ps_step (ps (mkcontext false None) it) (ps_state start [] None, []) = Some (s, m) -> map unfont m <> map unfont (draw start it)) /\
  (forall s m, run (pdf_step false) (pdf (mkcontext false None) it) (mkpdfm (pdf_state start None) [] None false) = Some (s, m) -> m <> draw start it).
Proof.
  exists (Path [(1, 1)%R] None [] None (Some [Rule true]) []). split; [cbn; auto|]. split; [reflexivity|].
  split; intros s m H; cbn in H; injection H as _ <-; cbn; intros E; discriminate E.
Qed.
Print Assumptions fillrule_refuted.

Lemma pdf_start g f : agreesd g (mkcontext (rule g) None) (pdf_state g f).
Proof. repeat split. Qed.
Lemma pdfstate_eq g s f : samed (pdf_state g f) s -> s = pdf_state g (d_font s).
Proof. intros (A1 & A2 & A3 & A4 & A5 & A6 & A7). unfold pdf_state. destruct s; cbn in *. congruence. Qed.
(** C62: the PDF of any canvas or path makes exactly the marks that ought to be drawn, with text in
    its font and only in text objects, text objects never overlap saved states or paths, and
    stack and graphics state are left as before but for the font. *)
Theorem pdf_draws : forall it g f st, built it -> everywhere rule_free it = true -> requiretextregion it = false ->
  exists f', run (pdf_step false) (pdf (mkcontext (rule g) None) it) (mkpdfm (pdf_state g f) st None false)
             = Some (mkpdfm (pdf_state g f') st None false, draw g it).
Proof.
  intros it g f st W N T.
  destruct (pdf_all_good false it g (mkcontext (rule g) None) (pdf_state g f) st (pdf_start g f) W N ltac:(discriminate))
    as (s' & R & S' & _); [rewrite T; reflexivity|].
  rewrite T in R. exists (d_font s'). unfold pdfrun in R. rewrite R. now rewrite <- (pdfstate_eq g s' f S').
Qed.
Print Assumptions pdf_draws.
(** C62: and no other operator stands between constructing and painting a path, if paths are filled
    without styles of their own and not stroked at the same time *)
Theorem pdf_draws_strict : forall it g f st, built it -> everywhere rule_free it = true -> requiretextregion it = false ->
  everywhere plain it = true ->
  exists f', run (pdf_step true) (pdf (mkcontext (rule g) None) it) (mkpdfm (pdf_state g f) st None false)
             = Some (mkpdfm (pdf_state g f') st None false, draw g it).
Proof.
  intros it g f st W N T PL.
  destruct (pdf_all_good true it g (mkcontext (rule g) None) (pdf_state g f) st (pdf_start g f) W N (fun _ => PL))
    as (s' & R & S' & _); [rewrite T; reflexivity|].
  rewrite T in R. exists (d_font s'). unfold pdfrun in R. rewrite R. now rewrite <- (pdfstate_eq g s' f S').
Qed.
Print Assumptions pdf_draws_strict.
(** C62 is false of PDF read strictly: for a path stroked and filled, q stands between its
    construction and its painting *)
Theorem pdf_strict_refuted : exists it, built it /\ everywhere rule_free it = true /\ requiretextregion it = false /\
  run (pdf_step true) (pdf (mkcontext false None) it) (mkpdfm (pdf_state start None) [] None false) = None.
Proof. exists (Path [(1, 1)%R] None [] (Some []) (Some []) []). repeat split. Qed.
Print Assumptions pdf_strict_refuted.

(** C62: the SVG of suitable items makes exactly the marks that ought to be drawn and all its
    elements are closed *)
Theorem svg_draws : forall it g st, built it -> everywhere svg_fit it = true -> alpha g <> 0%Z ->
  run svg_step (svg (mksvgcontext (col g) (col g) (alpha g) (alpha g)) it) (svg_state g, st) = Some ((svg_state g, st), draw g it).
Proof.
  intros it g st W F V. apply (svg_all_good it g (mksvgcontext (col g) (col g) (alpha g) (alpha g)) (svg_state g) st); auto.
  repeat split; cbn; auto. now rewrite app_nil_r.
Qed.
Print Assumptions svg_draws.
(** C62: so the three formats show the same, text but for its font in PostScript *)
Theorem formats_agree : forall c l g q f f' st st' st'', built (Canvas c l) -> everywhere rule_free (Canvas c l) = true ->
  everywhere svg_fit (Canvas c l) = true -> forallb (everywhere font_tight) l = true -> alpha g <> 0%Z ->
  exists m s1 s2 s3, run ps_step (ps (mkcontext (rule g) None) (Canvas c l)) (ps_state g q f, st) = Some (s1, m) /\
    run (pdf_step false) (pdf (mkcontext (rule g) None) (Canvas c l)) (mkpdfm (pdf_state g f') st' None false) = Some (s2, m) /\
    run svg_step (svg (mksvgcontext (col g) (col g) (alpha g) (alpha g)) (Canvas c l)) (svg_state g, st'') = Some (s3, m).
Proof.
  intros c l g q f f' st st' st'' W N F T V. exists (draw g (Canvas c l)).
  destruct (ps_draws_fonts c l g q f st W N T) as (q' & f1 & R1).
  destruct (pdf_draws (Canvas c l) g f' st' W N eq_refl) as (f2 & R2).
  eexists _, _, _. split; [exact R1|]. split; [exact R2|]. apply svg_draws; auto.
Qed.
Print Assumptions formats_agree.

Definition svg_marks (it : item) : option (list mark) :=
  match run svg_step (svg (mksvgcontext 0 0 1 1) it) (svg_state start, []) with Some (_, m) => Some m | None => None end.
(** C62 is false of SVG: (a) a path with excluded ranges is stroked before it is filled, (b) colours
    for stroking are kept for the ornaments, (c) the opacity of the stroke is kept for an opaque
    fill, (d) fully transparent text is written opaque *)
Theorem svg_order_refuted : exists it m, built it /\ svg_marks it = Some m /\ m <> draw start it /\
  exists a b, draw start it = [a; b] /\ m = [b; a].
Proof.
  exists (Path [(1, 1)%R] (Some [(2, 2)%R]) [] (Some []) (Some []) []). eexists. split; [cbn; tauto|]. split; [reflexivity|].
  split; [cbn; intros E; discriminate E|]. eexists _, _. split; reflexivity.
Qed.
Print Assumptions svg_order_refuted.
Theorem svg_ornament_refuted : exists p c it m, built (Path p None [] (Some [Paint c]) None [it]) /\
  svg_marks (Path p None [] (Some [Paint c]) None [it]) = Some m /\ m <> draw start (Path p None [] (Some [Paint c]) None [it]).
Proof.
  exists [(1, 1)%R], 5%Z, (Path [(2, 2)%R] None [] (Some []) None []). eexists. split; [cbn; tauto|]. split; [reflexivity|]. cbn. intros E. discriminate E.
Qed.
Print Assumptions svg_ornament_refuted.
Theorem svg_opacity_refuted : exists p a m, built (Path p None [] (Some [Alpha a]) (Some []) []) /\
  svg_marks (Path p None [] (Some [Alpha a]) (Some []) []) = Some m /\
  forall q t c k o e, In (Filled q t c k o e) m -> o = a /\ a <> 1%Z.
Proof.
  exists [(1, 1)%R], 3%Z. eexists. split; [cbn; tauto|]. split; [reflexivity|]. cbn. intros. destruct H as [H|[H|[]]]; [discriminate|].
  injection H as <- <- <- <- <- <-. split; congruence.
Qed.
Print Assumptions svg_opacity_refuted.
Theorem svg_text_refuted : exists c k f m, built (Canvas c [Text k f]) /\ svg_marks (Canvas c [Text k f]) = Some m /\
  draw start (Canvas c [Text k f]) = [Written k (Some f) one [] 0 0] /\ m = [Written k (Some f) one [] 0 1].
Proof.
  exists (mkcanvas true [Alpha 0] None None), 1%Z, 10%Z. eexists. split; [|split; [reflexivity|split; reflexivity]].
  cbn. split; auto. exists [AStyle (Alpha 0)]. reflexivity.
Qed.
Print Assumptions svg_text_refuted.

(** an example with a clipped and moved canvas, a decorated path with ornament, text *)
Definition sample_canvas : canvas := mkcanvas true [Paint 7] (Some [(0, 0)%R]) (Some (tmul one (mktrafo 2 0 0 2 0 0))).
Definition sample : item :=
  Canvas plain_canvas [Text 1 10; Canvas sample_canvas [Text 2 20; Path [(1, 1)%R] None [Alpha 4] (Some [Line 1 2]) (Some [Paint 8]) []; Text 3 20];
                       Text 4 10; Path [(3, 3)%R] (Some [(4, 4)%R]) [Rule true] None (Some []) [Path [(5, 5)%R] None [] (Some []) None []]].
Example sample_ok : built sample /\ everywhere rule_free sample = true /\
  (match sample with Canvas _ l => forallb (everywhere font_tight) l | _ => false end) = true.
Proof.
  split; [|split; reflexivity]. cbn. pose proof plain_built.
  assert (exists a, new_canvas a = Some sample_canvas) by (exists [AStyle (Paint 7); ATrafo (mktrafo 2 0 0 2 0 0); AClip [(0, 0)%R]]; unfold sample_canvas, new_canvas; cbn;
    unfold moved, one; cbn; unfold apply_pt; cbn; repeat f_equal; ring).
  tauto.
Qed.
Example sample_draws : draw start sample =
  let t := tmul one (tmul one (mktrafo 2 0 0 2 0 0)) in let c := [(one, [(0, 0)%R])] in
  [Written 1 (Some 10%Z) one [] 0 1; Written 2 (Some 20%Z) t c 7 1; Filled [(1, 1)%R] t c 8 4 false; Stroked [(1, 1)%R] t c 7 4 [(1, 2)%Z];
   Written 3 (Some 20%Z) t c 7 1; Written 4 (Some 10%Z) one [] 0 1; Filled [(3, 3)%R] one [] 0 1 true; Stroked [(5, 5)%R] one [] 0 1 []].
Proof. reflexivity. Qed.
Example sample_pdf : pdf (mkcontext false None) (Canvas plain_canvas [Text 1 10; Text 2 10; Path [(1, 1)%R] None [] (Some []) None []; Text 3 10]) =
  [BT; Tf 10; Tj 1; Tj 2; ET; Pathop [(1, 1)%R]; S_; BT; Tf 10; Tj 3; ET].
Proof. reflexivity. Qed.
Example sample_svg : everywhere svg_fit sample = true.
Proof. reflexivity. Qed.
