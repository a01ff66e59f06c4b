(** SVG files: the view box and the size give where the picture is, groups pass on colors and transformations, and the file is placed as asked for.  C136, C137. *)
From Coq Require Import Reals List Arith Lia.
From Verif Require Import UnitModel TrafoModel TrafoProps BboxModel CanvasModel SvgFileModel.
From Coq Require Import Lra.
Import ListNotations.
Open Scope R_scope.

(** ** numbers with units *)
(** units are those of typography: an inch is 72 points, 2.54 cm, 25.4 mm, 6 picas and as many pixels as the resolution says; percents are of the given length *)
Theorem svg_units : forall res x, 0 < res ->
  to_float res None (x, Pt) = Some x /\ to_float res None (x, In) = Some (72 * x) /\ to_float res None (res * x, Px) = to_float res None (x, In) /\
  to_float res None (res * x, NoUnit) = to_float res None (x, In) /\ to_float res None (2.54 * x, Cm) = to_float res None (x, In) /\
  to_float res None (25.4 * x, Mm) = to_float res None (x, In) /\ to_float res None (6 * x, Pc) = to_float res None (x, In) /\
  (forall r, to_float res (Some r) (100 * x, Percent) = Some (r * x)) /\ to_float res None (x, Percent) = None.
Proof.
  intros res x P. unfold to_float, unit_pt; simpl. assert (res <> 0) by lra.
  repeat split; intros; try reflexivity; apply f_equal; first [lra | field; lra].
Qed.
Print Assumptions svg_units.
Example svg_units_ex : to_float 96 None (48, Px) = Some 36.
Proof. unfold to_float, unit_pt; simpl. f_equal. lra. Qed.

(** the limit of miters is a ratio without unit, but is multiplied like a length: the default limit 4 of SVG, when written in the file, is read as 3 *)
Theorem svg_miterlimit_refuted : exists n, miterlimit 96 n <> Some n /\ miterlimit 96 n = Some 3.
Proof.
  exists 4. unfold miterlimit, to_float, unit_pt; simpl. replace (4 * (72 / 96)) with 3 by lra. split; [|reflexivity]. intros E. injection E as E. lra.
Qed.
Print Assumptions svg_miterlimit_refuted.

(** ** the svg element *)
Definition is_style (a : cattr) : Prop := match a with AStyle _ => True | _ => False end.
Lemma styles_kept : forall pre acc, Forall is_style pre -> fold_left place pre (Some acc) = Some acc.
Proof. induction pre as [|a pre IH]; intros [c t] H; [reflexivity|]. inversion H as [|? ? A B]; subst. destruct a; try contradiction. simpl. now apply IH. Qed.
Lemma canvas_of : forall pre l c t, Forall is_style pre -> l <> [] -> fold_left place (rev l) (Some (None, None)) = Some (c, t) ->
  exists cv, new_canvas (pre ++ l) = Some cv /\ c_clip cv = c /\ c_trafo cv = t.
Proof.
  intros pre l c t P N E. unfold new_canvas. rewrite rev_app_distr, fold_left_app, E, styles_kept by (apply Forall_rev; exact P).
  eexists. split; [reflexivity|]. split; reflexivity.
Qed.
Lemma mirror0 : forall st, mirror st 0 = mktrafo 1 0 0 (- (1)) 0 0.
Proof.
  intros st. unfold mirror, new_trafo. replace (radians 0) with 0 by (unfold radians; lra). rewrite cos_0, sin_0, topt_zero. f_equal; lra.
Qed.
Ltac trafos := unfold tmul, apply_pt, translate_pt, scaling, new_trafo; simpl; rewrite ?topt_zero.

(** with a view box: the part of the plane of the SVG file given by the view box fills the bounding box of the file exactly, its left side at the left and its upper side
    at the top; the bounding box has the width and height of the attributes, and starts at the attribute x *)
Theorem svg_viewbox : forall st res pre a nx ny nw nh ix iy iw ih ox oy w h,
  Forall is_style pre -> sa_viewBox a = Some (nx, ny, nw, nh) ->
  to_float res None nx = Some ix -> to_float res None ny = Some iy -> to_float res None nw = Some iw -> to_float res None nh = Some ih ->
  to_float res None (match sa_x a with Some n => n | None => (0, NoUnit) end) = Some ox -> to_float res None (match sa_y a with Some n => n | None => (0, NoUnit) end) = Some oy ->
  (match sa_width a with Some n => to_float res (Some iw) n = Some w | None => w = iw end) -> (match sa_height a with Some n => to_float res (Some ih) n = Some h | None => h = ih end) ->
  iw <> 0 -> ih <> 0 ->
  exists attrs cv, svg_element st res pre a = Some (attrs, mkbbox (Some ox) (- oy) (ox + w) (h - oy)) /\ new_canvas attrs = Some cv /\
    forall u v, apply_pt (trafo_of (c_trafo cv)) (ix + u * iw, iy + v * ih) = (ox + u * w, (h - oy) - v * h).
Proof.
  intros st res pre a nx ny nw nh ix iy iw ih ox oy w h P V X Y W H OX OY AW AH NW NH. unfold svg_element, default_number. rewrite OX, OY. cbn [bind]. rewrite V, X, Y, W, H. cbn [bind].
  replace (to_float res (Some iw) (match sa_width a with Some n => n | None => (100, Percent) end)) with (Some w)
    by (destruct (sa_width a); [symmetry; exact AW|unfold to_float; simpl; f_equal; lra]).
  replace (to_float res (Some ih) (match sa_height a with Some n => n | None => (100, Percent) end)) with (Some h)
    by (destruct (sa_height a); [symmetry; exact AH|unfold to_float; simpl; f_equal; lra]).
  cbn [bind]. unfold nonzero. destruct (Req_EM_T iw 0); [contradiction|]. destruct (Req_EM_T ih 0); [contradiction|]. cbn [andb].
  replace (- oy + h) with (h - oy) by ring.
  set (ts := [ATrafo (translate_pt (- ix) (- iy)); ATrafo (scaling st (w / iw) (h / ih)); ATrafo (translate_pt ox oy); ATrafo (translate_pt 0 (- h)); ATrafo (mirror st 0)]).
  set (T := tmul (tmul (tmul (tmul (tmul one (mirror st 0)) (translate_pt 0 (- h))) (translate_pt ox oy)) (scaling st (w / iw) (h / ih))) (translate_pt (- ix) (- iy))).
  assert (exists c, fold_left place (rev ((if sa_clip a then [AClip (rect st ix iy iw ih)] else []) ++ ts)) (Some (None, None)) = Some (c, Some T)) as (c & E).
  { destruct (sa_clip a); simpl; eexists; reflexivity. }
  destruct (canvas_of pre ((if sa_clip a then [AClip (rect st ix iy iw ih)] else []) ++ ts) c (Some T) P ltac:(unfold ts; destruct (sa_clip a); discriminate) E) as (cv & C1 & C2 & C3).
  eexists. exists cv. split; [reflexivity|]. split; [exact C1|]. intros u v. rewrite C3. unfold trafo_of, T. rewrite !apply_mul, mirror0. trafos. unfold one. simpl. f_equal; field; first [assumption | split; assumption].
Qed.
Print Assumptions svg_viewbox.
(** without a view box: one unit of the file is one unit of the picture *)
Theorem svg_no_viewbox : forall st res pre a nw nh ox oy w h,
  Forall is_style pre -> sa_viewBox a = None -> sa_width a = Some nw -> sa_height a = Some nh -> to_float res None nw = Some w -> to_float res None nh = Some h ->
  to_float res None (match sa_x a with Some n => n | None => (0, NoUnit) end) = Some ox -> to_float res None (match sa_y a with Some n => n | None => (0, NoUnit) end) = Some oy ->
  exists attrs cv, svg_element st res pre a = Some (attrs, mkbbox (Some ox) (- oy) (ox + w) (h - oy)) /\ new_canvas attrs = Some cv /\ c_clip cv = None /\
    forall x y, apply_pt (trafo_of (c_trafo cv)) (x, y) = (ox + x, (h - oy) - y).
Proof.
  intros st res pre a nw nh ox oy w h P V W H EW EH OX OY. unfold svg_element, default_number. rewrite OX, OY. cbn [bind]. rewrite V, W, H, EW, EH. cbn [bind].
  replace (- oy + h) with (h - oy) by ring.
  set (T := tmul (tmul (tmul one (mirror st 0)) (translate_pt 0 (- h))) (translate_pt ox oy)).
  destruct (canvas_of pre [ATrafo (translate_pt ox oy); ATrafo (translate_pt 0 (- h)); ATrafo (mirror st 0)] None (Some T) P ltac:(discriminate) eq_refl) as (cv & C1 & C2 & C3).
  eexists. exists cv. split; [reflexivity|]. split; [exact C1|]. split; [exact C2|]. intros x y. rewrite C3. unfold trafo_of, T. rewrite !apply_mul, mirror0. trafos. unfold one. simpl. f_equal; ring.
Qed.
Print Assumptions svg_no_viewbox.
(** a file without view box and without width or height is an error (although the message of the error says that it continues) *)
Theorem svg_size_needed : forall st res pre a, sa_viewBox a = None -> (sa_width a = None \/ sa_height a = None) -> svg_element st res pre a = None.
Proof.
  intros st res pre a V [W|H]; unfold svg_element; rewrite V; destruct (to_float res None (default_number (0, NoUnit) (sa_x a))); simpl; try reflexivity;
    destruct (to_float res None (default_number (0, NoUnit) (sa_y a))); simpl; try reflexivity.
  - rewrite W. reflexivity.
  - rewrite H. destruct (sa_width a); reflexivity.
Qed.
Print Assumptions svg_size_needed.
(** with the clip attribute auto, everything outside of the view box should be clipped; but the rectangle is built from numbers in points taken as numbers in the user
    unit, so that a view box of 100 points is clipped at 100 centimeters only *)
Theorem svg_clip_refuted : exists a attrs b cv p, sa_clip a = true /\ svg_element initial 72 [] a = Some (attrs, b) /\ new_canvas attrs = Some cv /\
  c_clip cv = Some p /\ (exists q, List.In q p /\ urx b + 1000 < fst q) /\ urx b = 100.
Proof.
  set (a := mksvgattrs None None (Some ((0, NoUnit), (0, NoUnit), (100, NoUnit), (100, NoUnit))) None None true).
  set (attrs := [AClip (rect initial 0 0 100 100); ATrafo (translate_pt (- 0) (- 0)); ATrafo (scaling initial (100 / 100) (100 / 100)); ATrafo (translate_pt 0 0); ATrafo (translate_pt 0 (- 100)); ATrafo (mirror initial 0)]).
  exists a, attrs, (mkbbox (Some 0) (- 0) (0 + 100) (- 0 + 100)).
  set (T := tmul (tmul (tmul (tmul (tmul one (mirror initial 0)) (translate_pt 0 (- 100))) (translate_pt 0 0)) (scaling initial (100 / 100) (100 / 100))) (translate_pt (- 0) (- 0))).
  destruct (canvas_of [] attrs (Some (moved T (rect initial 0 0 100 100))) (Some T) ltac:(constructor) ltac:(discriminate) eq_refl) as (cv & C1 & C2 & C3).
  exists cv, (moved T (rect initial 0 0 100 100)). split; [reflexivity|]. split; [|split; [exact C1|split; [exact C2|split; [|simpl; lra]]]].
  - unfold svg_element, a; cbn [sa_x sa_y sa_viewBox sa_width sa_height sa_clip default_number to_float fst snd bind unit_pt].
    replace (0 * (72 / 72)) with 0 by lra. replace (100 * (72 / 72)) with 100 by lra. replace (100 * (0.01 * 100)) with 100 by lra.
    unfold nonzero. destruct (Req_EM_T 100 0); [lra|]. reflexivity.
  - exists (apply_pt T (topt initial (Num 0) + topt initial (Num 100), topt initial (Num 0))). split; [unfold moved, rect; right; left; reflexivity|].
    unfold T. rewrite !apply_mul, mirror0. trafos. unfold topt, convert_to, initial; simpl. unfold Rdiv. lra.
Qed.
Print Assumptions svg_clip_refuted.

(** ** placing the file *)
Definition upright (t : trafo) (b : bbox) (x y w h : R) : Prop :=
  exists l, llx b = Some l /\ forall u v, apply_pt t (l + u * (urx b - l), lly b + v * (ury b - lly b)) = (x + u * w, y + v * h).
(** the bounding box of the file is placed with its lower left corner at the given point; without width and height it keeps its size; with both it gets this size;
    with one of them the other keeps the ratio of the sides or gets the given ratio *)
Theorem svg_placed : forall x y b l, llx b = Some l -> 0 < urx b - l -> 0 < ury b - lly b ->
  let sw := urx b - l in let sh := ury b - lly b in
  (exists t, place_svg x y None None None b = Some t /\ upright t b x y sw sh) /\
  (forall w h, exists t, place_svg x y (Some w) (Some h) None b = Some t /\ upright t b x y w h) /\
  (forall w, exists t h, place_svg x y (Some w) None None b = Some t /\ upright t b x y w h /\ h * sw = w * sh) /\
  (forall h, exists t w, place_svg x y None (Some h) None b = Some t /\ upright t b x y w h /\ h * sw = w * sh) /\
  (forall w r, r <> 0 -> exists t h, place_svg x y (Some w) None (Some r) b = Some t /\ upright t b x y w h /\ w = r * h) /\
  (forall h r, exists t w, place_svg x y None (Some h) (Some r) b = Some t /\ upright t b x y w h /\ w = r * h) /\
  (forall w h r, place_svg x y (Some w) (Some h) (Some r) b = None) /\ (forall r, place_svg x y None None (Some r) b = None).
Proof.
  intros x y b l L W H sw sh. unfold place_svg. rewrite L. fold sw sh.
  assert (nonzero sw = true) as NW by (unfold nonzero; destruct (Req_EM_T sw 0); [unfold sw in *; lra|reflexivity]).
  assert (nonzero sh = true) as NH by (unfold nonzero; destruct (Req_EM_T sh 0); [unfold sh in *; lra|reflexivity]).
  rewrite NW, NH. cbn [bind andb fst snd].
  assert (forall w h, upright (tmul (tmul (translate_pt x y) (mktrafo (w / sw) 0 0 (h / sh) 0 0)) (translate_pt (- l) (- lly b))) b x y w h) as U.
  { intros w h. exists l. split; [exact L|]. intros u v. rewrite !apply_mul. unfold apply_pt, translate_pt; simpl. unfold sw, sh in *. f_equal; field; lra. }
  split; [|split; [|split; [|split; [|split; [|split; [|split]]]]]].
  - eexists. split; [reflexivity|]. exists l. split; [exact L|]. intros u v. rewrite !apply_mul. unfold apply_pt, translate_pt; simpl. unfold sw, sh. f_equal; ring.
  - intros w h. eexists. split; [reflexivity|apply U].
  - intros w. eexists. exists (w * sh / sw). split; [reflexivity|]. split; [apply U|field; unfold sw; lra].
  - intros h. eexists. exists (h * sw / sh). split; [reflexivity|]. split; [apply U|field; unfold sh; lra].
  - intros w r N. unfold nonzero at 1. destruct (Req_EM_T r 0); [contradiction|]. cbn [bind fst snd]. eexists. exists (1 / r * w). split; [reflexivity|]. split; [apply U|field; exact N].
  - intros h r. eexists. exists (r * h). split; [reflexivity|]. split; [apply U|reflexivity].
  - reflexivity.
  - reflexivity.
Qed.
Print Assumptions svg_placed.

(** the points of a nested svg element as an SVG viewer places them: x, y, width and height count in pixels, of which an inch has 96 *)
Definition viewer_px (n : number) : option R :=
  match snd n with NoUnit | Px => Some (fst n) | Pt => Some (fst n * 96 / 72) | Pc => Some (fst n * 16) | Mm => Some (fst n * 96 / 25.4) | Cm => Some (fst n * 96 / 2.54)
  | In => Some (fst n * 96) | Percent => None end.
Definition px_only (n : number) : Prop := snd n = NoUnit \/ snd n = Px.
Lemma viewer_pt : forall res n p v, 0 < res -> res = 96 \/ px_only n -> viewer_px n = Some p -> to_float res None n = Some v -> v = 72 / res * p.
Proof.
  intros res [x u] p v P C V F. unfold viewer_px in V. unfold to_float, unit_pt in F. simpl in *. assert (res <> 0) by lra.
  destruct C as [-> |[E|E]]; [|simpl in E; subst u; injection V as <-; injection F as <-; lra..].
  destruct u; try discriminate; injection V as <-; injection F as <-; try lra; field.
Qed.
(** a file that is not parsed but copied into the SVG output: what a viewer shows in the rectangle of the copied svg element is placed upright in the bounding box of the
    file; this needs the resolution 96 or sizes in pixels *)
Theorem svg_unparsed_placed : forall st res a nw nh t b px py pw ph, 0 < res ->
  let nx := match sa_x a with Some n => n | None => (0, NoUnit) end in let ny := match sa_y a with Some n => n | None => (0, NoUnit) end in
  res = 96 \/ (px_only nx /\ px_only ny /\ px_only nw /\ px_only nh) ->
  sa_width a = Some nw -> sa_height a = Some nh -> viewer_px nx = Some px -> viewer_px ny = Some py -> viewer_px nw = Some pw -> viewer_px nh = Some ph ->
  svg_unparsed st res a = Some (t, b) ->
  exists l, llx b = Some l /\ forall u v, apply_pt t (px + u * pw, - (py + v * ph)) = (l + u * (urx b - l), ury b - v * (ury b - lly b)).
Proof.
  intros st res a nw nh t b px py pw ph P nx ny C W H VX VY VW VH E. unfold svg_unparsed in E. rewrite W, H in E. unfold default_number in E. fold nx ny in E.
  assert (forall n p, viewer_px n = Some p -> exists v, to_float res None n = Some v) as F.
  { intros [x u] p V. unfold viewer_px in V; unfold to_float; simpl in *. destruct u; try discriminate; eexists; reflexivity. }
  destruct (F _ _ VX) as (ox & OX), (F _ _ VY) as (oy & OY), (F _ _ VW) as (w & OW), (F _ _ VH) as (h & OH).
  rewrite OX, OY, OW, OH in E. cbn [bind] in E. apply (f_equal (fun o => match o with Some z => z | None => (t, b) end)) in E. cbv beta iota in E.
  pose proof (f_equal snd E) as E2. pose proof (f_equal fst E) as E1. cbn [fst snd] in E1, E2. subst t b. clear E.
  assert (ox = 72 / res * px) as -> by (apply (viewer_pt res nx); tauto). assert (oy = 72 / res * py) as -> by (apply (viewer_pt res ny); tauto).
  assert (w = 72 / res * pw) as -> by (apply (viewer_pt res nw); tauto). assert (h = 72 / res * ph) as -> by (apply (viewer_pt res nh); tauto).
  eexists. split; [reflexivity|]. intros u v. rewrite apply_mul. trafos. f_equal; field; lra.
Qed.
Print Assumptions svg_unparsed_placed.
(** with another resolution, sizes in other units than pixels are not the sizes of the viewer *)
Theorem svg_unparsed_units_refuted : exists a t b, svg_unparsed initial 72 a = Some (t, b) /\ sa_width a = Some (10, Mm) /\ viewer_px (10, Mm) = Some (960 / 25.4) /\
  fst (apply_pt t (960 / 25.4, 0)) <> urx b.
Proof.
  set (a := mksvgattrs None None None (Some (10, Mm)) (Some (10, Mm)) true). eexists a, _, _. split; [reflexivity|]. split; [reflexivity|].
  split; [unfold viewer_px; simpl; f_equal; lra|]. rewrite apply_mul. trafos. intros E. lra.
Qed.
Print Assumptions svg_unparsed_units_refuted.
Example svg_placed_ex : exists t, place_svg 10 20 (Some 50) None None (mkbbox (Some 5) 0 105 200) = Some t /\ apply_pt t (105, 200) = (60, 120).
Proof.
  destruct (svg_placed 10 20 (mkbbox (Some 5) 0 105 200) 5 eq_refl ltac:(simpl; lra) ltac:(simpl; lra)) as (_ & _ & A & _). destruct (A 50) as (t & h & E & (l & L & U) & K).
  exists t. split; [exact E|]. simpl in L, U, K. injection L as <-. replace (105, 200) with (5 + 1 * (105 - 5), 0 + 1 * (200 - 0)) by (f_equal; lra). rewrite U. f_equal; lra.
Qed.
Example svg_viewbox_ex : exists attrs cv b, svg_element initial 72 [] (mksvgattrs None None (Some ((0, NoUnit), (0, NoUnit), (100, NoUnit), (50, NoUnit))) (Some (200, Pt)) None false) = Some (attrs, b) /\
  new_canvas attrs = Some cv /\ apply_pt (trafo_of (c_trafo cv)) (50, 50) = (100, 0).
Proof.
  destruct (svg_viewbox initial 72 [] (mksvgattrs None None (Some ((0, NoUnit), (0, NoUnit), (100, NoUnit), (50, NoUnit))) (Some (200, Pt)) None false)
    (0, NoUnit) (0, NoUnit) (100, NoUnit) (50, NoUnit) 0 0 100 50 0 0 200 50) as (attrs & cv & E & C & A); simpl; try lra; try reflexivity; try constructor; unfold to_float, unit_pt; simpl; try (f_equal; lra).
  exists attrs, cv. eexists. split; [exact E|]. split; [exact C|]. replace (50, 50) with (0 + 1 / 2 * 100, 0 + 1 * 50) by (f_equal; lra). rewrite A. f_equal; lra.
Qed.

(** ** groups and shapes *)
Section Groups.
Variable C S : Type.
(** the elements of a document *)
Inductive elem := EShape (a : eattrs C) (s : S) | EGroup (a : eattrs C) (l : list elem).
Fixpoint events (e : elem) : list (event C S) :=
  match e with EShape a s => [Shape a s] | EGroup a l => StartG a :: concat (map events l) ++ [EndG] end.
(** the rule of SVG: an attribute that is given is taken, otherwise that of the element around; [attrs] are the attributes of the groups around *)
Definition chosen (p : paint C) (around : option C) : option C := match p with Inherit => around | Color c => Some c | NoPaint | CurrentColor => None end.
Fixpoint expected (root : nat) (attrs : list (list cattr)) (fill stroke : option C) (e : elem) : list (drawn C S) :=
  match e with
  | EShape a s =>
      match chosen (e_fill _ a) fill, chosen (e_stroke _ a) stroke with
      | None, None => []
      | f, k => [mkdrawn (root, attrs) (e_attrs _ a) f k s]
      end
  | EGroup a l => concat (map (expected root (attrs ++ [e_attrs _ a]) (chosen (e_fill _ a) fill) (chosen (e_stroke _ a) stroke)) l)
  end.
Fixpoint elem_rect' (P : elem -> Prop) (s : forall a x, P (EShape a x)) (g : forall a l, Forall P l -> P (EGroup a l)) (e : elem) : P e :=
  match e with
  | EShape a x => s a x
  | EGroup a l => g a l ((fix go l := match l return Forall P l with [] => Forall_nil _ | x :: r => Forall_cons _ (elem_rect' P s g x) (go r) end) l)
  end.
Lemma chosen_is : forall p i, to_color C p i = chosen p i. Proof. destruct p; reflexivity. Qed.
Lemma handle_app : forall l m st, handle_all C S st (l ++ m) = bind (handle_all C S st l) (fun st => handle_all C S st m).
Proof. induction l as [|e l IH]; intros m st; [reflexivity|]. simpl. destruct (handle C S st e); simpl; [apply IH|reflexivity]. Qed.
Definition more (st : state C S) (d : list (drawn C S)) : state C S :=
  mkstate C S (s_canvas _ _ st) (s_fillcolor _ _ st) (s_strokecolor _ _ st) (s_stack _ _ st) (s_next _ _ st) (s_drawn _ _ st ++ d).
Lemma more_nil : forall st, more st [] = st. Proof. intros []. unfold more; simpl. now rewrite app_nil_r. Qed.
Lemma elem_handled : forall e st, handle_all C S st (events e) = Some (more st (expected (fst (s_canvas _ _ st)) (snd (s_canvas _ _ st)) (s_fillcolor _ _ st) (s_strokecolor _ _ st) e)).
Proof.
  induction e as [a s|a l IH] using elem_rect'; intros st.
  - destruct st as [[root attrs] f k stack nx dr]. unfold events, expected. cbn [handle_all handle s_canvas s_fillcolor s_strokecolor s_stack s_next s_drawn fst snd]. cbv zeta.
    rewrite (chosen_is (e_fill C a) f), (chosen_is (e_stroke C a) k). unfold more.
    destruct (chosen (e_fill C a) f), (chosen (e_stroke C a) k); simpl; rewrite ?app_nil_r; reflexivity.
  - simpl. rewrite !chosen_is.
    set (st1 := mkstate _ _ _ _ _ _ _ _).
    assert (forall l' st', Forall (fun e => forall st, handle_all C S st (events e) = Some (more st (expected (fst (s_canvas _ _ st)) (snd (s_canvas _ _ st)) (s_fillcolor _ _ st) (s_strokecolor _ _ st) e))) l' ->
      handle_all C S st' (concat (map events l')) = Some (more st' (concat (map (expected (fst (s_canvas _ _ st')) (snd (s_canvas _ _ st')) (s_fillcolor _ _ st') (s_strokecolor _ _ st')) l')))) as Q.
    { induction l' as [|e r IHr]; intros st' F; [simpl; now rewrite more_nil|]. inversion F as [|? ? A B]; subst. simpl. rewrite handle_app, A. simpl. rewrite IHr by exact B. simpl.
      unfold more; simpl. now rewrite app_assoc. }
    rewrite handle_app, Q by exact IH. simpl. unfold more; simpl. destruct st as [[root attrs] f k stack nx dr]; simpl. reflexivity.
Qed.

(** a file: an svg element with groups and shapes in it.  All shapes are drawn, in the order of the file, in the canvases of the groups around them (from the outermost to
    the innermost), with the colors of the innermost element that gives them: black filling and no stroke if there is none; shapes without any color are left out.
    This is without colors at the svg element itself and without svg elements in the file. *)
Theorem svg_groups_partial : forall black a l, exists st,
  handle_all C S (start C S black) (StartSvg a :: concat (map events l) ++ [EndSvg]) = Some st /\
  seen C S st = concat (map (expected 1 [e_attrs _ a] (Some black) None) l) /\ s_stack _ _ st = [].
Proof.
  intros black a l. simpl. set (st0 := mkstate _ _ _ _ _ _ _ _).
  assert (forall l' st', handle_all C S st' (concat (map events l')) = Some (more st' (concat (map (expected (fst (s_canvas _ _ st')) (snd (s_canvas _ _ st')) (s_fillcolor _ _ st') (s_strokecolor _ _ st')) l')))) as Q.
  { induction l' as [|e r IHr]; intros st'; [simpl; now rewrite more_nil|]. simpl. rewrite handle_app, elem_handled. simpl. rewrite IHr. simpl. unfold more; simpl. now rewrite app_assoc. }
  rewrite handle_app, Q. simpl. eexists. split; [reflexivity|]. split; [|reflexivity].
  unfold seen; simpl.
  assert (forall e attrs f k, Forall (fun d => fst (d_place _ _ d) = 1%nat) (expected 1 attrs f k e)) as P.
  { induction e as [b s|b m IH] using elem_rect'; intros attrs f k; simpl.
    - destruct (chosen (e_fill C b) f), (chosen (e_stroke C b) k); repeat constructor.
    - apply Forall_concat, Forall_map. eapply Forall_impl; [|exact IH]. intros e He. apply He. }
  assert (Forall (fun d => fst (d_place _ _ d) = 1%nat) (concat (map (expected 1 [e_attrs C a] (Some black) None) l))) as F.
  { apply Forall_concat, Forall_map, Forall_forall. intros e _. apply P. }
  revert F. generalize (concat (map (expected 1 [e_attrs C a] (Some black) None) l)). induction l0 as [|d r IH]; intros F; [reflexivity|].
  inversion F as [|? ? A B]; subst. simpl. rewrite A. simpl. now rewrite IH.
Qed.
End Groups.
Print Assumptions svg_groups_partial.
(** a color given at the svg element is not used: the shape is black instead of red *)
Theorem svg_root_color_refuted : exists (a : eattrs nat) st, e_fill _ a = Color 7%nat /\
  handle_all nat nat (start nat nat 0%nat) [StartSvg a; Shape (mkeattrs [] Inherit Inherit) 5%nat; EndSvg] = Some st /\ map (d_fill _ _) (seen _ _ st) = [Some 0%nat].
Proof. eexists (mkeattrs [] (Color 7%nat) Inherit), _. split; [reflexivity|]. split; reflexivity. Qed.
Print Assumptions svg_root_color_refuted.
(** an svg element inside of the file makes everything before it disappear *)
Theorem svg_nested_refuted : exists st, handle_all nat nat (start nat nat 0%nat)
  [StartSvg (mkeattrs [] Inherit Inherit); Shape (mkeattrs [] Inherit Inherit) 5%nat; StartSvg (mkeattrs [] Inherit Inherit); EndSvg; EndSvg] = Some st /\ seen _ _ st = [] /\ List.length (s_drawn _ _ st) = 1%nat.
Proof. eexists. split; [reflexivity|]. split; reflexivity. Qed.
Print Assumptions svg_nested_refuted.
Example svg_groups_ex : exists st, handle_all nat nat (start nat nat 0%nat)
  (StartSvg (mkeattrs [] Inherit Inherit) :: concat (map (events nat nat) [EGroup nat nat (mkeattrs [] (Color 3%nat) Inherit) [EShape nat nat (mkeattrs [] Inherit (Color 4%nat)) 8%nat]; EShape nat nat (mkeattrs [] Inherit Inherit) 9%nat]) ++ [EndSvg]) = Some st /\
  map (fun d => (d_fill _ _ d, d_stroke _ _ d, d_shape _ _ d)) (seen _ _ st) = [(Some 3, Some 4, 8); (Some 0, None, 9)]%nat.
Proof. eexists. split; reflexivity. Qed.
