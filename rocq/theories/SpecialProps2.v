(** C147, C148: examples of specials, what goes wrong, and markers of transformed texts *)
From Coq Require Import Ascii String ZArith List Bool Lia Reals.
From Verif Require Import UnitModel TrafoModel ColorModel DviModel SpecialModel MapModel MapSpec MapProps SpecialSpec SpecialProps.
From Coq Require Import Lra.
Import ListNotations.
Open Scope R_scope.

(** ** an example: natural numbers can be read *)
Fixpoint digits (acc : Z) (s : text) : option Z := match s with [] => Some acc | c :: r => if isdigit c then digits (10 * acc + (c - 48)) r else None end.
Definition dec (s : text) : option Z := match s with [] => None | _ => digits 0 s end.
Definition fdec (s : text) : option R := option_map IZR (dec s).
Definition nocolor (m n : text) : option color := None.
Definition sp (s : string) : text := key ("PyX:" ++ s).
(** a rectangle and a marker at (5, 7) within a rotation by 90 degrees at (4, 7) within a doubling at (0, 0) *)
Definition sample : list item := [Special (sp "scale_begin 2 2") 0 0; Special (sp "rotate_begin 90") 4 7; Rect 5 7 1 1; Special (sp "marker here") 5 7; Special (sp "rotate_end") 4 7; Special (sp "scale_end") 9 9].
Definition sample_parts : list part := [Group (Scaled 2 2 0 0) [Group (Rotated 90 4 7) [Drawn (Leaf (Rect 5 7 1 1)); Mark (key "here") (5, 7)]]].
Lemma plain_of s : forallb (fun c => negb (isspace c)) s = true -> plain s.
Proof. intros E. apply Forall_forall. intros c I C. rewrite forallb_forall in E. specialize (E c I). apply space_iff in C. rewrite C in E. discriminate. Qed.
Lemma spaced_one w : w <> [] -> forallb (fun c => negb (isspace c)) w = true -> spaced [w] w.
Proof. intros N P. rewrite <- (app_nil_r w) at 2. apply (spaced_cons [] w [] []); [apply Forall_nil|exact N|now apply plain_of|apply spaced_nil, Forall_nil|now left]. Qed.
Lemma spaced_more w l t : w <> [] -> forallb (fun c => negb (isspace c)) w = true -> spaced l (32%Z :: t) -> spaced (w :: l) (w ++ 32%Z :: t).
Proof. intros N P S. apply (spaced_cons [] w l (32%Z :: t)); [apply Forall_nil|exact N|now apply plain_of|exact S|right; eexists _, _; split; [reflexivity|now apply space_iff]]. Qed.
Lemma spaced_pre l t : spaced l t -> spaced l (32%Z :: t).
Proof.
  intros S. destruct S as [ws F|ws w l t F N P S E]; [apply spaced_nil; constructor; [now apply space_iff|exact F]|].
  change (32%Z :: ws ++ w ++ t) with ((32%Z :: ws) ++ w ++ t). apply spaced_cons; auto. constructor; [now apply space_iff|exact F].
Qed.
Lemma sample_written : written (special_says fdec dec nocolor) sample_parts sample.
Proof.
  apply (written_group _ [] [] [Group (Rotated 90 4 7) [Drawn (Leaf (Rect 5 7 1 1)); Mark (key "here") (5, 7)]] [Special (sp "rotate_begin 90") 4 7; Rect 5 7 1 1; Special (sp "marker here") 5 7; Special (sp "rotate_end") 4 7] (Scaled 2 2 0 0) (sp "scale_begin 2 2") 0 0 (sp "scale_end") 9 9).
  - apply begins_scale. exists [key "scale_begin"; key "2"; key "2"], (key "scale_begin 2 2"). split; [constructor; reflexivity|]. split; [|reflexivity].
    apply (spaced_more (key "scale_begin") _ (key "2 2")); [discriminate|reflexivity|]. apply spaced_pre. apply (spaced_more (key "2") _ (key "2")); [discriminate|reflexivity|]. apply spaced_pre, spaced_one; [discriminate|reflexivity].
  - apply (written_group _ [] [] [Drawn (Leaf (Rect 5 7 1 1)); Mark (key "here") (5, 7)] [Rect 5 7 1 1; Special (sp "marker here") 5 7] (Rotated 90 4 7) (sp "rotate_begin 90") 4 7 (sp "rotate_end") 4 7).
    + apply begins_rotate. exists [key "rotate_begin"; key "90"], (key "rotate_begin 90"). split; [constructor; reflexivity|]. split; [|reflexivity].
      apply (spaced_more (key "rotate_begin") _ (key "90")); [discriminate|reflexivity|]. apply spaced_pre, spaced_one; [discriminate|reflexivity].
    + apply written_rect, written_mark; [|constructor]. exists [key "marker"; key "here"], (key "marker here"). split; [|split; [|reflexivity]].
      * constructor. apply Forall_forall. intros c I. assert (markerchar c = true) as E by (revert c I; apply forallb_forall; reflexivity). unfold markerchar, isdigit in E. unfold alphanumeric. lia.
      * apply (spaced_more (key "marker") _ (key "here")); [discriminate|reflexivity|]. apply spaced_pre, spaced_one; [discriminate|reflexivity].
    + exists [key "rotate_end"], (key "rotate_end"). split; [constructor; cbn; tauto|]. split; [|reflexivity]. apply spaced_one; [discriminate|reflexivity].
    + constructor.
  - exists [key "scale_end"], (key "scale_end"). split; [constructor; cbn; tauto|]. split; [|reflexivity]. apply spaced_one; [discriminate|reflexivity].
  - constructor.
Qed.
Lemma half_turn : 90 * PI / 180 = PI / 2. Proof. field. Qed.
Example page_read_ex : exists c, page fdec dec nocolor (translate_pt 1 0) sample = Some c /\ getmarker (c_markers c) (key "here") = Some (8, 16).
Proof.
  destruct (page_read fdec dec nocolor (translate_pt 1 0) sample_parts sample sample_written) as (c & P & _ & _ & _ & M & _). { cbn. repeat constructor. tauto. }
  exists c. split; [exact P|]. rewrite (M [Scaled 2 2 0 0; Rotated 90 4 7] (key "here") (5, 7)).
  - unfold on_page. cbn [fold_right moved fst snd]. rewrite half_turn, cos_PI2, sin_PI2. apply f_equal, (f_equal2 pair); ring.
  - eapply within_group; [left; reflexivity|]. eapply within_group; [left; reflexivity|]. apply within_here. right. left. reflexivity.
Qed.
(** a color as it may be written in TeX *)
Example color_words_ex : color_words fdec dec nocolor [key "pyxcolor"; key "pyx.color.rgb(1,0,1)"] (RGB 1 0 1).
Proof.
  apply (words_pyx fdec dec nocolor "pyx.color." "rgb" [key "1"; key "0"; key "1"] [1; 0; 1] (RGB 1 0 1)); [cbn; tauto| |repeat constructor|unfold unit_interval; repeat constructor; lra|reflexivity].
  repeat (constructor; [apply numeral_int; [discriminate|repeat constructor; unfold digit; cbn; lia]|]). constructor.
Qed.

(** ** what goes wrong *)
(** C147: the name of a marker that is used within a group and outside of it is no error, the place outside is lost *)
Theorem marker_lost_refuted : exists c, page fdec dec nocolor id_trafo [Special (sp "marker a") 1 2; Special (sp "scale_begin 1 1") 0 0; Special (sp "marker a") 5 6; Special (sp "scale_end") 0 0] = Some c /\ getmarker (c_markers c) (key "a") = Some (5, 6).
Proof. eexists. split; [reflexivity|]. transitivity (Some (apply_pt (mktrafo 1 0 0 1 ((1 - 1) * 0) ((1 - 1) * 0)) (5, 6))); [reflexivity|]. apply f_equal. unfold apply_pt. cbn [m00 m01 m10 m11 v0 v1 fst snd]. apply (f_equal2 pair); ring. Qed.
Print Assumptions marker_lost_refuted.
(** C147: while the same name twice in the same group is an error *)
Theorem marker_twice : forall fl int named t n x y x' y' l l1 l2, special_says fl int named t (Marker n) ->
  Forall (fun i => match i with Special _ _ _ => False | _ => True end) l1 -> page fl int named l (Special t x y :: l1 ++ Special t x' y' :: l2) = None.
Proof.
  intros fl int named t n x y x' y' l l1 l2 S F. unfold page. cbn [places place]. rewrite (says_command _ _ _ _ _ S). cbn [bind execute c_markers existsb app].
  set (c := set_markers _ _). assert (M : existsb (fun p => chars_eqb (fst p) n) (c_markers c) = true). { cbn. rewrite (proj2 (eqb_iff n n) eq_refl). reflexivity. }
  clearbody c. revert c M. induction l1 as [|i l1 IH]; intros c M.
  - cbn [app places place]. rewrite (says_command _ _ _ _ _ S). cbn [bind execute]. rewrite M. reflexivity.
  - inversion F as [|? ? I F']; subst. cbn [app places]. destruct i as [f a b s|a b w h|s a b]; [| |destruct I]; cbn [place insert bind]; apply (IH F'); exact M.
Qed.
Print Assumptions marker_twice.
Example marker_twice_ex : page fdec dec nocolor id_trafo [Special (sp "marker a") 1 2; Rect 0 0 1 1; Special (sp "marker a") 5 6] = None.
Proof. reflexivity. Qed.
(** C147: of a page with a group that is not finished only the group is left *)
Theorem unfinished_refuted : exists c, page fdec dec nocolor (translate_pt 3 4) [Rect 1 1 1 1; Special (sp "color_begin gray 1") 0 0; Rect 5 5 1 1] = Some c /\ c_items c = [Leaf (Rect 5 5 1 1)] /\ c_trafo c = id_trafo.
Proof.
  unfold page. cbn [places place insert bind]. rewrite (says_command fdec dec nocolor (sp "color_begin gray 1") (ColorBegin (Gray 1))).
  - eexists. split; [reflexivity|]. split; reflexivity.
  - exists [key "color_begin"; key "gray"; key "1"], (key "color_begin gray 1"). split; [constructor; constructor; [reflexivity|unfold unit_interval; lra]|]. split; [|reflexivity].
    apply (spaced_more (key "color_begin") _ (key "gray 1")); [discriminate|reflexivity|]. apply spaced_pre. apply (spaced_more (key "gray") _ (key "1")); [discriminate|reflexivity|]. apply spaced_pre, spaced_one; [discriminate|reflexivity].
Qed.
Print Assumptions unfinished_refuted.
(** C147: signs and exponents of the values of a color are lost: 1e-1 is read as 1, 1e1 as two numbers, -1 as 1 *)
Theorem color_exponent_refuted : numpat (key "(1e-1,.5)") = [key "1"; key ".5"] /\ numpat (key "(1e1)") = [key "1"; key "1"] /\ numpat (key "(-1)") = [key "1"].
Proof. repeat split; reflexivity. Qed.
Print Assumptions color_exponent_refuted.

(** ** texts *)
Section TEXT.
Variable fl : text -> option R.
Variable int : text -> option Z.
Variable named : text -> text -> option color.
Variable items : list item.
(** what can be done with a text: transform it, or have its page read *)
Inductive action := Transform (ts : list trafo) | Read.
Fixpoint perform (l : list action) (b : textbox) : option textbox :=
  match l with [] => Some b | Transform ts :: r => perform r (transform ts b) | Read :: r => match read_text fl int named items b with Some b' => perform r b' | None => None end end.
Definition transformations (l : list action) : list trafo := flat_map (fun a => match a with Transform ts => ts | Read => [] end) l.
Lemma apply_tmul a b p : apply_pt (tmul a b) p = apply_pt a (apply_pt b p).
Proof. destruct p. unfold apply_pt, tmul. cbn. apply (f_equal2 pair); ring. Qed.
Lemma fold_trafo ts : forall t p, apply_pt (fold_left (fun s t => tmul t s) ts t) p = fold_left (fun q u => apply_pt u q) ts (apply_pt t p).
Proof. induction ts as [|u ts IH]; intros t p; [reflexivity|]. cbn [fold_left]. rewrite IH, apply_tmul. reflexivity. Qed.
(** C148: a marker moves with the text: wherever the page is read between the transformations, the canvas is drawn with all of them and the marker is its place on the page with all of them *)
Theorem marker_moves : forall l parts acts scalex x y b0 b, written (special_says fl int named) parts items -> NoDup (flat_map names parts) -> l = transformations acts ->
  new_textbox scalex x y = Some b0 -> perform acts b0 = Some b -> In Read acts ->
  exists c, dvicanvas b = Some c /\ (forall p, apply_pt (c_trafo c) p = fold_left (fun q t => apply_pt t q) l (x + scalex * fst p, y + scalex * snd p)) /\
    forall es n p, within parts es (Mark n p) -> marker b n = Some (apply_pt (c_trafo c) (on_page es p)).
Proof.
  intros l parts acts scalex x y b0 b W D -> NB P I.
  assert (G : forall acts b1 b, perform acts b1 = Some b -> (dvicanvas b1 <> None \/ In Read acts) ->
    (forall c, dvicanvas b1 = Some c -> c_trafo c = texttrafo b1 /\ forall es n p, within parts es (Mark n p) -> getmarker (c_markers c) n = Some (on_page es p)) ->
    exists c, dvicanvas b = Some c /\ c_trafo c = texttrafo b /\ (forall p, apply_pt (texttrafo b) p = fold_left (fun q t => apply_pt t q) (transformations acts) (apply_pt (texttrafo b1) p)) /\
      forall es n p, within parts es (Mark n p) -> getmarker (c_markers c) n = Some (on_page es p)).
  { clear acts b0 b NB P I. induction acts as [|[ts|] acts IH]; intros b1 b P I C.
    - injection P as <-. destruct (dvicanvas b1) as [c|] eqn:E; [|destruct I as [I|[]]; contradiction]. exists c. destruct (C c eq_refl) as [C1 C2]. auto.
    - cbn [perform] in P. destruct (IH (transform ts b1) b P) as (c & E & T & A & M).
      + destruct I as [I|[I|I]]; [left|discriminate|right; exact I]. unfold transform. cbn. destruct (dvicanvas b1); [discriminate|contradiction].
      + intros c E. unfold transform in E. cbn in E. destruct (dvicanvas b1) as [c1|]; [|discriminate]. injection E as <-. destruct (C c1 eq_refl) as [C1 C2]. cbn. rewrite C1. auto.
      + exists c. split; [exact E|]. split; [exact T|]. split; [|exact M]. intros p. rewrite A. cbn [transform texttrafo transformations flat_map]. fold (transformations acts). rewrite fold_left_app, fold_trafo. reflexivity.
    - cbn [perform] in P. unfold read_text in P. destruct (dvicanvas b1) as [c1|] eqn:E1.
      + assert (NN : dvicanvas b1 <> None) by congruence. destruct (IH b1 b P (or_introl NN)) as (c & H); [intros c E; apply C; congruence|]. exists c. exact H.
      + destruct (page_read fl int named (texttrafo b1) parts items W D) as (c1 & P1 & T1 & _ & _ & M1 & _). rewrite P1 in P. cbn [option_map] in P.
        destruct (IH (mktext (texttrafo b1) (Some c1)) b P) as (c & H); [left; discriminate|intros c E; injection E as <-; auto|]. exists c. exact H. }
  destruct (G acts b0 b P (or_intror I)) as (c & E & T & A & M). { intros c E. unfold new_textbox in NB. cbn in NB. injection NB as <-. discriminate. }
  exists c. split; [exact E|]. split.
  - intros p. rewrite T, A. apply f_equal. unfold new_textbox in NB. cbn in NB. injection NB as <-. destruct p. unfold apply_pt, tmul, translate_pt. cbn. apply (f_equal2 pair); ring.
  - intros es n p Wi. unfold marker. rewrite E. cbn [bind]. rewrite (M es n p Wi), T. reflexivity.
Qed.
End TEXT.
Print Assumptions marker_moves.
Example marker_moves_ex : exists b0 b, new_textbox 1 100 0 = Some b0 /\ perform fdec dec nocolor sample [Transform [translate_pt 0 5]; Read; Transform [translate_pt 0 6]] b0 = Some b /\ marker b (key "here") = Some (108, 27).
Proof.
  eexists. destruct (page_read fdec dec nocolor (tmul (translate_pt 0 5) (tmul (translate_pt 100 0) (mktrafo 1 0 0 1 0 0))) sample_parts sample sample_written) as (c & P & _ & _ & _ & M & _). { cbn. repeat constructor. tauto. }
  eexists. split; [reflexivity|]. split. { cbn -[page sample]. unfold read_text. cbn [dvicanvas texttrafo transform option_map]. cbn -[page sample]. rewrite P. reflexivity. }
  unfold marker. cbn [dvicanvas transform option_map bind with_trafo c_markers texttrafo fold_left]. rewrite (M [Scaled 2 2 0 0; Rotated 90 4 7] (key "here") (5, 7)).
  - unfold on_page. cbn [fold_right moved fst snd option_map]. rewrite half_turn, cos_PI2, sin_PI2. apply f_equal. unfold apply_pt, tmul, translate_pt. cbn. apply (f_equal2 pair); ring.
  - eapply within_group; [left; reflexivity|]. eapply within_group; [left; reflexivity|]. apply within_here. right. left. reflexivity.
Qed.
(** C148: a text with a rule has no textpath *)
Theorem textpath_refuted : exists b0 b, new_textbox 1 0 0 = Some b0 /\ perform fdec dec nocolor [Rect 0 0 10 1] [Read] b0 = Some b /\ textpath b = None.
Proof. eexists. eexists. repeat split; reflexivity. Qed.
Print Assumptions textpath_refuted.
(** C148: the textpath of a text of letters only is made of these *)
Theorem textpath_letters : forall fl int named t items, (forall i, In i items -> exists f x y s, i = Text f x y s) ->
  exists c, page fl int named t items = Some c /\ textpath (mktext t (Some c)) = Some (map (fun i => match i with Text f x y s => (f, x, y, s) | _ => (TeXfont [] 0 (fun _ => None), 0, 0, []) end) items).
Proof.
  intros fl int named t items H.
  assert (G : forall c, (forall i, In i items -> exists f x y s, i = Text f x y s) -> places fl int named items [c] = Some [mkcanvas (c_trafo c) (c_color c) (c_items c ++ map Leaf items) (c_markers c)]).
  { clear H. induction items as [|i l IH]; intros c H; [cbn; rewrite app_nil_r; destruct c; reflexivity|]. destruct (H i (or_introl eq_refl)) as (f & x & y & s & ->).
    cbn [places place insert bind]. rewrite IH by (intros j J; apply H; right; exact J). cbn. rewrite <- app_assoc. reflexivity. }
  unfold page. rewrite (G _ H). eexists. split; [reflexivity|]. unfold textpath. cbn [dvicanvas bind c_items app]. clear G. induction items as [|i l IH]; [reflexivity|].
  destruct (H i (or_introl eq_refl)) as (f & x & y & s & ->). cbn [map sequence bind]. rewrite IH by (intros j J; apply H; right; exact J). reflexivity.
Qed.
Print Assumptions textpath_letters.
