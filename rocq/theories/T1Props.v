(** Glyphs of Type 1 fonts: the paths are those which the charstrings draw, and stripped fonts draw the same. *)
From Coq Require Import Reals ZArith Bool Ascii String List Lia Lra.
From Verif Require TrafoModel.
From Verif Require Import T1Model T1Spec T1Proofs T1Proofs2.
Import ListNotations.
Open Scope Z_scope.

(** ** C92: the paths of glyphs *)
Section Drawing.
  Variables T P : Type.
  Variable apply : T -> Z -> Z -> P.
  Variable shift : T -> Z -> Z -> T.
  Hypothesis shift_apply : forall t dx dy x y, apply (shift t dx dy) x y = apply t (x + dx) (y + dy).

  (** Whatever a charstring draws by the standard (with subroutines, flex, hint replacement and composite glyphs), the path is
      that, transformed.  Missing: composite glyphs with a left side bearing, see below. *)
  Theorem glyph_drawn_partial flex F g l st t : getglyph F g = Some l -> exec flex F l initial st -> ended st = true -> (composite st = true -> bearing st = 0) ->
    exists n its w, (forall f, (n <= f)%nat -> getglyphpath T P apply shift flex F f g t = Some (its, w)) /\
      fst (painted its) = map (op_map (fun p => apply t (fst p) (snd p))) (drawn st) /\
      (composite st = false -> forall v, wid st = Some v -> w = Some v).
  Proof.
    intros G E En B. set (c0 := mkcontext P None None [] [] []).
    assert (related T P apply t [] initial c0) as R0.
    { unfold related. cbn. split; [reflexivity|]. split; [discriminate|]. split; [discriminate|]. split; [reflexivity|]. exists None. split; [reflexivity|exact I]. }
    destruct (exec_ok T P apply shift shift_apply flex F l initial st E clean_initial B t [] c0 R0) as (c & (n & R) & (S1 & C1 & W1 & Pc)).
    exists n, (rev (items P c)), (width P c). split; [|split; [|exact W1]].
    - intros f L. unfold getglyphpath. rewrite G. cbn [bind]. fold c0. rewrite (R f L). reflexivity.
    - destruct (proj1 (exec_clean _ _ _ _ _ E clean_initial) En) as [_ Fl]. rewrite Fl in Pc. destruct Pc as (_ & pend & Ep & _). rewrite Ep. reflexivity.
  Qed.
End Drawing.
Print Assumptions glyph_drawn_partial.

(** The transformations of pyx/trafo.py are as required. *)
Definition real_apply (t : TrafoModel.trafo) (x y : Z) : R * R := TrafoModel.apply_pt t (IZR x, IZR y).
Definition real_shift (t : TrafoModel.trafo) (x y : Z) : TrafoModel.trafo := TrafoModel.tmul t (TrafoModel.translate_pt (IZR x) (IZR y)).
Theorem trafo_shift t dx dy x y : real_apply (real_shift t dx dy) x y = real_apply t (x + dx) (y + dy).
Proof.
  unfold real_apply, real_shift, TrafoModel.apply_pt, TrafoModel.tmul, TrafoModel.translate_pt. cbn. rewrite !plus_IZR. f_equal; lra.
Qed.
Print Assumptions trafo_shift.

(** ** Examples *)
Ltac tidy := match goal with |- exec _ _ _ ?s _ => let v := eval vm_compute in s in change s with v end.
Ltac num := eapply E_num; [reflexivity|]; tidy.

(** Subroutines 0 to 3 are those of Adobe; 4 has new hints and 5 draws a side of a box. *)
Definition sample_subrs : list (list tok) :=
  flexhintsubrs ++ [[Num 10; Num 20; Cmd Hstem; Cmd Return]; [Num 100; Cmd Hlineto; Cmd Return]; [Num 7; Num 8; Cmd Vstem; Cmd Return]].
Definition sample_glyphs : list (string * list tok) :=
  ([(".notdef", [Num 0; Num 250; Cmd Hsbw; Cmd Endchar]);
    (* a box, with hint replacement *)
    ("A", [Num 50; Num 600; Cmd Hsbw; Num 10; Num 20; Cmd Vstem; Num 4; Num 1; Num 3; Cmd Callothersubr; Cmd Pop; Cmd Callsubr;
           Num 30; Num 200; Num 10; Cmd Div; Cmd Rmoveto; Num 5; Cmd Callsubr; Num 100; Cmd Vlineto; Num (-100); Cmd Hlineto; Cmd Closepath; Cmd Endchar]);
    (* a flex, and back by a curve *)
    ("acute", [Num 20; Num 300; Cmd Hsbw; Num 500; Cmd Vmoveto; Num 1; Cmd Callsubr; Num 50; Num 2; Cmd Rmoveto; Num 2; Cmd Callsubr;
               Num (-40); Num (-2); Cmd Rmoveto; Num 2; Cmd Callsubr; Num 20; Num 2; Cmd Rmoveto; Num 2; Cmd Callsubr; Num 20; Cmd Hmoveto; Num 2; Cmd Callsubr;
               Num 20; Cmd Hmoveto; Num 2; Cmd Callsubr; Num 20; Num (-2); Cmd Rmoveto; Num 2; Cmd Callsubr; Num 10; Num 0; Cmd Rmoveto; Num 2; Cmd Callsubr;
               Num 50; Num 120; Num 500; Num 0; Cmd Callsubr;
               Num (-30); Num (-40); Num (-60); Num 40; Cmd Vhcurveto; Cmd Closepath; Cmd Endchar]);
    ("Aacute", [Num 0; Num 610; Cmd Hsbw; Num 20; Num 150; Num 90; Num 65; Num 194; Cmd Seac]);
    ("Aacute.alt", [Num 50; Num 600; Cmd Hsbw; Num 20; Num 150; Num 90; Num 65; Num 194; Cmd Seac]);
    ("B", [Num 50; Num 650; Cmd Hsbw; Num 6; Cmd Callsubr; Num 40; Num 0; Cmd Rlineto; Cmd Closepath; Cmd Endchar])])%string.
Definition sample : font := mkfont sample_subrs sample_glyphs.
Definition A_toks : list tok := snd (nth 1 sample_glyphs (""%string, [])).
Definition acute_toks : list tok := snd (nth 2 sample_glyphs (""%string, [])).
Definition Aacute_toks : list tok := snd (nth 3 sample_glyphs (""%string, [])).
Definition A_drawn : list (op pos) := [Begin (80, 20); Line (180, 20); Line (180, 120); Line (80, 120); Close].
Definition acute_drawn : list (op pos) := [Begin (20, 500); Curve (30, 500) (50, 502) (70, 502); Curve (90, 502) (110, 500) (120, 500); Curve (120, 470) (80, 410) (120, 410); Close].

Lemma A_exec : exec true sample A_toks initial (mkstate [] (Some (80, 120)) 50 (Some (600, 0)) true None A_drawn true false).
Proof.
  unfold A_toks. cbn [nth sample_glyphs snd]. do 2 num. (eapply E_simple; [reflexivity|eapply S_hsbw; reflexivity|]; tidy). do 2 num. (eapply E_simple; [reflexivity|eapply S_vstem; reflexivity|]; tidy).
  do 3 num. eapply E_hints; [reflexivity|reflexivity|]. tidy. eapply E_callsubr with (i := 4%nat) (s := []); [reflexivity|reflexivity|reflexivity|tidy|].
  { do 2 num. (eapply E_simple; [reflexivity|eapply S_hstem; reflexivity|]; tidy). apply E_return. reflexivity. }
  tidy. do 3 num. (eapply E_simple; [reflexivity|eapply (S_div _ [30] 20 10); [reflexivity|lia]|]; tidy). (eapply E_simple; [reflexivity|eapply S_rmoveto; [reflexivity|reflexivity|discriminate]|]; tidy).
  num. eapply E_callsubr with (i := 5%nat) (s := []); [reflexivity|reflexivity|reflexivity|tidy|].
  { num. (eapply E_simple; [reflexivity|eapply S_hlineto; reflexivity|]; tidy). apply E_return. reflexivity. }
  tidy. num. (eapply E_simple; [reflexivity|eapply S_vlineto; reflexivity|]; tidy). num. (eapply E_simple; [reflexivity|eapply S_hlineto; reflexivity|]; tidy).
  (eapply E_simple; [reflexivity|eapply S_closepath; reflexivity|]; tidy). apply E_endchar; reflexivity.
Qed.
Ltac point := num; eapply E_callsubr with (i := 2%nat) (s := []); [reflexivity|reflexivity|reflexivity|tidy; do 2 num; (eapply E_simple; [reflexivity|eapply S_flex_point; reflexivity|]; tidy); apply E_return; reflexivity|]; tidy.
Ltac rmove := do 2 num; (eapply E_simple; [reflexivity|eapply S_rmoveto; [reflexivity|reflexivity|discriminate]|]; tidy).
Ltac hmove := num; (eapply E_simple; [reflexivity|eapply S_hmoveto; [reflexivity|reflexivity|discriminate]|]; tidy).
Lemma acute_exec : exec true sample acute_toks initial (mkstate [] (Some (120, 410)) 20 (Some (300, 0)) true None acute_drawn true false).
Proof.
  unfold acute_toks. cbn [nth sample_glyphs snd]. do 2 num. (eapply E_simple; [reflexivity|eapply S_hsbw; reflexivity|]; tidy). num. (eapply E_simple; [reflexivity|eapply S_vmoveto; [reflexivity|reflexivity|discriminate]|]; tidy).
  num. eapply E_callsubr with (i := 1%nat) (s := []); [reflexivity|reflexivity|reflexivity|tidy; do 2 num; (eapply E_simple; [reflexivity|eapply S_flex_begin; reflexivity|]; tidy); apply E_return; reflexivity|]; tidy.
  rmove. point. rmove. point. rmove. point. hmove. point. hmove. point. rmove. point. rmove. point.
  do 4 num. eapply E_callsubr with (i := 0%nat) (s := [50; 120; 500]); [reflexivity|reflexivity|reflexivity|tidy|].
  { do 2 num. eapply E_flex; [reflexivity|reflexivity|reflexivity|reflexivity|]. apply E_return. reflexivity. }
  tidy. do 4 num. (eapply E_simple; [reflexivity|eapply S_vhcurveto; reflexivity|]; tidy). (eapply E_simple; [reflexivity|eapply S_closepath; reflexivity|]; tidy). apply E_endchar; reflexivity.
Qed.
Lemma Aacute_exec : exists st, exec true sample Aacute_toks initial st /\ ended st = true /\ composite st = true /\ bearing st = 0 /\ wid st = Some (610, 0) /\
  drawn st = A_drawn ++ map (op_map (fun p => (fst p + 130, snd p + 90))) acute_drawn.
Proof.
  eexists. split.
  - unfold Aacute_toks. cbn [nth sample_glyphs snd]. do 2 num. (eapply E_simple; [reflexivity|eapply S_hsbw; reflexivity|]; tidy). do 5 num.
    eapply E_seac; [reflexivity|reflexivity|discriminate|reflexivity|reflexivity|lia|lia|reflexivity|reflexivity|reflexivity|reflexivity|exact A_exec|exact acute_exec|reflexivity|reflexivity|reflexivity|reflexivity].
  - repeat split.
Qed.
(** and the path of the code, with points scaled by 2 *)
Definition double (k x y : Z) : Z * Z := (k * x, k * y).
Example glyph_drawn_example :
  option_map (fun r => (fst (painted (fst r)), snd r)) (getglyphpath Z (Z * Z) double (fun k _ _ => k) true sample 100 "A" 2) =
    Some ([Begin (160, 40); Line (360, 40); Line (360, 240); Line (160, 240); Close], Some (600, 0)) /\
  option_map (fun r => (fst (painted (fst r)), snd r)) (getglyphpath Z (Z * Z) double (fun k _ _ => k) false sample 100 "acute" 1) =
    Some ([Begin (20, 500); Line (120, 500); Curve (120, 470) (80, 410) (120, 410); Close], Some (300, 0)).
Proof. split; reflexivity. Qed.
(** a composite glyph, with transformations by integers *)
Definition moved_by (t : Z * Z) (x y : Z) : Z * Z := (x + fst t, y + snd t).
Definition more (t : Z * Z) (dx dy : Z) : Z * Z := (fst t + dx, snd t + dy).
Lemma more_moved t dx dy x y : moved_by (more t dx dy) x y = moved_by t (x + dx) (y + dy).
Proof. unfold moved_by, more. cbn. f_equal; lia. Qed.
Example composite_example : fst (match getglyphpath _ _ moved_by more true sample 100 "Aacute" (0, 0) with Some (its, w) => painted its | None => ([], None) end) =
  A_drawn ++ map (op_map (fun p => (fst p + 130, snd p + 90))) acute_drawn.
Proof. reflexivity. Qed.

(** ** What is wrong *)
Lemma path_unique T P apply shift flex F f1 f2 g t r1 r2 :
  getglyphpath T P apply shift flex F f1 g t = Some r1 -> getglyphpath T P apply shift flex F f2 g t = Some r2 -> r1 = r2.
Proof.
  unfold getglyphpath. destruct (getglyph F g) as [l|]; [|discriminate]. cbn [bind]. set (c0 := mkcontext P None None [] [] []).
  assert (forall f k c, update T P apply shift flex F f l t c0 = Some c -> update T P apply shift flex F (k + f) l t c0 = Some c) as Mo by (intros f k c H; induction k as [|k IH]; [exact H|apply update_S, IH]).
  destruct (update T P apply shift flex F f1 l t c0) as [a|] eqn:E1; [|discriminate]. destruct (update T P apply shift flex F f2 l t c0) as [b|] eqn:E2; [|discriminate].
  apply (Mo _ f2) in E1. apply (Mo _ f1) in E2. rewrite Nat.add_comm in E2. rewrite E1 in E2. injection E2 as ->. cbn. congruence.
Qed.

(** The width of a composite glyph is the one of its accent: hsbw of the accent sets the width in the context last. *)
Theorem composite_width_refuted : exists F g l st t, getglyph F g = Some l /\ exec true F l initial st /\ ended st = true /\ bearing st = 0 /\
  exists f its w, getglyphpath _ _ moved_by more true F f g t = Some (its, w) /\ w <> wid st /\
  forall f its' w', getglyphpath _ _ moved_by more true F f g t = Some (its', w') -> w' = w.
Proof.
  destruct Aacute_exec as (st & E & En & _ & B & W & _). exists sample, "Aacute"%string, Aacute_toks, st, (0, 0). split; [reflexivity|]. split; [exact E|]. split; [exact En|]. split; [exact B|].
  exists 100%nat. do 2 eexists. split; [vm_compute; reflexivity|]. split; [rewrite W; discriminate|].
  intros f its' w' H. assert (exists r, getglyphpath _ _ moved_by more true sample 100 "Aacute" (0, 0) = Some r /\ snd r = Some (300, 0)) as (r & E2 & W2) by (eexists; split; [vm_compute; reflexivity|reflexivity]).
  pose proof (path_unique _ _ _ _ _ _ _ _ _ _ _ _ H E2) as Q. rewrite <- Q in W2. exact W2.
Qed.
Print Assumptions composite_width_refuted.

(** The accent of a composite glyph with a left side bearing is at a wrong place: as interpreters of the standard (like FreeType
    and Ghostscript) do it, adx counts from the left side bearing point of the composite glyph, here it counts from its origin. *)
Theorem composite_bearing_refuted : exists F g l st t, getglyph F g = Some l /\ exec true F l initial st /\ ended st = true /\
  (exists f r, getglyphpath _ _ moved_by more true F f g t = Some r) /\
  forall f its w, getglyphpath _ _ moved_by more true F f g t = Some (its, w) -> fst (painted its) <> map (op_map (fun p => moved_by t (fst p) (snd p))) (drawn st).
Proof.
  eexists sample, "Aacute.alt"%string, _, _, (0, 0). split; [reflexivity|]. split; [|split; [|split]].
  - do 2 num. (eapply E_simple; [reflexivity|eapply S_hsbw; reflexivity|]; tidy). do 5 num.
    eapply E_seac; [reflexivity|reflexivity|discriminate|reflexivity|reflexivity|lia|lia|reflexivity|reflexivity|reflexivity|reflexivity|exact A_exec|exact acute_exec|reflexivity|reflexivity|reflexivity|reflexivity].
  - reflexivity.
  - exists 100%nat. eexists. vm_compute. reflexivity.
  - intros f its w H. assert (exists r, getglyphpath _ _ moved_by more true sample 100 "Aacute.alt" (0, 0) = Some r /\ fst (painted (fst r)) = A_drawn ++ map (op_map (fun p => (fst p + 130, snd p + 90))) acute_drawn) as (r & E2 & W2) by (eexists; split; [vm_compute; reflexivity|reflexivity]).
    pose proof (path_unique _ _ _ _ _ _ _ _ _ _ _ _ H E2) as Q. rewrite <- Q in W2. cbn [fst] in W2. rewrite W2. vm_compute. discriminate.
Qed.
Print Assumptions composite_bearing_refuted.

(** Quotients which are not integers are rounded down (l.511-514): 7 2 div gives 3, and -7 2 div gives -4. *)
Theorem div_refuted : exists a b its w x, a mod b <> 0 /\
  getglyphpath _ _ moved_by more true (mkfont [] [("A"%string, [Num 0; Num 100; Cmd Hsbw; Num a; Num b; Cmd Div; Cmd Hlineto; Cmd Endchar])]) 100 "A" (0, 0) = Some (its, w) /\
  fst (painted its) = [Begin (0, 0); Line (x, 0)] /\ (IZR x <> IZR a / IZR b)%R.
Proof.
  exists 7, 2. do 3 eexists. split; [discriminate|]. split; [vm_compute; reflexivity|]. split; [reflexivity|]. lra.
Qed.
Print Assumptions div_refuted.

(** ** C93: stripped fonts *)
(** Every glyph which is asked for has its charstring in the stripped font, and draws the same there; if none of them is
    composite, there are no other glyphs besides .notdef. *)
Theorem stripped_draws_same flex F gs : (forall g, In g gs -> exists l st, getglyph F g = Some l /\ exec flex F l initial st) ->
  exists n gs' used, (forall f, (n <= f)%nat -> selected F f gs = Some (gs', used)) /\ In ".notdef"%string gs' /\
    (forall g l st, In g gs -> getglyph F g = Some l -> exec flex F l initial st ->
      getglyph (stripped F gs' used) g = Some l /\ exec flex (stripped F gs' used) l initial st) /\
    ((forall g, In g gs -> exists l st, getglyph F g = Some l /\ exec flex F l initial st /\ composite st = false) ->
      forall e, In e (glyphs (stripped F gs' used)) -> In e (glyphs F) /\ (In (fst e) gs \/ fst e = ".notdef"%string)).
Proof.
  intros H. destruct (gather_all_ok flex F gs [] [] H) as (n & seac & used & R & _ & _ & C & K). exists n, (gs ++ seac ++ [".notdef"%string]), used. split; [|split; [|split]].
  - intros f L. unfold selected. rewrite (R f L). reflexivity.
  - apply in_or_app. right. apply in_or_app. right. left. reflexivity.
  - intros g l st Hg Gl Ex. pose proof (stripped_keeps F (gs ++ seac ++ [".notdef"%string]) used) as Kp. split; [apply (proj2 Kp); [apply in_or_app; left; exact Hg|exact Gl]|].
    apply (K g l st Hg Gl Ex). eapply keeps_less; [| |exact Kp]; [|apply incl_refl]. intros z Hz. apply in_or_app. right. apply in_or_app. left. exact Hz.
  - intros Q e He. rewrite (C Q) in He. unfold stripped in He. cbn [glyphs] in He. apply filter_In in He as [He X]. split; [exact He|]. apply existsb_exists in X as (x & Hx & Ex). apply String.eqb_eq in Ex. rewrite Ex. cbn in Hx. apply in_app_or in Hx as [Hx|[<-|[]]]; [left; exact Hx|right; reflexivity].
Qed.
Print Assumptions stripped_draws_same.

(** So the paths are the same. *)
Theorem stripped_paths_same T P apply shift flex F gs : (forall t dx dy x y, apply (shift t dx dy) x y = apply t (x + dx) (y + dy) :> P) ->
  (forall g, In g gs -> exists l st, getglyph F g = Some l /\ exec flex F l initial st /\ ended st = true /\ (composite st = true -> bearing st = 0)) ->
  exists n gs' used, selected F n gs = Some (gs', used) /\ forall g (t : T), In g gs -> exists m its1 w1 its2 w2,
    getglyphpath T P apply shift flex F m g t = Some (its1, w1) /\ getglyphpath T P apply shift flex (stripped F gs' used) m g t = Some (its2, w2) /\ fst (painted its1) = fst (painted its2).
Proof.
  intros Sh H. destruct (stripped_draws_same flex F gs) as (n & gs' & used & R & _ & K & _).
  { intros g Hg. destruct (H g Hg) as (l & st & G & E & _). eauto. }
  exists n, gs', used. split; [apply R; lia|]. intros g t Hg. destruct (H g Hg) as (l & st & G & E & En & B). destruct (K g l st Hg G E) as [G' E'].
  destruct (glyph_drawn_partial T P apply shift Sh flex F g l st t G E En B) as (n1 & its1 & w1 & R1 & D1 & _).
  destruct (glyph_drawn_partial T P apply shift Sh flex _ g l st t G' E' En B) as (n2 & its2 & w2 & R2 & D2 & _).
  exists (n1 + n2)%nat, its1, w1, its2, w2. split; [apply R1; lia|]. split; [apply R2; lia|]. congruence.
Qed.
Print Assumptions stripped_paths_same.

Example stripped_example : exists gs' used, selected sample 100 ["Aacute"%string] = Some (gs', used) /\
  map fst (glyphs (stripped sample gs' used)) = [".notdef"; "A"; "acute"; "Aacute"]%string /\ length (subrs (stripped sample gs' used)) = 6%nat /\
  option_map (fun r => painted (fst r)) (getglyphpath _ _ moved_by more true (stripped sample gs' used) 100 "Aacute" (0, 0)) =
  option_map (fun r => painted (fst r)) (getglyphpath _ _ moved_by more true sample 100 "Aacute" (0, 0)).
Proof. do 2 eexists. split; [vm_compute; reflexivity|]. split; [reflexivity|]. split; vm_compute; reflexivity. Qed.
Example stripped_example_B : exists gs' used, selected sample 100 ["B"%string] = Some (gs', used) /\
  stripped sample gs' used = mkfont (repeat [Cmd Return] 6 ++ [[Num 7; Num 8; Cmd Vstem; Cmd Return]]) [nth 0 sample_glyphs (""%string, []); nth 5 sample_glyphs (""%string, [])].
Proof. do 2 eexists. split; vm_compute; reflexivity. Qed.
