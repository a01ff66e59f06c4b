(** Paths with arcs: the PDF output draws the same as the PostScript output. *)
From Coq Require Import Reals Bool List Lra.
From Verif Require Import CurveModel ArcModel NormpathModel NormsubProofs PathModel PathSpec PathProps PathNormProps.
Import ListNotations.
Open Scope R_scope.
Local Notation pt := (R * R)%type.

(** arc and arcn of PostScript (PostScript Language Reference): a straight line to the begin of the arc when there is a current
    point, and the curves of the arc.  What the curves are is the subject of C59. *)
Definition seg_of (i : item) : seg := match i with Line _ q => SegLine q | Curve _ p1 p2 p3 => SegCurve p1 p2 p3 end.
Fixpoint add_segs (g : gstate) (l : list seg) : option gstate :=
  match l with [] => Some g | s :: l => match add_seg g s with Some g => add_segs g l | None => None end end.
Definition draw_arc (g : gstate) (start : pt) (l : list item) : option gstate :=
  match now g with
  | NoPoint => add_segs (move g start) (map seg_of l)
  | _ => add_segs g (SegLine start :: map seg_of l)
  end.
Definition obey_arc (g : gstate) (o : op) : option gstate :=
  match o with
  | Oarc x y r a1 a2 => draw_arc g (arcpoint x y r a1) (arc_items x y r a1 a2)
  | Oarcn x y r a1 a2 => draw_arc g (arcpoint x y r a1) (arcn_items x y r a1 a2)
  | _ => obey g o
  end.
Fixpoint obey_arcs (g : gstate) (l : list op) : option gstate :=
  match l with
  | [] => Some g
  | o :: l' => match obey_arc g o with Some g' => obey_arcs g' l' | None => None end
  end.
Definition interpret_arcs (l : list op) : option (list drawn) :=
  match obey_arcs (mkgstate [] NoPoint) l with Some g => Some (filter visible (ended g)) | None => None end.

(** a closepath follows upon an item that draws something, and is followed by a move or an arc *)
Fixpoint calm_arcs (prev : kind) (l : list pathitem) : bool :=
  match l with
  | [] => true
  | i :: l' =>
      match i, kind_of i with
      | Arct _ _ _, _ => false
      | Arc _ _ _ _ _, _ | Arcn _ _ _ _ _, _ => calm_arcs Draws l'
      | _, Nothing => calm_arcs prev l'
      | _, Moves => calm_arcs Moves l'
      | _, Draws => match prev with Closes => false | _ => calm_arcs Draws l' end
      | _, Closes => match prev with Draws => calm_arcs Closes l' | _ => false end
      end
  end.
(** how a path begins: an arc may be nothing but a point *)
Definition begins (i : pathitem) : option kind :=
  match i with
  | Moveto _ => Some Draws
  | Arc x y r a1 a2 => Some (match arc_items x y r a1 a2 with [] => Moves | _ => Draws end)
  | Arcn x y r a1 a2 => Some (match arcn_items x y r a1 a2 with [] => Moves | _ => Draws end)
  | _ => None
  end.

Definition nomulti (i : pathitem) : bool := match i with Multilineto _ | Multicurveto _ => false | _ => true end.
Lemma expand_nomulti l : forallb nomulti (flat_map expand l) = true.
Proof.
  apply forallb_forall. intros x Hx. apply in_flat_map in Hx as [i [_ Hx]].
  destruct i; cbn in Hx; try (destruct Hx as [<-|[]]; reflexivity); apply in_map_iff in Hx as (y & <- & _); [reflexivity|now destruct y as [[? ?] ?]].
Qed.
Lemma calm_lines l : forall prev rest, l <> [] -> prev <> Closes -> calm_arcs prev (map Lineto l ++ rest) = calm_arcs Draws rest.
Proof. induction l as [|p l IH]; intros prev rest H P; [congruence|]. cbn. destruct prev; try congruence; (destruct l; [reflexivity|now apply IH]). Qed.
Lemma calm_curves l : forall prev rest, l <> [] -> prev <> Closes -> calm_arcs prev (map (fun '(p1, p2, p3) => Curveto p1 p2 p3) l ++ rest) = calm_arcs Draws rest.
Proof. induction l as [|[[p1 p2] p3] l IH]; intros prev rest H P; [congruence|]. cbn. destruct prev; try congruence; (destruct l; [reflexivity|now apply IH]). Qed.
Lemma expand_calm_arcs l : forall prev, calm_arcs prev (flat_map expand l) = calm_arcs prev l.
Proof.
  induction l as [|i l IH]; intros prev; [reflexivity|]. cbn [flat_map].
  destruct i; try (cbn; rewrite ?IH; destruct prev; now rewrite ?IH).
  - cbn [expand]. destruct l0 as [|p l0]; [apply IH|]. destruct prev; try reflexivity; (rewrite calm_lines by congruence; apply IH).
  - cbn [expand]. destruct l0 as [|p l0]; [apply IH|]. destruct prev; try (destruct p as [[? ?] ?]; reflexivity); (rewrite calm_curves by congruence; apply IH).
Qed.

Lemma agree_extend l : forall np c g q, agree Draws np c g -> chained (current c) l q ->
  exists g', add_segs g (map seg_of l) = Some g' /\ agree Draws (on_last (fun s => pdf_extend s l) np) (mkcontext q (subfirst c)) g'.
Proof.
  induction l as [|i l IH]; intros np c g q A C.
  - cbn in C. subst q. exists g. split; [reflexivity|]. destruct np, c. exact A.
  - destruct C as [B C]. destruct (agree_add Draws np c g (seg_of i) A ltac:(discriminate)) as (g1 & G1 & A1).
    assert (seg_item (current c) (seg_of i) = i) as E by (rewrite <- B; destruct i; reflexivity). assert (seg_end (seg_of i) = atend_pt i) as E2 by (destruct i; reflexivity). rewrite E, E2 in A1.
    destruct (IH _ _ _ q A1 C) as (g2 & G2 & A2). exists g2. split; [cbn; now rewrite G1|exact A2].
Qed.
Lemma agree_arc prev np c g p l q : agree prev np c g -> chained p l q ->
  exists g', draw_arc g p l = Some g' /\ agree Draws (pdf_arc np (current c) p l) (mkcontext q (subfirst c)) g'.
Proof.
  intros A C. unfold draw_arc, pdf_arc.
  assert (exists g1, add_seg g (SegLine p) = Some g1 /\ now g <> NoPoint /\
    agree Draws (if pdfclosed (lastsub np) then new_sub np (mkpdfsub [PdfItem (Line (current c) p)] false) else on_last (fun s => pdf_append s (Line (current c) p)) np) (mkcontext p (subfirst c)) g1) as (g1 & G1 & N & A1).
  { destruct (match prev with Closes => true | _ => false end) eqn:K.
    - destruct prev; try discriminate. pose proof (agree_point _ _ _ _ A) as P. destruct (agree_ended _ _ _ _ A) as (ds' & F' & E').
      destruct A as (ds & d & F & S & Cu & Sf & Sh & ->). destruct S as (pre & _ & _ & Hc & _). rewrite Hc, Sh.
      eexists. split; [reflexivity|]. split; [discriminate|]. cbn [finished].
      exists (ds ++ [d]), (mkdrawn (start d) [SegLine p] false). cbn [new_sub before lastsub start segs shut current subfirst]. rewrite Sh in Cu. cbn in Cu.
      assert (ds' = ds ++ [d]) as -> by (rewrite <- E'; unfold ended; cbn; now rewrite app_nil_r).
      split; [exact F'|]. split; [|split; [reflexivity|split; [exact Sf|split; [reflexivity|split; [reflexivity|discriminate]]]]].
      exists []. cbn. rewrite Cu. repeat split; auto; discriminate.
    - assert (prev <> Closes) as P by (destruct prev; discriminate). destruct (agree_add prev np c g (SegLine p) A P) as (g1 & G1 & A1). exists g1. split; [exact G1|].
      destruct A as (ds & d & F & S & Cu & Sf & H). assert (shut d = false /\ g = mkgstate ds (Drawing (start d) (segs d))) as [Sh ->] by (destruct prev; try congruence; tauto).
      split; [discriminate|]. destruct S as (pre & _ & _ & Hc & _). rewrite Hc, Sh. exact A1. }
  destruct (agree_extend l _ _ g1 q A1 C) as (g2 & G2 & A2). exists g2. split; [|exact A2].
  destruct (now g); [congruence| |]; cbn [add_segs]; now rewrite G1.
Qed.
Lemma arcs_step prev np c g i rest : nomulti i = true -> calm_arcs prev (i :: rest) = true -> agree prev np c g ->
  exists np' c' g' o, pdf_update (np, c) i = Some (np', c') /\ item_outputPS i = [o] /\ obey_arc g o = Some g' /\ agree (kind_of i) np' c' g' /\ calm_arcs (kind_of i) rest = true.
Proof.
  intros S K A. destruct (straight i) eqn:St.
  - assert (single i = true) as Si by (unfold single; rewrite St; destruct i; trivial).
    assert (calm prev [i] = true /\ calm_arcs (kind_of i) rest = true) as [K1 K2] by (destruct i; try discriminate; cbn in *; destruct prev; try discriminate; now split).
    destruct (agree_step prev np c g i [] Si K1 A) as (np' & c' & g' & o & U & O & G & A' & _). exists np', c', g', o. repeat split; trivial.
    destruct i; try discriminate; injection O as <-; exact G.
  - destruct i as [| | | | | | |x y r a1 a2|x y r a1 a2| | |]; try discriminate.
    + destruct (agree_arc prev np c g (arcpoint x y r a1) (arc_items x y r a1 a2) (arcpoint x y r a2) A (proj1 (arc_items_chained x y r a1 a2))) as (g' & G & A').
      eexists _, _, g', _. split; [reflexivity|]. split; [reflexivity|]. split; [exact G|]. split; [exact A'|exact K].
    + destruct (agree_arc prev np c g (arcpoint x y r a1) (arcn_items x y r a1 a2) (arcpoint x y r a2) A (proj1 (arcn_items_chained x y r a1 a2))) as (g' & G & A').
      eexists _, _, g', _. split; [reflexivity|]. split; [reflexivity|]. split; [exact G|]. split; [exact A'|exact K].
Qed.
Lemma arcs_all l : forall prev np c g, forallb nomulti l = true -> calm_arcs prev l = true -> agree prev np c g ->
  exists np' c' g' prev', pdf_updates (np, c) l = Some (np', c') /\ obey_arcs g (outputPS l) = Some g' /\ agree prev' np' c' g'.
Proof.
  induction l as [|i l IH]; intros prev np c g S K A; [exists np, c, g, prev; auto|].
  cbn [forallb] in S. apply andb_prop in S as [Si Sl].
  destruct (arcs_step prev np c g i l Si K A) as (np1 & c1 & g1 & o & U & O & G & A1 & K1).
  destruct (IH _ np1 c1 g1 Sl K1 A1) as (np2 & c2 & g2 & prev' & U2 & G2 & A2). exists np2, c2, g2, prev'. split; [|split; [|exact A2]].
  - cbn [pdf_updates]. now rewrite U.
  - unfold outputPS in *. cbn [flat_map]. rewrite O. cbn [app obey_arcs]. now rewrite G.
Qed.
Lemma pieces_chain l : forall p q, chained p l q -> map PdfItem l = chain p (map seg_of l) /\ q = endpoint p (map seg_of l).
Proof.
  induction l as [|i l IH]; intros p q C; [now split|]. destruct C as [B C]. destruct (IH _ _ C) as (E1 & E2). cbn [map]. rewrite endpoint_cons. destruct i; cbn in *; subst; split; congruence.
Qed.
Lemma add_segs_drawing l : forall f p l0, add_segs (mkgstate f (Drawing p l0)) l = Some (mkgstate f (Drawing p (l0 ++ l))).
Proof. induction l as [|s l IH]; intros f p l0; cbn; [now rewrite app_nil_r|]. now rewrite IH, <- app_assoc. Qed.

(** C58: for paths with arcs (but no tangent arcs) *)
Theorem pdf_same_as_ps_arcs : forall i l k, begins i = Some k -> calm_arcs k l = true ->
  exists ops d, outputPDF (i :: l) = Some ops /\ interpret ops = Some d /\ interpret_arcs (outputPS (i :: l)) = Some d.
Proof.
  intros i l k B K. rewrite <- expand_calm_arcs in K.
  assert (exists np c g o, pdf_create i = Some np /\ createcontext i = Some c /\ item_outputPS i = [o] /\ obey_arc (mkgstate [] NoPoint) o = Some g /\ agree k np c g) as (np0 & c0 & g0 & o & P & C & O & G0 & A0).
  { assert (AR : forall p its q, chained p its q -> agree (match its with [] => Moves | _ => Draws end) (mkpdfpath [] (mkpdfsub (map PdfItem its) false)) (mkcontext q p) (mkgstate [] (Drawing p (map seg_of its)))).
    { intros p its q Ch. destruct (pieces_chain its p q Ch) as (E1 & E2). exists [], (mkdrawn p (map seg_of its) false). cbn [before lastsub start segs shut current subfirst]. split; [constructor|]. split; [|split; [exact E2|split; [reflexivity|]]].
      - exists []. cbn [start segs shut pdfitems pdfclosed app closing]. unfold closing. cbn [shut]. rewrite app_nil_r. repeat split; trivial; [now left|discriminate].
      - destruct its; (split; [reflexivity|]; split; [reflexivity|]); discriminate. }
    destruct i as [|p| | | | | |x y r a1 a2|x y r a1 a2| | |]; try discriminate; injection B as <-.
    - eexists _, _, _, _. split; [reflexivity|]. split; [reflexivity|]. split; [reflexivity|]. split; [reflexivity|].
      exists [], (mkdrawn p [] false). cbn. repeat split; auto; try discriminate. exists [PdfMoveto p]. cbn. repeat split; auto. discriminate.
    - eexists _, _, _, _. split; [reflexivity|]. split; [reflexivity|]. split; [reflexivity|]. split; [|apply AR, arc_items_chained].
      cbn [obey_arc]. unfold draw_arc. cbn [now]. change (move (mkgstate [] NoPoint) (arcpoint x y r a1)) with (mkgstate [] (Drawing (arcpoint x y r a1) [])). now rewrite add_segs_drawing.
    - eexists _, _, _, _. split; [reflexivity|]. split; [reflexivity|]. split; [reflexivity|]. split; [|apply AR, arcn_items_chained].
      cbn [obey_arc]. unfold draw_arc. cbn [now]. change (move (mkgstate [] NoPoint) (arcpoint x y r a1)) with (mkgstate [] (Drawing (arcpoint x y r a1) [])). now rewrite add_segs_drawing. }
  destruct (arcs_all _ _ _ _ _ (expand_nomulti l) K A0) as (np & c & g & prev & U & G & A).
  rewrite expand_pdf in U. rewrite expand_ps in G.
  destruct (agree_ended _ _ _ _ A) as (ds & F & E). destruct (subs_obeyed _ _ F (mkgstate [] NoPoint)) as (g' & O' & Fl).
  exists (flat_map sub_outputPDF (pdf_subs np)), (filter visible ds). split; [|split].
  - unfold outputPDF, pdf_normpath. rewrite P, C, U. reflexivity.
  - unfold interpret. rewrite O', Fl. reflexivity.
  - unfold interpret_arcs, outputPS. cbn [flat_map]. rewrite O. cbn [app obey_arcs]. rewrite G0. fold (outputPS l). rewrite G, E. reflexivity.
Qed.
Print Assumptions pdf_same_as_ps_arcs.
(** A closed half circle, then an arc after the closepath, which starts a new subpath there. *)
Example pdf_arcs_ex : let l := [Arc 0 0 10 0 180; Closepath; Arcn 5 5 1 90 0; Lineto (7, 7); Closepath] in
  begins (Moveto (0, 0)) = Some Draws /\ calm_arcs Draws l = true /\ outputPS (Moveto (0, 0) :: l) = [Omove (0, 0); Oarc 0 0 10 0 180; Oclose; Oarcn 5 5 1 90 0; Oline (7, 7); Oclose].
Proof. repeat split. Qed.
