(** Reading SVG paths: the steps. *)
From Coq Require Import Reals Bool List Lra Lia.
From Verif Require Import TrafoModel BboxModel CurveModel CurveSpec ArcModel NormsubModel NormsubSpec NormsubProofs3 NormpathModel PathModel PathSpec PathNormModel PathNormSpec PathNormProofs PathNormProps SvgInModel SvgInSpec.
Import ListNotations.
Open Scope R_scope.

Local Notation pt := (R * R)%type.

(** * Interpreters *)
Lemma add_seg_end g s g' : add_seg g s = Some g' -> point_of (now g') = Some (seg_end s).
Proof.
  unfold add_seg. destruct (now g) as [|p|p l]; intros [=<-]; cbn [now point_of]; auto. rewrite map_app. cbn [map]. now rewrite last_last.
Qed.
Definition coherent (g : gstate) : Prop :=
  match now g with At p => exists fs l, finished g = fs ++ [mkdrawn p l true] | _ => True end.
Lemma add_seg_coherent g s g' : add_seg g s = Some g' -> coherent g'.
Proof. unfold add_seg, coherent. destruct (now g); intros [=<-]; simpl; auto. Qed.
Lemma obey_coherent g o g' : coherent g -> obey g o = Some g' -> coherent g'.
Proof.
  intros C. destruct o; simpl; try discriminate; unfold relative; try (intros [=<-]; exact I); try (apply add_seg_coherent).
  all: try (destruct (point_of (now g)); [|discriminate]); try (intros [=<-]; exact I); try (apply add_seg_coherent).
  unfold coherent in *. destruct (now g) eqn:E; intros [=<-]; simpl; rewrite ?E; eauto.
Qed.
Lemma obey_all_coherent l : forall g g', coherent g -> obey_all g l = Some g' -> coherent g'.
Proof.
  induction l as [|o l IH]; simpl; intros g g' C H; [injection H as <-; auto|]. destruct (obey g o) eqn:E; [|discriminate].
  exact (IH _ _ (obey_coherent _ _ _ C E) H).
Qed.

Definition kind_after (prev : kind) (l : list pathitem) : kind := fold_left (fun k i => after k (kind_of i)) l prev.
Lemma calm_snoc l : forall prev i, calm prev (l ++ [i]) = (calm prev l && calm (kind_after prev l) [i])%bool.
Proof.
  induction l as [|j l IH]; intros prev i; [reflexivity|]. cbn [app calm kind_after fold_left].
  fold (kind_after (after prev (kind_of j)) l).
  destruct (kind_of j); cbn [after]; rewrite ?IH; auto; destruct prev; auto.
Qed.
Lemma kind_after_snoc l prev i : kind_after prev (l ++ [i]) = after (kind_after prev l) (kind_of i).
Proof. unfold kind_after. now rewrite fold_left_app. Qed.
Lemma obey_all_snoc l1 l2 : forall g g1, obey_all g l1 = Some g1 -> obey_all g (l1 ++ l2) = obey_all g1 l2.
Proof. induction l1 as [|o l1 IH]; simpl; intros g g1 H; [now injection H as <-|]. destruct (obey g o); [auto|discriminate]. Qed.

Section Svg.
  Variables (f : nat) (e : R).
  Hypothesis He : 0 < e.
  Local Notation fuel := (S (S f)).
  Definition fine (s : st) : Prop := Forall (fastd e) (ended (fst s)).

  Definition delta_ok (p : list pathitem) (s : st) (d : degree) : Prop :=
    exists q dl, here s = Some q /\ last_delta p = Some dl /\
    match d with
    | Other => snd s = NoControl /\ dl = (0, 0)
    | Three => exists c, snd s = Cubic c /\ fst dl = fst q - fst c /\ snd dl = snd q - snd c
    | Two => exists c, snd s = Quadratic c /\ 3 / 2 * fst dl = fst q - fst c /\ 3 / 2 * snd dl = snd q - snd c
    end.
  Definition Inv (p : list pathitem) (s : st) (k : kind) (d : degree) : Prop :=
    exists p0 l, p = Moveto p0 :: l /\ forallb straight l = true /\ calm Moves l = true /\ kind_after Moves l = k /\
    obey_all (mkgstate [] NoPoint) (outputPS p) = Some (fst s) /\ delta_ok p s d.

  Lemma atend_known p s k d : Inv p s k d -> fine s -> atend fuel e p = here s.
  Proof.
    intros (p0 & l & -> & S & C & _ & O & q & dl & H & _) F. unfold atend.
    destruct (convert_regular e He f p0 l (fst s) S C O F) as (np & CV & SH). rewrite CV.
    assert (CO := obey_all_coherent _ (mkgstate [] NoPoint) _ I O).
    unfold here in *. unfold ended in SH. unfold coherent in CO. destruct (now (fst s)) as [|a|a r]; [discriminate| |].
    - destruct CO as (fs & r & E). rewrite E, app_nil_r in SH. apply Forall2_app_inv_l in SH as (n1 & n2 & _ & SH & ->).
      inversion SH as [|? y ? ? (_ & _ & _ & _ & A) SH']; subst. inversion SH'; subst.
      unfold path_atend. rewrite rev_app_distr. simpl. exact A.
    - apply Forall2_app_inv_l in SH as (n1 & n2 & _ & SH & ->).
      inversion SH as [|? y ? ? (_ & _ & _ & _ & A) SH']; subst. inversion SH'; subst.
      unfold path_atend. rewrite rev_app_distr. simpl. exact A.
  Qed.
  Lemma last_delta_snoc p i : last_delta (p ++ [i]) = Some match i with
    | Curveto _ p2 p3 => (fst p3 - fst p2, snd p3 - snd p2) | Rcurveto _ d2 d3 => (fst d3 - fst d2, snd d3 - snd d2) | _ => (0, 0) end.
  Proof. unfold last_delta. rewrite rev_app_distr. simpl. now destruct i. Qed.
  Lemma grow p s k d i g' c' d' : Inv p s k d -> straight i = true -> kind_of i <> Nothing -> calm k [i] = true ->
    obey_all (fst s) (item_outputPS i) = Some g' -> delta_ok (p ++ [i]) (g', c') d' -> Inv (p ++ [i]) (g', c') (kind_of i) d'.
  Proof.
    intros (p0 & l & -> & S & C & K & O & _) Si N Ck Oi D. exists p0, (l ++ [i]). split; [reflexivity|].
    split; [rewrite forallb_app, S; simpl; now rewrite Si|]. split; [rewrite calm_snoc, C, K; exact Ck|].
    split; [rewrite kind_after_snoc, K; destruct (kind_of i); try reflexivity; congruence|]. split; auto.
    unfold outputPS in *. rewrite flat_map_app. rewrite (obey_all_snoc _ _ _ _ O). simpl. now rewrite app_nil_r.
  Qed.
  Lemma Inv_nonempty p s k d : Inv p s k d -> exists i l, p = i :: l.
  Proof. intros (p0 & l & -> & _). eauto. Qed.

  (** an item that draws one piece *)
  Lemma grow_seg p s k d i sg c' d' q : Inv p s k d -> k <> Closes -> straight i = true -> kind_of i = Draws -> here s = Some q ->
    obey_all (fst s) (item_outputPS i) = add_seg (fst s) sg ->
    forall s', drawing s (fun q => (sg, c')) = Some s' ->
    delta_ok (p ++ [i]) (fst s', c') d' -> Inv (p ++ [i]) s' Draws d' /\ (fine s' -> fine s).
  Proof.
    intros V NC S K H O s' Dr D. unfold drawing in Dr. rewrite H in Dr. cbn [fst snd] in Dr.
    destruct (add_seg (fst s) sg) as [g|] eqn:A; [|discriminate]. injection Dr as <-. cbn [fst] in *. split.
    - rewrite <- K. eapply grow; eauto; rewrite ?K; try discriminate. simpl. rewrite K. destruct k; try reflexivity; congruence.
    - unfold fine. cbn [fst]. intros F. eapply (fastd_before_all e (item_outputPS i) (fst s) g O F).
  Qed.
  Lemma drawing_known s q fn : here s = Some q -> drawing s fn = drawing s (fun _ => fn q).
  Proof. intros H. unfold drawing. now rewrite H. Qed.
  Lemma drawing_here s fn s' : drawing s fn = Some s' -> exists q, here s = Some q /\ here s' = Some (seg_end (fst (fn q))) /\ snd s' = snd (fn q).
  Proof.
    unfold drawing. destruct (here s) as [q|]; [|discriminate]. destruct (add_seg (fst s) (fst (fn q))) eqn:A; [|discriminate].
    intros [=<-]. exists q. split; auto. split; auto. unfold here. cbn [fst]. eapply add_seg_end; eauto.
  Qed.

  (** * The commands, one set of numbers each *)
  Lemma step_line (up : bool) p s k d a s' : Inv p s k d -> k <> Closes -> do_line up s a = Some s' ->
    Inv (p ++ [if up then Lineto a else Rlineto a]) s' Draws Other /\ (fine s' -> fine s).
  Proof.
    intros V NC Dr. destruct (drawing_here _ _ _ Dr) as (q & H & H' & C'). unfold do_line in Dr. rewrite (drawing_known _ _ _ H) in Dr.
    eapply grow_seg; [exact V|exact NC|now destruct up|now destruct up|exact H| |exact Dr|].
    - unfold here in H. destruct up; simpl; unfold relative; rewrite ?H; destruct (add_seg _ _); auto.
    - eexists. eexists. split; [exact H'|]. split; [rewrite last_delta_snoc; reflexivity|]. destruct up; auto.
  Qed.
  Lemma step_move (up : bool) p s k d a : Inv p s k d ->
    Inv (p ++ [if up then Moveto a else Rmoveto a]) (do_move up s a) Moves Other.
  Proof.
    intros V. assert (V' := V). destruct V' as (_ & _ & _ & _ & _ & _ & _ & q & _ & H & _).
    unfold do_move. rewrite H.
    assert (X : Inv (p ++ [if up then Moveto a else Rmoveto a]) (move (fst s) (at_pt up q a), NoControl) (kind_of (if up then Moveto a else Rmoveto a)) Other).
    { eapply grow; [exact V|now destruct up|now destruct up| | |].
      - destruct up; reflexivity.
      - unfold here in H. destruct up; simpl; unfold relative; rewrite ?H; auto.
      - eexists. eexists. split; [reflexivity|]. split; [rewrite last_delta_snoc; reflexivity|]. destruct up; auto. }
    destruct up; exact X.
  Qed.
  Lemma first_move up a : Inv [Moveto a] (do_move up blank a) Moves Other.
  Proof.
    exists a, []. split; auto. split; auto. split; auto. split; auto. split; [reflexivity|].
    eexists. eexists. split; [reflexivity|]. split; [reflexivity|]. auto.
  Qed.
  Lemma step_hor (up : bool) p s k d a s' q : Inv p s k d -> k <> Closes -> here s = Some q -> do_hor up s a = Some s' ->
    Inv (p ++ [if up then Lineto (a, snd q) else Rlineto (a, 0)]) s' Draws Other /\ (fine s' -> fine s) /\ here s' = Some (if up then a else fst q + a, snd q).
  Proof.
    intros V NC H Dr. destruct (drawing_here _ _ _ Dr) as (q' & H0 & H' & C'). assert (q' = q) as -> by congruence. unfold do_hor in Dr. rewrite (drawing_known _ _ _ H) in Dr.
    assert (X : Inv (p ++ [if up then Lineto (a, snd q) else Rlineto (a, 0)]) s' Draws Other /\ (fine s' -> fine s)).
    { eapply grow_seg; [exact V|exact NC|now destruct up|now destruct up|exact H| |exact Dr|].
      - unfold here in H. destruct up; simpl; unfold relative; rewrite ?H; simpl; rewrite ?Rplus_0_r; destruct (add_seg _ _); auto.
      - eexists. eexists. split; [exact H'|]. split; [rewrite last_delta_snoc; reflexivity|]. destruct up; auto. }
    tauto.
  Qed.
  Lemma step_vert (up : bool) p s k d a s' q : Inv p s k d -> k <> Closes -> here s = Some q -> do_vert up s a = Some s' ->
    Inv (p ++ [if up then Lineto (fst q, a) else Rlineto (0, a)]) s' Draws Other /\ (fine s' -> fine s) /\ here s' = Some (fst q, if up then a else snd q + a).
  Proof.
    intros V NC H Dr. destruct (drawing_here _ _ _ Dr) as (q' & H0 & H' & C'). assert (q' = q) as -> by congruence. unfold do_vert in Dr. rewrite (drawing_known _ _ _ H) in Dr.
    assert (X : Inv (p ++ [if up then Lineto (fst q, a) else Rlineto (0, a)]) s' Draws Other /\ (fine s' -> fine s)).
    { eapply grow_seg; [exact V|exact NC|now destruct up|now destruct up|exact H| |exact Dr|].
      - unfold here in H. destruct up; simpl; unfold relative; rewrite ?H; simpl; rewrite ?Rplus_0_r; destruct (add_seg _ _); auto.
      - eexists. eexists. split; [exact H'|]. split; [rewrite last_delta_snoc; reflexivity|]. destruct up; auto. }
    tauto.
  Qed.
  Lemma step_curve (up : bool) p s k d a s' : Inv p s k d -> k <> Closes -> do_curve up s a = Some s' ->
    Inv (p ++ [let '(p1, p2, p3) := a in if up then Curveto p1 p2 p3 else Rcurveto p1 p2 p3]) s' Draws Three /\ (fine s' -> fine s).
  Proof.
    destruct a as [[p1 p2] p3]. intros V NC Dr. destruct (drawing_here _ _ _ Dr) as (q & H & H' & C'). unfold do_curve in Dr. rewrite (drawing_known _ _ _ H) in Dr.
    eapply grow_seg; [exact V|exact NC|now destruct up|now destruct up|exact H| |exact Dr|].
    - unfold here in H. destruct up; simpl; unfold relative; rewrite ?H; destruct (add_seg _ _); auto.
    - eexists. eexists. split; [exact H'|]. split; [rewrite last_delta_snoc; reflexivity|]. exists (at_pt up q p2). split; auto.
      destruct up; simpl; lra.
  Qed.
  Lemma step_smooth (up : bool) p s k d a s' : Inv p s k d -> k <> Closes -> d <> Two -> fine s -> do_smooth up s a = Some s' ->
    exists dl, last_delta p = Some dl /\ exists p1, (if up then option_map (plus_pt dl) (atend fuel e p) else Some dl) = Some p1 /\
    Inv (p ++ [if up then Curveto p1 (fst a) (snd a) else Rcurveto p1 (fst a) (snd a)]) s' Draws Three.
  Proof.
    destruct a as [p2 p3]. intros V NC ND F Dr. destruct (drawing_here _ _ _ Dr) as (q & H & H' & C').
    assert (AE := atend_known _ _ _ _ V F). assert (V' := V). destruct V' as (_ & _ & _ & _ & _ & _ & _ & q' & dl & H0 & LD & DD).
    assert (q' = q) as -> by congruence. exists dl. split; auto. rewrite AE, H.
    assert (RR : (fst q + fst dl, snd q + snd dl) = match snd s with Cubic c => reflected q c | _ => q end).
    { destruct d; [congruence| |].
      - destruct DD as (c & -> & E1 & E2). unfold reflected. rewrite E1, E2. f_equal; lra.
      - destruct DD as (-> & ->). simpl. destruct q; simpl. now rewrite !Rplus_0_r. }
    exists (if up then plus_pt dl q else dl). split; [now destruct up|]. cbn [fst snd].
    unfold do_smooth in Dr. rewrite (drawing_known _ _ _ H) in Dr.
    apply (grow_seg p s k d _ (SegCurve (match snd s with Cubic c => reflected q c | _ => q end) (at_pt up q p2) (at_pt up q p3)) (Cubic (at_pt up q p2)) Three q V NC); [now destruct up|now destruct up|exact H| |exact Dr|].
    - unfold here in H. rewrite <- RR. destruct up; cbn [item_outputPS obey_all obey]; unfold relative; rewrite ?H; unfold plus_pt;
        rewrite ?(Rplus_comm (fst dl)), ?(Rplus_comm (snd dl)); destruct (add_seg _ _); auto.
    - eexists. eexists. split; [exact H'|]. split; [rewrite last_delta_snoc; reflexivity|]. exists (at_pt up q p2). split; auto.
      destruct up; simpl; lra.
  Qed.
  Lemma elevate p0 q p3 g : obey_all g (item_outputPS (from_quadratic p0 q p3)) = add_seg g (elevated p0 q p3).
  Proof.
    unfold from_quadratic, elevated. cbn [item_outputPS obey_all obey].
    replace (fst p0 + 2 / 3 * (fst q - fst p0)) with (fst p0 / 3 + 2 * fst q / 3) by field.
    replace (snd p0 + 2 / 3 * (snd q - snd p0)) with (snd p0 / 3 + 2 * snd q / 3) by field.
    replace (fst p3 + 2 / 3 * (fst q - fst p3)) with (2 * fst q / 3 + fst p3 / 3) by field.
    replace (snd p3 + 2 / 3 * (snd q - snd p3)) with (2 * snd q / 3 + snd p3 / 3) by field.
    destruct (add_seg _ _); auto.
  Qed.
  Lemma step_quad (up : bool) p s k d a s' : Inv p s k d -> k <> Closes -> fine s -> do_quad up s a = Some s' ->
    exists q, atend fuel e p = Some q /\ Inv (p ++ [from_quadratic q (if up then fst a else plus_pt (fst a) q) (if up then snd a else plus_pt (snd a) q)]) s' Draws Two.
  Proof.
    destruct a as [p1 p3]. intros V NC F Dr. destruct (drawing_here _ _ _ Dr) as (q & H & H' & C').
    assert (AE := atend_known _ _ _ _ V F). exists q. split; [congruence|]. cbn [fst snd].
    assert (A : forall p, (if up then p else plus_pt p q) = at_pt up q p) by (intros u; unfold at_pt, plus_pt; destruct up; auto; f_equal; lra).
    rewrite !A. unfold do_quad in Dr. rewrite (drawing_known _ _ _ H) in Dr.
    apply (grow_seg p s k d _ (elevated q (at_pt up q p1) (at_pt up q p3)) (Quadratic (at_pt up q p1)) Two q V NC); [reflexivity|reflexivity|exact H|apply elevate|exact Dr|].
    eexists. eexists. split; [exact H'|]. split; [rewrite last_delta_snoc; reflexivity|]. exists (at_pt up q p1). split; auto. simpl. lra.
  Qed.
  Lemma step_smoothquad (up : bool) p s k d a s' : Inv p s k d -> k <> Closes -> d <> Three -> fine s -> do_smoothquad up s a = Some s' ->
    exists q dl, atend fuel e p = Some q /\ last_delta p = Some dl /\
    Inv (p ++ [from_quadratic q (fst q + 3 / 2 * fst dl, snd q + 3 / 2 * snd dl) (if up then a else plus_pt a q)]) s' Draws Two.
  Proof.
    intros V NC ND F Dr. destruct (drawing_here _ _ _ Dr) as (q & H & H' & C').
    assert (AE := atend_known _ _ _ _ V F). assert (V' := V). destruct V' as (_ & _ & _ & _ & _ & _ & _ & q' & dl & H0 & LD & DD).
    assert (q' = q) as -> by congruence. exists q, dl. split; [congruence|]. split; auto.
    assert (A : forall p, (if up then p else plus_pt p q) = at_pt up q p) by (intros u; unfold at_pt, plus_pt; destruct up; auto; f_equal; lra).
    assert (RR : (fst q + 3 / 2 * fst dl, snd q + 3 / 2 * snd dl) = match snd s with Quadratic c => reflected q c | _ => q end).
    { destruct d; [|congruence|].
      - destruct DD as (c & -> & E1 & E2). unfold reflected. rewrite E1, E2. f_equal; lra.
      - destruct DD as (-> & ->). simpl. destruct q; simpl. now rewrite !Rmult_0_r, !Rplus_0_r. }
    rewrite A, RR. unfold do_smoothquad in Dr. rewrite (drawing_known _ _ _ H) in Dr. cbv zeta in Dr.
    set (p1 := match snd s with Quadratic c => reflected q c | _ => q end) in *.
    apply (grow_seg p s k d _ (elevated q p1 (at_pt up q a)) (Quadratic p1) Two q V NC); [reflexivity|reflexivity|exact H|apply elevate|exact Dr|].
    eexists. eexists. split; [exact H'|]. split; [rewrite last_delta_snoc; reflexivity|]. exists p1. split; auto. simpl. lra.
  Qed.
  Lemma step_close p s d s' : Inv p s Draws d -> do_close s = Some s' -> Inv (p ++ [Closepath]) s' Closes Other.
  Proof.
    intros V Dr. unfold do_close in Dr. destruct (here s) as [q|] eqn:H; [|discriminate].
    destruct (obey (fst s) Oclose) as [g|] eqn:O; [|discriminate]. injection Dr as <-.
    change Closes with (kind_of Closepath). eapply grow; eauto; try discriminate; auto.
    - cbn [item_outputPS obey_all]. rewrite O. reflexivity.
    - assert (exists q', here (g, NoControl) = Some q') as (q' & H').
      { unfold here in *. simpl in *. destruct (now (fst s)) eqn:N; injection O as <-; [discriminate| |]; rewrite ?N; simpl; eauto. }
      eexists. eexists. split; [exact H'|]. split; [rewrite last_delta_snoc; reflexivity|]. auto.
  Qed.
End Svg.
