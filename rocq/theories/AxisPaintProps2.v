(** C129: the room taken by ticks, labels and titles of axes *)
From Coq Require Import Reals List Bool Arith Lia Lra.
From Verif Require Import BoxModel BoxAlign AxisPaintModel AxisPaintSpec AxisPaintProps.
Import ListNotations.
Open Scope R_scope.

Lemma labelled_length p l : labelattrs p = true -> length (labelled (aligned p l)) = length (labelled l).
Proof.
  intros LA. unfold aligned. rewrite LA. destruct (equalize _ _ _).
  - destruct l as [|d r]; auto. set (l0 := d :: r) in *. rewrite boxes_labelled in *. unfold linealignequal. destruct (farthest _ _ _ _) as [v|].
    + destruct (labelled_replace l0 (map (transform (translation v) false) (map snd (labelled l0)))) as [Z _]; [now rewrite !map_length|]. clear - Z. induction Z; cbn; auto.
    + destruct (labelled_replace l0 (map snd (labelled l0))) as [Z _]; [now rewrite !map_length|]. clear - Z. induction Z; cbn; auto.
  - rewrite labelled_align. now rewrite map_length.
Qed.
Lemma Forall2_members {A B} (l1 : list A) (l2 : list B) : length l1 = length l2 -> Forall2 (fun _ y => In y l2) l1 l2.
Proof.
  intros L. assert (forall m, (forall y, In y l2 -> In y m) -> Forall2 (fun _ y => In y m) l1 l2) as H.
  { intros m. revert l1 L. induction l2 as [|y l2 IH]; intros [|x l1] L HI; try discriminate; constructor.
    - apply HI. now left.
    - apply IH; auto. intros z I. apply HI. now right. }
  apply H. auto.
Qed.
(** the extents of the labels *)
Lemma label_reaches p l : fine l -> labelattrs p = true -> equalize (hequalize p) (vequalize p) (map mdir l) = false \/ level l ->
  Forall2 (fun tb x => mpoint (fst x) = mpoint (fst tb) /\ mdir (fst x) = mdir (fst tb) /\
    let r := extent (snd x) (px (mdir (fst x))) (py (mdir (fst x))) + labeldist p in
    (forall q, In q (corners (snd x)) -> labeldist p <= outward (mpoint (fst tb)) (mdir (fst tb)) q <= r) /\
    exists q, In q (corners (snd x)) /\ outward (mpoint (fst tb)) (mdir (fst tb)) q = r) (labelled l) (labelled (aligned p l)).
Proof.
  intros F LA H. apply (Forall2_imp _ _ _ _ (aligned_put p l F LA H)). intros (t, b) (t', b') I (E1 & E2 & k & M & N). cbn [fst snd] in *.
  split; auto. split; auto. rewrite E2. cbv zeta. destruct F as [U T].
  pose proof (proj1 (labelled_in l t b) I) as [I1 _]. destruct (reach (mpoint t) (mdir t) _ b b' (labeldist p) (U t I1) (T t b I) M N) as [A (q & J & Q)].
  split.
  - intros x X. specialize (A x X). lra.
  - exists q. split; auto. lra.
Qed.
(** C129: the extent is the distance of the farthest end of a tick or corner of a label (or the one before) *)
Theorem axis_extent : forall p l c, (forall t, In t l -> is_unit (mdir t)) ->
  (forall t b, In (t, b) (labelled l) -> typeset (mpoint t) (mdir t) b) ->
  labelattrs p = false \/ equalize (hequalize p) (vequalize p) (map mdir l) = false \/ level l ->
  let c' := paint p l None c in
  extent_pt c <= extent_pt c' /\
  (forall t i o, In t l -> has_tick p l t i o -> o <= extent_pt c' /\ - i <= extent_pt c') /\
  (exists new, labels c' = labels c ++ new /\ (labelattrs p = true -> Forall2 (fun tb b' => forall q, In q (corners b') -> outward (mpoint (fst tb)) (mdir (fst tb)) q <= extent_pt c') (labelled l) new) /\
  (extent_pt c' = extent_pt c \/ (exists t i o, In t l /\ has_tick p l t i o /\ (extent_pt c' = o \/ extent_pt c' = - i)) \/
   exists tb b' q, In (tb, b') (combine (labelled l) new) /\ In q (corners b') /\ outward (mpoint (fst tb)) (mdir (fst tb)) q = extent_pt c')).
Proof.
  intros p l c U T H c'. assert (fine l) as FN by (split; auto).
  assert (c' = fold_left (paint_mark p (maxticklevel l)) (aligned p l) c) as EC by reflexivity. clearbody c'. rewrite paint_fold in EC.
  pose proof (widen_fold (flat_map (reaches p (maxticklevel l)) (aligned p l)) (extent_pt c)) as W. cbv zeta in W. rewrite EC. cbn [extent_pt labels].
  set (e := fold_left widen _ _) in *. destruct W as (W1 & W2 & W3). split; auto. split.
  { intros t i o I HT. apply tick_lengths_is in HT. destruct (Forall2_in_l _ _ _ _ (aligned_same p l) I) as (t' & I' & E1 & E2 & E3).
    assert (tick_lengths p (maxticklevel l) t' = Some (i, o)) as HT' by (rewrite <- HT; unfold tick_lengths; now rewrite E3).
    assert (forall x, x = o \/ x = - i -> x <= e) as X. { intros x X. apply W2. apply in_flat_map. exists t'. split; auto. unfold reaches. rewrite HT'. cbn. destruct X; auto. }
    split; apply X; auto. }
  exists (if labelattrs p then boxes (aligned p l) else []). split; [reflexivity|].
  assert (labelattrs p = true -> Forall2 (fun tb x => In (extent (snd x) (px (mdir (fst x))) (py (mdir (fst x))) + labeldist p) (flat_map (reaches p (maxticklevel l)) (aligned p l))) (labelled l) (labelled (aligned p l))) as IR.
  { intros LA. pose proof (Forall2_members (labelled l) (labelled (aligned p l)) (eq_sym (labelled_length p l LA))) as X.
    apply (Forall2_imp _ _ _ _ X). intros tb (t', b') _ I. cbn [fst snd]. apply labelled_in in I as [I E]. apply in_flat_map. exists t'. split; auto.
    unfold reaches. rewrite E, LA. apply in_or_app. right. now left. }
  destruct (labelattrs p) eqn:LA.
  - destruct H as [H|H]; [discriminate|]. pose proof (label_reaches p l FN LA H) as LR. specialize (IR eq_refl).
    rewrite boxes_labelled. split.
    + intros _. clear W3. revert LR IR W2. generalize (labelled l), (labelled (aligned p l)), (flat_map (reaches p (maxticklevel l)) (aligned p l)), e. clear.
      intros l1 l2 m e LR. induction LR as [|tb (t', b') l1 l2 (E1 & E2 & B & _) LR IH]; intros IR W; [constructor|]. inversion IR as [|? ? ? ? I1 I2]; subst. constructor.
      * cbn [snd fst] in *. intros q J. specialize (B q J). specialize (W _ I1). lra.
      * apply IH; auto.
    + destruct W3 as [W3|W3]; [now left|]. right. apply in_flat_map in W3 as (t' & I' & R). unfold reaches in R. apply in_app_or in R as [R|R].
      * left. destruct (tick_lengths p (maxticklevel l) t') as [[i o]|] eqn:TL; [|contradiction].
        destruct (Forall2_in_r _ _ _ _ (aligned_same p l) I') as (t & I & E1 & E2 & E3). exists t, i, o. split; auto. split.
        { apply tick_lengths_is. rewrite <- TL. unfold tick_lengths. now rewrite E3. }
        destruct R as [R|[R|[]]]; auto.
      * right. destruct (label t') as [b'|] eqn:EL; [|contradiction]. rewrite LA in R. destruct R as [R|[]].
        assert (In (t', b') (labelled (aligned p l))) as I2 by (apply labelled_in; auto).
        assert (exists tb q, In (tb, b') (combine (labelled l) (map snd (labelled (aligned p l)))) /\ In q (corners b') /\ outward (mpoint (fst tb)) (mdir (fst tb)) q = extent b' (px (mdir t')) (py (mdir t')) + labeldist p) as (tb & q & X1 & X2 & X3).
        { revert I2 LR. generalize (labelled l), (labelled (aligned p l)). clear. intros l1 l2 I LR.
          induction LR as [|tb x l1 l2 (E1 & E2 & _ & q & J & Q) LR IH]; [contradiction|]. destruct I as [->|I].
          - exists tb, q. cbn [fst snd] in *. cbn. auto.
          - destruct (IH I) as (tb' & q' & X1 & X2). exists tb', q'. cbn. auto. }
        exists tb, b', q. rewrite <- R. auto.
  - split; [discriminate|]. destruct W3 as [W3|W3]; [now left|]. right. left. apply in_flat_map in W3 as (t' & I' & R). unfold reaches in R. rewrite LA in R.
    apply in_app_or in R as [R|R]; [|destruct (label t'); contradiction].
    destruct (tick_lengths p (maxticklevel l) t') as [[i o]|] eqn:TL; [|contradiction].
    destruct (Forall2_in_r _ _ _ _ (aligned_same p l) I') as (t & I & E1 & E2 & E3). exists t, i, o. split; auto. split.
    { apply tick_lengths_is. rewrite <- TL. unfold tick_lengths. now rewrite E3. }
    destruct R as [R|[R|[]]]; auto.
Qed.
Print Assumptions axis_extent.
(** C129: the title is moved outward until its nearest corner has the distance of titles from the extent before;
    its farthest corner is the new extent *)
Theorem axis_title : forall p l b c0 d c, is_unit d -> typeset c0 d b -> exists b', let c' := paint p l (Some (b, d)) c in
  titles c' = titles c ++ [b'] /\ (exists v, moved d v b b') /\ nearest c0 d (extent_pt (paint p l None c) + titledist p) b' /\
  (forall q, In q (corners b') -> outward c0 d q <= extent_pt c') /\ exists q, In q (corners b') /\ outward c0 d q = extent_pt c'.
Proof.
  intros p l b c0 d c U T. set (e := extent_pt (paint p l None c) + titledist p). exists (linealign b e (- px d) (- py d)). cbv zeta.
  destruct (linealign_typeset c0 d e b U T) as (k & M & N). split.
  { change (titles (paint_regular p l c) ++ [linealign b e (- px d) (- py d)] = titles c ++ [linealign b e (- px d) (- py d)]). f_equal. unfold paint_regular. now rewrite paint_fold. }
  split; [eexists; exact M|]. split; [exact N|].
  destruct (reach c0 d _ b _ e U T M N) as [A B]. change (extent_pt (paint p l (Some (b, d)) c)) with (e + extent (linealign b e (- px d) (- py d)) (px d) (py d)).
  split; auto. intros q I. apply A, I.
Qed.
Print Assumptions axis_title.
(** C129: along a straight axis the title has at least the distance of titles from all labels and all ends of ticks *)
Theorem axis_title_apart : forall p l b d a c, is_unit d -> typeset a d b -> (forall t, In t l -> mdir t = d /\ outward a d (mpoint t) = 0) ->
  (forall t b, In (t, b) (labelled l) -> typeset (mpoint t) (mdir t) b) ->
  labelattrs p = false \/ equalize (hequalize p) (vequalize p) (map mdir l) = false \/ level l ->
  let c' := paint p l (Some (b, d)) c in exists b' newl, titles c' = titles c ++ [b'] /\ labels c' = labels c ++ newl /\
  forall q, In q (corners b') ->
  (forall b2 q2, In b2 newl -> In q2 (corners b2) -> titledist p <= outward a d q - outward a d q2) /\
  (forall t i o q2, In t l -> has_tick p l t i o -> outside (mpoint t) d (- i) q2 \/ outside (mpoint t) d o q2 -> titledist p <= outward a d q - outward a d q2).
Proof.
  intros p l b d a c U T S TL H c'. assert (forall t, In t l -> is_unit (mdir t)) as UL. { intros t I. destruct (S t I) as [-> _]. exact U. }
  destruct (axis_title p l b a d c U T) as (b' & X1 & _ & [N _] & _). destruct (axis_extent p l c UL TL H) as (_ & Y2 & newl & Y3 & Y4 & _).
  exists b', newl. split; [exact X1|]. split.
  { rewrite <- Y3. unfold c', paint, paint_title. reflexivity. }
  intros q I. specialize (N q I).
  assert (forall c q2, outward a d c = 0 -> outward a d q2 = outward c d q2) as SH. { clear. intros c q2 E. unfold outward in *. lra. }
  split.
  - intros b2 q2 I2 J2. destruct (labelattrs p) eqn:LA.
    + destruct (Forall2_in_r _ _ _ _ (Y4 eq_refl) I2) as ((t, b0) & I0 & Q). specialize (Q q2 J2). cbn [fst] in Q. apply labelled_in in I0 as [I0 _].
      destruct (S t I0) as [Ed Eo]. rewrite Ed in Q. rewrite (SH _ q2 Eo). lra.
    + exfalso. unfold paint, paint_title, paint_regular in Y3. rewrite paint_fold, LA in Y3. cbn [labels] in Y3. apply app_inv_head in Y3. now subst newl.
  - intros t i o q2 I2 HT O2. destruct (Y2 t i o I2 HT) as [Z1 Z2]. destruct (S t I2) as [Ed Eo]. rewrite (SH _ q2 Eo).
    assert (forall r, outside (mpoint t) d r q2 -> outward (mpoint t) d q2 = r) as OO.
    { intros r [O1 O3]. unfold outward. rewrite O1, O3. unfold is_unit in U. replace r with (r * (px d * px d + py d * py d)) at 3 by (rewrite U; ring). ring. }
    destruct O2 as [O2|O2]; rewrite (OO _ O2); lra.
Qed.
Print Assumptions axis_title_apart.
(** ** an axis with two labels *)
Lemma rect_convex x y w h rc ac : 0 < w -> 0 < h -> convex (corners (new_rect x y w h rc ac)).
Proof.
  intros W H. split; [cbn; lia|]. intros i j I J N1 N2. cbn in I, J.
  assert (0 < w * h) as P by now apply Rmult_lt_0_compat.
  destruct i as [|[|[|[|i]]]]; [| | | |lia]; (destruct j as [|[|[|[|j]]]]; [| | | |lia]); cbn in N1, N2; try lia; cbn; lra.
Qed.
Lemma rect_distinct x y w h rc ac s : 1 <= w -> 1 <= h -> s = 1 \/ s = - (1) -> distinct (corners (new_rect x y w h rc ac)) 0 s.
Proof.
  intros W H S i I. cbn in I. pose proof eps_pos as EP. unfold eps in EP.
  assert (/ 10 ^ 10 < 1) as E1. { rewrite <- Rinv_1. apply Rinv_lt_contravar; lra. }
  assert (sqrt (0 * 0 + s * s) = 1) as SQ. { replace (0 * 0 + s * s) with 1 by (destruct S as [-> | ->]; ring). apply sqrt_1. }
  assert (1 <= w * w) as WW. { rewrite <- (Rmult_1_l 1). apply Rmult_le_compat; lra. }
  assert (1 <= h * h) as HH. { rewrite <- (Rmult_1_l 1). apply Rmult_le_compat; lra. }
  cbv zeta. unfold height, sideways. rewrite SQ.
  assert (forall z, / 10 ^ 10 < z \/ / 10 ^ 10 < - z -> / 10 ^ 10 < Rabs z) as AB.
  { intros z [Z|Z]; [apply Rlt_le_trans with z; auto; apply RRle_abs|]. rewrite <- Rabs_Ropp. apply Rlt_le_trans with (- z); auto. apply RRle_abs. }
  destruct i as [|[|[|[|i]]]]; [| | | |lia]; cbn - [Rabs Rinv pow]; destruct S as [-> | ->];
  (split; [simpl pow; lra|split; [first [left; field | right; apply AB; lra]|intros [? ?]; lra]]).
Qed.
Lemma rect_typeset a x y w h rc ac s : 1 <= w -> 1 <= h -> s = 1 \/ s = - (1) -> center (new_rect x y w h rc ac) = a -> typeset a (0, s) (new_rect x y w h rc ac).
Proof.
  intros W H S C. split; [apply rect_convex; lra|]. split; auto. cbn [px py fst snd]. split.
  - now apply rect_distinct.
  - rewrite Ropp_0. apply rect_distinct; auto. destruct S as [-> | ->]; [now right|left; ring].
Qed.
(** a tick upwards of length 3 and a label below with the height h above and depth dp below the point *)
Definition tick_at (x h dp : R) : mark :=
  {| mpoint := (x, 0); mdir := (0, 1); ticklevel := Some 0%nat; label := Some (new_rect (x - 5) (- dp) 10 (h + dp) (0, 0) (5, dp)) |}.
Definition title_at (x h dp : R) : polygon := new_rect (x - 5) (- dp) 10 (h + dp) (0, 0) (5, dp).
Definition painter_ex (v : bool) : regular :=
  {| tickattrs := fun _ _ => true; gridattrs := fun _ _ => false; innerlength := Fixed 3; outerlength := Fixed 1;
     labelattrs := true; labeldist := 2; hequalize := false; vequalize := v; titledist := 4 |}.
Lemma labelled_tick x h dp l : labelled (tick_at x h dp :: l) = (tick_at x h dp, new_rect (x - 5) (- dp) 10 (h + dp) (0, 0) (5, dp)) :: labelled l.
Proof. reflexivity. Qed.
Lemma tick_at_typeset x h dp : 1 <= h + dp -> typeset (x, 0) (0, 1) (new_rect (x - 5) (- dp) 10 (h + dp) (0, 0) (5, dp)).
Proof. intros H. apply rect_typeset; auto; try lra. cbn. unfold px, py. cbn. f_equal; ring. Qed.
Lemma extent_rect v b x y w h rc ac : 1 <= w -> 1 <= h -> corners b = map (translation v) (corners (new_rect x y w h rc ac)) -> extent b 0 1 = h.
Proof.
  intros W H E. assert (is_unit (0, 1)) as U by (unfold is_unit; cbn; ring).
  destruct (extent_width b 0 1) as [A (q & q' & I & I' & Q)].
  { rewrite E. apply convex_moved, rect_convex; lra. } { now apply (unit_nonzero (0, 1)). }
  { rewrite E. apply distinct_moved, rect_distinct; auto. } { rewrite E, Ropp_0. apply distinct_moved, rect_distinct; auto. }
  assert (forall q, height 0 1 q = py q) as HH. { intros z. rewrite height_unit1 by ring. ring. }
  assert (forall q, In q (corners b) -> y + py v <= py q <= y + h + py v) as B.
  { intros z Z. rewrite E in Z. cbn in Z. destruct Z as [<-|[<-|[<-|[<-|[]]]]]; cbn; unfold py; lra. }
  pose proof (B q I). pose proof (B q' I'). rewrite !HH in Q.
  specialize (A (translation v (x, y + h)) (translation v (x, y))). rewrite !HH in A. cbn in A.
  assert (snd (translation v (x, y + h)) - snd (translation v (x, y)) = h) as EH by (cbn; unfold py; ring).
  unfold py in *. rewrite E in A. cbn in A. unfold py in *. cbn in A. specialize (A ltac:(auto) ltac:(auto)). cbn in *. lra.
Qed.
Section TWO.
Variable v : bool.
Definition two : list mark := [tick_at 0 10 2; tick_at 100 2 10].
Lemma unit_up : is_unit (0, 1). Proof. unfold is_unit; cbn; ring. Qed.
Lemma two_unit : forall t, In t two -> is_unit (mdir t). Proof. intros t [<-|[<-|[]]]; exact unit_up. Qed.
Lemma two_typeset : forall t b, In (t, b) (labelled two) -> typeset (mpoint t) (mdir t) b.
Proof. intros t b. unfold two. rewrite !labelled_tick. intros [E|[E|[]]]; injection E as <- <-; apply tick_at_typeset; lra. Qed.
Lemma two_extent : extent_pt (paint (painter_ex v) two None axiscanvas) = 14.
Proof.
  destruct (axis_labels (painter_ex v) two None axiscanvas eq_refl two_unit two_typeset) as (new & E & F & _).
  unfold paint, paint_title, paint_regular in *. rewrite paint_fold in *. cbn [labels] in E. cbn [labelattrs painter_ex axiscanvas labels app] in E.
  cbn [extent_pt]. pose proof (aligned_same (painter_ex v) two) as S.
  assert (length (labelled (aligned (painter_ex v) two)) = 2%nat) as L by (now rewrite labelled_length).
  rewrite boxes_labelled in E. set (l := aligned (painter_ex v) two) in *. clearbody l.
  unfold two in S. inversion S as [|? t1 ? l1 (A1 & A2 & A3) S1]; subst. inversion S1 as [|? t2 ? l2 (B1 & B2 & B3) S2]; subst. inversion S2; subst.
  unfold labelled in L, F. cbn [flat_map] in L, F. destruct (label t1) as [b1|] eqn:L1; [|destruct (label t2); discriminate]. destruct (label t2) as [b2|] eqn:L2; [|discriminate].
  cbn [app labelled flat_map map snd label two tick_at] in F. inversion F as [|? ? ? ? [[v1 M1] _] F2]; subst. inversion F2 as [|? ? ? ? [[v2 M2] _] _]; subst.
  cbn [flat_map]. unfold reaches, tick_lengths. rewrite A3, B3, L1, L2. cbn [tick_at ticklevel tickattrs painter_ex innerlength outerlength selectlength labelattrs app labeldist].
  rewrite A2, B2. cbn [tick_at mdir px py fst snd].
  destruct M1 as (_ & M1 & _), M2 as (_ & M2 & _). cbn [snd] in M1, M2.
  pose proof (fun W H => extent_rect _ _ _ _ _ _ _ _ W H M1) as X1. pose proof (fun W H => extent_rect _ _ _ _ _ _ _ _ W H M2) as X2. rewrite X1, X2 by lra.
  cbn [fold_left axiscanvas extent_pt].
  assert (forall a b, a < b -> widen a b = b) as WL. { intros a b AB. unfold widen. destruct (ltb_case a b) as [[? ->]|[? ->]]; lra. }
  assert (forall a b, b <= a -> widen a b = a) as WG. { intros a b AB. unfold widen. destruct (ltb_case a b) as [[? ->]|[? ->]]; lra. }
  rewrite (WL 0 1), (WG 1 (- (3))), (WL 1 (10 + 2 + 2)), (WG (10 + 2 + 2) 1), (WG (10 + 2 + 2) (- (3))), (WG (10 + 2 + 2) (2 + 10 + 2)) by lra. lra.
Qed.
Lemma two_title : exists b' : polygon, AxisPaintModel.titles (paint (painter_ex v) two (Some (title_at 50 6 1, (0, 1))) axiscanvas) = [b'] /\ nearest (50, 0) (0, 1) 18 b'.
Proof.
  destruct (axis_title (painter_ex v) two (title_at 50 6 1) (50, 0) (0, 1) axiscanvas unit_up (tick_at_typeset 50 6 1 ltac:(lra))) as (b' & E & _ & N & _).
  exists b'. split; auto. rewrite two_extent in N. cbn [titledist painter_ex] in N. replace (14 + 4) with 18 in N by ring. exact N.
Qed.
End TWO.
(** labels of heights 10 and 2 with depths 2 and 10: each for itself they reach down to 14, the title starts at 18 *)
Example axis_title_apart_ex : exists b', titles (paint (painter_ex false) two (Some (title_at 50 6 1, (0, 1))) axiscanvas) = [b'] /\ extent_pt (paint (painter_ex false) two None axiscanvas) = 14 /\ nearest (50, 0) (0, 1) 18 b'.
Proof. destruct (two_title false) as (b' & A & B). exists b'. split; auto. split; auto. apply two_extent. Qed.
(** C129: but with labels moved together the extent is too small: the title overlaps a label *)
Theorem axis_title_apart_refuted : exists p l b d a, is_unit d /\ typeset a d b /\ (forall t, In t l -> mdir t = d /\ outward a d (mpoint t) = 0) /\ (forall t b, In (t, b) (labelled l) -> typeset (mpoint t) (mdir t) b) /\ 0 < titledist p /\
  let c' := paint p l (Some (b, d)) axiscanvas in exists b' b2 q q2, titles c' = [b'] /\ In b2 (labels c') /\ In q (corners b') /\ In q2 (corners b2) /\
  outward a d q < outward a d q2 /\ extent_pt (paint p l None axiscanvas) < outward a d q2.
Proof.
  exists (painter_ex true), two, (title_at 50 6 1), (0, 1), (50, 0). split; [exact unit_up|]. split; [apply tick_at_typeset; lra|]. split.
  { intros t [<-|[<-|[]]]; (split; [reflexivity|]); unfold outward; cbn; ring. }
  split; [exact two_typeset|]. split; [cbn; lra|]. cbv zeta. destruct (two_title true) as (b' & ET & _ & q & Iq & Eq).
  assert (equalize (hequalize (painter_ex true)) (vequalize (painter_ex true)) (map mdir two) = true) as EQ.
  { unfold equalize, two. cbn [map tick_at mdir equaldirection forallb px py fst snd painter_ex hequalize vequalize]. unfold reqb. destruct (Req_EM_T 1 1), (Req_EM_T 0 0); try lra; reflexivity. }
  destruct (aligned_equal (painter_ex true) two (conj two_unit two_typeset) eq_refl EQ) as (k & d & ED & F2 & A & t1 & b1 & q1 & I1 & J1 & Q1).
  { unfold two. rewrite labelled_tick. discriminate. }
  assert (d = (0, 1)) as ->. { symmetry. apply (ED (tick_at 0 10 2)). now left. }
  assert (k = - (12)) as ->.
  { unfold two in A, I1. rewrite !labelled_tick in A, I1. cbn [labeldist painter_ex] in *.
    pose proof (A (tick_at 0 10 2) _ (0 - 5 + 10, - (2) + (10 + 2)) (or_introl eq_refl) ltac:(right; right; now left)) as A1. cbn in A1.
    assert (-10 <= outward (mpoint t1) (0, 1) q1) as A2.
    { destruct I1 as [I1|[I1|[]]]; injection I1 as <- <-; destruct J1 as [<-|[<-|[<-|[<-|[]]]]]; unfold outward, px, py; cbn; lra. }
    unfold outward in A1. cbn in A1. lra. }
  remember (labelled (aligned (painter_ex true) two)) as L eqn:EL. unfold two in F2. rewrite !labelled_tick in F2.
  destruct L as [|x1 [|[t3 b3] L]]; [inversion F2|inversion F2 as [|? ? ? ? _ F3]; inversion F3|]. inversion F2 as [|? ? ? ? _ F3]. subst. inversion F3 as [|? ? ? ? (_ & _ & M) F4]. subst. clear F2 F3 F4.
  exists b', b3, q, (translation (- (12) * px (0, 1), - (12) * py (0, 1)) (95, - (10))). split; [exact ET|]. split.
  { unfold paint, paint_title, paint_regular. rewrite paint_fold. cbn [labels labelattrs painter_ex axiscanvas app]. rewrite boxes_labelled, <- EL. cbn. auto. }
  split; auto. split.
  { destruct M as (_ & M & _). cbn [snd] in M. rewrite M. apply in_map. left. cbn. f_equal; ring. }
  rewrite Eq, two_extent. unfold outward, translation. cbn. split; lra.
Qed.
Print Assumptions axis_title_apart_refuted.
(** the ticks are lines from (0, 3) to (0, -1) and from (100, 3) to (100, -1) *)
Example axis_ticks_ex : ticks (paint (painter_ex true) two None axiscanvas) = [((0 + 0 * 3, 0 + 1 * 3), (0 - 0 * 1, 0 - 1 * 1)); ((100 + 0 * 3, 0 + 1 * 3), (100 - 0 * 1, 0 - 1 * 1))].
Proof.
  unfold paint, paint_title, paint_regular. rewrite paint_fold. cbn [ticks axiscanvas app]. rewrite (flat_lines _ _ _ _ (aligned_same (painter_ex true) two)).
  reflexivity.
Qed.
(** a label of height 10 and depth 2 is moved down by 12 *)
Example axis_labels_ex : exists b', labels (paint (painter_ex true) [tick_at 0 10 2] None axiscanvas) = [b'] /\ nearest (0, 0) (0, 1) 2 b'.
Proof.
  destruct (axis_labels (painter_ex true) [tick_at 0 10 2] None axiscanvas eq_refl) as (new & E & _ & F).
  { intros t [<-|[]]. exact unit_up. }
  { intros t b. rewrite labelled_tick. intros [Q|[]]. injection Q as <- <-. apply tick_at_typeset. lra. }
  rewrite labelled_tick in F. change (labelled []) with (@nil (mark * polygon)) in F. cbn [labels axiscanvas app] in E.
  destruct F as [F|((v & F) & tb & b' & I & N)].
  - destruct new as [|b' [|]]; inversion F; subst; [|inversion H4]. exists b'. split; auto.
  - destruct new as [|b1 [|]]; inversion F; subst; [|inversion H4]. cbn in I. destruct I as [I|[]]. injection I as <- <-. exists b1. split; auto.
Qed.
(** C129: grid lines are painted also at ticks without a line *)
Theorem axis_grid_refuted : exists p l t, In t l /\ ticklevel t = None /\ grid (paint p l None axiscanvas) = [t] /\ ticks (paint p l None axiscanvas) = [].
Proof.
  set (t := {| mpoint := (0, 0); mdir := (0, 1); ticklevel := None; label := None |}).
  exists {| tickattrs := fun _ _ => true; gridattrs := fun _ _ => true; innerlength := Fixed 3; outerlength := Without; labelattrs := true; labeldist := 2;
            hequalize := false; vequalize := true; titledist := 4 |}, [t], t.
  split; [now left|]. split; [reflexivity|]. split; unfold paint, paint_title, paint_regular; rewrite paint_fold; reflexivity.
Qed.
Print Assumptions axis_grid_refuted.
