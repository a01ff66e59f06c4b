(** C131: painting of bar axes, subaxes and breaks *)
From Coq Require Import Reals List Bool Arith ZArith Lia Lra.
From Verif Require Import TrafoModel BoxModel BoxAlign AxisPaintModel AxisPaintSpec AxisPaintProps AxisPaintProps2.
Import ListNotations.
Open Scope R_scope.

(** ** bars *)
(** where a name goes *)
Definition name_point (p : barpainter) (q : positioner) (s : subaxis) : point := vtickpoint q (vmin s + namepos p * (vmax s - vmin s)).
Definition name_dir (p : barpainter) (q : positioner) (s : subaxis) : point := vtickdirection q (vmin s + namepos p * (vmax s - vmin s)).
(** the names as labels of ticks *)
Definition as_mark (p : barpainter) (q : positioner) (sb : subaxis * polygon) : mark :=
  {| mpoint := name_point p q (fst sb); mdir := name_dir p q (fst sb); ticklevel := None; label := Some (snd sb) |}.
Definition as_regular (p : barpainter) (dist : R) : regular :=
  {| tickattrs := fun _ _ => false; gridattrs := fun _ _ => false; innerlength := Without; outerlength := Without;
     labelattrs := true; labeldist := dist; hequalize := namehequalize p; vequalize := namevequalize p; titledist := 0 |}.
Lemma labelled_as p q l : labelled (map (as_mark p q) l) = map (fun sb => (as_mark p q sb, snd sb)) l.
Proof. induction l as [|sb l IH]; auto. cbn. unfold labelled in IH. now rewrite IH. Qed.
Lemma names_labels p q dist l : aligned_names p dist (map snd l) (map (fun sb => vtickdirection q (name_v p (fst sb))) l) =
  boxes (aligned (as_regular p dist) (map (as_mark p q) l)).
Proof.
  unfold aligned_names, aligned. cbn [labelattrs as_regular hequalize vequalize labeldist].
  rewrite map_map. change (map (fun x => mdir (as_mark p q x)) l) with (map (fun sb => vtickdirection q (name_v p (fst sb))) l).
  destruct (equalize _ _ _) eqn:E.
  - destruct l as [|sb l]; [discriminate|]. cbn [map]. set (m := as_mark p q sb :: map (as_mark p q) l). rewrite (boxes_labelled (replace_labels m _)).
    rewrite boxes_labelled.
    assert (map snd (labelled m) = snd sb :: map snd l) as EM. { unfold m. change (as_mark p q sb :: map (as_mark p q) l) with (map (as_mark p q) (sb :: l)). rewrite labelled_as, map_map. reflexivity. }
    rewrite EM. symmetry. change (- px (mdir (as_mark p q sb))) with (- px (vtickdirection q (name_v p (fst sb)))). change (- py (mdir (as_mark p q sb))) with (- py (vtickdirection q (name_v p (fst sb)))).
    apply labelled_replace. assert (length (labelled m) = S (length l)) as -> by (rewrite <- (map_length snd), EM; cbn; now rewrite map_length).
    unfold linealignequal. destruct (farthest _ _ _ _); rewrite ?map_length; cbn; now rewrite map_length.
  - rewrite boxes_labelled, labelled_align, labelled_as, !map_map. cbn [fst snd].
    clear E. induction l as [|sb l IH]; auto. cbn [map combine]. f_equal. exact IH.
Qed.
Definition named (p : barpainter) (q : positioner) (l : list (subaxis * polygon)) : Prop :=
  forall s b, In (s, b) l -> is_unit (name_dir p q s) /\ typeset (name_point p q s) (name_dir p q s) b.
Lemma named_fine p q l : named p q l -> fine (map (as_mark p q) l).
Proof.
  intros N. split.
  - intros t I. apply in_map_iff in I as ((s, b) & <- & I). apply (N s b I).
  - intros t b. rewrite labelled_as. intros I. apply in_map_iff in I as ((s, b') & Q & I). injection Q as <- <-. apply (N s b' I).
Qed.
Lemma Forall2_map_l {A B C} (P : B -> C -> Prop) (f : A -> B) l m : Forall2 P (map f l) m <-> Forall2 (fun x y => P (f x) y) l m.
Proof. revert m. induction l as [|x l IH]; intros m; split; intros H; inversion H; subst; constructor; auto; now apply IH. Qed.
Lemma paint_bar_labels p q l title c : nameattrs p = true ->
  labels (paint_bar p q l title c) = labels c ++ boxes (aligned (as_regular p (extent_pt c + namedist p)) (map (as_mark p q) l)).
Proof. intros NA. unfold paint_bar, paint_title. rewrite NA. destruct title as [[b d]|]; cbn [labels]; now rewrite names_labels. Qed.
(** C131: names of bars are moved outward only, each at least by the distance of names beyond what was there before;
    each for itself exactly to this distance, or all together by the same vector and one of them to this distance *)
Theorem bar_names : forall p q l title c, nameattrs p = true -> named p q l ->
  exists new, labels (paint_bar p q l title c) = labels c ++ new /\
  Forall2 (fun sb b' => (exists v, moved (name_dir p q (fst sb)) v (snd sb) b') /\
    forall x, In x (corners b') -> extent_pt c + namedist p <= outward (name_point p q (fst sb)) (name_dir p q (fst sb)) x) l new /\
  (Forall2 (fun sb b' => nearest (name_point p q (fst sb)) (name_dir p q (fst sb)) (extent_pt c + namedist p) b') l new \/
   (exists v, Forall2 (fun sb b' => moved (name_dir p q (fst sb)) v (snd sb) b') l new) /\
   exists sb b', In (sb, b') (combine l new) /\ nearest (name_point p q (fst sb)) (name_dir p q (fst sb)) (extent_pt c + namedist p) b').
Proof.
  intros p q l title c NA N. pose proof (named_fine p q l N) as [U T].
  destruct (axis_labels (as_regular p (extent_pt c + namedist p)) (map (as_mark p q) l) None c eq_refl U T) as (new & E & F & G).
  exists new. rewrite paint_bar_labels by auto.
  assert (new = boxes (aligned (as_regular p (extent_pt c + namedist p)) (map (as_mark p q) l))) as EN.
  { unfold paint, paint_title, paint_regular in E. rewrite paint_fold in E. cbn [labels labelattrs as_regular] in E. now apply app_inv_head in E. }
  rewrite <- EN. split; auto. rewrite labelled_as in F, G. rewrite Forall2_map_l in F. cbn [fst snd as_mark mdir mpoint labeldist as_regular] in *.
  split; [exact F|]. destruct G as [G|((v & G) & tb & b' & I & G2)].
  - left. rewrite Forall2_map_l in G. exact G.
  - right. rewrite Forall2_map_l in G. split; [exists v; exact G|].
    assert (forall l new, In (tb, b') (combine (map (fun sb => (as_mark p q sb, snd sb)) l) new) -> exists sb, tb = (as_mark p q sb, snd sb) /\ In (sb, b') (combine l new)) as CB.
    { clear. induction l as [|sb l IH]; intros [|y new]; cbn; try contradiction. intros [E|I].
      - injection E as <- <-. exists sb. auto.
      - destruct (IH new I) as (sb' & E & J). exists sb'. auto. }
    destruct (CB _ _ I) as (sb & -> & J). exists sb, b'. split; auto.
Qed.
Print Assumptions bar_names.
(** C131: the ticks of bars are at the lower ends of the subaxes and at the end of the axis *)
Theorem bar_ticks : forall p q l title c ln, In ln (ticks (paint_bar p q l title c)) <-> In ln (ticks c) \/
  (bartickattrs p = true /\ (barinner p <> None \/ barouter p <> None) /\
   exists v i o, (v = 1 \/ exists s b, In (s, b) l /\ v = vminover s) /\ i = match barinner p with Some i => i | None => 0 end /\ o = match barouter p with Some o => o | None => 0 end /\
   outside (vtickpoint q v) (vtickdirection q v) (- i) (fst ln) /\ outside (vtickpoint q v) (vtickdirection q v) o (snd ln)).
Proof.
  intros p q l title c ln. unfold paint_bar. cbv zeta.
  assert (forall d c, ticks (paint_title d title c) = ticks c) as -> by (intros; unfold paint_title; destruct title as [[? ?]|]; reflexivity).
  cbn [ticks]. rewrite in_app_iff.
  set (i := match barinner p with Some i => i | None => 0 end). set (o := match barouter p with Some o => o | None => 0 end).
  assert (forall v, ((px (vtickpoint q v) + px (vtickdirection q v) * i, py (vtickpoint q v) + py (vtickdirection q v) * i), (px (vtickpoint q v) - px (vtickdirection q v) * o, py (vtickpoint q v) - py (vtickdirection q v) * o)) = ln <->
     outside (vtickpoint q v) (vtickdirection q v) (- i) (fst ln) /\ outside (vtickpoint q v) (vtickdirection q v) o (snd ln)) as LN.
  { intros v. destruct ln as [[a b] [a' b']]. unfold outside. cbn. unfold px, py. cbn [fst snd]. split.
    - intros E. injection E as <- <- <- <-. repeat split; ring.
    - intros ((-> & ->) & -> & ->). repeat apply (f_equal2 pair); ring. }
  split; (intros [H|H]; [now left|right]).
  - destruct (bartickattrs p); [|contradiction]. split; auto. destruct (barinner p) as [i0|] eqn:EI, (barouter p) as [o0|] eqn:EO; cbn [andb] in H; try contradiction;
    (split; [try (left; discriminate); right; discriminate|]); apply in_map_iff in H as (v & Q & I); exists v, i, o; (split; [|split; [reflexivity|split; [reflexivity|now apply LN]]]);
    apply in_app_or in I as [I|[<-|[]]]; auto; right; apply in_map_iff in I as ((s, b) & <- & I); exists s, b; auto.
  - destruct H as (-> & HT & v & i' & o' & V & -> & -> & Q). apply LN in Q.
    assert (In v (map (fun sb : subaxis * polygon => vminover (fst sb)) l ++ [1])) as IV.
    { apply in_or_app. destruct V as [-> | (s & b & I & ->)]; [right; now left|left]. apply in_map_iff. exists (s, b). auto. }
    destruct (barinner p), (barouter p); cbn [andb]; try (destruct HT; contradiction); apply in_map_iff; exists v; auto.
Qed.
Print Assumptions bar_ticks.
(** C131: the extent covers ticks and names of bars *)
Theorem bar_extent : forall p q l c, named p q l ->
  nameattrs p = false \/ equalize (namehequalize p) (namevequalize p) (map (fun sb => name_dir p q (fst sb)) l) = false \/ level (map (as_mark p q) l) ->
  let c' := paint_bar p q l None c in extent_pt c <= extent_pt c' /\
  (bartickattrs p = true -> (forall i, barinner p = Some i -> - i <= extent_pt c') /\ forall o, barouter p = Some o -> o <= extent_pt c') /\
  exists new, labels c' = labels c ++ new /\
  (nameattrs p = true -> Forall2 (fun sb b' => forall x, In x (corners b') -> outward (name_point p q (fst sb)) (name_dir p q (fst sb)) x <= extent_pt c') l new).
Proof.
  intros p q l c N H c'. pose proof (named_fine p q l N) as F.
  set (dist := extent_pt c + namedist p). set (dirs := map (fun sb => vtickdirection q (name_v p (fst sb))) l).
  set (bs := aligned_names p dist (if nameattrs p then map snd l else []) dirs).
  set (e1 := match barinner p with Some i => widen (extent_pt c) (- i) | None => extent_pt c end).
  set (e2 := match barouter p with Some o => widen e1 o | None => e1 end).
  set (e3 := if bartickattrs p && match barinner p, barouter p with None, None => false | _, _ => true end then e2 else extent_pt c).
  assert (extent_pt c' = fold_left widen (map (fun bd => extent (fst bd) (px (snd bd)) (py (snd bd)) + dist) (combine bs dirs)) e3) as EE.
  { unfold c', paint_bar, paint_title. cbn [extent_pt]. fold dist dirs. fold bs. fold e1. fold e2. fold e3.
    generalize (combine bs dirs), e3. clear. induction l as [|x l IH]; intros e; cbn [fold_left map]; auto. }
  pose proof (widen_fold (map (fun bd => extent (fst bd) (px (snd bd)) (py (snd bd)) + dist) (combine bs dirs)) e3) as W. cbv zeta in W. rewrite <- EE in W.
  assert (forall a b, a <= widen a b /\ b <= widen a b) as WW. { clear. intros a b. unfold widen. destruct (ltb_case a b) as [[? ->]|[? ->]]; lra. }
  assert (extent_pt c <= e1) as X1. { unfold e1. destruct (barinner p); [apply WW|lra]. }
  assert (e1 <= e2) as X2. { unfold e2. destruct (barouter p); [apply WW|lra]. }
  assert (extent_pt c <= e3) as X3. { unfold e3. destruct (bartickattrs p && _); lra. }
  destruct W as (W1 & W2 & _). split; [lra|]. split.
  { intros BT. unfold e3 in W1. rewrite BT in W1. cbn [andb] in W1. split.
    - intros i EI. rewrite EI in W1. pose proof (WW (extent_pt c) (- i)) as [_ Y]. unfold e1 in X2. rewrite EI in X2. lra.
    - intros o EO. rewrite EO in W1. pose proof (WW e1 o) as [_ Y]. unfold e2 in W1. rewrite EO in W1. destruct (barinner p); lra. }
  exists bs. split; [reflexivity|]. intros NA. destruct H as [H|H]; [congruence|].
  pose proof (label_reaches (as_regular p dist) (map (as_mark p q) l) F eq_refl) as LR.
  rewrite map_map in LR. specialize (LR H).
  assert (bs = map snd (labelled (aligned (as_regular p dist) (map (as_mark p q) l)))) as EB. { unfold bs. rewrite NA. unfold dirs. rewrite names_labels. apply boxes_labelled. }
  clear EE. rewrite EB in W2 |- *. clear EB bs. rewrite labelled_as in LR. rewrite Forall2_map_l in LR. cbn [fst snd as_mark mdir mpoint labeldist as_regular] in LR.
  revert LR W2. unfold dirs. generalize (labelled (aligned (as_regular p dist) (map (as_mark p q) l))), (extent_pt c'). clear. intros m e LR.
  induction LR as [|sb x l m (E1 & E2 & B & _) LR IH]; intros W; cbn [map]; constructor.
  - intros y Y. specialize (B y Y). cbn [map combine fst snd] in W. specialize (W _ (or_introl eq_refl)). rewrite E2 in B.
    change (vtickdirection q (name_v p (fst sb))) with (name_dir p q (fst sb)) in W. lra.
  - apply IH. intros y Y. apply W. right. exact Y.
Qed.
Print Assumptions bar_extent.
(** a bar axis at the bottom: two bars, names at (25, 0) and (75, 0), ticks at 0, 50 and 100 *)
Definition bars_ex : list (subaxis * polygon) :=
  [({| vmin := 0.1; vmax := 0.4; vminover := 0; vmaxover := 0.5 |}, new_rect 20 (- (2)) 10 12 (0, 0) (5, 2));
   ({| vmin := 0.6; vmax := 0.9; vminover := 0.5; vmaxover := 1 |}, new_rect 70 (- (2)) 10 9 (0, 0) (5, 2))].
Definition barpainter_ex : barpainter :=
  {| bartickattrs := true; barinner := None; barouter := Some 3; nameattrs := true; namedist := 6; namepos := 0.5;
     namehequalize := false; namevequalize := false; bartitledist := 4 |}.
Example bar_names_ex : named barpainter_ex (linepositioner (0, 0) (100, 0) (0, 1)) bars_ex /\
  exists b1 b2, labels (paint_bar barpainter_ex (linepositioner (0, 0) (100, 0) (0, 1)) bars_ex None axiscanvas) = [b1; b2] /\
  nearest (25, 0) (0, 1) 6 b1 /\ nearest (75, 0) (0, 1) 6 b2.
Proof.
  set (q := linepositioner (0, 0) (100, 0) (0, 1)).
  assert (forall s, name_dir barpainter_ex q s = (0, 1)) as ND by reflexivity.
  assert (name_point barpainter_ex q {| vmin := 0.1; vmax := 0.4; vminover := 0; vmaxover := 0.5 |} = (25, 0)) as P1 by (unfold name_point, q; cbn; f_equal; unfold px, py; cbn; lra).
  assert (name_point barpainter_ex q {| vmin := 0.6; vmax := 0.9; vminover := 0.5; vmaxover := 1 |} = (75, 0)) as P2 by (unfold name_point, q; cbn; f_equal; unfold px, py; cbn; lra).
  assert (named barpainter_ex q bars_ex) as N.
  { intros s b I. rewrite ND. split; [exact unit_up|]. destruct I as [I|[I|[]]]; injection I as <- <-; rewrite ?P1, ?P2; apply rect_typeset; auto; try lra; cbn; unfold px, py; cbn; f_equal; lra. }
  split; auto.
  pose proof (aligned_put (as_regular barpainter_ex (0 + 6)) (map (as_mark barpainter_ex q) bars_ex) (named_fine _ _ _ N) eq_refl) as AP.
  assert (equalize (hequalize (as_regular barpainter_ex (0 + 6))) (vequalize (as_regular barpainter_ex (0 + 6))) (map mdir (map (as_mark barpainter_ex q) bars_ex)) = false) as EQ.
  { unfold equalize. cbn [as_regular hequalize vequalize barpainter_ex namehequalize namevequalize]. cbn [map bars_ex]. rewrite !andb_false_r. reflexivity. }
  specialize (AP (or_introl EQ)). rewrite labelled_as in AP. rewrite Forall2_map_l in AP.
  assert (labels (paint_bar barpainter_ex q bars_ex None axiscanvas) = map snd (labelled (aligned (as_regular barpainter_ex (0 + 6)) (map (as_mark barpainter_ex q) bars_ex)))) as EL.
  { rewrite paint_bar_labels by reflexivity. rewrite boxes_labelled. reflexivity. }
  rewrite EL. clear EL. revert AP. generalize (labelled (aligned (as_regular barpainter_ex (0 + 6)) (map (as_mark barpainter_ex q) bars_ex))). intros m AP.
  destruct m as [|[t1 b1] [|[t2 b2] [|]]]; [inversion AP|inversion AP as [|? ? ? ? _ F3]; inversion F3| |inversion AP as [|? ? ? ? _ F3]; inversion F3 as [|? ? ? ? _ F4]; inversion F4].
  inversion AP as [|? ? ? ? (_ & _ & k1 & _ & N1) F3]. inversion F3 as [|? ? ? ? (_ & _ & k2 & _ & N2) _]. subst. clear AP F3.
  exists b1, b2. split; [reflexivity|]. cbn [fst snd as_mark mpoint mdir labeldist as_regular] in N1, N2. rewrite ND in N1, N2. rewrite P1 in N1. rewrite P2 in N2.
  rewrite Rplus_0_l in *. auto.
Qed.

(** ** subaxes *)
(** C131: a subaxis of a subaxis is a subaxis; the ticks between 0 and 1 are within the base path and have the direction
    of the base axis at their place *)
Theorem subaxis_positions : forall p s s' v,
  (exists s2, vmin s2 = vmin s + vmin s' * (vmax s - vmin s) /\ vmax s2 = vmin s + vmax s' * (vmax s - vmin s) /\
     vtickpoint (subpositioner (subpositioner p s) s') v = vtickpoint (subpositioner p s2) v /\ vtickdirection (subpositioner (subpositioner p s) s') v = vtickdirection (subpositioner p s2) v) /\
  (vminover s <= vmin s -> vmin s <= vmax s -> vmax s <= vmaxover s -> 0 <= v <= 1 ->
   exists w, vtickpoint (subpositioner p s) v = vtickpoint p w /\ vtickdirection (subpositioner p s) v = vtickdirection p w /\ fst (subbasepath s None None) <= w <= snd (subbasepath s None None) /\
   w = fst (subbasepath s (Some v) None) /\ w = snd (subbasepath s None (Some v))).
Proof.
  intros p s s' v. split.
  - exists {| vmin := vmin s + vmin s' * (vmax s - vmin s); vmax := vmin s + vmax s' * (vmax s - vmin s); vminover := 0; vmaxover := 0 |}. cbn.
    split; auto. split; auto. assert (vmin s + (vmin s' + v * (vmax s' - vmin s')) * (vmax s - vmin s) =
      vmin s + vmin s' * (vmax s - vmin s) + v * (vmin s + vmax s' * (vmax s - vmin s) - (vmin s + vmin s' * (vmax s - vmin s)))) as -> by ring. auto.
  - intros A B C D. exists (vmin s + v * (vmax s - vmin s)). cbn. split; auto. split; auto. split; [|auto].
    assert (0 <= v * (vmax s - vmin s)) by (apply Rmult_le_pos; lra). assert (v * (vmax s - vmin s) <= 1 * (vmax s - vmin s)) by (apply Rmult_le_compat_r; lra). lra.
Qed.
Print Assumptions subaxis_positions.
Example subaxis_positions_ex : let s := {| vmin := 0.25; vmax := 0.75; vminover := 0.2; vmaxover := 0.8 |} in
  vtickpoint (subpositioner (linepositioner (0, 0) (100, 20) (0, 1)) s) 0.5 = (50, 10) /\ subbasepath s None None = (0.2, 0.8).
Proof. cbn. split; auto. unfold px, py. cbn. f_equal; lra. Qed.

(** ** breaks *)
Definition turned_by (angle : R) (t : point) : point :=
  (cos (radians angle) * px t - sin (radians angle) * py t, sin (radians angle) * px t + cos (radians angle) * py t).
(** C131: the two lines of a break have the length wanted, are turned by the angle against the base path and
    are placed symmetric to the point of the break with the distance wanted *)
Theorem break_lines_placed : forall dist len angle c t, let ls := break_lines dist len angle c t in
  let u := turned_by angle t in let n := (- py u, px u) in
  forall line s, (line = fst ls /\ s = - (1) \/ line = snd ls /\ s = 1) ->
  px (fst line) = px c - len / 2 * px u + s * (dist / 2) * px n /\ py (fst line) = py c - len / 2 * py u + s * (dist / 2) * py n /\
  px (snd line) = px c + len / 2 * px u + s * (dist / 2) * px n /\ py (snd line) = py c + len / 2 * py u + s * (dist / 2) * py n.
Proof.
  intros dist len angle c t. cbv zeta. unfold break_lines, turned_by. 
  assert (radians (angle + 90) = radians angle + PI / 2) as RA by (unfold radians; lra).
  assert (cos (radians (angle + 90)) = - sin (radians angle)) as C9 by (rewrite RA, cos_plus, cos_PI2, sin_PI2; ring).
  assert (sin (radians (angle + 90)) = cos (radians angle)) as S9 by (rewrite RA, sin_plus, cos_PI2, sin_PI2; ring).
  unfold rotated, translation. destruct c as [cx cy], t as [tx ty]. cbn [px py fst snd]. rewrite C9, S9.
  set (C := cos (radians angle)). set (S := sin (radians angle)).
  intros line s [[-> ->]|[-> ->]]; cbn [px py fst snd]; unfold px, py; cbn [fst snd]; repeat split; lra.
Qed.
Print Assumptions break_lines_placed.
(** C131: the extent of breaks is their largest distance from the tangent of the base path *)
Theorem break_extent_covers : forall dist len angle c t, 0 <= dist -> 0 <= len -> is_unit t ->
  let away q := (py q - py c) * px t - (px q - px c) * py t in let l := break_region (break_lines dist len angle c t) in
  (forall q, In q l -> Rabs (away q) <= break_extent dist len angle) /\ exists q, In q l /\ away q = break_extent dist len angle.
Proof.
  intros dist len angle c t D L U. cbv zeta. pose proof (break_lines_placed dist len angle c t) as P. cbv zeta in P.
  set (ls := break_lines dist len angle c t) in *. set (C := cos (radians angle)). set (S := sin (radians angle)).
  assert (break_extent dist len angle = 1 / 2 * dist * Rabs C + 1 / 2 * len * Rabs S) as ->.
  { unfold break_extent, C, S, radians. replace (PI * angle / 180) with (angle * PI / 180) by lra. lra. }
  unfold is_unit in U.
  assert (forall r s q, px q = px c + r * (len / 2) * px (turned_by angle t) + s * (dist / 2) * - py (turned_by angle t) ->
     py q = py c + r * (len / 2) * py (turned_by angle t) + s * (dist / 2) * px (turned_by angle t) ->
     (py q - py c) * px t - (px q - px c) * py t = r * (len / 2) * S + s * (dist / 2) * C) as HH.
  { intros r s q -> ->. unfold turned_by. fold C S. cbn [px py fst snd]. unfold px, py in *.
    transitivity ((r * (len / 2) * S + s * (dist / 2) * C) * (fst t * fst t + snd t * snd t)); [ring|]. rewrite U. ring. }
  destruct (P (fst ls) (- (1)) ltac:(auto)) as (A1 & A2 & A3 & A4). destruct (P (snd ls) 1 ltac:(auto)) as (B1 & B2 & B3 & B4). cbn [px py fst snd] in *.
  pose proof (HH (- (1)) (- (1)) (fst (fst ls))) as H1. pose proof (HH 1 (- (1)) (snd (fst ls))) as H2. pose proof (HH (- (1)) 1 (fst (snd ls))) as H3. pose proof (HH 1 1 (snd (snd ls))) as H4. clear HH P.
  unfold px, py in *. specialize (H1 ltac:(lra) ltac:(lra)). specialize (H2 ltac:(lra) ltac:(lra)). specialize (H3 ltac:(lra) ltac:(lra)). specialize (H4 ltac:(lra) ltac:(lra)).
  set (a := Rabs C) in *. set (b := Rabs S) in *.
  assert (len / 2 * S <= len / 2 * b /\ - (len / 2 * b) <= len / 2 * S) as [X1 X2].
  { assert (S <= b) by apply RRle_abs. assert (- S <= b) by (unfold b; rewrite <- Rabs_Ropp; apply RRle_abs). split; [apply Rmult_le_compat_l; lra|].
    assert (len / 2 * - S <= len / 2 * b) by (apply Rmult_le_compat_l; lra). lra. }
  assert (dist / 2 * C <= dist / 2 * a /\ - (dist / 2 * a) <= dist / 2 * C) as [Y1 Y2].
  { assert (C <= a) by apply RRle_abs. assert (- C <= a) by (unfold a; rewrite <- Rabs_Ropp; apply RRle_abs). split; [apply Rmult_le_compat_l; lra|].
    assert (dist / 2 * - C <= dist / 2 * a) by (apply Rmult_le_compat_l; lra). lra. }
  unfold break_region. split.
  - intros q I. apply Rabs_le. destruct I as [<-|[<-|[<-|[<-|[]]]]]; rewrite ?H1, ?H2, ?H3, ?H4; lra.
  - assert (b = S \/ b = - S) as HB. { unfold b, Rabs. destruct (Rcase_abs S); auto. }
    assert (a = C \/ a = - C) as HA. { unfold a, Rabs. destruct (Rcase_abs C); auto. }
    destruct HB as [HB|HB], HA as [HA|HA]; rewrite HA, HB.
    + exists (snd (snd ls)). split; [cbn; auto|]. rewrite H4. lra.
    + exists (snd (fst ls)). split; [cbn; auto|]. rewrite H2. lra.
    + exists (fst (snd ls)). split; [cbn; auto|]. rewrite H3. lra.
    + exists (fst (fst ls)). split; [cbn; auto|]. rewrite H1. lra.
Qed.
Print Assumptions break_extent_covers.
(** at the point (50, 0) of a horizontal base path, orthogonal lines of length 6 with the distance 2 *)
Example break_lines_ex : let ls := break_lines 2 6 90 (50, 0) (1, 0) in fst (fst ls) = (51, - (3)) /\ snd (snd ls) = (49, 3).
Proof.
  cbv zeta. pose proof (break_lines_placed 2 6 90 (50, 0) (1, 0)) as P. cbv zeta in P. assert (radians 90 = PI / 2) as R9 by (unfold radians; lra).
  unfold turned_by in P. rewrite R9, cos_PI2, sin_PI2 in P. cbn [px py fst snd] in P.
  destruct (P _ (- (1)) (or_introl (conj eq_refl eq_refl))) as (A1 & A2 & _ & _). destruct (P _ 1 (or_intror (conj eq_refl eq_refl))) as (_ & _ & B3 & B4).
  unfold px, py in *. split; apply injective_projections; cbn [fst snd]; lra.
Qed.
