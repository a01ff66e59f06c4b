(** C129: ticks, labels and titles of axes *)
From Coq Require Import Reals List Bool Arith Lia Lra.
From Verif Require Import BoxModel BoxAlign AxisPaintModel AxisPaintSpec.
Import ListNotations.
Open Scope R_scope.

(** ** boxes *)
Lemma corner_map v l i : (i < length l)%nat -> corner (map (translation v) l) i = translation v (corner l i).
Proof. intros I. unfold corner. apply nth_map. exact I. Qed.
Lemma next_less n i : (i < n)%nat -> (next n i < n)%nat.
Proof. intros I. unfold next. apply Nat.mod_upper_bound. lia. Qed.
Lemma convex_moved v l : convex l -> convex (map (translation v) l).
Proof.
  intros [L C]. split; [rewrite map_length; auto|]. intros i j I J N1 N2. rewrite map_length in *. cbv zeta.
  rewrite !corner_map by (auto; now apply next_less). specialize (C i j I J N1 N2). cbv zeta in C.
  unfold translation; cbn [px py fst snd] in *. unfold px, py in *. lra.
Qed.
Lemma sideways_translation dx dy v q : sideways dx dy (translation v q) = sideways dx dy q + sideways dx dy v.
Proof. unfold sideways, translation, Rdiv. cbn [px py fst snd]. unfold px, py. ring. Qed.
Lemma distinct_moved v l dx dy : distinct l dx dy -> distinct (map (translation v) l) dx dy.
Proof.
  intros D i I. rewrite map_length in *. cbv zeta. rewrite !corner_map by (auto; now apply next_less). specialize (D i I). cbv zeta in D.
  rewrite !height_translation, !sideways_translation. destruct D as (D1 & D2 & D3).
  set (e := corner l i) in *. set (f := corner l (next (length l) i)) in *.
  replace (height dx dy e + height dx dy v - (height dx dy f + height dx dy v)) with (height dx dy e - height dx dy f) by ring.
  replace (sideways dx dy e + sideways dx dy v - (sideways dx dy f + sideways dx dy v)) with (sideways dx dy e - sideways dx dy f) by ring.
  split; [|split; auto]. unfold translation, px, py in *. cbn [fst snd] in *.
  replace (fst e + fst v - (fst f + fst v)) with (fst e - fst f) by ring. replace (snd e + snd v - (snd f + snd v)) with (snd e - snd f) by ring. exact D1.
Qed.
Lemma height_unit1 dx dy q : dx * dx + dy * dy = 1 -> height dx dy q = px q * dx + py q * dy.
Proof. intros U. unfold height. rewrite U, sqrt_1. field. Qed.
Lemma unit_nonzero d : is_unit d -> (px d, py d) <> (0, 0).
Proof. intros U E. unfold is_unit in U. injection E as E1 E2. rewrite E1, E2 in U. lra. Qed.
Lemma unit_neg d : is_unit d -> - px d * - px d + - py d * - py d = 1.
Proof. unfold is_unit. intros U. lra. Qed.
Lemma unit_neg_nonzero d : is_unit d -> (- px d, - py d) <> (0, 0).
Proof. intros U E. apply unit_neg in U. injection E as E1 E2. rewrite E1, E2 in U. lra. Qed.
Lemma outward_height c d q : is_unit d -> outward c d q = height (- px d) (- py d) q - height (- px d) (- py d) c.
Proof. intros U. rewrite !height_unit1 by now apply unit_neg. unfold outward. ring. Qed.
Lemma outward_moved c d k q : is_unit d -> outward c d (translation (k * px d, k * py d) q) = outward c d q - k.
Proof.
  intros U. unfold outward, translation. cbn [px py fst snd]. unfold is_unit, px, py in *.
  replace k with (k * (fst d * fst d + snd d * snd d)) at 3 by (rewrite U; ring). ring.
Qed.
(** alignment of a typeset box *)
Lemma align_typeset c d a b : is_unit d -> typeset c d b ->
  exists k, linealignvector b a (- px d) (- py d) = (k * px d, k * py d) /\
  (forall q, In q (corners b) -> a <= outward c d q - k) /\ exists q, In q (corners b) /\ outward c d q - k = a.
Proof.
  intros U (CX & EC & D1 & D2). destruct (align_convex b a (- px d) (- py d) CX (unit_neg_nonzero d U) D2) as ((k & E) & A & q & I & Eq).
  exists (- k). rewrite E in *. assert ((k * - px d, k * - py d) = (- k * px d, - k * py d)) as R by (f_equal; ring).
  rewrite R in *. split; auto. subst c.
  split.
  - intros q' I'. specialize (A q' I'). rewrite <- outward_height in A by auto. rewrite outward_moved in A by auto. exact A.
  - exists q. split; auto. rewrite <- outward_height in Eq by auto. rewrite outward_moved in Eq by auto. exact Eq.
Qed.
Lemma shift_unique c d b r k k' : (forall q, In q (corners b) -> r <= outward c d q - k) -> (exists q, In q (corners b) /\ outward c d q - k = r) ->
  (forall q, In q (corners b) -> r <= outward c d q - k') -> (exists q, In q (corners b) /\ outward c d q - k' = r) -> k = k'.
Proof. intros A (q & I & E) B (q' & I' & E'). pose proof (A q' I'). pose proof (B q I). lra. Qed.
Lemma nearest_moved c d k r b b' : is_unit d -> moved d (k * px d, k * py d) b b' -> (nearest c d r b' <-> nearest c d (r + k) b).
Proof.
  intros U (_ & E & _). unfold nearest. rewrite E. split; intros [A (q & I & Q)].
  - apply in_map_iff in I as (q0 & <- & I). rewrite outward_moved in Q by auto. split; [|exists q0; split; auto; lra].
    intros q' I'. specialize (A _ (in_map (translation (k * px d, k * py d)) _ _ I')). rewrite outward_moved in A by auto. lra.
  - split; [|exists (translation (k * px d, k * py d) q); split; [now apply in_map|rewrite outward_moved by auto; lra]].
    intros q' I'. apply in_map_iff in I' as (q0 & <- & I'). rewrite outward_moved by auto. specialize (A q0 I'). lra.
Qed.
(** the extent of a box which was moved *)
Lemma extent_moved c d v b b' : is_unit d -> typeset c d b -> moved d v b b' ->
  (forall q q', In q (corners b') -> In q' (corners b') -> outward c d q - outward c d q' <= extent b' (px d) (py d)) /\
  (exists q q', In q (corners b') /\ In q' (corners b') /\ outward c d q - outward c d q' = extent b' (px d) (py d)).
Proof.
  intros U (CX & _ & D1 & D2) (_ & E & _).
  destruct (extent_width b' (px d) (py d)) as [A (q & q' & I & I' & Q)].
  { rewrite E. now apply convex_moved. } { now apply unit_nonzero. } { rewrite E. now apply distinct_moved. } { rewrite E. now apply distinct_moved. }
  assert (forall x y, outward c d x - outward c d y = height (px d) (py d) y - height (px d) (py d) x) as H.
  { intros x y. rewrite !height_unit1 by exact U. unfold outward. ring. }
  split.
  - intros x y X Y. rewrite H. auto.
  - exists q', q. rewrite H. auto.
Qed.
(** a box moved to the distance r reaches up to r plus its extent *)
Lemma reach c d v b b' r : is_unit d -> typeset c d b -> moved d v b b' -> nearest c d r b' ->
  (forall q, In q (corners b') -> r <= outward c d q <= r + extent b' (px d) (py d)) /\
  exists q, In q (corners b') /\ outward c d q = r + extent b' (px d) (py d).
Proof.
  intros U T M [N (n & In_ & En)]. destruct (extent_moved c d v b b' U T M) as [A (q & q' & I & I' & Q)]. split.
  - intros x X. split; auto. specialize (A x n X In_). lra.
  - exists q. split; auto. pose proof (A q n I In_). pose proof (N q' I'). lra.
Qed.
Lemma transform_moved d k b : moved d (k * px d, k * py d) b (transform (translation (k * px d, k * py d)) false b).
Proof. split; [now exists k|]. split; reflexivity. Qed.
Lemma linealign_typeset c d a b : is_unit d -> typeset c d b -> exists k, moved d (k * px d, k * py d) b (linealign b a (- px d) (- py d)) /\ nearest c d a (linealign b a (- px d) (- py d)).
Proof.
  intros U T. destruct (align_typeset c d a b U T) as (k & E & A & q & I & Q). exists k. unfold linealign. rewrite E.
  split; [apply transform_moved|]. apply (nearest_moved c d k a b _ U (transform_moved d k b)). split.
  - intros x X. specialize (A x X). lra.
  - exists q. split; auto. lra.
Qed.

(** ** labels with a common direction *)
Lemma reqb_true a b : reqb a b = true <-> a = b.
Proof. unfold reqb. destruct (Req_EM_T a b); split; auto; discriminate. Qed.
Lemma farthest_fold a dx dy l w :
  exists v, fold_left (fun vec p => let v := linealignvector p a dx dy in
    match vec with None => Some v | Some w => if ltb (px w * dx + py w * dy) (px v * dx + py v * dy) then Some v else Some w end) l (Some w) = Some v /\
  (v = w \/ exists p, In p l /\ v = linealignvector p a dx dy) /\ px w * dx + py w * dy <= px v * dx + py v * dy /\
  forall p, In p l -> px (linealignvector p a dx dy) * dx + py (linealignvector p a dx dy) * dy <= px v * dx + py v * dy.
Proof.
  revert w. induction l as [|p l IH]; intros w.
  - exists w. cbn. split; auto. split; auto. split; [lra|contradiction].
  - cbn [fold_left]. cbv zeta. destruct (ltb_case (px w * dx + py w * dy) (px (linealignvector p a dx dy) * dx + py (linealignvector p a dx dy) * dy)) as [[L ->]|[L ->]].
    + destruct (IH (linealignvector p a dx dy)) as (v & E & S & W & A). exists v. split; [exact E|]. split.
      { right. destruct S as [->|(q & I & ->)]; [exists p|exists q]; cbn; auto. }
      split; [lra|]. intros q [->|I]; auto.
    + destruct (IH w) as (v & E & S & W & A). exists v. split; [exact E|]. split.
      { destruct S as [->|(q & I & ->)]; [now left|right; exists q; cbn; auto]. }
      split; [lra|]. intros q [->|I]; auto. lra.
Qed.
Lemma farthest_spec a dx dy l : match farthest a dx dy l with
  | None => l = []
  | Some v => (exists p, In p l /\ v = linealignvector p a dx dy) /\
      forall p, In p l -> px (linealignvector p a dx dy) * dx + py (linealignvector p a dx dy) * dy <= px v * dx + py v * dy
  end.
Proof.
  unfold farthest. destruct l as [|p l]; [reflexivity|]. cbn [fold_left]. cbv zeta.
  destruct (farthest_fold a dx dy l (linealignvector p a dx dy)) as (v & E & S & W & A). cbv zeta in E. rewrite E. split.
  - destruct S as [->|(q & I & ->)]; [exists p|exists q]; cbn; auto.
  - intros q [->|I]; auto.
Qed.
Lemma equalize_dirs h v l : equalize h v l = true -> exists d, hd_error l = Some d /\ forall e, In e l -> e = d.
Proof.
  unfold equalize. intros E. apply andb_prop in E as [E _]. unfold equaldirection in E.
  destruct l as [|d [|e l]]; try discriminate. exists d. split; auto. intros x [->|I]; auto.
  rewrite forallb_forall in E. specialize (E x I). apply andb_prop in E as [E1 E2]. apply reqb_true in E1, E2.
  destruct x, d. unfold px, py in *. cbn in *. now subst.
Qed.
(** ** the aligned labels *)
Lemma labelled_replace l bs : length bs = length (labelled l) ->
  Forall2 (fun tb t'b' => mpoint (fst t'b') = mpoint (fst tb) /\ mdir (fst t'b') = mdir (fst tb)) (labelled l) (labelled (replace_labels l bs)) /\
  map snd (labelled (replace_labels l bs)) = bs.
Proof.
  revert bs. induction l as [|t l IH]; intros bs L; cbn [labelled flat_map replace_labels] in *.
  - destruct bs; [|discriminate]. split; [constructor|reflexivity].
  - destruct (label t) as [b|] eqn:Eb.
    + cbn [app] in *. destruct bs as [|b' bs]; [discriminate|]. injection L as L. destruct (IH bs L) as [H1 H2].
      cbn [flat_map label]. cbn [app]. split; [constructor; auto|]. cbn [map snd]. now f_equal.
    + cbn [app] in L. cbn [flat_map]. rewrite Eb. cbn [app]. now apply IH.
Qed.
Lemma boxes_labelled l : boxes l = map snd (labelled l).
Proof. induction l as [|t l IH]; auto. cbn. destruct (label t); cbn; [now f_equal|auto]. Qed.
Lemma labelled_in l t b : In (t, b) (labelled l) <-> In t l /\ label t = Some b.
Proof.
  unfold labelled. rewrite in_flat_map. split.
  - intros (x & I & J). destruct (label x) as [c|] eqn:E; cbn in J; [|contradiction]. destruct J as [J|[]]. injection J as -> ->. auto.
  - intros [I E]. exists t. split; auto. rewrite E. cbn. auto.
Qed.
Lemma labelled_align a l : labelled (map (align_mark a) l) = map (fun tb => (align_mark a (fst tb), linealign (snd tb) a (- px (mdir (fst tb))) (- py (mdir (fst tb))))) (labelled l).
Proof.
  induction l as [|t l IH]; auto. unfold labelled in *. cbn [map flat_map]. rewrite IH, map_app. f_equal. unfold align_mark at 1. cbn [label].
  destruct (label t) as [b|] eqn:E; reflexivity.
Qed.
Definition fine (l : list mark) : Prop := (forall t, In t l -> is_unit (mdir t)) /\ forall t b, In (t, b) (labelled l) -> typeset (mpoint t) (mdir t) b.
(** what is known about a label after alignment; r is its distance *)
Definition put (tb : mark * polygon) (r : R) (t'b' : mark * polygon) : Prop :=
  mpoint (fst t'b') = mpoint (fst tb) /\ mdir (fst t'b') = mdir (fst tb) /\ exists k, moved (mdir (fst tb)) (k * px (mdir (fst tb)), k * py (mdir (fst tb))) (snd tb) (snd t'b') /\
  nearest (mpoint (fst tb)) (mdir (fst tb)) r (snd t'b').
Lemma Forall2_map_r {A B} (P : A -> B -> Prop) f l : (forall x, In x l -> P x (f x)) -> Forall2 P l (map f l).
Proof. induction l as [|x l IH]; intros H; constructor; [apply H; now left|]. apply IH. intros y I. apply H. now right. Qed.
Lemma aligned_single p l : fine l -> labelattrs p = true -> equalize (hequalize p) (vequalize p) (map mdir l) = false ->
  Forall2 (fun tb x => put tb (labeldist p) x) (labelled l) (labelled (aligned p l)).
Proof.
  intros [U T] LA E. unfold aligned. rewrite LA, E, labelled_align. apply Forall2_map_r. intros (t, b) I.
  unfold put. cbn [fst snd]. split; [reflexivity|]. split; [reflexivity|].
  pose proof (proj1 (labelled_in l t b) I) as [I1 _]. destruct (linealign_typeset (mpoint t) (mdir t) (labeldist p) b (U t I1) (T t b I)) as (k & M & N).
  exists k. auto.
Qed.
Lemma aligned_equal p l : fine l -> labelattrs p = true -> equalize (hequalize p) (vequalize p) (map mdir l) = true -> labelled l <> [] ->
  exists k d, (forall t, In t l -> mdir t = d) /\
  Forall2 (fun tb x => mpoint (fst x) = mpoint (fst tb) /\ mdir (fst x) = mdir (fst tb) /\ moved d (k * px d, k * py d) (snd tb) (snd x)) (labelled l) (labelled (aligned p l)) /\
  (forall t b q, In (t, b) (labelled l) -> In q (corners b) -> labeldist p <= outward (mpoint t) d q - k) /\
  exists t b q, In (t, b) (labelled l) /\ In q (corners b) /\ outward (mpoint t) d q - k = labeldist p.
Proof.
  intros [U T] LA E NE. unfold aligned. rewrite LA, E. destruct (equalize_dirs _ _ _ E) as (d & Hd & ED).
  destruct l as [|t0 l0]; [discriminate|]. cbn in Hd. injection Hd as Hd. set (l := t0 :: l0) in *.
  assert (forall t, In t l -> mdir t = d) as ED'. { intros t I. apply ED. now apply in_map. }
  rewrite Hd. pose proof (farthest_spec (labeldist p) (- px d) (- py d) (boxes l)) as F. unfold linealignequal.
  rewrite boxes_labelled in *. destruct (farthest _ _ _ _) as [v|].
  2: { exfalso. apply NE. destruct (labelled l); auto; discriminate. }
  destruct F as [(b0 & I0 & Ev) MX]. apply in_map_iff in I0 as ((t1, b1) & Q & I0). cbn in Q. subst b1.
  assert (is_unit d) as UD. { rewrite <- Hd. apply U. now left. }
  assert (forall t b, In (t, b) (labelled l) -> exists k, linealignvector b (labeldist p) (- px d) (- py d) = (k * px d, k * py d) /\
     (forall q, In q (corners b) -> labeldist p <= outward (mpoint t) d q - k) /\ exists q, In q (corners b) /\ outward (mpoint t) d q - k = labeldist p) as AL.
  { intros t b I. apply align_typeset; auto. pose proof (proj1 (labelled_in l t b) I) as [I1 _]. pose proof (T t b I) as TT. rewrite (ED' t I1) in TT. exact TT. }
  destruct (AL t1 b0 I0) as (k & Ek & A0 & q0 & Iq & Eq). rewrite Ek in Ev.
  exists k, d. split; auto. split.
  { destruct (labelled_replace l (map (transform (translation v) false) (map snd (labelled l)))) as [H1 H2]; [now rewrite !map_length|].
    revert H1 H2. generalize (labelled (replace_labels l (map (transform (translation v) false) (map snd (labelled l))))). generalize (labelled l). clear - Ev. intros l1.
    induction l1 as [|(t, b) l1 IH]; intros l2 H1 H2; inversion H1; subst; constructor.
    - cbn in H2. injection H2 as H2 H2'. destruct H3 as [H3 H4]. split; auto. split; auto. rewrite H2. cbn [snd]. apply transform_moved.
    - apply IH; auto. cbn in H2. now injection H2. }
  split.
  - intros t b q I J. destruct (AL t b I) as (k' & Ek' & A' & _). specialize (A' q J).
    assert (k <= k'). { specialize (MX b (in_map snd _ _ I)). rewrite Ek', Ev in MX. cbn [px py fst snd] in MX. unfold is_unit, px, py in *.
      replace (k * fst d * - fst d + k * snd d * - snd d) with (- k * (fst d * fst d + snd d * snd d)) in MX by ring.
      replace (k' * fst d * - fst d + k' * snd d * - snd d) with (- k' * (fst d * fst d + snd d * snd d)) in MX by ring. rewrite UD in MX. lra. }
    lra.
  - exists t1, b0, q0. auto.
Qed.
Lemma Forall2_in_l {A B} (P : A -> B -> Prop) l m x : Forall2 P l m -> In x l -> exists y, In y m /\ P x y.
Proof. induction 1; intros []; [subst; exists y; cbn; auto|]. destruct (IHForall2 H1) as (z & I & Q). exists z. cbn. auto. Qed.
Lemma Forall2_in_r {A B} (P : A -> B -> Prop) l m y : Forall2 P l m -> In y m -> exists x, In x l /\ P x y.
Proof. induction 1; intros []; [subst; exists x; cbn; auto|]. destruct (IHForall2 H1) as (z & I & Q). exists z. cbn. auto. Qed.
Lemma Forall2_imp {A B} (P Q : A -> B -> Prop) l m : Forall2 P l m -> (forall x y, In x l -> P x y -> Q x y) -> Forall2 Q l m.
Proof. induction 1; intros H1; constructor; [apply H1; cbn; auto|]. apply IHForall2. intros; apply H1; cbn; auto. Qed.
Lemma aligned_put p l : fine l -> labelattrs p = true -> equalize (hequalize p) (vequalize p) (map mdir l) = false \/ level l ->
  Forall2 (fun tb x => put tb (labeldist p) x) (labelled l) (labelled (aligned p l)).
Proof.
  intros F LA H. destruct (equalize (hequalize p) (vequalize p) (map mdir l)) eqn:E.
  2: { now apply aligned_single. }
  destruct H as [H|[m H]]; [discriminate|].
  destruct (labelled l) as [|tb0 r] eqn:EL.
  { unfold aligned. rewrite LA, E. destruct l as [|t l']; [constructor|]. rewrite boxes_labelled, EL. cbn [map]. unfold linealignequal. cbn [farthest fold_left].
    destruct (labelled_replace (t :: l') []) as [H1 _]; [now rewrite EL|]. rewrite EL in H1. destruct (labelled (replace_labels (t :: l') [])); [constructor|inversion H1]. }
  rewrite <- EL in *. destruct (aligned_equal p l F LA E) as (k & d & ED & F2 & A & t1 & b1 & q1 & I1 & J1 & Q1); [congruence|].
  assert (forall t b, In (t, b) (labelled l) -> mdir t = d) as ED'. { intros t b I. apply ED. now apply labelled_in in I. }
  assert (m = labeldist p + k) as EM.
  { destruct (H t1 b1 I1) as [L (q & Iq & Eq)]. rewrite (ED' t1 b1 I1) in *. specialize (L q1 J1). specialize (A t1 b1 q I1 Iq). lra. }
  apply (Forall2_imp _ _ _ _ F2). intros (t, b) (t', b') I (X1 & X2 & X3). cbn [fst snd] in *. unfold put. cbn [fst snd].
  split; auto. split; auto. rewrite (ED' t b I). exists k. split; auto.
  destruct F as [U _]. assert (is_unit d) as UD. { rewrite <- (ED' t b I). apply U. now apply labelled_in in I. }
  apply (nearest_moved (mpoint t) d k (labeldist p) b b' UD X3). rewrite <- EM. rewrite <- (ED' t b I). now apply H.
Qed.
(** ** the loop *)
Definition lines_of (p : regular) (n : nat) (t : mark) : list (point * point) :=
  match tick_lengths p n t with Some (i, o) => [tick_line t i o] | None => [] end.
Definition reaches (p : regular) (n : nat) (t : mark) : list R :=
  match tick_lengths p n t with Some (i, o) => [o; - i] | None => [] end ++
  match label t with Some b => if labelattrs p then [extent b (px (mdir t)) (py (mdir t)) + labeldist p] else [] | None => [] end.
Lemma widen_fold l e : let r := fold_left widen l e in e <= r /\ (forall x, In x l -> x <= r) /\ (r = e \/ In r l).
Proof.
  cbv zeta. revert e. induction l as [|x l IH]; intros e; cbn [fold_left].
  - split; [lra|]. split; [contradiction|now left].
  - destruct (IH (widen e x)) as (A & B & C). unfold widen in *. destruct (ltb_case e x) as [[L Q]|[L Q]]; rewrite Q in *.
    + split; [lra|]. split; [intros y [->|I]; auto|]. right. destruct C as [C|C]; [left; congruence|now right].
    + split; [lra|]. split; [intros y [->|I]; auto; lra|]. destruct C as [C|C]; [now left|right; now right].
Qed.
Lemma paint_mark_is p n c t : paint_mark p n c t =
  {| extent_pt := fold_left widen (reaches p n t) (extent_pt c); ticks := ticks c ++ lines_of p n t;
     grid := grid c ++ (if gridattrs p (ticklevel t) n then [t] else []);
     labels := labels c ++ (if labelattrs p then match label t with Some b => [b] | None => [] end else []); titles := titles c |}.
Proof.
  unfold paint_mark, reaches, lines_of. destruct c as [e ts g lb tt]. destruct (tick_lengths p n t) as [[i o]|], (gridattrs p (ticklevel t) n), (label t) as [b|], (labelattrs p);
  cbn [extent_pt ticks grid labels titles fold_left app]; rewrite ?app_nil_r; reflexivity.
Qed.
Lemma paint_fold p n l c : fold_left (paint_mark p n) l c =
  {| extent_pt := fold_left widen (flat_map (reaches p n) l) (extent_pt c); ticks := ticks c ++ flat_map (lines_of p n) l;
     grid := grid c ++ filter (fun t => gridattrs p (ticklevel t) n) l;
     labels := labels c ++ (if labelattrs p then boxes l else []); titles := titles c |}.
Proof.
  revert c. induction l as [|t l IH]; intros c; cbn [fold_left flat_map filter boxes].
  - destruct c, (labelattrs p); cbn; now rewrite !app_nil_r.
  - rewrite IH, paint_mark_is. cbn [extent_pt ticks grid labels titles]. rewrite fold_left_app, <- !app_assoc.
    fold (boxes l). destruct (gridattrs p (ticklevel t) n), (labelattrs p); cbn [app]; rewrite ?app_nil_r; reflexivity.
Qed.
Definition same_mark (t t' : mark) : Prop := mpoint t' = mpoint t /\ mdir t' = mdir t /\ ticklevel t' = ticklevel t.
Lemma aligned_same p l : Forall2 same_mark l (aligned p l).
Proof.
  assert (forall l, Forall2 same_mark l l) as R. { clear. induction l; constructor; auto. repeat split. }
  unfold aligned. destruct (labelattrs p); auto. destruct (equalize _ _ _).
  - destruct l as [|d r]; [constructor|]. generalize (linealignequal (boxes (d :: r)) (labeldist p) (- px (mdir d)) (- py (mdir d))). generalize (d :: r). clear.
    induction l as [|t l IH]; intros bs; cbn [replace_labels]; [constructor|]. destruct (label t), bs; constructor; auto; repeat split.
  - apply Forall2_map_r. intros x _. repeat split.
Qed.
Lemma flat_lines p n l l' : Forall2 same_mark l l' -> flat_map (lines_of p n) l' = flat_map (lines_of p n) l.
Proof.
  induction 1 as [|t t' l l' (E1 & E2 & E3) _ IH]; auto. cbn [flat_map]. rewrite IH. f_equal. unfold lines_of, tick_lengths, tick_line. now rewrite E1, E2, E3.
Qed.
Lemma tick_lengths_is p l t i o : tick_lengths p (maxticklevel l) t = Some (i, o) <-> has_tick p l t i o.
Proof.
  unfold tick_lengths, has_tick. destruct (ticklevel t) as [k|].
  2: { split; [discriminate|]. intros (k & E & _). discriminate. }
  split.
  - intros E. exists k. destruct (tickattrs p k _); [|discriminate]. split; auto. split; auto.
    destruct (innerlength p), (outerlength p); cbn in E; try discriminate; injection E as <- <-; (split; [|split; reflexivity]);
    try (left; discriminate); right; discriminate.
  - intros (k' & E & T & [N|N] & -> & ->); injection E as <-; rewrite T; destruct (innerlength p), (outerlength p); try contradiction; reflexivity.
Qed.

(** C129: a tick is a straight line along the direction of the ticks, from its inner to its outer length *)
Theorem axis_ticks : forall p l title c ln, In ln (ticks (paint p l title c)) <->
  In ln (ticks c) \/ exists t i o, In t l /\ has_tick p l t i o /\ outside (mpoint t) (mdir t) (- i) (fst ln) /\ outside (mpoint t) (mdir t) o (snd ln).
Proof.
  intros p l title c ln. assert (ticks (paint p l title c) = ticks c ++ flat_map (lines_of p (maxticklevel l)) l) as ->.
  { unfold paint, paint_title, paint_regular. rewrite paint_fold. destruct title as [[b d]|]; cbn [ticks]; now rewrite (flat_lines p _ l _ (aligned_same p l)). }
  rewrite in_app_iff, in_flat_map. unfold lines_of. split; (intros [H|H]; [now left|right]).
  - destruct H as (t & I & J). destruct (tick_lengths p (maxticklevel l) t) as [[i o]|] eqn:E; [|contradiction].
    apply tick_lengths_is in E. destruct J as [<-|[]]. exists t, i, o. split; auto. split; auto. unfold outside, tick_line. cbn. repeat split; ring.
  - destruct H as (t & i & o & I & E & (A1 & A2) & B1 & B2). exists t. split; auto. apply tick_lengths_is in E. rewrite E. left.
    unfold tick_line. destruct ln as [[a b] [a' b']]. unfold px, py in *. cbn in *. rewrite A1, A2, B1, B2. repeat apply (f_equal2 pair); ring.
Qed.
Print Assumptions axis_ticks.
(** C129: labels are moved outward only, each at least by the distance of the labels; each for itself
    to exactly this distance, or all together by the same vector and one of them to this distance *)
Theorem axis_labels : forall p l title c, labelattrs p = true -> (forall t, In t l -> is_unit (mdir t)) ->
  (forall t b, In (t, b) (labelled l) -> typeset (mpoint t) (mdir t) b) ->
  exists new, labels (paint p l title c) = labels c ++ new /\
  Forall2 (fun tb b' => (exists v, moved (mdir (fst tb)) v (snd tb) b') /\ forall q, In q (corners b') -> labeldist p <= outward (mpoint (fst tb)) (mdir (fst tb)) q) (labelled l) new /\
  (Forall2 (fun tb b' => nearest (mpoint (fst tb)) (mdir (fst tb)) (labeldist p) b') (labelled l) new \/
   (exists v, Forall2 (fun tb b' => moved (mdir (fst tb)) v (snd tb) b') (labelled l) new) /\
   exists tb b', In (tb, b') (combine (labelled l) new) /\ nearest (mpoint (fst tb)) (mdir (fst tb)) (labeldist p) b').
Proof.
  intros p l title c LA U T. assert (fine l) as FN by (split; auto). exists (boxes (aligned p l)). split.
  { unfold paint, paint_title, paint_regular. rewrite paint_fold, LA. destruct title as [[b d]|]; reflexivity. }
  rewrite (boxes_labelled (aligned p l)).
  assert (forall (P : mark * polygon -> polygon -> Prop) l1 (l2 : list (mark * polygon)), Forall2 (fun x y => P x (snd y)) l1 l2 -> Forall2 P l1 (map snd l2)) as FM.
  { clear. intros P l1 l2 H. induction H; constructor; auto. }
  destruct (equalize (hequalize p) (vequalize p) (map mdir l)) eqn:E.
  - destruct (labelled l) as [|tb0 r] eqn:EL.
    { pose proof (aligned_put p l FN LA) as H. rewrite EL in H. assert (level l) as LV by (exists 0; rewrite EL; contradiction). specialize (H (or_intror LV)).
      inversion H. split; [constructor|]. left. constructor. }
    rewrite <- EL in *. destruct (aligned_equal p l FN LA E) as (k & d & ED & F2 & A & t1 & b1 & q1 & I1 & J1 & Q1); [congruence|].
    assert (forall t b, In (t, b) (labelled l) -> mdir t = d) as ED'. { intros t b I. apply ED. now apply labelled_in in I. }
    assert (is_unit d) as UD. { rewrite <- (ED' t1 b1 I1). apply U. now apply labelled_in in I1. }
    assert (forall t b b', In (t, b) (labelled l) -> moved d (k * px d, k * py d) b b' -> forall q, In q (corners b') -> labeldist p <= outward (mpoint t) d q) as LB.
    { intros t b b' I (_ & EB & _) q J. rewrite EB in J. apply in_map_iff in J as (q' & <- & J). rewrite outward_moved by auto. apply (A t b q' I J). }
    split.
    + apply FM. apply (Forall2_imp _ _ _ _ F2). intros (t, b) (t', b') I (X1 & X2 & X3). cbn [fst snd] in *. rewrite (ED' t b I).
      split; [now exists (k * px d, k * py d)|]. now apply (LB t b b').
    + right. split.
      * exists (k * px d, k * py d). apply FM. apply (Forall2_imp _ _ _ _ F2). intros (t, b) (t', b') I (X1 & X2 & X3). cbn [fst snd] in *. now rewrite (ED' t b I).
      * assert (forall l1 (l2 : list (mark * polygon)), Forall2 (fun tb x => mpoint (fst x) = mpoint (fst tb) /\ mdir (fst x) = mdir (fst tb) /\ moved d (k * px d, k * py d) (snd tb) (snd x)) l1 l2 ->
          In (t1, b1) l1 -> exists b', In ((t1, b1), b') (combine l1 (map snd l2)) /\ moved d (k * px d, k * py d) b1 b') as CB.
        { clear. intros l1 l2 H. induction H as [|x y l1 l2 (X1 & X2 & X3) H IH]; intros I; [contradiction|]. destruct I as [->|I].
          - exists (snd y). cbn. auto.
          - destruct (IH I) as (b' & J & M). exists b'. cbn. auto. }
        destruct (CB _ _ F2 I1) as (b' & J & M). exists (t1, b1), b'. split; auto. cbn [fst snd]. rewrite (ED' t1 b1 I1). split; [now apply (LB t1 b1 b')|].
        exists (translation (k * px d, k * py d) q1). destruct M as (_ & EB & _). rewrite EB. split; [now apply in_map|]. rewrite outward_moved by auto. exact Q1.
  - pose proof (aligned_single p l FN LA E) as F2. split.
    + apply FM. apply (Forall2_imp _ _ _ _ F2). intros (t, b) (t', b') I (_ & _ & k & M & N). cbn [fst snd] in *. split; [eexists; exact M|]. apply N.
    + left. apply FM. apply (Forall2_imp _ _ _ _ F2). intros (t, b) (t', b') I (_ & _ & k & M & N). exact N.
Qed.
Print Assumptions axis_labels.
