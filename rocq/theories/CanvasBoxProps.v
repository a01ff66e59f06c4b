(** C80: the bounding box of a canvas *)
From Coq Require Import ZArith Reals List Bool Lra.
From Verif Require Import TrafoModel BboxModel BboxSpec BboxProps CanvasModel CanvasBoxModel.
Import ListNotations.
Open Scope R_scope.

(** The points to be seen: those of the boxes of items, moved by the canvases around them, if inside
    the boxes of their clip paths. *)
Inductive seen : boxed -> R * R -> Prop :=
| Seen_leaf b p : inside b p -> seen (Leaf b) p
| Seen_group c l i p q : In i l -> seen i p -> q = apply_pt (trafo_of (c_trafo c)) p ->
    (forall path, c_clip c = Some path -> inside (path_box path) q) -> seen (Group c l) q.

Section Induction.
  Variable P : boxed -> Prop.
  Hypothesis HL : forall b, P (Leaf b).
  Hypothesis HG : forall c l, Forall P l -> P (Group c l).
  Fixpoint boxed_all (t : boxed) : P t :=
    match t with
    | Leaf b => HL b
    | Group c l => HG c l ((fix go (l : list boxed) : Forall P l :=
        match l with [] => Forall_nil P | i :: r => Forall_cons i (boxed_all i) (go r) end) l)
    end.
End Induction.

Lemma badd_left a b p : inside a p -> inside (badd a b) p.
Proof.
  destruct a as [[la|] ya xa za], b as [[lb|] yb xb zb], p as [x y]; intros H; try (now apply inside_none in H);
    apply inside_inv in H; cbn in H; unfold badd; cbn; apply inside_intro; revert H; mm; intros; lra.
Qed.
Lemma badd_right a b p : inside b p -> inside (badd a b) p.
Proof.
  destruct a as [[la|] ya xa za], b as [[lb|] yb xb zb], p as [x y]; intros H; try (now apply inside_none in H);
    apply inside_inv in H; cbn in H; unfold badd; cbn; apply inside_intro; revert H; mm; intros; lra.
Qed.
Lemma inside_same a b p : same a b -> inside a p -> inside b p.
Proof.
  intros (E & K) (l & E1 & H). destruct K as (K1 & K2 & K3); [congruence|]. exists l. rewrite <- E, <- K1, <- K2, <- K3. auto.
Qed.
Lemma inside_proper b p : inside b p -> proper b.
Proof. intros (l & E & H) l' E'. rewrite E in E'. injection E' as <-. lra. Qed.
Lemma transform_inside b t p : inside b p -> inside (transform b t) (apply_pt t p).
Proof.
  intros H. apply inside_same with (transformed b t); [apply same_sym, transform_inplace|].
  apply transformed_smallest; [now apply inside_proper in H|eauto].
Qed.
Lemma finish_inside c b p : inside b p ->
  (forall path, c_clip c = Some path -> inside (path_box path) (apply_pt (trafo_of (c_trafo c)) p)) ->
  inside (finish c b) (apply_pt (trafo_of (c_trafo c)) p).
Proof.
  intros H K. unfold finish. destruct (c_clip c) as [q|]; [|now apply transform_inside].
  apply inside_same with (bmul (transform b (trafo_of (c_trafo c))) (path_box q)); [apply same_sym, product_inplace|].
  apply product_common_points. split; [now apply transform_inside|auto].
Qed.
(** C80: every point to be seen is in the bounding box of the canvas *)
Theorem canvas_bbox_contains : forall t p, seen t p -> inside (canvas_bbox t) p.
Proof.
  induction t as [b|c l IH] using boxed_all; intros p H.
  - inversion H; subst. auto.
  - inversion H as [|c0 l0 i q p0 I S E K]; subst. cbn [canvas_bbox]. apply finish_inside; auto.
    rewrite Forall_forall in IH. specialize (IH i I q S). clear - I IH.
    assert (forall acc, inside acc q \/ In i l -> inside (fold_left (fun acc i => biadd acc (canvas_bbox i)) l acc) q) as G; [|now apply G; right].
    clear I. induction l as [|z l IHl]; intros acc [A|A]; cbn; auto; try contradiction; apply IHl; rewrite badd_biadd.
    + left. now apply badd_left.
    + destruct A as [->|A]; [left; now apply badd_right|now right].
Qed.
Print Assumptions canvas_bbox_contains.
(** C80: what is outside of the clip path is not in the box *)
Theorem canvas_bbox_clipped : forall c l path p, c_clip c = Some path -> inside (canvas_bbox (Group c l)) p -> inside (path_box path) p.
Proof.
  intros c l path p E H. cbn [canvas_bbox] in H. unfold finish in H. rewrite E in H.
  apply inside_same with (b := bmul (transform (fold_left (fun acc i => biadd acc (canvas_bbox i)) l empty) (trafo_of (c_trafo c))) (path_box path)) in H;
    [|apply product_inplace]. apply product_common_points in H. tauto.
Qed.
Print Assumptions canvas_bbox_clipped.
Lemma same_transform a b t : same a b -> same (transform a t) (transform b t).
Proof.
  intros (E & H). destruct a as [[la|] ya xa za], b as [[lb|] yb xb zb]; cbn in *; try discriminate; [|split; cbn; congruence].
  destruct H as (-> & -> & ->); [discriminate|]. injection E as ->. apply same_refl.
Qed.
Lemma same_bimul a b c : same a b -> same (bimul a c) (bimul b c).
Proof.
  intros (E & H). destruct a as [[la|] ya xa za], b as [[lb|] yb xb zb], c as [[lc|] yc xc zc]; cbn in *; try discriminate; try (split; cbn; congruence).
  destruct H as (-> & -> & ->); [discriminate|]. injection E as ->. apply same_refl.
Qed.
Lemma same_finish c a b : same a b -> same (finish c a) (finish c b).
Proof. intros H. unfold finish. destruct (c_clip c); [apply same_bimul|]; now apply same_transform. Qed.
Lemma finish_empty c : same (finish c empty) empty.
Proof. unfold finish. cbn. destruct (c_clip c) as [p|]; [|apply same_refl]. unfold bimul. cbn. destruct (llx (path_box p)); split; cbn; congruence. Qed.
(** C80: the box found while writing the output adds exactly the box of the canvas *)
Theorem process_bbox_adds : forall t b, same (process_bbox t b) (badd b (canvas_bbox t)).
Proof.
  induction t as [b'|c l IH] using boxed_all; intros b.
  - cbn. rewrite badd_biadd. apply same_refl.
  - assert (forall acc acc', same acc acc' -> same (fold_left (fun acc i => process_bbox i acc) l acc) (fold_left (fun acc i => biadd acc (canvas_bbox i)) l acc')) as G.
    { induction IH as [|i l Hi Hl IHl]; intros acc acc' S; cbn; auto. apply IHl. rewrite badd_biadd.
      eapply same_trans; [apply Hi|]. apply same_badd; auto. apply same_refl. }
    destruct l as [|i l].
    + cbn. apply same_sym. eapply same_trans; [apply same_badd; [apply same_refl|apply finish_empty]|]. apply (sum_algebra b b b).
    + cbn [process_bbox canvas_bbox]. rewrite badd_biadd. apply same_badd; [apply same_refl|]. apply same_finish. apply G. apply same_refl.
Qed.
Print Assumptions process_bbox_adds.
(** C80 is false in the other direction: nothing of the inner canvas is seen, but it enlarges the box *)
Theorem canvas_bbox_tight_refuted : exists b c l, (forall p, ~ seen (Group c l) p) /\ proper b /\
  exists p, inside (canvas_bbox (Group (mkcanvas false [] None None) [Leaf b; Group c l])) p /\ ~ inside b p.
Proof.
  exists (mkbbox (Some 8) 8 9 9), (mkcanvas true [] (Some [(5, 5); (6, 6)]) None), [Leaf (mkbbox (Some 0) 0 1 1)].
  assert (path_box [(5, 5); (6, 6)] = mkbbox (Some 5) 5 6 6) as PB.
  { unfold path_box, includepoint_pt. cbn. f_equal; [f_equal|..]; unfold Rmin, Rmax; destruct (Rle_dec 5 6); lra. }
  split; [|split].
  - intros p H. inversion H as [|c0 l0 i q p0 I S E K]; subst. destruct I as [<-|[]]. inversion S; subst. apply inside_inv in H1.
    specialize (K _ eq_refl). rewrite PB in K. apply inside_inv in K. cbn in K. destruct q as [x y]. cbn in *. lra.
  - intros l E. injection E as <-. cbn. lra.
  - exists (6, 8). split.
    + cbn [canvas_bbox fold_left]. unfold finish. cbn [c_clip c_trafo trafo_of]. rewrite PB.
      assert (forall y1 x2 y2 l, transform (mkbbox (Some l) y1 x2 y2) one = mkbbox (Some (Rmin l x2)) (Rmin y1 y2) (Rmax l x2) (Rmax y1 y2)) as T.
      { intros. unfold transform, apply_pt, one, min4, max4. cbn. f_equal; [f_equal|..]; mm; lra. }
      unfold biadd at 3. cbn [llx empty lly urx ury]. rewrite T. unfold bimul. cbn [llx lly urx ury].
      unfold biadd at 2. cbn [llx empty lly urx ury]. unfold biadd. cbn [llx lly urx ury]. rewrite T. apply inside_intro; cbn; mm; lra.
    + intros H. apply inside_inv in H. cbn in H. lra.
Qed.
Print Assumptions canvas_bbox_tight_refuted.
Example canvas_bbox_ex : seen (Group (mkcanvas true [] (Some [(0, 0); (5, 5)]) (Some (mktrafo 2 0 0 2 0 0))) [Leaf (mkbbox (Some 0) 0 4 1); Leaf empty]) (4, 2).
Proof.
  eapply Seen_group with (i := Leaf (mkbbox (Some 0) 0 4 1)) (p := (2, 1)); [now left| | |].
  - constructor. apply inside_intro; lra.
  - unfold apply_pt. cbn. f_equal; ring.
  - intros path E. cbn in E. injection E as <-. unfold path_box, includepoint_pt. cbn. apply inside_intro; unfold Rmin, Rmax; destruct (Rle_dec 0 5); lra.
Qed.
