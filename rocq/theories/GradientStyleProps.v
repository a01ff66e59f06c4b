(** Where the gradient style puts its pixels and which colors they get *)
From Coq Require Import Reals List Arith Lia Lra.
From Verif Require Import TrafoModel GradientStyleModel.
Import ListNotations.
Open Scope R_scope.

(** the point at the fraction v along the graph and the fraction w across it *)
Definition along (g : gx) (v w : R) : R * R :=
  if horizontal g then (gxpos g + v * gwidth g, gypos g + w * gheight g)
  else (gxpos g + w * gwidth g, gypos g + v * gheight g).

Lemma nth_params n i : (i < n)%nat -> nth i (color_params n) 0 = INR i / INR n.
Proof.
  intro Hi. unfold color_params.
  rewrite (nth_indep _ 0 (INR 0 * 1 / INR n)) by (now rewrite map_length, seq_length).
  rewrite (map_nth (fun k => INR k * 1 / INR n)), seq_nth by exact Hi.
  cbn [Nat.add]. now rewrite Rmult_1_r.
Qed.

(** C174: for each resolution of at least 2 the clipping rectangle is the graph, the point at the fraction s of the bitmap (along) and w (across)
    lies at the fraction (n s - 1/2) / (n - 1) of the axis, so that the centers of the pixels are equally spaced from one end of the axis
    to the other; there is one color for each pixel, and it is the color of a value at most 1/n below the one at the center of the pixel. *)
Theorem gradient_pixels : forall g n, (2 <= n)%nat ->
  exists t cs,
    gradient_draw g n = Some ((gxpos g, gypos g, gwidth g, gheight g), t, cs) /\
    (forall s w, apply_pt t (s, w) = along g ((INR n * s - / 2) / (INR n - 1)) w) /\
    (forall i w, apply_pt t ((INR i + / 2) / INR n, w) = along g (INR i / (INR n - 1)) w) /\
    length cs = n /\
    (forall i, (i < n)%nat -> 0 <= INR i / (INR n - 1) - nth i cs 0 <= / INR n).
Proof.
  intros g n Hn.
  assert (H2 : 2 <= INR n) by (apply (le_INR 2) in Hn; simpl in Hn; lra).
  unfold gradient_draw, vpos_pt.
  destruct (Nat.eqb_spec n 1) as [E|_]; [lia|].
  destruct (horizontal g) eqn:Hg.
  all: eexists; exists (color_params n).
  all: assert (G : forall t, (forall s w, apply_pt t (s, w) = along g ((INR n * s - / 2) / (INR n - 1)) w) ->
    (forall s w, apply_pt t (s, w) = along g ((INR n * s - / 2) / (INR n - 1)) w) /\
    (forall i w, apply_pt t ((INR i + / 2) / INR n, w) = along g (INR i / (INR n - 1)) w) /\
    length (color_params n) = n /\
    (forall i, (i < n)%nat -> 0 <= INR i / (INR n - 1) - nth i (color_params n) 0 <= / INR n)).
  1, 3: intros t Ht; split; [exact Ht|]; split;
    [intros i w; rewrite Ht; f_equal; field; lra|]; split;
    [unfold color_params; now rewrite map_length, seq_length|];
    intros i Hi; rewrite nth_params by exact Hi;
    assert (Hi1 : INR i <= INR n - 1) by (apply (le_INR (S i)) in Hi; rewrite S_INR in Hi; lra);
    pose proof (pos_INR i) as Hi0;
    replace (INR i / (INR n - 1) - INR i / INR n) with (INR i / (INR n - 1) * / INR n) by (field; lra);
    assert (P : 0 < / INR n) by (apply Rinv_0_lt_compat; lra);
    assert (Q : 0 <= INR i / (INR n - 1) <= 1) by
      (split; [apply Rmult_le_pos; [lra|left; apply Rinv_0_lt_compat; lra]
              |apply (Rmult_le_reg_r (INR n - 1)); [lra|]; unfold Rdiv; rewrite Rmult_assoc, Rinv_l by lra; lra]);
    split; [apply Rmult_le_pos; lra|]; rewrite <- (Rmult_1_l (/ INR n)) at 2; apply Rmult_le_compat_r; lra.
  all: (split; [f_equal; f_equal; f_equal; f_equal; [f_equal; [f_equal|]|]; field|]; apply G; intros s w;
    unfold apply_pt, along; rewrite Hg; cbn [fst snd m00 m01 m10 m11 v0 v1]; f_equal; field; lra).
Qed.
Print Assumptions gradient_pixels.

(** C174: the resolution 1 is the only one that fails *)
Theorem gradient_fails_iff : forall g n, gradient_draw g n = None <-> n = 1%nat.
Proof.
  intros g n. unfold gradient_draw, vpos_pt.
  destruct (horizontal g); cbn -[Nat.eqb]; destruct (Nat.eqb_spec n 1); split; intro H; congruence.
Qed.
Print Assumptions gradient_fails_iff.

(** C174: the pixel at the upper end of the axis never has the color of the upper end of the gradient; the colors of all
    pixels but the first belong to other places than the ones where they are drawn *)
Theorem gradient_end_refuted : forall g n t cs clip i, (2 <= n)%nat -> (0 < i < n)%nat ->
  gradient_draw g n = Some (clip, t, cs) -> nth i cs 0 < INR i / (INR n - 1) /\ nth i cs 0 < 1.
Proof.
  intros g n t cs clip i Hn [Hi0 Hi] H.
  assert (E : cs = color_params n).
  { revert H. unfold gradient_draw, vpos_pt. destruct (Nat.eqb n 1); destruct (horizontal g); cbn; congruence. }
  subst cs. rewrite nth_params by exact Hi.
  assert (H2 : 2 <= INR n) by (apply (le_INR 2) in Hn; simpl in Hn; lra).
  assert (P : 0 < INR i) by (now apply (lt_INR 0)).
  pose proof (lt_INR _ _ Hi) as Q.
  split.
  - apply Rmult_lt_compat_l; [exact P|]. apply Rinv_lt_contravar; [apply Rmult_lt_0_compat|]; lra.
  - apply (Rmult_lt_reg_r (INR n)); [lra|]. unfold Rdiv. rewrite Rmult_assoc, Rinv_l by lra. lra.
Qed.
Print Assumptions gradient_end_refuted.

(** a horizontal bar of 90 by 10 points with four pixels: their centers are at 0, 30, 60 and 90 points, the colors those of 0, 1/4, 1/2, 3/4 *)
Example bar : exists t, gradient_draw (mkgx true 0 0 90 10) 4 = Some ((0, 0, 90, 10), t, color_params 4) /\
  apply_pt t (7 / 8, / 2) = (90, 5) /\ nth 3 (color_params 4) 0 = 3 / 4.
Proof.
  destruct (gradient_pixels (mkgx true 0 0 90 10) 4 ltac:(lia)) as (t & cs & E & A & _ & _ & _).
  assert (cs = color_params 4) as -> by (revert E; unfold gradient_draw, vpos_pt; cbn; congruence).
  exists t. split; [exact E|]. split.
  - rewrite A. unfold along; cbn [horizontal gxpos gypos gwidth gheight]. simpl INR. f_equal; field.
  - rewrite nth_params by lia. simpl INR. field.
Qed.
Example bar_vertical : exists t cs, gradient_draw (mkgx false 5 7 10 90) 4 = Some ((5, 7, 10, 90), t, cs) /\ apply_pt t (/ 8, 1) = (15, 7).
Proof.
  destruct (gradient_pixels (mkgx false 5 7 10 90) 4 ltac:(lia)) as (t & cs & E & A & _ & _ & _).
  exists t, cs. split; [exact E|]. rewrite A. unfold along; cbn [horizontal gxpos gypos gwidth gheight]. simpl INR. f_equal; field.
Qed.
