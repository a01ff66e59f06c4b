(** The length of fast curves; appending fast items. *)
From Coq Require Import Reals List Lra Lia Bool.
From Verif Require Import TrafoModel BboxModel RootsModel CurveModel CurveSpec CurveProofs CurveProofs2 CurveProofs3 CurveProofs4
  NormsubModel NormsubSpec NormsubProofs NormsubProofs2.
Import ListNotations.
Open Scope R_scope.

Local Notation pt := (R * R)%type.

(** ** speed and length *)
Fixpoint steps (t h : R) (k : nat) : list R := match k with O => [] | S k' => (t + h) :: steps (t + h) h k' end.
Lemma steps_increasing h k : 0 <= h -> forall t, increasing t (steps t h k) (t + INR k * h).
Proof.
  intros Hh. induction k as [|k IH]; intros t; cbn [steps increasing].
  - simpl. ring.
  - split; [lra|]. replace (t + INR (S k) * h) with (t + h + INR k * h) by (rewrite S_INR; ring). apply IH.
Qed.
Lemma chain_steps f h e K k : 0 <= h -> forall t, 0 <= t -> t + INR k * h <= 1 ->
  (forall u, 0 <= u -> u + h <= 1 -> h * e - K * (h * h) <= distance (f u) (f (u + h))) ->
  INR k * (h * e - K * (h * h)) <= chain f t (steps t h k).
Proof.
  intros Hh. induction k as [|k IH]; intros t Ht H1 H; cbn [steps chain].
  - simpl. lra.
  - rewrite S_INR in *. assert (0 <= INR k) by apply pos_INR. assert (0 <= INR k * h) by (apply Rmult_le_pos; auto).
    specialize (IH (t + h)). specialize (H t) as HT.
    assert (INR k * (h * e - K * (h * h)) <= chain f (t + h) (steps (t + h) h k)) by (apply IH; auto; lra).
    assert (h * e - K * (h * h) <= distance (f t) (f (t + h))) by (apply HT; lra). lra.
Qed.
Lemma INR_unbounded x : exists n, x < INR n.
Proof.
  exists (Z.to_nat (up x)). destruct (archimed x) as [H _]. apply Rlt_le_trans with (IZR (up x)); [lra|].
  destruct (Z_le_gt_dec 0 (up x)) as [P|P].
  - rewrite INR_IZR_INZ, Z2Nat.id by auto. lra.
  - apply Rle_trans with 0; [apply (IZR_le _ 0); lia|apply pos_INR].
Qed.
Lemma length_at_least f e K L : 0 <= K ->
  (forall u h, 0 <= h -> 0 <= u -> u + h <= 1 -> h * e - K * (h * h) <= distance (f u) (f (u + h))) ->
  is_arc_length f 0 1 L -> e <= L.
Proof.
  intros HK H [U _]. apply Rnot_lt_le. intros N. 
  destruct (INR_unbounded (K / (e - L))) as [n Hn].
  assert (P : 0 < e - L) by lra.
  assert (0 <= K / (e - L)) by (apply Rmult_le_pos; [auto|apply Rlt_le, Rinv_0_lt_compat; lra]).
  assert (Pn : 0 < INR n) by lra.
  set (h := / INR n). assert (Ph : 0 < h) by now apply Rinv_0_lt_compat.
  assert (E : INR n * h = 1) by (apply Rinv_r; lra).
  assert (C : INR n * (h * e - K * (h * h)) <= chain f 0 (steps 0 h n)).
  { apply chain_steps; try lra. intros u Hu H1. apply H; lra. }
  assert (chain f 0 (steps 0 h n) <= L).
  { apply U. exists (steps 0 h n). split; auto. replace 1 with (0 + INR n * h) by lra. apply steps_increasing. lra. }
  replace (INR n * (h * e - K * (h * h))) with (e - K * h) in C by (replace (INR n * (h * e - K * (h * h))) with ((INR n * h) * (e - K * h)) by ring; rewrite E; ring).
  assert (K * h < e - L).
  { apply (Rmult_lt_reg_r (INR n)); auto. rewrite Rmult_assoc, (Rmult_comm h), E, Rmult_1_r.
    apply (Rmult_lt_compat_r (e - L)) in Hn; [|auto]. unfold Rdiv in Hn. rewrite Rmult_assoc, Rinv_l, Rmult_1_r in Hn by lra. lra. }
  lra.
Qed.

Lemma hypot_ge x y e : e * e <= x * x + y * y -> e <= hypot x y.
Proof.
  intros H. destruct (Rle_or_lt e 0); [apply Rle_trans with 0; [auto|apply sqrt_pos]|].
  apply Rsqr_incr_0; [|lra|apply sqrt_pos]. unfold Rsqr. now rewrite hypot_sqr.
Qed.
Lemma fast_nrm e i : fast e i -> forall t, 0 <= t <= 1 -> e <= nrm (velocity i t).
Proof.
  destruct i as [p0 p1|p0 p1 p2 p3]; intros F t Ht.
  - destruct p0, p1. exact F.
  - apply hypot_ge. specialize (F t Ht). rewrite sq_velocity in F. lra.
Qed.
Lemma nrm_fast e i : 0 <= e -> (forall t, 0 <= t <= 1 -> e <= nrm (velocity i t)) -> fast e i.
Proof.
  intros He. destruct i as [p0 p1|p0 p1 p2 p3]; intros F.
  - specialize (F 0 ltac:(lra)). destruct p0, p1. exact F.
  - intros t Ht. specialize (F t Ht). rewrite sq_velocity. unfold nrm in F. 
    pose proof (hypot_sqr (fst (velocity (Curve p0 p1 p2 p3) t)) (snd (velocity (Curve p0 p1 p2 p3) t))) as S.
    pose proof (Rmult_le_compat _ _ _ _ He He F F). lra.
Qed.
Lemma fast_speed e i : 0 <= e -> (fast e i <-> speed_at_least e i).
Proof.
  intros He. split.
  - intros F t Ht. destruct (velocity_deriv i t) as [D1 D2]. exists (fst (velocity i t)), (snd (velocity i t)).
    split; [exact D1|]. split; [exact D2|]. pose proof (fast_nrm e i F t Ht) as G. unfold nrm, hypot in G.
    replace (fst (velocity i t) ^ 2 + snd (velocity i t) ^ 2) with (fst (velocity i t) * fst (velocity i t) + snd (velocity i t) * snd (velocity i t)) by ring. exact G.
  - intros S. apply nrm_fast; auto. intros t Ht. destruct (S t Ht) as (vx & vy & D1 & D2 & G). destruct (velocity_deriv i t) as [E1 E2].
    rewrite (uniqueness_limite _ _ _ _ D1 E1), (uniqueness_limite _ _ _ _ D2 E2) in G. unfold nrm, hypot.
    replace (fst (velocity i t) * fst (velocity i t) + snd (velocity i t) * snd (velocity i t)) with (fst (velocity i t) ^ 2 + snd (velocity i t) ^ 2) by ring. exact G.
Qed.

Lemma step_bound (d v w : pt) h e K : 0 <= h -> d = vadd (vscale h v) (vscale (h * h) w) -> e <= nrm v -> nrm w <= K ->
  h * e - K * (h * h) <= nrm d.
Proof.
  intros Hh E Hv Hw. assert (T : nrm (vscale h v) <= nrm d + nrm (vscale (- (h * h)) w)).
  { eapply Rle_trans; [|apply nrm_triangle]. right. f_equal. rewrite E. unfold vscale, vadd. simpl. pairs_ring. }
  rewrite (nrm_scale_pos h v Hh), nrm_scale, Rabs_Ropp, Rabs_pos_eq in T by nra.
  assert (h * e <= h * nrm v) by (apply Rmult_le_compat_l; auto). assert (h * h * nrm w <= K * (h * h)) by (rewrite (Rmult_comm K); apply Rmult_le_compat_l; nra).
  lra.
Qed.
Lemma nrm_le_abs u : nrm u <= Rabs (fst u) + Rabs (snd u).
Proof.
  unfold nrm. apply Rsqr_incr_0; [|apply sqrt_pos|]; pose proof (Rabs_pos (fst u)); pose proof (Rabs_pos (snd u)); [|lra].
  unfold Rsqr. rewrite hypot_sqr. assert (fst u * fst u = Rabs (fst u) * Rabs (fst u)) as -> by (rewrite <- Rabs_mult; symmetry; apply Rabs_pos_eq; nra).
  assert (snd u * snd u = Rabs (snd u) * Rabs (snd u)) as -> by (rewrite <- Rabs_mult; symmetry; apply Rabs_pos_eq; nra). nra.
Qed.
Lemma quad_bound a b u h : 0 <= u -> 0 <= h -> u + h <= 1 -> Rabs (3 * a * u + a * h + b) <= 4 * Rabs a + Rabs b.
Proof.
  intros Hu Hh H1. eapply Rle_trans; [apply Rabs_triang|]. apply Rplus_le_compat_r.
  replace (3 * a * u + a * h) with (a * (3 * u + h)) by ring. rewrite Rabs_mult, (Rabs_pos_eq (3 * u + h)) by lra.
  rewrite Rmult_comm. apply Rmult_le_compat_r; [apply Rabs_pos|lra].
Qed.
Lemma fast_length e i L : fast e i -> is_arc_length (at_pt i) 0 1 L -> e <= L.
Proof.
  intros F. assert (N := fast_nrm e i F).
  destruct i as [[x0 y0] [x1 y1]|[x0 y0] [x1 y1] [x2 y2] [x3 y3]].
  - apply length_at_least with 0; [lra|]. intros u h Hh Hu H1. rewrite distance_nrm.
    apply step_bound with (v := (x1 - x0, y1 - y0)) (w := (0, 0)); [auto| | |].
    + unfold vsub, vadd, vscale. simpl. pairs_ring.
    + apply (N u). lra.
    + right. unfold nrm, hypot. simpl. rewrite Rmult_0_l, Rplus_0_l. apply sqrt_0.
  - set (ax := - x0 + 3 * x1 - 3 * x2 + x3). set (bx := 3 * x0 - 6 * x1 + 3 * x2).
    set (ay := - y0 + 3 * y1 - 3 * y2 + y3). set (by_ := 3 * y0 - 6 * y1 + 3 * y2).
    apply length_at_least with (4 * Rabs ax + Rabs bx + (4 * Rabs ay + Rabs by_)).
    + pose proof (Rabs_pos ax). pose proof (Rabs_pos bx). pose proof (Rabs_pos ay). pose proof (Rabs_pos by_). lra.
    + intros u h Hh Hu H1. rewrite distance_nrm.
      apply step_bound with (v := velocity (Curve (x0, y0) (x1, y1) (x2, y2) (x3, y3)) u) (w := (3 * ax * u + ax * h + bx, 3 * ay * u + ay * h + by_)); [auto| | |].
      * unfold vsub, vadd, vscale, velocity, tangent_coord, at_pt, curve_coord, ax, bx, ay, by_. simpl. pairs_ring.
      * apply N. lra.
      * eapply Rle_trans; [apply nrm_le_abs|]. simpl fst. simpl snd. apply Rplus_le_compat; apply quad_bound; auto.
Qed.

(** ** appending a fast item stores it *)
Lemma sq_ends e p0 p1 p2 p3 : 0 < e -> fast e (Curve p0 p1 p2 p3) -> e <= dist p0 p1 * 3 /\ e <= dist p3 p2 * 3.
Proof.
  intros He F. split.
  - specialize (F 0 ltac:(lra)). rewrite sq_0 in F. pose proof (dist_pos p0 p1). nra.
  - specialize (F 1 ltac:(lra)). rewrite sq_1 in F. pose proof (dist_pos p3 p2). nra.
Qed.
Lemma fast_stored e p0 p1 p2 p3 : 0 < e -> fast e (Curve p0 p1 p2 p3) ->
  substantial e p0 p1 p2 p3 = true /\ shift_first e p0 p1 p2 p3 = p1 /\ shift_second e p0 p1 p2 p3 = p2 /\ splitpoints e p0 p1 p2 p3 = [].
Proof.
  intros He F. destruct (sq_ends e p0 p1 p2 p3 He F) as [H1 H2].
  unfold substantial, shift_first, shift_second. rewrite (proj2 (leb_true e (dist p0 p1 * 3)) H1), (proj2 (leb_true e (dist p3 p2 * 3)) H2).
  destruct (ltb_spec (dist p0 p1 * 3) e); [lra|]. destruct (ltb_spec (dist p3 p2 * 3) e); [lra|].
  split; [rewrite orb_true_r; reflexivity|]. split; auto. split; auto.
  unfold splitpoints. induction (extrema p0 p1 p2 p3) as [|t l IH]; simpl; auto.
  destruct (ltb_spec 0 t); simpl; auto. destruct (ltb_spec t 1); simpl; auto.
  destruct (slow e p0 p1 p2 p3 t) eqn:S; auto. apply slow_spec in S. specialize (F t ltac:(lra)). lra.
Qed.
Lemma append_fast e f s i : 0 < e -> epsilon s = Some e -> closed s = false -> skipped s = None -> fast e i ->
  (forall l, lastitem (items s) = Some l -> atend_pt l = atbegin_pt i) ->
  append (S f) s i = Ok (push s i).
Proof.
  intros He Es Hc K F M. simpl. rewrite Es, K, Hc. unfold mismatch. rewrite K.
  assert ((match lastitem (items s) with Some l => negb (ltb (gap (atend_pt l) (atbegin_pt i)) e) | None => false end) = false) as ->.
  { destruct (lastitem (items s)) as [l|]; auto. rewrite (M l), gap_self by auto. destruct (ltb_spec 0 e); auto; lra. }
  assert (W : with_skipped s None = s) by (destruct s; simpl in *; subst; auto). rewrite W.
  destruct i as [p0 p1|p0 p1 p2 p3].
  - simpl in F. rewrite (proj2 (leb_true e _) F). reflexivity.
  - destruct (fast_stored e p0 p1 p2 p3 He F) as (-> & -> & -> & ->). reflexivity.
Qed.
Lemma extend_fast e f l : 0 < e -> forall s b p q, epsilon s = Some e -> closed s = false -> skipped s = None -> chained b (items s) p ->
  chained p l q -> Forall (fast e) l -> extend (S f) s l = Ok (mknsp (items s ++ l) false (Some e) None).
Proof.
  intros He. induction l as [|i l IH]; intros s b p q Es Hc K C1 C2 F; unfold extend; cbn [extend_with].
  - rewrite app_nil_r. destruct s; simpl in *; subst; auto.
  - destruct C2 as [C2 C3]. inversion F as [|? ? F1 F2]; subst.
    rewrite (append_fast e) by (auto; intros l0 L; apply lastitem_some in L; rewrite L in C1; apply chained_app in C1 as (m & _ & C1); apply C1).
    cbn [bind]. change (extend_with (append (S f))) with (extend (S f)).
    rewrite (IH (push s i) b (atend_pt i) q); auto.
    + simpl. now rewrite <- app_assoc.
    + simpl. apply chained_app. exists (atbegin_pt i). split; auto. simpl. auto.
Qed.
(** closing a subpath which already ends where it began *)
Lemma close_fast e f s b : 0 < e -> epsilon s = Some e -> closed s = false -> skipped s = None -> items s <> [] -> chained b (items s) b ->
  Forall (fast e) (items s) -> close (S (S f)) s = Ok (mknsp (items s) true (Some e) None).
Proof.
  intros He Es Hc K N C F. unfold close. rewrite Hc.
  destruct (lastitem (items s)) as [l|] eqn:L; [|apply lastitem_none in L; congruence].
  destruct (items s) as [|i its] eqn:Ei; [congruence|]. rewrite <- Ei in *.
  assert (B : atbegin_pt i = b) by (rewrite Ei in C; apply C).
  assert (L' := lastitem_some _ _ L). 
  assert (C' := C). rewrite L' in C'. apply chained_app in C' as (m & C1 & C2). simpl in C2. destruct C2 as [C2 C3].
  assert (A : append (S (S f)) s (Line (atend_pt l) (atbegin_pt i)) = Ok (with_skipped s (Some (Line (atend_pt l) (atbegin_pt i))))).
  { remember (S f) as g. simpl. rewrite Es, K, Hc. unfold mismatch. rewrite K, L. simpl atbegin_pt. rewrite gap_self.
    destruct (ltb_spec 0 e); [|lra]. simpl negb. cbv iota. rewrite C3, B, dist_self. destruct (leb_spec e 0); [lra|].
    reflexivity. }
  rewrite A. cbn [bind]. remember (S f) as g. simpl. rewrite L. simpl. rewrite Es, Hc.
  assert (M : modifiedend_pt l (atbegin_pt i) = l) by (rewrite B, <- C3; destruct l; auto). rewrite M. subst g.
  rewrite (append_fast e); auto.
  - cbn [bind]. unfold flush. simpl. rewrite <- L'. reflexivity.
  - rewrite Forall_forall in F. apply F. rewrite L'. apply in_or_app. right. simpl. auto.
  - simpl. intros l2 L2. apply lastitem_some in L2. rewrite L2 in C1. apply chained_app in C1 as (m' & _ & C1). simpl in C1. destruct C1 as [_ ->]. auto.
Qed.
