(** Arc length of Bezier curves. *)
From Coq Require Import Reals List Lra Lia Bool.
From Verif Require Import TrafoModel BboxModel CurveModel CurveSpec.
Import ListNotations.
Open Scope R_scope.

Local Notation pt := (R * R)%type.
Local Notation ctrl := (R * R * (R * R) * (R * R) * (R * R))%type.

Lemma pair_eq {A B} (a c : A) (b d : B) : a = c -> b = d -> (a, b) = (c, d).
Proof. intros; subst; reflexivity. Qed.
Ltac pairs_ring := repeat (apply pair_eq); try ring.

(** ** vectors *)
Definition vadd (u v : pt) : pt := (fst u + fst v, snd u + snd v).
Definition vscale (k : R) (u : pt) : pt := (k * fst u, k * snd u).
Definition vsub (u v : pt) : pt := (fst u - fst v, snd u - snd v).
Definition nrm (u : pt) : R := hypot (fst u) (snd u).
Lemma nrm_pos u : 0 <= nrm u.
Proof. apply sqrt_pos. Qed.
Lemma nrm_triangle u v : nrm (vadd u v) <= nrm u + nrm v.
Proof.
  pose proof (triangle 0 0 (fst u + fst v) (snd u + snd v) (fst u) (snd u)) as H.
  unfold dist_euc, Rsqr in H. unfold nrm, vadd, hypot. simpl.
  replace (0 - (fst u + fst v)) with (- (fst u + fst v)) in H by ring.
  replace (0 - (snd u + snd v)) with (- (snd u + snd v)) in H by ring.
  replace (0 - fst u) with (- fst u) in H by ring. replace (0 - snd u) with (- snd u) in H by ring.
  replace (fst u - (fst u + fst v)) with (- fst v) in H by ring.
  replace (snd u - (snd u + snd v)) with (- snd v) in H by ring.
  rewrite !Rmult_opp_opp in H. exact H.
Qed.
Lemma nrm_scale k u : nrm (vscale k u) = Rabs k * nrm u.
Proof.
  unfold nrm, vscale, hypot. simpl.
  replace (k * fst u * (k * fst u) + k * snd u * (k * snd u)) with (Rsqr k * (fst u * fst u + snd u * snd u))
    by (unfold Rsqr; ring).
  rewrite sqrt_mult; [|apply Rle_0_sqr|nra]. now rewrite sqrt_Rsqr_abs.
Qed.
Lemma nrm_scale_pos k u : 0 <= k -> nrm (vscale k u) = k * nrm u.
Proof. intros H. rewrite nrm_scale, Rabs_pos_eq; auto. Qed.
Lemma dist_nrm p q : dist p q = nrm (vsub q p).
Proof. reflexivity. Qed.
Lemma distance_nrm p q : distance p q = nrm (vsub q p).
Proof. unfold distance, nrm, hypot, vsub. simpl. f_equal. ring. Qed.
Lemma distance_dist p q : distance p q = dist p q.
Proof. now rewrite distance_nrm, dist_nrm. Qed.
Lemma dist_pos p q : 0 <= dist p q.
Proof. rewrite dist_nrm. apply nrm_pos. Qed.
Lemma dist_triangle p q r : dist p r <= dist p q + dist q r.
Proof.
  rewrite !dist_nrm. replace (vsub r p) with (vadd (vsub q p) (vsub r q)); [apply nrm_triangle|].
  unfold vadd, vsub. simpl. f_equal; ring.
Qed.
Lemma dist_self p : dist p p = 0.
Proof. unfold dist, hypot. rewrite !Rminus_diag_eq by reflexivity. rewrite Rmult_0_l, Rplus_0_l. apply sqrt_0. Qed.

(** ** points of a curve *)
Definition cat (c : ctrl) (t : R) : pt :=
  let '(p0, p1, p2, p3) := c in (bernstein (fst p0) (fst p1) (fst p2) (fst p3) t, bernstein (snd p0) (snd p1) (snd p2) (snd p3) t).
Definition left_part (c : ctrl) (t : R) : ctrl := let '(p0, p1, p2, p3) := c in fst (split p0 p1 p2 p3 t).
Definition right_part (c : ctrl) (t : R) : ctrl := let '(p0, p1, p2, p3) := c in snd (split p0 p1 p2 p3 t).
Lemma cat_left c t u : cat (left_part c t) u = cat c (t * u).
Proof. destruct c as [[[[? ?] [? ?]] [? ?]] [? ?]]. unfold cat, left_part, split, mix, bernstein. simpl. f_equal; ring. Qed.
Lemma cat_right c t u : cat (right_part c t) u = cat c (t + (1 - t) * u).
Proof. destruct c as [[[[? ?] [? ?]] [? ?]] [? ?]]. unfold cat, right_part, split, mix, bernstein. simpl. f_equal; ring. Qed.
Lemma cat_0 c : cat c 0 = fst (fst (fst c)).
Proof. destruct c as [[[[? ?] [? ?]] [? ?]] [? ?]]. unfold cat, bernstein. simpl. f_equal; ring. Qed.
Lemma cat_1 c : cat c 1 = snd c.
Proof. destruct c as [[[[? ?] [? ?]] [? ?]] [? ?]]. unfold cat, bernstein. simpl. f_equal; ring. Qed.
Lemma chord_dist c : chord c = dist (cat c 0) (cat c 1).
Proof. rewrite cat_0, cat_1. destruct c as [[[? ?] ?] ?]. reflexivity. Qed.

(** ** cutting corners *)
Lemma mix_sub s t p q : s + t = 1 -> vsub (mix s t p q) p = vscale t (vsub q p) /\ vsub q (mix s t p q) = vscale s (vsub q p).
Proof. intros H. replace s with (1 - t) by lra. unfold mix, vsub, vscale. simpl. split; f_equal; ring. Qed.
Lemma mix_sub2 s t p q r : vsub (mix s t q r) (mix s t p q) = vadd (vscale s (vsub q p)) (vscale t (vsub r q)).
Proof. unfold mix, vsub, vscale, vadd. simpl. f_equal; ring. Qed.
Lemma split_polygon c t : 0 <= t <= 1 -> polygon (left_part c t) + polygon (right_part c t) <= polygon c.
Proof.
  intros Ht. destruct c as [[[p0 p1] p2] p3]. unfold left_part, right_part, split, polygon. simpl.
  set (s := 1 - t). assert (st : s + t = 1) by (unfold s; ring). assert (Hs : 0 <= s) by (unfold s; lra).
  set (p01 := mix s t p0 p1). set (p12 := mix s t p1 p2). set (p23 := mix s t p2 p3).
  set (q1 := mix s t p01 p12). set (q2 := mix s t p12 p23).
  rewrite !dist_nrm.
  rewrite (proj1 (mix_sub s t p0 p1 st) : vsub p01 p0 = _). rewrite (proj1 (mix_sub s t p01 p12 st) : vsub q1 p01 = _).
  rewrite (proj1 (mix_sub s t q1 q2 st)), (proj2 (mix_sub s t q1 q2 st)).
  rewrite (proj2 (mix_sub s t p12 p23 st) : vsub p23 q2 = _). rewrite (proj2 (mix_sub s t p2 p3 st) : vsub p3 p23 = _).
  rewrite !nrm_scale_pos by lra.
  pose proof (nrm_triangle (vscale s (vsub p1 p0)) (vscale t (vsub p2 p1))) as M1. rewrite <- mix_sub2 in M1. fold p01 p12 in M1.
  pose proof (nrm_triangle (vscale s (vsub p2 p1)) (vscale t (vsub p3 p2))) as M2. rewrite <- mix_sub2 in M2. fold p12 p23 in M2.
  pose proof (nrm_triangle (vscale s (vsub p12 p01)) (vscale t (vsub p23 p12))) as N. rewrite <- mix_sub2 in N. fold q1 q2 in N.
  rewrite !nrm_scale_pos in M1, M2, N by lra.
  set (l1 := nrm (vsub p1 p0)) in *. set (l2 := nrm (vsub p2 p1)) in *. set (l3 := nrm (vsub p3 p2)) in *.
  set (m1 := nrm (vsub p12 p01)) in *. set (m2 := nrm (vsub p23 p12)) in *. set (n := nrm (vsub q2 q1)) in *.
  assert (S : s = 1 - t) by reflexivity. clearbody s l1 l2 l3 m1 m2 n. subst s.
  replace (t * l1 + t * m1 + t * n + ((1 - t) * n + (1 - t) * m2 + (1 - t) * l3))
    with (t * l1 + t * m1 + n + (1 - t) * m2 + (1 - t) * l3) by ring.
  lra.
Qed.
Lemma chord_polygon c : chord c <= polygon c.
Proof.
  destruct c as [[[p0 p1] p2] p3]. simpl. pose proof (dist_triangle p0 p1 p3). pose proof (dist_triangle p1 p2 p3). lra.
Qed.
Lemma polygon_pos c : 0 <= polygon c.
Proof. eapply Rle_trans; [|apply chord_polygon]. rewrite chord_dist. apply dist_pos. Qed.

(** ** chains *)
Lemma chain_const f l : forall t last, increasing t l last -> last = t -> chain f t l = 0.
Proof.
  induction l as [|u l IH]; simpl; intros t last I E; auto. destruct I as [I1 I2].
  assert (H : forall l u, increasing u l last -> u <= last).
  { clear. induction l as [|v l IH]; simpl; intros u H; [lra|]. destruct H as [H1 H2]. apply IH in H2. lra. }
  pose proof (H _ _ I2). assert (u = t) by lra. subst u. rewrite (IH t last I2 E), distance_dist, dist_self. ring.
Qed.
Lemma increasing_le l : forall t last, increasing t l last -> t <= last.
Proof. induction l as [|v l IH]; simpl; intros t last H; [lra|]. destruct H as [H1 H2]. apply IH in H2. lra. Qed.
Lemma chain_polygon c l : forall t, 0 <= t <= 1 -> increasing t l 1 -> chain (cat c) t l <= polygon (right_part c t).
Proof.
  induction l as [|u l IH]; intros t Ht I.
  - simpl. apply polygon_pos.
  - destruct (Req_dec t 1) as [->|N].
    + rewrite (chain_const _ _ _ _ I eq_refl). apply polygon_pos.
    + simpl in I. destruct I as [I1 I2]. pose proof (increasing_le _ _ _ I2) as I3. simpl.
      set (k := (u - t) / (1 - t)).
      assert (K : 0 <= k <= 1).
      { unfold k. split; [apply Rle_mult_inv_pos; lra|].
        apply (Rmult_le_reg_r (1 - t)); [lra|]. unfold Rdiv. rewrite Rmult_assoc, Rinv_l by lra. lra. }
      assert (Ku : t + (1 - t) * k = u) by (unfold k; field; lra).
      pose proof (split_polygon (right_part c t) k K) as S.
      assert (E : right_part (right_part c t) k = right_part c u).
      { rewrite <- Ku. clear. destruct c as [[[[? ?] [? ?]] [? ?]] [? ?]]. unfold right_part, split, mix. simpl.
        pairs_ring. }
      rewrite E in S. pose proof (IH u ltac:(lra) I2) as H.
      pose proof (chord_polygon (left_part (right_part c t) k)) as P. rewrite chord_dist, !cat_left, !cat_right in P.
      rewrite Rmult_0_r, Rmult_0_r, Rplus_0_r, Rmult_1_r, Ku in P. rewrite distance_dist. lra.
Qed.
Lemma chain_le_polygon c l : increasing 0 l 1 -> chain (cat c) 0 l <= polygon c.
Proof.
  intros I. pose proof (chain_polygon c l 0 ltac:(lra) I) as H.
  replace (right_part c 0) with c in H; auto.
  destruct c as [[[[? ?] [? ?]] [? ?]] [? ?]]. unfold right_part, split, mix. simpl. pairs_ring.
Qed.

Lemma chain_insert f m l : forall t last, increasing t l last -> t <= m <= last ->
  exists l1 l2, increasing t l1 m /\ increasing m l2 last /\ chain f t l <= chain f t l1 + chain f m l2.
Proof.
  induction l as [|u l IH]; simpl; intros t last I Hm.
  - exists [], []. simpl. repeat split; try lra.
  - destruct I as [I1 I2]. destruct (Rle_dec m u) as [L|L].
    + exists [m], (u :: l). simpl. repeat split; auto; try lra. rewrite !distance_dist. pose proof (dist_triangle (f t) (f m) (f u)). lra.
    + destruct (IH u last I2 ltac:(lra)) as [l1 [l2 [J1 [J2 J3]]]]. exists (u :: l1), l2. simpl. repeat split; auto. lra.
Qed.
Lemma chain_map f g k l : (forall t, f t = g (k t)) -> forall t, chain f t l = chain g (k t) (map k l).
Proof. intros H. induction l as [|u l IH]; simpl; intros t; auto. now rewrite IH, !H. Qed.
Lemma increasing_map k l : (forall t u, t <= u -> k t <= k u) -> forall t last, increasing t l last -> increasing (k t) (map k l) (k last).
Proof.
  intros H. induction l as [|u l IH]; simpl; intros t last I; [now rewrite I|]. destruct I as [I1 I2]. auto.
Qed.
Lemma chain_app f l2 l1 : forall t m, increasing t l1 m -> chain f t (l1 ++ l2) = chain f t l1 + chain f m l2.
Proof.
  induction l1 as [|u l IH]; simpl; intros t m I; [subst; ring|]. destruct I as [I1 I2]. rewrite (IH u m I2). ring.
Qed.
Lemma increasing_app l2 l1 : forall t m last, increasing t l1 m -> increasing m l2 last -> increasing t (l1 ++ l2) last.
Proof. induction l1 as [|u l IH]; simpl; intros t m last I J; [now subst|]. destruct I. split; eauto. Qed.

(** ** the recursion *)
Definition sub_arclen (fuel : nat) (upper : bool) (eps : R) (d : ctrl) : option R :=
  if Rlt_dec (polygon d - chord d) eps then Some (if upper then polygon d else chord d)
  else curve_arclen fuel upper d (1 / 2 * eps).
Lemma curve_arclen_S fuel upper c eps : curve_arclen (S fuel) upper c eps =
  match sub_arclen fuel upper eps (left_part c (1 / 2)), sub_arclen fuel upper eps (right_part c (1 / 2)) with
  | Some x, Some y => Some (x + y)
  | _, _ => None
  end.
Proof. destruct c as [[[? ?] ?] ?]. reflexivity. Qed.

Lemma halves_upper c U1 U2 :
  (forall l, increasing 0 l 1 -> chain (cat (left_part c (1 / 2))) 0 l <= U1) ->
  (forall l, increasing 0 l 1 -> chain (cat (right_part c (1 / 2))) 0 l <= U2) ->
  forall l, increasing 0 l 1 -> chain (cat c) 0 l <= U1 + U2.
Proof.
  intros H1 H2 l I. destruct (chain_insert (cat c) (1 / 2) l 0 1 I ltac:(lra)) as [l1 [l2 [J1 [J2 J3]]]].
  eapply Rle_trans; [exact J3|]. apply Rplus_le_compat.
  - rewrite (chain_map (cat c) (cat (left_part c (1 / 2))) (fun t => 2 * t)).
    + apply (increasing_map (fun t => 2 * t)) in J1; [|intros; lra].
      replace (2 * 0) with 0 in * by ring. apply H1. replace (2 * (1 / 2)) with 1 in J1 by field. exact J1.
    + intros t. rewrite cat_left. f_equal. field.
  - rewrite (chain_map (cat c) (cat (right_part c (1 / 2))) (fun t => 2 * t - 1)).
    + apply (increasing_map (fun t => 2 * t - 1)) in J2; [|intros; lra].
      replace (2 * (1 / 2) - 1) with 0 in * by field. apply H2. replace (2 * 1 - 1) with 1 in J2 by ring. exact J2.
    + intros t. rewrite cat_right. f_equal. field.
Qed.
Lemma halves_lower c L1 L2 :
  (exists l, increasing 0 l 1 /\ chain (cat (left_part c (1 / 2))) 0 l = L1) ->
  (exists l, increasing 0 l 1 /\ chain (cat (right_part c (1 / 2))) 0 l = L2) ->
  exists l, increasing 0 l 1 /\ chain (cat c) 0 l = L1 + L2.
Proof.
  intros [l1 [I1 <-]] [l2 [I2 <-]].
  pose proof (increasing_map (fun t => 1 / 2 * t) l1 ltac:(intros; lra) _ _ I1) as J1.
  pose proof (increasing_map (fun t => 1 / 2 + (1 - 1 / 2) * t) l2 ltac:(intros; lra) _ _ I2) as J2. simpl in J1, J2.
  replace (1 / 2 * 0) with 0 in J1 by ring. replace (1 / 2 * 1) with (1 / 2) in J1 by ring.
  replace (1 / 2 + (1 - 1 / 2) * 0) with (1 / 2) in J2 by ring. replace (1 / 2 + (1 - 1 / 2) * 1) with 1 in J2 by field.
  exists (map (fun t => 1 / 2 * t) l1 ++ map (fun t => 1 / 2 + (1 - 1 / 2) * t) l2). split.
  - eapply increasing_app; eassumption.
  - rewrite (chain_app _ _ _ _ _ J1). f_equal; symmetry.
    + rewrite (chain_map (cat (left_part c (1 / 2))) (cat c) (fun t => 1 / 2 * t)); [now rewrite Rmult_0_r|]. intros; apply cat_left.
    + rewrite (chain_map (cat (right_part c (1 / 2))) (cat c) (fun t => 1 / 2 + (1 - 1 / 2) * t)); [|intros; apply cat_right].
      f_equal. field.
Qed.
Lemma arclen_upper fuel : forall c eps U, curve_arclen fuel true c eps = Some U ->
  forall l, increasing 0 l 1 -> chain (cat c) 0 l <= U.
Proof.
  induction fuel as [|fuel IH]; intros c eps U H; [discriminate|]. rewrite curve_arclen_S in H.
  destruct (sub_arclen fuel true eps (left_part c (1 / 2))) as [x|] eqn:E1; [|discriminate].
  destruct (sub_arclen fuel true eps (right_part c (1 / 2))) as [y|] eqn:E2; [|discriminate].
  inversion H; subst U; clear H.
  assert (G : forall d x, sub_arclen fuel true eps d = Some x -> forall l, increasing 0 l 1 -> chain (cat d) 0 l <= x).
  { intros d z. unfold sub_arclen. destruct (Rlt_dec _ _).
    - intros [= <-] l I. now apply chain_le_polygon.
    - intros H. eapply IH; eassumption. }
  apply halves_upper; eauto.
Qed.
Lemma arclen_lower fuel : forall c eps L, curve_arclen fuel false c eps = Some L ->
  exists l, increasing 0 l 1 /\ chain (cat c) 0 l = L.
Proof.
  induction fuel as [|fuel IH]; intros c eps U H; [discriminate|]. rewrite curve_arclen_S in H.
  destruct (sub_arclen fuel false eps (left_part c (1 / 2))) as [x|] eqn:E1; [|discriminate].
  destruct (sub_arclen fuel false eps (right_part c (1 / 2))) as [y|] eqn:E2; [|discriminate].
  inversion H; subst U; clear H.
  assert (G : forall d x, sub_arclen fuel false eps d = Some x -> exists l, increasing 0 l 1 /\ chain (cat d) 0 l = x).
  { intros d z. unfold sub_arclen. destruct (Rlt_dec _ _).
    - intros [= <-]. exists [1]. simpl. split; [lra|]. rewrite chord_dist, distance_dist. ring.
    - intros H. eapply IH; eassumption. }
  apply halves_lower; eauto.
Qed.
Lemma arclen_gap fuel : forall c eps L U, curve_arclen fuel false c eps = Some L -> curve_arclen fuel true c eps = Some U ->
  U - L < 2 * eps.
Proof.
  induction fuel as [|fuel IH]; intros c eps L U H K; [discriminate|]. rewrite curve_arclen_S in H, K.
  assert (G : forall d x y, sub_arclen fuel false eps d = Some x -> sub_arclen fuel true eps d = Some y -> y - x < eps).
  { intros d x y. unfold sub_arclen. destruct (Rlt_dec _ _) as [C|C].
    - intros [= <-] [= <-]. exact C.
    - intros H1 H2. specialize (IH _ _ _ _ H1 H2). lra. }
  destruct (sub_arclen fuel false eps (left_part c (1 / 2))) as [x1|] eqn:E1; [|discriminate].
  destruct (sub_arclen fuel false eps (right_part c (1 / 2))) as [y1|] eqn:E2; [|discriminate].
  destruct (sub_arclen fuel true eps (left_part c (1 / 2))) as [x2|] eqn:E3; [|discriminate].
  destruct (sub_arclen fuel true eps (right_part c (1 / 2))) as [y2|] eqn:E4; [|discriminate].
  inversion H; inversion K; subst. pose proof (G _ _ _ E1 E3). pose proof (G _ _ _ E2 E4). lra.
Qed.

(** ** termination *)
Definition second (p q r : pt) : pt := vadd (vsub p q) (vsub r q).
Definition bend (c : ctrl) (d : R) : Prop := let '(p0, p1, p2, p3) := c in nrm (second p0 p1 p2) <= d /\ nrm (second p1 p2 p3) <= d.
Lemma bend_half c d : bend c d -> bend (left_part c (1 / 2)) (d / 4) /\ bend (right_part c (1 / 2)) (d / 4).
Proof.
  destruct c as [[[p0 p1] p2] p3]. intros [H1 H2]. unfold left_part, right_part, split. simpl.
  set (e1 := second p0 p1 p2) in *. set (e2 := second p1 p2 p3) in *.
  assert (Hm : nrm (vscale (1 / 8) (vadd e1 e2)) <= d / 4).
  { rewrite nrm_scale_pos by lra. pose proof (nrm_triangle e1 e2). lra. }
  assert (H1' : nrm (vscale (1 / 4) e1) <= d / 4) by (rewrite nrm_scale_pos; lra).
  assert (H2' : nrm (vscale (1 / 4) e2) <= d / 4) by (rewrite nrm_scale_pos; lra).
  assert (Q : forall u v, u = v -> nrm v <= d / 4 -> nrm u <= d / 4) by (intros; subst; auto).
  destruct p0, p1, p2, p3.
  assert (F : forall a b c d : R, a = c -> b = d -> (a, b) = (c, d)) by (intros; subst; auto).
  split; split;
    [apply (Q _ (vscale (1 / 4) e1))|apply (Q _ (vscale (1 / 8) (vadd e1 e2)))
    |apply (Q _ (vscale (1 / 8) (vadd e1 e2)))|apply (Q _ (vscale (1 / 4) e2))]; auto;
    unfold e1, e2, second, mix, vadd, vsub, vscale; simpl; apply F; field.
Qed.
Lemma bend_gap c d : bend c d -> polygon c - chord c <= 8 / 3 * d.
Proof.
  destruct c as [[[p0 p1] p2] p3]. intros [H1 H2]. simpl.
  set (e1 := second p0 p1 p2) in *. set (e2 := second p1 p2 p3) in *.
  set (w := vscale (1 / 3) (vsub p3 p0)).
  assert (W : nrm w = 1 / 3 * dist p0 p3) by (unfold w; rewrite nrm_scale_pos by lra; reflexivity).
  pose proof (nrm_scale (- (2 / 3)) e1) as A1. pose proof (nrm_scale (- (1 / 3)) e2) as A2.
  pose proof (nrm_scale_pos (1 / 3) e1 ltac:(lra)) as A3. pose proof (nrm_scale_pos (2 / 3) e2 ltac:(lra)) as A4.
  rewrite Rabs_Ropp, Rabs_pos_eq in A1 by lra. rewrite Rabs_Ropp, Rabs_pos_eq in A2 by lra.
  assert (D1 : dist p0 p1 = nrm (vadd w (vadd (vscale (- (2 / 3)) e1) (vscale (- (1 / 3)) e2)))).
  { rewrite dist_nrm. f_equal. unfold w, e1, e2, second, vadd, vsub, vscale. simpl. f_equal; field. }
  assert (D2 : dist p1 p2 = nrm (vadd w (vadd (vscale (1 / 3) e1) (vscale (- (1 / 3)) e2)))).
  { rewrite dist_nrm. f_equal. unfold w, e1, e2, second, vadd, vsub, vscale. simpl. f_equal; field. }
  assert (D3 : dist p2 p3 = nrm (vadd w (vadd (vscale (1 / 3) e1) (vscale (2 / 3) e2)))).
  { rewrite dist_nrm. f_equal. unfold w, e1, e2, second, vadd, vsub, vscale. simpl. f_equal; field. }
  pose proof (nrm_triangle w (vadd (vscale (- (2 / 3)) e1) (vscale (- (1 / 3)) e2))).
  pose proof (nrm_triangle w (vadd (vscale (1 / 3) e1) (vscale (- (1 / 3)) e2))).
  pose proof (nrm_triangle w (vadd (vscale (1 / 3) e1) (vscale (2 / 3) e2))).
  pose proof (nrm_triangle (vscale (- (2 / 3)) e1) (vscale (- (1 / 3)) e2)).
  pose proof (nrm_triangle (vscale (1 / 3) e1) (vscale (- (1 / 3)) e2)).
  pose proof (nrm_triangle (vscale (1 / 3) e1) (vscale (2 / 3) e2)).
  rewrite D1, D2, D3. lra.
Qed.
Lemma arclen_terminates n : forall upper c d eps, bend c d -> 8 / 3 * d < eps * 2 ^ n -> 0 < eps ->
  forall fuel, (n < fuel)%nat -> exists x, curve_arclen fuel upper c eps = Some x.
Proof.
  induction n as [|n IH]; intros upper c d eps B H He fuel F; (destruct fuel as [|fuel]; [lia|]); rewrite curve_arclen_S;
    destruct (bend_half _ _ B) as [B1 B2].
  - assert (G : forall c', bend c' (d / 4) -> exists x, sub_arclen fuel upper eps c' = Some x).
    { intros c' B'. apply bend_gap in B'. unfold sub_arclen. destruct (Rlt_dec _ _); [eauto|]. exfalso.
      simpl in H. assert (0 <= d).
      { destruct c as [[[p0 p1] p2] p3]. destruct B as [B _]. pose proof (nrm_pos (second p0 p1 p2)). lra. }
      lra. }
    destruct (G _ B1) as [x ->]. destruct (G _ B2) as [y ->]. eauto.
  - assert (G : forall c', bend c' (d / 4) -> exists x, sub_arclen fuel upper eps c' = Some x).
    { intros c' B'. unfold sub_arclen. destruct (Rlt_dec _ _); [eauto|]. apply (IH upper c' (d / 4)); auto; try lia; try lra.
      simpl in H. set (X := 2 ^ n) in *. assert (0 < X) by (apply pow_lt; lra).
      assert (eps * X > 0) by (apply Rmult_lt_0_compat; lra). lra. }
    destruct (G _ B1) as [x ->]. destruct (G _ B2) as [y ->]. eauto.
Qed.
Lemma pow2_unbounded x : exists n, x < 2 ^ n.
Proof.
  destruct (Pow_x_infinity 2) with (b := x) as [N HN]; [rewrite Rabs_pos_eq; lra|].
  exists (S N). pose proof (HN (S N) ltac:(lia)) as H. rewrite Rabs_pos_eq in H by (apply pow_le; lra).
  pose proof (HN N ltac:(lia)) as H'. rewrite Rabs_pos_eq in H' by (apply pow_le; lra). simpl.
  assert (0 < 2 ^ N) by (apply pow_lt; lra). lra.
Qed.
