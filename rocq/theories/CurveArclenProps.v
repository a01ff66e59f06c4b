(** Arc lengths at parameters: C172. *)
From Coq Require Import Reals List Lia Bool Lra.
From Verif Require Import TrafoModel BboxModel CurveModel CurveSpec CurveProofs2 CurveProps CurveArclenModel.
Import ListNotations.
Open Scope R_scope.

Local Notation pt := (R * R)%type.

Lemma arc_add f a b c s l : a <= b <= c -> is_arc_length f a b s -> is_arc_length f b c l -> is_arc_length f a c (s + l).
Proof.
  intros B [S1 S2] [L1 L2]. split.
  - intros x (k & I & ->). destruct (chain_insert f b k a c I B) as (k1 & k2 & I1 & I2 & J).
    pose proof (S1 _ (ex_intro _ k1 (conj I1 eq_refl))). pose proof (L1 _ (ex_intro _ k2 (conj I2 eq_refl))). lra.
  - intros M U. assert (l <= M - s); [|lra]. apply L2. intros x (k2 & I2 & ->).
    assert (s <= M - chain f b k2); [|lra]. apply S2. intros y (k1 & I1 & ->).
    assert (chain f a (k1 ++ k2) <= M) by (apply U; exists (k1 ++ k2); split; [exact (increasing_app _ _ _ _ _ I1 I2)|reflexivity]).
    rewrite (chain_app _ _ _ _ _ I1) in H. lra.
Qed.
Lemma arc_none f a : is_arc_length f a a 0.
Proof.
  split.
  - intros x (k & I & ->). rewrite (chain_const _ _ _ _ I eq_refl). lra.
  - intros M U. apply U. exists []. split; reflexivity.
Qed.
Lemma arc_segment i a b l : a <= b -> is_arc_length (at_pt (segment i a b)) 0 1 l -> is_arc_length (at_pt i) a b l.
Proof.
  intros B [L1 L2].
  assert (M : forall k t, chain (at_pt (segment i a b)) t k = chain (at_pt i) (a + t * (b - a)) (map (fun u => a + u * (b - a)) k)).
  { intros k t. apply (chain_map _ _ (fun u => a + u * (b - a))). intros u. apply segment_at. }
  assert (G : forall k, increasing 0 k 1 -> increasing a (map (fun u => a + u * (b - a)) k) b).
  { intros k I. apply (increasing_map (fun u => a + u * (b - a))) in I.
    - replace (a + 0 * (b - a)) with a in I by ring. replace (a + 1 * (b - a)) with b in I by ring. exact I.
    - intros t u T. apply Rplus_le_compat_l, Rmult_le_compat_r; lra. }
  split.
  - intros x (k & I & ->). destruct (Req_dec a b) as [E|N].
    + rewrite (chain_const _ _ _ _ I (eq_sym E)). apply Rle_trans with (chain (at_pt (segment i a b)) 0 [1]).
      * simpl. rewrite distance_dist. pose proof (dist_pos (at_pt (segment i a b) 0) (at_pt (segment i a b) 1)). lra.
      * apply L1. exists [1]. split; [simpl; lra|reflexivity].
    + apply L1. exists (map (fun u => (u - a) / (b - a)) k). split.
      * apply (increasing_map (fun u => (u - a) / (b - a))) in I.
        -- replace ((a - a) / (b - a)) with 0 in I by (field; lra). replace ((b - a) / (b - a)) with 1 in I by (field; lra). exact I.
        -- intros t u T. unfold Rdiv. apply Rmult_le_compat_r; [left; apply Rinv_0_lt_compat; lra|lra].
      * rewrite M, map_map. replace (a + 0 * (b - a)) with a by ring. f_equal.
        rewrite <- (map_id k) at 1. apply map_ext. intros u. field. lra.
  - intros U HU. apply L2. intros x (k & I & ->). rewrite M. replace (a + 0 * (b - a)) with a by ring. apply HU. eexists. split; [apply (G k I)|reflexivity].
Qed.

Lemma running_lengths p0 p1 p2 p3 eps l : 0 < eps -> forall a, increasing a l 1 -> 0 <= a ->
  exists needed, forall fuel, (needed <= fuel)%nat ->
  exists ls, arclens fuel eps (pairs (segment (Curve p0 p1 p2 p3)) (a :: l)) = Some ls /\ length ls = length l /\
  forall acc k s, is_arc_length (at_pt (Curve p0 p1 p2 p3)) 0 a s -> acc <= s <= acc + 2 * k * eps ->
  forall i t, nth_error l i = Some t -> exists A s', nth_error (sums acc ls) i = Some A /\
    is_arc_length (at_pt (Curve p0 p1 p2 p3)) 0 t s' /\ A <= s' < A + 2 * (k + INR (S i)) * eps.
Proof.
  intros He. induction l as [|b l IH]; intros a I P.
  - exists O. intros fuel _. exists []. split; [reflexivity|]. split; [reflexivity|]. intros acc k s _ _ [|i] t; discriminate.
  - cbn [increasing] in I. destruct I as [I1 I2]. destruct (IH b I2 ltac:(lra)) as (n1 & N1).
    cbn [pairs]. destruct (segment (Curve p0 p1 p2 p3) a b) as [q0 q1|q0 q1 q2 q3] eqn:E.
    { exfalso. revert E. unfold segment, curve_segment. destruct (segment_coord _ _ _ _ _ _) as [[[? ?] ?] ?], (segment_coord _ _ _ _ _ _) as [[[? ?] ?] ?]. discriminate. }
    destruct (arclen_enclosed q0 q1 q2 q3 eps He) as (n2 & N2). exists (max n1 n2). intros fuel F.
    destruct (N1 fuel ltac:(lia)) as (ls & L & Len & K). destruct (N2 fuel ltac:(lia)) as (lo & up & len & LO & UP & AL & B & G).
    exists (lo :: ls). split; [|split].
    + change (arclens fuel eps (Curve q0 q1 q2 q3 :: pairs (segment (Curve p0 p1 p2 p3)) (b :: l)) = Some (lo :: ls)).
      cbn [arclens item_arclen]. now rewrite LO, L.
    + simpl. now rewrite Len.
    + intros acc k s HS Sb. rewrite <- E in AL. apply arc_segment in AL; [|exact I1].
      pose proof (arc_add _ 0 a b s len ltac:(lra) HS AL) as S'. intros [|i] t T.
      * injection T as <-. exists (acc + lo), (s + len). split; [reflexivity|]. split; [exact S'|]. simpl. lra.
      * destruct (K (acc + lo) (k + 1) (s + len) S' ltac:(lra) i t T) as (A & s' & X & Y & Z). exists A, s'. split; [exact X|]. split; [exact Y|].
        rewrite (S_INR (S i)). lra.
Qed.
Lemma sums_length l : forall acc, length (sums acc l) = length l.
Proof. induction l as [|x l IH]; intros acc; simpl; auto. Qed.
Lemma removelast_keeps {A} (l : list A) : forall i, (S i < length l)%nat -> nth_error (removelast l) i = nth_error l i.
Proof.
  induction l as [|x l IH]; intros i H; [simpl in H; lia|]. destruct l as [|y l]; [simpl in H; lia|].
  change (removelast (x :: y :: l)) with (x :: removelast (y :: l)). destruct i as [|i]; [reflexivity|]. simpl. apply IH. simpl in *. lia.
Qed.
Lemma removelast_len {A} (l : list A) : length (removelast l) = pred (length l).
Proof. induction l as [|x l IH]; [reflexivity|]. destruct l as [|y l]; [reflexivity|]. change (removelast (x :: y :: l)) with (x :: removelast (y :: l)). simpl in *. lia. Qed.
Lemma last_is {A} (l : list A) x d : nth_error l (pred (length l)) = Some x -> last l d = x.
Proof.
  induction l as [|y l IH]; [discriminate|]. destruct l as [|z l]; [simpl; intros [= ->]; reflexivity|]. intros H. simpl in *. apply IH. exact H.
Qed.

(** C172: for parameters in increasing order on the curve there is an arc length for each of them, computed with finite recursion;
    it is a lower bound of the arc length up to the parameter, and differs by less than twice epsilon for each of the parameters
    up to this one.  The same holds for the total length. *)
Theorem curve_arclens_partial : forall p0 p1 p2 p3 params epsilon, 0 < epsilon -> increasing 0 (params ++ [1]) 1 ->
  exists needed, forall fuel, (needed <= fuel)%nat ->
  exists lengths total, curve_paramtoarclen fuel p0 p1 p2 p3 params epsilon = Some (lengths, total) /\ length lengths = length params /\
  (forall i t, nth_error params i = Some t -> exists a s, nth_error lengths i = Some a /\
    is_arc_length (at_pt (Curve p0 p1 p2 p3)) 0 t s /\ a <= s < a + 2 * INR (S i) * epsilon) /\
  exists s, is_arc_length (at_pt (Curve p0 p1 p2 p3)) 0 1 s /\ total <= s < total + 2 * INR (S (length params)) * epsilon.
Proof.
  intros p0 p1 p2 p3 params eps He I. destruct (running_lengths p0 p1 p2 p3 eps (params ++ [1]) He 0 I ltac:(lra)) as (n & N).
  exists n. intros fuel F. destruct (N fuel F) as (ls & L & Len & K). rewrite app_length in Len. simpl length in Len.
  specialize (K 0 0 0 (arc_none _ 0) ltac:(lra)).
  exists (removelast (sums 0 ls)), (last (sums 0 ls) 0). split.
  - unfold curve_paramtoarclen. replace (item_segments (Curve p0 p1 p2 p3) (0 :: params ++ [1])) with (Some (pairs (segment (Curve p0 p1 p2 p3)) (0 :: params ++ [1])))
      by (unfold item_segments; destruct params; reflexivity). now rewrite L.
  - split; [rewrite removelast_len, sums_length; lia|]. split.
    + intros i t T. assert (i < length params)%nat by (apply nth_error_Some; congruence).
      destruct (K i t) as (a & s & X & Y & Z); [now rewrite nth_error_app1|]. exists a, s. rewrite Rplus_0_l in Z. split; [|auto].
      rewrite removelast_keeps; [exact X|]. rewrite sums_length. lia.
    + destruct (K (length params) 1) as (a & s & X & Y & Z); [rewrite nth_error_app2, Nat.sub_diag by lia; reflexivity|]. rewrite Rplus_0_l in Z.
      exists s. rewrite (last_is (sums 0 ls) a); [auto|]. rewrite sums_length. replace (pred (length ls)) with (length params) by lia. exact X.
Qed.
Print Assumptions curve_arclens_partial.
Example curve_arclens_ex : exists fuel a b s total, curve_paramtoarclen fuel (0, 0) (0, 16) (18, 16) (18, 0) [1 / 4; 1 / 2] 1 = Some ([a; b], total) /\
  is_arc_length (at_pt (Curve (0, 0) (0, 16) (18, 16) (18, 0))) 0 (1 / 2) s /\ b <= s < b + 4.
Proof.
  destruct (curve_arclens_partial (0, 0) (0, 16) (18, 16) (18, 0) [1 / 4; 1 / 2] 1) as (n & N); [lra|simpl; lra|].
  destruct (N n ltac:(lia)) as (ls & total & E & L & K & _). destruct ls as [|a [|b [|? ?]]]; try discriminate.
  destruct (K 1%nat (1 / 2) eq_refl) as (b' & s & X & Y & Z). injection X as <-. exists n, a, b, s, total. split; [exact E|]. split; [exact Y|]. simpl in Z. lra.
Qed.

Lemma line_pieces fuel eps x1 x2 x3 x4 : 0 < eps -> x1 <= x2 <= x3 /\ x3 <= x4 \/ x4 <= x3 <= x2 /\ x2 <= x1 ->
  curve_arclen (S fuel) false ((x1, 0), (x2, 0), (x3, 0), (x4, 0)) eps = Some (Rabs (x4 - x1)).
Proof.
  intros He M. rewrite curve_arclen_S.
  assert (H : forall a b, dist (a, 0) (b, 0) = Rabs (b - a)).
  { intros a b. unfold dist, hypot. simpl. replace ((b - a) * (b - a) + (0 - 0) * (0 - 0)) with (Rsqr (b - a)) by (unfold Rsqr; ring). apply sqrt_Rsqr_abs. }
  assert (MM : forall a b, mix (1 - 1 / 2) (1 / 2) (a, 0) (b, 0) = ((a + b) / 2, 0)) by (intros; unfold mix; simpl; apply pair_eq; field).
  unfold left_part, right_part, split. cbn [fst snd]. rewrite !MM. unfold sub_arclen, polygon, chord. rewrite !H.
  destruct M as [M|M].
  - rewrite !Rabs_pos_eq by lra. destruct (Rlt_dec _ _); [|lra]. destruct (Rlt_dec _ _); [|lra]. f_equal. lra.
  - rewrite !Rabs_left1 by lra. destruct (Rlt_dec _ _); [|lra]. destruct (Rlt_dec _ _); [|lra]. f_equal. lra.
Qed.
(** C172: for parameters out of order the lengths are wrong: on the line of length 6 with uniform parameters the length at 1/3 is 2, but
    4 is returned behind the parameter 1/2, and the total length becomes 8. *)
Theorem unordered_refuted : forall fuel epsilon, 0 < epsilon ->
  curve_paramtoarclen (S fuel) (0, 0) (2, 0) (4, 0) (6, 0) [1 / 2; 1 / 3] epsilon = Some ([3; 4], 8) /\
  curve_paramtoarclen (S fuel) (0, 0) (2, 0) (4, 0) (6, 0) [1 / 3; 1 / 2] epsilon = Some ([2; 3], 6).
Proof.
  intros fuel eps He.
  assert (S : forall a b, segment (Curve (0, 0) (2, 0) (4, 0) (6, 0)) a b = Curve (6 * a, 0) (4 * a + 2 * b, 0) (2 * a + 4 * b, 0) (6 * b, 0)).
  { intros a b. unfold segment, curve_segment, segment_coord. simpl. f_equal; apply pair_eq; field. }
  split; unfold curve_paramtoarclen, item_segments; cbn [app pairs]; rewrite !S; unfold arclens, item_arclen; rewrite !line_pieces by lra.
  - cbn [sums removelast last]. rewrite (Rabs_pos_eq (6 * (1 / 2) - _)), (Rabs_left1 (6 * (1 / 3) - _)), (Rabs_pos_eq (6 * 1 - _)) by lra.
    f_equal. apply pair_eq; [repeat (apply f_equal2; [field|]); reflexivity|field].
  - cbn [sums removelast last]. rewrite (Rabs_pos_eq (6 * (1 / 3) - _)), (Rabs_pos_eq (6 * (1 / 2) - _)), (Rabs_pos_eq (6 * 1 - _)) by lra.
    f_equal. apply pair_eq; [repeat (apply f_equal2; [field|]); reflexivity|field].
Qed.
Print Assumptions unordered_refuted.
