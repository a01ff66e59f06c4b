(** Proofs about the parameters at given arc lengths. *)
From Coq Require Import Reals List Lia Bool Lra.
From Verif Require Import TrafoModel BboxModel CurveModel CurveSpec CurveProofs2 RootsModel RootsSpec RootsProps CurveLenModel CurveLenSpec.
Import ListNotations.
Open Scope R_scope.

Local Notation pt := (R * R)%type.
Local Notation ctrl := (R * R * (R * R) * (R * R) * (R * R))%type.

Lemma middle_mix p q : mix (1 - 1 / 2) (1 / 2) p q = middle p q.
Proof. destruct p, q. unfold mix, middle. simpl. f_equal; field. Qed.
Lemma first_left c : left_part c (1 / 2) = first_half c.
Proof. destruct c as [[[p0 p1] p2] p3]. unfold left_part, split, first_half. cbn [fst]. now rewrite !middle_mix. Qed.
Lemma second_right c : right_part c (1 / 2) = second_half c.
Proof. destruct c as [[[p0 p1] p2] p3]. unfold right_part, split, second_half. cbn [snd]. now rewrite !middle_mix. Qed.
Lemma excess_gap c : excess c = polygon c - chord c.
Proof. destruct c as [[[p0 p1] p2] p3]. unfold excess, polygon, chord. now rewrite !distance_dist. Qed.

(** ** the piece *)
Lemma left_polygon c t : 0 <= t <= 1 -> polygon (left_part c t) <= length_bound c t.
Proof.
  intros Ht. destruct c as [[[p0 p1] p2] p3]. unfold left_part, split, polygon, length_bound. cbn [fst]. rewrite !distance_dist.
  set (s := 1 - t). assert (st : s + t = 1) by (unfold s; ring). assert (Hs : 0 <= s) by (unfold s; lra).
  set (p01 := mix s t p0 p1). set (p12 := mix s t p1 p2). set (p23 := mix s t p2 p3).
  set (q1 := mix s t p01 p12). set (q2 := mix s t p12 p23).
  rewrite !dist_nrm.
  rewrite (proj1 (mix_sub s t p0 p1 st) : vsub p01 p0 = _). rewrite (proj1 (mix_sub s t p01 p12 st) : vsub q1 p01 = _).
  rewrite (proj1 (mix_sub s t q1 q2 st)).
  rewrite !nrm_scale_pos by lra.
  pose proof (nrm_triangle (vscale s (vsub p1 p0)) (vscale t (vsub p2 p1))) as M1. rewrite <- mix_sub2 in M1. fold p01 p12 in M1.
  pose proof (nrm_triangle (vscale s (vsub p2 p1)) (vscale t (vsub p3 p2))) as M2. rewrite <- mix_sub2 in M2. fold p12 p23 in M2.
  pose proof (nrm_triangle (vscale s (vsub p12 p01)) (vscale t (vsub p23 p12))) as N. rewrite <- mix_sub2 in N. fold q1 q2 in N.
  rewrite !nrm_scale_pos in M1, M2, N by lra.
  set (l1 := nrm (vsub p1 p0)) in *. set (l2 := nrm (vsub p2 p1)) in *. set (l3 := nrm (vsub p3 p2)) in *.
  set (m1 := nrm (vsub p12 p01)) in *. set (m2 := nrm (vsub p23 p12)) in *. set (n := nrm (vsub q2 q1)) in *.
  assert (S : s = 1 - t) by reflexivity. clearbody s l1 l2 l3 m1 m2 n. subst s.
  assert (A : n <= (1 - t) * ((1 - t) * l1 + t * l2) + t * ((1 - t) * l2 + t * l3)).
  { eapply Rle_trans; [exact N|]. apply Rplus_le_compat; apply Rmult_le_compat_l; lra. }
  assert (B : t * m1 <= t * ((1 - t) * l1 + t * l2)) by (apply Rmult_le_compat_l; lra).
  assert (C : t * n <= t * ((1 - t) * ((1 - t) * l1 + t * l2) + t * ((1 - t) * l2 + t * l3))) by (apply Rmult_le_compat_l; lra).
  replace (l1 * (1 - (1 - t) ^ 3) + l2 * (3 * t ^ 2 - 2 * t ^ 3) + l3 * t ^ 3)
    with (t * l1 + t * ((1 - t) * l1 + t * l2) + t * ((1 - t) * ((1 - t) * l1 + t * l2) + t * ((1 - t) * l2 + t * l3))) by ring.
  lra.
Qed.
(** the same from the other end *)
Definition turned (c : ctrl) : ctrl := let '(p0, p1, p2, p3) := c in (p3, p2, p1, p0).
Lemma dist_sym p q : dist p q = dist q p.
Proof. unfold dist, hypot. f_equal. ring. Qed.
Lemma right_polygon c t : 0 <= t <= 1 -> polygon (right_part c t) <= polygon c - length_bound c t.
Proof.
  intros Ht. pose proof (left_polygon (turned c) (1 - t) ltac:(lra)) as H.
  assert (E : polygon (left_part (turned c) (1 - t)) = polygon (right_part c t)).
  { destruct c as [[[p0 p1] p2] p3]. unfold left_part, right_part, turned, split. cbn [fst snd].
    assert (M : forall p q, mix (1 - (1 - t)) (1 - t) p q = mix (1 - t) t q p) by (intros; unfold mix; f_equal; ring).
    rewrite !M. unfold polygon. set (a := mix (1 - t) t p2 p3). set (b := mix (1 - t) t (mix (1 - t) t p1 p2) a).
    set (m := mix (1 - t) t _ b). rewrite (dist_sym p3 a), (dist_sym a b), (dist_sym b m). ring. }
  rewrite E in H. eapply Rle_trans; [exact H|]. apply Req_le.
  destruct c as [[[p0 p1] p2] p3]. unfold length_bound, turned, polygon. rewrite !distance_dist, (dist_sym p3 p2), (dist_sym p2 p1), (dist_sym p1 p0). ring.
Qed.
Lemma chains_before c t l : 0 <= t <= 1 -> increasing 0 l t -> chain (cat c) 0 l <= polygon (left_part c t).
Proof.
  intros Ht I. destruct (Req_dec t 0) as [->|N].
  - rewrite (chain_const _ _ _ _ I eq_refl). apply polygon_pos.
  - rewrite (chain_map (cat c) (cat (left_part c t)) (fun u => u / t)).
    + apply (increasing_map (fun u => u / t)) in I.
      * replace (0 / t) with 0 in * by (field; auto). replace (t / t) with 1 in I by (field; auto). now apply chain_le_polygon.
      * intros u v L. unfold Rdiv. apply Rmult_le_compat_r; [|exact L]. left. apply Rinv_0_lt_compat. lra.
    + intros u. rewrite cat_left. f_equal. field. auto.
Qed.
Lemma distance_before c t : 0 <= t <= 1 -> chord c - (polygon c - length_bound c t) <= distance (cat c 0) (cat c t).
Proof.
  intros Ht. rewrite chord_dist, distance_dist. pose proof (dist_triangle (cat c 0) (cat c t) (cat c 1)) as T.
  pose proof (chord_polygon (right_part c t)) as P. rewrite chord_dist, !cat_right in P.
  replace (t + (1 - t) * 0) with t in P by ring. replace (t + (1 - t) * 1) with 1 in P by ring.
  pose proof (right_polygon c t Ht). lra.
Qed.

(** ** the solver *)
Lemma bound_poly p0 p1 p2 p3 q t :
  peval [dist p0 p1 - 2 * dist p1 p2 + dist p2 p3; - (3) * dist p0 p1 + 3 * dist p1 p2; 3 * dist p0 p1; - q * (dist p0 p1 + dist p1 p2 + dist p2 p3)] t
  = length_bound (p0, p1, p2, p3) t - q * polygon (p0, p1, p2, p3).
Proof. unfold length_bound, polygon. rewrite !distance_dist. simpl. ring. Qed.
Lemma bound_1 c : length_bound c 1 = polygon c.
Proof. destruct c as [[[p0 p1] p2] p3]. unfold length_bound, polygon. rewrite !distance_dist. ring. Qed.
Lemma bound_0 c : length_bound c 0 = 0.
Proof. destruct c as [[[p0 p1] p2] p3]. unfold length_bound. ring. Qed.
Lemma ends_polygon p0 p1 p2 p3 : p0 <> p3 -> 0 < chord (p0, p1, p2, p3).
Proof.
  intros N. pose proof (dist_pos p0 p3) as [P|P]; [exact P|]. exfalso. apply N. symmetry in P.
  unfold dist, hypot in P. pose proof (Rle_0_sqr (fst p3 - fst p0)) as A. pose proof (Rle_0_sqr (snd p3 - snd p0)) as B.
  apply sqrt_eq_0 in P; [|unfold Rsqr in *; lra].
  assert (P1 : Rsqr (fst p3 - fst p0) = 0) by (unfold Rsqr in *; lra). assert (P2 : Rsqr (snd p3 - snd p0) = 0) by (unfold Rsqr in *; lra).
  apply Rsqr_eq_0 in P1. apply Rsqr_eq_0 in P2. destruct p0, p3. simpl in *. f_equal; lra.
Qed.
Lemma closest_spec rs : forall r, (In (closest r rs) (r :: rs)) /\ forall x, In x (r :: rs) -> Rabs (closest r rs - 1 / 2) <= Rabs (x - 1 / 2).
Proof.
  induction rs as [|y rs IH]; intros r.
  - split; [now left|]. intros x [<-|[]]. apply Rle_refl.
  - change (closest r (y :: rs)) with (closest (if Rlt_dec (Rabs (y - 1 / 2)) (Rabs (r - 1 / 2)) then y else r) rs).
    destruct (Rlt_dec _ _) as [L|L].
    + destruct (IH y) as [I M]. split; [now right|]. intros x [<-|X]; [|now apply M].
      pose proof (M y (or_introl eq_refl)). lra.
    + destruct (IH r) as [I M]. split; [destruct I; [now left|now right; right]|]. intros x [<-|[<-|X]].
      * apply M. now left.
      * pose proof (M r (or_introl eq_refl)). lra.
      * apply M. now right.
Qed.
Lemma bound_continuous p0 p1 p2 p3 v : continuity (fun t => length_bound (p0, p1, p2, p3) t - v).
Proof. apply derivable_continuous. unfold length_bound. reg. Qed.
Lemma solver p0 p1 p2 p3 q : solvable (p0, p1, p2, p3) -> 0 <= q <= 1 ->
  exists t, piece_param (dist p0 p1) (dist p1 p2) (dist p2 p3) q = Some t /\ 0 <= t <= 1 /\
    length_bound (p0, p1, p2, p3) t = q * polygon (p0, p1, p2, p3).
Proof.
  intros [N D] Q. unfold piece_param. destruct (Rle_dec 0 q); [|lra]. destruct (Rle_dec q 1); [|lra].
  set (c := (p0, p1, p2, p3)) in *. assert (P : 0 < polygon c).
  { pose proof (chord_polygon c). pose proof (ends_polygon p0 p1 p2 p3 N). fold c in H0. lra. }
  pose proof (fun t => bound_poly p0 p1 p2 p3 q t) as E. fold c in E.
  set (cs := [dist p0 p1 - 2 * dist p1 p2 + dist p2 p3; _; _; _]) in *.
  assert (X : exists rs, realpolyroots cs = Some rs /\ exactly_roots rs cs).
  { destruct (Req_dec (dist p0 p1 - 2 * dist p1 p2 + dist p2 p3) 0) as [Z|Z].
    - unfold cs. rewrite Z. destruct (Req_dec (- (3) * dist p0 p1 + 3 * dist p1 p2) 0) as [Z2|Z2].
      + rewrite Z2. apply (roots_low_degree 2); [|simpl; lia]. intros Z3. unfold c, polygon in P. lra.
      + apply (roots_low_degree 1); [exact Z2|simpl; lia].
    - apply (cubic_roots_partial 0); [exact Z|]. intros (alpha & beta & L & F). apply D.
      exists (dist p0 p1 - 2 * dist p1 p2 + dist p2 p3), (q * polygon c), alpha, beta. rewrite bound_1. split.
      + split; [apply Rmult_le_pos; lra|]. rewrite <- (Rmult_1_l (polygon c)) at 2. apply Rmult_le_compat_r; lra.
      + split; [exact L|]. intros t. rewrite <- E. apply F. }
  destruct X as (rs & -> & X).
  assert (Z : exists t, 0 <= t <= 1 /\ In t rs).
  { destruct (IVT_cor (fun t => length_bound c t - q * polygon c) 0 1 (bound_continuous _ _ _ _ _) ltac:(lra)) as (z & B & F).
    - rewrite bound_0, bound_1. assert (0 <= q * polygon c) by (apply Rmult_le_pos; lra).
      assert (0 <= (1 - q) * polygon c) by (apply Rmult_le_pos; lra).
      replace ((0 - q * polygon c) * (polygon c - q * polygon c)) with (- ((q * polygon c) * ((1 - q) * polygon c))) by ring.
      assert (0 <= (q * polygon c) * ((1 - q) * polygon c)) by (apply Rmult_le_pos; auto). lra.
    - exists z. split; [exact B|]. apply X. now rewrite E. }
  destruct Z as (z & B & Z). destruct rs as [|r1 rs]; [destruct Z|].
  destruct (closest_spec rs r1) as [I M]. exists (closest r1 rs). split; [reflexivity|]. split.
  - specialize (M z Z). revert M. unfold Rabs. destruct (Rcase_abs _), (Rcase_abs _); lra.
  - apply X in I. rewrite E in I. lra.
Qed.

(** ** the recursion *)
Definition sub_param (fuel : nat) (eps : R) (d : ctrl) (len : R) : option (R * R) :=
  if Rlt_dec (polygon d - chord d) eps then
    if Req_EM_T (chord d) 0 then None else Some (len / chord d, chord d)
  else curve_param fuel d (1 / 2 * eps) len.
Definition conv_param (eps : R) (d : ctrl) (param : R) : option R :=
  if Rlt_dec (polygon d - chord d) eps then
    let '(q0, q1, q2, q3) := d in piece_param (dist q0 q1) (dist q1 q2) (dist q2 q3) param
  else Some param.
Lemma curve_param_S fuel c eps len : curve_param (S fuel) c eps len =
  match sub_param fuel eps (left_part c (1 / 2)) len with
  | None => None
  | Some (param_a, arclen_a) =>
      match sub_param fuel eps (right_part c (1 / 2)) (len - arclen_a) with
      | None => None
      | Some (param_b, arclen_b) =>
          match (if Rgt_dec len arclen_a then option_map (fun p => 1 / 2 + 1 / 2 * p) (conv_param eps (right_part c (1 / 2)) param_b)
                 else option_map (fun p => 1 / 2 * p) (conv_param eps (left_part c (1 / 2)) param_a)) with
          | None => None
          | Some param => Some (param, arclen_a + arclen_b)
          end
      end
  end.
Proof. destruct c as [[[? ?] ?] ?]. reflexivity. Qed.

(** the length is reached up to an error *)
Definition reached (c : ctrl) (t len err : R) : Prop :=
  0 <= t <= 1 /\ (forall l, increasing 0 l t -> chain (cat c) 0 l <= len + err) /\
  exists l, increasing 0 l t /\ len - err <= chain (cat c) 0 l.
Lemma piece_reached d len : solvable d -> 0 <= len <= chord d ->
  exists t, (let '(q0, q1, q2, q3) := d in piece_param (dist q0 q1) (dist q1 q2) (dist q2 q3) (len / chord d)) = Some t /\
    reached d t len (polygon d - chord d).
Proof.
  destruct d as [[[p0 p1] p2] p3]. intros S L. pose proof (ends_polygon p0 p1 p2 p3 (proj1 S)) as P.
  set (d := (p0, p1, p2, p3)) in *. set (q := len / chord d).
  assert (E : len = q * chord d) by (unfold q; field; lra).
  assert (Q : 0 <= q <= 1).
  { unfold q. split; [apply Rle_mult_inv_pos; lra|]. apply (Rmult_le_reg_r (chord d)); [lra|]. fold q. lra. }
  destruct (solver p0 p1 p2 p3 q S Q) as (t & T & B & F). fold d in F. exists t. split; [exact T|]. split; [exact B|].
  pose proof (chord_polygon d) as G.
  assert (H1 : q * polygon d <= len + (polygon d - chord d)).
  { rewrite E. assert (0 <= (1 - q) * (polygon d - chord d)) by (apply Rmult_le_pos; lra).
    replace (q * polygon d) with (q * chord d + (polygon d - chord d) - (1 - q) * (polygon d - chord d)) by ring. lra. }
  split.
  - intros l I. pose proof (chains_before d t l B I). pose proof (left_polygon d t B). lra.
  - exists [t]. cbn [chain increasing]. split; [lra|]. pose proof (distance_before d t B) as K. rewrite F in K.
    assert (0 <= q * (polygon d - chord d)) by (apply Rmult_le_pos; lra).
    replace (chord d - (polygon d - q * polygon d)) with (q * chord d - (polygon d - chord d) + q * (polygon d - chord d)) in K by ring. lra.
Qed.
Lemma arclen_both fuel : forall c eps x, curve_arclen fuel false c eps = Some x -> exists y, curve_arclen fuel true c eps = Some y.
Proof.
  induction fuel as [|fuel IH]; intros c eps x H; [discriminate|]. rewrite curve_arclen_S in *.
  assert (G : forall d x, sub_arclen fuel false eps d = Some x -> exists y, sub_arclen fuel true eps d = Some y).
  { intros d z. unfold sub_arclen. destruct (Rlt_dec _ _); [eauto|]. apply IH. }
  destruct (sub_arclen fuel false eps (left_part c (1 / 2))) as [a|] eqn:E1; [|discriminate].
  destruct (sub_arclen fuel false eps (right_part c (1 / 2))) as [b|] eqn:E2; [|discriminate].
  destruct (G _ _ E1) as [y1 ->]. destruct (G _ _ E2) as [y2 ->]. eauto.
Qed.
Lemma sub_bounds fuel eps d x : sub_arclen fuel false eps d = Some x ->
  0 <= x /\ (forall l, increasing 0 l 1 -> chain (cat d) 0 l < x + eps) /\ exists l, increasing 0 l 1 /\ chain (cat d) 0 l = x.
Proof.
  assert (CP : forall f l t, 0 <= chain f t l).
  { intros f. induction l as [|u l IH]; intros t; simpl; [lra|]. rewrite distance_dist. pose proof (dist_pos (f t) (f u)). specialize (IH u). lra. }
  unfold sub_arclen. destruct (Rlt_dec _ _) as [C|C].
  - intros [= <-]. split; [rewrite chord_dist; apply dist_pos|]. split.
    + intros l I. apply (chain_le_polygon d) in I. lra.
    + exists [1]. simpl. split; [lra|]. rewrite chord_dist, distance_dist. ring.
  - intros H. destruct (arclen_both _ _ _ _ H) as [y Y]. pose proof (arclen_gap _ _ _ _ _ H Y).
    pose proof (arclen_upper _ _ _ _ Y) as U. destruct (arclen_lower _ _ _ _ H) as (l & I & E). split; [|split].
    + rewrite <- E. apply CP.
    + intros l' I'. apply U in I'. lra.
    + eauto.
Qed.
Lemma left_reached c t len e : reached (left_part c (1 / 2)) t len e -> reached c (1 / 2 * t) len e.
Proof.
  intros (B & U & l & I & L). split; [lra|]. split.
  - intros k K. rewrite (chain_map (cat c) (cat (left_part c (1 / 2))) (fun u => 2 * u)).
    + apply (increasing_map (fun u => 2 * u)) in K; [|intros; lra].
      replace (2 * 0) with 0 in * by ring. replace (2 * (1 / 2 * t)) with t in K by field. now apply U.
    + intros u. rewrite cat_left. f_equal. field.
  - exists (map (fun u => 1 / 2 * u) l). split.
    + replace 0 with (1 / 2 * 0) by ring. apply (increasing_map (fun u => 1 / 2 * u)); [intros; lra|exact I].
    + rewrite (chain_map (cat (left_part c (1 / 2))) (cat c) (fun u => 1 / 2 * u)) in L; [|intros; apply cat_left].
      now rewrite Rmult_0_r in L.
Qed.
Lemma right_reached c t len e x g : 0 <= e -> reached (right_part c (1 / 2)) t (len - x) e ->
  (forall l, increasing 0 l 1 -> chain (cat (left_part c (1 / 2))) 0 l < x + g) ->
  (exists l, increasing 0 l 1 /\ chain (cat (left_part c (1 / 2))) 0 l = x) -> 0 <= g ->
  reached c (1 / 2 + 1 / 2 * t) len (e + g).
Proof.
  intros He (B & U & l & I & L) UL (l0 & I0 & L0) Hg. split; [lra|]. split.
  - intros k K. destruct (chain_insert (cat c) (1 / 2) k 0 _ K ltac:(lra)) as (l1 & l2 & J1 & J2 & J3).
    assert (A1 : chain (cat c) 0 l1 < x + g).
    { rewrite (chain_map (cat c) (cat (left_part c (1 / 2))) (fun u => 2 * u)).
      - apply (increasing_map (fun u => 2 * u)) in J1; [|intros; lra].
        replace (2 * 0) with 0 in * by ring. apply UL. replace (2 * (1 / 2)) with 1 in J1 by field. exact J1.
      - intros u. rewrite cat_left. f_equal. field. }
    assert (A2 : chain (cat c) (1 / 2) l2 <= len - x + e).
    { rewrite (chain_map (cat c) (cat (right_part c (1 / 2))) (fun u => 2 * u - 1)).
      - apply (increasing_map (fun u => 2 * u - 1)) in J2; [|intros; lra].
        replace (2 * (1 / 2) - 1) with 0 in * by field. apply U. replace (2 * (1 / 2 + 1 / 2 * t) - 1) with t in J2 by field. exact J2.
      - intros u. rewrite cat_right. f_equal. field. }
    lra.
  - pose proof (increasing_map (fun u => 1 / 2 * u) l0 ltac:(intros; lra) _ _ I0) as J1.
    pose proof (increasing_map (fun u => 1 / 2 + (1 - 1 / 2) * u) l ltac:(intros; lra) _ _ I) as J2. simpl in J1, J2.
    replace (1 / 2 * 0) with 0 in J1 by ring. replace (1 / 2 * 1) with (1 / 2) in J1 by ring.
    replace (1 / 2 + (1 - 1 / 2) * 0) with (1 / 2) in J2 by ring. replace (1 / 2 + (1 - 1 / 2) * t) with (1 / 2 + 1 / 2 * t) in J2 by field.
    exists (map (fun u => 1 / 2 * u) l0 ++ map (fun u => 1 / 2 + (1 - 1 / 2) * u) l). split.
    + eapply increasing_app; eassumption.
    + rewrite (chain_app _ _ _ _ _ J1).
      rewrite (chain_map (cat (left_part c (1 / 2))) (cat c) (fun u => 1 / 2 * u)) in L0; [|intros; apply cat_left].
      rewrite (chain_map (cat (right_part c (1 / 2))) (cat c) (fun u => 1 / 2 + (1 - 1 / 2) * u)) in L; [|intros; apply cat_right].
      replace (1 / 2 * 0) with 0 in L0 by ring. replace (1 / 2 + (1 - 1 / 2) * 0) with (1 / 2) in L by ring. lra.
Qed.

Lemma param_reached fuel : forall c eps total len, 0 < eps -> (forall d, straight_piece c eps d -> solvable d) ->
  curve_arclen fuel false c eps = Some total ->
  exists t, curve_param fuel c eps len = Some (t, total) /\
    (0 <= len <= total -> exists e, 0 <= e < 2 * eps /\ reached c t len e).
Proof.
  induction fuel as [|fuel IH]; intros c eps total len He S H; [discriminate|]. rewrite curve_arclen_S in H. rewrite curve_param_S.
  assert (G : forall d len x, d = first_half c \/ d = second_half c -> sub_arclen fuel false eps d = Some x ->
    exists p, sub_param fuel eps d len = Some (p, x) /\
      exists t, conv_param eps d p = Some t /\ (0 <= len <= x -> exists e, 0 <= e < eps /\ reached d t len e)).
  { intros d l x D. unfold sub_arclen, sub_param, conv_param. destruct (Rlt_dec _ _) as [C|C].
    - intros [= <-]. assert (SD : solvable d) by (apply S; apply piece_here; [exact D|now rewrite excess_gap]).
      assert (P : 0 < chord d) by (destruct d as [[[p0 p1] p2] p3]; apply ends_polygon; apply SD).
      destruct (Req_EM_T (chord d) 0); [lra|]. exists (l / chord d). split; [reflexivity|].
      destruct (Rle_dec 0 l) as [L1|L1]; [destruct (Rle_dec l (chord d)) as [L2|L2]|].
      + destruct (piece_reached d l SD (conj L1 L2)) as (t & T & K). exists t. split; [exact T|]. intros _.
        exists (polygon d - chord d). split; [pose proof (chord_polygon d); lra|exact K].
      + exists (l / chord d). split; [|intros; lra]. destruct d as [[[p0 p1] p2] p3]. unfold piece_param.
        destruct (Rle_dec 0 _); [|reflexivity]. destruct (Rle_dec _ 1) as [O|]; [|reflexivity]. exfalso.
        apply (Rmult_le_compat_r (chord (p0, p1, p2, p3))) in O; [|lra]. unfold Rdiv in O. rewrite Rmult_assoc, Rinv_l in O by lra. lra.
      + exists (l / chord d). split; [|intros; lra]. destruct d as [[[p0 p1] p2] p3]. unfold piece_param.
        destruct (Rle_dec 0 _) as [O|]; [|reflexivity]. exfalso.
        apply (Rmult_le_compat_r (chord (p0, p1, p2, p3))) in O; [|lra]. unfold Rdiv in O. rewrite Rmult_assoc, Rinv_l in O by lra. lra.
    - intros A. destruct (IH d (1 / 2 * eps) x l ltac:(lra)) as (t & T & K); [|exact A|].
      + intros e E. apply S. apply (piece_deeper c eps d e D); [rewrite excess_gap; lra|]. now replace (eps / 2) with (1 / 2 * eps) by field.
      + exists t. split; [exact T|]. exists t. split; [reflexivity|]. intros B. destruct (K B) as (e & E & R). exists e. split; [lra|exact R]. }
  destruct (sub_arclen fuel false eps (left_part c (1 / 2))) as [x|] eqn:E1; [|discriminate].
  destruct (sub_arclen fuel false eps (right_part c (1 / 2))) as [y|] eqn:E2; [|discriminate].
  injection H as <-.
  destruct (G _ len _ (or_introl (first_left c)) E1) as (pa & -> & ta & -> & RA).
  destruct (G _ (len - x) _ (or_intror (second_right c)) E2) as (pb & -> & tb & -> & RB).
  destruct (sub_bounds _ _ _ _ E1) as (X0 & X1 & X2).
  destruct (Rgt_dec len x) as [C|C]; cbn [option_map]; eexists; (split; [reflexivity|]); intros B.
  - destruct (RB ltac:(lra)) as (e & E & R). exists (e + eps). split; [lra|]. apply (right_reached c tb len e x eps); auto; lra.
  - destruct (RA ltac:(lra)) as (e & E & R). exists e. split; [lra|]. now apply left_reached.
Qed.
