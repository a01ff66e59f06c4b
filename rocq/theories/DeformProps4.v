(** Curves with given tangents and curvatures at their ends. *)
From Coq Require Import Reals List Bool Lia Lra.
From Verif Require Import TrafoModel CurveModel CurveSpec CurveProofs2 CurveProofs3 CurveProofs4 RootsModel RootsSpec RootsProps DeformModel DeformProps.
Import ListNotations.
Open Scope R_scope.

(** ** The equations *)
Definition unit_vector (v : pt) : Prop := fst v ^ 2 + snd v ^ 2 = 1.
Lemma unit_hypot : forall v k, unit_vector v -> 0 < k -> hypot (k * fst v) (k * snd v) = k.
Proof. intros v k U K. rewrite hypot_scale by auto. unfold hypot. replace (fst v * fst v + snd v * snd v) with 1 by (unfold unit_vector in U; rewrite <- U; ring). rewrite sqrt_1. ring. Qed.

(** C122: the distances of the control points make a curve with the given tangents and curvatures just if they solve two equations. *)
Theorem end_curve_geometry : forall A B tA tB a b cA cB, unit_vector tA -> unit_vector tB -> 0 < a -> 0 < b ->
  let c := end_curve A B tA tB a b in
  atbegin_pt c = A /\ atend_pt c = B /\ same_direction (velocity c 0) tA /\ same_direction (velocity c 1) tB /\
  ((item_curvature c 0 = Some cA /\ item_curvature c 1 = Some cB) <->
   (3 / 2 * cA * a ^ 2 + b * cross tA tB = cross tA (minus B A) /\ 3 / 2 * cB * b ^ 2 + a * cross tA tB = cross tB (minus A B))).
Proof.
  intros A B tA tB a b cA cB UA UB Pa Pb. cbv zeta.
  destruct (velocity_ends A (fst A + a * fst tA, snd A + a * snd tA) (fst B - b * fst tB, snd B - b * snd tB) B) as [V0 V1]. cbn [fst snd] in V0, V1.
  replace (3 * (fst A + a * fst tA - fst A)) with (3 * a * fst tA) in V0 by ring. replace (3 * (snd A + a * snd tA - snd A)) with (3 * a * snd tA) in V0 by ring.
  replace (3 * (fst B - (fst B - b * fst tB))) with (3 * b * fst tB) in V1 by ring. replace (3 * (snd B - (snd B - b * snd tB))) with (3 * b * snd tB) in V1 by ring.
  fold (end_curve A B tA tB a b) in V0, V1.
  split; [destruct A; reflexivity|]. split; [destruct B; reflexivity|].
  split; [rewrite V0; exists (3 * a); split; [lra|reflexivity]|]. split; [rewrite V1; exists (3 * b); split; [lra|reflexivity]|].
  assert (K0 : item_curvature (end_curve A B tA tB a b) 0 = Some (2 / 3 * (cross tA (minus B A) - b * cross tA tB) / a ^ 2)).
  { unfold end_curve. rewrite curvature_num. fold (end_curve A B tA tB a b). rewrite V0. cbn [fst snd]. rewrite (unit_hypot tA (3 * a) UA) by lra.
    destruct (Req_EM_T (3 * a) 0); [lra|]. f_equal. destruct A as [ax ay], B as [bx by_], tA as [px py], tB as [qx qy]. cbn. unfold dot_coord, ddot_coord, cross, minus. cbn [fst snd]. field. lra. }
  assert (K1 : item_curvature (end_curve A B tA tB a b) 1 = Some (2 / 3 * (cross tB (minus A B) - a * cross tA tB) / b ^ 2)).
  { unfold end_curve. rewrite curvature_num. fold (end_curve A B tA tB a b). rewrite V1. cbn [fst snd]. rewrite (unit_hypot tB (3 * b) UB) by lra.
    destruct (Req_EM_T (3 * b) 0); [lra|]. f_equal. destruct A as [ax ay], B as [bx by_], tA as [px py], tB as [qx qy]. cbn. unfold dot_coord, ddot_coord, cross, minus. cbn [fst snd]. field. lra. }
  rewrite K0, K1. set (T := cross tA tB). set (D := cross tA (minus B A)). set (E := cross tB (minus A B)).
  assert (Sq : forall x, 0 < x -> 0 < x ^ 2) by (intros; apply pow_lt; auto).
  split.
  - intros [H0 H1]. injection H0 as <-. injection H1 as <-. split; field; lra.
  - intros [H0 H1]. rewrite <- H0, <- H1. split; f_equal; field; lra.
Qed.
Print Assumptions end_curve_geometry.

(** ** The equations with signs *)
Definition solves (T D E cA cB a b : R) : Prop := 3 / 2 * cA * (a * Rabs a) + b * T = D /\ 3 / 2 * cB * (b * Rabs b) + a * T = E.
Definition no_double (cs : list R) : Prop := ~ exists alpha p q, alpha ^ 2 + p * alpha + q > 0 /\
  forall x, peval cs x = hd 0 cs * ((x - alpha) ^ 2 * (x ^ 2 + p * x + q)).

Lemma findnearest_nearest : forall x rest Y, In (findnearest x Y rest) (Y :: rest) /\ forall y, In y (Y :: rest) -> Rabs (x - findnearest x Y rest) <= Rabs (x - y).
Proof.
  intros x. unfold findnearest. induction rest as [|y rest IH]; intros Y; cbn [fold_left].
  - split; [left; reflexivity|]. intros y [<-|[]]; lra.
  - destruct (ltb (Rabs (x - y)) (Rabs (x - Y))) eqn:L; unfold ltb in L; destruct (Rlt_dec (Rabs (x - y)) (Rabs (x - Y))); try discriminate.
    + destruct (IH y) as [I M]. split; [right; exact I|]. intros z [<-|[<-|Z]].
      * pose proof (M y (or_introl eq_refl)). lra.
      * apply M. left; reflexivity.
      * apply M. right; auto.
    + destruct (IH Y) as [I M]. split; [destruct I as [I|I]; [left; auto|right; right; auto]|]. intros z [<-|[<-|Z]].
      * apply M. left; reflexivity.
      * pose proof (M Y (or_introl eq_refl)). lra.
      * apply M. right; auto.
Qed.
Lemma findnearest_exact : forall x Y rest, In x (Y :: rest) -> findnearest x Y rest = x.
Proof.
  intros x Y rest I. destruct (findnearest_nearest x rest Y) as [_ M]. specialize (M x I). replace (x - x) with 0 in M by ring. rewrite Rabs_R0 in M.
  pose proof (Rabs_pos (x - findnearest x Y rest)). destruct (Req_dec (x - findnearest x Y rest) 0) as [Z|Z]; [lra|]. apply Rabs_pos_lt in Z. lra.
Qed.
Lemma roots_are : forall c a2 a1 a0, c <> 0 -> no_double [c; 0.0; a2; a1; a0] -> exists rs, realpolyroots [c; 0.0; a2; a1; a0] = Some rs /\
  forall x, In x rs <-> c * x ^ 4 + a2 * x ^ 2 + a1 * x + a0 = 0.
Proof.
  intros c a2 a1 a0 C N. destruct (quartic_roots_partial 0 c 0.0 a2 a1 a0 C) as (rs & R1 & R2).
  - intros (al & p & q & H & K). apply N. exists al, p, q. split; [exact H|]. intros x. rewrite K. reflexivity.
  - cbn [repeat app] in R1, R2. exists rs. split; [exact R1|]. intros x. rewrite (R2 x). cbn. replace 0.0 with 0 by lra.
    split; intros H; [rewrite <- H; ring|]. transitivity (c * x ^ 4 + a2 * x ^ 2 + a1 * x + a0); [ring|exact H].
Qed.
Lemma sign_of : forall x, exists s, (s = 1 \/ s = -1) /\ 0 <= s * x /\ Rabs x = s * x.
Proof. intros x. destruct (Rle_dec 0 x); [exists 1; rewrite Rabs_pos_eq by lra|exists (-1); rewrite Rabs_left by lra]; split; auto; split; lra. Qed.
Definition sign_pair (allownegative : bool) (sa sb : R) : Prop := if allownegative then (sa = 1 \/ sa = -1) /\ (sb = 1 \/ sb = -1) else sa = 1 /\ sb = 1.
Lemma signs_in : forall n sa sb, In (sa, sb) (signs n) <-> sign_pair n sa sb.
Proof.
  intros [] sa sb; unfold signs, sign_pair; cbn.
  - split.
    + intros [H|[H|[H|[H|[]]]]]; injection H as <- <-; auto.
    + intros [[-> | ->] [-> | ->]]; auto.
  - split; [intros [H|[]]; injection H as <- <-; auto|intros [-> ->]; auto].
Qed.
Lemma pair_pm : forall n sa sb, sign_pair n sa sb -> (sa = 1 \/ sa = -1) /\ (sb = 1 \/ sb = -1).
Proof. intros [] sa sb; cbn; tauto. Qed.
Lemma pm_square : forall s, s = 1 \/ s = -1 -> s * s = 1.
Proof. intros s [-> | ->]; ring. Qed.
Lemma pm_nonzero : forall s, s = 1 \/ s = -1 -> s <> 0.
Proof. intros s [-> | ->]; lra. Qed.

Section Candidates.
Variables (n : bool) (T D E cA cB : R).
Hypothesis (T0 : T <> 0) (A0 : cA <> 0) (B0 : cB <> 0).
Hypothesis (NA : forall sa sb, sign_pair n sa sb -> no_double (coeffs_a sa sb T D E cA cB)).
Hypothesis (NB : forall sa sb, sign_pair n sa sb -> no_double (coeffs_b sa sb T D E cA cB)).

Lemma lead_a : forall sb, (sb = 1 \/ sb = -1) -> sb * 3.375 * cA * cA * cB <> 0.
Proof. intros sb S. pose proof (pm_nonzero _ S). assert (K : 3.375 <> 0) by (apply Rgt_not_eq; lra). set (k := 3.375) in *. clearbody k. repeat apply Rmult_integral_contrapositive_currified; auto. Qed.
Lemma lead_b : forall sa, (sa = 1 \/ sa = -1) -> sa * 3.375 * cA * cB * cB <> 0.
Proof. intros sb S. pose proof (pm_nonzero _ S). assert (K : 3.375 <> 0) by (apply Rgt_not_eq; lra). set (k := 3.375) in *. clearbody k. repeat apply Rmult_integral_contrapositive_currified; auto. Qed.
Definition quartic_a (sa sb a : R) : R := sb * (3 / 2) * cB * (D - 3 / 2 * cA * sa * a ^ 2) ^ 2 + a * T ^ 3 - T * T * E.
Definition quartic_b (sa sb b : R) : R := sa * (3 / 2) * cA * (E - 3 / 2 * cB * sb * b ^ 2) ^ 2 + b * T ^ 3 - T * T * D.
Lemma in_a : forall a, In a (candidates_a n T D E cA cB) <-> exists sa sb, sign_pair n sa sb /\ 0 <= sa * a /\ quartic_a sa sb a = 0.
Proof.
  intros a. unfold candidates_a. rewrite in_flat_map. split.
  - intros ([sa sb] & S & I). apply signs_in in S. destruct (pair_pm _ _ _ S) as [Sa Sb]. exists sa, sb. split; [exact S|].
    destruct (roots_are _ _ _ _ (lead_a sb Sb) (NA sa sb S)) as (rs & R1 & R2). unfold coeffs_a in I. rewrite R1 in I. cbn [with_sign] in I.
    apply filter_In in I as [I G]. unfold geb in G. destruct (Rge_dec (sa * a) 0); [|discriminate]. split; [lra|]. apply R2 in I. etransitivity; [|exact I].
    unfold quartic_a. pose proof (pm_square _ Sa) as Q. replace 3.375 with (27 / 8) by lra. replace 4.5 with (9 / 2) by lra. replace 1.5 with (3 / 2) by lra.
    transitivity (sb * (27 / 8) * cA * cA * cB * (sa * sa) * a ^ 4 - sb * sa * (9 / 2) * cA * cB * D * a ^ 2 + T ^ 3 * a + (sb * (3 / 2) * cB * D * D - T * T * E)); [field|rewrite Q; ring].
  - intros (sa & sb & S & P & Z). exists (sa, sb). split; [apply signs_in; auto|]. destruct (pair_pm _ _ _ S) as [Sa Sb].
    destruct (roots_are _ _ _ _ (lead_a sb Sb) (NA sa sb S)) as (rs & R1 & R2). unfold coeffs_a. rewrite R1. cbn [with_sign].
    apply filter_In. split; [|unfold geb; destruct (Rge_dec (sa * a) 0); [reflexivity|lra]]. apply R2. etransitivity; [|exact Z].
    unfold quartic_a. pose proof (pm_square _ Sa) as Q. replace 3.375 with (27 / 8) by lra. replace 4.5 with (9 / 2) by lra. replace 1.5 with (3 / 2) by lra.
    transitivity (sb * (27 / 8) * cA * cA * cB * (sa * sa) * a ^ 4 - sb * sa * (9 / 2) * cA * cB * D * a ^ 2 + T ^ 3 * a + (sb * (3 / 2) * cB * D * D - T * T * E)); [rewrite Q; ring|field].
Qed.
Lemma in_b : forall b, In b (candidates_b n T D E cA cB) <-> exists sa sb, sign_pair n sa sb /\ 0 <= sb * b /\ quartic_b sa sb b = 0.
Proof.
  intros b. unfold candidates_b. rewrite in_flat_map. split.
  - intros ([sa sb] & S & I). apply signs_in in S. destruct (pair_pm _ _ _ S) as [Sa Sb]. exists sa, sb. split; [exact S|].
    destruct (roots_are _ _ _ _ (lead_b sa Sa) (NB sa sb S)) as (rs & R1 & R2). unfold coeffs_b in I. rewrite R1 in I. cbn [with_sign] in I.
    apply filter_In in I as [I G]. unfold geb in G. destruct (Rge_dec (sb * b) 0); [|discriminate]. split; [lra|]. apply R2 in I. etransitivity; [|exact I].
    unfold quartic_b. pose proof (pm_square _ Sb) as Q. replace 3.375 with (27 / 8) by lra. replace 4.5 with (9 / 2) by lra. replace 1.5 with (3 / 2) by lra.
    transitivity (sa * (27 / 8) * cA * cB * cB * (sb * sb) * b ^ 4 - sa * sb * (9 / 2) * cA * cB * E * b ^ 2 + T ^ 3 * b + (sa * (3 / 2) * cA * E * E - T * T * D)); [field|rewrite Q; ring].
  - intros (sa & sb & S & P & Z). exists (sa, sb). split; [apply signs_in; auto|]. destruct (pair_pm _ _ _ S) as [Sa Sb].
    destruct (roots_are _ _ _ _ (lead_b sa Sa) (NB sa sb S)) as (rs & R1 & R2). unfold coeffs_b. rewrite R1. cbn [with_sign].
    apply filter_In. split; [|unfold geb; destruct (Rge_dec (sb * b) 0); [reflexivity|lra]]. apply R2. etransitivity; [|exact Z].
    unfold quartic_b. pose proof (pm_square _ Sb) as Q. replace 3.375 with (27 / 8) by lra. replace 4.5 with (9 / 2) by lra. replace 1.5 with (3 / 2) by lra.
    transitivity (sa * (27 / 8) * cA * cB * cB * (sb * sb) * b ^ 4 - sa * sb * (9 / 2) * cA * cB * E * b ^ 2 + T ^ 3 * b + (sa * (3 / 2) * cA * E * E - T * T * D)); [rewrite Q; ring|field].
Qed.

Lemma solution_candidates : forall a b sa sb, sign_pair n sa sb -> 0 <= sa * a -> Rabs a = sa * a -> 0 <= sb * b -> Rabs b = sb * b -> solves T D E cA cB a b ->
  In a (candidates_a n T D E cA cB) /\ In b (candidates_b n T D E cA cB) /\ (D - 1.5 * cA * a * Rabs a) / T = b.
Proof.
  intros a b sa sb S Pa Ea Pb Eb [H1 H2]. destruct (pair_pm _ _ _ S) as [Sa Sb]. rewrite Ea in H1. rewrite Eb in H2. split; [|split].
  - apply in_a. exists sa, sb. split; [exact S|]. split; [exact Pa|]. unfold quartic_a. rewrite <- H1, <- H2. ring.
  - apply in_b. exists sa, sb. split; [exact S|]. split; [exact Pb|]. unfold quartic_b. rewrite <- H1, <- H2. ring.
  - rewrite Ea, <- H1. replace 1.5 with (3 / 2) by lra. field. auto.
Qed.
Lemma exact_complete : forall a b sa sb, sign_pair n sa sb -> 0 <= sa * a -> Rabs a = sa * a -> 0 <= sb * b -> Rabs b = sb * b -> solves T D E cA cB a b ->
  In (a, b) (exact_solutions n T D E cA cB).
Proof.
  intros a b sa sb S Pa Ea Pb Eb H. destruct (solution_candidates a b sa sb S Pa Ea Pb Eb H) as (Ia & Ib & Eq). unfold exact_solutions.
  destruct (candidates_b n T D E cA cB) as [|Y rest]; [contradiction|]. apply in_map_iff. exists a. split; [|exact Ia]. rewrite Eq, findnearest_exact; auto.
Qed.
End Candidates.

Lemma insert_in : forall ts x l y, In y (insert ts x l) <-> y = x \/ In y l.
Proof.
  intros ts x. induction l as [|z l IH]; intros y; cbn.
  - split; intros [H|[]]; auto.
  - destruct (before ts x z); cbn; [split; intros [H|H]; auto|]. rewrite IH. tauto.
Qed.
Lemma sorted_in : forall ts l y, In y (sorted ts l) <-> In y l.
Proof.
  intros ts l y. unfold sorted. assert (G : forall acc, In y (fold_left (fun l x => insert ts x l) l acc) <-> In y l \/ In y acc); [|rewrite G; cbn; tauto].
  induction l as [|x l IH]; intros acc; cbn [fold_left]; [cbn; tauto|]. rewrite IH, insert_in. cbn. intuition auto.
Qed.

(** ** The list of solutions *)
Lemma is_zero_iff : forall x, is_zero x = true <-> Rabs x < 1 / 100000000.
Proof. intros x. unfold is_zero, ltb. destruct (Rlt_dec _ _); split; auto; try discriminate; intros; contradiction. Qed.
Lemma not_zero : forall x, 1 / 100000000 <= Rabs x -> is_zero x = false /\ x <> 0.
Proof.
  intros x H. split.
  - destruct (is_zero x) eqn:E; [|reflexivity]. apply is_zero_iff in E. lra.
  - intros ->. rewrite Rabs_R0 in H. lra.
Qed.
Lemma general_case : forall A B tA tB cA cB n, let T := cross tA tB in let D := cross tA (minus B A) in let E := cross tB (minus A B) in
  1 / 100000000 <= Rabs T -> 1 / 100000000 <= Rabs cA -> 1 / 100000000 <= Rabs cB ->
  exists ts, intersection A B tA tB = Some ts /\ controldists A B tA tB (Fin cA) (Fin cB) n = Some (sorted (Rabs (fst ts), Rabs (snd ts)) (solutions n T D E cA cB)).
Proof.
  intros A B tA tB cA cB n T D E HT HA HB. destruct (not_zero _ HT) as [ZT NT]. destruct (not_zero _ HA) as [ZA _]. destruct (not_zero _ HB) as [ZB _].
  unfold controldists. fold T D E. unfold test_divisions. rewrite ZT, ZA, ZB. unfold intersection.
  destruct (Req_EM_T _ 0) as [Z|Z]; [exfalso; apply NT; unfold T, cross; lra|]. eexists. split; reflexivity.
Qed.



(** C122: all solutions of the equations are found, and none of what is found is wrong if the control point at B is in its direction too.  (The
    equations are those of end_curve_geometry if a and b are positive.  That the roots of the two quartic polynomials are found is
    quartic_roots_partial, from where the condition on the double roots comes.) *)
Theorem controldists_partial : forall A B tA tB cA cB n, let T := cross tA tB in let D := cross tA (minus B A) in let E := cross tB (minus A B) in
  1 / 100000000 <= Rabs T -> 1 / 100000000 <= Rabs cA -> 1 / 100000000 <= Rabs cB ->
  (forall sa sb, sign_pair n sa sb -> no_double (coeffs_a sa sb T D E cA cB) /\ no_double (coeffs_b sa sb T D E cA cB)) ->
  (exists a b, (n = true \/ 0 <= a /\ 0 <= b) /\ solves T D E cA cB a b) ->
  exists l, controldists A B tA tB (Fin cA) (Fin cB) n = Some l /\
  (forall a b, (n = true \/ 0 <= a /\ 0 <= b) -> solves T D E cA cB a b -> In (a, b) l) /\
  (n = false -> forall a b, In (a, b) l -> 0 <= a /\ 0 <= b /\ (0 <= (D - 3 / 2 * cA * a ^ 2) / T -> solves T D E cA cB a b)).
Proof.
  intros A B tA tB cA cB n T D E HT HA HB ND (a0 & b0 & N0 & S0).
  destruct (general_case A B tA tB cA cB n HT HA HB) as (ts & _ & C). fold T D E in C. rewrite C. eexists. split; [reflexivity|].
  destruct (not_zero _ HT) as [_ NT]. destruct (not_zero _ HA) as [_ NA]. destruct (not_zero _ HB) as [_ NB].
  assert (Cp : forall a b, (n = true \/ 0 <= a /\ 0 <= b) -> solves T D E cA cB a b -> In (a, b) (exact_solutions n T D E cA cB)).
  { intros a b N S. destruct (sign_of a) as (sa & Sa & Pa & Ea). destruct (sign_of b) as (sb & Sb & Pb & Eb).
    destruct n.
    - apply (exact_complete true T D E cA cB NT NA NB (fun sa sb H => proj1 (ND sa sb H)) (fun sa sb H => proj2 (ND sa sb H)) a b sa sb); cbn; auto.
    - destruct N as [N|[P Q]]; [discriminate|].
      apply (exact_complete false T D E cA cB NT NA NB (fun sa sb H => proj1 (ND sa sb H)) (fun sa sb H => proj2 (ND sa sb H)) a b 1 1); cbn; auto; rewrite ?Rabs_pos_eq; lra. }
  assert (So : solutions n T D E cA cB = exact_solutions n T D E cA cB).
  { unfold solutions. pose proof (Cp a0 b0 N0 S0) as I. destruct (exact_solutions n T D E cA cB); [contradiction|reflexivity]. }
  rewrite So. split.
  - intros a b N S. apply sorted_in. apply Cp; auto.
  - intros -> a b I. apply (proj1 (sorted_in _ _ _)) in I. unfold exact_solutions in I.
    pose proof (fun x => in_b false T D E cA cB NA NB (fun sa sb H => proj2 (ND sa sb H)) x) as Ib.
    pose proof (fun x => in_a false T D E cA cB NA NB (fun sa sb H => proj1 (ND sa sb H)) x) as Ia.
    destruct (candidates_b false T D E cA cB) as [|Y rest]; [contradiction|]. apply in_map_iff in I as (a' & Eq & I'). injection Eq as -> Eb.
    apply Ia in I' as (sa & sb & [-> ->] & Pa & Qa). rewrite Rabs_pos_eq in Eb by lra.
    destruct (findnearest_nearest ((D - 1.5 * cA * a * a) / T) rest Y) as [Fi _]. rewrite Eb in Fi. apply Ib in Fi as (sa & sb & [-> ->] & Pb & _).
    split; [lra|]. split; [lra|]. intros Pp.
    assert (Ep : (D - 1.5 * cA * a * a) / T = (D - 3 / 2 * cA * a ^ 2) / T) by (f_equal; lra). rewrite Ep in Eb.
    assert (Sol : 3 / 2 * cB * ((D - 3 / 2 * cA * a ^ 2) / T) ^ 2 + a * T = E).
    { unfold quartic_a in Qa. apply (Rmult_eq_reg_r (T * T)); [|apply Rmult_integral_contrapositive_currified; auto].
      transitivity (1 * (3 / 2) * cB * (D - 3 / 2 * cA * 1 * a ^ 2) ^ 2 + a * T ^ 3); [field; auto|]. lra. }
    assert (In ((D - 3 / 2 * cA * a ^ 2) / T) (Y :: rest)).
    { apply Ib. exists 1, 1. split; [split; reflexivity|]. split; [lra|]. unfold quartic_b. set (p := (D - 3 / 2 * cA * a ^ 2) / T) in *.
      assert (Dp : D = 3 / 2 * cA * a ^ 2 + p * T) by (unfold p; field; auto). rewrite <- Sol, Dp. ring. }
    rewrite findnearest_exact in Eb by auto. rewrite <- Eb. unfold solves. rewrite !Rabs_pos_eq by lra. split; [field; auto|]. rewrite <- Sol. ring.
Qed.
Print Assumptions controldists_partial.

Lemma rootof_square : forall X c, c <> 0 -> 3 / 2 * c * (rootof X c * Rabs (rootof X c)) = X.
Proof.
  intros X c C. unfold rootof. replace 1.5 with (3 / 2) by lra. assert (Sg : sign (X * c) = 1 \/ sign (X * c) = -1) by (unfold sign; destruct (Rge_dec _ _); auto).
  rewrite Rabs_mult. assert (Ab : Rabs (sign (X * c)) = 1) by (destruct Sg as [-> | ->]; [apply Rabs_pos_eq; lra|rewrite Rabs_left; lra]). rewrite Ab.
  rewrite (Rabs_pos_eq (sqrt _)) by apply sqrt_pos.
  replace (sqrt (Rabs (X / (3 / 2 * c))) * sign (X * c) * (sqrt (Rabs (X / (3 / 2 * c))) * 1)) with (sqrt (Rabs (X / (3 / 2 * c))) * sqrt (Rabs (X / (3 / 2 * c))) * sign (X * c)) by ring.
  rewrite sqrt_sqrt by apply Rabs_pos.
  assert (S2 : Rabs (X / (3 / 2 * c)) * sign (X * c) = X / (3 / 2 * c)).
  { assert (Xc : X / (3 / 2 * c) = 2 / 3 * (X * c) * / (c * c)) by (field; auto).
    assert (P : 0 < / (c * c)) by (apply Rinv_0_lt_compat; nra).
    unfold sign. destruct (Rge_dec (X * c) 0).
    - rewrite Rabs_pos_eq; [ring|]. rewrite Xc. apply Rmult_le_pos; lra.
    - rewrite Rabs_left; [ring|]. rewrite Xc. assert (0 < 2 / 3 * - (X * c) * / (c * c)) by (apply Rmult_lt_0_compat; lra). lra. }
  rewrite S2. field. auto.
Qed.

(** C122: with parallel tangents or an end without curvature there is just one solution, which is found. *)
Theorem controldists_linear : forall A B tA tB cA cB n, let T := cross tA tB in let D := cross tA (minus B A) in let E := cross tB (minus A B) in
  (T = 0 \/ cA = 0 \/ cB = 0) ->
  (T = 0 \/ 1 / 100000000 <= Rabs T) -> (cA = 0 \/ 1 / 100000000 <= Rabs cA) -> (cB = 0 \/ 1 / 100000000 <= Rabs cB) ->
  (D = 0 \/ 1 / 10000000000 <= Rabs D) -> (E = 0 \/ 1 / 10000000000 <= Rabs E) ->
  match controldists A B tA tB (Fin cA) (Fin cB) n with
  | Some l => exists a b, l = [(a, b)] /\ solves T D E cA cB a b
  | None => forall a b, ~ solves T D E cA cB a b
  end.
Proof.
  intros A B tA tB cA cB n T D E Z HT HA HB HD HE. unfold controldists. fold T D E. set (AB := hypot _ _). clearbody AB T D E.
  assert (Zt : forall x, x = 0 \/ 1 / 100000000 <= Rabs x -> (is_zero x = true /\ x = 0) \/ (is_zero x = false /\ x <> 0)).
  { intros x [-> | H]; [left; split; [apply is_zero_iff; rewrite Rabs_R0; lra|reflexivity]|right; apply not_zero; auto]. }
  assert (Zd : forall x, x = 0 \/ 1 / 10000000000 <= Rabs x -> (ltb (Rabs x) (1 / 10000000000) = true /\ x = 0) \/ (ltb (Rabs x) (1 / 10000000000) = false /\ x <> 0)).
  { intros x [-> | H]; unfold ltb.
    - left. rewrite Rabs_R0. destruct (Rlt_dec _ _); [auto|lra].
    - right. destruct (Rlt_dec _ _); [lra|]. split; [reflexivity|]. intros ->. rewrite Rabs_R0 in H. lra. }
  unfold test_divisions. destruct (Zt _ HT) as [[-> T0]|[-> T0]].
  - unfold test_zeroT. destruct (Zt _ HA) as [[-> A0]|[-> A0]], (Zt _ HB) as [[-> B0]|[-> B0]].
    + destruct (Zd _ HD) as [[-> D0]|[-> D0]]; [|intros a b [H _]; apply D0; rewrite <- H, T0, A0; ring].
      destruct (Zd _ HE) as [[-> E0]|[-> E0]]; [|intros a b [_ H]; apply E0; rewrite <- H, T0, B0; ring].
      do 2 eexists. split; [reflexivity|]. unfold solves. rewrite T0, A0, B0, D0, E0. split; ring.
    + destruct (Zd _ HD) as [[-> D0]|[-> D0]]; [|intros a b [H _]; apply D0; rewrite <- H, T0, A0; ring].
      do 2 eexists. split; [reflexivity|]. unfold solves. rewrite (rootof_square E cB B0), T0, A0, D0. split; ring.
    + destruct (Zd _ HE) as [[-> E0]|[-> E0]]; [|intros a b [_ H]; apply E0; rewrite <- H, T0, B0; ring].
      do 2 eexists. split; [reflexivity|]. unfold solves. rewrite (rootof_square D cA A0), T0, B0, E0. split; ring.
    + do 2 eexists. split; [reflexivity|]. unfold solves. rewrite (rootof_square D cA A0), (rootof_square E cB B0), T0. split; ring.
  - destruct (Zt _ HA) as [[-> A0]|[-> A0]]; [|destruct (Zt _ HB) as [[-> B0]|[-> B0]]; [|exfalso; tauto]].
    + do 2 eexists. split; [reflexivity|]. unfold solves. replace 1.5 with (3 / 2) by lra. rewrite A0. split; field; auto.
    + do 2 eexists. split; [reflexivity|]. unfold solves. replace 1.5 with (3 / 2) by lra. rewrite B0. split; field; auto.
Qed.
Print Assumptions controldists_linear.
