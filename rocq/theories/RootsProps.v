(** Roots of polynomials: C17 (degree up to two), C18 (cubic), C19 (quartic). *)
From Coq Require Import Reals List Lra Lia Bool.
From Verif Require Import RootsModel RootsSpec RootsProofs.
Import ListNotations.
Open Scope R_scope.

Lemma roots_strip k cs : realpolyroots (repeat 0 k ++ cs) = realpolyroots cs.
Proof. induction k as [|k IH]; simpl; auto. destruct (Req_EM_T 0 0); [auto|lra]. Qed.
Lemma peval_strip k cs x : peval (repeat 0 k ++ cs) x = peval cs x.
Proof. induction k as [|k IH]; simpl; auto. rewrite IH. ring. Qed.
Lemma exactly_strip k rs cs : exactly_roots rs cs -> exactly_roots rs (repeat 0 k ++ cs).
Proof. intros H x. now rewrite peval_strip. Qed.
Lemma roots_lead c cs : c <> 0 -> realpolyroots (c :: cs) =
  match map (fun x => 1 / c * x) cs with
  | [] => Some []
  | [x0] => Some [- x0]
  | [x1; x0] => Some (realroots_quadratic x1 x0)
  | [x2; x1; x0] => Some (realroots_cubic x2 x1 x0)
  | [x3; x2; x1; x0] => Some (realroots_quartic x3 x2 x1 x0)
  | _ => None
  end.
Proof. intros H. simpl. destruct (Req_EM_T c 0); [contradiction|reflexivity]. Qed.
Lemma scale0 c a b : c <> 0 -> b = c * a -> (a = 0 <-> b = 0).
Proof. intros H E. split; intros G; [rewrite E, G; ring|]. rewrite G in E. symmetry in E. apply Rmult_integral in E. tauto. Qed.

(** C17: with any number of vanishing leading coefficients, exactly the real roots are
    returned for polynomials of degree at most two that do not vanish. *)
Theorem roots_low_degree : forall k c cs, c <> 0 -> (length cs <= 2)%nat ->
  exists rs, realpolyroots (repeat 0 k ++ c :: cs) = Some rs /\ exactly_roots rs (repeat 0 k ++ c :: cs).
Proof.
  intros k c cs Hc L. rewrite roots_strip, roots_lead by auto.
  destruct cs as [|b [|a [|? ?]]]; simpl in L; try lia; simpl map; eexists; (split; [reflexivity|]); apply exactly_strip; intros x; simpl.
  - split; [tauto|]. intros E. apply Hc. lra.
  - transitivity (x + 1 / c * b = 0); [split; [intros [<-|[]]; ring|intros; left; lra]|]. apply scale0 with c; auto. field. auto.
  - fold (In x (realroots_quadratic (1 / c * b) (1 / c * a))). rewrite quadratic_roots. apply scale0 with c; auto. field. auto.
Qed.
Print Assumptions roots_low_degree.
Example quadratic_ex : exists rs, realpolyroots [0; 2; -6; 4] = Some rs /\ In 1 rs /\ In 2 rs /\ length rs = 2%nat.
Proof.
  destruct (roots_low_degree 1 2 [-6; 4] ltac:(lra) ltac:(simpl; lia)) as (rs & E & X). simpl in E. exists rs. split; [exact E|].
  split; [apply X; simpl; ring|]. split; [apply X; simpl; ring|].
  revert E. destruct (Req_EM_T 0 0); [|lra]. destruct (Req_EM_T 2 0); [lra|]. unfold realroots_quadratic. destruct (Rlt_dec _ 0); [lra|].
  intros [= <-]. reflexivity.
Qed.

(** C17: the zero polynomial, of which every number is a root, gives the list [0]. *)
Theorem roots_of_zero : forall k, realpolyroots (repeat 0 k) = Some [0] /\ forall x, peval (repeat 0 k) x = 0.
Proof.
  intros k. rewrite <- (app_nil_r (repeat 0 k)), roots_strip. split; [reflexivity|]. intros x. now rewrite peval_strip.
Qed.
Print Assumptions roots_of_zero.

(** C18: exactly the real roots of a cubic are returned, unless it has a double root
    below its other root. *)
Theorem cubic_roots_partial : forall k c a2 a1 a0, c <> 0 ->
  (~ exists alpha beta, alpha < beta /\ forall x, peval [c; a2; a1; a0] x = c * ((x - alpha) ^ 2 * (x - beta))) ->
  exists rs, realpolyroots (repeat 0 k ++ [c; a2; a1; a0]) = Some rs /\ exactly_roots rs (repeat 0 k ++ [c; a2; a1; a0]).
Proof.
  intros k c a2 a1 a0 Hc NB. rewrite roots_strip, roots_lead by auto. simpl map. eexists; (split; [reflexivity|]). apply exactly_strip. intros x.
  rewrite cubic_exact.
  - unfold cub. apply scale0 with c; auto. simpl. field. auto.
  - intros (alpha & beta & L & F). apply NB. exists alpha, beta. split; auto. intros y. transitivity (c * cub (1 / c * a2) (1 / c * a1) (1 / c * a0) y).
    + simpl. unfold cub. field. auto.
    + unfold cub. rewrite F. simpl. ring.
Qed.
Print Assumptions cubic_roots_partial.
(** the hypothesis holds for a cubic with three different roots, -1, 0 and 1 *)
Example cubic_ex : exists rs, realpolyroots [1; 0; -1; 0] = Some rs /\ forall x, In x rs <-> x = -1 \/ x = 0 \/ x = 1.
Proof.
  destruct (cubic_roots_partial 0 1 0 (-1) 0) as (rs & E & X); [lra| |].
  - intros (alpha & beta & L & F). pose proof (F 0) as F0. pose proof (F 1) as F1. pose proof (F (-1)) as F2. simpl in F0, F1, F2.
    assert ((0 - alpha) * (0 - alpha) * (0 - beta) = 0) as G0 by lra. assert ((1 - alpha) * (1 - alpha) * (1 - beta) = 0) as G1 by lra.
    assert ((-1 - alpha) * (-1 - alpha) * (-1 - beta) = 0) as G2 by lra.
    apply mult0 in G0. apply mult0 in G1. apply mult0 in G2.
    destruct G0 as [G0|G0]; [apply mult0 in G0|]; (destruct G1 as [G1|G1]; [apply mult0 in G1|]); (destruct G2 as [G2|G2]; [apply mult0 in G2|]); lra.
  - exists rs. split; [exact E|]. intros x. rewrite (X x). simpl. split.
    + intros P. assert (x * (x - 1) * (x + 1) = 0) as M by lra. apply mult0 in M. destruct M as [M|M]; [apply mult0 in M|]; lra.
    + intros [->|[->| ->]]; ring.
Qed.

(** C18: for a cubic with a double root below its other root neither returned value is
    a root; so the full statement is false. *)
Theorem cubic_double_root_refuted : forall c alpha beta, c <> 0 -> alpha < beta ->
  let cs := [c; c * (- 2 * alpha - beta); c * (alpha * alpha + 2 * alpha * beta); c * (- (alpha * alpha * beta))] in
  (forall x, peval cs x = c * ((x - alpha) ^ 2 * (x - beta))) /\
  exists r1 r2, realpolyroots cs = Some [r1; r2] /\ peval cs r1 <> 0 /\ peval cs r2 <> 0.
Proof.
  intros c alpha beta Hc L cs. assert (forall x, peval cs x = c * ((x - alpha) ^ 2 * (x - beta))) as E by (intros x; unfold cs; simpl; ring).
  split; auto. exists (alpha - (beta - alpha) / 3), (alpha + 2 * (beta - alpha) / 3). split.
  - unfold cs. rewrite roots_lead by auto. simpl map. cbv iota.
    replace (1 / c * (c * (- 2 * alpha - beta))) with (- 2 * alpha - beta) by (field; auto).
    replace (1 / c * (c * (alpha * alpha + 2 * alpha * beta))) with (alpha * alpha + 2 * alpha * beta) by (field; auto).
    replace (1 / c * (c * (- (alpha * alpha * beta)))) with (- (alpha * alpha * beta)) by (field; auto).
    f_equal. apply cubic_bad_wrong; auto. intros x. unfold cub. ring.
  - rewrite !E. set (d := (beta - alpha) / 3). assert (0 < d) by (unfold d; lra). split.
    + replace (_ * (_ * _)) with (- (4 * c) * (d * d * d)) by (unfold d; field).
      apply Rmult_integral_contrapositive_currified; [lra|]. pose proof (cube_pos d H). lra.
    + replace (c * ((alpha + 2 * (beta - alpha) / 3 - alpha) ^ 2 * (alpha + 2 * (beta - alpha) / 3 - beta))) with (- (4 * c) * (d * d * d)) by (unfold d; field).
      apply Rmult_integral_contrapositive_currified; [lra|]. pose proof (cube_pos d H). lra.
Qed.
Print Assumptions cubic_double_root_refuted.
Example cubic_double_ex : realpolyroots [1; 0; -3; -2] = Some [-2; 1].
Proof.
  destruct (cubic_double_root_refuted 1 (-1) 2 ltac:(lra) ltac:(lra)) as (_ & _).
  rewrite roots_lead by lra. simpl map. cbv iota. rewrite (cubic_bad_wrong _ _ _ (-1) 2); [|lra|intros; unfold cub; field].
  repeat f_equal; field.
Qed.

(** C19: exactly the real roots of a quartic are returned, unless it has a real double
    root at which the remaining quadratic factor is positive. *)
Theorem quartic_roots_partial : forall k c a3 a2 a1 a0, c <> 0 ->
  (~ exists alpha p q, alpha ^ 2 + p * alpha + q > 0 /\
       forall x, peval [c; a3; a2; a1; a0] x = c * ((x - alpha) ^ 2 * (x ^ 2 + p * x + q))) ->
  exists rs, realpolyroots (repeat 0 k ++ [c; a3; a2; a1; a0]) = Some rs /\
    exactly_roots rs (repeat 0 k ++ [c; a3; a2; a1; a0]).
Proof.
  intros k c a3 a2 a1 a0 Hc NB. rewrite roots_strip, roots_lead by auto. simpl map. eexists; (split; [reflexivity|]). apply exactly_strip. intros x.
  rewrite quartic_exact.
  - unfold quart. apply scale0 with c; auto. simpl. field. auto.
  - intros (alpha & p & q & L & F). apply NB. exists alpha, p, q. split; [simpl; lra|]. intros y.
    transitivity (c * quart (1 / c * a3) (1 / c * a2) (1 / c * a1) (1 / c * a0) y).
    + simpl. unfold quart. field. auto.
    + rewrite F. simpl. ring.
Qed.
Print Assumptions quartic_roots_partial.
(** the hypothesis holds for x^4 - 5 x^2 + 4 = (x-1)(x+1)(x-2)(x+2) *)
Example quartic_ex : exists rs, realpolyroots [1; 0; -5; 0; 4] = Some rs /\ forall x, In x rs <-> x = -1 \/ x = 1 \/ x = 2 \/ x = -2.
Proof.
  destruct (quartic_roots_partial 0 1 0 (-5) 0 4) as (rs & E & X); [lra| |].
  - intros (alpha & p & q & L & F).
    destruct (quart_coefs 0 (-5) 0 4 (p - 2 * alpha) (q - 2 * alpha * p + alpha * alpha) (alpha * alpha * p - 2 * alpha * q) (alpha * alpha * q)) as (C3 & C2 & C1 & C0).
    { intros x. transitivity (peval [1; 0; -5; 0; 4] x); [unfold quart; simpl; ring|]. rewrite F. unfold quart. simpl. ring. }
    assert (p = 2 * alpha) as -> by lra. clear C3. assert (q = 3 * (alpha * alpha) - 5) as -> by lra.
    assert (alpha * (2 * (alpha * alpha) - 5) = 0) as M by lra. apply mult0 in M. destruct M as [M|M]; [subst alpha; lra|].
    assert (alpha * alpha = 5 / 2) as A by lra. rewrite A in C0. lra.
  - exists rs. split; [exact E|]. intros x. rewrite (X x). simpl. split.
    + intros P. assert ((x + 1) * (x - 1) * (x - 2) * (x + 2) = 0) as M by lra. apply mult0 in M. destruct M as [M|M]; [apply mult0 in M; destruct M as [M|M]; [apply mult0 in M|]|]; lra.
    + intros [->|[->|[->| ->]]]; ring.
Qed.

(** C19: the statement is false without this condition: the root 0 of x^4 + x^2 is
    missed, and for x^4 - 3 x^3 + 2 x^2 = x^2 (x - 1) (x - 2) a value is returned which
    is no root. *)
Theorem quartic_double_root_refuted :
  (realpolyroots [1; 0; 1; 0; 0] = Some [] /\ peval [1; 0; 1; 0; 0] 0 = 0) /\
  exists rs r, realpolyroots [1; -3; 2; 0; 0] = Some rs /\ In r rs /\ peval [1; -3; 2; 0; 0] r <> 0 /\
    ~ In 1 rs /\ peval [1; -3; 2; 0; 0] 1 = 0.
Proof.
  split; [split; [|simpl; ring]|].
  - rewrite roots_lead by lra. simpl map. cbv iota. f_equal. unfold realroots_quartic.
    rewrite (cubic_bad_wrong _ _ _ 0 1); [|lra|intros; unfold cub; field]. simpl.
    unfold geb. repeat (destruct (Rge_dec _ 0); simpl; try (exfalso; lra)); reflexivity.
  - rewrite roots_lead by lra. simpl map. cbv iota. unfold realroots_quartic.
    rewrite (cubic_bad_wrong _ _ _ 0 2); [|lra|intros; unfold cub; field].
    match goal with |- context [filter ?f ?l] => assert (filter f l = [4 / 3]) as -> end.
    { simpl. unfold geb. destruct (Rge_dec (_ + 4 * (0 - (2 - 0) / 3)) 0) as [G|G]; [exfalso; lra|]. simpl.
      destruct (Rge_dec (_ + 4 * (0 + 2 * (2 - 0) / 3)) 0) as [G1|G1]; [|exfalso; lra]. simpl.
      destruct (Rge_dec _ 0) as [G2|G2]; [|exfalso; lra]. f_equal. lra. }
    simpl minlist. cbv zeta. destruct (Rlt_dec _ 0) as [G|G]; [|exfalso; lra].
    replace (4 / 3 * (4 / 3) - 4 * (1 / 1 * 0)) with (4 / 3 * (4 / 3)) by field. rewrite sqrt_square by lra.
    replace (1 / 1 * -3 * (1 / 1 * -3) - 4 * (1 / 1 * 2) + 4 * (4 / 3)) with (19 / 3) by field.
    pose proof (sqrt_sqrt (19 / 3) ltac:(lra)) as SW. pose proof (sqrt_pos (19 / 3)) as PW. set (w := sqrt (19 / 3)) in *.
    replace (1 / 1 * -3) with (-3) by field. assert (2 < w < 3) as W by (split; nra).
    set (r := / 2 * (3 - w)). eexists. exists r. split; [reflexivity|]. split.
    { apply in_or_app. left. apply quadratic_roots. unfold r. field. }
    split.
    { assert (0 < r < 1) as RR by (unfold r; lra). clearbody r. assert (peval [1; -3; 2; 0; 0] r = r * r * ((r - 1) * (r - 2))) as -> by (simpl; ring).
      apply Rmult_integral_contrapositive_currified; apply Rmult_integral_contrapositive_currified; lra. }
    split; [|simpl; ring]. intros I. apply in_app_or in I. rewrite !quadratic_roots in I. destruct I as [I|I]; [lra|].
    assert (w = 5 / 3) by lra. subst. lra.
Qed.
Print Assumptions quartic_double_root_refuted.

(** more than five coefficients with a non-vanishing first one are refused *)
Theorem roots_refused : forall k c cs, c <> 0 ->
  (realpolyroots (repeat 0 k ++ c :: cs) = None <-> (4 < length cs)%nat).
Proof.
  intros k c cs Hc. rewrite roots_strip, roots_lead by auto.
  destruct cs as [|? [|? [|? [|? [|? cs]]]]]; simpl; split; intros H; try discriminate; try lia; auto.
Qed.
Print Assumptions roots_refused.
Example roots_refused_ex : realpolyroots [0; 1; 2; 3; 4; 5; 6] = None.
Proof. apply (roots_refused 1 1 [2; 3; 4; 5; 6]); [lra|simpl; lia]. Qed.
