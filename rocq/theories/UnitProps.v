(** Lengths: linearity (C01) and scales (C02). *)
From Coq Require Import Reals List Lra Bool.
From Verif Require Import UnitModel UnitSpec.
Import ListNotations.
Open Scope R_scope.

(** the number of meters per unit is never zero *)
Lemma meters_pos u : 0 < meters u.
Proof. destruct u; simpl; lra. Qed.

(** the factor of a kind of lengths in a state; true lengths are not scaled, unknown
    kinds always give the length zero *)
Definition factor_of (st : ustate) (ty : ltype) : R :=
  match ty with Tt => 1 | Tu => scale_u st | Tv => scale_v st | Tw => scale_w st | Tx => scale_x st | Tother => 0 end.
Definition meaning (st : ustate) : expr -> quantity -> Prop :=
  means (meters (default_unit st) * scale_u st) (factor_of st) (default_unit st).
Definition meters_of (st : ustate) : quantity -> R := in_meters (meters (default_unit st) * scale_u st).

(** the value in meters, whether the value is a pure number *)
Definition agrees (st : ustate) (v : pyval) (q : quantity) : Prop :=
  match v, q with
  | Num x, Pure y => x = y
  | Len _, Meters y => tom st v = y
  | _, _ => False
  end.

Lemma agrees_meters st v q : agrees st v q -> tom st v = meters_of st q.
Proof.
  destruct v, q; simpl; try tauto. intros ->. unfold tom, convert_to, meters_of, in_meters. simpl. field.
Qed.
Lemma to_length_tom st v : tom st (Len (to_length st v)) = tom st v.
Proof. destruct v; auto. unfold tom, convert_to. simpl. field. Qed.

Lemma eval_sound st e : forall v, eval st e = Some v -> exists q, meaning st e q /\ agrees st v q.
Proof.
  induction e as [x|f ty u|a IHa b IHb|a IHa b IHb|a IHa|a IHa b IHb|a IHa b IHb]; simpl; intros v H.
  - injection H as <-. exists (Pure x). split; [constructor|simpl; auto].
  - injection H as <-. eexists. split; [constructor|]. simpl. unfold tom, convert_to, assign.
    destruct ty, u; simpl; field.
  - destruct (eval st a) as [x|]; [|discriminate]. destruct (eval st b) as [y|]; [|discriminate]. simpl in H.
    destruct (IHa x eq_refl) as (p & Mp & Ap), (IHb y eq_refl) as (q & Mq & Aq).
    pose proof (agrees_meters _ _ _ Ap) as Ep. pose proof (agrees_meters _ _ _ Aq) as Eq.
    unfold py_add in H. destruct x as [x|x], y as [y|y], p as [p|p], q as [q|q]; simpl in Ap, Aq; try tauto; injection H as <-.
    + subst. eexists. split; [eapply m_add_pure; eassumption|simpl; auto].
    + eexists. split; [apply m_add; eauto|]. simpl in *. unfold meters_of in *. rewrite <- Ep, <- Eq. unfold tom, convert_to. simpl. field.
    + eexists. split; [apply m_add; eauto|]. simpl in *. unfold meters_of in *. rewrite <- Ep, <- Eq. unfold tom, convert_to. simpl. field.
    + eexists. split; [apply m_add; eauto|]. simpl in *. unfold meters_of in *. rewrite <- Ep, <- Eq. unfold tom, convert_to. simpl. field.
  - destruct (eval st a) as [x|]; [|discriminate]. destruct (eval st b) as [y|]; [|discriminate]. simpl in H.
    destruct (IHa x eq_refl) as (p & Mp & Ap), (IHb y eq_refl) as (q & Mq & Aq).
    pose proof (agrees_meters _ _ _ Ap) as Ep. pose proof (agrees_meters _ _ _ Aq) as Eq.
    unfold py_sub in H. destruct x as [x|x], y as [y|y], p as [p|p], q as [q|q]; simpl in Ap, Aq; try tauto; injection H as <-.
    + subst. eexists. split; [eapply m_sub_pure; eassumption|simpl; auto].
    + eexists. split; [apply m_sub; eauto|]. simpl in *. unfold meters_of in *. rewrite <- Ep, <- Eq. unfold tom, convert_to. simpl. field.
    + eexists. split; [apply m_sub; eauto|]. simpl in *. unfold meters_of in *. rewrite <- Ep, <- Eq. unfold tom, convert_to. simpl. field.
    + eexists. split; [apply m_sub; eauto|]. simpl in *. unfold meters_of in *. rewrite <- Ep, <- Eq. unfold tom, convert_to. simpl. field.
  - destruct (eval st a) as [x|]; [|discriminate]. simpl in H. destruct (IHa x eq_refl) as (p & Mp & Ap).
    destruct x as [x|x], p as [p|p]; simpl in Ap; try tauto; injection H as <-.
    + subst. eexists. split; [eapply m_neg_pure; eassumption|simpl; auto].
    + eexists. split; [apply m_neg; eauto|]. simpl. rewrite <- Ap. unfold tom, convert_to. simpl. field.
  - destruct (eval st a) as [x|]; [|discriminate]. destruct (eval st b) as [y|]; [|discriminate]. simpl in H.
    destruct (IHa x eq_refl) as (p & Mp & Ap), (IHb y eq_refl) as (q & Mq & Aq).
    unfold py_mul in H. destruct x as [x|x], y as [y|y], p as [p|p], q as [q|q]; simpl in Ap, Aq; try tauto; try discriminate; injection H as <-.
    + subst. eexists. split; [eapply m_mul_pure; eassumption|simpl; auto].
    + eexists. split; [apply m_mul_l; eauto|]. simpl. rewrite <- Ap, <- Aq. unfold tom, convert_to. simpl. field.
    + eexists. split; [apply m_mul_r; eauto|]. simpl. rewrite <- Ap, <- Aq. unfold tom, convert_to. simpl. field.
  - destruct (eval st a) as [x|]; [|discriminate]. destruct (eval st b) as [y|]; [|discriminate]. simpl in H.
    destruct (IHa x eq_refl) as (p & Mp & Ap), (IHb y eq_refl) as (q & Mq & Aq).
    unfold py_div in H. destruct y as [y|y].
    + destruct (Req_EM_T y 0); [discriminate|]. destruct x as [x|x], p as [p|p], q as [q|q]; simpl in Ap, Aq; try tauto; injection H as <-.
      * subst. eexists. split; [eapply m_div_pure; eassumption|simpl; auto].
      * subst. eexists. split; [apply m_div_l; eauto|]. simpl. unfold tom, convert_to. simpl. field. auto.
    + destruct x as [x|x]; [discriminate|]. destruct (Req_EM_T (tom st (Len y)) 0) as [|N]; [discriminate|]. injection H as <-.
      destruct p as [p|p], q as [q|q]; simpl in Ap, Aq; try tauto. eexists. split; [apply m_div; eauto|].
      * now rewrite <- Aq.
      * simpl. now rewrite <- Ap, <- Aq.
Qed.

Lemma means_fun k fac d e : forall p q, means k fac d e p -> means k fac d e q -> p = q.
Proof.
  induction e; intros p q Hp Hq; inversion Hp; subst; inversion Hq; subst; auto;
    repeat match goal with
    | IH : forall p q, means _ _ _ ?e p -> means _ _ _ ?e q -> p = q, H1 : means _ _ _ ?e ?x, H2 : means _ _ _ ?e ?y |- _ =>
        lazymatch x with y => fail | _ => pose proof (IH _ _ H1 H2); clear H2 end
    end; subst; auto; try congruence.
  all: repeat match goal with H : Pure _ = Pure _ |- _ => injection H as -> | H : Meters _ = Meters _ |- _ => injection H as -> end; auto; try discriminate.
  all: repeat match goal with H : _ \/ _ |- _ => destruct H as [[? ?]|[? ?]] end; subst; try discriminate.
Qed.

Lemma eval_complete st e : forall q, meaning st e q -> exists v, eval st e = Some v /\ agrees st v q.
Proof.
  intros q M. assert (exists v, eval st e = Some v) as (v & E).
  { unfold meaning in M.
    induction M as [x|f ty u|a b x y Ma IHa Mb IHb|a b p q Ma IHa Mb IHb O|a b x y Ma IHa Mb IHb|a b p q Ma IHa Mb IHb O
      |a x Ma IHa|a x Ma IHa|a b x y Ma IHa Mb IHb|a b x y Ma IHa Mb IHb|a b x y Ma IHa Mb IHb
      |a b x y Ma IHa Mb IHb N|a b x y Ma IHa Mb IHb N|a b x y Ma IHa Mb IHb N]; simpl; eauto;
    destruct IHa as (va & Ea); rewrite Ea; destruct (eval_sound _ _ _ Ea) as (qa & Ma' & Aa);
    pose proof (means_fun _ _ _ _ _ _ Ma Ma') as Qa; subst qa; simpl; try (destruct va; simpl in *; try tauto; eauto; fail);
    destruct IHb as (vb & Eb); rewrite Eb; destruct (eval_sound _ _ _ Eb) as (qb & Mb' & Ab);
    pose proof (means_fun _ _ _ _ _ _ Mb Mb') as Qb; subst qb; simpl.
    1-4: destruct va, vb; simpl; unfold py_add, py_sub; eauto.
    1-3: destruct va, vb; simpl in *; try tauto; eauto.
    all: destruct va, vb; cbn [agrees] in Aa, Ab; try tauto; unfold py_div.
    all: match goal with |- context [Req_EM_T ?r 0] => destruct (Req_EM_T r 0) as [Z0|] end; eauto; exfalso; apply N; congruence. }
  exists v. split; auto. destruct (eval_sound _ _ _ E) as (q' & M' & A). now rewrite (means_fun _ _ _ _ _ _ M M').
Qed.

(** C01: a length expression has a value exactly if it has a physical meaning, and
    the conversion of the value is the one computed from the conversions of the parts. *)
Theorem length_arithmetic : forall st e,
  (forall v, eval st e = Some v -> exists q, meaning st e q /\ (forall u, convert_to st v u = meters_of st q / meters u) /\
     (forall x, v = Num x <-> q = Pure x)) /\
  (forall q, meaning st e q -> exists v, eval st e = Some v) /\
  (forall p q, meaning st e p -> meaning st e q -> p = q).
Proof.
  intros st e. split; [|split].
  - intros v E. destruct (eval_sound _ _ _ E) as (q & M & A). exists q. split; auto. split.
    + intros u. rewrite <- (agrees_meters _ _ _ A). unfold tom, convert_to. pose proof (meters_pos u).
      destruct v; simpl; field; lra.
    + intros x. destruct v as [y|l], q as [y'|m]; simpl in A; split; intros E'; try discriminate; try tauto; congruence.
  - intros q M. destruct (eval_complete _ _ _ M) as (v & E & _). eauto.
  - intros p q. apply means_fun.
Qed.
Print Assumptions length_arithmetic.

(** C01: comparisons agree with the conversions, in every unit. *)
Theorem length_comparison : forall st a b u,
  (py_lt st a b = true <-> convert_to st a u < convert_to st b u) /\ (py_eq st a b = true <-> convert_to st a u = convert_to st b u) /\
  (py_le st a b = true <-> convert_to st a u <= convert_to st b u) /\ (py_gt st a b = true <-> convert_to st a u > convert_to st b u) /\
  (py_ge st a b = true <-> convert_to st a u >= convert_to st b u).
Proof.
  intros st a b u.
  assert (forall v, convert_to st v u = tom st v / meters u) as C.
  { intros v. pose proof (meters_pos u). unfold tom, convert_to. destruct v; simpl; field; lra. }
  rewrite !C. pose proof (Rinv_0_lt_compat _ (meters_pos u)) as P.
  assert (forall x y, x < y <-> x / meters u < y / meters u) as L.
  { intros x y. unfold Rdiv. split; intros H; [now apply Rmult_lt_compat_r|now apply Rmult_lt_reg_r in H]. }
  assert (forall x y, x = y <-> x / meters u = y / meters u) as Q.
  { intros x y. unfold Rdiv. split; intros H; [now subst|apply Rmult_eq_reg_r in H; lra]. }
  set (x := tom st a) in *. set (y := tom st b) in *. specialize (L x y) as L1. specialize (L y x) as L2. specialize (Q x y).
  unfold py_ge, py_gt, py_le, py_lt, py_eq. fold x y. set (x' := x / meters u) in *. set (y' := y / meters u) in *.
  destruct (Rlt_dec x y), (Req_EM_T x y); simpl; repeat split; intros; try discriminate; auto; try tauto; try lra.
  all: destruct (Rtotal_order x' y') as [G|[G|G]]; try tauto; try lra.
Qed.
Print Assumptions length_comparison.

(** a non-trivial expression: (3 cm - 1) * 2 / 4 + 72 pt of visual length, with visual
    scale 2, is 1 cm + 2 inch *)
Example length_arithmetic_ex : let st := run_sets initial [mkset None (Some 2) None None None] in
  exists v, eval st (EAdd (EDiv (EMul (ESub (ELen 3 Tu (Some Ucm)) (ENum 1)) (ENum 2)) (ENum 4)) (ELen 72 Tv (Some Upt))) = Some v
    /\ tocm st v = 1 + 2 * (254 / 100).
Proof.
  simpl. destruct (Req_EM_T 4 0); [lra|]. simpl. eexists. split; [reflexivity|].
  unfold tocm, convert_to. simpl. field.
Qed.
Example length_comparison_ex : py_lt initial (Num 1) (Len (new_length initial 1 Tt (Some Uinch))) = true.
Proof. unfold py_lt, tom, convert_to. simpl. destruct (Rlt_dec _ _); auto. lra. Qed.

(** C02: the factors after any history of unit.set calls are the last ones given. *)
Theorem scales_follow_history : forall calls, let st := run_sets initial calls in
  scale_u st = last_given set_u 1 (rev calls) /\ scale_v st = last_given set_v 1 (rev calls) /\
  scale_w st = last_given set_w 1 (rev calls) /\ scale_x st = last_given set_x 1 (rev calls) /\
  default_unit st = last_given set_unit Ucm (rev calls).
Proof.
  intros calls st. subst st. induction calls as [|c calls IH] using rev_ind; [simpl; auto|].
  rewrite rev_app_distr. unfold run_sets in *. rewrite fold_left_app. simpl.
  destruct IH as (-> & -> & -> & -> & ->). unfold assign.
  destruct (set_u c), (set_v c), (set_w c), (set_x c), (set_unit c); simpl; auto.
Qed.
Print Assumptions scales_follow_history.

(** C02: conversion of a length of one kind, created in any state [st0] and converted in
    any state reached by a history of unit.set calls. *)
Theorem kind_scales_alone : forall st0 calls f ty u0 u, let st := run_sets initial calls in
  let plain := f * meters (match u0 with Some v => v | None => default_unit st0 end) / meters u in
  convert_to st (Len (new_length st0 f ty u0)) u =
  match ty with
  | Tt => plain
  | Tu => last_given set_u 1 (rev calls) * plain
  | Tv => last_given set_v 1 (rev calls) * plain
  | Tw => last_given set_w 1 (rev calls) * plain
  | Tx => last_given set_x 1 (rev calls) * plain
  | Tother => 0
  end.
Proof.
  intros st0 calls f ty u0 u st plain. subst plain. destruct (scales_follow_history calls) as (E1 & E2 & E3 & E4 & _). fold st in E1, E2, E3, E4.
  rewrite <- E1, <- E2, <- E3, <- E4. pose proof (meters_pos u). destruct ty; simpl; unfold assign; field; lra.
Qed.
Print Assumptions kind_scales_alone.

(** C02: lengths made of true parts only convert independently of all unit.set calls. *)
Theorem true_lengths_fixed : forall l u calls1 calls2, lu l = 0 -> lv l = 0 -> lw l = 0 -> lx l = 0 ->
  convert_to (run_sets initial calls1) (Len l) u = convert_to (run_sets initial calls2) (Len l) u.
Proof.
  intros l u c1 c2 H1 H2 H3 H4. simpl. rewrite H1, H2, H3, H4. pose proof (meters_pos u). field. lra.
Qed.
Print Assumptions true_lengths_fixed.

Example scales_ex : let st := run_sets initial [mkset (Some 2) None None None None; mkset None (Some 3) None None (Some Umm); mkset (Some 5) None None None None] in
  scale_u st = 5 /\ scale_v st = 3 /\ default_unit st = Umm /\ tomm st (Len (new_length st 2 Tu None)) = 10 /\ tomm st (Num 2) = 10 /\
  tomm st (Len (new_length st 2 Tt None)) = 2.
Proof. unfold tomm, convert_to; simpl; repeat split; field. Qed.

(** C02: the units: x inch are 2.54 x cm, 25.4 x mm, 72 x PostScript points. *)
Theorem inch_in_units : forall st x, let l := Len (new_length st x Tt (Some Uinch)) in
  toinch st l = x /\ tocm st l = 254 / 100 * x /\ tomm st l = 254 / 10 * x /\ tom st l = 254 / 10000 * x /\ topt st l = 72 * x.
Proof. intros st x l. subst l. unfold toinch, tocm, tomm, tom, topt. simpl. repeat split; field. Qed.
Print Assumptions inch_in_units.
Example inch_in_units_ex : topt initial (Len (new_length initial 1 Tt (Some Uinch))) = 72.
Proof. pose proof (inch_in_units initial 1) as H. simpl in H. destruct H as (_ & _ & _ & _ & H). unfold topt, initial in *. simpl in *. rewrite H. ring. Qed.
