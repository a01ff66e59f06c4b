(** Color gradients: the colors of all gradients are valid, linear gradients go from one color to the other, reversed gradients are reversed, and
    gradients are continuous.  C135. *)
From Coq Require Import Reals List ZArith Lia.
From Verif Require Import ColorModel ColorProps GradientModel.
From Coq Require Import Lra.
Import ListNotations.
Open Scope R_scope.

Ltac positive := repeat (first [lra | apply pow_le | apply Rmult_le_pos | apply Rplus_le_le_0_compat]).
Definition byq (t : R) : R := 1 * t ^ 0 + 1 * t ^ 1 - 1 * t ^ 2 - 3 * t ^ 3 + (7 / 5) * t ^ 4 + (12 / 5) * t ^ 5 - (59 / 10) * t ^ 6 - (59 / 10) * t ^ 7 + (15 / 2) * t ^ 8 + (15 / 2) * t ^ 9 - 2 * t ^ 10 - 2 * t ^ 11.
Lemma byq_0 : forall t, 0 <= t <= (1 / 2) -> 0 <= byq t.
Proof.
  intros t [L H]. replace (byq t) with (1 * (2 * (t - 0)) ^ 0 * (2 * ((1 / 2) - t)) ^ 11 +
    (23 / 2) * (2 * (t - 0)) ^ 1 * (2 * ((1 / 2) - t)) ^ 10 +
    (239 / 4) * (2 * (t - 0)) ^ 2 * (2 * ((1 / 2) - t)) ^ 9 +
    (1479 / 8) * (2 * (t - 0)) ^ 3 * (2 * ((1 / 2) - t)) ^ 8 +
    (30247 / 80) * (2 * (t - 0)) ^ 4 * (2 * ((1 / 2) - t)) ^ 7 +
    (8579 / 16) * (2 * (t - 0)) ^ 5 * (2 * ((1 / 2) - t)) ^ 6 +
    (68825 / 128) * (2 * (t - 0)) ^ 6 * (2 * ((1 / 2) - t)) ^ 5 +
    (487591 / 1280) * (2 * (t - 0)) ^ 7 * (2 * ((1 / 2) - t)) ^ 4 +
    (477403 / 2560) * (2 * (t - 0)) ^ 8 * (2 * ((1 / 2) - t)) ^ 3 +
    (306517 / 5120) * (2 * (t - 0)) ^ 9 * (2 * ((1 / 2) - t)) ^ 2 +
    (28883 / 2560) * (2 * (t - 0)) ^ 10 * (2 * ((1 / 2) - t)) ^ 1 +
    (2407 / 2560) * (2 * (t - 0)) ^ 11 * (2 * ((1 / 2) - t)) ^ 0)
    by (unfold byq; field).
  assert (0 <= t - 0) as A by lra. assert (0 <= (1 / 2) - t) as B by lra. positive.
Qed.
Lemma byq_1 : forall t, (1 / 2) <= t <= (3 / 4) -> 0 <= byq t.
Proof.
  intros t [L H]. replace (byq t) with ((2407 / 2560) * (4 * (t - (1 / 2))) ^ 0 * (4 * ((3 / 4) - t)) ^ 11 +
    (12637 / 1280) * (4 * (t - (1 / 2))) ^ 1 * (4 * ((3 / 4) - t)) ^ 10 +
    (956467 / 20480) * (4 * (t - (1 / 2))) ^ 2 * (4 * ((3 / 4) - t)) ^ 9 +
    (5372293 / 40960) * (4 * (t - (1 / 2))) ^ 3 * (4 * ((3 / 4) - t)) ^ 8 +
    (4965727 / 20480) * (4 * (t - (1 / 2))) ^ 4 * (4 * ((3 / 4) - t)) ^ 7 +
    (6327869 / 20480) * (4 * (t - (1 / 2))) ^ 5 * (4 * ((3 / 4) - t)) ^ 6 +
    (45221351 / 163840) * (4 * (t - (1 / 2))) ^ 6 * (4 * ((3 / 4) - t)) ^ 5 +
    (56392429 / 327680) * (4 * (t - (1 / 2))) ^ 7 * (4 * ((3 / 4) - t)) ^ 4 +
    (47843919 / 655360) * (4 * (t - (1 / 2))) ^ 8 * (4 * ((3 / 4) - t)) ^ 3 +
    (6532399 / 327680) * (4 * (t - (1 / 2))) ^ 9 * (4 * ((3 / 4) - t)) ^ 2 +
    (16420631 / 5242880) * (4 * (t - (1 / 2))) ^ 10 * (4 * ((3 / 4) - t)) ^ 1 +
    (2240089 / 10485760) * (4 * (t - (1 / 2))) ^ 11 * (4 * ((3 / 4) - t)) ^ 0)
    by (unfold byq; field).
  assert (0 <= t - (1 / 2)) as A by lra. assert (0 <= (3 / 4) - t) as B by lra. positive.
Qed.
Lemma byq_2 : forall t, (3 / 4) <= t <= (7 / 8) -> 0 <= byq t.
Proof.
  intros t [L H]. replace (byq t) with ((2240089 / 10485760) * (8 * (t - (3 / 4))) ^ 0 * (8 * ((7 / 8) - t)) ^ 11 +
    (8216335 / 4194304) * (8 * (t - (3 / 4))) ^ 1 * (8 * ((7 / 8) - t)) ^ 10 +
    (332642963 / 41943040) * (8 * (t - (3 / 4))) ^ 2 * (8 * ((7 / 8) - t)) ^ 9 +
    (1557375417 / 83886080) * (8 * (t - (3 / 4))) ^ 3 * (8 * ((7 / 8) - t)) ^ 8 +
    (2316147877 / 83886080) * (8 * (t - (3 / 4))) ^ 4 * (8 * ((7 / 8) - t)) ^ 7 +
    (4523109647 / 167772160) * (8 * (t - (3 / 4))) ^ 5 * (8 * ((7 / 8) - t)) ^ 6 +
    (5792712059 / 335544320) * (8 * (t - (3 / 4))) ^ 6 * (8 * ((7 / 8) - t)) ^ 5 +
    (956342557 / 134217728) * (8 * (t - (3 / 4))) ^ 7 * (8 * ((7 / 8) - t)) ^ 4 +
    (5321230381 / 2684354560) * (8 * (t - (3 / 4))) ^ 8 * (8 * ((7 / 8) - t)) ^ 3 +
    (2871247879 / 5368709120) * (8 * (t - (3 / 4))) ^ 9 * (8 * ((7 / 8) - t)) ^ 2 +
    (376075195 / 2147483648) * (8 * (t - (3 / 4))) ^ 10 * (8 * ((7 / 8) - t)) ^ 1 +
    (137069041 / 4294967296) * (8 * (t - (3 / 4))) ^ 11 * (8 * ((7 / 8) - t)) ^ 0)
    by (unfold byq; field).
  assert (0 <= t - (3 / 4)) as A by lra. assert (0 <= (7 / 8) - t) as B by lra. positive.
Qed.
Lemma byq_3 : forall t, (7 / 8) <= t <= 1 -> 0 <= byq t.
Proof.
  intros t [L H]. replace (byq t) with ((137069041 / 4294967296) * (8 * (t - (7 / 8))) ^ 0 * (8 * (1 - t)) ^ 11 +
    (35365133 / 67108864) * (8 * (t - (7 / 8))) ^ 1 * (8 * (1 - t)) ^ 10 +
    (5440368601 / 1342177280) * (8 * (t - (7 / 8))) ^ 2 * (8 * (1 - t)) ^ 9 +
    (306156503 / 16777216) * (8 * (t - (7 / 8))) ^ 3 * (8 * (1 - t)) ^ 8 +
    (1107457919 / 20971520) * (8 * (t - (7 / 8))) ^ 4 * (8 * (1 - t)) ^ 7 +
    (6767525 / 65536) * (8 * (t - (7 / 8))) ^ 5 * (8 * (1 - t)) ^ 6 +
    (45828791 / 327680) * (8 * (t - (7 / 8))) ^ 6 * (8 * (1 - t)) ^ 5 +
    (269939 / 2048) * (8 * (t - (7 / 8))) ^ 7 * (8 * (1 - t)) ^ 4 +
    (435459 / 5120) * (8 * (t - (7 / 8))) ^ 8 * (8 * (1 - t)) ^ 3 +
    (1149 / 32) * (8 * (t - (7 / 8))) ^ 9 * (8 * (1 - t)) ^ 2 +
    (179 / 20) * (8 * (t - (7 / 8))) ^ 10 * (8 * (1 - t)) ^ 1 +
    1 * (8 * (t - (7 / 8))) ^ 11 * (8 * (1 - t)) ^ 0)
    by (unfold byq; field).
  assert (0 <= t - (7 / 8)) as A by lra. assert (0 <= 1 - t) as B by lra. positive.
Qed.

Lemma byq_pos : forall t, 0 <= t <= 1 -> 0 <= byq t.
Proof.
  intros t [L H]. destruct (Rle_lt_dec t (1 / 2)); [apply byq_0; lra|]. destruct (Rle_lt_dec t (3 / 4)); [apply byq_1; lra|].
  destruct (Rle_lt_dec t (7 / 8)); [apply byq_2; lra|]. apply byq_3; lra.
Qed.
Lemma by_r_unit : forall x, unit x -> unit (by_r x).
Proof.
  intros x [L H]. unfold unit, by_r. pose proof (sqrt_pos x) as P. pose proof (sqrt_sqrt x L) as Q. set (t := sqrt x) in *.
  assert (t <= 1) as T by (unfold t; rewrite <- sqrt_1; apply sqrt_le_1_alt; exact H).
  replace 3.5 with (7 / 2) by lra. replace 2.1 with (21 / 10) by lra. replace 3.0 with 3 by lra. split.
  - assert (0 <= 1 - x) as Y by lra. assert (0 <= 1 - (1 - x) ^ 2) as Z by (simpl; nra). positive.
  - assert (0 <= (1 - t) * byq t) as B by (apply Rmult_le_pos; [lra|apply byq_pos; lra]).
    assert ((1 - t) * byq t = 1 - (2 * (t * t) * (1 - t * t) ^ 5 + 7 / 2 * (t * t) ^ 2 * (1 - t * t) ^ 3 + 21 / 10 * (t * t) * (t * t) * (1 - t * t) ^ 2 + 3 * (t * t) ^ 3 * (1 - t * t) ^ 2 + t * (1 - (1 - t * t) ^ 2))) as E
      by (unfold byq; field).
    rewrite Q in E. lra.
Qed.
Lemma by_g_unit : forall x, unit x -> unit (by_g x).
Proof.
  intros x [L H]. unfold unit, by_g. replace 1.5 with (3 / 2) by lra. replace 0.8 with (4 / 5) by lra. replace 2.0 with 2 by lra.
  assert (0 <= 1 - x) as Y by lra. split.
  - replace (3 / 2 * x ^ 2 * (1 - x) ^ 3 - 4 / 5 * x ^ 3 * (1 - x) ^ 2 + 2 * x ^ 4 * (1 - x) + x ^ 4)
      with (3 / 2 * x ^ 2 * (1 - x) ^ 4 + 7 / 10 * x ^ 3 * (1 - x) ^ 3 + 11 / 5 * x ^ 4 * (1 - x) ^ 2 + 4 * x ^ 5 * (1 - x) + x ^ 6) by field.
    positive.
  - assert (0 <= (1 - x) ^ 5 + 5 * x * (1 - x) ^ 4 + 17 / 2 * x ^ 2 * (1 - x) ^ 3 + 54 / 5 * x ^ 3 * (1 - x) ^ 2 + 2 * x ^ 4 * (1 - x)) as B by positive.
    replace ((1 - x) ^ 5 + 5 * x * (1 - x) ^ 4 + 17 / 2 * x ^ 2 * (1 - x) ^ 3 + 54 / 5 * x ^ 3 * (1 - x) ^ 2 + 2 * x ^ 4 * (1 - x))
      with (1 - (3 / 2 * x ^ 2 * (1 - x) ^ 3 - 4 / 5 * x ^ 3 * (1 - x) ^ 2 + 2 * x ^ 4 * (1 - x) + x ^ 4)) in B by field. lra.
Qed.
Lemma by_b_unit : forall x, unit x -> unit (by_b x).
Proof.
  intros x [L H]. unfold unit, by_b. replace 0.5 with (1 / 2) by lra. replace 0.3 with (3 / 10) by lra.
  assert (0 <= 1 - x) as Y by lra. split.
  - replace (5 * x * (1 - x) ^ 5 - 1 / 2 * x ^ 2 * (1 - x) ^ 3 + 3 / 10 * x * x * (1 - x) ^ 2 + 5 * x ^ 3 * (1 - x) ^ 2 + 1 / 2 * x ^ 6)
      with (5 * x * (1 - x) ^ 6 + 24 / 5 * x ^ 2 * (1 - x) ^ 5 + 49 / 10 * x ^ 3 * (1 - x) ^ 4 + 52 / 5 * x ^ 4 * (1 - x) ^ 3 + 53 / 10 * x ^ 5 * (1 - x) ^ 2 + 1 / 2 * x ^ 6 * (1 - x) + 1 / 2 * x ^ 7) by field.
    positive.
  - assert (0 <= (1 - x) ^ 6 + x * (1 - x) ^ 5 + 76 / 5 * x ^ 2 * (1 - x) ^ 4 + 149 / 10 * x ^ 3 * (1 - x) ^ 3 + 97 / 10 * x ^ 4 * (1 - x) ^ 2 + 6 * x ^ 5 * (1 - x) + 1 / 2 * x ^ 6) as B by positive.
    replace ((1 - x) ^ 6 + x * (1 - x) ^ 5 + 76 / 5 * x ^ 2 * (1 - x) ^ 4 + 149 / 10 * x ^ 3 * (1 - x) ^ 3 + 97 / 10 * x ^ 4 * (1 - x) ^ 2 + 6 * x ^ 5 * (1 - x) + 1 / 2 * x ^ 6)
      with (1 - (5 * x * (1 - x) ^ 5 - 1 / 2 * x ^ 2 * (1 - x) ^ 3 + 3 / 10 * x * x * (1 - x) ^ 2 + 5 * x ^ 3 * (1 - x) ^ 2 + 1 / 2 * x ^ 6)) in B by field. lra.
Qed.
Lemma yb_is_by : forall x, yb_r x = by_r (1 - x) /\ yb_g x = by_g (1 - x) /\ yb_b x = by_b (1 - x).
Proof.
  intros x. unfold yb_r, yb_g, yb_b, by_r, by_g, by_b. replace (1 - (1 - x)) with x by ring. split; [|split]; ring.
Qed.
Ltac jet := unfold jet_r, jet_g, jet_b, below; repeat match goal with |- context [Rlt_dec ?a ?b] => destruct (Rlt_dec a b) end.
Lemma jet_unit : forall x, unit x -> unit (jet_r x) /\ unit (jet_g x) /\ unit (jet_b x).
Proof. intros x [L H]. unfold unit. jet; lra. Qed.
Lemma mix_unit : forall a b x, unit a -> unit b -> unit x -> unit (mix a b x).
Proof. intros a b x [A A'] [B B'] [X X']. unfold unit, mix. split; nra. Qed.
Lemma unit_rev : forall x, unit x -> unit (1 - x).
Proof. unfold unit. intros x H. lra. Qed.

(** two colors of the same class *)
Definition same_class (a b : color) : Prop :=
  match a, b with Gray _, Gray _ | RGB _ _ _, RGB _ _ _ | HSB _ _ _, HSB _ _ _ | CMYK _ _ _ _, CMYK _ _ _ _ => True | _, _ => False end.
Definition components (c : color) : list R := match c with Gray g => [g] | RGB r g b => [r; g; b] | HSB h s b => [h; s; b] | CMYK c m y k => [c; m; y; k] end.
Lemma linear_color : forall a b x, same_class a b -> valid a -> valid b -> unit x ->
  exists c, linear a b x = Some c /\ valid c /\ same_class c a /\
    forall i u v w, nth_error (components a) i = Some u -> nth_error (components b) i = Some v -> nth_error (components c) i = Some w -> w = u + x * (v - u).
Proof.
  intros a b x S A B X. destruct a as [a1|a1 a2 a3|a1 a2 a3|a1 a2 a3 a4], b as [b1|b1 b2 b3|b1 b2 b3|b1 b2 b3 b4]; try contradiction; simpl in A, B; unfold linear, function_gray, function_rgb, function_hsb, function_cmyk.
  - rewrite gray_ok by (apply mix_unit; tauto). eexists. split; [reflexivity|]. split; [apply mix_unit; tauto|]. split; [exact I|].
    intros i u v w. destruct i as [|i]; [|destruct i; discriminate]. intros U V W. injection U as <-. injection V as <-. injection W as <-. unfold mix. ring.
  - rewrite rgb_ok by (apply mix_unit; tauto). eexists. split; [reflexivity|]. split; [simpl; split; [|split]; apply mix_unit; tauto|]. split; [exact I|].
    intros i u v w. do 3 (destruct i as [|i]; [intros U V W; injection U as <-; injection V as <-; injection W as <-; unfold mix; ring|]). destruct i; discriminate.
  - rewrite hsb_ok by (apply mix_unit; tauto). eexists. split; [reflexivity|]. split; [simpl; split; [|split]; apply mix_unit; tauto|]. split; [exact I|].
    intros i u v w. do 3 (destruct i as [|i]; [intros U V W; injection U as <-; injection V as <-; injection W as <-; unfold mix; ring|]). destruct i; discriminate.
  - rewrite cmyk_ok by (apply mix_unit; tauto). eexists. split; [reflexivity|]. split; [simpl; split; [|split; [|split]]; apply mix_unit; tauto|]. split; [exact I|].
    intros i u v w. do 4 (destruct i as [|i]; [intros U V W; injection U as <-; injection V as <-; injection W as <-; unfold mix; ring|]). destruct i; discriminate.
Qed.

(** the gradient between two valid colors of the same class: the first color comes first, the second last, and in between each component changes evenly;
    when several colors are selected, the first and the last are the two colors *)
Theorem linear_gradient : forall a b, same_class a b -> valid a -> valid b ->
  linear a b 0 = Some a /\ linear a b 1 = Some b /\
  (forall x, 0 <= x <= 1 -> exists c, linear a b x = Some c /\ valid c /\ same_class c a /\
    forall i u v w, nth_error (components a) i = Some u -> nth_error (components b) i = Some v -> nth_error (components c) i = Some w -> w = u + x * (v - u)) /\
  (forall n, (1 <= n)%nat -> select (linear a b) 0 n = Some a) /\ (forall n, (2 <= n)%nat -> select (linear a b) (n - 1) n = Some b).
Proof.
  intros a b S A B.
  assert (linear a b 0 = Some a) as E0.
  { destruct a as [a1|a1 a2 a3|a1 a2 a3|a1 a2 a3 a4], b as [b1|b1 b2 b3|b1 b2 b3|b1 b2 b3 b4]; try contradiction; simpl in A, B; unfold linear, function_gray, function_rgb, function_hsb, function_cmyk, mix;
      rewrite ?Rmult_0_r, ?Rminus_0_r, ?Rmult_1_r, ?Rplus_0_l; first [apply gray_ok | apply rgb_ok | apply hsb_ok | apply cmyk_ok]; tauto. }
  assert (linear a b 1 = Some b) as E1.
  { destruct a as [a1|a1 a2 a3|a1 a2 a3|a1 a2 a3 a4], b as [b1|b1 b2 b3|b1 b2 b3|b1 b2 b3 b4]; try contradiction; simpl in A, B; unfold linear, function_gray, function_rgb, function_hsb, function_cmyk, mix;
      replace (1 - 1) with 0 by ring; rewrite ?Rmult_1_r, ?Rmult_0_r, ?Rplus_0_r; first [apply gray_ok | apply rgb_ok | apply hsb_ok | apply cmyk_ok]; tauto. }
  split; [exact E0|]. split; [exact E1|]. split; [intros x X; now apply linear_color|]. split.
  - intros n N. unfold select. destruct (Nat.eqb_spec n 1); [exact E0|]. simpl. unfold Rdiv. rewrite Rmult_0_l. exact E0.
  - intros n N. unfold select. destruct (Nat.eqb_spec n 1); [lia|]. rewrite minus_INR by lia. simpl (INR 1).
    replace ((INR n - 1) / (INR n - 1)) with 1; [exact E1|]. assert (2 <= INR n) by (replace 2 with (INR 2) by (simpl; lra); apply le_INR; lia). field. lra.
Qed.
Print Assumptions linear_gradient.

(** the gradients with names *)
Definition rgb_hsb_names : list gradient :=
  [gGray; gReverseGray; gBlackYellow; gYellowBlack; gRedGreen; gRedBlue; gGreenRed; gGreenBlue; gBlueRed; gBlueGreen; gRedBlack; gBlackRed; gRedWhite; gWhiteRed;
   gGreenBlack; gBlackGreen; gGreenWhite; gWhiteGreen; gBlueBlack; gBlackBlue; gBlueWhite; gWhiteBlue; gRainbow; gReverseRainbow; gHue; gReverseHue; gJet; gReverseJet].
Lemma names_valid : forall g x, In g rgb_hsb_names -> unit x -> exists c, g x = Some c /\ valid c.
Proof.
  intros g x I X.
  assert (forall a b, same_class a b -> valid a -> valid b -> g = linear a b -> exists c, g x = Some c /\ valid c) as LIN.
  { intros a b S A B ->. destruct (linear_color a b x S A B X) as (c & E & V & _). exists c. split; assumption. }
  assert (forall r h b, unit (r x) -> unit (h x) -> unit (b x) -> g = function_rgb r h b -> exists c, g x = Some c /\ valid c) as FUN.
  { intros r h b U V W ->. unfold function_rgb. rewrite rgb_ok by assumption. eexists. split; [reflexivity|]. simpl. tauto. }
  pose proof (unit_rev x X) as XR.
  simpl in I. repeat (destruct I as [<-|I]); try contradiction;
    try (eapply LIN; [| | |reflexivity]; simpl; unfold unit; lra).
  - eapply FUN; [| | |reflexivity]; [apply by_r_unit|apply by_g_unit|apply by_b_unit]; exact X.
  - destruct (yb_is_by x) as (E1 & E2 & E3). eapply FUN; [| | |reflexivity]; [rewrite E1; apply by_r_unit|rewrite E2; apply by_g_unit|rewrite E3; apply by_b_unit]; exact XR.
  - eapply FUN; [| | |reflexivity]; apply jet_unit; exact X.
  - eapply FUN; [| | |reflexivity]; cbv beta; apply jet_unit; exact XR.
Qed.

(** all colors of all gradients with names are valid: no parameter from 0 to 1 gives an error, also after conversion to rgb and cmyk, and so does no selection *)
Theorem gradients_valid : forall d g x, (forall k, unit k -> unit (bg d k)) -> In g rgb_hsb_names -> 0 <= x <= 1 ->
  (exists c, g x = Some c /\ valid c) /\ (exists c, rgbgradient g x = Some c /\ valid c) /\ (exists c, cmykgradient d g x = Some c /\ valid c) /\
  forall i n, (i < n)%nat -> exists c, select g i n = Some c /\ valid c.
Proof.
  intros d g x D I X. destruct (names_valid g x I X) as (c & E & V). destruct (conversions_total d c V D) as ((r & R1 & R2) & _ & _ & (k & K1 & K2)).
  split; [exists c; split; assumption|]. split; [exists r; unfold rgbgradient; rewrite E; split; assumption|].
  split; [exists k; unfold cmykgradient; rewrite E; split; assumption|].
  intros i n L. apply names_valid; [exact I|]. unfold unit. destruct (Nat.eqb_spec n 1); [lra|].
  assert (2 <= INR n) as N by (replace 2 with (INR 2) by (simpl; lra); apply le_INR; lia).
  assert (INR i <= INR n - 1) as J by (apply le_INR in L; rewrite S_INR in L; lra).
  pose proof (pos_INR i) as P. split; [apply Rmult_le_pos; [exact P|apply Rlt_le, Rinv_0_lt_compat; lra]|].
  apply (Rmult_le_reg_r (INR n - 1)); [lra|]. unfold Rdiv. rewrite Rmult_assoc, Rinv_l by lra. lra.
Qed.
Print Assumptions gradients_valid.

(** gradients with opposite names have the same colors in the opposite order *)
Theorem gradients_reversed : forall x,
  gReverseGray x = gGray (1 - x) /\ gYellowBlack x = gBlackYellow (1 - x) /\ gGreenRed x = gRedGreen (1 - x) /\ gBlueRed x = gRedBlue (1 - x) /\
  gBlueGreen x = gGreenBlue (1 - x) /\ gBlackRed x = gRedBlack (1 - x) /\ gWhiteRed x = gRedWhite (1 - x) /\ gBlackGreen x = gGreenBlack (1 - x) /\
  gWhiteGreen x = gGreenWhite (1 - x) /\ gBlackBlue x = gBlueBlack (1 - x) /\ gWhiteBlue x = gBlueWhite (1 - x) /\
  gReverseRainbow x = gRainbow (1 - x) /\ gReverseHue x = gHue (1 - x) /\ gReverseJet x = gJet (1 - x).
Proof.
  intros x. assert (forall a b, mix a b x = mix b a (1 - x)) as M by (intros a b; unfold mix; ring).
  destruct (yb_is_by x) as (E1 & E2 & E3).
  unfold gReverseGray, gGray, gYellowBlack, gBlackYellow, gGreenRed, gRedGreen, gBlueRed, gRedBlue, gBlueGreen, gGreenBlue, gBlackRed, gRedBlack, gWhiteRed, gRedWhite,
    gBlackGreen, gGreenBlack, gWhiteGreen, gGreenWhite, gBlackBlue, gBlueBlack, gWhiteBlue, gBlueWhite, gReverseRainbow, gRainbow, gReverseHue, gHue, gReverseJet, gJet,
    linear, red, green, blue, black, white, function_gray, function_rgb, function_hsb.
  rewrite E1, E2, E3. repeat split; rewrite ?(M 0 0), ?(M 0 1), ?(M 1 0), ?(M 1 1), ?(M (2.0 / 3.0) 0); reflexivity.
Qed.
Print Assumptions gradients_reversed.

(** the jet gradient is continuous: its components change at most with the slope 5 *)
Theorem jet_continuous : forall x y, 0 <= x <= 1 -> 0 <= y <= 1 ->
  Rabs (jet_r x - jet_r y) <= 5 * Rabs (x - y) /\ Rabs (jet_g x - jet_g y) <= 5 * Rabs (x - y) /\ Rabs (jet_b x - jet_b y) <= 5 * Rabs (x - y).
Proof.
  intros x y X Y. split; [|split].
  - unfold Rabs. destruct (Rcase_abs (x - y)); destruct (Rcase_abs (jet_r x - jet_r y)) as [H|H]; revert H; jet; lra.
  - unfold Rabs. destruct (Rcase_abs (x - y)); destruct (Rcase_abs (jet_g x - jet_g y)) as [H|H]; revert H; jet; lra.
  - unfold Rabs. destruct (Rcase_abs (x - y)); destruct (Rcase_abs (jet_b x - jet_b y)) as [H|H]; revert H; jet; lra.
Qed.
Print Assumptions jet_continuous.

(** the ends of the gradients given by functions are what their names say *)
Theorem named_ends : gBlackYellow 0 = Some (RGB 0 0 0) /\ gBlackYellow 1 = Some (RGB 1 1 0.5) /\ gJet 0 = Some (RGB 0 0 0.5) /\ gJet 1 = Some (RGB 0.5 0 0) /\
  rgbgradient gRainbow 0 = Some red /\ rgbgradient gRainbow (1 / 2) = Some green /\ rgbgradient gRainbow 1 = Some blue /\
  rgbgradient gHue 0 = Some red /\ rgbgradient gHue 1 = Some red.
Proof.
  assert (forall h i f, (0 <= i <= 5)%Z -> 0 <= f <= 1 -> h = (IZR i + f) / 6 -> unit h -> rgbgradient (fun _ => new_hsb h 1 1) 0 = Some (let '(r, g, b) := sector i f 1 1 in RGB r g b)) as HS.
  { intros h i f I F E U. unfold rgbgradient. rewrite hsb_ok; [|exact U|unfold unit; lra|unfold unit; lra]. simpl option_bind. rewrite E, hsv_sector by (auto; lra).
    assert (i = 0 \/ i = 1 \/ i = 2 \/ i = 3 \/ i = 4 \/ i = 5)%Z as C by lia.
    destruct C as [->|[->|[->|[->|[->| ->]]]]]; unfold sector; apply rgb_ok; unfold unit; lra. }
  assert (forall h0 h1 x, rgbgradient (linear (HSB h0 1 1) (HSB h1 1 1)) x = rgbgradient (fun _ => new_hsb (mix h0 h1 x) 1 1) 0) as RB.
  { intros h0 h1 x. unfold rgbgradient, linear, function_hsb. replace (mix 1 1 x) with 1 by (unfold mix; ring). reflexivity. }
  unfold gRainbow, gHue. rewrite !RB.
  assert (sqrt 0 = 0) as S0 by apply sqrt_0. assert (sqrt 1 = 1) as S1 by apply sqrt_1.
  split; [|split; [|split; [|split]]].
  - unfold gBlackYellow, function_rgb. replace (by_r 0) with 0 by (unfold by_r; rewrite S0; lra). replace (by_g 0) with 0 by (unfold by_g; lra). replace (by_b 0) with 0 by (unfold by_b; lra). apply rgb_ok; unfold unit; lra.
  - unfold gBlackYellow, function_rgb. replace (by_r 1) with 1 by (unfold by_r; rewrite S1; lra). replace (by_g 1) with 1 by (unfold by_g; lra). replace (by_b 1) with 0.5 by (unfold by_b; lra). apply rgb_ok; unfold unit; lra.
  - unfold gJet, function_rgb. replace (jet_r 0) with 0 by (jet; lra). replace (jet_g 0) with 0 by (jet; lra). replace (jet_b 0) with 0.5 by (jet; lra). apply rgb_ok; unfold unit; lra.
  - unfold gJet, function_rgb. replace (jet_r 1) with 0.5 by (jet; lra). replace (jet_g 1) with 0 by (jet; lra). replace (jet_b 1) with 0 by (jet; lra). apply rgb_ok; unfold unit; lra.
  - assert (forall a b c a' b' c', a = a' -> b = b' -> c = c' -> Some (RGB a b c) = Some (RGB a' b' c')) as EQ by (intros; subst; reflexivity).
    split; [|split; [|split; [|split]]].
    + rewrite (HS _ 0%Z 0); [apply EQ; lra|lia|lra|unfold mix; lra|unfold unit, mix; lra].
    + rewrite (HS _ 2%Z 0); [apply EQ; lra|lia|lra|unfold mix; lra|unfold unit, mix; lra].
    + rewrite (HS _ 4%Z 0); [apply EQ; lra|lia|lra|unfold mix; lra|unfold unit, mix; lra].
    + rewrite (HS _ 0%Z 0); [apply EQ; lra|lia|lra|unfold mix; lra|unfold unit, mix; lra].
    + rewrite (HS _ 5%Z 1); [apply EQ; lra|lia|lra|unfold mix; lra|unfold unit, mix; lra].
Qed.
Print Assumptions named_ends.
Example linear_ex : linear (RGB 1 0 0.5) (RGB 0 0 1) 0.25 = Some (RGB 0.75 0 0.625).
Proof.
  unfold linear, function_rgb, mix. replace (0 * 0.25 + 1 * (1 - 0.25)) with 0.75 by lra. replace (0 * 0.25 + 0 * (1 - 0.25)) with 0 by lra.
  replace (1 * 0.25 + 0.5 * (1 - 0.25)) with 0.625 by lra. apply rgb_ok; unfold unit; lra.
Qed.
