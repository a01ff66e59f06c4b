(** * Two lines with lengths, and the cutting of connectors (C111) *)

From Coq Require Import Reals List Bool Lra Psatz Nsatz Sorted.
From Verif Require Import CurveModel CurveSpec CurveProofs4 CurveProofs3 ArcSpec ArcProofs ConnectorModel ConnectorProps ConnectorProps2.
From Verif Require SvgArcProps3 TrafoModel RootsModel.
Import ListNotations.
Open Scope R_scope.

Local Notation pt := (R * R)%type.

Lemma distance_sq a b : distance a b * distance a b = (fst a - fst b) * (fst a - fst b) + (snd a - snd b) * (snd a - snd b).
Proof. unfold distance. rewrite sqrt_sqrt; [ring|]. apply Rplus_le_le_0_compat; apply pow2_ge_0. Qed.
Lemma distance_nonneg a b : 0 <= distance a b.
Proof. apply sqrt_pos. Qed.
Lemma distance_of a b l : 0 <= l -> (fst a - fst b) * (fst a - fst b) + (snd a - snd b) * (snd a - snd b) = l * l -> distance a b = l.
Proof. intros L E. rewrite <- distance_sq in E. pose proof (distance_nonneg a b). nra. Qed.

Lemma middle_a_distance c D l e : 0 <= l -> distance c (middle_a c D l e) = l.
Proof. intros L. apply distance_of; [exact L|]. unfold middle_a. cbn [fst snd]. pose proof (trig (D - e)). nsatz. Qed.
(** the law of cosines *)
Lemma cosine_law d D l e c : (fst (middle_a c D l e) - (fst c + d * cos D)) * (fst (middle_a c D l e) - (fst c + d * cos D)) +
  (snd (middle_a c D l e) - (snd c + d * sin D)) * (snd (middle_a c D l e) - (snd c + d * sin D)) = d * d + l * l - 2 * d * l * cos e.
Proof.
  unfold middle_a. cbn [fst snd]. pose proof (trig D) as T1. pose proof (trig e) as T2. rewrite cos_minus, sin_minus. nsatz.
Qed.
Lemma middle_right c1 c2 l e : c1 <> c2 -> left_of c1 c2 (middle_a c1 (dangle c1 c2) l e) = - (distance c1 c2 * l * sin e).
Proof.
  intros N. pose proof (polar c1 c2 N) as P. set (d := distance c1 c2) in *. set (D := dangle c1 c2) in *. clearbody d D. rewrite P. unfold left_of, middle_a. cbn [fst snd].
  pose proof (trig D) as T. rewrite cos_minus, sin_minus. nsatz.
Qed.

(** the triangle with these three sides exists *)
Definition sides (a b c : R) : Prop := a <= b + c /\ b <= a + c /\ c <= a + b.
Lemma cosine_range d l1 l2 : 0 < d -> 0 < l1 -> 0 <= l2 -> sides d l1 l2 -> -1 <= (d * d + l1 * l1 - l2 * l2) / (2.0 * d * l1) <= 1.
Proof.
  intros D L1 L2 (A & B & C). assert (P : 0 < 2.0 * d * l1) by (apply Rmult_lt_0_compat; [lra|exact L1]).
  split; [apply (Rmult_le_reg_r (2.0 * d * l1)); [exact P|]|apply (Rmult_le_reg_r (2.0 * d * l1)); [exact P|]];
    replace ((d * d + l1 * l1 - l2 * l2) / (2.0 * d * l1) * (2.0 * d * l1)) with (d * d + l1 * l1 - l2 * l2) by (field; lra); nra.
Qed.

Lemma by_sides c1 c2 l1 l2 : c1 <> c2 -> 0 < l1 -> 0 <= l2 -> sides (distance c1 c2) l1 l2 ->
  let m := middle_a c1 (dangle c1 c2) l1 (acos ((distance c1 c2 * distance c1 c2 + l1 * l1 - l2 * l2) / (2.0 * distance c1 c2 * l1))) in
  distance c1 m = l1 /\ distance m c2 = l2 /\ left_of c1 c2 m <= 0.
Proof.
  intros N L1 L2 SD m. pose proof (distance_pos _ _ N) as DP. pose proof (cosine_range _ _ _ DP L1 L2 SD) as RG.
  split; [apply middle_a_distance; lra|]. split.
  - apply distance_of; [exact L2|]. pose proof (polar c1 c2 N) as P. unfold m. set (d := distance c1 c2) in *. set (D := dangle c1 c2) in *. clearbody d D.
    rewrite P. cbn [fst snd]. rewrite cosine_law, cos_acos by exact RG. replace 2.0 with 2 by lra. field. lra.
  - unfold m. rewrite middle_right by exact N. set (x := _ / _) in *. pose proof (acos_bound x) as [A0 A1].
    pose proof (sin_ge_0 (acos x) A0 A1). assert (0 <= distance c1 c2 * l1 * sin (acos x)) by (apply Rmult_le_pos; [apply Rmult_le_pos; lra|assumption]). lra.
Qed.

(** Two lengths which are long enough: the arms have these lengths, and the connector is at the right side *)
Theorem twolines_two_lengths : forall c1 c2 l1 l2, c1 <> c2 -> 0 < l1 -> 0 <= l2 -> sides (distance c1 c2) l1 l2 ->
  exists m, twolines c1 c2 None None None None None (Some l1) (Some l2) = Some (Two c1 m c2) /\ distance c1 m = l1 /\ distance m c2 = l2 /\ left_of c1 c2 m <= 0.
Proof.
  intros c1 c2 l1 l2 N L1 L2 SD. pose proof (by_sides c1 c2 l1 l2 N L1 L2 SD) as H. destruct c1 as [x1 y1], c2 as [x2 y2].
  unfold twolines. change (atan2 (y2 - y1) (x2 - x1)) with (dangle (x1, y1) (x2, y2)). rewrite <- distance_hypot. cbv zeta. cbn [option_map given Nat.add Nat.eqb negb].
  eexists. split; [reflexivity|]. exact H.
Qed.
Print Assumptions twolines_two_lengths.
Example twolines_two_lengths_ex : exists m, twolines (0, 0) (5, 0) None None None None None (Some 3) (Some 4) = Some (Two (0, 0) m (5, 0)) /\
  distance (0, 0) m = 3 /\ distance m (5, 0) = 4 /\ left_of (0, 0) (5, 0) m <= 0.
Proof.
  assert (DD : distance (0, 0) (5, 0) = 5).
  { apply distance_of; cbn [fst snd]; lra. }
  apply twolines_two_lengths; [intros E; injection E; lra|lra|lra|]. rewrite DD. unfold sides. lra.
Qed.

(** An angle and the length at the same end *)
Theorem twolines_same_end : forall c1 c2 abs rel e l, c1 <> c2 -> 0 < l ->
  (angle1_is (dangle c1 c2) abs rel e -> exists m, twolines c1 c2 abs None rel None None (Some l) None = Some (Two c1 m c2) /\
    begins_at (Two c1 m c2) (dangle c1 c2 - e) /\ distance c1 m = l) /\
  (angle2_is (dangle c1 c2) abs rel e -> exists m, twolines c1 c2 None abs None rel None None (Some l) = Some (Two c1 m c2) /\
    ends_at (Two c1 m c2) (dangle c1 c2 + e) /\ distance m c2 = l).
Proof.
  intros c1 c2 abs rel e l N L. split; intros A.
  - destruct (angle1_val _ _ _ _ A) as (v & k & V & K).
    destruct c1 as [x1 y1], c2 as [x2 y2]. unfold twolines. change (atan2 (y2 - y1) (x2 - x1)) with (dangle (x1, y1) (x2, y2)). rewrite <- distance_hypot. cbv zeta.
    rewrite V. cbn [option_map given Nat.add Nat.eqb negb]. eexists. split; [reflexivity|]. split; [|apply middle_a_distance; lra].
    exists l. split; [exact L|]. unfold middle_a. cbn [fst snd]. rewrite K. replace (dangle (x1, y1) (x2, y2) - (e + IZR k * (2 * PI))) with (dangle (x1, y1) (x2, y2) - e - IZR k * (2 * PI)) by lra.
    rewrite cos_turn_l, sin_turn_l. reflexivity.
  - destruct (angle2_val _ _ _ _ A) as (v & k & V & K).
    destruct c1 as [x1 y1], c2 as [x2 y2]. unfold twolines. change (atan2 (y2 - y1) (x2 - x1)) with (dangle (x1, y1) (x2, y2)). rewrite <- distance_hypot. cbv zeta.
    rewrite V. cbn [option_map given Nat.add Nat.eqb negb]. eexists. split; [reflexivity|]. unfold middle_b. split.
    + exists l. split; [exact L|]. unfold middle_a. cbn [fst snd]. set (D := dangle (x1, y1) (x2, y2)). rewrite K.
      replace (- PI + D - - (e + IZR k * (2 * PI))) with (- (PI - (D + e)) + IZR k * (2 * PI)) by lra. rewrite cos_turn, sin_turn.
      rewrite cos_neg, sin_neg, sin_PI_x. rewrite Rtrigo_facts.cos_pi_minus. f_equal; ring.
    + rewrite distance_sym. apply middle_a_distance. lra.
Qed.
Print Assumptions twolines_same_end.
Example twolines_same_end_ex : (exists m, twolines (0, 0) (5, 0) (Some 90) None (Some 7) None None (Some 3) None = Some (Two (0, 0) m (5, 0)) /\
    begins_at (Two (0, 0) m (5, 0)) (dangle (0, 0) (5, 0) - - (PI / 2)) /\ distance (0, 0) m = 3) /\
  (exists m, twolines (0, 0) (5, 0) None None None (Some 30) None None (Some 3) = Some (Two (0, 0) m (5, 0)) /\
    ends_at (Two (0, 0) m (5, 0)) (dangle (0, 0) (5, 0) + PI / 6) /\ distance m (5, 0) = 3).
Proof.
  assert (A0 : dangle (0, 0) (5, 0) = 0) by (unfold dangle, atan2; cbn [fst snd]; destruct (Rlt_dec 0 (5 - 0)); [replace ((0 - 0) / (5 - 0)) with 0 by field; apply atan_0|lra]).
  assert (N : (0, 0) <> (5, 0)) by (intros E; injection E; lra). split.
  - apply twolines_same_end; [exact N|lra|]. exists 0%Z. split; [rewrite A0; unfold rad; lra|discriminate].
  - apply twolines_same_end; [exact N|lra|]. exists 0%Z. split; [unfold rad; lra|discriminate].
Qed.

(** The third side of a triangle from the side a opposite to the angle and the side b *)
Lemma missing a b e : 0 < a -> 0 < b -> b * b * (sin e * sin e) <= a * a -> b < a \/ 0 < cos e ->
  0 < missinglength a b e /\ a * a = b * b + missinglength a b e * missinglength a b e - 2 * b * missinglength a b e * cos e.
Proof.
  intros A B S C. pose proof (trig e) as T. unfold missinglength. cbv zeta. set (t1 := b * cos e).
  assert (Q : 0 <= t1 * t1 - b * b + a * a) by (unfold t1; replace (b * cos e * (b * cos e)) with (b * b * (cos e * cos e)) by ring; nra).
  set (q := t1 * t1 - b * b + a * a) in *. pose proof (sqrt_pos q) as SP. pose proof (sqrt_sqrt q Q) as SS. set (t2 := sqrt q) in *.
  assert (TE : forall c, (c - t1) * (c - t1) = t2 * t2 -> a * a = b * b + c * c - 2 * b * c * cos e) by (intros c H; rewrite SS in H; unfold q, t1 in *; lra).
  destruct (Rlt_dec t2 t1) as [L|L].
  - split; [lra|]. apply TE. ring.
  - split; [|apply TE; ring]. destruct C as [C|C].
    + assert (t1 * t1 < t2 * t2) by (rewrite SS; unfold q; nra). nra.
    + assert (0 < t1) by (unfold t1; apply Rmult_lt_0_compat; assumption). lra.
Qed.

(** An angle and the length at the other end: this arm has the length, if it is long enough to reach the line in the direction of the angle *)
Theorem twolines_other_end : forall c1 c2 abs rel e l, c1 <> c2 -> 0 < l -> distance c1 c2 * distance c1 c2 * (sin e * sin e) <= l * l -> distance c1 c2 < l \/ 0 < cos e ->
  (angle1_is (dangle c1 c2) abs rel e -> exists m, twolines c1 c2 abs None rel None None None (Some l) = Some (Two c1 m c2) /\
    begins_at (Two c1 m c2) (dangle c1 c2 - e) /\ distance m c2 = l) /\
  (angle2_is (dangle c1 c2) abs rel e -> exists m, twolines c1 c2 None abs None rel None (Some l) None = Some (Two c1 m c2) /\
    ends_at (Two c1 m c2) (dangle c1 c2 + e) /\ distance c1 m = l).
Proof.
  intros c1 c2 abs rel e l N L S C. pose proof (distance_pos _ _ N) as DP. destruct (missing l (distance c1 c2) e L DP S C) as [MP ME]. pose proof (polar c1 c2 N) as PO. split; intros A.
  - destruct (angle1_val _ _ _ _ A) as (v & k & V & K).
    assert (CV : cos v = cos e) by (rewrite K; apply cos_turn).
    assert (MV : missinglength l (distance c1 c2) v = missinglength l (distance c1 c2) e) by (unfold missinglength; rewrite CV; reflexivity).
    destruct c1 as [x1 y1], c2 as [x2 y2]. unfold twolines. change (atan2 (y2 - y1) (x2 - x1)) with (dangle (x1, y1) (x2, y2)). rewrite <- distance_hypot. cbv zeta.
    rewrite V. cbn [option_map given Nat.add Nat.eqb negb]. rewrite MV. set (l1 := missinglength _ _ _) in *. eexists. split; [reflexivity|]. split.
    + exists l1. split; [exact MP|]. unfold middle_a. cbn [fst snd]. rewrite K. replace (dangle (x1, y1) (x2, y2) - (e + IZR k * (2 * PI))) with (dangle (x1, y1) (x2, y2) - e - IZR k * (2 * PI)) by lra.
      rewrite cos_turn_l, sin_turn_l. reflexivity.
    + apply distance_of; [lra|]. set (d := distance (x1, y1) (x2, y2)) in *. set (D := dangle (x1, y1) (x2, y2)) in *. clearbody l1 d D. rewrite PO. cbn [fst snd] in *.
      pose proof (cosine_law d D l1 v (x1, y1)) as CL. cbn [fst snd] in CL. rewrite CL, CV. lra.
  - destruct (angle2_val _ _ _ _ A) as (v & k & V & K).
    assert (CV : cos v = cos e) by (rewrite K; apply cos_turn).
    assert (MV : missinglength l (distance c1 c2) v = missinglength l (distance c1 c2) e) by (unfold missinglength; rewrite CV; reflexivity).
    destruct c1 as [x1 y1], c2 as [x2 y2]. unfold twolines. change (atan2 (y2 - y1) (x2 - x1)) with (dangle (x1, y1) (x2, y2)). rewrite <- distance_hypot. cbv zeta.
    rewrite V. cbn [option_map given Nat.add Nat.eqb negb]. rewrite MV. set (l2 := missinglength _ _ _) in *. eexists. split; [reflexivity|]. unfold middle_b.
    set (d := distance (x1, y1) (x2, y2)) in *. set (D := dangle (x1, y1) (x2, y2)) in *. split.
    + exists l2. split; [exact MP|]. unfold middle_a. cbn [fst snd]. rewrite K.
      replace (- PI + D - - (e + IZR k * (2 * PI))) with (- (PI - (D + e)) + IZR k * (2 * PI)) by lra. rewrite cos_turn, sin_turn.
      rewrite cos_neg, sin_neg, sin_PI_x. rewrite Rtrigo_facts.cos_pi_minus. f_equal; ring.
    + rewrite distance_sym. apply distance_of; [lra|]. pose proof (cosine_law d (- PI + D) l2 (- v) (x2, y2)) as CL. rewrite cos_neg, CV in CL.
      assert (QX : x1 = x2 + d * cos (- PI + D)) by (replace (- PI + D) with (- (PI - D)) by lra; rewrite cos_neg, Rtrigo_facts.cos_pi_minus; injection PO as PX PY; cbn in *; lra).
      assert (QY : y1 = y2 + d * sin (- PI + D)) by (replace (- PI + D) with (- (PI - D)) by lra; rewrite sin_neg, sin_PI_x; injection PO as PX PY; cbn in *; lra).
      cbn [fst snd] in *. rewrite <- QX, <- QY in CL. rewrite CL. lra.
Qed.
Print Assumptions twolines_other_end.
Example twolines_other_end_ex : exists m, twolines (0, 0) (4, 0) None None (Some 90) None None None (Some 5) = Some (Two (0, 0) m (4, 0)) /\
  begins_at (Two (0, 0) m (4, 0)) (dangle (0, 0) (4, 0) - PI / 2) /\ distance m (4, 0) = 5.
Proof.
  assert (N : (0, 0) <> (4, 0)) by (intros E; injection E; lra).
  assert (DD : distance (0, 0) (4, 0) = 4) by (apply distance_of; cbn [fst snd]; lra).
  apply twolines_other_end; [exact N|lra|rewrite DD, sin_PI2; lra|rewrite DD; left; lra|]. exists 0%Z. split; [unfold rad; lra|discriminate].
Qed.

(** A length and the angle in the middle: the arm has the length, and the arms meet at this angle *)
Theorem twolines_middle_length : forall c1 c2 relM l, c1 <> c2 -> 0 < l -> l * l * (sin (rad relM) * sin (rad relM)) <= distance c1 c2 * distance c1 c2 ->
  l < distance c1 c2 \/ 0 < cos (rad relM) ->
  let angle m := (fst c1 - fst m) * (fst c2 - fst m) + (snd c1 - snd m) * (snd c2 - snd m) = distance c1 m * distance m c2 * cos (rad relM) /\ 0 < distance c1 m * distance m c2 in
  (exists m, twolines c1 c2 None None None None (Some relM) (Some l) None = Some (Two c1 m c2) /\ distance c1 m = l /\ angle m) /\
  (exists m, twolines c1 c2 None None None None (Some relM) None (Some l) = Some (Two c1 m c2) /\ distance m c2 = l /\ angle m).
Proof.
  intros c1 c2 relM l N L S C. pose proof (distance_pos _ _ N) as DP. destruct (missing (distance c1 c2) l (rad relM) DP L S C) as [MP ME]. cbv zeta.
  set (q := missinglength (distance c1 c2) l (rad relM)) in *. set (d := distance c1 c2) in *. pose proof (COS_bound (rad relM)) as [CL CU].
  assert (SD : sides d l q).
  { assert (LQ : 0 < l * q) by (apply Rmult_lt_0_compat; assumption). clearbody d q. set (c := cos (rad relM)) in *. clearbody c.
    assert (P1 : 0 <= l * q * (1 + c)) by (apply Rmult_le_pos; lra). assert (P2 : 0 <= l * q * (1 - c)) by (apply Rmult_le_pos; lra).
    assert (Q1 : d * d <= (l + q) * (l + q)) by lra. assert (Q2 : (l - q) * (l - q) <= d * d) by lra. unfold sides. clear - Q1 Q2 DP L MP. split; [|split]; nra. }
  assert (ANG : forall m, distance c1 m * distance m c2 = l * q -> distance c1 m * distance c1 m + distance m c2 * distance m c2 = l * l + q * q ->
    (fst c1 - fst m) * (fst c2 - fst m) + (snd c1 - snd m) * (snd c2 - snd m) = distance c1 m * distance m c2 * cos (rad relM) /\ 0 < distance c1 m * distance m c2).
  { intros m E1 E2. split; [|rewrite E1; apply Rmult_lt_0_compat; assumption]. rewrite !distance_sq in E2. rewrite E1. unfold d in ME. rewrite distance_sq in ME. nra. }
  split.
  - pose proof (by_sides c1 c2 l q N L ltac:(lra) SD) as H. cbv zeta in H. fold d in H.
    destruct c1 as [x1 y1], c2 as [x2 y2]. unfold twolines. change (atan2 (y2 - y1) (x2 - x1)) with (dangle (x1, y1) (x2, y2)). rewrite <- distance_hypot. cbv zeta. cbn [option_map given Nat.add Nat.eqb negb].
    rewrite radians_rad. fold d. fold q. eexists. split; [reflexivity|]. destruct H as (H1 & H2 & _). split; [exact H1|]. apply ANG; rewrite H1, H2; ring.
  - assert (SD' : sides d q l) by (unfold sides in *; lra).
    pose proof (by_sides c1 c2 q l N MP ltac:(lra) SD') as H. cbv zeta in H. fold d in H.
    destruct c1 as [x1 y1], c2 as [x2 y2]. unfold twolines. change (atan2 (y2 - y1) (x2 - x1)) with (dangle (x1, y1) (x2, y2)). rewrite <- distance_hypot. cbv zeta. cbn [option_map given Nat.add Nat.eqb negb].
    rewrite radians_rad. fold d. fold q. eexists. split; [reflexivity|]. destruct H as (H1 & H2 & _). split; [exact H2|]. apply ANG; rewrite H1, H2; ring.
Qed.
Print Assumptions twolines_middle_length.
(** a right angle in the middle and an arm of length 3 over a distance of 5 *)
Example twolines_middle_length_ex : exists m, twolines (0, 0) (5, 0) None None None None (Some 90) (Some 3) None = Some (Two (0, 0) m (5, 0)) /\ distance (0, 0) m = 3 /\
  (0 - fst m) * (5 - fst m) + (0 - snd m) * (0 - snd m) = 0.
Proof.
  assert (N : (0, 0) <> (5, 0)) by (intros E; injection E; lra).
  assert (DD : distance (0, 0) (5, 0) = 5) by (apply distance_of; cbn [fst snd]; lra).
  assert (HR : rad 90 = PI / 2) by (unfold rad; lra).
  destruct (twolines_middle_length (0, 0) (5, 0) 90 3) as [(m & E & D & A & _) _]; [exact N|lra|rewrite DD, HR, sin_PI2; lra|rewrite DD; left; lra|].
  exists m. split; [exact E|]. split; [exact D|]. cbn [fst snd] in A. rewrite A, HR, cos_PI2. ring.
Qed.

(** ** Cutting *)
(** the parameters of the points of an outline on a range *)
Definition meeting (meets : R -> R -> list R) (on : R -> Prop) : Prop :=
  forall a b, StronglySorted Rlt (meets a b) /\ forall t, In t (meets a b) <-> a <= t <= b /\ on t.

Lemma sorted_last (l : list R) t : StronglySorted Rlt l -> In t l -> t <= last l 0.
Proof.
  intros H. revert t. induction H as [|x l SS IH F]; intros t; [intros []|]. destruct l as [|y l].
  - intros [->|[]]. cbn. lra.
  - intros [->|I]; [|exact (IH _ I)]. inversion F; subst. specialize (IH y (or_introl eq_refl)). change (last (t :: y :: l) 0) with (last (y :: l) 0). lra.
Qed.
Lemma last_in (l : list R) : l <> [] -> In (last l 0) l.
Proof.
  induction l as [|x l IH]; [congruence|]. intros _. destruct l as [|y l]; [left; reflexivity|]. right. apply IH. discriminate.
Qed.
Lemma sorted_first x (l : list R) t : StronglySorted Rlt (x :: l) -> In t (x :: l) -> x <= t.
Proof. intros SS [->|I]; [lra|]. inversion SS as [|? ? _ F]; subst. rewrite Forall_forall in F. specialize (F _ I). lra. Qed.

(** What remains of a connector begins at the last point at the first outline, or at the begin when there is none, and ends at the first point
    of the rest at the second outline, or at the end when there is none *)
Theorem omitends_part : forall meets1 meets2 on1 on2 a b, meeting meets1 on1 -> meeting meets2 on2 -> a <= b ->
  exists a' b', omitends meets1 meets2 (a, b) = (a', b') /\ a <= a' <= b' /\ b' <= b /\
  (on1 a' \/ (a' = a /\ forall t, a <= t <= b -> ~ on1 t)) /\ (forall t, a' < t <= b -> ~ on1 t) /\
  (on2 b' \/ (b' = b /\ forall t, a' <= t <= b -> ~ on2 t)) /\ (forall t, a' <= t < b' -> ~ on2 t).
Proof.
  intros m1 m2 on1 on2 a b M1 M2 AB.
  assert (H1 : exists a', cut_begin m1 (a, b) = (a', b) /\ a <= a' <= b /\ (on1 a' \/ (a' = a /\ forall t, a <= t <= b -> ~ on1 t)) /\ (forall t, a' < t <= b -> ~ on1 t)).
  { unfold cut_begin. cbn [fst snd]. destruct (M1 a b) as [SS MI]. destruct (m1 a b) as [|x l] eqn:ML.
    - exists a. assert (NO : forall t, a <= t <= b -> ~ on1 t) by (intros t T O; apply (proj2 (MI t)); auto).
      split; [reflexivity|]. split; [lra|]. split; [right; auto|]. intros t T. apply NO. lra.
    - pose proof (last_in (x :: l) ltac:(discriminate)) as LI. apply MI in LI as [LR LO]. exists (last (x :: l) 0). split; [reflexivity|]. split; [exact LR|]. split; [left; exact LO|].
      intros t T O. assert (I : In t (x :: l)) by (apply MI; split; [lra|exact O]). pose proof (sorted_last _ _ SS I). lra. }
  destruct H1 as (a' & E1 & R1 & O1 & N1). unfold omitends. rewrite E1. unfold cut_end. cbn [fst snd]. destruct (M2 a' b) as [SS MI]. destruct (m2 a' b) as [|x l] eqn:ML.
  - exists a', b. assert (NO : forall t, a' <= t <= b -> ~ on2 t) by (intros t T O; apply (proj2 (MI t)); auto).
    split; [reflexivity|]. split; [lra|]. split; [lra|]. split; [exact O1|]. split; [exact N1|]. split; [right; auto|]. intros t T. apply NO. lra.
  - destruct (proj1 (MI x) (or_introl eq_refl)) as [XR XO]. exists a', x. split; [reflexivity|]. split; [lra|]. split; [lra|]. split; [exact O1|]. split; [exact N1|]. split; [left; exact XO|].
    intros t T O. assert (I : In t (x :: l)) by (apply MI; split; [lra|exact O]). pose proof (sorted_first _ _ _ SS I). lra.
Qed.
Print Assumptions omitends_part.

Definition at_point (x a b : R) : list R := if Rle_dec a x then if Rle_dec x b then [x] else [] else [].
Lemma at_point_meets x : meeting (at_point x) (fun t => t = x).
Proof.
  intros a b. unfold at_point. destruct (Rle_dec a x); [destruct (Rle_dec x b)|]; (split; [repeat constructor|intros t; cbn; split]); try tauto; try (intros [E|[]]; subst; split; [lra|reflexivity]); try (intros [A ->]; try lra; auto).
Qed.
(** a connector from 0 to 10 which leaves the first box at 2 and meets the second one at 9 *)
Example omitends_part_ex : omitends (at_point 2) (at_point 9) (0, 10) = (2, 9).
Proof.
  unfold omitends, cut_begin, cut_end, at_point. cbn [fst snd]. destruct (Rle_dec 0 2); [|lra]. destruct (Rle_dec 2 10); [|lra]. cbn [last fst snd].
  destruct (Rle_dec 2 9); [|lra]. destruct (Rle_dec 9 10); [|lra]. reflexivity.
Qed.

(** Shortening at the begin by a circle which does not meet the rest of the connector is an IndexError, at the end it does nothing *)
Theorem shorten_begin_refuted : exists meets on a b, meeting meets on /\ a < b /\ shorten_begin (Some meets) (a, b) = None /\ shorten_end (Some meets) (a, b) = (a, b).
Proof.
  exists (at_point 3), (fun t => t = 3), 0, 2. split; [apply at_point_meets|]. split; [lra|].
  unfold shorten_begin, shorten_end, cut_end, at_point. cbn [fst snd]. destruct (Rle_dec 0 3); [|lra]. destruct (Rle_dec 3 2); [lra|]. split; reflexivity.
Qed.
Print Assumptions shorten_begin_refuted.

(** When it meets the connector, the part up to its last meeting is cut off *)
Theorem shorten_begin_part : forall meets on a b r, meeting meets on -> shorten_begin (Some meets) (a, b) = Some r ->
  snd r = b /\ a <= fst r <= b /\ on (fst r) /\ forall t, fst r < t <= b -> ~ on t.
Proof.
  intros m on a b r M. unfold shorten_begin. cbn [fst snd]. destruct (M a b) as [SS MI]. destruct (m a b) as [|x l] eqn:ML; [discriminate|]. intros [= <-]. cbn [fst snd].
  change (match l with [] => x | _ :: _ => last l 0 end) with (last (x :: l) 0).
  pose proof (last_in (x :: l) ltac:(discriminate)) as LI. apply MI in LI as [LR LO]. split; [reflexivity|]. split; [exact LR|]. split; [exact LO|].
  intros t T O. assert (I : In t (x :: l)) by (apply MI; split; [lra|exact O]). pose proof (sorted_last _ _ SS I). lra.
Qed.
Print Assumptions shorten_begin_part.
Example shorten_begin_part_ex : shorten_begin (Some (at_point 3)) (0, 10) = Some (3, 10).
Proof. unfold shorten_begin, at_point. cbn [fst snd]. destruct (Rle_dec 0 3); [|lra]. destruct (Rle_dec 3 10); [|lra]. reflexivity. Qed.
