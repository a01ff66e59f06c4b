(** * MetaPost paths: the choice of control points *)
From Coq Require Import Reals List Bool PeanoNat Lra Lia.
From Verif Require Import CurveModel CurveProofs4 MpModel MpSpec MpProofs MpProofs2 MpProofs3 MpProofs4 MpProofs5 MpProofs6 MpProofs7.
Import ListNotations.
Local Open Scope R_scope.

(** ** The angles and the control points *)
(** Whatever the knots are, there are angles at which each free segment leaves and reaches its knots, such that all
    directions and curls are the given ones and directions and mock curvatures are continuous where nothing is given.  The
    control points are those of Hobby's formula.  It fails exactly if both angles of a segment are 180 degrees. *)
Theorem choices_are_hobbys N eps K : (0 < N)%nat -> 0 < eps -> (forall i, (i < N)%nat -> proper N K i) ->
  exists theta phi,
    (forall i, (i < N)%nat -> free N eps K i -> begins N eps K theta phi i /\ ends N eps K theta phi i) /\
    (make_choices N eps K = None <-> exists i, (i < N)%nat /\ free N eps K i /\ cos (theta i) = -1 /\ cos (phi i) = -1) /\
    (forall K', make_choices N eps K = Some K' ->
       (forall i, kx (K' i) = kx (K i) /\ ky (K' i) = ky (K i)) /\ (forall i, (i < N)%nat -> segment_result N eps K theta phi K' i)).
Proof.
  intros N0 eps0 Pr. destruct (choices_ok N eps K N0 eps0 Pr) as (theta & phi & BE & R1 & R2). exists theta, phi. split; [exact BE|].
  destruct (some_or_none N (fun i => free N eps K i /\ flat (theta i) (phi i))) as [(i & H & F & Fl)|No].
  { intros i. destruct (flat_cases (theta i) (phi i)); [|tauto]. unfold free, unset. destruct (near_spec eps (chord_x N K i) (chord_y N K i)); [tauto|]. destruct (rtype (K i)); intuition discriminate. }
  - assert (make_choices N eps K = None) as -> by (apply R1; exists i; auto). split; [|discriminate]. split; [|reflexivity]. intros _. exists i. exact (conj H (conj F Fl)).
  - destruct R2 as (K' & -> & P & D); [intros i H F Q; exact (No i H (conj F Q))|]. split; [split; [discriminate|]|].
    + intros (i & H & F & Q). exfalso. exact (No i H (conj F Q)).
    + intros K1 E. injection E as <-. split; assumption.
Qed.
Print Assumptions choices_are_hobbys.

(** ** Hobby's velocities are positive *)
Lemma square_bound a b : a ^ 2 < b ^ 2 -> 0 < b -> - b < a.
Proof. intros H B. destruct (Rlt_dec (- b) a); [assumption|]. assert (0 <= (- a - b) * (- a + b)) by (apply Rmult_le_pos; lra). nra. Qed.

Theorem velocity_positive theta phi : ~ (cos theta = -1 /\ cos phi = -1) -> 0 < hobby theta phi.
Proof.
  intros F. destruct (flat_dec theta phi) as [Q|D]; [contradiction|]. unfold hobby. apply Rdiv_lt_0_compat; [|lra].
  set (s := sin theta). set (c := cos theta). set (t := sin phi). set (d := cos phi).
  assert (s ^ 2 + c ^ 2 = 1) as E1 by (pose proof (sin2_cos2 theta) as Q; unfold Rsqr in Q; unfold s, c; lra).
  assert (t ^ 2 + d ^ 2 = 1) as E2 by (pose proof (sin2_cos2 phi) as Q; unfold Rsqr in Q; unfold t, d; lra).
  set (P := (s - t / 16) * (t - s / 16)). set (S0 := s ^ 2 + t ^ 2).
  assert (0 <= S0) as S1 by (unfold S0; nra). assert (S0 <= 2) as S2 by (unfold S0; nra).
  assert (P <= 3 / 5 * S0 /\ - (3 / 5 * S0) <= P) as [P1 P2].
  { unfold P, S0. assert (0 <= (s - t) ^ 2) by apply pow2_ge_0. assert (0 <= (s + t) ^ 2) by apply pow2_ge_0. split; nra. }
  assert (P ^ 2 <= (3 / 5 * S0) ^ 2) as P3.
  { assert (0 <= (3 / 5 * S0 - P) * (3 / 5 * S0 + P)) by (apply Rmult_le_pos; lra). lra. }
  assert ((c - d) ^ 2 <= 4 - 2 * S0) as C1 by (unfold S0; assert (0 <= (c + d) ^ 2) by apply pow2_ge_0; lra).
  assert (sqrt 2 ^ 2 = 2) as R2 by (rewrite <- Rsqr_pow2; apply Rsqr_sqrt; lra).
  assert ((sqrt 2 * P * (c - d)) ^ 2 < 2 ^ 2) as Bd.
  { replace ((sqrt 2 * P * (c - d)) ^ 2) with (sqrt 2 ^ 2 * (P ^ 2 * (c - d) ^ 2)) by ring. rewrite R2.
    assert (P ^ 2 * (c - d) ^ 2 <= (3 / 5 * S0) ^ 2 * (4 - 2 * S0)) by (apply Rmult_le_compat; auto using pow2_ge_0).
    assert (0 <= 2 * (S0 - 4 / 3) ^ 2 * (S0 + 2 / 3)) by (apply Rmult_le_pos; [apply Rmult_le_pos; [lra|apply pow2_ge_0]|lra]).
    assert (S0 ^ 2 * (4 - 2 * S0) <= 64 / 27) by lra. lra. }
  apply square_bound in Bd; [|lra]. unfold P in Bd. replace (sqrt 2 * (s - t / 16) * (t - s / 16) * (c - d)) with (sqrt 2 * ((s - t / 16) * (t - s / 16)) * (c - d)) by ring. lra.
Qed.
Print Assumptions velocity_positive.

Example velocity_straight : hobby 0 0 = 1 / 3.
Proof. exact hobby_zero. Qed.

Lemma has_speed_range t theta phi v : 3 / 4 <= Rabs t -> ~ (cos theta = -1 /\ cos phi = -1) -> has_speed t theta phi v -> 0 <= v <= 4 /\ (0 < t -> 0 < v).
Proof.
  intros T F H. pose proof (velocity_positive theta phi F) as P. assert (0 < speed t theta phi) as Q by (unfold speed; apply Rmin_glb_lt; [lra|]; apply Rdiv_lt_0_compat; lra).
  assert (speed t theta phi <= 4) as L by apply Rmin_l. destruct H as [(T0 & _ & M & ->)|(_ & ->)]; [|split; [lra|auto]].
  split; [|lra]. split; [|eapply Rle_trans; [apply Rmin_l|exact L]]. apply Rmin_glb; [lra|]. apply Rmult_le_pos; [apply Rabs_pos|]. apply Rlt_le, Rinv_0_lt_compat, Rmult_lt_0_compat; [exact M|apply slack_pos].
Qed.

(** ** Smooth knots are smooth *)
(** At a knot between two free segments where nothing is given, both control points lie on one line through the knot, on
    different sides; for positive tensions they differ from the knot. *)
Theorem smooth_knots_smooth N eps K K' i : (0 < N)%nat -> 0 < eps -> (forall i, (i < N)%nat -> proper N K i) -> make_choices N eps K = Some K' ->
  (i < N)%nat -> rtype (K i) = Open -> free N eps K i -> free N eps K (before N i) ->
  exists ux uy a b, ux ^ 2 + uy ^ 2 = 1 /\ 0 <= a /\ 0 <= b /\
    rx (K' i) = Some (kx (K i) + a * ux) /\ ry (K' i) = Some (ky (K i) + a * uy) /\
    lx (K' i) = Some (kx (K i) - b * ux) /\ ly (K' i) = Some (ky (K i) - b * uy) /\
    (0 < tension_out K i -> 0 < a) /\ (0 < tension_in N K (before N i) -> 0 < b).
Proof.
  intros N0 eps0 Pr E H Op F Fb. destruct (choices_ok N eps K N0 eps0 Pr) as (theta & phi & BE & R1 & R2).
  assert (forall j, (j < N)%nat -> free N eps K j -> ~ flat (theta j) (phi j)) as Nf.
  { intros j Hj Fj Q. rewrite R1 in E; [discriminate|]. exists j. auto. }
  destruct (R2 Nf) as (K1 & E1 & _ & D). assert (K1 = K') as -> by congruence. clear E1 R1 R2.
  set (b0 := before N i) in *. assert (b0 < N)%nat as bN by (apply before_lt, N0). assert (after N b0 = i) as Ab by (apply after_before; assumption).
  destruct (BE i H F) as [Bg _]. unfold begins in Bg. rewrite Op in Bg. destruct Bg as [Bg _]. destruct (Bg Fb) as [Dir _]. fold b0 in Dir.
  destruct (D i H) as (Ci & _). destruct (Ci F) as (_ & _ & v & w & V & W & X1 & X2 & _). destruct (D b0 bN) as (Cb & _). destruct (Cb Fb) as (_ & _ & v' & w' & V' & W' & _ & _ & Y1 & Y2). rewrite Ab in Y1, Y2.
  assert (forall j, (j < N)%nat -> free N eps K j -> 0 < chord N K j /\ 3 / 4 <= Rabs (tension_out K j) /\ 3 / 4 <= Rabs (tension_in N K j)) as Pos.
  { intros j Hj [U Ns]. split.
    - unfold chord. apply sqrt_lt_R0. unfold short in Ns. assert (0 < eps ^ 2) by (apply pow_lt; exact eps0). lra.
    - destruct (Pr j Hj) as ([[Q _]|[[Q _]|(_ & _ & (t & Et & Bt) & (t' & Et' & Bt'))]] & _); [rewrite Q in U; unfold unset in U; intuition discriminate|rewrite Q in U; unfold unset in U; intuition discriminate|].
      unfold tension_out, tension_in. rewrite Et, Et'. split; assumption. }
  destruct (Pos i H F) as (Pc & T1 & T2). destruct (Pos b0 bN Fb) as (Pc' & T3 & T4).
  destruct (has_speed_range _ _ _ _ T1 (Nf i H F) V) as ([V0 _] & V1).
  assert (~ (cos (phi b0) = -1 /\ cos (theta b0) = -1)) as Nf' by (intros [Q1 Q2]; exact (Nf b0 bN Fb (conj Q2 Q1))).
  destruct (has_speed_range _ _ _ _ T4 Nf' W') as ([W0 _] & W1).
  pose proof (leaves_dir N K i (theta i) Pc) as Lv. destruct (leaves N K i (theta i)) as [ux uy] eqn:El. unfold leaves in El. injection El as Ux Uy. unfold arrives in Dir. injection Dir as Ax Ay.
  injection Lv as Lx Ly.
  exists ux, uy, (v * chord N K i), (w' * chord N K b0).
  split; [rewrite Lx, Ly; pose proof (sin2_cos2 (n_arg (chord_x N K i) (chord_y N K i) + theta i)) as Q; unfold Rsqr in Q; lra|].
  split; [apply Rmult_le_pos; lra|]. split; [apply Rmult_le_pos; lra|].
  split; [rewrite X1, <- Ux; f_equal; field; lra|]. split; [rewrite X2, <- Uy; f_equal; field; lra|].
  split; [rewrite Y1, <- Ax; f_equal; field; lra|]. split; [rewrite Y2, <- Ay; f_equal; field; lra|].
  split; intros Q; apply Rmult_lt_0_compat; auto.
Qed.
Print Assumptions smooth_knots_smooth.

(** ** Tension "at least" *)
(** The tangents meet at the distance sin phi / sin (theta + phi) of the chord, and the control point is not beyond that. *)
Theorem at_least_within_triangle t theta phi v : t < 0 -> 0 < sin theta -> 0 < sin phi -> 0 < sin (theta + phi) -> has_speed t theta phi v -> v < sin phi / sin (theta + phi).
Proof.
  intros T A B C [(_ & _ & M & ->)|(Q & _)].
  - assert (meeting theta phi = sin (theta + phi)) as E by (unfold meeting; rewrite !Rabs_pos_eq, sin_plus by lra; ring). rewrite E, (Rabs_pos_eq (sin phi)) by lra.
    eapply Rle_lt_trans; [apply Rmin_r|]. apply (Rmult_lt_reg_r (sin (theta + phi))); [exact C|].
    replace (sin phi / sin (theta + phi) * sin (theta + phi)) with (sin phi) by (field; lra). replace (sin phi / (sin (theta + phi) * slack) * sin (theta + phi)) with (sin phi / slack) by (field; split; [pose proof slack_pos|]; lra).
    apply (Rmult_lt_reg_r slack); [apply slack_pos|]. replace (sin phi / slack * slack) with (sin phi) by (field; pose proof slack_pos; lra).
    rewrite <- (Rmult_1_r (sin phi)) at 1. apply Rmult_lt_compat_l; [exact B|]. unfold slack. lra.
  - exfalso. apply Q. split; [exact T|]. split; [left; lra|]. unfold meeting. rewrite !Rabs_pos_eq by lra. rewrite sin_plus in C. lra.
Qed.
Print Assumptions at_least_within_triangle.

(** ** Examples *)
(** up from (0, 0) and down to (1, 0): the control points are 2/3 above the knots *)
Definition arch (K : heap) : Prop :=
  rx (K 0%nat) = Some 0 /\ ry (K 0%nat) = Some (2 / 3) /\ lx (K 1%nat) = Some 1 /\ ly (K 1%nat) = Some (2 / 3).
Definition two_knots (a b : R) : heap :=
  fun i => match i with O => beginknot 0 0 1 (Some a) | _ => endknot 1 0 1 (Some b) end.
Lemma two_proper a b i : (i < 2)%nat -> proper 2 (two_knots a b) i.
Proof.
  assert (tense (Some 1)) as T by (exists 1; split; [reflexivity|rewrite Rabs_pos_eq; lra]).
  intros H. destruct i as [|[|]]; [| |lia]; (split; [|split; discriminate]).
  - right. right. exact (conj (ex_intro _ a eq_refl) (conj (ex_intro _ b eq_refl) (conj T T))).
  - left. split; reflexivity.
Qed.
Lemma two_free a b : free 2 (1 / 100) (two_knots a b) 0.
Proof. split; [left; reflexivity|]. unfold short, chord_x, chord_y. cbn. lra. Qed.
Lemma two_chord a b : chord_x 2 (two_knots a b) 0 = 1 /\ chord_y 2 (two_knots a b) 0 = 0 /\ chord 2 (two_knots a b) 0 = 1.
Proof.
  assert (chord_x 2 (two_knots a b) 0 = 1) as A by (unfold chord_x; cbn; lra). assert (chord_y 2 (two_knots a b) 0 = 0) as B by (unfold chord_y; cbn; lra).
  split; [exact A|]. split; [exact B|]. unfold chord. rewrite A, B. replace (1 ^ 2 + 0 ^ 2) with 1 by ring. apply sqrt_1.
Qed.
Lemma two_angles a b theta phi : begins 2 (1 / 100) (two_knots a b) theta phi 0 -> ends 2 (1 / 100) (two_knots a b) theta phi 0 ->
  cos (theta 0%nat) = cos a /\ sin (theta 0%nat) = sin a /\ cos (phi 0%nat) = cos b /\ sin (phi 0%nat) = - sin b.
Proof.
  intros B E. specialize (B a eq_refl). specialize (E b eq_refl). destruct (two_chord a b) as (X & Y & C).
  unfold leaves in B. unfold arrives in E. rewrite X, Y, C in B, E. injection B as B1 B2. injection E as E1 E2. repeat split; lra.
Qed.

Example arch_controls : exists K', make_choices 2 (1 / 100) (two_knots (PI / 2) (- (PI / 2))) = Some K' /\ arch K'.
Proof.
  set (K := two_knots _ _). destruct (choices_are_hobbys 2 (1 / 100) K ltac:(lia) ltac:(lra) (two_proper _ _)) as (theta & phi & BE & Fail & Res).
  destruct (BE 0%nat ltac:(lia) (two_free _ _)) as [B E]. destruct (two_angles _ _ _ _ B E) as (C1 & S1 & C2 & S2).
  rewrite cos_PI2 in C1. rewrite sin_PI2 in S1. rewrite cos_neg, cos_PI2 in C2. rewrite sin_neg, sin_PI2 in S2.
  destruct (make_choices 2 (1 / 100) K) as [K'|] eqn:M.
  - exists K'. split; [reflexivity|]. destruct (Res K' eq_refl) as [_ Sg]. destruct (Sg 0%nat ltac:(lia)) as (Ch & _). destruct (Ch (two_free _ _)) as (_ & _ & v & w & V & W & X1 & Y1 & X2 & Y2).
    assert (forall t1 t2 u, cos t1 = 0 -> sin t1 = 1 -> cos t2 = 0 -> sin t2 = 1 -> has_speed 1 t1 t2 u -> u = 2 / 3) as Sp.
    { intros t1 t2 u A1 A2 A3 A4 [(Q & _)|(_ & ->)]; [lra|]. unfold speed, hobby. rewrite A1, A2, A3, A4, Rabs_pos_eq by lra.
      replace (_ / 1) with (2 / 3) by field. apply Rmin_right. lra. }
    assert (v = 2 / 3) as -> by (apply (Sp _ _ _ C1 S1 C2 ltac:(lra) V)). assert (w = 2 / 3) as -> by (apply (Sp _ _ _ C2 ltac:(lra) C1 S1 W)).
    destruct (two_chord (PI / 2) (- (PI / 2))) as (X & Y & _). fold K in X, Y. rewrite X, Y, ?C1, ?S1, ?C2, ?S2 in X1, Y1, X2, Y2.
    unfold arch. change (K' 1%nat) with (K' (after 2 0)). rewrite X1, Y1, X2, Y2. cbn. repeat split; f_equal; lra.
  - exfalso. destruct (proj1 Fail eq_refl) as (i & H & [F _] & Q1 & Q2). destruct i as [|[|]]; [| |lia].
    + rewrite C1 in Q1. lra.
    + unfold unset in F. cbn in F. intuition discriminate.
Qed.

(** From (0, 0) to the left and reaching (1, 0) to the left: MetaPost's velocity is 4 there (mp.c, mp_velocity: the fraction
    is too large), but here a division by zero is raised. *)
Theorem choices_exist_refuted : exists K, (forall i, (i < 2)%nat -> proper 2 K i) /\ make_choices 2 (1 / 100) K = None.
Proof.
  exists (two_knots PI PI). split; [apply two_proper|].
  destruct (choices_are_hobbys 2 (1 / 100) _ ltac:(lia) ltac:(lra) (two_proper PI PI)) as (theta & phi & BE & Fail & _).
  destruct (BE 0%nat ltac:(lia) (two_free _ _)) as [B E]. destruct (two_angles _ _ _ _ B E) as (C1 & S1 & C2 & S2).
  apply Fail. exists 0%nat. rewrite C1, C2, cos_PI. split; [lia|]. split; [apply two_free|]. split; reflexivity.
Qed.
Print Assumptions choices_exist_refuted.

(** closed curves through smooth knots which are apart *)
Example smooth_triangle : let K : heap := fun i => match i with O => smoothknot 0 0 | 1%nat => smoothknot 1 0 | _ => smoothknot 0 1 end in
  (forall i, (i < 3)%nat -> proper 3 K i) /\ free 3 (1 / 100) K 1 /\ free 3 (1 / 100) K (before 3 1).
Proof.
  assert (tense (Some 1)) as T by (exists 1; split; [reflexivity|rewrite Rabs_pos_eq; lra]).
  intros K. split; [|split].
  - intros i H. destruct i as [|[|[|]]]; [| | |lia]; (split; [right; right; exact (conj I (conj I (conj T T)))|split; intros; left; reflexivity]).
  - split; [right; right; reflexivity|]. unfold short, chord_x, chord_y. cbn. lra.
  - split; [right; right; reflexivity|]. unfold short, chord_x, chord_y. cbn. lra.
Qed.

Example at_least_example : has_speed (-1) (PI / 4) (PI / 4) (Rmin (speed (-1) (PI / 4) (PI / 4)) (Rabs (sin (PI / 4)) / (meeting (PI / 4) (PI / 4) * slack))).
Proof.
  assert (0 < sin (PI / 4)) as A by (apply sin_gt_0; pose proof PI_RGT_0; lra). assert (0 < cos (PI / 4)) as B by (apply cos_gt_0; pose proof PI_RGT_0; lra).
  left. split; [lra|]. split; [left; lra|]. split; [|reflexivity]. unfold meeting. rewrite Rabs_pos_eq by lra. assert (0 < sin (PI / 4) * cos (PI / 4)) by (apply Rmult_lt_0_compat; assumption). lra.
Qed.
