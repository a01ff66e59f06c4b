From Coq Require Import Reals ZArith List Arith Lia Lra.
From Verif Require Import TrafoModel RootsModel CycloidModel.
Import ListNotations.
Open Scope R_scope.

Definition padd (p q : point) : point := (fst p + fst q, snd p + snd q).
Definition psub (p q : point) : point := (fst p - fst q, snd p - snd q).
Definition linear (t : trafo) (v : point) : point := (m00 t * fst v + m01 t * snd v, m10 t * fst v + m11 t * snd v).
(** the exact cycloid over a straight path: the place along the path and the distance from it, for an angle *)
Section Exact.
Variables (b : base) (c : cycloid).
Definition free : R := total b - Rabs (c_skipfirst c) - Rabs (c_skiplast c) - 2 * (Rabs (c_radius c) * sin (radians (c_turn c))).
Definition along (phi : R) : R := Rabs (c_skipfirst c) + Rabs (c_radius c) * sin (radians (c_turn c)) * (1 - cos phi) + free * (phi / (INR (halfloops c) * PI)).
Definition aside (phi : R) : R := sign (c_sign c) * (Rabs (c_radius c) * sin phi).
(** the angle at the i-th point *)
Definition angle (i : nat) : R := INR i * PI / INR (perloop c).
End Exact.

Lemma sign_values x : sign x = 1 \/ sign x = -1.
Proof. unfold sign. destruct (Rge_dec x 0); auto. Qed.

Section Proofs.
Variables (b : base) (c : cycloid).
Hypothesis Hp : INR (perloop c) <> 0.
Hypothesis Hh : INR (halfloops c) * PI * cos (radians (c_turn c)) <> 0.
Lemma nz : INR (halfloops c) <> 0 /\ cos (radians (c_turn c)) <> 0.
Proof. split; intros E; apply Hh; rewrite E; ring. Qed.
Lemma place_along phi : place b c phi = along b c phi.
Proof.
  destruct nz as (N1 & N2). unfold place, along, free, DzDphi, skipfirst, skiplast, radius, sinTurn, cosTurn. field. repeat split; auto. apply PI_neq0.
Qed.
Lemma angle_phi i : INR i * Dphi c = angle c i.
Proof. unfold Dphi, angle. field. exact Hp. Qed.
Lemma dz_nonzero : total b > skipfirst c + skiplast c + 2 * radius c * sinTurn c -> DzDphi b c <> 0.
Proof.
  intros H. unfold DzDphi. unfold cosTurn. unfold Rdiv. apply Rmult_integral_contrapositive_currified; [lra|]. now apply Rinv_neq_0_compat.
Qed.
Lemma norm_sq phi : let tX := - cosTurn c * radius c * sin phi + sinTurn c * DzDphi b c in let tY := radius c * cos phi in
  let tZ := sinTurn c * radius c * sin phi + DzDphi b c * cosTurn c in tX * tX + tY * tY + tZ * tZ = radius c * radius c + DzDphi b c * DzDphi b c.
Proof.
  cbv zeta. pose proof (sin2_cos2 phi) as A. pose proof (sin2_cos2 (radians (c_turn c))) as B. unfold Rsqr in *. fold (sinTurn c) in B. fold (cosTurn c) in B.
  set (s := sin phi) in *. set (k := cos phi) in *. set (S := sinTurn c) in *. set (K := cosTurn c) in *. set (r := radius c). set (D := DzDphi b c).
  transitivity ((S * S + K * K) * (r * r * (s * s) + D * D) + r * r * (k * k)); [ring|]. rewrite B.
  transitivity (r * r * (s * s + k * k) + D * D); [ring|]. rewrite A. ring.
Qed.
Lemma handle_pos : 0 <= handle c.
Proof.
  assert (0 < INR (perloop c)) as P by (pose proof (pos_INR (perloop c)); lra).
  assert (1 <= INR (perloop c)) as P1. { apply (le_INR 1). destruct (perloop c); [exfalso; apply Hp; reflexivity|lia]. }
  pose proof PI_RGT_0. assert (0 < Dphi c <= PI) as D.
  { unfold Dphi. split; [apply Rdiv_lt_0_compat; lra|]. apply (Rmult_le_reg_r (INR (perloop c))); auto. unfold Rdiv. rewrite Rmult_assoc, Rinv_l, Rmult_1_r by lra.
    rewrite <- (Rmult_1_r PI) at 1. apply Rmult_le_compat_l; lra. }
  unfold handle. assert (0 < sin (Dphi c / 2)) by (apply sin_gt_0; lra). pose proof (COS_bound (Dphi c / 2)).
  unfold Rdiv. apply Rmult_le_pos; [|apply Rlt_le, Rinv_0_lt_compat; lra]. unfold radius. pose proof (Rabs_pos (c_radius c)). repeat apply Rmult_le_pos; lra.
Qed.
(** the handle of the i-th point: a multiple of the derivative of the exact cycloid *)
Definition stretch (phi : R) : R :=
  handle c * (if Req_EM_T (curvature b (place b c phi)) 0 then 1 else Rabs ((1 / curvature b (place b c phi) - radius c * sin phi) / (1 / curvature b (place b c phi)))) /
  sqrt (radius c * radius c + DzDphi b c * DzDphi b c).
Definition velocity (phi : R) : point := (sin (radians (c_turn c)) * Rabs (c_radius c) * sin phi + free b c / (INR (halfloops c) * PI), sign (c_sign c) * (Rabs (c_radius c) * cos phi)).
Definition vec (phi : R) : point := linear (frame b (place b c phi)) (stretch phi * fst (velocity phi), stretch phi * snd (velocity phi)).
Definition spot (phi : R) : point := apply_pt (frame b (place b c phi)) (0, aside c phi).
Lemma points_spec phi : points_at b c phi = (psub (spot phi) (vec phi), spot phi, padd (spot phi) (vec phi)).
Proof.
  destruct nz as (N1 & N2). unfold points_at. cbv zeta. rewrite norm_sq. unfold spot, aside, vec, stretch, velocity, linear, apply_pt, psub, padd. cbn [fst snd].
  set (f := if Req_EM_T (curvature b (place b c phi)) 0 then 1 else Rabs ((1 / curvature b (place b c phi) - radius c * sin phi) / (1 / curvature b (place b c phi)))).
  set (n := sqrt (radius c * radius c + DzDphi b c * DzDphi b c)). set (t := frame b (place b c phi)).
  assert (free b c / (INR (halfloops c) * PI) = DzDphi b c * cosTurn c) as ->.
  { unfold free, DzDphi, skipfirst, skiplast, radius, cosTurn, sinTurn. field. repeat split; auto. apply PI_neq0. }
  change (sin (radians (c_turn c))) with (sinTurn c). change (Rabs (c_radius c)) with (radius c). change (sign (c_sign c)) with (sgn c). unfold Rdiv. repeat apply (f_equal2 pair); ring.
Qed.
Lemma curves_spec : forall n i, curves (map (points_at b c) (map (fun k => INR k * Dphi c) (seq i (n + 1)))) =
  map (fun k => Curve (spot (angle c k)) (padd (spot (angle c k)) (vec (angle c k))) (psub (spot (angle c (S k))) (vec (angle c (S k)))) (spot (angle c (S k)))) (seq i n).
Proof.
  induction n as [|n IH]; intros i; [reflexivity|].
  change (S n + 1)%nat with (S (n + 1)). cbn [seq map]. rewrite <- IH. rewrite (Nat.add_comm n 1). cbn [Nat.add seq map curves]. rewrite !points_spec, !angle_phi. reflexivity.
Qed.
End Proofs.

(** C163: the new subpath consists of the part of the old one up to the skipped length, a chain of curves and the rest; the curves join, without corners, at points whose
    distance along the path and from the path is that of the exact cycloid, and leave them in its direction. *)
Theorem cycloid_chain : forall b c epsilon l, deformsubpath b c epsilon = Deformed l ->
  exists first curves last (P V : nat -> point) (s : nat -> R),
    l = first ++ curves ++ last /\
    first = (if Rgt_dec (Rabs (c_skipfirst c)) epsilon then [Start (Rabs (c_skipfirst c))] else []) /\
    last = (if Rgt_dec (Rabs (c_skiplast c)) epsilon then [End (along b c (angle c (halfloops c * perloop c)))] else []) /\
    curves = map (fun i => Curve (P i) (padd (P i) (V i)) (psub (P (S i)) (V (S i))) (P (S i))) (seq 0 (halfloops c * perloop c)) /\
    (1 <= halfloops c * perloop c)%nat /\
    forall i, P i = apply_pt (frame b (along b c (angle c i))) (0, aside c (angle c i)) /\ 0 <= s i /\
      exists vz vy, derivable_pt_lim (along b c) (angle c i) vz /\ derivable_pt_lim (aside c) (angle c i) vy /\
        V i = linear (frame b (along b c (angle c i))) (s i * vz, s i * vy) /\
        (curvature b (along b c (angle c i)) = 0 -> c_radius c <> 0 -> 0 < s i).
Proof.
  intros b c epsilon l. unfold deformsubpath. destruct (Rle_dec _ _) as [|T]; [discriminate|]. destruct (Req_EM_T _ _) as [|Hp]; [discriminate|].
  destruct (Req_EM_T _ _) as [|Hh]; [discriminate|]. unfold cosTurn in Hh. intros [= <-]. destruct (nz _ Hh) as (N1 & N2).
  exists (if Rgt_dec (skipfirst c) epsilon then [Start (place b c 0)] else []), (curves (map (points_at b c) (phis c))),
    (if Rgt_dec (skiplast c) epsilon then [End (place b c (INR (halfloops c * perloop c) * Dphi c))] else []),
    (fun i => spot b c (angle c i)), (fun i => vec b c (angle c i)), (fun i => stretch b c (angle c i)).
  split; [reflexivity|]. split; [|split; [|split; [|split]]].
  - rewrite place_along by exact Hh. unfold skipfirst, along. rewrite cos_0. replace (Rabs (c_skipfirst c) + _ * (1 - 1) + _) with (Rabs (c_skipfirst c)) by (unfold Rdiv; ring). reflexivity.
  - rewrite place_along, angle_phi by assumption. reflexivity.
  - unfold phis. now apply curves_spec.
  - destruct (perloop c); [exfalso; apply Hp; reflexivity|]. destruct (halfloops c); [exfalso; apply N1; reflexivity|]. lia.
  - intros i. rewrite <- place_along by exact Hh. split; [reflexivity|].
    pose proof (handle_pos c Hp) as Hl. assert (0 < radius c * radius c + DzDphi b c * DzDphi b c) as Nn.
    { pose proof (dz_nonzero b c Hh ltac:(lra)) as D. pose proof (Rle_0_sqr (radius c)). pose proof (Rsqr_pos_lt _ D). unfold Rsqr in *. lra. }
    split.
    { unfold stretch. unfold Rdiv at 1. apply Rmult_le_pos; [|apply Rlt_le, Rinv_0_lt_compat, sqrt_lt_R0, Nn]. apply Rmult_le_pos; auto. destruct (Req_EM_T _ 0); [lra|apply Rabs_pos]. }
    exists (fst (velocity b c (angle c i))), (snd (velocity b c (angle c i))). split; [|split; [|split]].
    + unfold along, velocity. cbn [fst].
      set (r := Rabs (c_radius c)). set (st := sin (radians (c_turn c))). set (q := free b c / (INR (halfloops c) * PI)). set (phi := angle c i).
      apply (derivable_pt_lim_ext (fun x => (Rabs (c_skipfirst c) + r * st * (1 - cos x)) + q * x)).
      { intros x. unfold q, Rdiv. ring. }
      replace (st * r * sin phi + q) with ((0 + (r * st) * (0 - - sin phi)) + q * 1) by ring.
      apply (derivable_pt_lim_plus (fun x => Rabs (c_skipfirst c) + r * st * (1 - cos x)) (fun x => q * x)).
      * apply (derivable_pt_lim_plus (fun _ => Rabs (c_skipfirst c)) (fun x => r * st * (1 - cos x))); [apply derivable_pt_lim_const|].
        apply (derivable_pt_lim_scal (fun x => 1 - cos x)). apply (derivable_pt_lim_minus (fun _ => 1) cos); [apply derivable_pt_lim_const|apply derivable_pt_lim_cos].
      * apply (derivable_pt_lim_scal id). apply derivable_pt_lim_id.
    + unfold aside, velocity. cbn [snd]. apply (derivable_pt_lim_scal (fun x => Rabs (c_radius c) * sin x)). apply (derivable_pt_lim_scal sin). apply derivable_pt_lim_sin.
    + reflexivity.
    + intros K Rn. unfold stretch. destruct (Req_EM_T _ 0) as [_|F]; [|now elim F]. unfold Rdiv. apply Rmult_lt_0_compat; [|apply Rinv_0_lt_compat, sqrt_lt_R0, Nn].
      rewrite Rmult_1_r. destruct Hl as [Hl|Hl]; [exact Hl|exfalso].
      (* the handle is not zero *)
      assert (1 <= INR (perloop c)) as P1. { apply (le_INR 1). destruct (perloop c); [exfalso; apply Hp; reflexivity|lia]. }
      pose proof PI_RGT_0. assert (0 < Dphi c <= PI) as D.
      { unfold Dphi. split; [apply Rdiv_lt_0_compat; lra|]. apply (Rmult_le_reg_r (INR (perloop c))); [lra|]. unfold Rdiv. rewrite Rmult_assoc, Rinv_l, Rmult_1_r by lra.
        rewrite <- (Rmult_1_r PI) at 1. apply Rmult_le_compat_l; lra. }
      assert (0 < sin (Dphi c / 2)) by (apply sin_gt_0; lra).
      assert (cos (Dphi c / 2) < 1) by (rewrite <- cos_0; apply cos_decreasing_1; lra).
      assert (0 < radius c) by (unfold radius; now apply Rabs_pos_lt).
      assert (0 < handle c); [|lra]. unfold handle. apply Rdiv_lt_0_compat; [|lra]. repeat apply Rmult_lt_0_compat; lra.
Qed.
Print Assumptions cycloid_chain.

Lemma cos_half h : cos (INR h * PI) = (-1) ^ h.
Proof.
  induction h as [|h IH]; [cbn [INR pow]; now rewrite Rmult_0_l, cos_0|]. rewrite S_INR. replace ((INR h + 1) * PI) with (INR h * PI + PI) by ring. rewrite neg_cos, IH. cbn [pow]. ring.
Qed.
Lemma sin_half h x : sin (INR h * PI + x) = (-1) ^ h * sin x.
Proof.
  induction h as [|h IH]; [cbn [INR pow]; now rewrite Rmult_0_l, Rplus_0_l, Rmult_1_l|]. rewrite S_INR. replace ((INR h + 1) * PI + x) with ((INR h * PI + x) + PI) by ring.
  rewrite neg_sin, IH. cbn [pow]. ring.
Qed.
(** the half loops: the points are on the path at the ends of each half loop and else on alternating sides of it, never farther away than the radius; for an odd number of
    half loops the curves end at the skipped length before the end of the path *)
Theorem cycloid_halfloops : forall b c, c_radius c <> 0 -> (1 <= halfloops c)%nat -> (1 <= perloop c)%nat ->
  (forall i, Rabs (aside c (angle c i)) <= Rabs (c_radius c)) /\
  (forall k, aside c (angle c (k * perloop c)) = 0) /\
  (forall k i, (k * perloop c < i < S k * perloop c)%nat -> 0 < aside c (angle c i) * (sign (c_sign c) * (-1) ^ k)) /\
  along b c (angle c 0) = Rabs (c_skipfirst c) /\
  (Nat.Odd (halfloops c) -> along b c (angle c (halfloops c * perloop c)) = total b - Rabs (c_skiplast c)) /\
  (Nat.Even (halfloops c) -> along b c (angle c (halfloops c * perloop c)) = total b - Rabs (c_skiplast c) - 2 * (Rabs (c_radius c) * sin (radians (c_turn c)))).
Proof.
  intros b c Rn H P. assert (1 <= INR (perloop c)) as P1 by now apply (le_INR 1). assert (1 <= INR (halfloops c)) as H1 by now apply (le_INR 1). pose proof PI_RGT_0 as Pi.
  assert (0 < Rabs (c_radius c)) as Rp by now apply Rabs_pos_lt.
  assert (forall k, angle c (k * perloop c) = INR k * PI) as Ak. { intros k. unfold angle. rewrite mult_INR. field. lra. }
  assert (sign (c_sign c) * sign (c_sign c) = 1) as Ss by (destruct (sign_values (c_sign c)) as [->| ->]; lra).
  split; [|split; [|split; [|split]]].
  - intros i. unfold aside. rewrite !Rabs_mult, Rabs_Rabsolu. assert (Rabs (sign (c_sign c)) = 1) as ->.
    { destruct (sign_values (c_sign c)) as [->| ->]; [apply Rabs_R1|rewrite Rabs_left; lra]. }
    rewrite Rmult_1_l. rewrite <- (Rmult_1_r (Rabs (c_radius c))) at 2. apply Rmult_le_compat_l; [lra|]. apply Rabs_le. pose proof (SIN_bound (angle c i)). lra.
  - intros k. rewrite Ak. unfold aside. replace (INR k * PI) with (INR k * PI + 0) by ring. rewrite sin_half, sin_0. ring.
  - intros k i (I1 & I2). assert (exists d, i = k * perloop c + d /\ 0 < d < perloop c)%nat as (d & -> & D). { exists (i - k * perloop c)%nat. cbn [Nat.mul] in I2. lia. }
    assert (angle c (k * perloop c + d) = INR k * PI + angle c d) as ->. { rewrite <- Ak. unfold angle. rewrite plus_INR. field. lra. }
    unfold aside. rewrite sin_half. assert ((-1) ^ k * (-1) ^ k = 1) as Mk. { rewrite <- Rpow_mult_distr. replace (-1 * -1) with 1 by ring. apply pow1. }
    replace (sign (c_sign c) * (Rabs (c_radius c) * ((-1) ^ k * sin (angle c d))) * (sign (c_sign c) * (-1) ^ k)) with
      ((sign (c_sign c) * sign (c_sign c)) * ((-1) ^ k * (-1) ^ k) * (Rabs (c_radius c) * sin (angle c d))) by ring.
    rewrite Ss, Mk, !Rmult_1_l. apply Rmult_lt_0_compat; auto. assert (0 < INR d < INR (perloop c)) as (D1 & D2) by (split; [apply (lt_INR 0)|apply lt_INR]; lia).
    unfold angle. apply sin_gt_0.
    + apply Rdiv_lt_0_compat; [apply Rmult_lt_0_compat; lra|lra].
    + apply (Rmult_lt_reg_r (INR (perloop c))); [lra|]. unfold Rdiv. rewrite Rmult_assoc, Rinv_l, Rmult_1_r by lra. rewrite (Rmult_comm PI). apply Rmult_lt_compat_r; lra.
  - unfold along, angle. cbn [INR]. rewrite Rmult_0_l. unfold Rdiv. rewrite !Rmult_0_l, cos_0. ring.
  - unfold along. rewrite Ak, cos_half. assert (INR (halfloops c) * PI / (INR (halfloops c) * PI) = 1) as -> by (field; lra). unfold free.
    split; intros (m & ->).
    + rewrite Nat.add_1_r. rewrite pow_1_odd. ring.
    + rewrite pow_1_even. ring.
Qed.
Print Assumptions cycloid_halfloops.

(** C163 is false of the end of the path for an even number of half loops (the default is 10): more than the skipped length is left undeformed *)
Theorem cycloid_end_refuted : ~ (forall b c epsilon l z, deformsubpath b c epsilon = Deformed l -> In (End z) l -> z = total b - Rabs (c_skiplast c)).
Proof.
  intros H. set (b := mkbase 100 (fun z => mktrafo 1 0 0 1 z 0) (fun _ => 0)). set (c := mkcycloid 1 10 10 10 3 1 45).
  assert (radians 45 = PI / 4) as R4 by (unfold radians; field). pose proof PI_RGT_0 as Pi.
  assert (0 < sin (PI / 4) < 1) as S4. { split; [apply sin_gt_0; lra|]. rewrite <- sin_PI2. apply sin_increasing_1; lra. }
  assert (0 < cos (PI / 4)) as C4 by (apply cos_gt_0; lra).
  assert (sinTurn c = sin (PI / 4)) as Sc by (unfold sinTurn; change (c_turn c) with 45; now rewrite R4).
  destruct (deformsubpath b c 1) as [|l|] eqn:E.
  - unfold deformsubpath in E. destruct (Rle_dec _ _) as [L|_]; [|destruct (Req_EM_T _ _); [discriminate|destruct (Req_EM_T _ _); discriminate]].
    rewrite Sc in L. unfold skipfirst, skiplast, radius in L. change (total b) with 100 in L. change (c_skipfirst c) with 10 in L. change (c_skiplast c) with 10 in L. change (c_radius c) with 1 in L. rewrite !Rabs_right in L by lra. lra.
  - destruct (cycloid_chain _ _ _ _ E) as (first & cs & last & P & V & s & -> & _ & L & _ & _).
    destruct (cycloid_halfloops b c) as (_ & _ & _ & _ & _ & Ev); [change (1 <> 0); lra|change (1 <= 10)%nat; lia|change (1 <= 3)%nat; lia|].
    specialize (Ev ltac:(exists 5%nat; reflexivity)). specialize (H _ _ _ _ (along b c (angle c (halfloops c * perloop c))) E).
    change (c_radius c) with 1 in Ev. change (c_turn c) with 45 in Ev. rewrite (Rabs_right 1), R4 in Ev by lra.
    assert (along b c (angle c (halfloops c * perloop c)) = total b - Rabs (c_skiplast c)) as F; [|lra].
    apply H. apply in_app_iff. right. apply in_app_iff. right. rewrite L. change (c_skiplast c) with 10. destruct (Rgt_dec _ _) as [_|N].
    + left. reflexivity.
    + exfalso. apply N. change (c_skiplast c) with 10. rewrite (Rabs_right 10); lra.
  - unfold deformsubpath in E. destruct (Rle_dec _ _); [discriminate|]. destruct (Req_EM_T _ 0) as [Z0|_]; [cbn in Z0; lra|].
    destruct (Req_EM_T _ 0) as [Z0|_]; [|discriminate]. unfold cosTurn in Z0. change (c_turn c) with 45 in Z0. rewrite R4 in Z0.
    apply Rmult_integral in Z0 as [Z0|Z0]; [|lra]. apply Rmult_integral in Z0 as [Z0|Z0]; [cbn in Z0|]; lra.
Qed.
Print Assumptions cycloid_end_refuted.

(** a sine of three half loops with two curves each on a line of length 10 *)
Example cycloid_ex : exists l, deformsubpath (mkbase 10 (fun z => mktrafo 1 0 0 1 z 0) (fun _ => 0)) (mkcycloid 1 3 2 2 2 1 0) (1/100000) = Deformed l /\ List.length l = 8%nat.
Proof.
  assert (radians 0 = 0) as R0 by (unfold radians; field). pose proof PI_RGT_0 as Pi.
  unfold deformsubpath. destruct (Rle_dec _ _) as [L|_].
  { unfold skipfirst, skiplast, radius, sinTurn in L. cbn [total c_skipfirst c_skiplast c_radius c_turn] in L. rewrite R0, sin_0, !Rabs_right in L by lra. lra. }
  destruct (Req_EM_T _ 0) as [Z0|_]; [cbn in Z0; lra|]. destruct (Req_EM_T _ 0) as [Z0|_].
  { unfold cosTurn in Z0. cbn [halfloops c_turn] in Z0. rewrite R0, cos_0 in Z0. cbn [INR] in Z0. lra. }
  eexists. split; [reflexivity|]. unfold skipfirst, skiplast. cbn [c_skipfirst c_skiplast].
  destruct (Rgt_dec (Rabs 2) (1/100000)) as [_|N]; [|exfalso; apply N; rewrite Rabs_right; lra]. reflexivity.
Qed.
