(** C163: how far the handles of the curves of a cycloid reach *)
From Coq Require Import Reals List Lia Lra.
From Verif Require Import TrafoModel RootsModel CycloidModel CycloidProps.
Import ListNotations.
Open Scope R_scope.

(** the middle of the Bezier curve from the point of a circle at angle 0 to that at angle d, with handles of length h along the tangents, lies on the circle *)
Definition good_handle (r d h : R) : Prop :=
  let middle a b c e := (a + 3 * b + 3 * c + e) / 8 in
  middle r r (r * cos d + h * sin d) (r * cos d) = r * cos (d / 2) /\ middle 0 h (r * sin d - h * cos d) (r * sin d) = r * sin (d / 2).
Lemma handle_good c : INR (perloop c) <> 0 -> good_handle (Rabs (c_radius c)) (PI / INR (perloop c)) (handle c).
Proof.
  intros Hp. unfold good_handle, handle, radius. cbv zeta. change (PI / INR (perloop c)) with (Dphi c). set (r := Rabs (c_radius c)).
  assert (1 <= INR (perloop c)) as P1. { apply (le_INR 1). destruct (perloop c); [exfalso; apply Hp; reflexivity|lia]. }
  pose proof PI_RGT_0. assert (0 < Dphi c <= PI) as D.
  { unfold Dphi. split; [apply Rdiv_lt_0_compat; lra|]. apply (Rmult_le_reg_r (INR (perloop c))); [lra|]. unfold Rdiv. rewrite Rmult_assoc, Rinv_l, Rmult_1_r by lra.
    rewrite <- (Rmult_1_r PI) at 1. apply Rmult_le_compat_l; lra. }
  assert (0 < sin (Dphi c / 2)) as S by (apply sin_gt_0; lra). pose proof (sin2_cos2 (Dphi c / 2)) as A. unfold Rsqr in A.
  assert (cos (Dphi c) = 1 - 2 * (sin (Dphi c / 2) * sin (Dphi c / 2))) as ->. { replace (Dphi c) with (2 * (Dphi c / 2)) at 1 by field. rewrite cos_2a_sin. ring. }
  assert (sin (Dphi c) = 2 * sin (Dphi c / 2) * cos (Dphi c / 2)) as ->. { replace (Dphi c) with (2 * (Dphi c / 2)) at 1 by field. apply sin_2a. }
  set (s := sin (Dphi c / 2)) in *. set (k := cos (Dphi c / 2)) in *. split.
  - transitivity (r * (1 - s * s) + r * (1 - k) * k); [field; lra|]. replace (1 - s * s) with (k * k) by lra. ring.
  - field. lra.
Qed.
(** C163: the handles of all curves have in space, where the cycloid is a helix of this radius and pitch, the length which is right for a circle; on a bent path this is scaled with
    the distance from the centre of curvature, as if the cycloid had a positive sign (see cycloid_mirror_refuted). *)
Theorem cycloid_handles : forall b c epsilon l p0 p1 p2 p3, deformsubpath b c epsilon = Deformed l -> In (Curve p0 p1 p2 p3) l ->
  let speed := sqrt (Rabs (c_radius c) * Rabs (c_radius c) + (free b c / (INR (halfloops c) * PI * cos (radians (c_turn c)))) ^ 2) in
  exists i h, good_handle (Rabs (c_radius c)) (PI / INR (perloop c)) h /\
    forall j p v, (j = i /\ p = p0 /\ v = psub p1 p0) \/ (j = S i /\ p = p3 /\ v = psub p3 p2) ->
      exists s vz vy, derivable_pt_lim (along b c) (angle c j) vz /\ derivable_pt_lim (aside c) (angle c j) vy /\
        p = apply_pt (frame b (along b c (angle c j))) (0, aside c (angle c j)) /\ v = linear (frame b (along b c (angle c j))) (s * vz, s * vy) /\
        s * speed = h * Rabs (1 - curvature b (along b c (angle c j)) * (Rabs (c_radius c) * sin (angle c j))).
Proof.
  intros b c epsilon l p0 p1 p2 p3 E I speed.
  assert (INR (perloop c) <> 0 /\ INR (halfloops c) * PI * cos (radians (c_turn c)) <> 0 /\ DzDphi b c <> 0) as (Hp & Hh & Dn).
  { unfold deformsubpath in E. destruct (Rle_dec _ _) as [|T]; [discriminate|]. destruct (Req_EM_T _ _) as [|Hp]; [discriminate|].
    destruct (Req_EM_T _ _) as [|Hh]; [discriminate|]. split; auto. split; auto. apply dz_nonzero; auto. lra. }
  destruct (nz _ Hh) as (N1 & N2). pose proof PI_neq0 as Pn.
  assert (In (Curve p0 p1 p2 p3) (curves (map (points_at b c) (phis c)))) as J.
  { unfold deformsubpath in E. destruct (Rle_dec _ _) as [|T]; [discriminate|]. destruct (Req_EM_T _ _); [discriminate|]. destruct (Req_EM_T _ _); [discriminate|].
    injection E as <-. apply in_app_or in I. destruct I as [I|I]. { destruct (Rgt_dec _ _); cbn in I; [destruct I; [discriminate|contradiction]|contradiction]. }
    apply in_app_or in I. destruct I as [I|I]; auto. destruct (Rgt_dec _ _); cbn in I; [destruct I; [discriminate|contradiction]|contradiction]. }
  unfold phis in J. rewrite curves_spec in J by assumption. apply in_map_iff in J. destruct J as (i & C & _).
  assert (p0 = spot b c (angle c i) /\ p1 = padd (spot b c (angle c i)) (vec b c (angle c i)) /\ p2 = psub (spot b c (angle c (S i))) (vec b c (angle c (S i))) /\ p3 = spot b c (angle c (S i))) as (C0 & C1 & C2 & C3).
  { inversion C. repeat split; reflexivity. }
  clear C. exists i, (handle c). split; [now apply handle_good|].
  assert (forall j, exists s vz vy, derivable_pt_lim (along b c) (angle c j) vz /\ derivable_pt_lim (aside c) (angle c j) vy /\
        spot b c (angle c j) = apply_pt (frame b (along b c (angle c j))) (0, aside c (angle c j)) /\ vec b c (angle c j) = linear (frame b (along b c (angle c j))) (s * vz, s * vy) /\
        s * speed = handle c * Rabs (1 - curvature b (along b c (angle c j)) * (Rabs (c_radius c) * sin (angle c j)))) as G.
  { intros j. exists (stretch b c (angle c j)), (fst (velocity b c (angle c j))), (snd (velocity b c (angle c j))). unfold spot, vec, stretch. rewrite !place_along by exact Hh.
    set (phi := angle c j). split; [|split; [|split; [|split]]]; try reflexivity.
    - unfold along, velocity. cbn [fst].
      set (r := Rabs (c_radius c)). set (st := sin (radians (c_turn c))). set (q := free b c / (INR (halfloops c) * PI)).
      apply (derivable_pt_lim_ext (fun x => (Rabs (c_skipfirst c) + r * st * (1 - cos x)) + q * x)).
      { intros x. unfold q, Rdiv. ring. }
      replace (st * r * sin phi + q) with ((0 + (r * st) * (0 - - sin phi)) + q * 1) by ring.
      apply (derivable_pt_lim_plus (fun x => Rabs (c_skipfirst c) + r * st * (1 - cos x)) (fun x => q * x)).
      + apply (derivable_pt_lim_plus (fun _ => Rabs (c_skipfirst c)) (fun x => r * st * (1 - cos x))); [apply derivable_pt_lim_const|].
        apply (derivable_pt_lim_scal (fun x => 1 - cos x)). apply (derivable_pt_lim_minus (fun _ => 1) cos); [apply derivable_pt_lim_const|apply derivable_pt_lim_cos].
      + apply (derivable_pt_lim_scal id). apply derivable_pt_lim_id.
    - unfold aside, velocity. cbn [snd]. apply (derivable_pt_lim_scal (fun x => Rabs (c_radius c) * sin x)). apply (derivable_pt_lim_scal sin). apply derivable_pt_lim_sin.
    - assert (sqrt (radius c * radius c + DzDphi b c * DzDphi b c) = speed) as ->.
      { unfold speed. f_equal. unfold DzDphi, free, skipfirst, skiplast, radius, cosTurn, sinTurn. field. repeat split; auto. }
      assert (speed <> 0) as Sn.
      { assert (0 < speed); [|lra]. unfold speed. apply sqrt_lt_R0. pose proof (Rle_0_sqr (Rabs (c_radius c))) as Q. unfold Rsqr in Q.
        replace (free b c / (INR (halfloops c) * PI * cos (radians (c_turn c)))) with (DzDphi b c) by (unfold DzDphi, free, skipfirst, skiplast, radius, cosTurn, sinTurn; field; repeat split; auto).
        pose proof (Rsqr_pos_lt _ Dn) as Q2. unfold Rsqr in Q2. cbn [pow]. lra. }
      change (radius c) with (Rabs (c_radius c)). set (k := curvature b (along b c phi)). set (y := Rabs (c_radius c) * sin phi).
      assert ((if Req_EM_T k 0 then 1 else Rabs ((1 / k - y) / (1 / k))) = Rabs (1 - k * y)) as ->.
      { destruct (Req_EM_T k 0) as [-> |Kn]; [rewrite Rmult_0_l, Rminus_0_r, Rabs_R1; reflexivity|]. f_equal. field. exact Kn. }
      field. exact Sn. }
  intros j p v [(-> & -> & ->)|(-> & -> & ->)].
  - destruct (G i) as (s & vz & vy & G1 & G2 & G3 & G4 & G5). exists s, vz, vy. split; auto. split; auto. split; [now rewrite C0|]. split; auto. rewrite <- G4, C1, C0.
    unfold psub, padd. destruct (vec b c (angle c i)) as [vx' vy']. cbn [fst snd]. apply (f_equal2 pair); ring.
  - destruct (G (S i)) as (s & vz & vy & G1 & G2 & G3 & G4 & G5). exists s, vz, vy. split; auto. split; auto. split; [now rewrite C3|]. split; auto. rewrite <- G4, C2, C3.
    unfold psub, padd. destruct (vec b c (angle c (S i))) as [vx' vy']. cbn [fst snd]. apply (f_equal2 pair); ring.
Qed.
Print Assumptions cycloid_handles.
(** with one curve per half loop the handles are 4/3 of the radius *)
Example good_handle_ex : good_handle 3 (PI / 1) 4 /\ ~ good_handle 3 (PI / 1) 3.
Proof.
  unfold good_handle. cbv zeta. replace (PI / 1) with PI by field. rewrite cos_PI, sin_PI, cos_PI2, sin_PI2. split; [split; lra|]. intros [_ H]. lra.
Qed.
(** mirror images at the x axis *)
Definition mirror (p : point) : point := (fst p, - snd p).
Definition mirror_piece (p : piece) : piece := match p with Curve a b c d => Curve (mirror a) (mirror b) (mirror c) (mirror d) | p => p end.
(** C163: the cycloid on the other side of the mirror image of a path should be the mirror image of the cycloid.  But the scaling on bent paths does not know on which side of the
    path the cycloid is: already on a circle the handles are shortened where they have to be made longer. *)
Theorem cycloid_mirror_refuted : ~ (forall b b' c c' epsilon l,
  (forall z p, apply_pt (frame b' z) (mirror p) = mirror (apply_pt (frame b z) p)) -> (forall z, curvature b' z = - curvature b z) -> total b' = total b ->
  c' = mkcycloid (c_radius c) (halfloops c) (c_skipfirst c) (c_skiplast c) (perloop c) (- c_sign c) (c_turn c) -> c_sign c <> 0 ->
  deformsubpath b c epsilon = Deformed l -> deformsubpath b' c' epsilon = Deformed (map mirror_piece l)).
Proof.
  intros H. pose proof PI_RGT_0 as Pi.
  set (b := mkbase (20 * PI) (fun z => mktrafo (cos (z / 10)) (- sin (z / 10)) (sin (z / 10)) (cos (z / 10)) (10 * sin (z / 10)) (10 - 10 * cos (z / 10))) (fun _ => 1 / 10)).
  set (b' := mkbase (20 * PI) (fun z => mktrafo (cos (z / 10)) (sin (z / 10)) (- sin (z / 10)) (cos (z / 10)) (10 * sin (z / 10)) (- (10 - 10 * cos (z / 10)))) (fun _ => - (1 / 10))).
  set (c := mkcycloid 1 1 0 0 2 1 0). set (c' := mkcycloid 1 1 0 0 2 (- (1)) 0).
  assert (radians 0 = 0) as R0 by (unfold radians; field).
  assert (forall x s, deformsubpath (mkbase (20 * PI) (frame x) (curvature x)) (mkcycloid 1 1 0 0 2 s 0) 1 =
    Deformed (curves (map (points_at (mkbase (20 * PI) (frame x) (curvature x)) (mkcycloid 1 1 0 0 2 s 0)) (phis (mkcycloid 1 1 0 0 2 s 0))))) as E.
  { intros x s. unfold deformsubpath. destruct (Rle_dec _ _) as [L|_].
    { unfold skipfirst, skiplast, radius, sinTurn in L. cbn [total c_skipfirst c_skiplast c_radius c_turn] in L. rewrite R0, sin_0, Rabs_R0 in L. lra. }
    destruct (Req_EM_T _ 0) as [Z0|_]; [cbn in Z0; lra|]. destruct (Req_EM_T _ 0) as [Z0|_].
    { unfold cosTurn in Z0. cbn [halfloops c_turn] in Z0. rewrite R0, cos_0 in Z0. cbn [INR] in Z0. lra. }
    unfold skipfirst, skiplast. cbn [c_skipfirst c_skiplast]. rewrite Rabs_R0. destruct (Rgt_dec 0 1) as [N|_]; [lra|]. cbn [app]. now rewrite app_nil_r. }
  specialize (H b b' c c' 1 (curves (map (points_at b c) (phis c)))).
  assert (deformsubpath b' c' 1 = Deformed (map mirror_piece (curves (map (points_at b c) (phis c))))) as G.
  { apply H; auto.
    - intros z [x y]. unfold b, b', mirror, apply_pt. cbn. apply (f_equal2 pair); ring.
    - cbn. lra.
    - exact (E b 1). }
  pose proof (E b' (- (1))) as G'. change (deformsubpath b' c' 1 = Deformed (curves (map (points_at b' c') (phis c')))) in G'. rewrite G' in G. clear H E G'.
  apply (f_equal (fun r => match r with Deformed (Curve _ _ p _ :: _) => fst p | _ => 0 end)) in G.
  change (phis c') with [INR 0 * Dphi c; INR 1 * Dphi c; INR 2 * Dphi c] in G. change (phis c) with [INR 0 * Dphi c; INR 1 * Dphi c; INR 2 * Dphi c] in G.
  assert (INR 1 * Dphi c = PI / 2) as Ph by (unfold Dphi; cbn; field). rewrite Ph in G.
  cbn [map] in G. unfold points_at in G at 1 2 3 4 5 6. cbv zeta in G. cbn [curves map mirror_piece] in G.
  assert (forall x s, place (mkbase (20 * PI) (frame x) (curvature x)) (mkcycloid 1 1 0 0 2 s 0) (PI / 2) = 10 * PI) as Pl.
  { intros x s. unfold place, skipfirst, radius, sinTurn, cosTurn, DzDphi, skipfirst, skiplast, radius, sinTurn, cosTurn. cbn [total c_skipfirst c_skiplast c_radius c_turn halfloops INR].
    rewrite R0, sin_0, cos_0, Rabs_R0, cos_PI2. field. lra. }
  rewrite (Pl b 1 : place b c (PI / 2) = _) in G. rewrite (Pl b' (- (1)) : place b' c' (PI / 2) = _) in G.
  assert (forall x s, DzDphi (mkbase (20 * PI) (frame x) (curvature x)) (mkcycloid 1 1 0 0 2 s 0) = 20) as Dz.
  { intros x s. unfold DzDphi, skipfirst, radius, sinTurn, cosTurn, skipfirst, skiplast, radius, sinTurn, cosTurn. cbn [total c_skipfirst c_skiplast c_radius c_turn halfloops INR].
    rewrite R0, sin_0, cos_0, Rabs_R0. field. lra. }
  rewrite (Dz b 1 : DzDphi b c = _) in G. rewrite (Dz b' (- (1)) : DzDphi b' c' = _) in G. clear Pl Dz.
  unfold cosTurn, sinTurn, radius in G. cbn [c_turn c_radius c c'] in G. rewrite R0, sin_0, cos_0, cos_PI2, sin_PI2, Rabs_R1 in G.
  unfold mirror, apply_pt in G. cbn [frame curvature b b' m00 m01 m10 m11 v0 v1 fst snd] in G.
  replace (10 * PI / 10) with PI in G by field. rewrite sin_PI, cos_PI in G.
  destruct (Req_EM_T (- (1 / 10)) 0) as [F|_]; [lra|]. destruct (Req_EM_T (1 / 10) 0) as [F|_]; [lra|].
  replace ((1 / - (1 / 10) - 1 * 1) / (1 / - (1 / 10))) with (11 / 10) in G by field. replace ((1 / (1 / 10) - 1 * 1) / (1 / (1 / 10))) with (9 / 10) in G by field.
  rewrite !Rabs_right in G by lra. change (handle c') with (handle c) in G.
  set (t := (0 * 1 * 1 + 20 * 1) / sqrt _) in G.
  assert (0 < t) as Tp. { unfold t. apply Rdiv_lt_0_compat; [lra|]. apply sqrt_lt_R0. lra. }
  assert (0 < handle c) as Hp.
  { unfold handle, radius. cbn [c_radius c]. rewrite Rabs_R1. assert (Dphi c / 2 = PI / 4) as -> by (unfold Dphi; cbn; field).
    assert (0 < sin (PI / 4)) by (apply sin_gt_0; lra). assert (cos (PI / 4) < 1) by (rewrite <- cos_0; apply cos_decreasing_1; lra). apply Rdiv_lt_0_compat; lra. }
  assert (handle c * t = 0) as Z0 by lra. pose proof (Rmult_lt_0_compat _ _ Hp Tp). lra.
Qed.
Print Assumptions cycloid_mirror_refuted.
