(** Elliptic arcs of SVG paths: the center parametrisation of endpointarc. *)
From Coq Require Import Reals Bool List Lra Lia.
From Verif Require Import TrafoModel BboxModel CurveModel CurveProofs4 ArcModel NormsubModel NormpathModel PathModel PathNormModel NormsubProofs SvgInModel.
Import ListNotations.
Open Scope R_scope.

Local Notation pt := (R * R)%type.

(** The point at the angle t of an ellipse, SVG 1.1, F.6.3.1; phi are degrees. *)
Definition ellipse_at (c : pt) (rx ry phi t : R) : pt :=
  (fst c + cos (PI * phi / 180) * (rx * cos t) - sin (PI * phi / 180) * (ry * sin t),
   snd c + sin (PI * phi / 180) * (rx * cos t) + cos (PI * phi / 180) * (ry * sin t)).

Lemma abs_if x : (if ltb x 0 then - x else x) = Rabs x.
Proof. destruct (ltb_spec x 0); [rewrite Rabs_left by lra|rewrite Rabs_pos_eq by lra]; reflexivity. Qed.
Lemma atan2_unit x y : x * x + y * y = 1 -> cos (atan2 y x) = x /\ sin (atan2 y x) = y.
Proof.
  intros E. assert (H : hypot x y = 1) by (unfold hypot; replace (x * x + y * y) with 1 by lra; apply sqrt_1 || (replace (x ^ 2 + y ^ 2) with 1 by (simpl; lra); apply sqrt_1)).
  destruct (cos_sin_atan2 y x) as [C S]; [lra|]. rewrite C, S, H. split; field.
Qed.
Lemma turn_of x : exists (d : R) (n : Z), 0 <= d < 2 * PI /\ x = d + 2 * PI * IZR n.
Proof.
  assert (P := PI_RGT_0). exists (x - 2 * PI * IZR (Int_part (x / (2 * PI)))), (Int_part (x / (2 * PI))). split; [|ring].
  destruct (base_Int_part (x / (2 * PI))) as [A B].
  set (n := IZR (Int_part (x / (2 * PI)))) in *.
  assert (E : x = 2 * PI * (x / (2 * PI))) by (field; lra). set (q := x / (2 * PI)) in *. rewrite E.
  assert (2 * PI * n <= 2 * PI * q) by (apply Rmult_le_compat_l; lra). assert (2 * PI * (q - n) < 2 * PI * 1) by (apply Rmult_lt_compat_l; lra). lra.
Qed.

Section Center.
  Variables (p1 p2 : pt) (fA fS : bool) (rx ry phi : R).
  Hypotheses (Rx : rx <> 0) (Ry : ry <> 0) (D : p1 <> p2).

  Let cp := cos (PI * phi / 180).
  Let sp := sin (PI * phi / 180).
  Let x1 := cp * ((fst p1 - fst p2) / 2) + sp * ((snd p1 - snd p2) / 2).
  Let y1 := - sp * ((fst p1 - fst p2) / 2) + cp * ((snd p1 - snd p2) / 2).
  Let L := (x1 / Rabs rx) ^ 2 + (y1 / Rabs ry) ^ 2.
  Let k := if ltb 1 L then sqrt L else 1.

  Lemma cs1 : cp * cp + sp * sp = 1. Proof. assert (H := sin2_cos2 (PI * phi / 180)). unfold cp, sp, Rsqr in *. lra. Qed.
  Lemma back_x : cp * x1 - sp * y1 = (fst p1 - fst p2) / 2.
  Proof. unfold x1, y1. assert (H := cs1). replace (cp * (cp * ((fst p1 - fst p2) / 2) + sp * ((snd p1 - snd p2) / 2)) - sp * (- sp * ((fst p1 - fst p2) / 2) + cp * ((snd p1 - snd p2) / 2))) with ((cp * cp + sp * sp) * ((fst p1 - fst p2) / 2)) by ring. rewrite H. ring. Qed.
  Lemma back_y : sp * x1 + cp * y1 = (snd p1 - snd p2) / 2.
  Proof. unfold x1, y1. assert (H := cs1). replace (sp * (cp * ((fst p1 - fst p2) / 2) + sp * ((snd p1 - snd p2) / 2)) + cp * (- sp * ((fst p1 - fst p2) / 2) + cp * ((snd p1 - snd p2) / 2))) with ((cp * cp + sp * sp) * ((snd p1 - snd p2) / 2)) by ring. rewrite H. ring. Qed.
  Lemma abs_x : 0 < Rabs rx. Proof. now apply Rabs_pos_lt. Qed.
  Lemma abs_y : 0 < Rabs ry. Proof. now apply Rabs_pos_lt. Qed.
  Lemma L_pos : 0 < L.
  Proof.
    assert (X := abs_x). assert (Y := abs_y).
    assert (0 <= L) by (unfold L; rewrite <- !Rsqr_pow2; assert (A := Rle_0_sqr (x1 / Rabs rx)); assert (B := Rle_0_sqr (y1 / Rabs ry)); lra).
    destruct (Req_EM_T L 0) as [Z|Z]; [|lra]. exfalso. apply D.
    unfold L in Z. rewrite <- !Rsqr_pow2 in Z.
    assert (Z1 := Rplus_sqr_eq_0 _ _ Z). destruct Z1 as [Z1 Z2].
    assert (x1 = 0) by (replace x1 with (x1 / Rabs rx * Rabs rx) by (field; lra); rewrite Z1; ring).
    assert (y1 = 0) by (replace y1 with (y1 / Rabs ry * Rabs ry) by (field; lra); rewrite Z2; ring).
    assert (BX := back_x). assert (BY := back_y). rewrite H0, H1 in *. destruct p1, p2; cbn [fst snd] in *. f_equal; lra.
  Qed.
  Lemma k_ge : 1 <= k /\ L <= k * k /\ (1 < k -> k * k = L) /\ 0 < k.
  Proof.
    assert (P := L_pos). unfold k. destruct (ltb_spec 1 L) as [H|H].
    - assert (Q := sqrt_sqrt L ltac:(lra)). assert (1 < sqrt L) by (rewrite <- sqrt_1; apply sqrt_lt_1; lra). lra.
    - lra.
  Qed.
  Let px := x1 / (k * Rabs rx).
  Let py := y1 / (k * Rabs ry).
  Lemma norm_p : px * px + py * py = L / (k * k).
  Proof. assert (X := abs_x). assert (Y := abs_y). destruct k_ge as (_ & _ & _ & K). unfold px, py, L. field. repeat split; lra. Qed.
  Let n := L / (k * k).
  Lemma n_range : 0 < n <= 1.
  Proof.
    destruct k_ge as (_ & A & _ & K). assert (P := L_pos). assert (KK : 0 < k * k) by now apply Rmult_lt_0_compat.
    unfold n. split; [now apply Rdiv_lt_0_compat|]. apply Rmult_le_reg_r with (k * k); auto. unfold Rdiv. rewrite Rmult_assoc, Rinv_l by lra. lra.
  Qed.
  Let c := if Bool.eqb fA fS then - sqrt ((1 - n) / n) else sqrt ((1 - n) / n).
  Lemma c_sq : c * c = (1 - n) / n.
  Proof.
    assert (N := n_range). assert (0 <= (1 - n) / n) by (apply Rmult_le_pos; [lra|apply Rlt_le, Rinv_0_lt_compat; lra]).
    assert (Q := sqrt_sqrt _ H). unfold c. destruct (Bool.eqb fA fS); lra.
  Qed.

  Lemma center_known : center_params p1 p2 fA fS rx ry phi =
    Some (mkarc (k * Rabs rx) (k * Rabs ry) (atan2 (py + c * px) (px - c * py)) (atan2 (- py + c * px) (- px - c * py))).
  Proof.
    unfold center_params. cbv zeta. rewrite !abs_if. unfold radians.
    change (cos (PI * phi / 180)) with cp. change (sin (PI * phi / 180)) with sp.
    fold x1 y1. fold L.
    assert (X := abs_x). assert (Y := abs_y). destruct k_ge as (K1 & K2 & K3 & K).
    replace (if ltb 1 L then Rabs rx * sqrt L else Rabs rx) with (k * Rabs rx) by (unfold k; destruct (ltb 1 L); ring).
    replace (if ltb 1 L then Rabs ry * sqrt L else Rabs ry) with (k * Rabs ry) by (unfold k; destruct (ltb 1 L); ring).
    set (a := k * Rabs rx) in *. set (b := k * Rabs ry) in *.
    assert (A : 0 < a) by now apply Rmult_lt_0_compat. assert (B : 0 < b) by now apply Rmult_lt_0_compat.
    assert (EX : x1 = a * px) by (unfold px; fold a; field; lra). assert (EY : y1 = b * py) by (unfold py; fold b; field; lra).
    assert (N := norm_p). fold n in N. assert (NR := n_range).
    assert (ED : (a * y1) ^ 2 + (b * x1) ^ 2 = (a * b) ^ 2 * n) by (rewrite EX, EY, <- N; ring).
    assert (AB : 0 < (a * b) ^ 2) by (apply pow_lt; now apply Rmult_lt_0_compat).
    assert (DP : 0 < (a * b) ^ 2 * n) by (apply Rmult_lt_0_compat; lra).
    rewrite ED. unfold eqb. destruct (Req_EM_T _ _) as [Z|_]; [lra|].
    assert (EC : ((a * b) ^ 2 - (a * y1) ^ 2 - (b * x1) ^ 2) / ((a * b) ^ 2 * n) = (1 - n) / n).
    { replace ((a * b) ^ 2 - (a * y1) ^ 2 - (b * x1) ^ 2) with ((a * b) ^ 2 - ((a * y1) ^ 2 + (b * x1) ^ 2)) by ring. rewrite ED. field. repeat split; lra. }
    rewrite EC.
    replace (if ltb 0 ((1 - n) / n) then sqrt ((1 - n) / n) else 0) with (sqrt ((1 - n) / n))
      by (destruct (ltb_spec 0 ((1 - n) / n)) as [H|H]; [reflexivity|apply sqrt_neg_0; lra]).
    fold c. f_equal. f_equal.
    - f_equal; rewrite EX, EY; field; lra.
    - f_equal; rewrite EX, EY; field; lra.
  Qed.
  Lemma unit1 : (px - c * py) * (px - c * py) + (py + c * px) * (py + c * px) = 1.
  Proof.
    replace ((px - c * py) * (px - c * py) + (py + c * px) * (py + c * px)) with ((px * px + py * py) * (1 + c * c)) by ring.
    rewrite norm_p, c_sq. fold n. assert (N := n_range). field. lra.
  Qed.
  Lemma unit2 : (- px - c * py) * (- px - c * py) + (- py + c * px) * (- py + c * px) = 1.
  Proof. rewrite <- unit1. ring. Qed.

  Lemma arc_center_ends : exists m,
    ellipse_at m (k * Rabs rx) (k * Rabs ry) phi (atan2 (py + c * px) (px - c * py)) = p1 /\
    ellipse_at m (k * Rabs rx) (k * Rabs ry) phi (atan2 (- py + c * px) (- px - c * py)) = p2.
  Proof.
    destruct (atan2_unit _ _ unit1) as [C1 S1]. destruct (atan2_unit _ _ unit2) as [C2 S2].
    assert (X := abs_x). assert (Y := abs_y). destruct k_ge as (_ & _ & _ & K).
    set (a := k * Rabs rx) in *. set (b := k * Rabs ry) in *.
    assert (A : 0 < a) by now apply Rmult_lt_0_compat. assert (B : 0 < b) by now apply Rmult_lt_0_compat.
    assert (EX : a * px = x1) by (unfold px; fold a; field; lra). assert (EY : b * py = y1) by (unfold py; fold b; field; lra).
    assert (BX := back_x). assert (BY := back_y).
    exists ((fst p1 + fst p2) / 2 + cp * (a * c * py) + sp * (b * c * px), (snd p1 + snd p2) / 2 + sp * (a * c * py) - cp * (b * c * px)).
    unfold ellipse_at. rewrite C1, S1, C2, S2. fold cp sp. cbn [fst snd]. rewrite (surjective_pairing p1) at 3. rewrite (surjective_pairing p2) at 5.
    rewrite <- EX, <- EY in BX, BY.
    split.
    - replace (fst p1) with ((fst p1 + fst p2) / 2 + (fst p1 - fst p2) / 2) at 2 by field.
      replace (snd p1) with ((snd p1 + snd p2) / 2 + (snd p1 - snd p2) / 2) at 2 by field. rewrite <- BX, <- BY. f_equal; ring.
    - replace (fst p2) with ((fst p1 + fst p2) / 2 - (fst p1 - fst p2) / 2) at 2 by field.
      replace (snd p2) with ((snd p1 + snd p2) / 2 - (snd p1 - snd p2) / 2) at 2 by field. rewrite <- BX, <- BY. f_equal; ring.
  Qed.
  Lemma arc_least m k' t u : ellipse_at m (k' * Rabs rx) (k' * Rabs ry) phi t = p1 -> ellipse_at m (k' * Rabs rx) (k' * Rabs ry) phi u = p2 ->
    0 < k' -> k = 1 \/ k <= k'.
  Proof.
    intros E1 E2 K'. destruct k_ge as (K1 & K2 & K3 & K). destruct (Rle_lt_or_eq_dec 1 k K1) as [G|G]; [right|now left].
    specialize (K3 G).
    assert (EX : x1 = k' * Rabs rx * ((cos t - cos u) / 2)).
    { unfold x1. rewrite <- E1, <- E2. unfold ellipse_at. cbn [fst snd]. fold cp sp.
      replace (k' * Rabs rx * ((cos t - cos u) / 2)) with ((cp * cp + sp * sp) * (k' * Rabs rx * ((cos t - cos u) / 2))) by (rewrite cs1; ring). field. }
    assert (EY : y1 = k' * Rabs ry * ((sin t - sin u) / 2)).
    { unfold y1. rewrite <- E1, <- E2. unfold ellipse_at. cbn [fst snd]. fold cp sp.
      replace (k' * Rabs ry * ((sin t - sin u) / 2)) with ((cp * cp + sp * sp) * (k' * Rabs ry * ((sin t - sin u) / 2))) by (rewrite cs1; ring). field. }
    assert (X := abs_x). assert (Y := abs_y).
    assert (EL : L = k' * k' * (((cos t - cos u) / 2) ^ 2 + ((sin t - sin u) / 2) ^ 2)) by (unfold L; rewrite EX, EY; field; lra).
    assert (H : ((cos t - cos u) / 2) ^ 2 + ((sin t - sin u) / 2) ^ 2 <= 1).
    { assert (T := sin2_cos2 t). assert (U := sin2_cos2 u). unfold Rsqr in *. assert (0 <= (cos t + cos u) * (cos t + cos u)) by apply Rle_0_sqr.
      assert (0 <= (sin t + sin u) * (sin t + sin u)) by apply Rle_0_sqr. nra. }
    assert (k * k <= k' * k').
    { rewrite K3, EL. assert (0 < k' * k') by now apply Rmult_lt_0_compat. rewrite <- (Rmult_1_r (k' * k')) at 2. apply Rmult_le_compat_l; lra. }
    apply Rsqr_incr_0; unfold Rsqr; lra.
  Qed.
  Lemma arc_angle : exists d j, 0 < d < 2 * PI /\
    atan2 (- py + c * px) (- px - c * py) = atan2 (py + c * px) (px - c * py) + (if fS then d else - d) + 2 * PI * IZR j /\
    (if fA then PI <= d else d <= PI).
  Proof.
    destruct (atan2_unit _ _ unit1) as [C1 S1]. destruct (atan2_unit _ _ unit2) as [C2 S2].
    set (t := atan2 (py + c * px) (px - c * py)) in *. set (u := atan2 (- py + c * px) (- px - c * py)) in *.
    assert (NP := norm_p). fold n in NP. assert (N := n_range).
    assert (SD : sin (u - t) = 2 * c * n) by (rewrite sin_minus, C1, S1, C2, S2, <- NP; ring).
    assert (CD : cos (u - t) = 1 - 2 * n).
    { rewrite cos_minus, C1, S1, C2, S2.
      replace ((- px - c * py) * (px - c * py) + (- py + c * px) * (py + c * px)) with ((px * px + py * py) * (c * c - 1)) by ring.
      rewrite NP, c_sq. field. lra. }
    destruct (turn_of (if fS then u - t else t - u)) as (d & j & R & E).
    assert (SC : sin d = (if fS then 2 * c * n else - (2 * c * n)) /\ cos d = 1 - 2 * n).
    { assert (E' : d = (if fS then u - t else t - u) + 2 * IZR (- j) * PI) by (rewrite opp_IZR; lra).
      assert (SP := sin_period). assert (CP := cos_period).
      assert (per : forall x z, sin (x + 2 * IZR z * PI) = sin x /\ cos (x + 2 * IZR z * PI) = cos x).
      { intros x z. destruct z as [|q|q].
        - replace (x + 2 * IZR 0 * PI) with x by (simpl; ring). auto.
        - replace (IZR (Zpos q)) with (INR (Pos.to_nat q)) by (rewrite INR_IZR_INZ, positive_nat_Z; reflexivity). auto.
        - replace (Zneg q) with (- Z.of_nat (Pos.to_nat q))%Z by (rewrite positive_nat_Z; reflexivity). rewrite opp_IZR, <- INR_IZR_INZ.
          rewrite <- (SP (x + 2 * - INR (Pos.to_nat q) * PI) (Pos.to_nat q)), <- (CP (x + 2 * - INR (Pos.to_nat q) * PI) (Pos.to_nat q)).
          replace (x + 2 * - INR (Pos.to_nat q) * PI + 2 * INR (Pos.to_nat q) * PI) with x by ring. auto. }
      rewrite E'. destruct (per (if fS then u - t else t - u) (- j)%Z) as [-> ->]. destruct fS; [auto|].
      replace (t - u) with (- (u - t)) by ring. rewrite sin_neg, cos_neg, SD, CD. auto. }
    destruct SC as [SC CC].
    assert (D0 : d <> 0) by (intros ->; rewrite cos_0 in CC; lra).
    exists d, (if fS then j else (- j)%Z). split; [lra|]. split.
    - destruct fS; [lra|rewrite opp_IZR; lra].
    - assert (Q := sqrt_pos ((1 - n) / n)). 
      assert (CN : if Bool.eqb fA fS then 2 * c * n <= 0 else 0 <= 2 * c * n).
      { unfold c. destruct (Bool.eqb fA fS); assert (0 <= sqrt ((1 - n) / n) * n) by (apply Rmult_le_pos; lra); lra. }
      destruct fA.
      + apply Rnot_lt_le. intros LT. assert (0 < sin d) by (apply sin_gt_0; lra). destruct fS; simpl in CN; lra.
      + apply Rnot_lt_le. intros LT. assert (sin d < 0) by (apply sin_lt_0; lra). destruct fS; simpl in CN; lra.
  Qed.
End Center.

(** The arc runs from the first to the second point on an ellipse with the given axes, whose radii are
    only scaled up when needed, and by no more than needed, in the direction of the sweep flag and more than
    half around it only with the large arc flag, and less only without. *)
Theorem svg_arc_center : forall p1 p2 (fA fS : bool) rx ry phi, rx <> 0 -> ry <> 0 -> p1 <> p2 -> exists a m k d j,
  center_params p1 p2 fA fS rx ry phi = Some a /\
  ellipse_at m (rad_x a) (rad_y a) phi (theta1 a) = p1 /\ ellipse_at m (rad_x a) (rad_y a) phi (theta2 a) = p2 /\
  1 <= k /\ rad_x a = k * Rabs rx /\ rad_y a = k * Rabs ry /\
  (forall m' k' t u, 0 < k' -> ellipse_at m' (k' * Rabs rx) (k' * Rabs ry) phi t = p1 ->
    ellipse_at m' (k' * Rabs rx) (k' * Rabs ry) phi u = p2 -> k = 1 \/ k <= k') /\
  0 < d < 2 * PI /\ theta2 a = theta1 a + (if fS then d else - d) + 2 * PI * IZR j /\ (if fA then PI <= d else d <= PI).
Proof.
  intros p1 p2 fA fS rx ry phi Rx Ry D.
  assert (C := center_known p1 p2 fA fS rx ry phi Rx Ry D). destruct (arc_center_ends p1 p2 fA fS rx ry phi Rx Ry D) as (m & M1 & M2).
  destruct (arc_angle p1 p2 fA fS rx ry phi Rx Ry D) as (d & j & A1 & A2 & A3).
  eexists. exists m. eexists. exists d, j. split; [exact C|]. cbn [rad_x rad_y theta1 theta2].
  split; [exact M1|]. split; [exact M2|]. split; [apply (k_ge p1 p2 rx ry phi Rx Ry D)|]. split; [reflexivity|]. split; [reflexivity|].
  split; [|auto]. intros m' k' t u K E1 E2. eapply (arc_least p1 p2 rx ry phi Rx Ry D m' k' t u); auto.
Qed.
Print Assumptions svg_arc_center.

(** The path for it is an arc of the unit circle from the first angle, counterclockwise if the sweep flag is set, which a
    transformation maps to the ellipse. *)
Theorem svg_arc_trafo : forall a phi t, apply_pt (ellipse_trafo a phi) (cos t, sin t) = ellipse_at (0, 0) (rad_x a) (rad_y a) phi t.
Proof.
  intros a phi t. unfold ellipse_trafo, ellipse_at, apply_pt, tmul, radians. cbn -[cos sin PI Rmult]. f_equal; ring.
Qed.
Print Assumptions svg_arc_trafo.

(** Equal end points, for which SVG 1.1, F.6.2 asks to omit the arc, divide by zero. *)
Theorem svg_arc_equal_ends_refuted : forall p fA fS rx ry phi, center_params p p fA fS rx ry phi = None.
Proof.
  intros p fA fS rx ry phi. unfold center_params. cbv zeta.
  replace ((fst p - fst p) / 2) with 0 by field. replace ((snd p - snd p) / 2) with 0 by field.
  rewrite !Rmult_0_r, Rplus_0_r, !Rmult_0_r. unfold eqb. destruct (Req_EM_T _ 0) as [_|N]; auto. exfalso. apply N. simpl. ring.
Qed.

Print Assumptions svg_arc_equal_ends_refuted.
Example svg_arc_center_ex : exists a, center_params (0, 0) (6, 8) true false (-3) 2 30 = Some a /\ 3 <= rad_x a.
Proof.
  destruct (svg_arc_center (0, 0) (6, 8) true false (-3) 2 30) as (a & m & k & d & j & C & _ & _ & K & X & _); try lra; [intros E; injection E; lra|].
  exists a. split; auto. rewrite X, Rabs_left by lra. lra.
Qed.
