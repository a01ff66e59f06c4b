(** Lemmas about the roots of polynomials up to degree four. *)
From Coq Require Import Reals List Lra Lia Bool.
From Verif Require Import RootsModel RootsSpec.
Import ListNotations.
Open Scope R_scope.

Lemma sq_nonneg x : 0 <= x * x. Proof. nra. Qed.
Lemma mult0 a b : a * b = 0 -> a = 0 \/ b = 0.
Proof. apply Rmult_integral. Qed.

Lemma quadratic_roots a1 a0 x : In x (realroots_quadratic a1 a0) <-> x * x + a1 * x + a0 = 0.
Proof.
  unfold realroots_quadratic. destruct (Rlt_dec (a1 * a1 - 4 * a0) 0) as [H|H]; simpl.
  - split; [tauto|]. intros E. pose proof (sq_nonneg (2 * x + a1)). nra.
  - pose proof (sqrt_sqrt (a1 * a1 - 4 * a0) ltac:(lra)) as S. set (s := sqrt (a1 * a1 - 4 * a0)) in *. split.
    + intros [<-|[<-|[]]]; (transitivity ((s * s - (a1 * a1 - 4 * a0)) / 4); [field|lra]).
    + intros E. assert ((2 * x + a1 - s) * (2 * x + a1 + s) = 0) as M by lra. apply mult0 in M. destruct M; [left|right; left]; lra.
Qed.

Lemma cube_pos q : 0 < q -> 0 < q * q * q.
Proof. intros H. repeat apply Rmult_lt_0_compat; exact H. Qed.

Lemma pow13_cube x : 0 <= x -> pow13 x * pow13 x * pow13 x = x.
Proof.
  intros H. unfold pow13. destruct (Rlt_dec 0 x) as [P|P]; [|replace x with 0 by lra; ring].
  rewrite <- !Rpower_plus. replace (1/3 + 1/3 + 1/3) with 1 by field. now apply Rpower_1.
Qed.
Lemma cube_inj x y : x * x * x = y * y * y -> x = y.
Proof.
  intros H. assert ((x - y) * (x * x + x * y + y * y) = 0) as M by lra. apply mult0 in M. destruct M as [M|M]; [lra|].
  assert (x * x + x * y + y * y = (x + y / 2) * (x + y / 2) + 3 / 4 * (y * y)) as E by field. pose proof (sq_nonneg (x + y / 2)). pose proof (sq_nonneg y).
  assert (y * y = 0) as Y by lra. apply mult0 in Y. assert (y = 0) by tauto. subst y. assert (x * x = 0) as X by lra. apply mult0 in X. lra.
Qed.
Definition cbrt (x : R) : R := if Rge_dec x 0 then pow13 x else - pow13 (- x).
Lemma cbrt_cube x : cbrt x * cbrt x * cbrt x = x.
Proof.
  unfold cbrt. destruct (Rge_dec x 0) as [H|H]; [apply pow13_cube; lra|].
  pose proof (pow13_cube (- x) ltac:(lra)). lra.
Qed.

(** the depressed cubic t^3 + 3 Q t - 2 R *)
Definition Qof (a2 a1 : R) : R := (3 * a1 - a2 * a2) / 9.
Definition Rof (a2 a1 a0 : R) : R := (9 * a2 * a1 - 27 * a0 - 2 * a2 * a2 * a2) / 54.
Lemma depressed a2 a1 a0 t : let x := t - a2 / 3 in
  x * x * x + a2 * (x * x) + a1 * x + a0 = t * t * t + 3 * Qof a2 a1 * t - 2 * Rof a2 a1 a0.
Proof. unfold Qof, Rof. simpl. field. Qed.

(** the case where the code is wrong: a double root below the simple one *)
Definition bad (a2 a1 a0 : R) : Prop := exists alpha beta, alpha < beta /\
  forall x, x * x * x + a2 * (x * x) + a1 * x + a0 = (x - alpha) * (x - alpha) * (x - beta).

Definition DD a2 a1 a0 := Qof a2 a1 * Qof a2 a1 * Qof a2 a1 + Rof a2 a1 a0 * Rof a2 a1 a0.

Lemma cubic_unfold a2 a1 a0 : realroots_cubic a2 a1 a0 =
  let Q := Qof a2 a1 in let R := Rof a2 a1 a0 in let D := DD a2 a1 a0 in
  if Rgt_dec D 0 then [cbrt (R + sqrt D) + cbrt (R - sqrt D) - a2 / 3]
  else if Req_EM_T D 0 then if Req_EM_T Q 0 then [- a2 / 3] else [2 * (- sqrt (- Q)) - a2 / 3; - - sqrt (- Q) - a2 / 3]
  else let SQ := sqrt (- Q) in
    let arg := R / (SQ * SQ * SQ) in
    let theta := if Rge_dec arg 1 then 0 else if Rle_dec arg (-1) then PI else acos (R / (SQ * SQ * SQ)) in
    map (fun i => 2 * SQ * cos ((theta + 2 * 2 * i * PI) / 3) - a2 / 3) [0; 1; 2].
Proof.
  unfold realroots_cubic, DD, cbrt. fold (Qof a2 a1). fold (Rof a2 a1 a0). cbv zeta.
  destruct (Rgt_dec _ 0); auto.
  replace (- (Rof a2 a1 a0 + sqrt (Qof a2 a1 * Qof a2 a1 * Qof a2 a1 + Rof a2 a1 a0 * Rof a2 a1 a0)))
    with (- Rof a2 a1 a0 - sqrt (Qof a2 a1 * Qof a2 a1 * Qof a2 a1 + Rof a2 a1 a0 * Rof a2 a1 a0)) by ring.
  replace (- (Rof a2 a1 a0 - sqrt (Qof a2 a1 * Qof a2 a1 * Qof a2 a1 + Rof a2 a1 a0 * Rof a2 a1 a0)))
    with (sqrt (Qof a2 a1 * Qof a2 a1 * Qof a2 a1 + Rof a2 a1 a0 * Rof a2 a1 a0) - Rof a2 a1 a0) by ring. reflexivity.
Qed.

Lemma cos_third2 phi : cos (phi + 4 * PI / 3) = - (1/2) * cos phi + sqrt 3 / 2 * sin phi.
Proof.
  rewrite cos_plus. replace (4 * PI / 3) with (PI / 3 + PI) by field. rewrite neg_cos, neg_sin, cos_PI3, sin_PI3. field.
Qed.
Lemma cos_third4 phi : cos (phi + 8 * PI / 3) = - (1/2) * cos phi - sqrt 3 / 2 * sin phi.
Proof.
  replace (phi + 8 * PI / 3) with ((phi + 4 * PI / 3) + 4 * PI / 3) by field. rewrite cos_third2. rewrite cos_third2.
  replace (4 * PI / 3) with (PI / 3 + PI) by field. rewrite sin_plus, neg_cos, neg_sin, cos_PI3, sin_PI3.
  pose proof (sqrt_sqrt 3 ltac:(lra)) as S. set (s := sqrt 3) in *. replace (1 / 2) with (/ 2) by field.
  assert (s * s = 3) as S' by exact S. field_simplify. replace (s ^ 2) with 3 by (simpl; lra). field.
Qed.
Lemma cos_triple phi : cos (3 * phi) = 4 * (cos phi * cos phi * cos phi) - 3 * cos phi.
Proof.
  replace (3 * phi) with (2 * phi + phi) by ring. rewrite cos_plus, cos_2a, sin_2a.
  pose proof (sin2_cos2 phi) as E. unfold Rsqr in E. set (c := cos phi) in *. set (s := sin phi) in *. clearbody c s.
  transitivity (c * c * c - 3 * c * (s * s)); [ring|]. replace (s * s) with (1 - c * c) by lra. ring.
Qed.

Definition cub a2 a1 a0 x := x * x * x + a2 * (x * x) + a1 * x + a0.

Lemma cubic_pos a2 a1 a0 : DD a2 a1 a0 > 0 -> forall x, In x [cbrt (Rof a2 a1 a0 + sqrt (DD a2 a1 a0)) + cbrt (Rof a2 a1 a0 - sqrt (DD a2 a1 a0)) - a2 / 3] <-> cub a2 a1 a0 x = 0.
Proof.
  intros P x. set (Q := Qof a2 a1) in *. set (R := Rof a2 a1 a0) in *. assert (DD a2 a1 a0 = Q * Q * Q + R * R) as ED by reflexivity.
  pose proof (sqrt_sqrt (DD a2 a1 a0) ltac:(lra)) as SS. pose proof (sqrt_lt_R0 _ P) as SP. set (SD := sqrt (DD a2 a1 a0)) in *.
  pose proof (cbrt_cube (R + SD)) as ES. pose proof (cbrt_cube (R - SD)) as ET.
  set (S := cbrt (R + SD)) in *. set (T := cbrt (R - SD)) in *.
  assert (S * T = - Q) as ST.
  { apply cube_inj. transitivity ((S * S * S) * (T * T * T)); [ring|]. rewrite ES, ET. transitivity (R * R - SD * SD); [ring|]. rewrite SS, ED. ring. }
  assert (S <> T) as NE by (intros E; rewrite E in ES; lra).
  set (t := x + a2 / 3). assert (cub a2 a1 a0 x = t * t * t + 3 * Q * t - 2 * R) as EX.
  { unfold cub. pose proof (depressed a2 a1 a0 t) as D0. simpl in D0. replace (t - a2 / 3) with x in D0 by (unfold t; ring). exact D0. }
  assert (cub a2 a1 a0 x = (t - (S + T)) * (t * t + (S + T) * t + (S + T) * (S + T) + 3 * Q)) as EF.
  { rewrite EX. assert (2 * R = S * S * S + T * T * T) as E2 by lra. rewrite E2. replace Q with (- (S * T)) by lra. ring. }
  rewrite EF. split.
  - intros [<-|[]]. apply Rmult_eq_0_compat_r. unfold t. ring.
  - intros E. apply mult0 in E. destruct E as [E|E]; [left; unfold t in E; lra|]. exfalso.
    assert ((2 * t + (S + T)) * (2 * t + (S + T)) + 3 * ((S - T) * (S - T)) = 0) as Z.
    { replace Q with (- (S * T)) in E by lra. lra. }
    pose proof (sq_nonneg (2 * t + (S + T))). assert (0 < (S - T) * (S - T)) by (apply Rsqr_pos_lt; lra). lra.
Qed.

Lemma cubic_neg a2 a1 a0 : DD a2 a1 a0 < 0 ->
  let SQ := sqrt (- Qof a2 a1) in
  let arg := Rof a2 a1 a0 / (SQ * SQ * SQ) in
  let theta := if Rge_dec arg 1 then 0 else if Rle_dec arg (-1) then PI else acos arg in
  forall x, In x (map (fun i => 2 * SQ * cos ((theta + 2 * 2 * i * PI) / 3) - a2 / 3) [0; 1; 2]) <-> cub a2 a1 a0 x = 0.
Proof.
  intros P SQ arg theta x. subst SQ arg theta. set (Q := Qof a2 a1) in *. set (R := Rof a2 a1 a0) in *. assert (DD a2 a1 a0 = Q * Q * Q + R * R) as ED by reflexivity.
  assert (Q < 0) as QN.
  { destruct (Rlt_dec Q 0) as [|N]; auto. assert (0 <= Q * Q * Q) by (pose proof (sq_nonneg Q); apply Rmult_le_pos; [auto|lra]). pose proof (sq_nonneg R). lra. }
  pose proof (sqrt_sqrt (- Q) ltac:(lra)) as SS. pose proof (sqrt_lt_R0 (- Q) ltac:(lra)) as SP. set (SQ := sqrt (- Q)) in *.
  assert (0 < SQ * SQ * SQ) as CP by (repeat apply Rmult_lt_0_compat; auto).
  set (k := SQ * SQ * SQ) in *. set (arg := R / k).
  assert (R = arg * k) as ER by (unfold arg; field; lra).
  assert (arg * arg < 1) as AA.
  { assert (k * k = - (Q * Q * Q)) as KK by (unfold k; transitivity ((SQ * SQ) * (SQ * SQ) * (SQ * SQ)); [ring|rewrite SS; ring]).
    assert (R * R < k * k) as L by lra. rewrite ER in L. assert (0 < k * k) by (apply Rmult_lt_0_compat; auto).
    apply Rmult_lt_reg_r with (k * k); auto. lra. }
  destruct (Rge_dec arg 1) as [G|G]; [exfalso; nra|]. destruct (Rle_dec arg (-1)) as [L|L]; [exfalso; nra|].
  pose proof (cos_acos arg ltac:(lra)) as CA. set (theta := acos arg) in *.
  set (phi := theta / 3). pose proof (cos_triple phi) as C3. replace (3 * phi) with theta in C3 by (unfold phi; field). rewrite CA in C3.
  pose proof (sin2_cos2 phi) as E1. unfold Rsqr in E1. pose proof (sqrt_sqrt 3 ltac:(lra)) as S3.
  pose proof (cos_third2 phi) as T2. pose proof (cos_third4 phi) as T4.
  set (t := x + a2 / 3). assert (cub a2 a1 a0 x = t * t * t + 3 * Q * t - 2 * R) as EX.
  { unfold cub. pose proof (depressed a2 a1 a0 t) as D0. simpl in D0. replace (t - a2 / 3) with x in D0 by (unfold t; ring). exact D0. }
  set (c := cos phi) in *. set (s := sin phi) in *. set (w := sqrt 3) in *.
  assert (forall i, 2 * SQ * cos ((theta + 2 * 2 * i * PI) / 3) - a2 / 3 = x <-> t - 2 * SQ * cos (phi + 4 * i * PI / 3) = 0) as M.
  { intros i. replace ((theta + 2 * 2 * i * PI) / 3) with (phi + 4 * i * PI / 3) by (unfold phi; field). unfold t. split; lra. }
  assert (cub a2 a1 a0 x = (t - 2 * SQ * cos (phi + 4 * 0 * PI / 3)) * (t - 2 * SQ * cos (phi + 4 * 1 * PI / 3)) * (t - 2 * SQ * cos (phi + 4 * 2 * PI / 3))) as EF.
  { replace (phi + 4 * 0 * PI / 3) with phi by field. replace (phi + 4 * 1 * PI / 3) with (phi + 4 * PI / 3) by field.
    replace (phi + 4 * 2 * PI / 3) with (phi + 8 * PI / 3) by field. rewrite T2, T4. fold c. rewrite EX, ER, C3.
    replace Q with (- (SQ * SQ)) by lra. unfold k.
    clearbody c s w t. clear - E1 S3.
    transitivity (t * t * t - 3 * (SQ * SQ) * t * (s * s + c * c) - 2 * (SQ * SQ * SQ) * (4 * c * c * c - 3 * c * (s * s + c * c))); [rewrite E1; ring|].
    replace 3 with (w * w) at 1 2. field_simplify. replace (w ^ 2) with 3 by (simpl; lra). field. }
  rewrite EF. cbn [map In]. rewrite !M. split.
  - intros [E|[E|[E|[]]]]; rewrite E; ring.
  - intros E. apply mult0 in E. destruct E as [E|E]; [apply mult0 in E|]; tauto.
Qed.

Lemma cubic_zero a2 a1 a0 : DD a2 a1 a0 = 0 -> exists r, r * r = - Qof a2 a1 /\ r * r * r = Rof a2 a1 a0 /\
  forall x, cub a2 a1 a0 x = (x + a2 / 3 + r) * (x + a2 / 3 + r) * (x + a2 / 3 - 2 * r).
Proof.
  intros Z. set (Q := Qof a2 a1) in *. set (R := Rof a2 a1 a0) in *. assert (Q * Q * Q + R * R = 0) as ED by exact Z.
  assert (Q <= 0) as QN.
  { destruct (Rle_dec Q 0) as [|N]; auto. apply Rnot_le_lt in N. pose proof (cube_pos Q N). pose proof (sq_nonneg R). lra. }
  pose proof (sqrt_sqrt (- Q) ltac:(lra)) as SS. set (SQ := sqrt (- Q)) in *.
  assert (exists r, r * r = - Q /\ r * r * r = R) as (r & E1 & E2).
  { assert ((R - SQ * SQ * SQ) * (R + SQ * SQ * SQ) = 0) as M.
    { transitivity (R * R - (SQ * SQ) * (SQ * SQ) * (SQ * SQ)); [ring|]. rewrite SS. lra. }
    apply mult0 in M. destruct M; [exists SQ|exists (- SQ)]; split; lra. }
  exists r. repeat split; auto. intros x.
  pose proof (depressed a2 a1 a0 (x + a2 / 3)) as D0. simpl in D0. replace (x + a2 / 3 - a2 / 3) with x in D0 by ring. unfold cub. rewrite D0.
  fold Q R. rewrite <- E2. replace Q with (- (r * r)) by lra. ring.
Qed.

Lemma cubic_exact a2 a1 a0 : ~ bad a2 a1 a0 -> forall x, In x (realroots_cubic a2 a1 a0) <-> cub a2 a1 a0 x = 0.
Proof.
  intros NB x. rewrite cubic_unfold. cbv zeta. destruct (Rgt_dec (DD a2 a1 a0) 0) as [P|P]; [now apply cubic_pos|].
  destruct (Req_EM_T (DD a2 a1 a0) 0) as [Z|Z]; [|apply cubic_neg; lra].
  destruct (cubic_zero a2 a1 a0 Z) as (r & E1 & E2 & F). rewrite F. destruct (Req_EM_T (Qof a2 a1) 0) as [Q0|Q0].
  - assert (r = 0) as -> by (rewrite Q0 in E1; assert (r * r = 0) as M by lra; apply mult0 in M; tauto). simpl. split.
    + intros [<-|[]]. field.
    + intros E. left. apply mult0 in E. destruct E as [E|E]; [apply mult0 in E|]; lra.
  - destruct (Rle_dec r 0) as [RN|RP].
    + assert (- sqrt (- Qof a2 a1) = r) as ->.
      { rewrite <- E1. replace (r * r) with (- r * - r) by ring. rewrite sqrt_square by lra. ring. }
      simpl. split.
      * intros [<-|[<-|[]]]; field.
      * intros E. apply mult0 in E. destruct E as [E|E]; [apply mult0 in E|]; [right; left; lra|left; lra].
    + exfalso. apply NB. exists (- a2 / 3 - r), (- a2 / 3 + 2 * r). split; [lra|]. intros y. fold (cub a2 a1 a0 y). rewrite F. field.
Qed.

Lemma cubic_bad_wrong a2 a1 a0 alpha beta : alpha < beta ->
  (forall x, cub a2 a1 a0 x = (x - alpha) * (x - alpha) * (x - beta)) ->
  realroots_cubic a2 a1 a0 = [alpha - (beta - alpha) / 3; alpha + 2 * (beta - alpha) / 3].
Proof.
  intros L F. assert (a2 = - 2 * alpha - beta /\ a1 = alpha * alpha + 2 * alpha * beta /\ a0 = - (alpha * alpha * beta)) as (E2 & E1 & E0).
  { unfold cub in F. pose proof (F 0) as F0. pose proof (F 1) as F1. pose proof (F (-1)) as F2. pose proof (F 2) as F3.
    assert (a0 = - (alpha * alpha * beta)) by lra. repeat split; lra. }
  assert (Qof a2 a1 = - ((beta - alpha) / 3 * ((beta - alpha) / 3))) as EQ by (unfold Qof; rewrite E1, E2; field).
  assert (DD a2 a1 a0 = 0) as ED by (unfold DD, Qof, Rof; rewrite E1, E2, E0; field).
  rewrite cubic_unfold. cbv zeta. destruct (Rgt_dec _ 0) as [P|_]; [lra|]. destruct (Req_EM_T _ 0) as [_|N]; [|lra].
  destruct (Req_EM_T (Qof a2 a1) 0) as [Z|_].
  { rewrite EQ in Z. assert (0 < (beta - alpha) / 3 * ((beta - alpha) / 3)) by (apply Rmult_lt_0_compat; lra). lra. }
  rewrite EQ, Ropp_involutive, sqrt_square by lra. rewrite E2. f_equal; [|f_equal]; field.
Qed.

Lemma cubic_has_root a2 a1 a0 : exists x, cub a2 a1 a0 x = 0.
Proof.
  destruct (Rgt_dec (DD a2 a1 a0) 0) as [P|P].
  - eexists. apply (cubic_pos _ _ _ P). left. reflexivity.
  - destruct (Req_EM_T (DD a2 a1 a0) 0) as [Z|Z].
    + destruct (cubic_zero a2 a1 a0 Z) as (r & _ & _ & F). exists (- a2 / 3 - r). rewrite F. field.
    + eexists. apply (cubic_neg a2 a1 a0 ltac:(lra)). left. reflexivity.
Qed.

(** ** quartics *)
Definition quart a3 a2 a1 a0 x := x * x * x * x + a3 * (x * x * x) + a2 * (x * x) + a1 * x + a0.
Definition res a3 a2 a1 a0 y := cub (- a2) (a1 * a3 - 4 * a0) (4 * a0 * a2 - a1 * a1 - a0 * a3 * a3) y.
Lemma res_identity a3 a2 a1 a0 y :
  4 * res a3 a2 a1 a0 y = (a3 * a3 - 4 * a2 + 4 * y) * (y * y - 4 * a0) - (a3 * y - 2 * a1) * (a3 * y - 2 * a1).
Proof. unfold res, cub. ring. Qed.

Lemma quart_factor a3 a2 a1 a0 y : res a3 a2 a1 a0 y = 0 -> 0 <= a3 * a3 - 4 * a2 + 4 * y -> 0 <= y * y - 4 * a0 ->
  let A := sqrt (a3 * a3 - 4 * a2 + 4 * y) in let B := if Rlt_dec (a3 * y - 2 * a1) 0 then - sqrt (y * y - 4 * a0) else sqrt (y * y - 4 * a0) in
  forall x, quart a3 a2 a1 a0 x = (x * x + /2 * (a3 + A) * x + /2 * (y + B)) * (x * x + /2 * (a3 - A) * x + /2 * (y - B)).
Proof.
  intros RY HA HB A B x. pose proof (sqrt_sqrt _ HA) as SA. pose proof (sqrt_sqrt _ HB) as SB.
  pose proof (sqrt_pos (a3 * a3 - 4 * a2 + 4 * y)) as PA. pose proof (sqrt_pos (y * y - 4 * a0)) as PB.
  fold A in SA, PA. pose proof (res_identity a3 a2 a1 a0 y) as I. rewrite RY in I. rewrite <- SA, <- SB in I.
  set (b := sqrt (y * y - 4 * a0)) in *.
  assert (A * B = a3 * y - 2 * a1) as AB.
  { assert ((A * b - (a3 * y - 2 * a1)) * (A * b + (a3 * y - 2 * a1)) = 0) as M by lra. apply mult0 in M.
    assert (0 <= A * b) by (apply Rmult_le_pos; auto). unfold B. destruct (Rlt_dec (a3 * y - 2 * a1) 0); lra. }
  assert (B * B = y * y - 4 * a0) as BB by (unfold B; destruct (Rlt_dec (a3 * y - 2 * a1) 0); lra).
  clearbody A B. clear - AB BB SA. unfold quart.
  transitivity (x * x * x * x + a3 * (x * x * x) + (y + / 4 * (a3 * a3 - A * A)) * (x * x) + / 2 * (a3 * y - A * B) * x + / 4 * (y * y - B * B)).
  - rewrite SA, AB, BB. field.
  - field.
Qed.

(** a quartic with a real root has a root of the resolvent with non-negative radicands *)
Lemma quart_res_root a3 a2 a1 a0 x0 : quart a3 a2 a1 a0 x0 = 0 ->
  exists y, res a3 a2 a1 a0 y = 0 /\ 0 <= a3 * a3 - 4 * a2 + 4 * y /\ 0 <= y * y - 4 * a0.
Proof.
  intros E. set (b2 := a3 + x0). set (b1 := a2 + x0 * b2). set (b0 := a1 + x0 * b1).
  assert (a0 = - (x0 * b0)) as E0 by (unfold quart, b0, b1, b2 in *; lra).
  destruct (cubic_has_root b2 b1 b0) as (x1 & E1). set (c1 := b2 + x1). set (c0 := b1 + x1 * c1).
  assert (b0 = - (x1 * c0)) as E2 by (unfold cub, c0, c1 in *; lra).
  assert (b1 = c0 - x1 * c1) as E3 by (unfold c0; ring). assert (b2 = c1 - x1) as E4 by (unfold c1; ring).
  assert (a3 = c1 - x1 - x0) as F3 by (unfold b2 in E4; lra). assert (a2 = c0 - x1 * c1 - x0 * (c1 - x1)) as F2.
  { assert (a2 = b1 - x0 * b2) by (unfold b1; ring). rewrite H, E3, E4. ring. }
  assert (a1 = - (x1 * c0) - x0 * (c0 - x1 * c1)) as F1.
  { assert (a1 = b0 - x0 * b1) by (unfold b0; ring). rewrite H, E2, E3. ring. }
  assert (a0 = x0 * x1 * c0) as F0 by (rewrite E0, E2; ring).
  exists (x0 * x1 + c0). rewrite F3, F2, F1, F0. clearbody c1 c0. clear. split; [unfold res, cub; ring|]. split.
  - replace (_ + _) with ((x0 + x1 + c1) * (x0 + x1 + c1)) by ring. apply sq_nonneg.
  - replace (_ - _) with ((x0 * x1 - c0) * (x0 * x1 - c0)) by ring. apply sq_nonneg.
Qed.

Lemma minlist_in y ys : In (minlist y ys) (y :: ys).
Proof.
  unfold minlist. revert y. induction ys as [|z ys IH]; intros y; simpl; auto.
  destruct (IH (Rmin y z)) as [E|E]; auto. rewrite <- E. unfold Rmin. destruct (Rle_dec y z); auto.
Qed.

Definition qbad a3 a2 a1 a0 : Prop := exists alpha b c, alpha * alpha + b * alpha + c > 0 /\
  forall x, quart a3 a2 a1 a0 x = (x - alpha) * (x - alpha) * (x * x + b * x + c).

Lemma quart_coefs a3 a2 a1 a0 b3 b2 b1 b0 : (forall x, quart a3 a2 a1 a0 x = quart b3 b2 b1 b0 x) -> a3 = b3 /\ a2 = b2 /\ a1 = b1 /\ a0 = b0.
Proof.
  intros F. unfold quart in F. pose proof (F 0). pose proof (F 1). pose proof (F (-1)). pose proof (F 2). pose proof (F (-2)). repeat split; lra.
Qed.
Lemma cub_coefs a2 a1 a0 b2 b1 b0 : (forall x, cub a2 a1 a0 x = cub b2 b1 b0 x) -> a2 = b2 /\ a1 = b1 /\ a0 = b0.
Proof.
  intros F. unfold cub in F. pose proof (F 0). pose proof (F 1). pose proof (F (-1)). pose proof (F 2). repeat split; lra.
Qed.

(** if the resolvent is a case where the code is wrong, the quartic has a double root *)
Lemma bad_res a3 a2 a1 a0 : bad (- a2) (a1 * a3 - 4 * a0) (4 * a0 * a2 - a1 * a1 - a0 * a3 * a3) -> qbad a3 a2 a1 a0.
Proof.
  intros (alpha & beta & L & F).
  assert (forall y, res a3 a2 a1 a0 y = (y - alpha) * (y - alpha) * (y - beta)) as FR by exact F.
  destruct (cub_coefs (- a2) (a1 * a3 - 4 * a0) (4 * a0 * a2 - a1 * a1 - a0 * a3 * a3) (- (2 * alpha + beta)) (alpha * alpha + 2 * alpha * beta) (- (alpha * alpha * beta))) as (C2 & C1 & C0).
  { intros x. unfold cub. rewrite F. ring. }
  assert (res a3 a2 a1 a0 beta = 0) as RB by (rewrite FR; ring).
  pose proof (res_identity a3 a2 a1 a0 beta) as IB. rewrite RB in IB.
  assert (0 <= a3 * a3 - 4 * a2 + 4 * beta) as HA.
  { set (y0 := a2 - a3 * a3 / 4). pose proof (res_identity a3 a2 a1 a0 y0) as I0. rewrite FR in I0.
    replace (a3 * a3 - 4 * a2 + 4 * y0) with 0 in I0 by (unfold y0; field). pose proof (sq_nonneg (a3 * y0 - 2 * a1)).
    assert (y0 <= beta) as LE.
    { destruct (Rle_dec y0 beta); auto. exfalso. assert (0 < (y0 - alpha) * (y0 - alpha) * (y0 - beta)) by (repeat apply Rmult_lt_0_compat; lra). lra. }
    unfold y0 in LE. lra. }
  assert (0 <= beta * beta - 4 * a0) as HB.
  { pose proof (sq_nonneg (a3 * beta - 2 * a1)). destruct (Req_EM_T (a3 * a3 - 4 * a2 + 4 * beta) 0) as [Z|NZ].
    - (* then beta^2 - 4 a0 is the derivative of the resolvent *)
      rewrite Z in IB. assert ((a3 * beta - 2 * a1) * (a3 * beta - 2 * a1) = 0) as M by lra. apply mult0 in M.
      assert (a3 * beta - 2 * a1 = 0) as M1 by tauto. clear M.
      assert (beta * beta - 4 * a0 = (beta - alpha) * (beta - alpha)) as ->; [|apply sq_nonneg].
      assert (a1 = a3 * beta / 2) as A1 by lra. assert (a2 = 2 * alpha + beta) as A2 by lra. rewrite A1 in C1.
      assert (a3 * a3 = 8 * alpha) as A3 by lra.
      assert (a3 * beta / 2 * a3 = 4 * alpha * beta) as A4 by (transitivity (a3 * a3 * beta / 2); [field|rewrite A3; field]). rewrite A4 in C1. lra.
    - assert (0 < a3 * a3 - 4 * a2 + 4 * beta) as PA by lra.
      destruct (Rle_dec 0 (beta * beta - 4 * a0)); auto. exfalso.
      assert ((a3 * a3 - 4 * a2 + 4 * beta) * (- (beta * beta - 4 * a0)) > 0) by (apply Rmult_lt_0_compat; lra). lra. }
  pose proof (quart_factor a3 a2 a1 a0 beta RB HA HB) as QF. cbv zeta in QF.
  set (A := sqrt _) in QF. set (B := if Rlt_dec _ _ then _ else _) in QF.
  set (p := / 2 * (a3 + A)) in *. set (q := / 2 * (beta + B)) in *. set (r := / 2 * (a3 - A)) in *. set (s := / 2 * (beta - B)) in *.
  destruct (quart_coefs a3 a2 a1 a0 (p + r) (q + s + p * r) (p * s + q * r) (q * s)) as (D3 & D2 & D1 & D0).
  { intros x. rewrite QF. unfold quart. ring. }
  assert (q + s = beta) as QS by (unfold q, s; field). clearbody p q r s.
  assert (p * r = 2 * alpha) as PR by lra.
  assert ((p * p - 4 * q) * (r * r - 4 * s) = 0) as DISC.
  { transitivity ((p * r) * (p * r) - 4 * (a1 * a3 - 4 * a0 - (q + s) * (p * r))); [rewrite D3, D1, D0; ring|].
    rewrite C1, QS, PR. ring. }
  apply mult0 in DISC. destruct DISC as [Z|Z].
  - exists (- p / 2), r, s. split.
    + assert (- p / 2 * (- p / 2) + r * (- p / 2) + s = q + s - p * r / 2) as -> by (replace q with (p * p / 4) by lra; field). lra.
    + intros x. rewrite QF. replace q with (p * p / 4) by lra. field.
  - exists (- r / 2), p, q. split.
    + assert (- r / 2 * (- r / 2) + p * (- r / 2) + q = q + s - p * r / 2) as -> by (replace s with (r * r / 4) by lra; field). lra.
    + intros x. rewrite QF. replace s with (r * r / 4) by lra. field.
Qed.

Lemma geb_true x : geb x 0 = true <-> 0 <= x.
Proof. unfold geb. destruct (Rge_dec x 0); split; intros; auto; try discriminate; lra. Qed.

Lemma quartic_exact a3 a2 a1 a0 : ~ qbad a3 a2 a1 a0 -> forall x, In x (realroots_quartic a3 a2 a1 a0) <-> quart a3 a2 a1 a0 x = 0.
Proof.
  intros NB x. unfold realroots_quartic. set (ys := realroots_cubic _ _ _).
  assert (forall y, In y ys <-> res a3 a2 a1 a0 y = 0) as HY.
  { intros y. apply cubic_exact. intros Bd. apply NB. now apply bad_res. }
  destruct (filter _ ys) as [|y0 ys'] eqn:EF.
  - simpl. split; [tauto|]. intros E. destruct (quart_res_root _ _ _ _ _ E) as (y & R1 & R2 & R3).
    assert (In y (filter (fun y => andb (geb (a3 * a3 - 4 * a2 + 4 * y) 0) (geb (y * y - 4 * a0) 0)) ys)) as I.
    { apply filter_In. split; [now apply HY|]. apply andb_true_intro. split; now apply geb_true. }
    rewrite EF in I. destruct I.
  - cbv zeta. pose proof (minlist_in y0 ys') as I. set (y := minlist y0 ys') in *. rewrite <- EF in I. apply filter_In in I. destruct I as [I J].
    apply HY in I. apply andb_prop in J. destruct J as [J1 J2]. apply (proj1 (geb_true _)) in J1. apply (proj1 (geb_true _)) in J2.
    pose proof (quart_factor _ _ _ _ _ I J1 J2 x) as F. cbv zeta in F. rewrite F.
    destruct (Rlt_dec (a3 * y - 2 * a1) 0); rewrite in_app_iff, !quadratic_roots; split.
    + intros [E|E]; [apply Rmult_eq_0_compat_r|apply Rmult_eq_0_compat_l]; lra.
    + intros E. apply mult0 in E. destruct E as [E|E]; [left|right]; lra.
    + intros [E|E]; [apply Rmult_eq_0_compat_r|apply Rmult_eq_0_compat_l]; lra.
    + intros E. apply mult0 in E. destruct E as [E|E]; [left|right]; lra.
Qed.
