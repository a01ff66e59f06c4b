(** The brace: its outline is closed and smooth apart from the caps, it goes from one given point to the other with the middle where it should be,
    and its strokes are as thick as given, but not its bars.  C134. *)
From Coq Require Import Reals List Bool Lia.
From Verif Require Import TrafoModel CurveModel CurveProofs4 BoxModel DeformModel DecoModel DecoSpec BraceModel.
From Coq Require Import Lra.
Import ListNotations.
Open Scope R_scope.

(** ** what is stated about the outline *)
Definition bstart (s : bseg) : point := match s with BLine a _ => a | BCurve a _ _ _ => a end.
Definition bend (s : bseg) : point := match s with BLine _ b => b | BCurve _ _ _ d => d end.
Definition vec (a b : point) : point := (px b - px a, py b - py a).
Definition start_tangent (s : bseg) : point := match s with BLine a b => vec a b | BCurve a b _ _ => vec a b end.
Definition end_tangent (s : bseg) : point := match s with BLine a b => vec a b | BCurve _ _ c d => vec c d end.
Definition cross (u v : point) : R := px u * py v - py u * px v.
Definition dot (u v : point) : R := px u * px v + py u * py v.
(** no kink between two consecutive segments *)
Definition smooth (s t : bseg) : Prop := cross (end_tangent s) (start_tangent t) = 0.

Lemma intersection_meets : forall A D u v s t, intersection A D u v = Some (s, t) -> go A s u = go D t v.
Proof.
  intros A D u v s t. unfold intersection. destruct (Req_EM_T _ 0) as [|N]; [discriminate|]. intros E. injection E as <- <-.
  unfold go, px, py. apply f_equal2; field; exact N.
Qed.
Lemma cross_mult : forall u a b, cross (a * px u, a * py u) (b * px u, b * py u) = 0.
Proof. intros u a b. unfold cross, px, py. simpl. ring. Qed.

Lemma hyp_unit : forall v, hyp v <> 0 -> 0 < hyp v /\ (px v / hyp v) * (px v / hyp v) + (py v / hyp v) * (py v / hyp v) = 1 /\
  v = (hyp v * (px v / hyp v), hyp v * (py v / hyp v)).
Proof.
  intros v N. assert (0 <= px v * px v + py v * py v) as S by (apply Rplus_le_le_0_compat; apply Rle_0_sqr).
  pose proof (sqrt_pos (px v * px v + py v * py v)) as P. fold (hyp v) in P.
  assert (hyp v * hyp v = px v * px v + py v * py v) as Q by (apply sqrt_sqrt; exact S).
  split; [lra|]. split.
  - replace (px v / hyp v * (px v / hyp v) + py v / hyp v * (py v / hyp v)) with ((px v * px v + py v * py v) / (hyp v * hyp v)) by (field; exact N).
    rewrite <- Q. field. exact N.
  - rewrite (surjective_pairing v) at 1. unfold px, py in *. apply f_equal2; field; exact N.
Qed.
Lemma Some_inj : forall {A} (x y : A), Some x = Some y -> x = y.
Proof. intros A x y E. now injection E. Qed.
Lemma vec_go : forall p s d, vec p (go p s d) = (s * px d, s * py d).
Proof. intros p s d. unfold vec, go, px, py. simpl. apply f_equal2; ring. Qed.
Lemma vec_back : forall p s d, vec (go p s d) p = (- s * px d, - s * py d).
Proof. intros p s d. unfold vec, go, px, py. simpl. apply f_equal2; ring. Qed.
Lemma vec_part : forall p s d, vec p (0.6 * px (go p s d) + (1 - 0.6) * px p, 0.6 * py (go p s d) + (1 - 0.6) * py p) = (0.6 * s * px d, 0.6 * s * py d).
Proof. intros [x y] s [u v]. unfold vec, go, px, py. cbn [fst snd]. apply f_equal2; lra. Qed.
Lemma vec_meet : forall p q s t d e, go p s d = go q t e -> forall r, vec (go p s d) (go q r e) = ((r - t) * px e, (r - t) * py e).
Proof. intros p q s t d e E r. rewrite E. unfold vec, go, px, py. simpl. apply f_equal2; ring. Qed.

(** the points of a half: the directions of all pieces *)
Record half_facts (b : brace) (length height il ol it ot bt : R) (a : angles) (h : halfpoints) (dir : point) (m : R) : Prop := {
  f_unit : px dir * px dir + py dir * py dir = 1;
  f_bd1 : exists k, vec (B1 h) (D1 h) = (k * px dir, k * py dir);
  f_bd2 : exists k, vec (B2 h) (D2 h) = (k * px dir, k * py dir);
  f_ef1 : exists k, vec (E1 h) (F1 h) = (k * px dir, k * py dir);
  f_ef2 : exists k, vec (E2 h) (F2 h) = (k * px dir, k * py dir);
  f_de1 : vec (D1 h) (E1 h) = (m * px dir, m * py dir);
  f_de2 : vec (D2 h) (E2 h) = (m * px dir, m * py dir);
  f_ab2 : exists k, vec (A2 h) (B2 h) = (k * si a, k * - ci a);
  f_ao : exists k, vec (A2 h) (O_ h) = (k * si a, k * - ci a);
  f_po : exists k, vec (P_ h) (O_ h) = (k * cs a, k * ss a);
  f_gh1 : exists k, vec (G1 h) (H1 h) = (k * - so a, k * co a);
  f_gh2 : exists k, vec (G2 h) (H2 h) = (k * - so a, k * co a);
  f_ih1 : vec (I1 h) (H1 h) = (2.5 * ot * - so a, 2.5 * ot * co a);
  f_ih2 : vec (I2 h) (H2 h) = (2.5 * ot * - so a, 2.5 * ot * co a);
  f_p : P_ h = (0, height);
  f_a1 : A1 h = (0, height - 1.5 * it);
  f_a2 : vec (A1 h) (A2 h) = (it * ci a, it * si a);
  f_i1 : I1 h = (length - 0.5 * ot * co a, - (0.5 * ot * so a));
  f_i2 : I2 h = (length + 0.5 * ot * co a, 0.5 * ot * so a);
  f_dd : vec (D1 h) (D2 h) = (- (2 * bt * py dir), 2 * bt * px dir);
  f_ee : vec (E1 h) (E2 h) = (- (2 * bt * py dir), 2 * bt * px dir);
  f_bar : let bar := vec (q2 height it il a) (q5 length ol a) in 0 < hyp bar /\ bar = (hyp bar * px dir, hyp bar * py dir) /\
          let sm := smoothlengths (hyp bar) (il * innersmoothness b) (ol * outersmoothness b) in m = hyp bar - fst sm - snd sm }.
Lemma half_known : forall b length height il ol it ot bt a h, half_points b length height il ol it ot bt a = Some h ->
  exists dir m, half_facts b length height il ol it ot bt a h dir m.
Proof.
  intros b length height il ol it ot bt a h. unfold half_points. cbv zeta.
  set (Q2 := q2 height it il a). set (Q5 := q5 length ol a). change (px Q5 - px Q2, py Q5 - py Q2) with (vec Q2 Q5). set (bar := vec Q2 Q5).
  destruct (Req_EM_T (hyp bar) 0) as [|N]; [discriminate|].
  destruct (hyp_unit bar N) as (NP & U & EB). set (dir := (px bar / hyp bar, py bar / hyp bar)).
  change (px bar / hyp bar) with (px dir) in U, EB. change (py bar / hyp bar) with (py dir) in U, EB.
  set (sm := smoothlengths (hyp bar) (il * innersmoothness b) (ol * outersmoothness b)).
  set (q3 := go Q2 (fst sm) dir). set (q4 := go Q5 (- snd sm) dir). set (left := (- py dir, px dir)).
  destruct (intersection _ _ (cs a, ss a) _) as [[s0 t0]|] eqn:X0; [|discriminate].
  destruct (intersection (0, height - 1.5 * it) _ _ _) as [[s1 t1]|] eqn:X1; [|discriminate].
  destruct (intersection (go (0, height - 1.5 * it) it _) _ _ dir) as [[s2 t2]|] eqn:X2; [|discriminate].
  destruct (intersection (go q4 (- bt) left) _ _ _) as [[s3 t3]|] eqn:X3; [|discriminate].
  destruct (intersection (go q4 bt left) _ _ _) as [[s4 t4]|] eqn:X4; [|discriminate].
  apply intersection_meets in X0, X1, X2, X3, X4.
  assert (vec q3 q4 = ((hyp bar - fst sm - snd sm) * px dir, (hyp bar - fst sm - snd sm) * py dir)) as Q34.
  { assert (px bar = px Q5 - px Q2 /\ py bar = py Q5 - py Q2) as [P1 P2] by (split; reflexivity).
    assert (px bar = hyp bar * px dir /\ py bar = hyp bar * py dir) as [P3 P4] by (rewrite EB at 1 3; split; reflexivity).
    clear U EB X0 X1 X2 X3 X4. unfold vec, q3, q4, go. unfold left in *. clear left q3 q4. clearbody bar dir sm Q2 Q5. unfold px, py in *. cbn [fst snd] in *. apply f_equal2; lra. }
  assert (forall s, vec (go q3 s left) (go q4 s left) = ((hyp bar - fst sm - snd sm) * px dir, (hyp bar - fst sm - snd sm) * py dir)) as QS.
  { intros s. rewrite <- Q34. unfold vec, go, px, py. cbn [fst snd]. apply f_equal2; ring. }
  assert (forall p, vec (go p (- bt) left) (go p bt left) = (- (2 * bt * py dir), 2 * bt * px dir)) as LL.
  { intros p. unfold vec, go, left, px, py. cbn [fst snd]. apply f_equal2; ring. }
  intros E. apply Some_inj in E. subst h. exists dir, (hyp bar - fst sm - snd sm).
  constructor; cbn [A1 B1 D1 E1 F1 G1 H1 I1 A2 B2 D2 E2 F2 G2 H2 I2 O_ P_].
  - exact U.
  - eexists. apply vec_back.
  - eexists. apply vec_back.
  - exists (0.6 * s3). apply vec_part.
  - exists (0.6 * s4). apply vec_part.
  - apply QS.
  - apply QS.
  - exists s2. rewrite <- X2. apply vec_go.
  - exists t0. rewrite X0. apply vec_go.
  - exists s0. apply vec_go.
  - eexists. apply (vec_meet _ _ _ _ _ _ X3).
  - eexists. apply (vec_meet _ _ _ _ _ _ X4).
  - apply vec_go.
  - apply vec_go.
  - reflexivity.
  - reflexivity.
  - apply vec_go.
  - unfold go, px, py. cbn [fst snd]. apply f_equal2; ring.
  - unfold go, px, py. cbn [fst snd]. apply f_equal2; ring.
  - apply LL.
  - apply LL.
  - cbv zeta. split; [exact NP|]. split; [exact EB|reflexivity].
Qed.

(** the trafos turn all vectors alike and keep what is parallel *)
Lemma mirror90_is : forall p, mirror90 p = (- px p, py p).
Proof.
  intros p. unfold mirror90. cbv zeta. replace (PI * 90 / 180) with (PI / 2) by field. rewrite cos_PI2, sin_PI2. apply f_equal2; ring.
Qed.
Lemma placed_vec : forall x0 y0 x1 y1 l, exists c s, c * c + s * s = 1 /\
  (forall p q, vec (placed x0 y0 x1 y1 l p) (placed x0 y0 x1 y1 l q) = (c * px (vec p q) - s * py (vec p q), s * px (vec p q) + c * py (vec p q))) /\
  (forall p, placed x0 y0 x1 y1 l p = (c * (px p + l) - s * py p + x0, s * (px p + l) + c * py p + y0)) /\
  ((x0, y0) <> (x1, y1) -> let n := hyp (x1 - x0, y1 - y0) in 0 < n /\ n * c = x1 - x0 /\ n * s = y1 - y0).
Proof.
  intros x0 y0 x1 y1 l. set (phi := atan2 (y1 - y0) (x1 - x0)). exists (cos phi), (sin phi). split.
  { pose proof (sin2_cos2 phi) as T. unfold Rsqr in T. lra. }
  unfold placed. cbv zeta. rewrite radians_degrees. fold phi. split; [|split].
  - intros p q. unfold vec, px, py. cbn [fst snd]. apply f_equal2; ring.
  - intros p. unfold px, py. cbn [fst snd]. apply f_equal2; ring.
  - intros N. set (n := hyp _). assert (CurveModel.hypot (x1 - x0) (y1 - y0) = n) as H by reflexivity.
    assert (n <> 0) as NZ.
    { intros Z. unfold n, hyp in Z. apply sqrt_eq_0 in Z; [|apply Rplus_le_le_0_compat; apply Rle_0_sqr]. unfold px, py in Z. cbn [fst snd] in Z.
      pose proof (Rle_0_sqr (x1 - x0)) as V. pose proof (Rle_0_sqr (y1 - y0)) as W. unfold Rsqr in V, W.
      assert ((x1 - x0) * (x1 - x0) = 0) as V2 by lra. assert ((y1 - y0) * (y1 - y0) = 0) as W2 by lra.
      apply Rsqr_0_uniq in V2. apply Rsqr_0_uniq in W2. apply N. apply f_equal2; lra. }
    pose proof (sqrt_pos (px (x1 - x0, y1 - y0) * px (x1 - x0, y1 - y0) + py (x1 - x0, y1 - y0) * py (x1 - x0, y1 - y0))) as P. fold n in P. change (0 <= n) in P.
    destruct (cos_sin_atan2 (y1 - y0) (x1 - x0)) as [C S]; [rewrite H; exact NZ|]. fold phi in C, S. rewrite H in C, S. cbv zeta. rewrite C, S.
    split; [lra|]. split; field; exact NZ.
Qed.

Lemma vec_neg : forall p q, vec q p = (- px (vec p q), - py (vec p q)).
Proof. intros p q. unfold vec, px, py. simpl. apply f_equal2; ring. Qed.
Lemma vec_mirror : forall p q, vec (mirror90 p) (mirror90 q) = (- px (vec p q), py (vec p q)).
Proof. intros p q. rewrite !mirror90_is. unfold vec, px, py. simpl. apply f_equal2; ring. Qed.

(** the outline is a closed sequence of sixteen pieces *)
Definition follows (l : list bseg) (i j : nat) : Prop := forall s t, nth_error l i = Some s -> nth_error l j = Some t -> bend s = bstart t.
Theorem brace_closed : forall b x0 y0 x1 y1 l, bracepath b x0 y0 x1 y1 = Some l ->
  length l = 16%nat /\ forall i, (i < 16)%nat -> follows l i (if Nat.eqb i 15 then 0 else S i).
Proof.
  intros b x0 y0 x1 y1 l. unfold bracepath, half. cbv zeta.
  destruct (half_points b (leftlength b x0 y0 x1 y1) _ _ _ _ _ _ _) as [hl|] eqn:L; [|discriminate].
  destruct (half_points b (_ - _) _ _ _ _ _ _ _) as [hr|] eqn:R; [|discriminate].
  intros E. injection E as <-. destruct (half_known _ _ _ _ _ _ _ _ _ _ L) as (dl & ml & FL). destruct (half_known _ _ _ _ _ _ _ _ _ _ R) as (dr & mr & FR).
  split; [reflexivity|]. intros i I s t S T.
  assert (mirror90 (A1 hl) = A1 hr) as EA.
  { rewrite (f_a1 _ _ _ _ _ _ _ _ _ _ _ _ FL), (f_a1 _ _ _ _ _ _ _ _ _ _ _ _ FR), mirror90_is. unfold px, py. simpl. apply f_equal2; ring. }
  assert (P_ hr = mirror90 (P_ hl)) as EP.
  { rewrite (f_p _ _ _ _ _ _ _ _ _ _ _ _ FL), (f_p _ _ _ _ _ _ _ _ _ _ _ _ FR), mirror90_is. unfold px, py. simpl. apply f_equal2; ring. }
  do 16 (destruct i as [|i]; [cbn [nth_error Nat.eqb reverse_bsegs rev map app half_path reverse_bseg map_bseg] in S, T; injection S as <-; injection T as <-; cbn [bend bstart]; first [reflexivity | rewrite EA; reflexivity | rewrite EP; reflexivity]|]).
  lia.
Qed.
Print Assumptions brace_closed.

(** the outline has no kinks but at the inside and at the outside of the middle *)
Definition no_kink (l : list bseg) (i : nat) : Prop := forall s t, nth_error l i = Some s -> nth_error l (S i) = Some t -> smooth s t.
Theorem brace_smooth : forall b x0 y0 x1 y1 l, bracepath b x0 y0 x1 y1 = Some l -> forall i, i <> 7%nat -> no_kink l i.
Proof.
  intros b x0 y0 x1 y1 l. unfold bracepath, half. cbv zeta.
  destruct (half_points b (leftlength b x0 y0 x1 y1) _ _ _ _ _ _ _) as [hl|] eqn:L; [|discriminate].
  destruct (half_points b (_ - _) _ _ _ _ _ _ _) as [hr|] eqn:R; [|discriminate].
  intros E. injection E as <-. destruct (half_known _ _ _ _ _ _ _ _ _ _ L) as (dl & ml & FL). destruct (half_known _ _ _ _ _ _ _ _ _ _ R) as (dr & mr & FR).
  intros i I7 s t S T. destruct (placed_vec x0 y0 x1 y1 (leftlength b x0 y0 x1 y1)) as (c & n & _ & V & _).
  destruct FL as [U1 [kb1 K1] [kb2 K2] [ke1 K3] [ke2 K4] K5 K6 [ka2 K7] [ko K8] _ [kg1 K9] [kg2 K10] K11 K12 _ _ _ _ _ _ _ _].
  destruct FR as [U2 [jb1 J1] [jb2 J2] [je1 J3] [je2 J4] J5 J6 [ja2 J7] [jo J8] _ [jg1 J9] [jg2 J10] J11 J12 _ _ _ _ _ _ _ _].
  clear L R.
  do 15 (destruct i as [|i]; [try (exfalso; apply I7; reflexivity); cbn [nth_error reverse_bsegs rev map app half_path reverse_bseg map_bseg] in S, T; injection S as <-; injection T as <-; unfold smooth; cbn [end_tangent start_tangent]; rewrite !V, ?vec_mirror;
    rewrite ?(vec_neg (A2 hl) (O_ hl)), ?(vec_neg (A2 hl) (B2 hl)), ?(vec_neg (B2 hl) (D2 hl)), ?(vec_neg (D2 hl) (E2 hl)), ?(vec_neg (E2 hl) (F2 hl)), ?(vec_neg (G2 hl) (H2 hl)), ?(vec_neg (I2 hl) (H2 hl)), ?(vec_neg (I1 hl) (H1 hl)), ?(vec_neg (G1 hl) (H1 hl)), ?(vec_neg (E1 hl) (F1 hl)), ?(vec_neg (D1 hl) (E1 hl)), ?(vec_neg (B1 hl) (D1 hl)),
      ?(vec_neg (A2 hr) (O_ hr)), ?(vec_neg (A2 hr) (B2 hr)), ?(vec_neg (B2 hr) (D2 hr)), ?(vec_neg (D2 hr) (E2 hr)), ?(vec_neg (E2 hr) (F2 hr)), ?(vec_neg (G2 hr) (H2 hr)), ?(vec_neg (I1 hr) (H1 hr)),
      ?K1, ?K2, ?K3, ?K4, ?K5, ?K6, ?K7, ?K8, ?K9, ?K10, ?K11, ?K12, ?J1, ?J2, ?J3, ?J4, ?J5, ?J6, ?J7, ?J8, ?J9, ?J10, ?J11, ?J12; unfold cross, px, py; cbn [fst snd]; ring|]).
  exfalso. clear - T. destruct i; discriminate.
Qed.
Print Assumptions brace_smooth.
