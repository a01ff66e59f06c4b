(** Control points *)
From Coq Require Import Reals List Bool PeanoNat Lra Lia.
From Verif Require Import CurveModel CurveProofs4 MpModel MpSpec MpProofs.
Import ListNotations.
Local Open Scope R_scope.

Lemma sqrt5 : 2 < sqrt 5 < 3.
Proof.
  split.
  - rewrite <- (sqrt_square 2) at 1 by lra. apply sqrt_lt_1; lra.
  - rewrite <- (sqrt_square 3) by lra. apply sqrt_lt_1; lra.
Qed.
Definition flat (theta phi : R) : Prop := cos theta = -1 /\ cos phi = -1.

Lemma flat_dec theta phi : flat theta phi \/ 0 < 2 + (sqrt 5 - 1) * cos theta + (3 - sqrt 5) * cos phi.
Proof.
  pose proof sqrt5 as [A B]. pose proof (COS_bound theta) as [C _]. pose proof (COS_bound phi) as [D _].
  destruct (Req_EM_T (cos theta) (-1)) as [E|E]; [destruct (Req_EM_T (cos phi) (-1)) as [F|F]; [left; split; assumption|]|]; right.
  - rewrite E. assert (0 < (3 - sqrt 5) * (cos phi + 1)) by (apply Rmult_lt_0_compat; lra). lra.
  - assert (0 < (sqrt 5 - 1) * (cos theta + 1)) by (apply Rmult_lt_0_compat; lra). assert (0 <= (3 - sqrt 5) * (cos phi + 1)) by (apply Rmult_le_pos; lra). lra.
Qed.

Lemma flat_cases theta phi : flat theta phi \/ ~ flat theta phi.
Proof. unfold flat. destruct (Req_EM_T (cos theta) (-1)), (Req_EM_T (cos phi) (-1)); tauto. Qed.

Lemma velocity_ok theta phi t : 3 / 4 <= Rabs t -> ~ flat theta phi ->
  velocity (sin theta) (cos theta) (sin phi) (cos phi) (Rabs t) = Some (speed t theta phi).
Proof.
  intros T F. destruct (flat_dec theta phi) as [G|P]; [contradiction|]. unfold velocity.
  assert (0 < 1.5 * Rabs t * (2 + (sqrt 5 - 1) * cos theta + (3 - sqrt 5) * cos phi)) by (apply Rmult_lt_0_compat; lra).
  rewrite frac_some by lra. cbn [bind]. f_equal. unfold speed. f_equal. unfold hobby.
  set (D := 2 + (sqrt 5 - 1) * cos theta + (3 - sqrt 5) * cos phi) in *. set (M := 2 + _).
  replace (3 * (1 + / 2 * (sqrt 5 - 1) * cos theta + / 2 * (3 - sqrt 5) * cos phi)) with (3 / 2 * D) by (unfold D; lra).
  replace 1.5 with (3 / 2) by lra. field. lra.
Qed.
Lemma velocity_none theta phi t : flat theta phi -> velocity (sin theta) (cos theta) (sin phi) (cos phi) t = None.
Proof.
  intros [C D]. unfold velocity. rewrite C, D. unfold frac. destruct (Req_EM_T _ 0) as [E|E]; [reflexivity|]. exfalso. apply E. ring.
Qed.

Lemma limited rr s sine : 0 < sine -> (if ab_below_cd s 1 rr sine then frac s sine else Some rr) = Some (Rmin rr (s / sine)).
Proof.
  intros P. unfold ab_below_cd, below. destruct (Rlt_dec (s * 1) (rr * sine)) as [Q|Q].
  - rewrite frac_some by lra. f_equal. symmetry. apply Rmin_right. apply (Rmult_le_reg_r sine); [lra|]. unfold Rdiv. rewrite Rmult_assoc, Rinv_l; lra.
  - f_equal. symmetry. apply Rmin_left. apply (Rmult_le_reg_r sine); [lra|]. unfold Rdiv. rewrite Rmult_assoc, Rinv_l; lra.
Qed.

Lemma same_side_dec theta phi : reflect (same_side theta phi) ((negb (below (sin theta) 0) && negb (below (sin phi) 0)) || (negb (below 0 (sin theta)) && negb (below 0 (sin phi)))).
Proof.
  unfold same_side, below. destruct (Rlt_dec (sin theta) 0), (Rlt_dec (sin phi) 0), (Rlt_dec 0 (sin theta)), (Rlt_dec 0 (sin phi)); cbn; constructor; lra.
Qed.
Lemma same_side_sym theta phi : same_side theta phi -> same_side phi theta. Proof. unfold same_side. tauto. Qed.
Lemma meeting_sym theta phi : meeting theta phi = meeting phi theta. Proof. unfold meeting. ring. Qed.

Lemma slack_pos : 0 < slack. Proof. unfold slack. lra. Qed.

Lemma velocities_ok r l theta phi : 3 / 4 <= Rabs r -> 3 / 4 <= Rabs l -> ~ flat theta phi ->
  exists v w, velocities r l (sin theta) (cos theta) (sin phi) (cos phi) = Some (v, w) /\ has_speed r theta phi v /\ has_speed l phi theta w.
Proof.
  intros R0 L0 F. assert (~ flat phi theta) as F' by (unfold flat in *; tauto).
  unfold velocities. change safety with slack. rewrite velocity_ok by assumption. cbn [bind]. rewrite velocity_ok by assumption. cbn [bind].
  assert (forall t x y, ~ (t < 0) -> has_speed t x y (speed t x y)) as Pos by (intros t x y Q; right; split; [tauto|reflexivity]).
  unfold below at 1 2. destruct (same_side_dec theta phi) as [Sd|Sd].
  2:{ rewrite andb_false_r. do 2 eexists. split; [reflexivity|]. split; right; (split; [|reflexivity]); [tauto|]. intros (_ & Q & _). apply Sd, same_side_sym, Q. }
  fold (meeting theta phi). destruct (Rlt_dec 0 (meeting theta phi)) as [M|M].
  2:{ assert (below 0 (meeting theta phi) = false) as -> by (apply below_false; lra).
      assert ((if (((if Rlt_dec r 0 then true else false) || (if Rlt_dec l 0 then true else false)) && true)%bool then Some (speed r theta phi, speed l phi theta) else Some (speed r theta phi, speed l phi theta)) = Some (speed r theta phi, speed l phi theta)) as -> by (destruct (_ && _)%bool; reflexivity).
      do 2 eexists. split; [reflexivity|]. split; right; (split; [|reflexivity]); [tauto|]. rewrite meeting_sym. tauto. }
  assert (below 0 (meeting theta phi) = true) as -> by (apply below_true; exact M).
  set (sine := meeting theta phi * slack).
  assert (0 < sine) as Ps by (unfold sine; apply Rmult_lt_0_compat; [exact M|exact slack_pos]).
  pose proof (limited (speed r theta phi) (Rabs (sin phi)) sine Ps) as Lr. pose proof (limited (speed l phi theta) (Rabs (sin theta)) sine Ps) as Ll.
  assert (forall t x y z, t < 0 -> same_side x y -> 0 < meeting x y -> z = meeting x y * slack -> has_speed t x y (Rmin (speed t x y) (Rabs (sin y) / z))) as Neg.
  { intros t x y z T Sv Mv ->. left. repeat split; assumption. }
  assert (0 < meeting phi theta) as M' by (rewrite meeting_sym; exact M). assert (sine = meeting phi theta * slack) as E' by (unfold sine; now rewrite meeting_sym).
  unfold below. destruct (Rlt_dec r 0) as [Rn|Rn], (Rlt_dec l 0) as [Ln|Ln]; cbn [orb andb bind].
  - rewrite Lr. cbn [bind]. rewrite Ll. cbn [bind]. do 2 eexists. split; [reflexivity|]. split; [exact (Neg r theta phi sine Rn Sd M eq_refl)|exact (Neg l phi theta sine Ln (same_side_sym _ _ Sd) M' E')].
  - rewrite Lr. cbn [bind]. do 2 eexists. split; [reflexivity|]. split; [exact (Neg r theta phi sine Rn Sd M eq_refl)|exact (Pos l phi theta Ln)].
  - rewrite Ll. cbn [bind]. do 2 eexists. split; [reflexivity|]. split; [exact (Pos r theta phi Rn)|exact (Neg l phi theta sine Ln (same_side_sym _ _ Sd) M' E')].
  - do 2 eexists. split; [reflexivity|]. split; [exact (Pos r theta phi Rn)|exact (Pos l phi theta Ln)].
Qed.
Lemma velocities_none r l theta phi : flat theta phi -> velocities r l (sin theta) (cos theta) (sin phi) (cos phi) = None.
Proof. intros F. unfold velocities. rewrite velocity_none by exact F. reflexivity. Qed.

(** ** Sides of knots *)
Definition rside (k : knot) := (rtype k, rx k, ry k).
Definition lside (k : knot) := (ltype k, lx k, ly k).
Definition place (k : knot) := (kx k, ky k).
Lemma upd_same i f K : upd i f K i = f (K i). Proof. unfold upd. now rewrite Nat.eqb_refl. Qed.
Lemma upd_other i j f K : j <> i -> upd i f K j = K j. Proof. intros. unfold upd. destruct (Nat.eqb_spec j i); [contradiction|reflexivity]. Qed.
Lemma upd_place i j f K : (forall k, place (f k) = place k) -> place (upd i f K j) = place (K j).
Proof. intros. unfold upd. destruct (Nat.eqb_spec j i); auto. Qed.
Lemma upd_rside i j f K : (forall k, rside (f k) = rside k) -> rside (upd i f K j) = rside (K j).
Proof. intros. unfold upd. destruct (Nat.eqb_spec j i); auto. Qed.
Lemma upd_lside i j f K : (forall k, lside (f k) = lside k) -> lside (upd i f K j) = lside (K j).
Proof. intros. unfold upd. destruct (Nat.eqb_spec j i); auto. Qed.

(** what set_controls does to the heap *)
Definition controlled (K K' : heap) (i j : nat) (dx dy r l theta phi : R) : Prop :=
  exists v w, has_speed r theta phi v /\ has_speed l phi theta w /\
    rside (K' i) = (Explicit, Some (kx (K i) + (dx * cos theta - dy * sin theta) * v), Some (ky (K i) + (dy * cos theta + dx * sin theta) * v)) /\
    lside (K' j) = (Explicit, Some (kx (K j) - (dx * cos phi + dy * sin phi) * w), Some (ky (K j) - (dy * cos phi - dx * sin phi) * w)).
Definition elsewhere (K K' : heap) (ri li : nat -> Prop) : Prop :=
  (forall k, place (K' k) = place (K k)) /\ (forall k, ~ ri k -> rside (K' k) = rside (K k)) /\ (forall k, ~ li k -> lside (K' k) = lside (K k)).

Lemma set_controls_ok i j dx dy r l theta phi K : ry (K i) = Some r -> ly (K j) = Some l -> 3 / 4 <= Rabs r -> 3 / 4 <= Rabs l ->
  (flat theta phi -> set_controls i j dx dy (sin theta) (cos theta) (sin phi) (cos phi) K = None) /\
  (~ flat theta phi -> exists K', set_controls i j dx dy (sin theta) (cos theta) (sin phi) (cos phi) K = Some K' /\
     controlled K K' i j dx dy r l theta phi /\ elsewhere K K' (eq i) (eq j)).
Proof.
  intros Er El Pr Pl. unfold set_controls. rewrite Er, El. cbn [bind]. split; intros F.
  - rewrite velocities_none by exact F. reflexivity.
  - destruct (velocities_ok r l theta phi Pr Pl F) as (v & w & E & V & W). rewrite E. cbn [bind]. eexists. split; [reflexivity|]. split.
    + exists v, w. split; [exact V|]. split; [exact W|]. split.
      * rewrite upd_rside by reflexivity. rewrite upd_same. reflexivity.
      * rewrite upd_same. unfold set_left, lside. cbn [ltype lx ly].
        assert (place (upd i (fun p => set_right Explicit (Some (kx p + (dx * cos theta - dy * sin theta) * v)) (Some (ky p + (dy * cos theta + dx * sin theta) * v)) p) K j) = place (K j)) as P by (apply upd_place; reflexivity).
        unfold place in P. injection P as Px Py. rewrite Px, Py. reflexivity.
    + repeat split; intros k; intros.
      * rewrite upd_place by reflexivity. apply upd_place. reflexivity.
      * rewrite upd_rside by reflexivity. rewrite upd_other by congruence. reflexivity.
      * rewrite upd_other by congruence. apply upd_lside. reflexivity.
Qed.

(** ** All control points of a run *)
Section Index.
  Variable N : nat.
  Hypothesis N0 : (0 < N)%nat.
  Lemma along_lt p k : (along N p k < N)%nat. Proof. unfold along. apply Nat.mod_upper_bound. lia. Qed.
  Lemma along_S p k : along N p (S k) = next N (along N p k).
  Proof. unfold along, next. rewrite Nat.add_mod_idemp_l by lia. f_equal. lia. Qed.
  Lemma along_0 p : (p < N)%nat -> along N p 0 = p. Proof. intros. unfold along. rewrite Nat.add_0_r. apply Nat.mod_small. assumption. Qed.
  Lemma along_along p j k : along N (along N p j) k = along N p (j + k).
  Proof. unfold along. rewrite Nat.add_mod_idemp_l by lia. f_equal. lia. Qed.
  Lemma along_N p k : along N p (N + k) = along N p k.
  Proof. unfold along. replace (p + (N + k))%nat with (p + k + 1 * N)%nat by lia. apply Nat.mod_add. lia. Qed.
  Lemma along_inj p j k : (j < k)%nat -> (k < j + N)%nat -> along N p j <> along N p k.
  Proof.
    intros J Kk E. unfold along in E. pose proof (Nat.div_mod (p + j) N ltac:(lia)) as A. pose proof (Nat.div_mod (p + k) N ltac:(lia)) as B. rewrite E in A.
    assert (N * ((p + k) / N) - N * ((p + j) / N) = k - j)%nat as C by lia. rewrite <- Nat.mul_sub_distr_l in C.
    destruct ((p + k) / N - (p + j) / N)%nat as [|q]; [lia|]. nia.
  Qed.

  Lemma controls_ok K0 p psi th r l m : forall k K, (k + m <= N + k)%nat -> (m <= N)%nat ->
    (forall j, place (K j) = place (K0 j)) ->
    (forall j, (k <= j < k + m)%nat -> ry (K (along N p j)) = Some (r j) /\ 3 / 4 <= Rabs (r j) /\ ly (K (along N p (S j))) = Some (l j) /\ 3 / 4 <= Rabs (l j)) ->
    ((exists j, (k <= j < k + m)%nat /\ flat (th j) (- psi (S j) - th (S j))) -> all_controls N K0 p psi th (seq k m) K = None) /\
    ((forall j, (k <= j < k + m)%nat -> ~ flat (th j) (- psi (S j) - th (S j))) -> exists K', all_controls N K0 p psi th (seq k m) K = Some K' /\
       (forall j, (k <= j < k + m)%nat -> controlled K0 K' (along N p j) (along N p (S j)) (dx N K0 p j) (dy N K0 p j) (r j) (l j) (th j) (- psi (S j) - th (S j))) /\
       elsewhere K K' (fun i => exists j, (k <= j < k + m)%nat /\ i = along N p j) (fun i => exists j, (k <= j < k + m)%nat /\ i = along N p (S j))).
  Proof.
    induction m as [|m IH]; intros k K _ M P Known.
    - split; [intros (j & J & _); lia|]. intros _. exists K. split; [reflexivity|]. split; [intros; lia|]. repeat split; reflexivity.
    - cbn [seq all_controls]. destruct (Known k) as (Er & Pr & El & Pl); [lia|].
      destruct (set_controls_ok (along N p k) (along N p (S k)) (dx N K0 p k) (dy N K0 p k) (r k) (l k) (th k) (- psi (S k) - th (S k)) K Er El Pr Pl) as [Sn Ss].
      destruct (flat_cases (th k) (- psi (S k) - th (S k))) as [F|F].
      + rewrite (Sn F). cbn [bind]. split; [reflexivity|]. intros A. exfalso. apply (A k); [lia|exact F].
      + destruct (Ss F) as (K1 & E1 & C1 & P1 & R1 & L1). rewrite E1. cbn [bind].
        assert (forall j, place (K1 j) = place (K0 j)) as P2 by (intros j; rewrite P1; apply P).
        assert (forall j, (S k <= j < S k + m)%nat -> ry (K1 (along N p j)) = Some (r j) /\ 3 / 4 <= Rabs (r j) /\ ly (K1 (along N p (S j))) = Some (l j) /\ 3 / 4 <= Rabs (l j)) as Kn.
        { intros j J. destruct (Known j) as (Er' & Pr' & El' & Pl'); [lia|].
          assert (rside (K1 (along N p j)) = rside (K (along N p j))) as Q by (apply R1; apply along_inj; lia).
          assert (lside (K1 (along N p (S j))) = lside (K (along N p (S j)))) as Q' by (apply L1; apply along_inj; lia).
          unfold rside in Q. unfold lside in Q'. injection Q as _ _ ->. injection Q' as _ _ ->. auto. }
        destruct (IH (S k) K1 ltac:(lia) ltac:(lia) P2 Kn) as [I1 I2]. split.
        * intros (j & J & Fj). apply I1. exists j. split; [|exact Fj]. destruct (Nat.eq_dec j k) as [->|]; [contradiction|lia].
        * intros A. destruct I2 as (K' & E' & C' & P' & R' & L'); [intros j J; apply A; lia|]. exists K'. split; [exact E'|]. split; [|split; [|split]].
          -- intros j J. destruct (Nat.eq_dec j k) as [->|]; [|apply C'; lia]. destruct C1 as (v & w & V & W & Cr & Cl). exists v, w. split; [exact V|]. split; [exact W|].
             pose proof (P (along N p k)) as Pk. pose proof (P (along N p (S k))) as Pk'. unfold place in Pk, Pk'. injection Pk as <- <-. injection Pk' as <- <-. split.
             ++ rewrite R'; [exact Cr|]. intros (j & J' & Ej). apply (along_inj p k j); [lia|lia|exact Ej].
             ++ rewrite L'; [exact Cl|]. intros (j & J' & Ej). apply (along_inj p (S k) (S j)); [lia|lia|exact Ej].
          -- intros j. rewrite P'. apply P1.
          -- intros j J. rewrite R'; [apply R1|]; intros Q; apply J; [exists k; split; [lia|auto]|]. destruct Q as (j' & ? & ?). exists j'. split; [lia|assumption].
          -- intros j J. rewrite L'; [apply L1|]; intros Q; apply J; [exists k; split; [lia|auto]|]. destruct Q as (j' & ? & ?). exists j'. split; [lia|assumption].
  Qed.
End Index.
