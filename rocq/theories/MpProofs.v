(** The linear equations for the angles *)
From Coq Require Import Reals List Bool PeanoNat Lra Lia.
From Verif Require Import CurveModel MpModel MpSpec.
Import ListNotations.
Local Open Scope R_scope.

Lemma frac_some a b : b <> 0 -> frac a b = Some (a / b).
Proof. intros. unfold frac. destruct (Req_EM_T b 0); [contradiction|reflexivity]. Qed.
Lemma below_true a b : a < b -> below a b = true.
Proof. intros. unfold below. destruct (Rlt_dec a b); [reflexivity|contradiction]. Qed.
Lemma below_false a b : b <= a -> below a b = false.
Proof. intros. unfold below. destruct (Rlt_dec a b); [lra|reflexivity]. Qed.
Lemma is_spec a b : reflect (a = b) (is a b).
Proof. destruct a, b; constructor; congruence. Qed.
Lemma is_refl a : is a a = true. Proof. destruct a; reflexivity. Qed.

(** ** One equation *)
(** the mock curvatures in terms of tensions *)
Definition min_ (r l d theta phi : R) : R := mock_in (1 / r) (1 / l) d theta phi.
Definition mout (r l d theta phi : R) : R := mock_out (1 / r) (1 / l) d theta phi.

Lemma mock_in_known r l d theta phi : 3 / 4 <= r -> 3 / 4 <= l -> 0 < d ->
  min_ r l d theta phi = (3 - 1 / r) * l ^ 2 / d * (phi - 1 / (3 * r - 1) * theta).
Proof. intros. unfold min_, mock_in. field. lra. Qed.
Lemma mock_out_known r l d theta phi : 3 / 4 <= r -> 3 / 4 <= l -> 0 < d ->
  mout r l d theta phi = (3 - 1 / l) * r ^ 2 / d * (theta - 1 / (3 * l - 1) * phi).
Proof. intros. unfold mout, mock_out. field. lra. Qed.

Lemma ratio_scaled ee dd c b m : 0 < m -> ee * m = c -> dd * m = b -> 0 < c -> 0 < b -> ee / (ee + dd) = c / (c + b) /\ 0 < ee + dd.
Proof.
  intros M E D C B. assert (0 < ee) by (subst; apply (Rmult_lt_reg_r m); lra). assert (0 < dd) by (subst; apply (Rmult_lt_reg_r m); lra).
  split; [|lra]. subst. field. split; [lra|]. nra.
Qed.

Lemma inverse_bound t : 3 / 4 <= t -> 0 < 1 / (3 * t - 1) <= 4 / 5.
Proof.
  intros. split; [apply Rdiv_lt_0_compat; lra|]. apply (Rmult_le_reg_r (3 * t - 1)); [lra|]. unfold Rdiv at 1. rewrite Rmult_assoc, Rinv_l; lra.
Qed.
Lemma inverse_small t : 3 / 4 <= t -> 0 < 3 - 1 / t.
Proof. intros. assert (1 / t <= 4 / 3); [|lra]. apply (Rmult_le_reg_r t); [lra|]. unfold Rdiv at 1. rewrite Rmult_assoc, Rinv_l; lra. Qed.

Lemma last_any {A} (l : list A) : forall a d1 d2, last (a :: l) d1 = last (a :: l) d2.
Proof. induction l as [|b l IH]; intros; [reflexivity|]. apply (IH b). Qed.
Lemma last_in {A} (l : list A) : forall a d, In (last (a :: l) d) (a :: l).
Proof. induction l as [|b l IH]; intros a d; [left; reflexivity|]. right. apply (IH b). Qed.
Lemma product_small a b : 0 <= a -> 0 <= b -> a < 1 -> b < 1 -> a * b < 1.
Proof. intros. rewrite <- (Rmult_1_r 1). apply Rmult_le_0_lt_compat; assumption. Qed.

Section Run.
  Variables (N : nat) (K : heap) (p : nat).
  Variable psi : nat -> R.
  Variables L Rt : nat -> R.
  Let known_l k := lt N K p k = Some (L k) /\ 3 / 4 <= L k.
  Let known_r k := rt N K p k = Some (Rt k) /\ 3 / 4 <= Rt k.
  Let d k := delta N K p k.

  (** the angle at the end of segment k *)
  Definition phi_of (th : nat -> R) (k : nat) : R := - psi (S k) - th (S k).
  (** mock curvatures agree at knot k *)
  Definition matched (th : nat -> R) (k : nat) : Prop :=
    min_ (Rt (k - 1)) (L k) (d (k - 1)) (th (k - 1)%nat) (phi_of th (k - 1)) = mout (Rt k) (L (S k)) (d k) (th k) (phi_of th k).

  Lemma entry_ok k u0 v0 w0 : (1 <= k)%nat -> known_r (k - 1) -> known_l k -> known_r k -> known_l (S k) -> 0 < d (k - 1) -> 0 < d k ->
    0 <= u0 -> u0 * (1 / (3 * Rt (k - 1) - 1)) < 1 ->
    (rtype (node N K p (k - 1)) = Curl -> v0 = - (psi 1 * u0) /\ w0 = 0 /\ k = 1%nat) ->
    exists u v w, entry N K p psi k (u0, v0, w0) = Some (u, v, w) /\ 0 < u < 1 / (3 * L (S k) - 1) /\
      (Rabs w0 + u0 <= 1 -> Rabs w + u < 1) /\
      (forall th x, th (k - 1)%nat = v0 + w0 * x - u0 * th k -> th k = v + w * x - u * th (S k) -> matched th k).
  Proof.
    intros K1 [R0 P0] [L1 P1] [R1 P2] [L2 P3] D0 D1 U0 U1 C.
    assert (d (k - 1) = delta N K p (k - 1)) as E0 by reflexivity. assert (d k = delta N K p k) as E1 by reflexivity.
    set (r := Rt (k - 1)) in *. set (l := L k) in *. set (r2 := Rt k) in *. set (tl := L (S k)) in *. set (d0 := d (k - 1)) in *. set (d1 := d k) in *.
    unfold entry. rewrite R0, L2. cbn [bind]. rewrite (frac_some 1 (3 * r - 1)) by lra. cbn [bind]. rewrite (frac_some 1 r) by lra. cbn [bind].
    rewrite (frac_some 1 (3 * tl - 1)) by lra. cbn [bind]. rewrite (frac_some 1 tl) by lra. cbn [bind]. rewrite L1, R1. cbn [bind]. rewrite <- E0, <- E1.
    pose proof (inverse_bound r P0) as [A0 A1]. pose proof (inverse_bound tl P3) as [B0 B1]. pose proof (inverse_small r P0) as I0. pose proof (inverse_small tl P3) as I1.
    set (aa := 1 / (3 * r - 1)) in *. set (bb := 1 / (3 * tl - 1)) in *. set (cc := 1 - u0 * aa). assert (0 < cc) as Cc by (unfold cc; lra).
    set (B := (3 - 1 / r) * l ^ 2 / d0). set (Cq := (3 - 1 / tl) * r2 ^ 2 / d1).
    assert (0 < l ^ 2) as Pl by (apply pow_lt; lra). assert (0 < r2 ^ 2) as Pr by (apply pow_lt; lra).
    assert (0 < B) as PB by (unfold B; apply Rdiv_lt_0_compat; [apply Rmult_lt_0_compat|]; assumption).
    assert (0 < Cq) as PC by (unfold Cq; apply Rdiv_lt_0_compat; [apply Rmult_lt_0_compat|]; assumption).
    assert (0 < B * cc) as PBc by (apply Rmult_lt_0_compat; assumption).
    assert (exists dd ee, (if below l r2 then let* q := frac l r2 in Some (d1 * (3 - 1 / r) * cc * q ^ 2, d0 * (3 - 1 / tl))
                          else if below r2 l then let* q := frac r2 l in Some (d1 * (3 - 1 / r) * cc, d0 * (3 - 1 / tl) * q ^ 2)
                          else Some (d1 * (3 - 1 / r) * cc, d0 * (3 - 1 / tl))) = Some (dd, ee) /\ ee / (ee + dd) = Cq / (Cq + B * cc) /\ 0 < ee + dd) as (dd & ee & -> & F1 & F2).
    { destruct (Rlt_dec l r2) as [Q|Q]; [|destruct (Rlt_dec r2 l) as [Q'|Q']].
      - rewrite (below_true l r2) by exact Q. rewrite frac_some by lra. cbn [bind]. eexists. eexists. split; [reflexivity|].
        apply (ratio_scaled _ _ _ _ (r2 ^ 2 / (d0 * d1))); auto.
        + apply Rdiv_lt_0_compat; [assumption|]. apply Rmult_lt_0_compat; assumption.
        + unfold Cq. field. lra.
        + unfold B. field. lra.
      - rewrite (below_false l r2) by lra. rewrite (below_true r2 l) by exact Q'. rewrite frac_some by lra. cbn [bind]. eexists. eexists. split; [reflexivity|].
        apply (ratio_scaled _ _ _ _ (l ^ 2 / (d0 * d1))); auto.
        + apply Rdiv_lt_0_compat; [assumption|]. apply Rmult_lt_0_compat; assumption.
        + unfold Cq. field. lra.
        + unfold B. field. lra.
      - rewrite (below_false l r2), (below_false r2 l) by lra. assert (l = r2) as EL by lra. eexists. eexists. split; [reflexivity|].
        apply (ratio_scaled _ _ _ _ (l ^ 2 / (d0 * d1))); auto.
        + apply Rdiv_lt_0_compat; [assumption|]. apply Rmult_lt_0_compat; assumption.
        + unfold Cq. rewrite <- EL. field. lra.
        + unfold B. field. lra. }
    cbn [bind]. rewrite frac_some by lra. cbn [bind]. rewrite F1. clear F1 F2 dd ee.
    set (S_ := Cq + B * cc). assert (0 < S_) as PS by (unfold S_; lra).
    assert (1 - Cq / S_ = B * cc / S_) as G by (unfold S_; field; unfold S_ in PS; lra).
    set (u := Cq / S_ * bb).
    assert (0 < u < bb) as U.
    { unfold u. assert (0 < Cq / S_ < 1) as [Y0 Y1].
      { split; [apply Rdiv_lt_0_compat; lra|]. assert (0 < B * cc / S_) by (apply Rdiv_lt_0_compat; assumption). lra. }
      split; [apply Rmult_lt_0_compat; lra|]. rewrite <- (Rmult_1_l bb) at 2. apply Rmult_lt_compat_r; lra. }
    (* both branches give the same *)
    set (g := B / S_).
    assert (exists v w, (if is (rtype (node N K p (k - 1))) Curl then Some (u, - (psi (S k) * u) - psi 1%nat * (1 - Cq / S_), 0)
      else let* ff := frac (1 - Cq / S_) cc in Some (u, - (psi (S k) * u) - psi k * ff - v0 * (ff * aa), - (w0 * (ff * aa)))) = Some (u, v, w) /\
      v = - (psi (S k) * u) - psi k * g - v0 * (g * aa) /\ w = - (w0 * (g * aa))) as (v & w & -> & V & W).
    { destruct (is_spec (rtype (node N K p (k - 1))) Curl) as [Q|Q].
      - destruct (C Q) as (-> & -> & ->). eexists. eexists. split; [reflexivity|]. rewrite G. split; [|ring]. unfold g, cc. field. lra.
      - rewrite frac_some by lra. cbn [bind]. eexists. eexists. split; [reflexivity|]. rewrite G. replace (B * cc / S_ / cc) with g by (unfold g; field; lra). split; reflexivity. }
    exists u, v, w. split; [reflexivity|]. split; [exact U|]. split.
    - intros Q. subst w. rewrite Rabs_Ropp, Rabs_mult. assert (0 < g * aa) as Pg by (unfold g; apply Rmult_lt_0_compat; [apply Rdiv_lt_0_compat|]; assumption). rewrite (Rabs_pos_eq (g * aa)) by lra.
      unfold u, g. apply (Rmult_lt_reg_r S_); [exact PS|].
      replace ((Rabs w0 * (B / S_ * aa) + Cq / S_ * bb) * S_) with (Rabs w0 * B * aa + Cq * bb) by (field; lra).
      unfold S_, cc. assert (Cq * bb <= Cq * (4 / 5)) by (apply Rmult_le_compat_l; lra).
      assert (B * (aa * (Rabs w0 + u0)) <= B * (4 / 5)); [|lra]. apply Rmult_le_compat_l; [lra|]. replace (4 / 5) with (4 / 5 * 1) by lra. apply Rmult_le_compat; pose proof (Rabs_pos w0); lra.
    - intros th x T0 T1. unfold matched. fold r l r2 tl d0 d1. rewrite mock_in_known, mock_out_known by assumption. fold aa bb B Cq.
      unfold phi_of. replace (S (k - 1)) with k by lia.
      assert (S_ * th k = S_ * (v + w * x - u * th (S k))) as T2 by (rewrite <- T1; reflexivity).
      assert (S_ * (v + w * x - u * th (S k)) = - B * psi k - Cq * bb * (psi (S k) + th (S k)) - B * aa * (v0 + w0 * x)) as T3.
      { rewrite V, W. unfold u, g. field. lra. }
      rewrite T3 in T2. unfold S_, cc in T2. replace (v0 + w0 * x) with (th (k - 1)%nat + u0 * th k) in T2 by lra. lra.
  Qed.

  (** ** All equations *)
  (** the equations of the elimination *)
  Fixpoint solves (x : R) (th : nat -> R) (k : nat) (es : list (R * R * R)) : Prop :=
    match es with
    | [] => True
    | (u, v, w) :: r => th k = v + w * x - u * th (S k) /\ solves x th (S k) r
    end.
  Definition small (e : R * R * R) : Prop := let '(u, _, w) := e in 0 <= u /\ Rabs w + u < 1.

  Lemma entries_ok m : forall k u0 v0 w0, (1 <= k)%nat ->
    (forall j, (k - 1 <= j < k + m)%nat -> known_r j) -> (forall j, (k <= j <= k + m)%nat -> known_l j) ->
    (forall j, (k - 1 <= j < k + m)%nat -> 0 < d j) -> 0 <= u0 -> u0 * (1 / (3 * Rt (k - 1) - 1)) < 1 ->
    (rtype (node N K p (k - 1)) = Curl -> v0 = - (psi 1 * u0) /\ w0 = 0 /\ k = 1%nat) ->
    (forall j, (k <= j < k + m)%nat -> rtype (node N K p j) <> Curl) ->
    exists es, entries N K p psi m k (u0, v0, w0) = Some es /\ length es = m /\
      (Rabs w0 + u0 <= 1 -> Forall small es) /\
      (forall u v w, (0 < m)%nat -> last ((u0, v0, w0) :: es) (u0, v0, w0) = (u, v, w) -> 0 < u < 1 / (3 * L (k + m) - 1)) /\
      (forall th x, th (k - 1)%nat = v0 + w0 * x - u0 * th k -> solves x th k es -> forall j, (k <= j < k + m)%nat -> matched th j).
  Proof.
    induction m as [|m IH]; intros k u0 v0 w0 K1 HR HL HD U0 U1 C NC.
    - exists []. split; [reflexivity|]. split; [reflexivity|]. split; [constructor|]. split; [lia|]. intros. lia.
    - destruct (entry_ok k u0 v0 w0) as (u & v & w & E & [Ua Ub] & W & M); auto; try (apply HR; lia); try (apply HL; lia); try (apply HD; lia).
      assert (known_r k) as [_ Pk] by (apply HR; lia). pose proof (inverse_bound _ Pk) as [A0 A1].
      assert (known_l (S k)) as [_ Pl] by (apply HL; lia). pose proof (inverse_bound _ Pl) as [B0 B1].
      destruct (IH (S k) u v w) as (es & Ees & Len & Sm & La & Ma); try (intros; (apply HR || apply HL || apply HD || apply NC); lia); try lia; try lra.
      + replace (S k - 1)%nat with k by lia. apply product_small; lra.
      + replace (S k - 1)%nat with k by lia. intros Q. exfalso. apply (NC k); [lia|exact Q].
      + exists ((u, v, w) :: es). cbn [entries]. rewrite E. cbn [bind]. rewrite Ees. cbn [bind]. split; [reflexivity|]. split; [cbn; lia|]. split; [|split].
        * intros Q. specialize (W Q). constructor; [split; lra|]. apply Sm. lra.
        * intros u' v' w' _ La'. destruct m as [|m].
          -- destruct es; [|discriminate]. cbn in La'. injection La' as <- <- <-. replace (k + 1)%nat with (S k) by lia. split; assumption.
          -- replace (k + S (S m))%nat with (S k + S m)%nat by lia. apply (La u' v' w'); [lia|]. destruct es as [|e es]; [discriminate|].
             rewrite <- La'. apply (last_any es e).
        * intros th x T0 [T1 T2] j J. destruct (Nat.eq_dec j k) as [->|Nj]; [apply (M th x T0 T1)|].
          apply (Ma th x); [|exact T2|lia]. replace (S k - 1)%nat with k by lia. exact T1.
  Qed.

  (** ** Curl *)
  Lemma curl_ok gamma a b : 0 <= gamma -> 3 / 4 <= a -> 3 / 4 <= b ->
    exists f, curl_ratio gamma a b = Some f /\ 0 < f /\ f * (1 / (3 * a - 1)) < 1.
  Proof.
    intros G A B. unfold curl_ratio. rewrite frac_some by lra. cbn [bind]. rewrite frac_some by lra. cbn [bind].
    assert (0 < 1 / a <= 4 / 3) as [X0 X1].
    { split; [apply Rdiv_lt_0_compat; lra|]. apply (Rmult_le_reg_r a); [lra|]. unfold Rdiv at 1. rewrite Rmult_assoc, Rinv_l; lra. }
    assert (0 < 1 / b <= 4 / 3) as [Y0 Y1].
    { split; [apply Rdiv_lt_0_compat; lra|]. apply (Rmult_le_reg_r b); [lra|]. unfold Rdiv at 1. rewrite Rmult_assoc, Rinv_l; lra. }
    assert (1 / (3 * a - 1) = 1 / a / (3 - 1 / a)) as E by (field; lra). rewrite E.
    set (x := 1 / a) in *. set (y := 1 / b) in *. clearbody x y. clear E.
    assert (0 < x ^ 2) by (apply pow_lt; lra). assert (0 < x ^ 3) by (apply pow_lt; lra). assert (0 < y ^ 2) by (apply pow_lt; lra). assert (0 < y ^ 3) by (apply pow_lt; lra).
    assert (0 <= x ^ 3 * gamma) by (apply Rmult_le_pos; lra). assert (0 < (3 - y) * y ^ 2) by (apply Rmult_lt_0_compat; lra).
    rewrite frac_some by lra. cbn [bind]. eexists. split; [reflexivity|].
    set (q := ((3 - x) * x ^ 2 * gamma + y ^ 3) / (x ^ 3 * gamma + (3 - y) * y ^ 2)).
    assert (0 <= (3 - x) * x ^ 2 * gamma) by (apply Rmult_le_pos; [apply Rmult_le_pos|]; lra).
    assert (0 < q) as Q0 by (unfold q; apply Rdiv_lt_0_compat; lra). split; [apply Rmin_glb_lt; lra|].
    assert (q * (x / (3 - x)) < 1) as Q1.
    { unfold q. apply (Rmult_lt_reg_r (x ^ 3 * gamma + (3 - y) * y ^ 2)); [lra|].
      replace (((3 - x) * x ^ 2 * gamma + y ^ 3) / (x ^ 3 * gamma + (3 - y) * y ^ 2) * (x / (3 - x)) * (x ^ 3 * gamma + (3 - y) * y ^ 2)) with (x ^ 3 * gamma + y ^ 2 * (x * y / (3 - x))) by (field; split; lra).
      rewrite Rmult_1_l. apply Rplus_lt_compat_l. rewrite (Rmult_comm (3 - y)). apply Rmult_lt_compat_l; [lra|].
      apply (Rmult_lt_reg_r (3 - x)); [lra|]. replace (x * y / (3 - x) * (3 - x)) with (x * y) by (field; lra). lra. }
    assert (0 < x / (3 - x)) by (apply Rdiv_lt_0_compat; lra).
    apply Rle_lt_trans with (q * (x / (3 - x))); [|exact Q1]. apply Rmult_le_compat_r; [lra|apply Rmin_r].
  Qed.

  (** ** Substitution *)
  Lemma backward_length es t : length (backward es t) = S (length es).
  Proof. induction es as [|[[u v] w] es IH]; [reflexivity|]. cbn. rewrite IH. reflexivity. Qed.
  Lemma backward_ok es t : nth (length es) (backward es t) 0 = t /\
    forall k, solves 0 (fun j => nth (j - k) (backward es t) 0) k es.
  Proof.
    induction es as [|[[u v] w] es [IH1 IH2]]; [split; [reflexivity|intros; exact I]|]. split; [exact IH1|]. intros k. cbn [solves backward]. split.
    - replace (k - k)%nat with 0%nat by lia. replace (S k - k)%nat with 1%nat by lia. cbn [nth].
      destruct (backward es t) as [|b bs] eqn:B; [pose proof (backward_length es t); rewrite B in *; discriminate|]. cbn [hd nth]. ring.
    - assert (forall th th' es k, (forall j, (k <= j)%nat -> th j = th' j) -> solves 0 th k es -> solves 0 th' k es) as Ext.
      { clear. intros th th' es. induction es as [|[[u v] w] es IH]; intros k E; [auto|]. cbn [solves]. intros [A B]. split; [rewrite <- !E by lia; exact A|]. apply IH; [|exact B]. intros; apply E; lia. }
      apply (Ext (fun j => nth (j - S k) (backward es t) 0)); [|apply IH2]. intros j J. replace (j - k)%nat with (S (j - S k)) by lia. reflexivity.
  Qed.
  Lemma cycle_app l1 l2 ab : cycle_loop (l1 ++ l2) ab = cycle_loop l2 (cycle_loop l1 ab).
  Proof. revert ab. induction l1 as [|[[u v] w] l1 IH]; intros ab; [reflexivity|]. cbn. apply IH. Qed.
  Lemma cycle_ok es : forall k th x ab, solves x th k es -> th (k + length es)%nat = fst ab + snd ab * x ->
    th k = fst (cycle_loop (rev es) ab) + snd (cycle_loop (rev es) ab) * x.
  Proof.
    induction es as [|[[u v] w] es IH]; intros k th x ab Sv E; [cbn in *; replace (k + 0)%nat with k in E by lia; exact E|].
    cbn [solves] in Sv. destruct Sv as [S1 S2]. cbn [rev]. rewrite cycle_app. cbn [cycle_loop fst snd].
    specialize (IH (S k) th x ab S2). cbn [length] in E. replace (k + S (length es))%nat with (S k + length es)%nat in E by lia. specialize (IH E).
    rewrite S1, IH. ring.
  Qed.
  Lemma cycle_bound l : Forall small l -> forall ab, Rabs (snd ab) <= 1 -> Rabs (snd (cycle_loop l ab)) <= 1 /\ (l <> [] -> Rabs (snd (cycle_loop l ab)) < 1).
  Proof.
    induction 1 as [|[[u v] w] l [U W] F IH]; intros ab B; [split; [exact B|congruence]|]. cbn [cycle_loop].
    assert (Rabs (w - snd ab * u) < 1) as X.
    { eapply Rle_lt_trans; [apply Rabs_triang|]. rewrite Rabs_Ropp, Rabs_mult, (Rabs_pos_eq u) by exact U.
      assert (Rabs (snd ab) * u <= 1 * u) by (apply Rmult_le_compat_r; lra). lra. }
    destruct (IH (v - fst ab * u, w - snd ab * u)) as [I1 I2]; [cbn; lra|]. split; [exact I1|]. intros _.
    destruct l; [exact X|]. apply I2. discriminate.
  Qed.
  Lemma solves_shift a th es : forall k, solves 0 th k (map (fun e : R * R * R => let '(u, v, w) := e in (u, v + a * w, w)) es) -> solves a th k es.
  Proof. induction es as [|[[u v] w] es IH]; intros k; [auto|]. cbn. intros [A B]. split; [rewrite A; ring|auto]. Qed.
  Lemma solves_ext x th th' es : forall k, (forall j, (k <= j <= k + length es)%nat -> th j = th' j) -> solves x th k es -> solves x th' k es.
  Proof.
    induction es as [|[[u v] w] es IH]; intros k E; [auto|]. cbn [solves length] in *. intros [A B].
    split; [rewrite <- !E by lia; exact A|]. apply IH; [|exact B]. intros; apply E; lia.
  Qed.

  (** ** The result *)
  Definition start_fits (n : nat) (t : nat -> R) : Prop :=
    match rtype (node N K p 0) with
    | Given => forall a, rx (node N K p 0) = Some a -> t 0%nat = reduce_angle (a - n_arg (dx N K p 0) (dy N K p 0))
    | Curl => forall g f, rx (node N K p 0) = Some g -> curl_ratio g (Rt 0) (L 1) = Some f -> t 0%nat = f * phi_of t 0
    | _ => ltype (node N K p n) <> EndCycle -> t 0%nat = 0
    end.
  Definition end_fits (n : nat) (t : nat -> R) : Prop :=
    match ltype (node N K p n) with
    | Given => forall a, lx (node N K p n) = Some a -> t n = reduce_angle (a - n_arg (dx N K p (n - 1)) (dy N K p (n - 1)))
    | Curl => forall g f, lx (node N K p n) = Some g -> curl_ratio g (L n) (Rt (n - 1)) = Some f -> - t n = f * t (n - 1)%nat
    | EndCycle => t n = t 0%nat /\ matched (fun j => if (j =? S n)%nat then t 1%nat else t j) n
    | _ => False
    end.

  Lemma thetas_ok n : (1 <= n)%nat -> (forall k, (k < n)%nat -> known_r k) -> (forall k, (1 <= k <= n)%nat -> known_l k) -> (forall k, (k < n)%nat -> 0 < d k) ->
    (forall k, (1 <= k < n)%nat -> rtype (node N K p k) = Open) ->
    match rtype (node N K p 0) with Given => exists a, rx (node N K p 0) = Some a | Curl => exists g, rx (node N K p 0) = Some g /\ 0 <= g | Open => True | _ => False end ->
    match ltype (node N K p n) with
    | Given => exists a, lx (node N K p n) = Some a
    | Curl => exists g, lx (node N K p n) = Some g /\ 0 <= g
    | EndCycle => rtype (node N K p 0) = Open /\ known_r n /\ known_l (S n) /\ 0 < d n
    | _ => False
    end ->
    ~ (n = 1%nat /\ rtype (node N K p 0) = Curl /\ ltype (node N K p n) = Curl) ->
    exists th, thetas N K p n psi = Some th /\ length th = S n /\
      (forall k, (1 <= k < n)%nat -> matched (fun k => nth k th 0) k) /\ start_fits n (fun k => nth k th 0) /\ end_fits n (fun k => nth k th 0).
  Proof.
    intros N1 HR HL HD Op Hs He Hn. assert (known_r 0) as [R0 P0] by (apply HR; lia). assert (known_l 1) as [L1 P1] by (apply HL; lia).
    (* the first entry *)
    assert (exists u0 v0 w0, first_entry N K p psi = Some (u0, v0, w0) /\ 0 <= u0 /\ u0 * (1 / (3 * Rt 0 - 1)) < 1 /\
      (rtype (node N K p 0) <> Curl -> u0 = 0) /\
      (rtype (node N K p 0) = Curl -> v0 = - (psi 1%nat * u0) /\ w0 = 0) /\
      (rtype (node N K p 0) = Open -> u0 = 0 /\ v0 = 0 /\ w0 = 1) /\
      (forall t, rtype (node N K p 0) <> Open -> t 0%nat = v0 + w0 * 0 - u0 * t 1%nat -> start_fits n t)) as (u0 & v0 & w0 & E0 & U0 & U1 & U2 & Fc & Fo & Fs).
    { unfold first_entry, start_fits. destruct (rtype (node N K p 0)) eqn:T; try contradiction.
      - destruct Hs as [a Ea]. rewrite Ea. cbn [bind]. eexists. eexists. eexists. split; [reflexivity|]. split; [lra|]. split; [lra|].
        split; [reflexivity|]. split; [discriminate|]. split; [discriminate|]. intros t _ Et a' [= <-]. lra.
      - destruct Hs as (g & Eg & Pg). rewrite Eg. cbn [bind]. rewrite L1, R0. cbn [bind]. destruct (curl_ok g (Rt 0) (L 1) Pg P0 P1) as (f & Ef & F0 & F1).
        rewrite Ef. cbn [bind]. eexists. eexists. eexists. split; [reflexivity|]. split; [lra|]. split; [exact F1|]. split; [congruence|]. split; [auto|]. split; [discriminate|].
        intros t _ Et g' f' [= <-] Ef'. assert (f' = f) as -> by congruence. unfold phi_of. lra.
      - eexists. eexists. eexists. split; [reflexivity|]. split; [lra|]. split; [lra|]. split; [reflexivity|]. split; [discriminate|]. split; [auto|]. intros t Q. congruence. }
    (* all entries *)
    destruct (entries_ok (n - 1) 1 u0 v0 w0) as (es & Ees & Len & Sm & La & Ma); auto.
    { intros j J. apply HR. lia. } { intros j J. apply HL. lia. } { intros j J. apply HD. lia. }
    { intros Q. destruct (Fc Q). auto. } { intros j J. rewrite Op by lia. discriminate. }
    unfold thetas. rewrite E0. cbn [bind]. rewrite Ees. cbn [bind].
    destruct (last ((u0, v0, w0) :: es) (u0, v0, w0)) as [[un vn] wn] eqn:Eun.
    assert (0 <= un) as Un. { destruct (Nat.eq_dec n 1) as [->|]; [destruct es; [|discriminate]; cbn in Eun; injection Eun as <- <- <-; exact U0|]. destruct (La un vn wn); [lia|reflexivity|lra]. }
    (* substitution with a given last angle *)
    assert (forall t, let th := backward ((u0, v0, w0) :: es) t in length th = S n /\ nth n th 0 = t /\ nth (n - 1) th 0 = vn - t * un /\
      (forall k, (1 <= k < n)%nat -> matched (fun k => nth k th 0) k) /\ nth 0 th 0 = v0 + w0 * 0 - u0 * nth 1 th 0) as Back.
    { intros t th. destruct (backward_ok ((u0, v0, w0) :: es) t) as [B1 B2]. specialize (B2 0%nat). fold th in B1, B2.
      assert (solves 0 (fun j => nth j th 0) 0 ((u0, v0, w0) :: es)) as B3 by (eapply solves_ext; [|exact B2]; intros j _; cbn beta; rewrite Nat.sub_0_r; reflexivity).
      split; [unfold th; rewrite backward_length; cbn [length]; lia|]. split; [cbn [length] in B1; rewrite Len in B1; replace (S (n - 1)) with n in B1 by lia; exact B1|].
      split; [|split].
      - assert (forall l k (th : nat -> R), l <> [] -> solves 0 th k l -> forall u v w, last l (0, 0, 0) = (u, v, w) -> th (k + length l - 1)%nat = v - th (k + length l)%nat * u) as Q.
        { clear. induction l as [|[[u v] w] l IH]; intros k th Ne Sv u' v' w' E; [congruence|]. destruct l as [|e l].
          - cbn in *. injection E as <- <- <-. destruct Sv as [Sv _]. replace (k + 1 - 1)%nat with k by lia. replace (k + 1)%nat with (S k) by lia. rewrite Sv. ring.
          - cbn [solves] in Sv. destruct Sv as [_ Sv]. specialize (IH (S k) th ltac:(discriminate) Sv u' v' w').
            replace (k + length ((u, v, w) :: e :: l) - 1)%nat with (S k + length (e :: l) - 1)%nat by (cbn [length]; lia).
            replace (k + length ((u, v, w) :: e :: l))%nat with (S k + length (e :: l))%nat by (cbn [length]; lia). apply IH. exact E. }
        specialize (Q ((u0, v0, w0) :: es) 0%nat _ ltac:(discriminate) B3 un vn wn).
        assert (last ((u0, v0, w0) :: es) (0, 0, 0) = (un, vn, wn)) as Q1 by (rewrite <- Eun; apply last_any).
        specialize (Q Q1). cbn [length] in Q. rewrite Len in Q. replace (0 + S (n - 1) - 1)%nat with (n - 1)%nat in Q by lia. replace (0 + S (n - 1))%nat with n in Q by lia. rewrite Q.
        cbn [length] in B1. rewrite Len in B1. replace (S (n - 1)) with n in B1 by lia. rewrite B1. reflexivity.
      - intros k Kk. cbn [solves] in B3. destruct B3 as [B4 B5]. apply (Ma (fun k => nth k th 0) 0 B4 B5). lia.
      - cbn [solves] in B3. destruct B3 as [B4 B5]. exact B4. }
    assert (forall t, rtype (node N K p 0) = Open -> ltype (node N K p n) <> EndCycle -> start_fits n (fun k => nth k (backward ((u0, v0, w0) :: es) t) 0)) as Open0.
    { intros t T Ne. destruct (Back t) as (_ & _ & _ & _ & B). destruct (Fo T) as (Z0 & Z1 & Z2). unfold start_fits. rewrite T. intros _. etransitivity; [exact B|]. rewrite Z0, Z1. ring. }
    assert (rtype (node N K p 0) = Open \/ rtype (node N K p 0) <> Open) as Dec by (destruct (rtype (node N K p 0)); (left; congruence) || (right; congruence)).
    assert (forall t, ltype (node N K p n) <> EndCycle -> start_fits n (fun k => nth k (backward ((u0, v0, w0) :: es) t) 0)) as Start.
    { intros t Ne. destruct Dec as [T|T]; [auto|]. apply Fs; [exact T|]. destruct (Back t) as (_ & _ & _ & _ & B). exact B. }
    destruct (ltype (node N K p n)) eqn:T; try contradiction.
    - (* given *)
      destruct He as [a Ea]. rewrite Ea. cbn [bind]. eexists. split; [reflexivity|]. destruct (Back (reduce_angle (a - n_arg (dx N K p (n - 1)) (dy N K p (n - 1))))) as (B1 & B2 & _ & B4 & _).
      split; [exact B1|]. split; [exact B4|]. split; [apply Start; discriminate|]. unfold end_fits. rewrite T. intros a' Ea'. assert (a' = a) as -> by congruence. exact B2.
    - (* curl *)
      destruct He as (g & Eg & Pg). rewrite Eg. cbn [bind]. assert (known_l n) as [Ln Pn] by (apply HL; lia). assert (known_r (n - 1)) as [Rn Qn] by (apply HR; lia).
      rewrite Ln, Rn. cbn [bind]. destruct (curl_ok g (L n) (Rt (n - 1)) Pg Pn Qn) as (f & Ef & F0 & F1). rewrite Ef. cbn [bind].
      assert (f * un < 1) as Fu.
      { destruct (Nat.eq_dec n 1) as [En|En].
        - destruct es; [|subst n; discriminate]. cbn in Eun. injection Eun as <- <- <-. rewrite U2; [lra|]. intros Q. apply Hn. subst n. auto.
        - destruct (La un vn wn) as [A B]; [lia|reflexivity|]. replace (1 + (n - 1))%nat with n in B by lia. apply Rle_lt_trans with (f * (1 / (3 * L n - 1))); [|exact F1]. apply Rmult_le_compat_l; lra. }
      rewrite frac_some by lra. cbn [bind]. eexists. split; [reflexivity|]. destruct (Back (- (vn * f / (1 - f * un)))) as (B1 & B2 & B3 & B4 & _).
      split; [exact B1|]. split; [exact B4|]. split; [apply Start; discriminate|]. unfold end_fits. rewrite T. intros g' f' Eg' Ef'. assert (g' = g) as -> by congruence. assert (f' = f) as -> by congruence.
      rewrite B2, B3. field. lra.
    - (* cycle *)
      destruct He as (T0 & HRn & HLn & Dn). destruct (Fo T0) as (-> & -> & ->).
      assert (Forall small es) as Sme by (apply Sm; rewrite Rabs_R1; lra).
      assert (Rabs wn + un <= 1 /\ un * (1 / (3 * Rt (n - 1) - 1)) < 1) as [Wn Ua].
      { destruct (Nat.eq_dec n 1) as [En|En].
        - destruct es; [|subst n; discriminate]. cbn in Eun. injection Eun as <- <- <-. rewrite Rabs_R1. subst n. cbn [Nat.sub]. split; lra.
        - split.
          + assert (small (un, vn, wn)) as [_ Q]; [|lra]. rewrite Forall_forall in Sme. apply Sme. rewrite <- Eun. destruct es as [|e es]; [cbn in Len; lia|]. apply (last_in es e).
          + destruct (La un vn wn) as [A B]; [lia|reflexivity|]. replace (1 + (n - 1))%nat with n in B by lia. assert (known_l n) as [_ Pn] by (apply HL; lia). assert (known_r (n - 1)) as [_ Qn] by (apply HR; lia).
            pose proof (inverse_bound _ Pn). pose proof (inverse_bound _ Qn). apply product_small; lra. }
      destruct (entry_ok n un vn wn) as (u & v & w & E & [Ua' Ub] & W & M); auto; try (apply HR; lia); try (apply HL; lia); try (apply HD; lia).
      { intros Q. exfalso. destruct (Nat.eq_dec n 1) as [->|]; [cbn [Nat.sub] in Q; congruence|]. rewrite Op in Q by lia. discriminate. }
      rewrite E. cbn [bind]. rewrite cycle_app. destruct (cycle_loop (rev es) (0, 1)) as [a1 b1] eqn:C1. cbn [cycle_loop fst snd].
      specialize (W Wn).
      assert (Rabs (w - b1 * u) < 1) as Bd.
      { destruct (cycle_bound (rev es ++ [(u, v, w)])) with (ab := (0, 1)) as [_ Q]. { apply Forall_app. split; [apply Forall_rev; exact Sme|]. constructor; [split; lra|constructor]. } { cbn. rewrite Rabs_R1. lra. }
        rewrite cycle_app, C1 in Q. cbn in Q. apply Q. destruct (rev es); discriminate. }
      assert (1 - (w - b1 * u) <> 0) as Nz. { intros Q. assert (w - b1 * u = 1) as Q1 by lra. rewrite Q1, Rabs_R1 in Bd. lra. }
      rewrite frac_some by exact Nz. cbn [bind]. set (a := (v - a1 * u) / (1 - (w - b1 * u))).
      set (l2 := map (fun e : R * R * R => let '(u, v, w) := e in (u, v + a * w, w)) es). set (th := backward ((0, a, 1) :: l2) a). exists th. split; [reflexivity|].
      destruct (backward_ok ((0, a, 1) :: l2) a) as [B1 B2]. specialize (B2 0%nat). fold th in B1, B2.
      assert (length l2 = (n - 1)%nat) as Ll by (unfold l2; rewrite map_length; exact Len).
      assert (solves 0 (fun j => nth j th 0) 0 ((0, a, 1) :: l2)) as B3 by (eapply solves_ext; [|exact B2]; intros j _; cbn beta; rewrite Nat.sub_0_r; reflexivity).
      cbn [solves] in B3. destruct B3 as [B4 B5]. cbn [length] in B1. rewrite Ll in B1. replace (S (n - 1)) with n in B1 by lia.
      assert (solves a (fun j => nth j th 0) 1 es) as B6 by (apply solves_shift; exact B5).
      assert (nth 0 th 0 = a) as B7 by (rewrite B4; ring).
      split; [unfold th; rewrite backward_length; cbn [length]; lia|]. split; [|split].
      + intros k Kk. apply (Ma (fun k => nth k th 0) a); [cbn [Nat.sub]; rewrite B7; ring|exact B6|lia].
      + unfold start_fits. rewrite T0. congruence.
      + unfold end_fits. rewrite T. split; [rewrite B1, B7; reflexivity|].
        assert (nth 1 th 0 = a1 + b1 * a) as T1.
        { pose proof (cycle_ok es 1 (fun j => nth j th 0) a (0, 1) B6) as Q. rewrite C1 in Q. cbn [fst snd] in Q. apply Q. rewrite Len. replace (1 + (n - 1))%nat with n by lia. rewrite B1. ring. }
        set (th' := fun j => if (j =? S n)%nat then nth 1 th 0 else nth j th 0). apply (M th' a).
        * (* the last equation of the elimination *)
          assert (forall j, (j <= n)%nat -> th' j = nth j th 0) as Ex by (intros j J; unfold th'; destruct (Nat.eqb_spec j (S n)); [lia|reflexivity]).
          rewrite !Ex by lia.
          assert (solves a (fun j => nth j th 0) 0 ((0, 0, 1) :: es)) as B8 by (cbn [solves]; split; [rewrite B7; ring|exact B6]).
          assert (forall l k (th : nat -> R) x, l <> [] -> solves x th k l -> forall u v w, last l (0, 0, 0) = (u, v, w) -> th (k + length l - 1)%nat = v + w * x - u * th (k + length l)%nat) as Q.
          { clear. induction l as [|[[u v] w] l IH]; intros k th x Ne Sv u' v' w' E; [congruence|]. destruct l as [|e l].
            - cbn in *. injection E as <- <- <-. destruct Sv as [Sv _]. replace (k + 1 - 1)%nat with k by lia. replace (k + 1)%nat with (S k) by lia. exact Sv.
            - cbn [solves] in Sv. destruct Sv as [_ Sv]. specialize (IH (S k) th x ltac:(discriminate) Sv u' v' w').
              replace (k + length ((u, v, w) :: e :: l) - 1)%nat with (S k + length (e :: l) - 1)%nat by (cbn [length]; lia).
              replace (k + length ((u, v, w) :: e :: l))%nat with (S k + length (e :: l))%nat by (cbn [length]; lia). apply IH. exact E. }
          specialize (Q ((0, 0, 1) :: es) 0%nat (fun j => nth j th 0) a ltac:(discriminate) B8 un vn wn).
          assert (last ((0, 0, 1) :: es) (0, 0, 0) = (un, vn, wn)) as Q1 by (rewrite <- Eun; apply last_any).
          specialize (Q Q1). cbn [length] in Q. rewrite Len in Q. replace (0 + S (n - 1) - 1)%nat with (n - 1)%nat in Q by lia. replace (0 + S (n - 1))%nat with n in Q by lia. exact Q.
        * assert (th' n = a) as -> by (unfold th'; destruct (Nat.eqb_spec n (S n)); [lia|exact B1]).
          assert (th' (S n) = a1 + b1 * a) as -> by (unfold th'; rewrite Nat.eqb_refl; exact T1). unfold a. field. exact Nz.
  Qed.
End Run.
