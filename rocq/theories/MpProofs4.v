(** The loop over the runs *)
From Coq Require Import Reals List Bool PeanoNat Lra Lia.
From Verif Require Import CurveModel CurveProofs4 MpModel MpSpec MpProofs MpProofs2 MpProofs3.
Import ListNotations.
Local Open Scope R_scope.

Lemma before_after N i : (0 < N)%nat -> (i < N)%nat -> before N (after N i) = i.
Proof.
  intros N0 H. unfold before, after. rewrite Nat.add_mod_idemp_l by lia. replace (i + 1 + (N - 1))%nat with (i + 1 * N)%nat by lia. rewrite Nat.mod_add by lia. apply Nat.mod_small, H.
Qed.
Lemma after_before N i : (0 < N)%nat -> (i < N)%nat -> after N (before N i) = i.
Proof.
  intros N0 H. unfold before, after. rewrite Nat.add_mod_idemp_l by lia. replace (i + (N - 1) + 1)%nat with (i + 1 * N)%nat by lia. rewrite Nat.mod_add by lia. apply Nat.mod_small, H.
Qed.
Lemma after_lt N i : (0 < N)%nat -> (after N i < N)%nat. Proof. intros. apply Nat.mod_upper_bound. lia. Qed.
Lemma before_lt N i : (0 < N)%nat -> (before N i < N)%nat. Proof. intros. apply Nat.mod_upper_bound. lia. Qed.
Lemma along_after N p k : (0 < N)%nat -> after N (along N p k) = along N p (S k). Proof. intros. rewrite along_S by assumption. reflexivity. Qed.
Lemma before_along N p k : (0 < N)%nat -> before N (along N p (S k)) = along N p k.
Proof. intros. rewrite <- along_after by assumption. apply before_after; [|apply along_lt]; assumption. Qed.

(** ** Knots in the same places *)
Section Places.
  Variables (N : nat) (eps : R) (B K : heap).
  Hypothesis Pl : forall i, place (K i) = place (B i).
  Lemma same_x i : kx (K i) = kx (B i). Proof. specialize (Pl i). unfold place in Pl. congruence. Qed.
  Lemma same_y i : ky (K i) = ky (B i). Proof. specialize (Pl i). unfold place in Pl. congruence. Qed.
  Lemma same_chord_x i : chord_x N K i = chord_x N B i. Proof. unfold chord_x. now rewrite !same_x. Qed.
  Lemma same_chord_y i : chord_y N K i = chord_y N B i. Proof. unfold chord_y. now rewrite !same_y. Qed.
  Lemma same_chord i : chord N K i = chord N B i. Proof. unfold chord. now rewrite same_chord_x, same_chord_y. Qed.
  Lemma same_leaves i t : leaves N K i t = leaves N B i t. Proof. unfold leaves. now rewrite same_chord_x, same_chord_y, same_chord. Qed.
  Lemma same_arrives i t : arrives N K i t = arrives N B i t. Proof. unfold arrives. now rewrite same_chord_x, same_chord_y, same_chord. Qed.
  Lemma psis_same p n : is (ltype (K (along N p n))) EndCycle = is (ltype (B (along N p n))) EndCycle -> psis N K p n = psis N B p n.
  Proof.
    intros C. unfold psis, closed. unfold node at 1 2. rewrite C. unfold node at 1 2.
    rewrite (map_ext (turning N K p) (turning N B p)); [reflexivity|]. intros k. unfold turning, delta, dx, dy, node. now rewrite !same_x, !same_y.
  Qed.
End Places.

Section Transport.
  Variables (N : nat) (eps : R) (B K : heap) (p n : nat).
  Hypotheses (N0 : (0 < N)%nat) (pN : (p < N)%nat) (n1 : (1 <= n)%nat).
  Let i k := along N p k.
  Hypothesis Pl : forall j, place (K j) = place (B j).
  Hypothesis Tr : forall k, (k < n)%nat -> ry (K (i k)) = ry (B (i k)) /\ ly (K (i (S k))) = ly (B (i (S k))).
  Hypothesis Op : forall k, (1 <= k < n)%nat -> ltype (B (i k)) = Open /\ rtype (B (i k)) = Open.
  Hypothesis Fr : forall k, (k < n)%nat -> free N eps B (i k).

  (** how the outer sides of the run may have been changed *)
  Definition eff_r : Prop :=
    (rtype (K p) = rtype (B p) /\ rx (K p) = rx (B p) /\ rtype (B p) <> Open) \/
    (rtype (B p) = Open /\ ~ free N eps B (before N p) /\ exists a b, control_before B p = Some (a, b) /\
       (short eps (kx (B p) - a) (ky (B p) - b) -> rtype (K p) = Curl /\ rx (K p) = Some 1) /\
       (~ short eps (kx (B p) - a) (ky (B p) - b) -> rtype (K p) = Given /\ rx (K p) = Some (n_arg (kx (B p) - a) (ky (B p) - b)))) \/
    (rtype (B p) = Open /\ ltype (K (i n)) = EndCycle).
  Definition eff_l : Prop :=
    let q := i n in
    (ltype (K q) = ltype (B q) /\ lx (K q) = lx (B q) /\ ltype (B q) <> Open) \/
    (ltype (B q) = Open /\ ~ free N eps B q /\ exists a b, control_behind B q = Some (a, b) /\
       (short eps (a - kx (B q)) (b - ky (B q)) -> ltype (K q) = Curl /\ lx (K q) = Some 1) /\
       (~ short eps (a - kx (B q)) (b - ky (B q)) -> ltype (K q) = Given /\ lx (K q) = Some (n_arg (a - kx (B q)) (b - ky (B q))))) \/
    (ltype (B q) = Open /\ ltype (K q) = EndCycle).
  Hypothesis eps0 : 0 < eps.
  Hypotheses (Er : eff_r) (El : eff_l) (Cy : ltype (K (i n)) = EndCycle -> n = N).
  Variables th ph theta phi : nat -> R.
  Hypothesis Ang : run_angles N K p n th ph.
  Hypothesis At : forall k, (k < n)%nat -> theta (i k) = th k /\ phi (i k) = ph k.

  Lemma long_toward x y : ~ short eps x y -> (cos (n_arg x y), sin (n_arg x y)) = toward x y.
  Proof.
    intros H. assert (0 < x ^ 2 + y ^ 2) as P. { unfold short in H. assert (0 < eps ^ 2) by (apply pow_lt; exact eps0). lra. }
    destruct (arg_dir x y) as [-> ->]; [apply sqrt_lt_R0, P|]. reflexivity.
  Qed.
  Lemma run_out k : (k < n)%nat -> c_out N K p k = tension_out B (i k).
  Proof. intros H. unfold c_out, tension_out. fold (i k). destruct (Tr k H) as [-> _]. reflexivity. Qed.
  Lemma run_in k : (k < n)%nat -> c_in N K p k = tension_in N B (i k).
  Proof. intros H. unfold c_in, tension_in. unfold i. rewrite along_after by exact N0. fold (i k) (i (S k)). destruct (Tr k H) as [_ ->]. reflexivity. Qed.
  Lemma run_fits j k : (j < n)%nat -> (k < n)%nat -> fits N K p th ph j k -> continuous N B theta phi (i j) (i k).
  Proof.
    intros Hj Hk [F1 F2]. rewrite !run_out, !run_in in F2 by assumption. rewrite !(same_chord N B K Pl) in F2. rewrite (same_arrives N B K Pl), (same_leaves N B K Pl) in F1.
    destruct (At j Hj) as [A1 A2]. destruct (At k Hk) as [A3 A4]. unfold continuous, mock_at_begin, mock_at_end. rewrite A1, A2, A3, A4. split; assumption.
  Qed.
  Lemma i_0 : i 0 = p. Proof. apply along_0; assumption. Qed.

  Lemma run_begins k : (k < n)%nat -> begins N eps B theta phi (i k).
  Proof.
    intros Hk. destruct Ang as (As & Ae & Af). destruct k as [|k].
    - rewrite i_0. destruct (At 0%nat) as [A1 A2]; [lia|]. rewrite i_0 in A1, A2. unfold run_starts in As. rewrite run_out, run_in, i_0 in As by lia.
      rewrite (same_chord N B K Pl) in As. destruct Er as [(E1 & E2 & E3)|[(E1 & E2 & a & b & E3 & E4 & E5)|(E1 & E2)]].
      + unfold begins. rewrite E1, E2 in As. destruct (rtype (B p)) eqn:T; auto; try contradiction.
        * intros a Ea. rewrite <- (same_leaves N B K Pl), A1. apply As, Ea.
        * intros g Eg. unfold curl_begin. rewrite A1, A2. apply As, Eg.
      + unfold begins. rewrite E1, E3. split; [intros; contradiction|]. intros _. split; intros Q.
        * destruct (E4 Q) as [T X]. rewrite T in As. unfold curl_begin. rewrite A1, A2. apply As, X.
        * destruct (E5 Q) as [T X]. rewrite T in As. rewrite <- long_toward by exact Q. rewrite <- (same_leaves N B K Pl), A1. apply As, X.
      + unfold run_ends in Ae. fold (i n) in Ae. rewrite E2 in Ae. pose proof (Cy E2) as Nn. unfold begins. rewrite E1.
        assert (before N p = i (n - 1)) as Eb. { rewrite <- i_0. unfold i. rewrite <- (along_N N N0 p 0). replace (N + 0)%nat with (S (n - 1)) by lia. apply before_along, N0. }
        rewrite Eb. split; [intros _|intros Q; exfalso; apply Q, Fr; lia]. rewrite <- i_0. apply run_fits; [lia|lia|exact Ae].
    - destruct (Op (S k)) as [_ T]; [lia|]. unfold begins. rewrite T. assert (before N (i (S k)) = i k) as Eb by (apply before_along, N0). rewrite Eb.
      split; [intros _|intros Q; exfalso; apply Q, Fr; lia]. apply run_fits; [lia|lia|]. apply Af, Hk.
  Qed.

  Lemma run_ends_ok k : (k < n)%nat -> ends N eps B theta phi (i k).
  Proof.
    intros Hk. destruct Ang as (As & Ae & Af). unfold ends. cbv zeta. assert (after N (i k) = i (S k)) as Eaf by (apply along_after, N0). rewrite !Eaf. destruct (Nat.eq_dec (S k) n) as [Ek|Ek].
    - rewrite Ek. destruct (At k Hk) as [A1 A2]. unfold run_ends in Ae. fold (i n) in Ae. replace (n - 1)%nat with k in Ae by lia. rewrite run_out, run_in in Ae by lia. fold (i k) in Ae.
      rewrite (same_chord N B K Pl) in Ae. destruct El as [(E1 & E2 & E3)|[(E1 & E2 & a & b & E3 & E4 & E5)|(E1 & E2)]].
      + rewrite E1, E2 in Ae. destruct (ltype (B (i n))) eqn:T; auto; try contradiction.
        * intros a Ea. rewrite <- (same_arrives N B K Pl), A2. apply Ae, Ea.
        * intros g Eg. unfold curl_end. rewrite A1, A2. apply Ae, Eg.
      + rewrite E1, E3. split; [intros; contradiction|]. intros _. split; intros Q.
        * destruct (E4 Q) as [T X]. rewrite T in Ae. unfold curl_end. rewrite A1, A2. apply Ae, X.
        * destruct (E5 Q) as [T X]. rewrite T in Ae. rewrite <- long_toward by exact Q. rewrite <- (same_arrives N B K Pl), A2. apply Ae, X.
      + rewrite E2 in Ae. pose proof (Cy E2) as Nn. rewrite E1.
        assert (i n = i 0) as In by (unfold i; rewrite <- (along_N N N0 p 0); f_equal; lia). rewrite In.
        split; [intros _|intros Q; exfalso; apply Q, Fr; lia]. apply run_fits; [lia|lia|exact Ae].
    - destruct (Op (S k)) as [T _]; [lia|]. rewrite T. split; [intros _|intros Q; exfalso; apply Q, Fr; lia]. apply run_fits; [lia|lia|]. apply Af. lia.
  Qed.
End Transport.
