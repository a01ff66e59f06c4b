From Coq Require Import Reals ZArith QArith Qreals Bool List Lia ZifyBool Lra Sorted.
From Verif Require Import BboxModel TickModel TickSpec TickProofs ParterModel ParterSpec ParterProofs ParterProofs2 ParterProofs3.
Import ListNotations.
Open Scope R_scope.
Ltac Zify.zify_post_hook ::= Z.div_mod_to_equations.

Lemma Q2R_inject z : Q2R (inject_Z z) = IZR z.
Proof. unfold Q2R. cbn. lra. Qed.
Lemma copy_exact fmt r : exact_format fmt -> positive r -> short (rval r) -> exists r', copy fmt r = Some r' /\ positive r' /\ rval r' = rval r.
Proof.
  intros F P S. destruct (F r) as (q & D & V); [apply P|auto|]. destruct (initfromstring_complete _ _ D) as (r' & E & D' & Q).
  assert (rval r' = rval r) as VR.
  { change (rval r) with (real r). rewrite <- V. apply Qeq_eqR in Q. unfold fracQ in Q. rewrite Q2R_div, !Q2R_inject in Q; auto. intros Z0. unfold Qeq in Z0. cbn in Z0. lia. }
  exists r'. split; [|split]; auto.
  - unfold copy, new_rational. cbn [Z.eqb]. rewrite E, finish_1. replace (denom r' =? 0)%Z with false by lia. reflexivity.
  - split; auto. pose proof (rval_pos r P) as VP. rewrite <- VR in VP. unfold rval in VP. apply denom_real in D'.
    apply lt_IZR. apply (Rmult_lt_compat_r (IZR (denom r'))) in VP; auto. unfold Rdiv in VP. rewrite Rmult_assoc, Rinv_l in VP by lra. lra.
Qed.

Lemma auto_base_spec lo hi : lo < hi -> exists b (i : Z), auto_base lo hi = Some b /\ positive b /\ rval b = powerRZ 10 i /\ rval b <= hi - lo <= 10 * rval b.
Proof.
  intros H. unfold auto_base. destruct (ltb 0 (hi - lo)) eqn:L. 2: { exfalso. assert (0 < hi - lo) as H0 by lra. apply ltb_spec in H0. congruence. }
  set (y := ln (hi - lo) / ln 10).
  assert (0 < ln 10) as L10 by (rewrite <- ln_1; apply ln_increasing; lra).
  assert (exists i, trunc (if ltb y 0 then y - 1 else y) = i /\ IZR i <= y <= IZR i + 1) as (i & Ei & Hi).
  { eexists. split; [reflexivity|]. unfold trunc. destruct (ltb y 0) eqn:Ly.
    - apply ltb_spec in Ly. destruct (ltb (y - 1) 0) eqn:L1. 2: { exfalso. assert (y - 1 < 0) as H1 by lra. apply ltb_spec in H1. congruence. }
      pose proof (ceil_spec (y - 1)). lra.
    - rewrite Ly. pose proof (floor_spec y). lra. }
  cbv zeta. rewrite Ei. destruct (power_rational 10 i ltac:(lia)) as (b & Eb & Pb & Vb). exists b, i. split; auto. split; auto. split; auto. rewrite Vb.
  assert (hi - lo = Rpower 10 y) as Ey. { unfold Rpower, y. replace (ln (hi - lo) / ln 10 * ln 10) with (ln (hi - lo)) by (field; lra). rewrite exp_ln; lra. }
  rewrite Ey. assert (forall a b, a <= b -> Rpower 10 a <= Rpower 10 b) as M by (intros; apply Rle_Rpower; lra).
  rewrite (pow_rpower 10 i) by lra. split; [apply M; lra|].
  replace (10 * Rpower 10 (IZR i)) with (Rpower 10 (IZR i + 1)); [apply M; lra|]. rewrite Rpower_plus, Rpower_1; lra.
Qed.

Fixpoint steps (k : nat) (n : Z) (d : autodata) : autodata :=
  match k with O => d | S k' => steps k' n (auto_step n d) end.
Lemma steps_S k n d : steps (S k) n d = auto_step n (steps k n d).
Proof. revert d. induction k as [|k IH]; intros d; [reflexivity|]. cbn [steps] in *. now rewrite <- IH. Qed.
Lemma auto_run_nth fmt n vs part d k : (k < n)%nat ->
  nth_error (auto_run fmt n vs part d) k =
  Some (match auto_dists fmt vs (steps (S k) (Z.of_nat (length vs)) d) with Some dists => part dists | None => None end).
Proof.
  revert d k. induction n as [|n IH]; intros d k H; [lia|]. cbn [auto_run]. destruct k as [|k]; [reflexivity|]. cbn [nth_error].
  rewrite IH by lia. reflexivity.
Qed.

Lemma rval_up b : rval (mkrat (num b * 10) (denom b)) = rval b * 10.
Proof. unfold rval. cbn [num denom]. rewrite mult_IZR. unfold Rdiv. ring. Qed.
Lemma rval_down b : positive b -> rval (mkrat (num b) (denom b * 10)) = rval b / 10.
Proof. intros (_ & D). unfold rval. cbn [num denom]. rewrite mult_IZR. apply denom_real in D. field. lra. Qed.

Lemma steps_up n b : (0 < n)%Z -> positive b -> forall k, exists b', steps (S k) n (auto_start true b) = mkautodata true (Z.of_nat k mod n) b' /\
  positive b' /\ rval b' = rval b * powerRZ 10 (Z.of_nat k / n).
Proof.
  intros Hn Pb. assert (1 < 10) as T by lra.
  induction k as [|k (b' & E & P' & V)].
  - exists b. unfold steps, auto_start, auto_step. cbn [up tickindex base]. replace (-1 <? n - 1)%Z with true by lia.
    change (Z.of_nat 0) with 0%Z. change (-1 + 1)%Z with 0%Z. rewrite Z.mod_0_l, Z.div_0_l by lia. split; auto. split; auto. cbn [powerRZ]. ring.
  - rewrite steps_S, E. unfold auto_step. cbn [up tickindex base]. destruct (Z.ltb_spec (Z.of_nat k mod n) (n - 1)) as [L|L].
    + exists b'. assert (Z.of_nat (S k) mod n = Z.of_nat k mod n + 1)%Z as ->.
      { symmetry. apply (Zmod_unique _ n (Z.of_nat k / n)); lia. }
      assert (Z.of_nat (S k) / n = Z.of_nat k / n)%Z as ->.
      { symmetry. apply (Zdiv_unique _ n _ (Z.of_nat k mod n + 1)); lia. }
      auto.
    + eexists. assert (Z.of_nat (S k) mod n = 0)%Z as ->.
      { symmetry. apply (Zmod_unique _ n (Z.of_nat k / n + 1)); lia. }
      assert (Z.of_nat (S k) / n = Z.of_nat k / n + 1)%Z as ->.
      { symmetry. apply (Zdiv_unique _ n _ 0); lia. }
      split; [reflexivity|]. split; [destruct P'; split; cbn; lia|]. rewrite rval_up, V, pow_succ by auto. ring.
Qed.
Lemma steps_down n b : (0 < n)%Z -> positive b -> forall k, exists b', steps (S k) n (auto_start false b) = mkautodata false (n - 1 - Z.of_nat k mod n) b' /\
  positive b' /\ rval b' = rval b * powerRZ 10 (- (Z.of_nat k / n) - 1).
Proof.
  intros Hn Pb. assert (1 < 10) as T by lra.
  assert (forall i, powerRZ 10 (i - 1) = powerRZ 10 i / 10) as PD.
  { intros i. replace i with (i - 1 + 1)%Z at 2 by lia. rewrite pow_succ by auto. field. }
  induction k as [|k (b' & E & P' & V)].
  - eexists. unfold steps, auto_start, auto_step. cbn [up tickindex base]. cbn [Z.eqb negb].
    change (Z.of_nat 0) with 0%Z. rewrite Z.mod_0_l, Z.div_0_l by lia. rewrite Z.sub_0_r. split; [reflexivity|].
    split; [destruct Pb; split; cbn; lia|]. rewrite rval_down by auto. rewrite PD. cbn [powerRZ Z.opp]. field.
  - rewrite steps_S, E. unfold auto_step. cbn [up tickindex base]. destruct (Z.eqb_spec (n - 1 - Z.of_nat k mod n) 0) as [L|L]; cbn [negb].
    + eexists. assert (Z.of_nat (S k) mod n = 0)%Z as ->.
      { symmetry. apply (Zmod_unique _ n (Z.of_nat k / n + 1)); lia. }
      assert (Z.of_nat (S k) / n = Z.of_nat k / n + 1)%Z as ->.
      { symmetry. apply (Zdiv_unique _ n _ 0); lia. }
      rewrite Z.sub_0_r. split; [reflexivity|]. split; [destruct P'; split; cbn; lia|]. rewrite rval_down by auto. rewrite V.
      replace (- (Z.of_nat k / n + 1) - 1)%Z with (- (Z.of_nat k / n) - 1 - 1)%Z by lia. rewrite (PD (- (Z.of_nat k / n) - 1)%Z). lra.
    + exists b'. assert (Z.of_nat (S k) mod n = Z.of_nat k mod n + 1)%Z as ->.
      { symmetry. apply (Zmod_unique _ n (Z.of_nat k / n)); lia. }
      assert (Z.of_nat (S k) / n = Z.of_nat k / n)%Z as ->.
      { symmetry. apply (Zdiv_unique _ n _ (Z.of_nat k mod n + 1)); lia. }
      split; auto. f_equal. lia.
Qed.

Lemma short_scaled x i : short x -> short (x * powerRZ 10 i).
Proof. intros (m & j & H & ->). exists m, (j + i)%Z. split; auto. rewrite powerRZ_add by lra. ring. Qed.
Lemma auto_dists_spec fmt vs d v (i : Z) : exact_format fmt -> nth_error vs (Z.to_nat (tickindex d)) = Some v ->
  Forall (fun r => positive r /\ short (rval r)) v -> positive (base d) -> rval (base d) = powerRZ 10 i ->
  exists dists, auto_dists fmt vs d = Some dists /\ Forall2 (fun r r' => positive r' /\ rval r' = rval r * rval (base d)) v dists.
Proof.
  intros F E V P B. unfold auto_dists. rewrite E. rewrite Forall_forall in V.
  destruct (all_some_map (fun t => match copy fmt t with Some t' => match rmul t' (base d) with Some r => copy fmt r | None => None end | None => None end)
    (fun r r' => positive r' /\ rval r' = rval r * rval (base d)) v) as (bs & Eb & Fb).
  - intros r Hr. destruct (V r Hr) as (Pr & Sr). destruct (copy_exact fmt r F Pr Sr) as (r1 & -> & P1 & V1).
    destruct (product_rational r1 (base d) P1 P) as (r2 & -> & P2 & V2).
    destruct (copy_exact fmt r2 F P2) as (r3 & -> & P3 & V3).
    + rewrite V2, V1, B. now apply short_scaled.
    + exists r3. split; auto. split; auto. rewrite V3, V2, V1. reflexivity.
  - rewrite Eb. eauto.
Qed.
