(** C24: automatic linear partitions. *)
From Coq Require Import String Ascii Reals ZArith QArith Qreals Qpower Bool List Lia ZifyBool Lra ClassicalEpsilon.
From Verif Require Import BboxModel TickModel TickSpec TickProofs ParterModel ParterSpec ParterProofs ParterProofs2 ParterProofs3 ParterProofs5 ParterProps.
Import ListNotations.
Open Scope R_scope.

(** C24: successive partitions of an automatic partitioner.  There is a power of ten B of
    the order of the range.  The k-th partition upwards has the tick distances of the variant
    number k modulo the number m of variants, times B and the power k / m of ten.
    Downwards the variants are used in reverse order, with negative powers.  The distances
    go through the formatting of floats, so this is for distances of at most ten digits. *)
Theorem automatic_distances : forall fmt variants extendtick eps min max emin emax direction n,
  exact_format fmt -> min < max -> variants <> [] -> Forall (fun v => v <> [] /\ Forall (fun r => positive r /\ short (real r)) v) variants ->
  exists (i : Z) run, powerRZ 10 i <= max - min <= 10 * powerRZ 10 i /\
    auto_partitions fmt variants extendtick eps min max emin emax direction n = Some run /\ length run = n /\
    forall k, (k < n)%nat ->
      let m := length variants in
      let power := if direction then (Z.of_nat (k / m))%Z else (- Z.of_nat (k / m) - 1)%Z in
      exists v dists d0, nth_error variants (if direction then k mod m else m - 1 - k mod m) = Some v /\
        Forall2 (fun r d => positive d /\ real d = real r * powerRZ 10 i * powerRZ 10 power) v dists /\ hd_error dists = Some d0 /\
        nth_error run k = Some (linear_partition eps extendtick None dists [d0] min max emin emax).
Proof.
  intros fmt vs et eps min max emin emax dir n F H NE V.
  destruct (auto_base_spec min max H) as (b & i & Eb & Pb & Vb & Hb). unfold auto_partitions. rewrite Eb.
  destruct (copy_exact fmt b F Pb) as (b' & Ec & Pc & Vc).
  { exists 1%Z, i. split; [reflexivity|]. rewrite Vb. ring. }
  rewrite Ec. exists i. eexists. split; [rewrite <- Vb; auto|]. split; [reflexivity|].
  set (part := fun dists : list rational => _).
  split. { generalize (auto_start dir b'). induction n as [|n IH]; intros d; [reflexivity|]. cbn [auto_run length]. now rewrite IH. }
  intros k Hk. set (m := length vs). set (power := if dir then (Z.of_nat (k / m))%Z else (- Z.of_nat (k / m) - 1)%Z). assert (0 < m)%nat as Hm. { unfold m. destruct vs; [easy|simpl; lia]. }
  rewrite auto_run_nth by auto. fold m.
  assert (exists d, steps (S k) (Z.of_nat m) (auto_start dir b') = d /\ (0 <= tickindex d)%Z /\ Z.to_nat (tickindex d) = (if dir then k mod m else m - 1 - k mod m)%nat /\
    positive (base d) /\ rval (base d) = powerRZ 10 i * powerRZ 10 power) as (d & Ed & Ti & Tn & Pd & Vd).
  { pose proof (Nat.mod_upper_bound k m ltac:(lia)) as MU.
    destruct dir; unfold power.
    - destruct (steps_up (Z.of_nat m) b' ltac:(lia) Pc k) as (b2 & E2 & P2 & V2). eexists. split; [exact E2|]. cbn [tickindex base].
      rewrite <- Nat2Z.inj_mod by lia. split; [lia|]. split; [lia|]. split; auto. rewrite V2, Vc, Vb. now rewrite Nat2Z.inj_div.
    - destruct (steps_down (Z.of_nat m) b' ltac:(lia) Pc k) as (b2 & E2 & P2 & V2). eexists. split; [exact E2|]. cbn [tickindex base].
      rewrite <- Nat2Z.inj_mod by lia. split; [lia|]. split; [lia|]. split; auto. rewrite V2, Vc, Vb. now rewrite Nat2Z.inj_div. }
  rewrite Ed. rewrite <- Tn.
  destruct (nth_error vs (Z.to_nat (tickindex d))) as [v|] eqn:Ev.
  2: { exfalso. apply nth_error_None in Ev. rewrite Tn in Ev. pose proof (Nat.mod_upper_bound k m ltac:(lia)) as MU. unfold m in *. destruct dir; lia. }
  rewrite Forall_forall in V. destruct (V v) as (NV & FV); [now apply nth_error_In in Ev|].
  destruct (auto_dists_spec fmt vs d v (i + power) F Ev FV Pd) as (dists & E3 & F3).
  { rewrite Vd. rewrite powerRZ_add by lra. reflexivity. }
  rewrite E3. destruct F3 as [|r d0 v' dists' H0 F3]; [easy|].
  exists (r :: v'), (d0 :: dists'), d0. split; auto. split; [|split; auto].
  assert (Forall2 (fun r r' => positive r' /\ rval r' = rval r * rval (base d)) (r :: v') (d0 :: dists')) as F4 by (constructor; auto).
  clear - F4 Vd. induction F4 as [|x y l l' (P1 & V1) F IH]; constructor; auto. split; auto. change (rval y = rval x * powerRZ 10 i * powerRZ 10 power).
  rewrite V1, Vd. ring.
Qed.
Print Assumptions automatic_distances.

(** such formatting functions exist *)
Lemma digits_exist v : (0 <= v)%Z -> exists s, digits_value s v.
Proof.
  intros H. apply (Z_lt_induction (fun v => (0 <= v)%Z -> exists s, digits_value s v)) with (x := v); auto. clear v H. intros v IH Hv. destruct (Z.eq_dec v 0) as [->|N]; [exists []; constructor|].
  destruct (IH (v / 10)%Z) as (s & Hs); [split; [apply Z.div_pos|apply Z.div_lt]; lia|apply Z.div_pos; lia|].
  exists (s ++ [ascii_of_nat (48 + Z.to_nat (v mod 10))]).
  pose proof (Z.mod_pos_bound v 10 ltac:(lia)).
  assert (digits_value (s ++ [ascii_of_nat (48 + Z.to_nat (v mod 10))]) (v / 10 * 10 + v mod 10)) as D.
  2: { replace (v / 10 * 10 + v mod 10)%Z with v in D by (pose proof (Z.div_mod v 10); lia). exact D. }
  constructor; auto. exists (Z.to_nat (v mod 10)). repeat split; lia.
Qed.
Lemma Q2R_pow10 i : Q2R (pow10 i) = powerRZ 10 i.
Proof.
  assert (forall n, (0 <= n)%Z -> powerRZ 10 n = IZR (10 ^ n)) as PW.
  { intros n Hn. rewrite <- (Z2Nat.id n) by auto. rewrite <- pow_IZR. now rewrite <- pow_powerRZ. }
  destruct (Z.le_gt_cases 0 i) as [L|L].
  - rewrite (Qeq_eqR _ _ (pow10_pos i L)), Q2R_inject. now rewrite PW.
  - pose proof (pow10_neg (- i) ltac:(lia)) as E. rewrite Z.opp_involutive in E. rewrite (Qeq_eqR _ _ E), Q2R_inv, Q2R_inject.
    + rewrite <- PW by lia. rewrite powerRZ_neg', Rinv_inv. reflexivity.
    + intros H. unfold Qeq in H. cbn in H. pose proof (Z.pow_pos_nonneg 10 (- i) ltac:(lia) ltac:(lia)). lia.
Qed.
Lemma short_text x : short x -> exists s q, decimal s q /\ Q2R q = x.
Proof.
  intros (m & i & _ & ->).
  destruct (digits_exist (Z.abs m) ltac:(lia)) as (s & Hs). destruct (digits_exist (Z.abs i) ltac:(lia)) as (e & He).
  assert (exists sg, sign_text sg (m <? 0)%Z) as (sg & Hsg) by (destruct (m <? 0)%Z; eexists; constructor).
  destruct (digits_exist 0 ltac:(lia)) as (z & Hz).
  assert (exists et, exp_text et i) as (et & Het).
  { destruct (Z.eq_dec i 0) as [->|N]; [exists []; constructor|].
    assert (exists sg, sign_text sg (i <? 0)%Z) as (sg2 & Hsg2) by (destruct (i <? 0)%Z; eexists; constructor).
    exists ("e"%char :: sg2 ++ e). replace i with (if (i <? 0)%Z then (- Z.abs i)%Z else Z.abs i) by (destruct (i <? 0)%Z eqn:L; lia).
    constructor; auto. intros ->. inversion He as [X|? ? ? ? ? ? X]; [|now destruct s0].  lia. }
  exists (([] ++ sg ++ s ++ [] ++ et ++ [])%list). eexists. split.
  - eapply (dec [] [] sg (m <? 0)%Z s [] [] et i (Z.abs m)); auto; try constructor; eauto; try (exists 0%Z; constructor). now rewrite app_nil_r.
  - assert (forall b q, Q2R (signed b q) = if b then - Q2R q else Q2R q) as SG. { intros [|] q; cbn [signed]; auto. apply Q2R_opp. }
    rewrite SG. cbn [length Z.of_nat Z.opp]. rewrite !Q2R_mult, Q2R_inject, !Q2R_pow10. cbn [powerRZ].
    destruct (Z.ltb_spec m 0) as [L|L].
    + replace (Z.abs m) with (- m)%Z by lia. rewrite opp_IZR. ring.
    + replace (Z.abs m) with m by lia. ring.
Qed.
Lemma exact_format_exists : exists fmt, exact_format fmt.
Proof.
  exists (fun r => epsilon (inhabits []) (fun s => exists q, decimal s q /\ Q2R q = real r)).
  intros r _ S. apply epsilon_spec. destruct (short_text _ S) as (s & q & D & V). eauto.
Qed.

Ltac pw := cbn; try change (Pos.to_nat 1) with 1%nat; try change (Pos.to_nat 2) with 2%nat; cbn; lra.
(** the default variants on the range from 0 to 5 *)
Example automatic_ex : exists fmt run dists d0, exact_format fmt /\
  auto_partitions fmt defaultvariants (Some 0%nat) (1 / 10) 0 5 true true true 6 = Some run /\
  nth_error run 5 = Some (linear_partition (1 / 10) (Some 0%nat) None dists [d0] 0 5 true true) /\ map real dists = [20; 10].
Proof.
  destruct exact_format_exists as (fmt & F). exists fmt.
  destruct (automatic_distances fmt defaultvariants (Some 0%nat) (1 / 10) 0 5 true true true 6) as (i & run & Hi & E & _ & H); auto; try lra; try discriminate.
  { repeat constructor; try discriminate.
    all: try (cbn; lia).
    all: unfold short, real; cbn [num denom]; first
      [exists 1%Z, 0%Z; split; [reflexivity|]; pw|exists 5%Z, (-1)%Z; split; [reflexivity|]; pw|exists 2%Z, 0%Z; split; [reflexivity|]; pw
      |exists 25%Z, (-1)%Z; split; [reflexivity|]; pw|exists 125%Z, (-2)%Z; split; [reflexivity|]; pw|exists 5%Z, 0%Z; split; [reflexivity|]; pw]. }
  destruct (H 5%nat ltac:(lia)) as (v & dists & d0 & Ev & F2 & _ & E2). cbn in Ev. exists run, dists, d0. split; auto. split; auto. split; auto.
  assert (i = 0%Z) as ->.
  { destruct Hi as [H1 H2]. assert (1 < 10) as T by lra. destruct (Z.le_gt_cases i (-1)) as [L|L].
    - pose proof (pow_le 10 _ _ T L) as P. revert P; pw.
    - destruct (Z.le_gt_cases 1 i) as [L2|L2]; [|lia]. pose proof (pow_le 10 _ _ T L2) as P. revert P; pw. }
  assert (v = [mkrat 2 1; mkrat 1 1]) as -> by congruence.
  inversion F2 as [|? d1 ? ds1 (_ & V1) F3]; subst. inversion F3 as [|? d2 ? ds2 (_ & V2) F4]; subst. inversion F4; subst. cbn [map].
  rewrite V1, V2. unfold real. f_equal; [pw|]. f_equal. pw.
Qed.
