From Coq Require Import Reals ZArith QArith Bool List Lia ZifyBool Lra Sorted.
From Verif Require Import BboxModel TickModel TickSpec TickProofs ParterModel ParterSpec ParterProofs ParterProofs2 ParterProofs3.
Import ListNotations.
Open Scope R_scope.

Definition imin_of eps lo p f : Z := (floor (loge p lo f + eps) + 1)%Z.
Definition imax_of eps hi p f : Z := (ceil (loge p hi f - eps) - 1)%Z.
Definition first_min (g : rational -> Z) (done : list rational) (s : option (Z * nat)) : Prop :=
  match s with
  | None => done = []
  | Some (m, k) => (exists f, nth_error done k = Some f /\ g f = m) /\
      forall j f, nth_error done j = Some f -> (m <= g f)%Z /\ ((j < k)%nat -> (m < g f)%Z)
  end.
Definition last_max (g : rational -> Z) (done : list rational) (s : option (Z * nat)) : Prop :=
  match s with
  | None => done = []
  | Some (m, k) => (exists f, nth_error done k = Some f /\ g f = m) /\
      forall j f, nth_error done j = Some f -> (g f <= m)%Z /\ ((k < j)%nat -> (g f < m)%Z)
  end.
Lemma nth_error_snoc {A} (l : list A) a j b : nth_error (l ++ [a]) j = Some b -> (nth_error l j = Some b /\ (j < length l)%nat) \/ (j = length l /\ b = a).
Proof.
  intros H. destruct (Nat.lt_ge_cases j (length l)) as [L|L].
  - rewrite nth_error_app1 in H by auto. auto.
  - rewrite nth_error_app2 in H by auto. destruct (j - length l)%nat as [|n] eqn:E; cbn in H.
    + right. split; [lia|]. congruence.
    + destruct n; discriminate H.
Qed.

Lemma extend_loop_spec eps lo hi p fs : forall done st, first_min (imin_of eps lo p) done (fst st) -> last_max (imax_of eps hi p) done (snd st) ->
  let st' := extend_loop eps lo hi p (length done) fs st in
  first_min (imin_of eps lo p) (done ++ fs) (fst st') /\ last_max (imax_of eps hi p) (done ++ fs) (snd st').
Proof.
  induction fs as [|f fs IH]; intros done [a b] Ha Hb; cbn [fst snd extend_loop] in *.
  { rewrite app_nil_r. auto. }
  replace (done ++ f :: fs) with ((done ++ [f]) ++ fs) by now rewrite <- app_assoc.
  replace (S (length done)) with (length (done ++ [f])) by (rewrite app_length; simpl; lia).
  fold (imin_of eps lo p f). fold (imax_of eps hi p f).
  assert (nth_error (done ++ [f]) (length done) = Some f) as NF by (rewrite nth_error_app2, Nat.sub_diag by lia; reflexivity).
  apply IH; cbn [fst snd].
  - destruct a as [[m k]|].
    + destruct Ha as ((g & Hg & Eg) & Hall). assert (k < length done)%nat as Kl by (apply nth_error_Some; congruence).
      destruct (Z.ltb_spec (imin_of eps lo p f) m) as [L|L]; split.
      * eauto.
      * intros j h Hj. apply nth_error_snoc in Hj. destruct Hj as [[Hj _]|[-> ->]]; [destruct (Hall j h Hj); lia|lia].
      * exists g. split; auto. now rewrite nth_error_app1.
      * intros j h Hj. apply nth_error_snoc in Hj. destruct Hj as [[Hj _]|[-> ->]]; [destruct (Hall j h Hj); lia|lia].
    + cbn in Ha. subst done. split; [exists f; auto|]. intros j h Hj. apply nth_error_snoc in Hj. destruct Hj as [[Hj _]|[-> ->]]; [destruct j; discriminate|]. cbn [length]. lia.
  - destruct b as [[m k]|].
    + destruct Hb as ((g & Hg & Eg) & Hall). assert (k < length done)%nat as Kl by (apply nth_error_Some; congruence).
      destruct (Z.leb_spec m (imax_of eps hi p f)) as [L|L]; split.
      * eauto.
      * intros j h Hj. apply nth_error_snoc in Hj. destruct Hj as [[Hj ?]|[-> ->]]; [destruct (Hall j h Hj); lia|lia].
      * exists g. split; auto. now rewrite nth_error_app1.
      * intros j h Hj. apply nth_error_snoc in Hj. destruct Hj as [[Hj _]|[-> ->]]; [destruct (Hall j h Hj); lia|lia].
    + cbn in Hb. subst done. split; [exists f; auto|]. intros j h Hj. apply nth_error_snoc in Hj. destruct Hj as [[Hj _]|[-> ->]]; [destruct j; discriminate|]. cbn [length]. lia.
Qed.

Lemma ascending_nth l : ascending l -> forall i j x y, nth_error l i = Some x -> nth_error l j = Some y -> (i < j)%nat -> x < y.
Proof.
  induction 1 as [|a l Ha Hl IH]; intros i j x y Hi Hj L; [destruct i; discriminate|].
  destruct j as [|j]; [lia|]. cbn in Hj. destruct i as [|i]; cbn in Hi.
  - assert (a = x) as -> by congruence. apply Ha. now apply nth_error_In in Hj.
  - apply (IH i j); auto. lia.
Qed.
Lemma fractions_nth p i j f g : spread p -> nth_error (pres p) i = Some f -> nth_error (pres p) j = Some g -> (i <= j)%nat -> rval f <= rval g.
Proof.
  intros (A & _) Hi Hj L. destruct (Nat.eq_dec i j) as [->|N].
  - assert (f = g) by congruence. subst. lra.
  - left. apply (ascending_nth _ A i j); try lia; rewrite nth_error_map; [rewrite Hi|rewrite Hj]; reflexivity.
Qed.
Lemma last_nth {A} (l : list A) d : l <> [] -> nth_error l (length l - 1) = Some (last l d).
Proof.
  induction l as [|a l IH]; [easy|]. intros _. destruct l as [|b l]; [reflexivity|].
  replace (length (a :: b :: l) - 1)%nat with (S (length (b :: l) - 1)) by (simpl; lia). cbn [nth_error]. rewrite IH by easy. reflexivity.
Qed.

Section Extend.
  Context (p : preexp) (B : base_ok p) (SP : spread p).
  Let e := IZR (pexp p).
  Local Notation tickpos := (scaled (map rval (pres p)) e).
  Lemma e1 : 1 < e. Proof. exact (base_real p B). Qed.
  Lemma f_pos f : In f (pres p) -> 0 < rval f.
  Proof. intros H. destruct B as (BP & _). rewrite Forall_forall in BP. now apply rval_pos, BP. Qed.
  Lemma tick_of f i : In f (pres p) -> tickpos (rval f * powerRZ e i).
  Proof. intros H. exists (rval f), i. split; auto. now apply in_map. Qed.
  Lemma grow f i j : In f (pres p) -> (i <= j)%Z -> rval f * powerRZ e i <= rval f * powerRZ e j.
  Proof. intros H L. apply f_pos in H. apply Rmult_le_compat_l; [lra|]. apply pow_le; auto. apply e1. Qed.
  Lemma wider f g i : rval f <= rval g -> rval f * powerRZ e i <= rval g * powerRZ e i.
  Proof. intros L. apply Rmult_le_compat_r; auto. left. apply pow_pos, e1. Qed.
  Lemma carry f g i : In f (pres p) -> In g (pres p) -> rval f * powerRZ e i < rval g * powerRZ e (i + 1).
  Proof.
    intros Hf Hg. destruct SP as (_ & _ & H). specialize (H f g Hf Hg). change (real f) with (rval f) in H. change (real g) with (rval g) in H. fold e in H. rewrite pow_succ by apply e1.
    pose proof (pow_pos e i e1). nra.
  Qed.

  Lemma lower_limit c g m k : 0 < c -> (forall f i, In f (pres p) -> (rval f * powerRZ e i <= c <-> (i < g f)%Z)) ->
    first_min g (pres p) (Some (m, k)) ->
    greatest_below tickpos c
      (let '(r, m') := match k with S k' => (nth k' (pres p) zero_rational, m) | O => (last (pres p) zero_rational, (m - 1)%Z) end in rval r * powerRZ e m').
  Proof.
    intros Hc G ((f & Hf & Ef) & Hall). pose proof (nth_error_In _ _ Hf) as If. assert (k < length (pres p))%nat as Kl by (apply nth_error_Some; congruence).
    assert (pres p <> []) as NE by apply SP. pose proof (last_nth (pres p) zero_rational NE) as HL.
    assert (c < rval f * powerRZ e m) as Cf.
    { destruct (Rlt_le_dec c (rval f * powerRZ e m)) as [L|L]; auto. apply G in L; auto. lia. }
    (* members from k on are above c with the power m *)
    assert (forall j h i, nth_error (pres p) j = Some h -> rval h * powerRZ e i <= c -> (k <= j)%nat -> (i <= m - 1)%Z) as UP.
    { intros j h i Hj Hi Lj. pose proof (fractions_nth p k j f h SP Hf Hj Lj) as L. pose proof (wider f h m L) as W.
      assert (~ (m <= i)%Z); [|lia]. intros Mi. pose proof (grow h m i (nth_error_In _ _ Hj) Mi). lra. }
    destruct k as [|k].
    - split; [|split].
      + apply tick_of. now apply nth_error_In in HL.
      + apply G; [now apply nth_error_In in HL|]. destruct (Hall _ _ HL). lia.
      + intros y (r & i & Hr & ->) Hy. apply in_map_iff in Hr. destruct Hr as (h & <- & Hh). apply In_nth_error in Hh. destruct Hh as (j & Hj).
        pose proof (UP j h i Hj Hy ltac:(lia)) as U. pose proof (nth_error_In _ _ Hj) as Ih.
        apply Rle_trans with (rval h * powerRZ e (m - 1)); [now apply grow|]. apply wider. apply (fractions_nth p j (length (pres p) - 1)); auto.
        assert (j < length (pres p))%nat by (apply nth_error_Some; congruence). lia.
    - destruct (nth_error (pres p) k) as [f'|] eqn:Hf'; [|apply nth_error_None in Hf'; lia].
      rewrite (nth_error_nth _ _ _ Hf'). pose proof (nth_error_In _ _ Hf') as If'. split; [|split].
      + now apply tick_of.
      + apply G; auto. destruct (Hall _ _ Hf') as [_ H]. apply H. lia.
      + intros y (r & i & Hr & ->) Hy. apply in_map_iff in Hr. destruct Hr as (h & <- & Hh). apply In_nth_error in Hh. destruct Hh as (j & Hj).
        pose proof (nth_error_In _ _ Hj) as Ih. destruct (Nat.le_gt_cases (S k) j) as [Lj|Lj].
        * pose proof (UP j h i Hj Hy Lj) as U. pose proof (grow h i (m - 1) Ih U). pose proof (carry h f' (m - 1) Ih If') as C.
          replace (m - 1 + 1)%Z with m in C by lia. lra.
        * assert (i <= m)%Z as Im.
          { assert (~ (m + 1 <= i)%Z); [|lia]. intros Mi. pose proof (grow h (m + 1) i Ih Mi). pose proof (carry f h m If Ih). lra. }
          apply Rle_trans with (rval h * powerRZ e m); [now apply grow|]. apply wider. apply (fractions_nth p j k); auto. lia.
  Qed.

  Lemma upper_limit c g m k : 0 < c -> (forall f i, In f (pres p) -> (c <= rval f * powerRZ e i <-> (g f < i)%Z)) ->
    last_max g (pres p) (Some (m, k)) ->
    least_above tickpos c
      (let '(r, m') := if Nat.eqb k (length (pres p) - 1) then (hd zero_rational (pres p), (m + 1)%Z) else (nth (S k) (pres p) zero_rational, m) in rval r * powerRZ e m').
  Proof.
    intros Hc G ((f & Hf & Ef) & Hall). pose proof (nth_error_In _ _ Hf) as If. assert (k < length (pres p))%nat as Kl by (apply nth_error_Some; congruence).
    assert (pres p <> []) as NE by apply SP.
    assert (rval f * powerRZ e m < c) as Cf.
    { destruct (Rlt_le_dec (rval f * powerRZ e m) c) as [L|L]; auto. apply G in L; auto. lia. }
    assert (forall j h i, nth_error (pres p) j = Some h -> c <= rval h * powerRZ e i -> (j <= k)%nat -> (m + 1 <= i)%Z) as UP.
    { intros j h i Hj Hi Lj. pose proof (fractions_nth p j k h f SP Hj Hf Lj) as L. pose proof (wider h f m L) as W.
      assert (~ (i <= m)%Z); [|lia]. intros Mi. pose proof (grow h i m (nth_error_In _ _ Hj) Mi). lra. }
    destruct (Nat.eqb_spec k (length (pres p) - 1)) as [Ek|Nk].
    - assert (nth_error (pres p) 0 = Some (hd zero_rational (pres p))) as H0 by (destruct (pres p); [easy|reflexivity]). pose proof (nth_error_In _ _ H0) as I0.
      split; [|split].
      + now apply tick_of.
      + apply G; auto. destruct (Hall _ _ H0). lia.
      + intros y (r & i & Hr & ->) Hy. apply in_map_iff in Hr. destruct Hr as (h & <- & Hh). apply In_nth_error in Hh. destruct Hh as (j & Hj).
        assert (j < length (pres p))%nat by (apply nth_error_Some; congruence).
        pose proof (UP j h i Hj Hy ltac:(lia)) as U. pose proof (nth_error_In _ _ Hj) as Ih.
        apply Rle_trans with (rval h * powerRZ e (m + 1)); [|now apply grow]. apply wider. apply (fractions_nth p 0 j); auto. lia.
    - destruct (nth_error (pres p) (S k)) as [f'|] eqn:Hf'; [|apply nth_error_None in Hf'; lia].
      rewrite (nth_error_nth _ _ _ Hf'). pose proof (nth_error_In _ _ Hf') as If'. split; [|split].
      + now apply tick_of.
      + apply G; auto. destruct (Hall _ _ Hf') as [_ H]. apply H. lia.
      + intros y (r & i & Hr & ->) Hy. apply in_map_iff in Hr. destruct Hr as (h & <- & Hh). apply In_nth_error in Hh. destruct Hh as (j & Hj).
        pose proof (nth_error_In _ _ Hj) as Ih. destruct (Nat.le_gt_cases j k) as [Lj|Lj].
        * pose proof (UP j h i Hj Hy Lj) as U. pose proof (grow h (m + 1) i Ih U). pose proof (carry f' h m If' Ih) as C. lra.
        * assert (m <= i)%Z as Im.
          { assert (~ (i <= m - 1)%Z); [|lia]. intros Mi. pose proof (grow h i (m - 1) Ih Mi). pose proof (carry h f (m - 1) Ih If) as C.
            replace (m - 1 + 1)%Z with m in C by lia. lra. }
          apply Rle_trans with (rval h * powerRZ e m); [|now apply grow]. apply wider. apply (fractions_nth p (S k) j); auto. 
  Qed.

  Lemma log_extend_pos eps lo hi emin emax : 0 < lo -> 0 < hi -> exists lo' hi', log_extend eps lo hi p emin emax = Some (lo', hi') /\
    (if emin then greatest_below tickpos (lo * Rpower e eps) lo' else lo' = lo) /\
    (if emax then least_above tickpos (hi * Rpower e (- eps)) hi' else hi' = hi).
  Proof.
    intros Hlo Hhi. unfold log_extend. assert (mixed_signs lo hi = false) as -> by (apply mixed_false; auto). rewrite (log_ok_base p B). cbn [orb negb].
    destruct (ltb hi 0) eqn:L; [apply ltb_spec in L; lra|].
    destruct (extend_loop_spec eps lo hi p (pres p) [] (None, None)) as (S1 & S2); try reflexivity. cbn [length app] in S1, S2.
    destruct (extend_loop eps lo hi p 0 (pres p) (None, None)) as [a b]. cbn [fst snd] in S1, S2.
    assert (pres p <> []) as NE by apply SP.
    destruct a as [[m k]|]; [|contradiction (NE S1)]. destruct b as [[m' k']|]; [|contradiction (NE S2)].
    pose proof e1 as He.
    assert (forall s, 0 < Rpower e s) as RP by (intros s; apply exp_pos).
    pose proof (lower_limit (lo * Rpower e eps) (imin_of eps lo p) m k) as LL. pose proof (upper_limit (hi * Rpower e (- eps)) (imax_of eps hi p) m' k') as UU.
    specialize (LL ltac:(apply Rmult_lt_0_compat; auto)). specialize (UU ltac:(apply Rmult_lt_0_compat; auto)).
    specialize (fun H => LL H S1). specialize (fun H => UU H S2).
    assert (forall f i, In f (pres p) -> (rval f * powerRZ e i <= lo * Rpower e eps <-> (i < imin_of eps lo p f)%Z)) as GL.
    { intros f i Hf. unfold imin_of, loge. rewrite <- log_le by (auto using f_pos). fold e. rewrite <- floor_ge. lia. }
    assert (forall f i, In f (pres p) -> (hi * Rpower e (- eps) <= rval f * powerRZ e i <-> (imax_of eps hi p f < i)%Z)) as GU.
    { intros f i Hf. unfold imax_of, loge. rewrite <- log_ge by (auto using f_pos). fold e. rewrite <- ceil_le. lia. }
    specialize (LL GL). specialize (UU GU). fold e.
    destruct k as [|k], (Nat.eqb k' (length (pres p) - 1)); eexists; eexists; (split; [reflexivity|]); destruct emin, emax; auto.
  Qed.
End Extend.

Lemma log_extend_mirror eps lo hi p emin emax : lo < 0 -> hi < 0 ->
  log_extend eps lo hi p emin emax = option_map (fun r => (- snd r, - fst r)) (log_extend eps (- hi) (- lo) p emin emax).
Proof.
  intros Hlo Hhi. unfold log_extend.
  assert (mixed_signs lo hi = false) as -> by (apply mixed_false; lra). assert (mixed_signs (- hi) (- lo) = false) as -> by (apply mixed_false; lra).
  destruct (negb (log_ok p)); [reflexivity|]. cbn [orb].
  destruct (ltb hi 0) eqn:L. 2: { exfalso. apply ltb_spec in Hhi. congruence. }
  destruct (ltb (- lo) 0) eqn:L2. { apply ltb_spec in L2. lra. }
  destruct (extend_loop _ _ _ _ _ _ _) as [[[m k]|] [[m' k']|]]; try reflexivity.
  destruct k; destruct (Nat.eqb k' (length (pres p) - 1)); reflexivity.
Qed.
