(** Axis ranges and conversion (C26, C27) *)
From Coq Require Import Reals Bool List Lra.
From Verif Require Import ParterModel ParterProofs3 AxisModel AxisSpec.
Import ListNotations.
Open Scope R_scope.

Lemma ltb_case x y : (ltb x y = true /\ x < y) \/ (ltb x y = false /\ y <= x).
Proof. unfold ltb. destruct (Rlt_dec x y); [left|right]; split; auto; lra. Qed.

(** ** ranges *)
Definition covers (a : axis) (values : R -> Prop) (d : range) : Prop :=
  lower_limit (amin a) values (fst d) /\ upper_limit (amax a) values (snd d).
Lemma covers_ext a P Q d : (forall v, P v <-> Q v) -> covers a P d -> covers a Q d.
Proof.
  intros E [L U]. split.
  - unfold lower_limit in *. destruct (amin a), (fst d); auto.
    + destruct L as [L1 L2]. split; [apply E; auto|]. intros v H. apply L2, E; auto.
    + intros v H. apply (L v), E; auto.
  - unfold upper_limit in *. destruct (amax a), (snd d); auto.
    + destruct U as [L1 L2]. split; [apply E; auto|]. intros v H. apply L2, E; auto.
    + intros v H. apply (U v), E; auto.
Qed.
Lemma covers_value a P d value : covers a P d -> covers a (fun v => P v \/ value = Some v) (adjust_value a d value).
Proof.
  intros [L U]. destruct value as [x|].
  - cbn [adjust_value]. split; cbn [fst snd].
    + unfold lower_limit in *. destruct (amin a); auto. destruct (fst d) as [m|].
      * destruct L as [L1 L2]. destruct (ltb_case x m) as [[-> H]|[-> H]].
        -- split; auto. intros v [Hv|Hv]; [apply L2 in Hv; lra|]. injection Hv as ->. lra.
        -- split; auto. intros v [Hv|Hv]; [apply L2 in Hv; lra|]. injection Hv as ->. lra.
      * split; auto. intros v [Hv|Hv]; [destruct (L v Hv)|]. injection Hv as ->. lra.
    + unfold upper_limit in *. destruct (amax a); auto. destruct (snd d) as [m|].
      * destruct U as [L1 L2]. destruct (ltb_case m x) as [[-> H]|[-> H]].
        -- split; auto. intros v [Hv|Hv]; [apply L2 in Hv; lra|]. injection Hv as ->. lra.
        -- split; auto. intros v [Hv|Hv]; [apply L2 in Hv; lra|]. injection Hv as ->. lra.
      * split; auto. intros v [Hv|Hv]; [destruct (U v Hv)|]. injection Hv as ->. lra.
  - cbn. apply covers_ext with (P := P); [|split; auto]. intros v. split; auto. intros [|]; [auto|discriminate].
Qed.
Lemma covers_values a column P d : covers a P d -> covers a (fun v => P v \/ In (Some v) column) (fold_left (adjust_value a) column d).
Proof.
  revert P d. induction column as [|x column IH]; intros P d C; cbn [fold_left].
  - apply covers_ext with (P := P); auto. intros v. cbn. tauto.
  - eapply covers_ext; [|apply IH, covers_value, C]. intros v. cbn. tauto.
Qed.
Lemma covers_column a column P d : covers a P d -> covers a (fun v => P v \/ In (Some v) column) (adjustaxis a d column).
Proof.
  intros C. unfold adjustaxis. destruct (amin a) as [m|] eqn:E1, (amax a) as [M|] eqn:E2.
  - unfold covers, lower_limit, upper_limit in *. rewrite E1, E2 in *. auto.
  - apply covers_values; auto.
  - apply covers_values; auto.
  - apply covers_values; auto.
Qed.
Lemma covers_columns a columns P d : covers a P d -> covers a (fun v => P v \/ seen columns v) (fold_left (adjustaxis a) columns d).
Proof.
  revert P d. induction columns as [|x columns IH]; intros P d C; cbn [fold_left].
  - apply covers_ext with (P := P); auto. intros v. unfold seen. cbn. split; auto. intros [H|(c & [] & _)]; auto.
  - eapply covers_ext; [|apply IH, covers_column, C]. intros v. unfold seen. cbn. split.
    + intros [[H|H]|(c & H & H')]; eauto.
    + intros [H|(c & [->|H] & H')]; eauto.
Qed.

(** C27: after any history of adjustments each limit of the range is the fixed one, or the
    least (greatest) number seen, or missing if none was seen *)
Theorem axis_range_smallest a columns :
  let d := fold_left (adjustaxis a) columns (createdata a) in
  lower_limit (amin a) (seen columns) (fst d) /\ upper_limit (amax a) (seen columns) (snd d).
Proof.
  cbv zeta. apply covers_ext with (P := fun v => False \/ seen columns v); [tauto|].
  apply covers_columns. split; unfold createdata; cbn [fst snd].
  - unfold lower_limit. destruct (amin a); auto.
  - unfold upper_limit. destruct (amax a); auto.
Qed.
Print Assumptions axis_range_smallest.
Example range_ex :
  let d := fold_left (adjustaxis (mkaxis None (Some 10) false)) [[Some 3; None; Some (-2)]; []; [Some 20]] (createdata (mkaxis None (Some 10) false)) in
  d = (Some (-2), Some 10).
Proof. unfold adjustaxis, createdata. cbn. unfold ltb. destruct (Rlt_dec (-2) 3); [|lra]. destruct (Rlt_dec 20 (-2)); [lra|]. reflexivity. Qed.

(** C27: the range does not depend on the order of the data or on how it is divided into columns *)
Theorem axis_range_order a columns1 columns2 :
  (forall v, seen columns1 v <-> seen columns2 v) ->
  fold_left (adjustaxis a) columns1 (createdata a) = fold_left (adjustaxis a) columns2 (createdata a).
Proof.
  intros E. destruct (axis_range_smallest a columns1) as [L1 U1], (axis_range_smallest a columns2) as [L2 U2].
  destruct (fold_left (adjustaxis a) columns1 (createdata a)) as [l1 u1], (fold_left (adjustaxis a) columns2 (createdata a)) as [l2 u2].
  cbn [fst snd] in *. f_equal.
  - unfold lower_limit in *. destruct (amin a); [congruence|]. destruct l1, l2; auto.
    + f_equal. apply Rle_antisym; [apply L1, E, L2|apply L2, E, L1].
    + exfalso. apply (L2 r), E, L1.
    + exfalso. apply (L1 r), E, L2.
  - unfold upper_limit in *. destruct (amax a); [congruence|]. destruct u1, u2; auto.
    + f_equal. apply Rle_antisym; [apply U2, E, U1|apply U1, E, U2].
    + exfalso. apply (U2 r), E, U1.
    + exfalso. apply (U1 r), E, U2.
Qed.
Print Assumptions axis_range_order.
Example order_ex a x y z :
  fold_left (adjustaxis a) [[Some x; None; Some y]; [Some z]] (createdata a) = fold_left (adjustaxis a) [[Some z; Some y; Some y]; []; [Some x]] (createdata a).
Proof.
  apply axis_range_order. intros v. unfold seen. cbn. split.
  - intros (c & [<-|[<-|[]]] & H); cbn in H.
    + destruct H as [H|[H|[H|[]]]]; try discriminate; injection H as ->; [exists [Some v]|exists [Some z; Some v; Some v]]; cbn; auto.
    + destruct H as [H|[]]. injection H as ->. exists [Some v; Some y; Some y]. cbn; auto.
  - intros (c & [<-|[<-|[<-|[]]]] & H); cbn in H; try easy.
    + destruct H as [H|[H|[H|[]]]]; injection H as ->; [exists [Some v]|exists [Some x; None; Some v]|exists [Some x; None; Some v]]; cbn; auto.
    + destruct H as [H|[]]. injection H as ->. exists [Some v; None; Some y]. cbn; auto.
Qed.

(** ** conversion *)
(** C26: linear axes: a value is converted to [c] exactly if it divides the range at [c]
    (seen from the other end for a reversed axis) *)
Theorem linear_convert_exact rev lo hi v c : lo <> hi ->
  (linear_convert rev lo hi v = Some c <-> v = along lo hi (turned rev c)).
Proof.
  intros N. unfold linear_convert, along, turned. destruct (Req_EM_T (hi - lo) 0); [lra|]. destruct rev.
  - split.
    + intros H. assert (c = (hi - v) / (hi - lo)) as -> by congruence. field. auto.
    + intros ->. f_equal. field. auto.
  - split.
    + intros H. assert (c = (v - lo) / (hi - lo)) as -> by congruence. field. auto.
    + intros ->. f_equal. field. auto.
Qed.
Print Assumptions linear_convert_exact.
Example linear_ex : linear_convert false 2 10 4 = Some (1 / 4) /\ linear_convert true 2 10 4 = Some (3 / 4).
Proof. split; apply linear_convert_exact; unfold along, turned; lra. Qed.

Lemma log_pos x : 0 < x -> log x = Some (ln x).
Proof. intros H. unfold log. apply ltb_spec in H. rewrite H. reflexivity. Qed.
Lemma log_neg x : x <= 0 -> log x = None.
Proof. intros H. unfold log. destruct (ltb_case 0 x) as [[_ H']|[-> _]]; auto. lra. Qed.
Lemma ln_neq x y : 0 < x -> x < y -> ln y - ln x <> 0.
Proof. intros H H'. apply ln_increasing in H'; auto. lra. Qed.
Lemma along_log_ln a b f v : 0 < a -> 0 < b -> 0 < v -> (v = along_log a b f <-> ln v = ln a + f * (ln b - ln a)).
Proof.
  intros A B V. unfold along_log, Rpower.
  assert (ln (b / a) = ln b - ln a) as E.
  { unfold Rdiv. rewrite ln_mult, ln_Rinv; auto. apply Rinv_0_lt_compat; auto. }
  rewrite E. split.
  - intros ->. rewrite ln_mult; auto using exp_pos. rewrite ln_exp. auto.
  - intros H. apply ln_inv; auto. { apply Rmult_lt_0_compat; auto using exp_pos. } rewrite ln_mult; auto using exp_pos. rewrite ln_exp. auto.
Qed.
Lemma log_ratio_exact a b v c (rev : bool) : 0 < a -> 0 < b -> a <> b -> 0 < v ->
  ((if rev then log_ratio (log b) (log v) (log b) (log a) else log_ratio (log v) (log a) (log b) (log a)) = Some c
   <-> v = along_log a b (turned rev c)).
Proof.
  intros A B N V. rewrite !log_pos by auto. rewrite along_log_ln by auto. unfold log_ratio, turned.
  assert (ln b - ln a <> 0) as D.
  { destruct (Rtotal_order a b) as [H|[H|H]]; [apply ln_neq; auto|tauto|]. pose proof (ln_neq b a B H). lra. }
  destruct (Req_EM_T (ln b - ln a) 0); [tauto|]. destruct rev.
  - split.
    + intros H. assert (c = (ln b - ln v) / (ln b - ln a)) as -> by congruence. field. auto.
    + intros ->. f_equal. field. auto.
  - split.
    + intros H. assert (c = (ln v - ln a) / (ln b - ln a)) as -> by congruence. field. auto.
    + intros ->. f_equal. field. auto.
Qed.
(** C26: logarithmic axes divide the range geometrically, for positive as well as for negative
    ranges; values of the other sign (and zero) are refused *)
Theorem log_convert_exact rev lo hi v c : lo <> hi -> 0 < lo * hi ->
  (log_convert rev lo hi v = Some c <-> 0 < v * hi /\ v = along_log lo hi (turned rev c)).
Proof.
  intros N P. unfold log_convert. destruct (ltb_case hi 0) as [[-> H]|[-> H]].
  - assert (lo < 0) as L by nra. split.
    + intros E. assert (v < 0) as V.
      { destruct (Rlt_dec v 0); auto. rewrite (log_neg (- v)) in E by lra. unfold log_ratio in E. destruct rev, (log (- hi)), (log (- lo)); discriminate. }
      split; [nra|]. apply (log_ratio_exact (- lo) (- hi)) in E; try lra. unfold along_log in *.
      replace (- hi / - lo) with (hi / lo) in E by (field; lra). lra.
    + intros [V ->]. assert (0 < Rpower (hi / lo) (turned rev c)) by apply exp_pos. apply (log_ratio_exact (- lo) (- hi)); try lra.
      * unfold along_log. nra.
      * unfold along_log. replace (- hi / - lo) with (hi / lo) by (field; lra). lra.
  - assert (0 < hi) as B by (destruct H as [H|H]; [auto|subst; lra]). assert (0 < lo) as A by nra. split.
    + intros E. assert (0 < v) as V.
      { destruct (Rlt_dec 0 v); auto. rewrite (log_neg v) in E by lra. unfold log_ratio in E. destruct rev, (log hi), (log lo); discriminate. }
      split; [nra|]. apply log_ratio_exact in E; auto.
    + intros [V E]. apply log_ratio_exact; auto. nra.
Qed.
Print Assumptions log_convert_exact.
Example log_ex : log_convert false 1 100 10 = Some (1 / 2) /\ log_convert true (-100) (-1) (-10) = Some (1 / 2).
Proof.
  split; apply log_convert_exact; try lra; (split; [lra|]); unfold along_log, turned.
  - replace (100 / 1) with (10 * 10) by lra. rewrite <- Rpower_mult_distr by lra. rewrite <- Rpower_plus.
    replace (1 / 2 + 1 / 2) with 1 by lra. rewrite Rpower_1 by lra. lra.
  - replace (-1 / -100) with (1 / 10 * (1 / 10)) by lra. rewrite <- Rpower_mult_distr by lra. rewrite <- Rpower_plus.
    replace (1 - 1 / 2 + (1 - 1 / 2)) with 1 by lra. rewrite Rpower_1 by lra. lra.
Qed.

(** C26: the ends of the range become 0 and 1 (exchanged for a reversed axis), and conversion
    is strictly monotone *)
Theorem linear_axis_monotone rev lo hi : lo < hi ->
  linear_convert rev lo hi lo = Some (turned rev 0) /\ linear_convert rev lo hi hi = Some (turned rev 1) /\
  forall v w, v < w -> exists c d, linear_convert rev lo hi v = Some c /\ linear_convert rev lo hi w = Some d /\ before rev c d.
Proof.
  intros L. assert (lo <> hi) as N by lra. split; [|split].
  - apply linear_convert_exact; auto. unfold along, turned. destruct rev; ring.
  - apply linear_convert_exact; auto. unfold along, turned. destruct rev; ring.
  - intros v w H. exists (turned rev ((v - lo) / (hi - lo))), (turned rev ((w - lo) / (hi - lo))).
    assert ((v - lo) / (hi - lo) < (w - lo) / (hi - lo)) as K.
    { apply Rmult_lt_compat_r; [apply Rinv_0_lt_compat|]; lra. }
    split; [|split].
    + apply linear_convert_exact; auto. unfold along, turned. destruct rev; field; lra.
    + apply linear_convert_exact; auto. unfold along, turned. destruct rev; field; lra.
    + unfold before, turned. destruct rev; lra.
Qed.
Print Assumptions linear_axis_monotone.
Theorem log_axis_monotone rev lo hi : lo < hi -> 0 < lo * hi ->
  log_convert rev lo hi lo = Some (turned rev 0) /\ log_convert rev lo hi hi = Some (turned rev 1) /\
  forall v w, v < w -> 0 < v * hi -> 0 < w * hi ->
    exists c d, log_convert rev lo hi v = Some c /\ log_convert rev lo hi w = Some d /\ before rev c d.
Proof.
  intros L P. assert (lo <> hi) as N by lra.
  assert (forall f, turned rev (turned rev f) = f) as T2 by (intros f; unfold turned; destruct rev; lra).
  assert (forall v, 0 < v * hi -> exists c, log_convert rev lo hi v = Some (turned rev c) /\
            (if Rlt_dec 0 hi then ln v = ln lo + c * (ln hi - ln lo) else ln (- v) = ln (- lo) + c * (ln (- hi) - ln (- lo)))) as X.
  { intros v V. destruct (Rlt_dec 0 hi) as [H|H].
    - assert (0 < lo) as A by nra. assert (0 < v) as B by nra. pose proof (ln_neq lo hi A L) as D.
      exists ((ln v - ln lo) / (ln hi - ln lo)). split; [|field; auto].
      apply log_convert_exact; auto. split; auto. rewrite T2. apply along_log_ln; auto. field. auto.
    - assert (hi <> 0) by (intros ->; lra). assert (hi < 0) as H' by lra. assert (lo < 0) as A by lra. assert (v < 0) as B by nra.
      assert (ln (- hi) - ln (- lo) <> 0) as D. { pose proof (ln_neq (- hi) (- lo) ltac:(lra) ltac:(lra)). lra. }
      exists ((ln (- v) - ln (- lo)) / (ln (- hi) - ln (- lo))). split; [|field; auto].
      apply log_convert_exact; auto. split; auto. rewrite T2.
      assert (- v = along_log (- lo) (- hi) ((ln (- v) - ln (- lo)) / (ln (- hi) - ln (- lo)))) as E by (apply along_log_ln; try lra; field; auto).
      unfold along_log in *. replace (- hi / - lo) with (hi / lo) in E by (field; lra). lra. }
  split; [|split].
  - apply log_convert_exact; auto. split; auto. rewrite T2. unfold along_log. rewrite Rpower_O; [lra|].
    destruct (Rlt_dec 0 hi); [apply Rdiv_lt_0_compat; nra|]. assert (hi <> 0) by (intros ->; lra).
    replace (hi / lo) with (- hi / - lo) by (field; intros ->; lra). apply Rdiv_lt_0_compat; nra.
  - apply log_convert_exact; auto. assert (hi <> 0) as H0 by (intros ->; lra). assert (lo <> 0) as H1 by (intros ->; lra).
    split; [nra|]. rewrite T2. unfold along_log. rewrite Rpower_1; [field; auto|].
    destruct (Rlt_dec 0 hi); [apply Rdiv_lt_0_compat; nra|].
    replace (hi / lo) with (- hi / - lo) by (field; auto). apply Rdiv_lt_0_compat; nra.
  - intros v w H V W. destruct (X v V) as (c & Ec & Hc), (X w W) as (d & Ed & Hd).
    exists (turned rev c), (turned rev d). split; [auto|split; [auto|]].
    assert (c < d) as CD.
    { destruct (Rlt_dec 0 hi) as [H0|H0].
      - assert (0 < v) by nra. assert (ln v < ln w) by (apply ln_increasing; auto).
        assert (ln lo < ln hi) by (apply ln_increasing; nra). nra.
      - assert (hi <> 0) by (intros ->; lra). assert (v < 0) by nra. assert (w < 0) by nra. assert (ln (- w) < ln (- v)) by (apply ln_increasing; lra).
        assert (ln (- hi) < ln (- lo)) by (apply ln_increasing; lra). nra. }
    unfold before, turned. destruct rev; lra.
Qed.
Print Assumptions log_axis_monotone.
Example monotone_ex : exists c d, log_convert false (-8) (-2) (-5) = Some c /\ log_convert false (-8) (-2) (-3) = Some d /\ c < d.
Proof. destruct (log_axis_monotone false (-8) (-2)) as (_ & _ & H); [lra|lra|]. apply (H (-5) (-3)); lra. Qed.

(** C26: limits given in falling order: the axis runs from the first to the second limit (and
    the other way round if reversed), on a proper range *)
Theorem limits_in_any_order rev a b : a <> b ->
  let x := new_axis (Some a) (Some b) rev in
  x = new_axis (Some b) (Some a) (negb rev) /\
  exists lo hi, createdata x = (Some lo, Some hi) /\ lo < hi /\
    linear_convert (reverse x) lo hi a = Some (turned rev 0) /\ linear_convert (reverse x) lo hi b = Some (turned rev 1) /\
    (0 < a * b -> log_convert (reverse x) lo hi a = Some (turned rev 0) /\ log_convert (reverse x) lo hi b = Some (turned rev 1)).
Proof.
  intros N. cbv zeta. unfold new_axis. destruct (ltb_case b a) as [[-> H]|[-> H]].
  - destruct (ltb_case a b) as [[_ H']|[-> H']]; [lra|]. split; auto. exists b, a. cbn [createdata amin amax reverse].
    destruct (linear_axis_monotone (negb rev) b a H) as (E1 & E2 & _). split; [auto|split; [auto|]].
    rewrite E1, E2. replace (turned rev 0) with (turned (negb rev) 1) by (unfold turned; destruct rev; cbn; lra).
    replace (turned rev 1) with (turned (negb rev) 0) by (unfold turned; destruct rev; cbn; lra).
    split; [auto|split; [auto|]]. intros P. destruct (log_axis_monotone (negb rev) b a H) as (E3 & E4 & _); [lra|]. auto.
  - assert (a < b) as L by lra. destruct (ltb_case a b) as [[-> H']|[-> H']]; [|lra]. rewrite negb_involutive. split; auto.
    exists a, b. cbn [createdata amin amax reverse]. destruct (linear_axis_monotone rev a b L) as (E1 & E2 & _).
    split; [auto|split; [auto|split; [auto|split; [auto|]]]]. intros P. destruct (log_axis_monotone rev a b L P) as (E3 & E4 & _). auto.
Qed.
Print Assumptions limits_in_any_order.
Example falling_ex : new_axis (Some 5) (Some 1) false = mkaxis (Some 1) (Some 5) true.
Proof. unfold new_axis, ltb. destruct (Rlt_dec 1 5); [|lra]. reflexivity. Qed.

(** C27: an axis without fixed limits which saw two different numbers can be created and has
    all its data between 0 and 1; with a positive fallback width one number is enough *)
Theorem data_inside_axis rev fall columns v0 :
  let d := fold_left (adjustaxis (new_axis None None rev)) columns (createdata (new_axis None None rev)) in
  seen columns v0 -> (exists w, seen columns w /\ w <> v0) \/ (exists w, fall = Width w /\ 0 < w) ->
  exists lo hi, create_range fall d = Some (lo, hi) /\ lo < hi /\
    forall v, seen columns v -> exists c, linear_convert rev lo hi v = Some c /\ 0 <= c <= 1.
Proof.
  cbv zeta. intros S0 W. destruct (axis_range_smallest (new_axis None None rev) columns) as [Lo Up]. cbn [new_axis amin amax] in *.
  destruct (fold_left _ columns _) as [[l|] [u|]]; cbn [fst snd lower_limit upper_limit] in *;
    [| | |]; try (exfalso; first [apply (Up v0); auto; fail | apply (Lo v0); auto; fail]).
  destruct Lo as [Sl Lo], Up as [Su Up].
  assert (forall lo hi, lo < hi -> (forall v, seen columns v -> lo <= v <= hi) ->
            forall v, seen columns v -> exists c, linear_convert rev lo hi v = Some c /\ 0 <= c <= 1) as K.
  { intros lo hi H B v V. apply B in V. exists (turned rev ((v - lo) / (hi - lo))). split.
    - apply linear_convert_exact; [lra|]. unfold along, turned. destruct rev; field; lra.
    - assert (0 <= (v - lo) / (hi - lo)). { apply Rmult_le_pos; [lra|]. left. apply Rinv_0_lt_compat. lra. }
      assert ((v - lo) / (hi - lo) <= 1). { apply (Rmult_le_reg_r (hi - lo)); [lra|]. unfold Rdiv. rewrite Rmult_assoc, Rinv_l by lra. lra. }
      unfold turned. destruct rev; lra. }
  cbn [create_range]. destruct (Req_EM_T u l) as [->|N].
  - destruct W as [(w & Sw & Nw)|(w & -> & Pw)].
    + exfalso. pose proof (Lo _ Sw). pose proof (Up _ Sw). pose proof (Lo _ S0). pose proof (Up _ S0). lra.
    + exists (l - 1 / 2 * w), (l + 1 / 2 * w). split; [auto|split; [lra|]]. apply K; [lra|]. intros v V. pose proof (Lo _ V). pose proof (Up _ V). lra.
  - exists l, u. pose proof (Lo _ Su). split; [auto|split; [lra|]]. apply K; [lra|]. intros v V. split; auto.
Qed.
Print Assumptions data_inside_axis.
Example inside_ex : create_range (Width 4) (Some 3, Some 3) = Some (3 - 1 / 2 * 4, 3 + 1 / 2 * 4) /\ create_range NoFallback (Some 3, Some 3) = None.
Proof. cbn. destruct (Req_EM_T 3 3); [auto|lra]. Qed.
