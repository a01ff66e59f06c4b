(** Raters (C29) and the divisor of an axis (C79) *)
From Coq Require Import Reals ZArith Bool List Lra Lia QArith.
From Verif Require Import TickModel TickProps ParterModel ParterProofs ParterProofs3 AxisModel AxisSpec AxisProps.
Import ListNotations.
Open Scope R_scope.

(** C29: a cube rater with left < optimum < right: going from the optimum the fraction [f] of
    the way to the left or right value the rate is weight times the cube of [f], with all
    values scaled by the density *)
Theorem cube_rate_exact c f density : left c < opt c < right c -> 0 < density -> 0 <= f ->
  cube_rate c (along (opt c) (right c) f * density) density = Some (cweight c * f ^ 3) /\
  cube_rate c (along (opt c) (left c) f * density) density = Some (cweight c * f ^ 3).
Proof.
  intros [L R] D F. unfold cube_rate, along.
  assert (0 <= f * (right c - opt c) * density) by (repeat apply Rmult_le_pos; lra).
  assert (0 < (right c - opt c) * density) by (apply Rmult_lt_0_compat; lra).
  assert (0 < (opt c - left c) * density) by (apply Rmult_lt_0_compat; lra). split.
  - destruct (ltb_case ((opt c + f * (right c - opt c)) * density) (opt c * density)) as [[_ Hx]|[-> _]]; [lra|].
    destruct (ltb_case (opt c * density) ((opt c + f * (right c - opt c)) * density)) as [[-> Hx]|[-> Hx]].
    + destruct (Req_EM_T (right c * density - opt c * density) 0); [lra|]. f_equal. f_equal. f_equal. field. lra.
    + assert (f = 0) as ->. { assert (f * (right c - opt c) * density <= 0) by lra. nra. } f_equal. ring.
  - destruct (ltb_case ((opt c + f * (left c - opt c)) * density) (opt c * density)) as [[-> Hx]|[-> Hx]].
    + destruct (Req_EM_T (left c * density - opt c * density) 0); [lra|]. f_equal. f_equal. f_equal. field. lra.
    + assert (f = 0) as ->. { assert (f * (opt c - left c) * density <= 0) by lra. nra. }
      destruct (ltb_case (opt c * density) ((opt c + 0 * (left c - opt c)) * density)) as [[_ Hy]|[-> _]]; [lra|]. f_equal. ring.
Qed.
Print Assumptions cube_rate_exact.
(** C29: rates are never negative, zero only at the optimum, the weight at the left and right
    values, and strictly increase away from the optimum *)
Theorem cube_rate_monotone c density : left c < opt c < right c -> 0 < density -> 0 < cweight c ->
  cube_rate c (left c * density) density = Some (cweight c) /\ cube_rate c (right c * density) density = Some (cweight c) /\
  (forall v, exists r, cube_rate c v density = Some r /\ 0 <= r /\ (r = 0 <-> v = opt c * density)) /\
  (forall v w r s, opt c * density <= v < w \/ w < v <= opt c * density ->
     cube_rate c v density = Some r -> cube_rate c w density = Some s -> r < s).
Proof.
  intros LR D W. assert (forall v, exists f, 0 <= f /\ (v = along (opt c) (right c) f * density /\ opt c * density <= v \/ v = along (opt c) (left c) f * density /\ v <= opt c * density) /\
      (f = 0 <-> v = opt c * density) /\ cube_rate c v density = Some (cweight c * f ^ 3)) as X.
  { intros v. destruct (Rle_dec (opt c * density) v) as [H|H].
    - exists ((v / density - opt c) / (right c - opt c)). assert (v = along (opt c) (right c) ((v / density - opt c) / (right c - opt c)) * density) as E.
      { unfold along. field. lra. }
      assert (0 <= (v / density - opt c) / (right c - opt c)) as F.
      { apply Rmult_le_pos; [|left; apply Rinv_0_lt_compat; lra]. assert (opt c <= v / density); [|lra].
        apply (Rmult_le_reg_r density); auto. unfold Rdiv. rewrite Rmult_assoc, Rinv_l by lra. lra. }
      split; [auto|split; [auto|split]].
      + split; [intros Z; rewrite Z in E; unfold along in E; lra|]. intros ->. field. lra.
      + rewrite E at 1. apply cube_rate_exact; auto.
    - exists ((v / density - opt c) / (left c - opt c)). assert (v = along (opt c) (left c) ((v / density - opt c) / (left c - opt c)) * density) as E.
      { unfold along. field. lra. }
      assert (0 <= (v / density - opt c) / (left c - opt c)) as F.
      { replace ((v / density - opt c) / (left c - opt c)) with ((opt c - v / density) / (opt c - left c)) by (field; lra).
        apply Rmult_le_pos; [|left; apply Rinv_0_lt_compat; lra]. assert (v / density <= opt c); [|lra].
        apply (Rmult_le_reg_r density); auto. unfold Rdiv. rewrite Rmult_assoc, Rinv_l by lra. lra. }
      split; [auto|split; [right; split; [auto|lra]|split]].
      + split; [intros Z; rewrite Z in E; unfold along in E; lra|]. intros ->. field. lra.
      + rewrite E at 1. apply cube_rate_exact; auto. }
  split; [|split; [|split]].
  - replace (left c) with (along (opt c) (left c) 1) at 1 by (unfold along; ring). rewrite (proj2 (cube_rate_exact c 1 density LR D ltac:(lra))). f_equal. ring.
  - replace (right c) with (along (opt c) (right c) 1) at 1 by (unfold along; ring). rewrite (proj1 (cube_rate_exact c 1 density LR D ltac:(lra))). f_equal. ring.
  - intros v. destruct (X v) as (f & F & _ & Z & E). exists (cweight c * f ^ 3). split; auto.
    assert (0 <= f ^ 3) by (apply Rfunctions.pow_le; auto). split; [nra|]. rewrite <- Z. split; [|intros ->; ring].
    intros H0. apply Rmult_integral in H0. destruct H0 as [H0|H0]; [lra|]. destruct F as [F| <-]; auto. pose proof (Rfunctions.pow_lt f 3 F). lra.
  - intros v w r s O Er Es. destruct (X v) as (f & F & Pv & Zf & Ef), (X w) as (g & G & Pw & Zg & Eg).
    assert (r = cweight c * f ^ 3) as -> by congruence. assert (s = cweight c * g ^ 3) as -> by congruence.
    apply Rmult_lt_compat_l; auto. assert (f < g) as FG.
    { unfold along in *. destruct O as [O|O].
      - destruct Pw as [[Ew Hw]|[Ew Hw]]; [|lra]. destruct Pv as [[Ev Hv]|[Ev Hv]].
        + assert (f * ((right c - opt c) * density) < g * ((right c - opt c) * density)) as K by lra. apply Rmult_lt_reg_r in K; auto. apply Rmult_lt_0_compat; lra.
        + assert (f = 0) as -> by (apply Zf; lra). destruct G as [G|G]; auto. assert (w = opt c * density) by (apply Zg; auto). lra.
      - destruct Pw as [[Ew Hw]|[Ew Hw]]; [lra|]. destruct Pv as [[Ev Hv]|[Ev Hv]].
        + assert (f = 0) as -> by (apply Zf; lra). destruct G as [G|G]; auto. assert (w = opt c * density) by (apply Zg; auto). lra.
        + assert (f * ((opt c - left c) * density) < g * ((opt c - left c) * density)) as K by lra. apply Rmult_lt_reg_r in K; auto. apply Rmult_lt_0_compat; lra. }
    assert (0 < g) by lra. assert (f * f <= g * g) by (apply Rmult_le_compat; lra). assert (0 < g * g) by (apply Rmult_lt_0_compat; lra).
    assert (f * (f * f) <= f * (g * g)) by (apply Rmult_le_compat_l; lra). assert (f * (g * g) < g * (g * g)) by (apply Rmult_lt_compat_r; lra). simpl. lra.
Qed.
Print Assumptions cube_rate_monotone.
Example cube_ex : cube_rate (new_cube 4 None None 1) 10 1 = Some (27 / 64) /\ cube_rate (new_cube 4 None None 1) 2 (1 / 2) = Some 0.
Proof.
  split; unfold cube_rate, new_cube; cbn [opt left right cweight].
  - destruct (ltb_case 10 (4 * 1)) as [[_ H]|[-> _]]; [lra|]. destruct (ltb_case (4 * 1) 10) as [[-> _]|[_ H]]; [|lra].
    destruct (Req_EM_T (3 * 4 * 1 - 4 * 1) 0); [lra|]. f_equal. field.
  - destruct (ltb_case 2 (4 * (1 / 2))) as [[_ H]|[-> _]]; [lra|]. destruct (ltb_case (4 * (1 / 2)) 2) as [[_ H]|[-> _]]; [lra|]. auto.
Qed.

(** the deviation of a distance from the optimum: their ratio (the larger by the smaller) minus one *)
Definition deviation (best d : R) : R := Rmax (d / best) (best / d) - 1.
Lemma deviation_cases best d : 0 < best -> 0 < d -> deviation best d = if ltb d best then best / d - 1 else d / best - 1.
Proof.
  intros B D. unfold deviation.
  assert (0 < / best) by (apply Rinv_0_lt_compat; auto). assert (0 < / d) by (apply Rinv_0_lt_compat; auto).
  assert (best * / best = 1) by (apply Rinv_r; lra). assert (d * / d = 1) by (apply Rinv_r; lra).
  destruct (ltb_case d best) as [[-> L]|[-> L]].
  - rewrite Rmax_right; auto. unfold Rdiv. assert (/ best < / d) by (apply Rinv_lt_contravar; nra). nra.
  - rewrite Rmax_left; auto. unfold Rdiv. assert (/ d <= / best) by (apply Rinv_le_contravar; lra). nra.
Qed.
Lemma deviation_nonneg best d : 0 < best -> 0 < d -> 0 <= deviation best d /\ (deviation best d = 0 <-> d = best).
Proof.
  intros B D. rewrite deviation_cases by auto.
  destruct (ltb_case d best) as [[-> L]|[-> L]].
  - assert (1 < best / d). { apply (Rmult_lt_reg_r d); auto. unfold Rdiv. rewrite Rmult_assoc, Rinv_l by lra. lra. } lra.
  - destruct (Req_dec d best) as [->|N]; [replace (best / best) with 1 by (field; lra); lra|].
    assert (1 < d / best). { apply (Rmult_lt_reg_r best); auto. unfold Rdiv. rewrite Rmult_assoc, Rinv_l by lra. lra. } lra.
Qed.
Lemma distance_sum_ok weight best ds : 0 < best -> Forall (fun d => 0 < d) ds -> forall rate,
  distance_sum weight best ds rate = Some (rate + weight * total (map (deviation best) ds)).
Proof.
  intros B. induction 1 as [|d ds P F IH]; intros rate; cbn [distance_sum map total fold_right].
  - f_equal. ring.
  - fold (total (map (deviation best) ds)). rewrite (deviation_cases best d) by auto.
    destruct (ltb_case d best) as [[-> L]|[-> L]].
    + destruct (Req_EM_T d 0); [lra|]. rewrite IH. f_equal. ring.
    + destruct (Req_EM_T best 0); [lra|]. rewrite IH. f_equal. ring.
Qed.
(** C29: the distance rater gives weight times the average deviation of the distances from the
    optimum (divided by the density); it is never negative and zero only if all distances are optimal *)
Theorem distance_rate_average best weight ds density : 0 < best -> 0 < weight -> 0 < density -> ds <> [] -> Forall (fun d => 0 < d) ds ->
  exists r, distance_rate best weight ds density = Some (Some r) /\
    r * INR (length ds) = weight * total (map (deviation (best / density)) ds) /\ 0 <= r /\
    (r = 0 <-> Forall (fun d => d = best / density) ds).
Proof.
  intros B W D N F. assert (0 < best / density) as O by (apply Rdiv_lt_0_compat; auto).
  assert (0 < INR (length ds)) as L by (apply lt_0_INR; destruct ds; [tauto|cbn; lia]).
  exists (weight * total (map (deviation (best / density)) ds) / INR (length ds)).
  assert (0 <= total (map (deviation (best / density)) ds) /\ (total (map (deviation (best / density)) ds) = 0 <-> Forall (fun d => d = best / density) ds)) as [T0 T1].
  { clear - F O. induction F as [|d ds P F [IH1 IH2]]; cbn [map total fold_right].
    - unfold total. cbn. split; [lra|]. split; auto.
    - fold (total (map (deviation (best / density)) ds)). destruct (deviation_nonneg (best / density) d O P) as [N0 N1]. split; [lra|]. split.
      + intros H. constructor; [apply N1|apply IH2]; lra.
      + intros H. inversion H; subst. rewrite (proj2 N1), (proj2 IH2); auto. lra. }
  split; [|split; [field; lra|split]].
  - unfold distance_rate. destruct ds as [|d ds']; [tauto|]. destruct (Req_EM_T density 0); [lra|]. rewrite distance_sum_ok by auto. cbn [option_map]. f_equal. f_equal. field. lra.
  - apply Rmult_le_pos; [nra|]. left. apply Rinv_0_lt_compat; auto.
  - rewrite <- T1. split.
    + intros H. assert (weight * total (map (deviation (best / density)) ds) = 0) as H'. { rewrite <- (Rmult_0_l (INR (length ds))), <- H. field. lra. } nra.
    + intros ->. field. lra.
Qed.
Print Assumptions distance_rate_average.
(** C29: a distance and the optimum are treated symmetrically *)
Theorem distance_rate_symmetric best weight f density : 0 < best -> 0 < weight -> 0 < density -> 0 < f ->
  distance_rate best weight [best / density * f] density = distance_rate best weight [best / density / f] density.
Proof.
  intros B W D F. assert (0 < best / density) as O by (apply Rdiv_lt_0_compat; auto).
  unfold distance_rate. destruct (Req_EM_T density 0); [lra|]. rewrite !distance_sum_ok; auto.
  - cbn [map total fold_right]. do 3 f_equal. unfold deviation.
    replace (best / density * f / (best / density)) with f by (field; lra).
    replace (best / density / (best / density * f)) with (/ f) by (field; lra).
    replace (best / density / f / (best / density)) with (/ f) by (field; lra).
    replace (best / density / (best / density / f)) with f by (field; lra). rewrite Rmax_comm. reflexivity.
  - constructor; auto. apply Rdiv_lt_0_compat; auto.
  - constructor; auto. apply Rmult_lt_0_compat; auto.
Qed.
Print Assumptions distance_rate_symmetric.
Example distance_ex : distance_rate 10 1 [20; 5; 10] 1 = Some (Some (2 / 3)) /\ distance_rate 10 1 [] 1 = Some None.
Proof.
  split; [|auto]. unfold distance_rate. destruct (Req_EM_T 1 0); [lra|]. cbn [distance_sum length].
  replace (10 / 1) with 10 by field.
  destruct (ltb_case 20 10) as [[_ H]|[-> _]]; [lra|]. destruct (Req_EM_T 10 0); [lra|].
  destruct (ltb_case 5 10) as [[-> _]|[_ H]]; [|lra]. destruct (Req_EM_T 5 0); [lra|].
  destruct (ltb_case 10 10) as [[_ H]|[-> _]]; [lra|]. cbn. f_equal. f_equal. field.
Qed.

(** ** rating of ticks *)
(** the number of ticks of the level [k] or a more important one *)
Definition at_level (ls : list (option Z)) (k : Z) : Z := Z.of_nat (length (filter (fun l => match l with Some v => (v <=? k)%Z | None => false end) ls)).
Lemma combine_zrange (f : Z -> Z -> Z) (n : nat) : forall a b, b = (a + Z.of_nat n)%Z -> 
  forall g : Z -> Z, map (fun '(k, m) => f k m) (combine (zrange a b) (map g (zrange a b))) = map (fun k => f k (g k)) (zrange a b).
Proof.
  intros a b _ g. induction (zrange a b) as [|x l IH]; cbn; auto. f_equal. auto.
Qed.
Lemma count_level_ok n ls l : count_level (map (at_level ls) (zrange 0 (Z.of_nat n))) l = map (at_level (ls ++ [l])) (zrange 0 (Z.of_nat n)).
Proof.
  unfold count_level. destruct l as [v|].
  - assert (length (map (at_level ls) (zrange 0 (Z.of_nat n))) = n) as ->. { unfold zrange. rewrite !map_length, seq_length. lia. }
    rewrite (combine_zrange (fun k m => if (v <=? k)%Z then (m + 1)%Z else m) n) by lia. apply map_ext. intros k. unfold at_level. rewrite filter_app, app_length. cbn [filter].
    destruct (v <=? k)%Z; cbn; lia.
  - apply map_ext. intros k. unfold at_level. rewrite filter_app, app_length. cbn. lia.
Qed.
Lemma level_counts_ok max ls : level_counts max ls = map (at_level ls) (zrange 0 (Z.of_nat (Z.to_nat max))).
Proof.
  unfold level_counts. set (n := Z.to_nat max). clearbody n. induction ls as [|l ls IH] using rev_ind.
  - cbn [fold_left]. unfold at_level. cbn. unfold zrange. rewrite map_map. rewrite Z.sub_0_r, Nat2Z.id.
    generalize 0%nat. induction n as [|n IHn]; intros s; cbn; auto. f_equal. apply IHn.
  - rewrite fold_left_app. cbn [fold_left]. rewrite IH. apply count_level_ok.
Qed.
Lemma sum_rates_between counts : forall raters density lo hi acc res, Forall (fun c => 0 < cweight c) raters ->
  (forall n c, In (n, c) (combine counts raters) -> forall r, cube_rate c (IZR n) density = Some r -> lo * cweight c <= r <= hi * cweight c) ->
  lo * snd acc <= fst acc <= hi * snd acc -> 0 <= snd acc -> sum_rates counts raters density acc = Some res ->
  lo * snd res <= fst res <= hi * snd res /\ 0 <= snd res.
Proof.
  induction counts as [|n counts IH]; intros raters density lo hi acc res W B A P E; cbn [sum_rates] in E.
  - assert (acc = res) as -> by congruence. auto.
  - destruct raters as [|c raters]; [assert (acc = res) as -> by congruence; auto|].
    destruct (cube_rate c (IZR n) density) as [r|] eqn:Er; [|discriminate]. inversion W; subst. apply (IH raters density lo hi _ res) in E; auto.
    + intros n' c' Hi. apply B. right. auto.
    + cbn [fst snd]. pose proof (B n c (or_introl eq_refl) r Er). lra.
    + cbn [snd]. lra.
Qed.
(** C29: the rate of a list of ticks is a weighted mean: it lies between any bounds for the
    relative rates of the numbers of ticks and labels of each level or a more important one *)
Theorem rateticks_mean tickraters labelraters density ticks r lo hi :
  Forall (fun c => 0 < cweight c) (tickraters ++ labelraters) ->
  let '(mt, ml) := maxlevels ticks in
  let counted ls m := map (at_level ls) (zrange 0 (Z.of_nat (Z.to_nat m))) in
  (forall n c, In (n, c) (combine (counted (map ticklevel ticks) mt) tickraters ++ combine (counted (map labellevel ticks) ml) labelraters) ->
     forall x, cube_rate c (IZR n) density = Some x -> lo * cweight c <= x <= hi * cweight c) ->
  rateticks tickraters labelraters density ticks = Some (Some r) -> lo <= r <= hi.
Proof.
  intros W. destruct (maxlevels ticks) as [mt ml] eqn:Em. cbv zeta. intros B E. unfold rateticks in E. rewrite Em in E.
  destruct ((mt =? 0)%Z && (ml =? 0)%Z); [discriminate|]. rewrite !level_counts_ok in E. apply Forall_app in W. destruct W as [W1 W2].
  destruct (sum_rates _ tickraters density (0, 0)) as [acc|] eqn:E1; [|discriminate].
  apply sum_rates_between with (lo := lo) (hi := hi) in E1; cbn [fst snd]; auto; try lra.
  2: { intros n c H. apply B, in_or_app. auto. }
  destruct (sum_rates _ labelraters density acc) as [[rate weight]|] eqn:E2; [|discriminate].
  apply sum_rates_between with (lo := lo) (hi := hi) in E2; cbn [fst snd] in *; try tauto.
  2: { intros n c H. apply B, in_or_app. auto. }
  destruct (Req_EM_T weight 0) as [|N]; [discriminate|]. assert (r = rate / weight) as -> by congruence. assert (0 < weight) as P by lra. split.
  - apply (Rmult_le_reg_r weight); auto. unfold Rdiv. rewrite Rmult_assoc, Rinv_l by lra. lra.
  - apply (Rmult_le_reg_r weight); auto. unfold Rdiv. rewrite Rmult_assoc, Rinv_l by lra. lra.
Qed.
Print Assumptions rateticks_mean.
Example level_counts_ex : level_counts 2 [Some 0%Z; Some 1%Z; None; Some 1%Z; Some 0%Z] = [2%Z; 4%Z].
Proof. reflexivity. Qed.

(** ** the divisor *)
Open Scope Z_scope.
Lemma scale_other d ticks : forall st r, ~ In r ticks -> scale_ticks d st ticks r = st r.
Proof.
  induction ticks as [|t ticks IH]; intros st r N; cbn [scale_ticks fold_left]; auto. fold (scale_ticks d).
  change (scale_ticks d (upd st t (mktick (imul (pos (st t)) d) (ticklevel (st t)) (labellevel (st t)) (label (st t)))) ticks r = st r).
  rewrite IH; [|cbn in N; tauto]. unfold upd. destruct (Nat.eqb_spec r t) as [->|]; auto. cbn in N. tauto.
Qed.
(** C79: laying out one partition with a divisor multiplies the position of each of its ticks
    once and leaves levels and labels as well as all other ticks alone *)
Theorem divisor_scales_once d st ticks : denom d <> 0 -> NoDup ticks -> (forall r, In r ticks -> denom (pos (st r)) <> 0) ->
  (forall r, In r ticks -> (value (pos (scale_ticks d st ticks r)) == value (pos (st r)) * value d)%Q /\
     ticklevel (scale_ticks d st ticks r) = ticklevel (st r) /\ labellevel (scale_ticks d st ticks r) = labellevel (st r) /\ label (scale_ticks d st ticks r) = label (st r)) /\
  (forall r, ~ In r ticks -> scale_ticks d st ticks r = st r).
Proof.
  intros D N P. split; [|intros r; apply scale_other]. revert st P. induction N as [|t ticks Ni N IH]; intros st P r H; [easy|].
  set (st' := upd st t (mktick (imul (pos (st t)) d) (ticklevel (st t)) (labellevel (st t)) (label (st t)))).
  change (scale_ticks d st (t :: ticks)) with (scale_ticks d st' ticks). destruct H as [<-|H].
  - rewrite scale_other by auto. unfold st', upd. rewrite Nat.eqb_refl. cbn [pos ticklevel labellevel label]. split; auto.
    unfold value, imul. cbn [num denom]. rewrite !inject_Z_mult. pose proof (P t (or_introl eq_refl)).
    assert (~ (inject_Z (denom d) == 0)%Q). { change (0%Q) with (inject_Z 0). rewrite inject_Z_injective. auto. }
    assert (~ (inject_Z (denom (pos (st t))) == 0)%Q). { change (0%Q) with (inject_Z 0). rewrite inject_Z_injective. auto. }
    field. auto.
  - assert (st' r = st r) as E. { unfold st', upd. destruct (Nat.eqb_spec r t) as [->|]; tauto. }
    rewrite <- E. apply IH; auto. intros x Hx. unfold st', upd. destruct (Nat.eqb_spec x t) as [->|]; [tauto|]. apply P; cbn; auto.
Qed.
Print Assumptions divisor_scales_once.
(** C79, refuted for manual ticks: mergeticklists puts the tick objects of manualticks itself into
    the tick list of every variant, so that laying out two variants multiplies them twice *)
Theorem manual_ticks_scaled_refuted :
  exists st manual part1 part2 d, denom d <> 0 /\
    let '(st1, ticks1) := mergeticklists false st [manual] part1 in
    let '(st2, ticks2) := mergeticklists false st1 [manual] part2 in
    let laid_out := scale_ticks d (scale_ticks d st2 ticks1) ticks2 in
    In manual ticks1 /\ In manual ticks2 /\ ~ (value (pos (laid_out manual)) == value (pos (st manual)) * value d)%Q.
Proof.
  exists (fun r => mktick (mkrat (Z.of_nat r) 2) (Some 0) (Some 0) None), 3%nat, [2%nat; 4%nat], [0%nat; 8%nat], (mkrat 2 1).
  split; [discriminate|]. vm_compute. split; [auto|split; [auto|discriminate]].
Qed.
Print Assumptions manual_ticks_scaled_refuted.
Example divisor_ex :
  let st := fun r : nat => mktick (mkrat (Z.of_nat r) 2) (Some 0) None None in
  map (fun r => (value (pos (scale_ticks (mkrat 3 1) st [1%nat; 4%nat] r)))) [1%nat; 4%nat; 5%nat] = map (fun n => value (mkrat n 2)) [3; 12; 5].
Proof. reflexivity. Qed.
