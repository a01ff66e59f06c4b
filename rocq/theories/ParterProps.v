(** C24: linear partitions. *)
From Coq Require Import String Reals ZArith Bool List Lia ZifyBool Lra.
From Verif Require Import BboxModel TickModel ParterModel ParterSpec ParterProofs ParterProofs2 ParterProofs3 ParterProofs5.
Import ListNotations.
Open Scope R_scope.

Lemma merge_levels_some {D} get (okd : D -> Prop) lo hi level : (forall h d tl ll, okd d -> exists r, get h lo hi d tl ll = Some r) ->
  forall ds k s, Forall okd ds -> exists r, merge_levels get lo hi k ds level (Some s) = Some r.
Proof.
  intros G. induction ds as [|d ds IH]; intros k [h l] F; cbn [merge_levels]; [eauto|]. inversion F as [|? ? F1 F2]; subst.
  destruct (G h d (fst (level k)) (snd (level k)) F1) as ([h' refs] & ->). destruct (mergeticklists _ _ _ _) as [st m]. apply IH; auto.
Qed.
Lemma partition_some {D} extend get (okd : D -> Prop) et el tl ll min max emin emax lo hi : Forall okd tl -> Forall okd ll ->
  (forall h d a b, okd d -> exists r, get h lo hi d a b = Some r) ->
  extend_by extend el ll emin emax (extend_by extend et tl emin emax (Some (min, max))) = Some (lo, hi) ->
  exists ts, partition extend get et el tl ll min max emin emax = Some ts.
Proof.
  intros Ft Fl G E. unfold partition. rewrite E.
  destruct (merge_levels_some get okd lo hi (fun i => (Some i, None)) G tl 0 (start, []) Ft) as (r & ->).
  destruct (merge_levels_some get okd lo hi (fun i => (None, Some i)) G ll 0 r Fl) as ([h l] & ->). cbn. eauto.
Qed.

Lemma linear_stretched eps level dists emin emax lo hi : Forall positive dists -> exists lo' hi',
  extend_by (linear_extend eps) level dists emin emax (Some (lo, hi)) = Some (lo', hi') /\ stretched_linear eps level dists emin emax lo hi lo' hi'.
Proof.
  intros F. unfold extend_by, stretched_linear. destruct level as [k|]; [|eauto]. destruct (nth_error dists k) as [d|] eqn:E; [|eauto].
  rewrite Forall_forall in F. apply nth_error_In in E. apply F in E. pose proof (rval_pos d E) as V.
  unfold linear_extend. rewrite positive_nonzero by auto. cbn [negb andb]. eexists. eexists. split; [reflexivity|].
  change (real d) with (rval d). split.
  - destruct emin; auto. replace (lo + eps * rval d) with (rval d * (lo / rval d + eps)) by (field; lra). now apply floor_multiple.
  - destruct emax; auto. replace (hi - eps * rval d) with (rval d * (hi / rval d - eps)) by (field; lra). now apply ceil_multiple.
Qed.

(** C24: a linear partition always exists for positive distances.  The range is stretched to
    multiples of the tick distance and then of the label distance selected for this.  The
    ticks are sorted, without duplicates, and lie at exactly the multiples of the distances
    in the range, up to half of epsilon times the distance.  The tick and label level of each
    of them is the number of the first tick and label distance it is a multiple of. *)
Theorem linear_partition_exact : forall eps extendtick extendlabel ticklist labellist min max emin emax,
  Forall positive ticklist -> Forall positive labellist ->
  exists ts lo1 hi1 lo hi, linear_partition eps extendtick extendlabel ticklist labellist min max emin emax = Some ts /\
    stretched_linear eps extendtick ticklist emin emax min max lo1 hi1 /\
    stretched_linear eps extendlabel labellist emin emax lo1 hi1 lo hi /\
    ascending (map (fun t => real (pos t)) ts) /\
    (forall x, (exists t, In t ts /\ real (pos t) = x) <->
               exists d, In d (ticklist ++ labellist) /\ multiple_within (eps / 2) lo hi (real d) x) /\
    forall t, In t ts ->
      first_with (fun d => multiple_within (eps / 2) lo hi (real d) (real (pos t))) ticklist (ticklevel t) /\
      first_with (fun d => multiple_within (eps / 2) lo hi (real d) (real (pos t))) labellist (labellevel t) /\
      label t = None.
Proof.
  intros eps et el tl ll min max emin emax Ft Fl.
  destruct (linear_stretched eps et tl emin emax min max Ft) as (lo1 & hi1 & E1 & S1).
  destruct (linear_stretched eps el ll emin emax lo1 hi1 Fl) as (lo & hi & E2 & S2). rewrite <- E1 in E2.
  destruct (partition_some (linear_extend eps) (linear_get eps) positive et el tl ll min max emin emax lo hi Ft Fl) as (ts & E); auto.
  { intros h d a b P. unfold linear_get, linear_ticks. rewrite positive_nonzero by auto. cbn. eauto. }
  exists ts, lo1, hi1, lo, hi. split; auto. split; auto. split; auto.
  destruct (partition_spec (linear_extend eps) (linear_get eps) (fun lo hi d => multiple_within (1 / 2 * eps) lo hi (rval d)) positive) with (4 := E) as (lo2 & hi2 & E3 & A & B & C); auto.
  { intros h lo2 hi2 d a b h' refs P G. now apply linear_fresh in G. }
  rewrite E2 in E3. assert (lo2 = lo) as -> by congruence. assert (hi2 = hi) as -> by congruence.
  replace (eps / 2) with (1 / 2 * eps) by lra. split; [exact A|]. split; auto. 
Qed.
Print Assumptions linear_partition_exact.

(** C24: with the default options the ends of the stretched range are ticks. *)
Theorem stretched_ends_are_ticks : forall eps k d ticklist labellist min max emin emax ts,
  0 <= eps -> Forall positive ticklist -> Forall positive labellist -> nth_error ticklist k = Some d ->
  min + 2 * eps * real d <= max -> linear_partition eps (Some k) None ticklist labellist min max emin emax = Some ts ->
  (emin = true -> exists t, In t ts /\ real (pos t) <= min + eps * real d /\ min < real (pos t) + real d) /\
  (emax = true -> exists t, In t ts /\ max - eps * real d <= real (pos t) /\ real (pos t) - real d < max).
Proof.
  intros eps k d tl ll min max emin emax ts He Ft Fl Hk Hr E.
  destruct (linear_partition_exact eps (Some k) None tl ll min max emin emax Ft Fl) as (ts' & lo1 & hi1 & lo & hi & E' & S1 & S2 & _ & B & _).
  rewrite E in E'. assert (ts = ts') as <- by congruence. cbn in S1, S2. rewrite Hk in S1. destruct S2 as [-> ->]. destruct S1 as [S1 S2].
  assert (positive d) as Pd. { rewrite Forall_forall in Ft. apply Ft. now apply nth_error_In in Hk. }
  assert (0 < real d) as Vd by now apply rval_pos. pose proof (Rmult_le_pos eps (real d) He ltac:(lra)) as ED.
  assert (In d (tl ++ ll)) as Id by (apply in_or_app; left; now apply nth_error_In in Hk).
  assert (forall x, multiple (real d) x -> multiple (real d) (x + real d)) as MP. { intros x (i & ->). exists (i + 1)%Z. rewrite plus_IZR. ring. }
  assert (forall x, multiple (real d) x -> multiple (real d) (x - real d)) as MM. { intros x (i & ->). exists (i - 1)%Z. rewrite minus_IZR. ring. }
  split; intros ->.
  - destruct S1 as (M1 & L1 & G1). assert (min < lo1 + real d) as Hlo.
    { destruct (Rlt_le_dec min (lo1 + real d)) as [L|L]; auto. assert (lo1 + real d <= lo1); [|lra]. apply G1; auto. lra. }
    destruct (proj2 (B lo1)) as (t & Ht & V). 2: { exists t. rewrite V. auto. }
    exists d. split; auto. split; auto. split; [nra|]. destruct emax.
    + destruct S2 as (M2 & L2 & G2). assert (lo1 <= hi1); [|nra].
      lra.
    + subst hi1. nra.
  - destruct S2 as (M2 & L2 & G2). assert (hi1 - real d < max) as Hhi.
    { destruct (Rlt_le_dec (hi1 - real d) max) as [L|L]; auto. assert (hi1 <= hi1 - real d); [|lra]. apply G2; auto. lra. }
    destruct (proj2 (B hi1)) as (t & Ht & V). 2: { exists t. rewrite V. auto. }
    exists d. split; auto. split; auto. split; [|nra]. destruct emin.
    + destruct S1 as (M1 & L1 & G1). nra.
    + subst lo1. nra.
Qed.
Print Assumptions stretched_ends_are_ticks.

(** the distances and fractions of an example are known *)
Lemma floor_is x k : IZR k <= x < IZR k + 1 -> floor x = k.
Proof. intros H. pose proof (floor_spec x). assert (k <= floor x)%Z by (apply floor_ge; lra). assert (floor x < k + 1)%Z by (apply lt_IZR; rewrite plus_IZR; lra). lia. Qed.
Lemma ceil_is x k : IZR k - 1 < x <= IZR k -> ceil x = k.
Proof. intros H. pose proof (ceil_spec x). assert (ceil x <= k)%Z by (apply ceil_le; lra). assert (k - 1 < ceil x)%Z by (apply lt_IZR; rewrite minus_IZR; lra). lia. Qed.

Lemma merge_levels_ext {D} get get' lo hi level (ds : list D) : (forall h d tl ll, In d ds -> get h lo hi d tl ll = get' h lo hi d tl ll) ->
  forall k s, merge_levels get lo hi k ds level s = merge_levels get' lo hi k ds level s.
Proof.
  induction ds as [|d ds IH]; intros E k s; cbn [merge_levels]; auto. rewrite IH by (intros; apply E; now right).
  destruct s as [[h l]|]; auto. rewrite E by now left. reflexivity.
Qed.
Example linear_ex : linear_partition (1 / 10) (Some 0%nat) None [mkrat 1 1; mkrat 1 2] [mkrat 1 1] (1 / 4) (7 / 4) true true =
  Some [mktick (mkrat 0 1) (Some 0%Z) (Some 0%Z) None; mktick (mkrat 1 2) (Some 1%Z) None None; mktick (mkrat 1 1) (Some 0%Z) (Some 0%Z) None;
        mktick (mkrat 3 2) (Some 1%Z) None None; mktick (mkrat 2 1) (Some 0%Z) (Some 0%Z) None].
Proof.
  unfold linear_partition, partition. cbn [extend_by nth_error].
  assert (linear_extend (1 / 10) (1 / 4) (7 / 4) (mkrat 1 1) true true = Some (0, 2)) as ->.
  { unfold linear_extend, rval. cbn [nonzero num denom]. rewrite (floor_is _ 0), (ceil_is _ 2) by lra. cbn. f_equal. f_equal; lra. }
  set (get := fun h (_ _ : R) (d : rational) (tl ll : option Z) => Some (alloc h (map (fun i => mktick (mkrat (i * num d) (denom d)) tl ll None) (if (denom d =? 1)%Z then [0; 1; 2]%Z else [0; 1; 2; 3; 4]%Z)))).
  cbn [extend_by]. rewrite !(merge_levels_ext (linear_get (1 / 10)) get).
  - vm_compute. reflexivity.
  - intros h d tl ll [<-|[<-|[]]]; unfold linear_get, linear_ticks, rval; cbn [num denom]; [rewrite (ceil_is _ 0), (floor_is _ 2) by lra|rewrite (ceil_is _ 0), (floor_is _ 4) by lra]; reflexivity.
  - intros h d tl ll [<-|[]]; unfold linear_get, linear_ticks, rval; cbn [num denom]; rewrite (ceil_is _ 0), (floor_is _ 2) by lra; reflexivity.
Qed.
