(** C25: logarithmic partitions. *)
From Coq Require Import String Reals ZArith Bool List Lia ZifyBool Lra.
From Verif Require Import BboxModel TickModel ParterModel ParterSpec ParterProofs ParterProofs2 ParterProofs3 ParterProofs4 ParterProofs5 ParterProps ParterProps2.
Import ListNotations.
Open Scope R_scope.

Definition one_sided (lo hi : R) : Prop := (0 < lo /\ 0 < hi) \/ (lo < 0 /\ hi < 0).
Lemma positions_positive p x : base_ok p -> positions p x -> 0 < x.
Proof.
  intros B (f & i & Hf & ->). apply in_map_iff in Hf. destruct Hf as (r & <- & Hr).
  apply Rmult_lt_0_compat; [|apply pow_pos; now apply base_real]. destruct B as (BP & _). rewrite Forall_forall in BP. apply rval_pos; auto.
Qed.
Lemma stretched_positive p emin emax a b lo hi lo' hi' : base_ok p -> 0 < lo -> 0 < hi -> stretched (positions p) emin emax a b lo hi lo' hi' -> 0 < lo' /\ 0 < hi'.
Proof.
  intros B Hl Hh (S1 & S2). split.
  - destruct emin; [|now subst]. destruct S1 as (S1 & _). now apply (positions_positive p).
  - destruct emax; [|now subst]. destruct S2 as (S2 & _). now apply (positions_positive p).
Qed.
Lemma log_extend_positive eps lo hi p emin emax : base_ok p -> spread p -> 0 < lo -> 0 < hi -> exists lo' hi',
  log_extend eps lo hi p emin emax = Some (lo', hi') /\
  stretched (positions p) emin emax (lo * Rpower (IZR (pexp p)) eps) (hi / Rpower (IZR (pexp p)) eps) lo hi lo' hi'.
Proof.
  intros B S Hl Hh. destruct (log_extend_pos p B S eps lo hi emin emax Hl Hh) as (lo' & hi' & E & S1 & S2).
  exists lo', hi'. split; auto. split; auto. unfold Rdiv. rewrite <- Rpower_Ropp. exact S2.
Qed.
Lemma log_stretched eps level ps emin emax lo hi : Forall base_ok ps -> (forall k p, level = Some k -> nth_error ps k = Some p -> spread p) ->
  one_sided lo hi -> exists lo' hi',
  extend_by (log_extend eps) level ps emin emax (Some (lo, hi)) = Some (lo', hi') /\ stretched_log eps level ps emin emax lo hi lo' hi' /\ one_sided lo' hi'.
Proof.
  intros F S O. unfold extend_by, stretched_log. destruct level as [k|]; [|eauto 6]. destruct (nth_error ps k) as [p|] eqn:E; [|eauto 6].
  specialize (S k p eq_refl E). rewrite Forall_forall in F. pose proof (F p (nth_error_In _ _ E)) as B.
  destruct O as [[Hl Hh]|[Hl Hh]].
  - destruct (log_extend_positive eps lo hi p emin emax B S Hl Hh) as (lo' & hi' & E1 & S1). exists lo', hi'. split; auto. split.
    + cbv zeta. split; [auto|lra].
    + left. exact (stretched_positive _ _ _ _ _ _ _ _ _ B Hl Hh S1).
  - rewrite log_extend_mirror by auto. destruct (log_extend_positive eps (- hi) (- lo) p emin emax B S ltac:(lra) ltac:(lra)) as (lo' & hi' & E1 & S1).
    rewrite E1. cbn [option_map fst snd]. exists (- hi'), (- lo'). split; auto. rewrite !Ropp_involutive. split.
    + cbv zeta. split; [lra|auto].
    + destruct (stretched_positive p emin emax _ _ (- hi) (- lo) lo' hi' B ltac:(lra) ltac:(lra) S1). right. lra.
Qed.

(** C25: on ranges which do not contain zero a logarithmic partition always exists.  The range
    is stretched to the positions of the fractions selected for this.  The ticks are sorted
    and lie at exactly the fractions times powers of the base in the range, up to a factor
    base ^ (epsilon / 2).  Levels are the numbers of the first list they belong to. *)
Theorem log_partition_exact : forall eps extendtick extendlabel ticklist labellist min max emin emax,
  Forall base_ok ticklist -> Forall base_ok labellist ->
  (forall k p, extendtick = Some k -> nth_error ticklist k = Some p -> spread p) ->
  (forall k p, extendlabel = Some k -> nth_error labellist k = Some p -> spread p) ->
  (0 < min /\ 0 < max) \/ (min < 0 /\ max < 0) ->
  exists ts lo1 hi1 lo hi, log_partition eps extendtick extendlabel ticklist labellist min max emin emax = Some ts /\
    stretched_log eps extendtick ticklist emin emax min max lo1 hi1 /\
    stretched_log eps extendlabel labellist emin emax lo1 hi1 lo hi /\
    ascending (map (fun t => real (pos t)) ts) /\
    (forall x, (exists t, In t ts /\ real (pos t) = x) <->
               exists p, In p (ticklist ++ labellist) /\ log_position (eps / 2) lo hi (map real (pres p)) (IZR (pexp p)) x) /\
    forall t, In t ts ->
      first_with (fun p => log_position (eps / 2) lo hi (map real (pres p)) (IZR (pexp p)) (real (pos t))) ticklist (ticklevel t) /\
      first_with (fun p => log_position (eps / 2) lo hi (map real (pres p)) (IZR (pexp p)) (real (pos t))) labellist (labellevel t) /\
      label t = None.
Proof.
  intros eps et el tl ll min max emin emax Ft Fl St Sl O.
  destruct (log_stretched eps et tl emin emax min max Ft St O) as (lo1 & hi1 & E1 & S1 & O1).
  destruct (log_stretched eps el ll emin emax lo1 hi1 Fl Sl O1) as (lo & hi & E2 & S2 & O2). rewrite <- E1 in E2.
  destruct (partition_some (log_extend eps) (log_ticks eps) base_ok et el tl ll min max emin emax lo hi Ft Fl) as (ts & E); auto.
  { intros h d a b P. apply mixed_false in O2. destruct (log_fresh eps h lo hi d a b P O2) as (h' & refs & G & _). eauto. }
  exists ts, lo1, hi1, lo, hi. split; auto. split; auto. split; auto.
  destruct (partition_spec (log_extend eps) (log_ticks eps) (fun lo hi p => log_position (1 / 2 * eps) lo hi (map rval (pres p)) (IZR (pexp p))) base_ok) with (4 := E) as (lo2 & hi2 & E3 & A & B & C); auto.
  { intros h lo2 hi2 d a b h' refs P G. now apply log_get_fresh in G. }
  rewrite E2 in E3. assert (lo2 = lo) as -> by congruence. assert (hi2 = hi) as -> by congruence.
  replace (eps / 2) with (1 / 2 * eps) by lra. split; [exact A|]. split; auto.
Qed.
Print Assumptions log_partition_exact.

(** C25: ranges with zero are refused. *)
Theorem log_zero_refused : forall eps extendtick extendlabel p ticklist labellist min max emin emax,
  min <= 0 <= max -> log_partition eps extendtick extendlabel (p :: ticklist) labellist min max emin emax = None.
Proof.
  intros eps et el p tl ll min max emin emax H.
  assert (mixed_signs min max = true) as M.
  { destruct (mixed_signs min max) eqn:M; auto. apply mixed_false in M. lra. }
  assert (forall level ps, extend_by (log_extend eps) level ps emin emax (Some (min, max)) = None \/ extend_by (log_extend eps) level ps emin emax (Some (min, max)) = Some (min, max)) as X.
  { intros level ps. unfold extend_by. destruct level as [k|]; auto. destruct (nth_error ps k) as [d|]; auto. left. unfold log_extend. rewrite M. reflexivity. }
  unfold log_partition, partition. destruct (X et (p :: tl)) as [-> | ->]; [reflexivity|]. destruct (X el ll) as [-> | ->]; [reflexivity|].
  cbn [merge_levels fst snd]. unfold log_ticks at 3. 
  assert (forall h a b, log_ticks eps h min max p a b = None) as LN. { intros. unfold log_ticks. rewrite M. reflexivity. }
  rewrite ?LN. unfold log_ticks at 1. rewrite ?M. cbn [orb]. now rewrite !merge_levels_none.
Qed.
Print Assumptions log_zero_refused.

(** C25: on negative ranges the flags are exchanged: without extension of the lower end it
    can still move. *)
Theorem log_fixed_end_refuted :
  ~ (forall eps lo hi p emax lo' hi', base_ok p -> spread p -> (0 < lo /\ 0 < hi) \/ (lo < 0 /\ hi < 0) ->
     log_extend eps lo hi p false emax = Some (lo', hi') -> lo' = lo).
Proof.
  intros H. assert (base_ok pre1exp) as B. { split; [|cbn; lia]. repeat constructor. }
  assert (spread pre1exp) as S.
  { split; [|split; [discriminate|]]. - repeat constructor. intros y []. - cbn [pres pre1exp]. intros f g [<-|[]] [<-|[]]. unfold real. cbn. lra. }
  destruct (log_extend_positive 0 (3 / 2) 30 pre1exp false true B S ltac:(lra) ltac:(lra)) as (lo' & hi' & E & S1 & S2).
  assert (- hi' = - (30)) as X.
  { apply (H 0 (- (30)) (- (3 / 2)) pre1exp true (- hi') (- lo') B S); [right; lra|]. rewrite log_extend_mirror by lra. rewrite !Ropp_involutive, E. reflexivity. }
  assert (hi' = 30) as -> by lra. destruct S2 as ((f & i & Hf & Ex) & _). cbn [pres pre1exp map] in Hf. destruct Hf as [<-|[]]. cbn [pexp pre1exp] in Ex.
  unfold real in Ex. cbn [num denom] in Ex. assert (1 < 10) as T by lra.
  destruct (Z.le_gt_cases i 1) as [L|L].
  - pose proof (pow_le 10 _ _ T L) as P. rewrite powerRZ_1 in P. lra.
  - assert (2 <= i)%Z as L2 by lia. pose proof (pow_le 10 _ _ T L2) as P. revert P. pw.
Qed.
Print Assumptions log_fixed_end_refuted.

Lemma greatest_below_unique P b x y : greatest_below P b x -> greatest_below P b y -> x = y.
Proof. intros (P1 & L1 & G1) (P2 & L2 & G2). apply Rle_antisym; auto. Qed.
Lemma least_above_unique P b x y : least_above P b x -> least_above P b y -> x = y.
Proof. intros (P1 & L1 & G1) (P2 & L2 & G2). apply Rle_antisym; auto. Qed.
Lemma tens i : (i <= -1)%Z /\ powerRZ 10 i <= 1 / 10 \/ i = 0%Z /\ powerRZ 10 i = 1 \/ i = 1%Z /\ powerRZ 10 i = 10 \/ (2 <= i)%Z /\ 100 <= powerRZ 10 i.
Proof.
  assert (1 < 10) as T by lra. destruct (Z.le_gt_cases i (-1)) as [L|L].
  - left. split; auto. pose proof (pow_le 10 _ _ T L) as P. revert P. pw.
  - destruct (Z.eq_dec i 0) as [->|N]; [right; left; split; auto|]. destruct (Z.eq_dec i 1) as [->|N1]; [right; right; left; split; auto; apply powerRZ_1|].
    right; right; right. assert (2 <= i)%Z as L2 by lia. split; auto. pose proof (pow_le 10 _ _ T L2) as P. revert P. pw.
Qed.
Lemma pre125_positions x : positions pre125exp x <-> exists f i, (f = 1 \/ f = 2 \/ f = 5) /\ x = f * powerRZ 10 i.
Proof.
  unfold positions, scaled, real. cbn [pres pexp pre125exp map num denom In]. split; intros (f & i & Hf & ->); exists f, i; split; auto; lra.
Qed.
(** from 3/2 to 30, stretched to the range from 1 to 50 *)
Example log_ex : exists ts, log_partition 0 (Some 0%nat) None [pre125exp] [pre125exp] (3 / 2) 30 true true = Some ts /\
  forall x, (exists t, In t ts /\ real (pos t) = x) <-> In x [1; 2; 5; 10; 20; 50].
Proof.
  assert (base_ok pre125exp) as B. { split; [|cbn; lia]. repeat constructor. }
  assert (spread pre125exp) as S.
  { split; [|split; [discriminate|]].
    - unfold real. cbn. repeat constructor; intros y Hy; repeat (destruct Hy as [<-|Hy]; [lra|]); destruct Hy.
    - cbn [pres pre125exp In]. intros f g Hf Hg. unfold real.
      repeat (destruct Hf as [<-|Hf]; [repeat (destruct Hg as [<-|Hg]; [cbn; lra|]); destruct Hg|]); destruct Hf. }
  destruct (log_partition_exact 0 (Some 0%nat) None [pre125exp] [pre125exp] (3 / 2) 30 true true) as (ts & lo1 & hi1 & lo & hi & E & S1 & S2 & _ & P & _); auto; try lra.
  { intros k p [= <-] [= <-]. auto. } { discriminate. }
  exists ts. split; auto. destruct S2 as [-> ->]. cbn [stretched_log nth_error] in S1. destruct S1 as (S1 & _). specialize (S1 ltac:(lra)).
  cbn [pexp pre125exp] in S1. rewrite Rpower_O in S1 by lra. destruct S1 as (S1 & S2).
  assert (lo1 = 1) as ->.
  { apply (greatest_below_unique _ _ _ _ S1). split; [|split; [lra|]].
    - apply pre125_positions. exists 1, 0%Z. split; auto. cbn. lra.
    - intros y Hy L. apply pre125_positions in Hy. destruct Hy as (f & i & Hf & ->). destruct (tens i) as [[_ T]|[[_ T]|[[_ T]|[_ T]]]]; destruct Hf as [-> |[-> | ->]]; lra. }
  assert (hi1 = 50) as ->.
  { apply (least_above_unique _ _ _ _ S2). split; [|split; [lra|]].
    - apply pre125_positions. exists 5, 1%Z. split; auto. rewrite powerRZ_1. lra.
    - intros y Hy L. apply pre125_positions in Hy. destruct Hy as (f & i & Hf & ->). destruct (tens i) as [[_ T]|[[_ T]|[[_ T]|[_ T]]]]; destruct Hf as [-> |[-> | ->]]; lra. }
  intros x. rewrite P. unfold log_position, scaled_within. replace (0 / 2) with 0 by lra. rewrite Ropp_0. cbn [In app]. split.
  - intros (p & Hp & [(_ & Sx & Lx)|(Lx & _)]); [|lra]. assert (p = pre125exp) as -> by (destruct Hp as [<-|[<-|[]]]; auto). cbn [pexp pre125exp] in Lx.
    rewrite Rpower_O in Lx by lra. change (positions pre125exp x) in Sx. apply pre125_positions in Sx. destruct Sx as (f & i & Hf & ->).
    destruct (tens i) as [[_ T]|[[_ T]|[[_ T]|[_ T]]]]; destruct Hf as [-> |[-> | ->]]; rewrite ?T in *; try lra.
  - intros Hx. exists pre125exp. split; auto. left. split; [lra|]. cbn [pexp pre125exp]. rewrite Rpower_O by lra. split; [|lra].
    change (positions pre125exp x). apply pre125_positions.
    destruct Hx as [<-|[<-|[<-|[<-|[<-|[<-|[]]]]]]]; [exists 1, 0%Z|exists 2, 0%Z|exists 5, 0%Z|exists 1, 1%Z|exists 2, 1%Z|exists 5, 1%Z]; rewrite ?powerRZ_1; cbn [powerRZ]; split; auto; lra.
Qed.

(** C25: the automatic partitions, in order: the given variants from the last to the first ... *)
Theorem variants_in_reverse : forall variants (part : list preexp -> list preexp -> option (list tick)) n k, (k < n)%nat ->
  nth_error (variants_run n (Z.of_nat (length variants)) variants part) k =
  Some (match nth_error (rev variants) k with
        | Some (Some t, Some l) => option_map Some (part t l)
        | Some (Some (p :: t), None) => option_map Some (part (p :: t) [p])
        | Some (None, Some (p :: l)) => option_map Some (part [p] (p :: l))
        | Some _ => None
        | None => Some None
        end).
Proof.
  intros vs part n k H.
  assert (forall n k (m : Z), (k < n)%nat -> nth_error (variants_run n m vs part) k =
    Some (if (0 <=? m - 1 - Z.of_nat k)%Z then
      match nth_error vs (Z.to_nat (m - 1 - Z.of_nat k)) with Some (t, l) => match levels t l with Some (t, l) => option_map Some (part t l) | None => None end | None => None end else Some None)) as G.
  { clear. induction n as [|n IH]; intros k m H; [lia|]. cbn [variants_run]. destruct k as [|k]; cbn [nth_error].
    - rewrite Z.sub_0_r. reflexivity.
    - rewrite IH by lia. replace (m - 1 - 1 - Z.of_nat k)%Z with (m - 1 - Z.of_nat (S k))%Z by lia. reflexivity. }
  rewrite G by auto. f_equal. destruct (Z.leb_spec 0 (Z.of_nat (length vs) - 1 - Z.of_nat k)) as [L|L].
  - replace (Z.to_nat (Z.of_nat (length vs) - 1 - Z.of_nat k)) with (length vs - S k)%nat by lia.
    rewrite (nth_error_nth' (rev vs) (None, None)) by (rewrite rev_length; lia). rewrite rev_nth by lia.
    rewrite (nth_error_nth' vs (None, None)) by lia. destruct (nth (length vs - S k) vs (None, None)) as [[[|p t]|] [[|q l]|]]; reflexivity.
  - destruct (nth_error (rev vs) k) eqn:X; auto. assert (k < length (rev vs))%nat by (apply nth_error_Some; congruence). rewrite rev_length in *. lia.
Qed.
Print Assumptions variants_in_reverse.

Example variants_ex : forall part, variants_run 3 2 [(Some [pre1exp; pre1to9exp], Some [pre1exp; pre125exp]); (Some [pre1exp; pre1to9exp], None)] part =
  [option_map Some (part [pre1exp; pre1to9exp] [pre1exp]); option_map Some (part [pre1exp; pre1to9exp] [pre1exp; pre125exp]); Some None].
Proof. reflexivity. Qed.

(** ... and powers of ever larger bases. *)
Theorem automatic_exponents : forall a (part : list preexp -> list preexp -> option (list tick)) n k, (k < n)%nat ->
  nth_error (exponents_run n a a part) k =
  Some (part [mkpreexp [mkrat 1 1] (a ^ (Z.of_nat k + 2)); mkpreexp [mkrat 1 1] 10] [mkpreexp [mkrat 1 1] (a ^ (Z.of_nat k + 2))]).
Proof.
  intros a part n k H.
  assert (forall n k j, (k < n)%nat -> nth_error (exponents_run n a (a ^ Z.of_nat j) part) k =
    Some (part [mkpreexp [mkrat 1 1] (a ^ (Z.of_nat j + Z.of_nat k + 1)); pre1exp] [mkpreexp [mkrat 1 1] (a ^ (Z.of_nat j + Z.of_nat k + 1))])) as G.
  { clear. induction n as [|n IH]; intros k j H; [lia|]. cbn [exponents_run levels].
    assert (a ^ Z.of_nat j * a = a ^ Z.of_nat (S j))%Z as ->. { rewrite Nat2Z.inj_succ, Z.pow_succ_r by lia. ring. }
    destruct k as [|k]; cbn [nth_error].
    - replace (Z.of_nat j + Z.of_nat 0 + 1)%Z with (Z.of_nat (S j)) by lia. reflexivity.
    - rewrite IH by lia. replace (Z.of_nat (S j) + Z.of_nat k + 1)%Z with (Z.of_nat j + Z.of_nat (S k) + 1)%Z by lia. reflexivity. }
  specialize (G n k 1%nat H). rewrite Z.pow_1_r in G. rewrite G. replace (Z.of_nat 1 + Z.of_nat k + 1)%Z with (Z.of_nat k + 2)%Z by lia. reflexivity.
Qed.
Print Assumptions automatic_exponents.

Example exponents_ex : forall part, exponents_run 2 10 10 part =
  [part [mkpreexp [mkrat 1 1] 100; pre1exp] [mkpreexp [mkrat 1 1] 100]; part [mkpreexp [mkrat 1 1] 1000; pre1exp] [mkpreexp [mkrat 1 1] 1000]].
Proof. reflexivity. Qed.
