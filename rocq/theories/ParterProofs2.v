From Coq Require Import Reals ZArith QArith Bool List Lia ZifyBool Lra Sorted.
From Verif Require Import BboxModel TickModel TickSpec TickProofs TickProofs2 TickProps ParterModel ParterSpec ParterProofs.
Import ListNotations.
Open Scope R_scope.

Lemma first_with_snoc {A} (P : A -> Prop) l d a c : first_with P l a -> P d -> prominent a (Some (Z.of_nat (length l))) c -> first_with P (l ++ [d]) c.
Proof.
  intros F Pd (Hc & C1 & C2). destruct a as [j|].
  - destruct F as (J0 & (x & Hx & Px) & Hj). assert (Z.to_nat j < length l)%nat as Jl by (apply nth_error_Some; congruence).
    assert (c = Some j) as ->. { destruct Hc as [-> | ->]; auto. cbn in C1. f_equal. lia. }
    split; auto. split.
    + exists x. rewrite nth_error_app1; auto.
    + intros i y Hi Hy. rewrite nth_error_app1 in Hy by lia. now apply (Hj i).
  - assert (c = Some (Z.of_nat (length l))) as ->. { destruct Hc as [-> | ->]; auto. contradiction C2. }
    split; [lia|]. rewrite Nat2Z.id. split.
    + exists d. rewrite nth_error_app2, Nat.sub_diag by lia. auto.
    + intros i y Hi Hy. rewrite nth_error_app1 in Hy by lia. apply F. now apply nth_error_In in Hy.
Qed.
Lemma first_with_keep {A} (P : A -> Prop) l d c : first_with P l c -> ~ P d -> first_with P (l ++ [d]) c.
Proof.
  intros F Nd. destruct c as [j|].
  - destruct F as (J0 & (x & Hx & Px) & Hj). assert (Z.to_nat j < length l)%nat as Jl by (apply nth_error_Some; congruence).
    split; auto. split.
    + exists x. rewrite nth_error_app1; auto.
    + intros i y Hi Hy. rewrite nth_error_app1 in Hy by lia. now apply (Hj i).
  - intros y Hy. apply in_app_or in Hy. destruct Hy as [Hy|[<-|[]]]; auto.
Qed.
Lemma prominent_none a c : prominent a None c -> c = a.
Proof.
  intros (Hc & C1 & C2). destruct Hc as [-> | ->]; auto. destruct a as [x|]; auto; contradiction C1.
Qed.

Lemma levelled_ext h l (A A' : R -> Prop) (T T' L L' : R -> option Z -> Prop) : (forall x, A x <-> A' x) -> (forall x c, A x -> T x c -> T' x c) -> (forall x c, A x -> L x c -> L' x c) ->
  levelled h l A T L -> levelled h l A' T' L'.
Proof.
  intros EA ET EL (W & HA & H). split; auto. split.
  - intros x. now rewrite HA.
  - intros r Hr. assert (A (vof h r)) by (apply HA; eauto). destruct (H r Hr) as (H1 & H2 & H3). auto.
Qed.

Section Partition.
  Context {D : Type} (extend : R -> R -> D -> bool -> bool -> option (R * R))
    (get : heap -> R -> R -> D -> option Z -> option Z -> option (heap * list nat))
    (P : R -> R -> D -> R -> Prop) (okd : D -> Prop)
    (get_fresh : forall h lo hi d tl ll h' refs, okd d -> get h lo hi d tl ll = Some (h', refs) -> fresh h h' refs (P lo hi d) tl ll).
  Lemma merge_levels_none min max k ds level : merge_levels get min max k ds level None = None.
  Proof. revert k. induction ds as [|d ds IH]; intros k; simpl; auto. Qed.

  Lemma tick_levels lo hi ds : forall done h l h' l', Forall okd ds ->
    levelled h l (fun x => exists d, In d done /\ P lo hi d x) (fun x => first_with (fun d => P lo hi d x) done) (fun _ c => c = None) ->
    merge_levels get lo hi (Z.of_nat (length done)) ds (fun i => (Some i, None)) (Some (h, l)) = Some (h', l') ->
    levelled h' l' (fun x => exists d, In d (done ++ ds) /\ P lo hi d x) (fun x => first_with (fun d => P lo hi d x) (done ++ ds)) (fun _ c => c = None).
  Proof.
    induction ds as [|d ds IH]; intros done h l h' l' HO HL; cbn [merge_levels].
    - intros [= <- <-]. now rewrite app_nil_r.
    - inversion HO as [|? ? Od Os]; subst. cbn [fst snd]. destruct (get h lo hi d (Some (Z.of_nat (length done))) None) as [[h1 refs]|] eqn:G.
      2: now rewrite merge_levels_none.
      apply get_fresh in G; auto.
      destruct (merge_step h l _ _ _ h1 refs (P lo hi d) (Some (Z.of_nat (length done))) None HL) as (st & m & E & L2 & _); auto.
      { intros x Nx. split; auto. intros a Ha Pa. apply Nx. eauto. }
      rewrite E. replace (Z.of_nat (length done) + 1)%Z with (Z.of_nat (length (done ++ [d]))) by (rewrite app_length; simpl; lia).
      intros M. replace (done ++ d :: ds) with ((done ++ [d]) ++ ds) by now rewrite <- app_assoc.
      apply (IH _ (mkheap st (next h1)) m); auto. revert L2. apply levelled_ext.
      + intros x. split.
        * intros [(a & Ha & Pa)|Px]; [exists a|exists d]; rewrite in_app_iff; simpl; auto.
        * intros (a & Ha & Pa). apply in_app_or in Ha. destruct Ha as [Ha|[<-|[]]]; eauto.
      + intros x c _ [(Px & a & Fa & Ca)|(Nx & Fc)]; [now apply (first_with_snoc _ _ _ a)|now apply first_with_keep].
      + intros x c _ [(Px & a & -> & Ca)|(Nx & Fc)]; auto. now apply prominent_none in Ca.
  Qed.

  Lemma label_levels lo hi (A : R -> Prop) (T : R -> option Z -> Prop) ds : (forall x, ~ A x -> T x None) -> forall done h l h' l', Forall okd ds ->
    levelled h l (fun x => A x \/ exists d, In d done /\ P lo hi d x) T (fun x => first_with (fun d => P lo hi d x) done) ->
    merge_levels get lo hi (Z.of_nat (length done)) ds (fun i => (None, Some i)) (Some (h, l)) = Some (h', l') ->
    levelled h' l' (fun x => A x \/ exists d, In d (done ++ ds) /\ P lo hi d x) T (fun x => first_with (fun d => P lo hi d x) (done ++ ds)).
  Proof.
    intros TN. induction ds as [|d ds IH]; intros done h l h' l' HO HL; cbn [merge_levels].
    - intros [= <- <-]. now rewrite app_nil_r.
    - inversion HO as [|? ? Od Os]; subst. cbn [fst snd]. destruct (get h lo hi d None (Some (Z.of_nat (length done)))) as [[h1 refs]|] eqn:G.
      2: now rewrite merge_levels_none.
      apply get_fresh in G; auto.
      destruct (merge_step h l _ _ _ h1 refs (P lo hi d) None (Some (Z.of_nat (length done))) HL) as (st & m & E & L2 & _); auto.
      { intros x Nx. split; [apply TN; tauto|]. intros a Ha Pa. apply Nx. eauto. }
      rewrite E. replace (Z.of_nat (length done) + 1)%Z with (Z.of_nat (length (done ++ [d]))) by (rewrite app_length; simpl; lia).
      intros M. replace (done ++ d :: ds) with ((done ++ [d]) ++ ds) by now rewrite <- app_assoc.
      apply (IH _ (mkheap st (next h1)) m); auto. revert L2. apply levelled_ext.
      + intros x. split.
        * intros [[Ax|(a & Ha & Pa)]|Px]; auto; right; [exists a|exists d]; rewrite in_app_iff; simpl; auto.
        * intros [Ax|(a & Ha & Pa)]; auto. apply in_app_or in Ha. destruct Ha as [Ha|[<-|[]]]; eauto.
      + intros x c _ [(Px & a & Fa & Ca)|(Nx & Fc)]; auto. apply prominent_none in Ca. now subst.
      + intros x c _ [(Px & a & Fa & Ca)|(Nx & Fc)]; [now apply (first_with_snoc _ _ _ a)|now apply first_with_keep].
  Qed.

  Lemma ascending_of h l : wf h l -> ascending (map (fun t => rval (pos t)) (map (objects h) l)).
  Proof.
    intros (_ & PR & O). unfold ordered in O. induction O as [|a l O IH F]; [constructor|]. inversion PR; subst. cbn [map]. constructor; auto.
    intros y Hy. rewrite map_map in Hy. apply in_map_iff in Hy. destruct Hy as (r & <- & Hr). rewrite Forall_forall in F.
    apply rval_lt; auto. now apply (proper_In _ l).
  Qed.

  Lemma partition_spec et el ticklist labellist min max emin emax ts : Forall okd ticklist -> Forall okd labellist ->
    partition extend get et el ticklist labellist min max emin emax = Some ts ->
    exists lo hi, extend_by extend el labellist emin emax (extend_by extend et ticklist emin emax (Some (min, max))) = Some (lo, hi) /\
      ascending (map (fun t => rval (pos t)) ts) /\
      (forall x, (exists t, In t ts /\ rval (pos t) = x) <-> exists d, In d (ticklist ++ labellist) /\ P lo hi d x) /\
      (forall t, In t ts -> first_with (fun d => P lo hi d (rval (pos t))) ticklist (ticklevel t) /\
                            first_with (fun d => P lo hi d (rval (pos t))) labellist (labellevel t) /\ label t = None).
  Proof.
    intros Ot Ol. unfold partition. destruct (extend_by extend el labellist emin emax _) as [[lo hi]|]; [|discriminate].
    destruct (merge_levels get lo hi 0 ticklist _ (Some (start, []))) as [[h1 l1]|] eqn:M1; [|rewrite merge_levels_none; discriminate].
    destruct (merge_levels get lo hi 0 labellist _ (Some (h1, l1))) as [[h l]|] eqn:M2; [|discriminate]. cbn [option_map].
    intros E. assert (ts = map (objects h) l) as -> by congruence. clear E. exists lo, hi. split; auto.
    apply (tick_levels lo hi ticklist [] start [] h1 l1) in M1; auto.
    2: { split; [repeat split; constructor|]. split; [|easy]. intros x. split; [intros (r & [] & _)|intros (d & [] & _)]. }
    apply (label_levels lo hi (fun x => exists d, In d ticklist /\ P lo hi d x) (fun x => first_with (fun d => P lo hi d x) ticklist) labellist) with (done := []) in M2; auto.
    2: { intros x Nx a Ha Pa. apply Nx. eauto. }
    2: { revert M1. apply levelled_ext; auto.
         - intros x. split; auto. intros [H|(d & [] & _)]; auto.
         - intros x c _ -> a [] . }
    destruct M2 as (W & HA & HL). split; [now apply ascending_of|]. split.
    - intros x. split.
      + intros (t & Ht & V). apply in_map_iff in Ht. destruct Ht as (r & <- & Hr). change (vof h r = x) in V.
        destruct (proj1 (HA x)) as [(d & Hd & Pd)|(d & Hd & Pd)]; eauto; exists d; rewrite in_app_iff; auto.
      + intros (d & Hd & Pd). apply in_app_or in Hd. destruct (proj2 (HA x)) as (r & Hr & V).
        { destruct Hd as [Hd|Hd]; [left|right]; eauto. }
        exists (objects h r). split; auto. apply in_map_iff. eauto.
    - intros t Ht. apply in_map_iff in Ht. destruct Ht as (r & <- & Hr). destruct (HL r Hr) as (H1 & H2 & H3). auto.
  Qed.
End Partition.

(** ** linear *)
Lemma ascending_map {A} (f : A -> R) (lt : A -> A -> Prop) l : StronglySorted lt l -> (forall a b, lt a b -> f a < f b) -> ascending (map f l).
Proof.
  intros S H. induction S as [|a l S IH F]; [constructor|]. cbn [map]. constructor; auto.
  intros y Hy. apply in_map_iff in Hy. destruct Hy as (b & <- & Hb). rewrite Forall_forall in F. auto.
Qed.
Lemma rval_mult i d : rval (mkrat (i * num d) (denom d)) = IZR i * rval d.
Proof. unfold rval. cbn [num denom]. rewrite mult_IZR. unfold Rdiv. ring. Qed.
Lemma linear_fresh eps h lo hi d tl ll h' refs : positive d -> linear_get eps h lo hi d tl ll = Some (h', refs) ->
  fresh h h' refs (multiple_within (1 / 2 * eps) lo hi (rval d)) tl ll.
Proof.
  intros Pd. unfold linear_get, linear_ticks. rewrite positive_nonzero by auto. cbn [option_map].
  set (ts := map _ _). intros E. assert (alloc h ts = (h', refs)) as E1 by congruence. clear E.
  pose proof (rval_pos d Pd) as Vd.
  apply (alloc_fresh h ts h' refs tl ll) in E1.
  - destruct E1 as (F1 & F2 & F3 & F4 & F5 & F6 & F7). repeat split; auto; try (intros; now apply F7).
    + apply F6 in H. destruct H as (t & Ht & V). unfold ts in Ht. apply in_map_iff in Ht. destruct Ht as (i & <- & Hi).
      cbn [pos] in V. rewrite rval_mult in V. exists i. auto.
    + apply F6 in H. destruct H as (t & Ht & V). unfold ts in Ht. apply in_map_iff in Ht. destruct Ht as (i & <- & Hi).
      cbn [pos] in V. rewrite rval_mult in V. subst x. apply zrange_In in Hi. destruct Hi as [Hi _]. apply ceil_le in Hi.
      apply (Rmult_le_compat_r (rval d)) in Hi; [|lra]. unfold Rdiv in Hi. rewrite Rmult_minus_distr_r, Rmult_assoc, Rinv_l in Hi by lra. lra.
    + apply F6 in H. destruct H as (t & Ht & V). unfold ts in Ht. apply in_map_iff in Ht. destruct Ht as (i & <- & Hi).
      cbn [pos] in V. rewrite rval_mult in V. subst x. apply zrange_In in Hi. destruct Hi as [_ Hi].
      assert (i <= floor (hi / rval d + 1 / 2 * eps))%Z as Hj by lia. apply floor_ge in Hj.
      apply (Rmult_le_compat_r (rval d)) in Hj; [|lra]. unfold Rdiv in Hj. rewrite Rmult_plus_distr_r, Rmult_assoc, Rinv_l in Hj by lra. lra.
    + intros ((i & ->) & H1 & H2). apply F6. exists (mktick (mkrat (i * num d) (denom d)) tl ll None). split; [|apply rval_mult].
      unfold ts. apply in_map_iff. exists i. split; auto. apply zrange_In.
      assert (lo / rval d - 1 / 2 * eps <= IZR i) as G1.
      { apply (Rmult_le_reg_r (rval d)); auto. unfold Rdiv. rewrite Rmult_minus_distr_r, Rmult_assoc, Rinv_l by lra. lra. }
      assert (IZR i <= hi / rval d + 1 / 2 * eps) as G2.
      { apply (Rmult_le_reg_r (rval d)); auto. unfold Rdiv. rewrite Rmult_plus_distr_r, Rmult_assoc, Rinv_l by lra. lra. }
      apply ceil_le in G1. apply floor_ge in G2. lia.
  - apply Forall_forall. intros t Ht. apply in_map_iff in Ht. destruct Ht as (i & <- & _). apply Pd.
  - unfold ts. rewrite map_map. apply (ascending_map _ Z.lt); [apply zrange_sorted|]. intros a b Hab. cbn [pos]. rewrite !rval_mult.
    apply IZR_lt in Hab. nra.
  - intros t Ht. apply in_map_iff in Ht. destruct Ht as (i & <- & _). auto.
Qed.

Lemma floor_multiple d y : 0 < d -> greatest_below (multiple d) (d * y) (d * IZR (floor y)).
Proof.
  intros Hd. pose proof (floor_spec y). repeat split.
  - exists (floor y). ring.
  - nra.
  - intros z (i & ->) Hz. assert (i <= floor y)%Z as Hi by (apply floor_ge; nra). apply IZR_le in Hi. nra.
Qed.
Lemma ceil_multiple d y : 0 < d -> least_above (multiple d) (d * y) (d * IZR (ceil y)).
Proof.
  intros Hd. pose proof (ceil_spec y). repeat split.
  - exists (ceil y). ring.
  - nra.
  - intros z (i & ->) Hz. assert (ceil y <= i)%Z as Hi by (apply ceil_le; nra). apply IZR_le in Hi. nra.
Qed.
