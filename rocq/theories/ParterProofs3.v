From Coq Require Import Reals ZArith QArith Bool List Lia ZifyBool Lra Sorted.
From Verif Require Import BboxModel TickModel TickSpec TickProofs TickProofs2 TickProps ParterModel ParterSpec ParterProofs ParterProofs2.
Import ListNotations.
Open Scope R_scope.

(** ** powers *)
Lemma base_real p : base_ok p -> 1 < IZR (pexp p).
Proof. intros (_ & H). apply IZR_le in H. lra. Qed.
Lemma pow_pos e i : 1 < e -> 0 < powerRZ e i.
Proof. intros H. apply powerRZ_lt. lra. Qed.
Lemma pow_rpower e i : 1 < e -> powerRZ e i = Rpower e (IZR i).
Proof. intros H. apply powerRZ_Rpower. lra. Qed.
Lemma pow_lt e i j : 1 < e -> (i < j)%Z -> powerRZ e i < powerRZ e j.
Proof. intros H L. rewrite !pow_rpower by auto. apply Rpower_lt; auto. now apply IZR_lt. Qed.
Lemma pow_le e i j : 1 < e -> (i <= j)%Z -> powerRZ e i <= powerRZ e j.
Proof. intros H L. destruct (Z.eq_dec i j) as [->|N]; [lra|]. left. apply pow_lt; auto. lia. Qed.
Lemma pow_succ e i : 1 < e -> powerRZ e (i + 1) = e * powerRZ e i.
Proof. intros H. rewrite powerRZ_add by lra. rewrite powerRZ_1. ring. Qed.

Lemma log_le f e i c s : 0 < f -> 1 < e -> 0 < c -> (IZR i <= ln (c / f) / ln e + s <-> f * powerRZ e i <= c * Rpower e s).
Proof.
  intros Hf He Hc. assert (0 < ln e) as Le by (rewrite <- ln_1; apply ln_increasing; lra).
  rewrite pow_rpower by auto. unfold Rpower.
  assert (ln (c / f) = ln c - ln f) as LD. { unfold Rdiv. rewrite ln_mult, ln_Rinv; auto using Rinv_0_lt_compat; lra. }
  assert (IZR i <= ln (c / f) / ln e + s <-> ln f + IZR i * ln e <= ln c + s * ln e) as ->.
  { rewrite LD. split; intros H.
    - apply (Rmult_le_compat_r (ln e)) in H; [|lra]. unfold Rdiv in H. rewrite Rmult_plus_distr_r, Rmult_assoc, Rinv_l in H by lra. lra.
    - apply (Rmult_le_reg_r (ln e)); auto. unfold Rdiv. rewrite Rmult_plus_distr_r, Rmult_assoc, Rinv_l by lra. lra. }
  assert (f * exp (IZR i * ln e) = exp (ln f + IZR i * ln e)) as -> by now rewrite exp_plus, exp_ln.
  assert (c * exp (s * ln e) = exp (ln c + s * ln e)) as -> by now rewrite exp_plus, exp_ln.
  split; intros [H|H]; [left; now apply exp_increasing|rewrite H; lra|left; now apply exp_lt_inv|right; now apply exp_inv].
Qed.
Lemma log_ge f e i c s : 0 < f -> 1 < e -> 0 < c -> (ln (c / f) / ln e - s <= IZR i <-> c * Rpower e (- s) <= f * powerRZ e i).
Proof.
  intros Hf He Hc. assert (0 < ln e) as Le by (rewrite <- ln_1; apply ln_increasing; lra).
  rewrite pow_rpower by auto. unfold Rpower.
  assert (ln (c / f) = ln c - ln f) as LD. { unfold Rdiv. rewrite ln_mult, ln_Rinv; auto using Rinv_0_lt_compat; lra. }
  assert (ln (c / f) / ln e - s <= IZR i <-> ln c + - s * ln e <= ln f + IZR i * ln e) as ->.
  { rewrite LD. split; intros H.
    - apply (Rmult_le_compat_r (ln e)) in H; [|lra]. unfold Rdiv in H. rewrite Rmult_minus_distr_r, Rmult_assoc, Rinv_l in H by lra. lra.
    - apply (Rmult_le_reg_r (ln e)); auto. unfold Rdiv. rewrite Rmult_minus_distr_r, Rmult_assoc, Rinv_l by lra. lra. }
  assert (f * exp (IZR i * ln e) = exp (ln f + IZR i * ln e)) as -> by now rewrite exp_plus, exp_ln.
  assert (c * exp (- s * ln e) = exp (ln c + - s * ln e)) as -> by now rewrite exp_plus, exp_ln.
  split; intros [H|H]; [left; now apply exp_increasing|rewrite H; lra|left; now apply exp_lt_inv|right; now apply exp_inv].
Qed.

Lemma power_rational e i : (0 < e)%Z -> exists q, new_rational (FromPair e 1) i = Some q /\ positive q /\ rval q = powerRZ (IZR e) i.
Proof.
  intros He. assert (0 < IZR e) as Re by now apply IZR_lt in He.
  unfold new_rational. destruct (Z.eqb_spec i 0) as [->|N0].
  { exists (mkrat 1 1). split; auto. split; [split; simpl; lia|]. unfold rval. simpl. lra. }
  unfold finish. cbn [num denom]. replace (1 =? 0)%Z with false by lia.
  assert (forall n, (0 <= n)%Z -> IZR (e ^ n) = powerRZ (IZR e) n) as PW.
  { intros n Hn. rewrite powerRZ_Rpower by lra. rewrite <- (Z2Nat.id n) at 1 by lia. rewrite <- pow_IZR, <- Rpower_pow by lra.
    f_equal. rewrite INR_IZR_INZ, Z2Nat.id; auto. }
  destruct (Z.eqb_spec i (-1)) as [->|N1].
  { eexists. split; [reflexivity|]. split; [split; simpl; lia|]. unfold rval. cbn [num denom powerRZ]. change (Pos.to_nat 1) with 1%nat. rewrite pow_1. unfold Rdiv. ring. }
  destruct (Z.ltb_spec i (-1)) as [L1|L1].
  { eexists. split; [reflexivity|]. split; [split; simpl; [rewrite Z.pow_1_l; lia|apply Z.pow_pos_nonneg; lia]|].
    unfold rval. cbn [num denom]. rewrite Z.pow_1_l by lia. rewrite PW by lia. rewrite powerRZ_neg'. unfold Rdiv. rewrite Rinv_inv. ring. }
  destruct (Z.ltb_spec 1 i) as [L2|L2].
  { eexists. split; [reflexivity|]. split; [split; simpl; [apply Z.pow_pos_nonneg; lia|rewrite Z.pow_1_l; lia]|].
    unfold rval. cbn [num denom]. rewrite Z.pow_1_l by lia. rewrite PW by lia. unfold Rdiv. rewrite Rinv_1. ring. }
  replace i with 1%Z by lia. eexists. split; [reflexivity|]. split; [split; simpl; lia|]. unfold rval. cbn [num denom]. rewrite powerRZ_1. lra.
Qed.
Lemma product_rational a b : positive a -> positive b -> exists r, rmul a b = Some r /\ positive r /\ rval r = rval a * rval b.
Proof.
  intros (A1 & A2) (B1 & B2). unfold rmul, new_rational. cbn [Z.eqb]. rewrite finish_1. cbn [denom].
  replace (denom a * denom b =? 0)%Z with false by nia. eexists. split; [reflexivity|]. split; [split; cbn; nia|].
  unfold rval. cbn [num denom]. rewrite !mult_IZR. apply denom_real in A2. apply denom_real in B2. field. lra.
Qed.

(** ** the ticks of one fraction *)
Lemma all_some_map {A B} (f : A -> option B) (Q : A -> B -> Prop) l : (forall a, In a l -> exists b, f a = Some b /\ Q a b) ->
  exists bs, all_some (map f l) = Some bs /\ Forall2 Q l bs.
Proof.
  induction l as [|a l IH]; intros H; [exists []; split; [reflexivity|constructor]|].
  destruct (H a) as (b & Eb & Qb); [now left|]. destruct IH as (bs & E & F); [intros; apply H; now right|].
  exists (b :: bs). cbn [map all_some]. rewrite Eb, E. split; auto.
Qed.
Lemma Forall2_In_r {A B} (Q : A -> B -> Prop) l bs b : Forall2 Q l bs -> In b bs -> exists a, In a l /\ Q a b.
Proof. induction 1 as [|a b' l bs H F IH]; [easy|]. intros [<-|Hb]; [exists a; simpl; auto|]. destruct (IH Hb) as (a' & ? & ?). exists a'. simpl; auto. Qed.
Lemma Forall2_In_l {A B} (Q : A -> B -> Prop) l bs a : Forall2 Q l bs -> In a l -> exists b, In b bs /\ Q a b.
Proof. induction 1 as [|a' b l bs H F IH]; [easy|]. intros [<-|Hb]; [exists b; simpl; auto|]. destruct (IH Hb) as (b' & ? & ?). exists b'. simpl; auto. Qed.
Lemma ascending_app l1 l2 : ascending l1 -> ascending l2 -> (forall x y, In x l1 -> In y l2 -> x < y) -> ascending (l1 ++ l2).
Proof.
  intros H1 H2 H. induction H1 as [|x l Hx Hl IH]; auto. cbn [app]. constructor.
  - intros y Hy. apply in_app_or in Hy. destruct Hy; auto. apply H; simpl; auto.
  - apply IH. intros a b Ha Hb. apply H; simpl; auto.
Qed.
Lemma ascending_rev_opp l : ascending l -> ascending (rev (map Ropp l)).
Proof.
  induction 1 as [|x l Hx Hl IH]; [constructor|]. cbn [map rev]. apply ascending_app; auto.
  - constructor; [easy|constructor].
  - intros a b Ha [<-|[]]. rewrite <- in_rev in Ha. apply in_map_iff in Ha. destruct Ha as (y & <- & Hy). apply Hx in Hy. lra.
Qed.
Lemma Forall2_ascending {A B} (f : A -> R) (g : B -> R) l bs : Forall2 (fun a b => g b = f a) l bs -> ascending (map f l) -> ascending (map g bs).
Proof. intros F S. replace (map g bs) with (map f l); auto. clear S. induction F; cbn [map]; congruence. Qed.

Definition mirror (neg : bool) (x : R) : R := if neg then - x else x.
Lemma fraction_spec eps lo hi neg p f tl ll : base_ok p -> In f (pres p) -> 0 < lo -> 0 < hi ->
  exists ts, fraction_ticks eps lo hi neg p f tl ll = Some ts /\
    Forall (fun t => (0 < denom (pos t))%Z) ts /\ ascending (map (fun t => rval (pos t)) ts) /\
    (forall t, In t ts -> ticklevel t = tl /\ labellevel t = ll /\ label t = None) /\
    (forall x, (exists t, In t ts /\ rval (pos t) = x) <-> scaled_within (1 / 2 * eps) lo hi [rval f] (IZR (pexp p)) (mirror neg x)).
Proof.
  intros B Hf Hlo Hhi. pose proof (base_real p B) as He. destruct B as (BP & BE). rewrite Forall_forall in BP. specialize (BP f Hf).
  pose proof (rval_pos f BP) as Vf. unfold fraction_ticks.
  set (one := fun i : Z => _). set (zr := zrange _ _).
  assert (exists bs, all_some (map one zr) = Some bs /\ Forall2 (fun i t => (0 < denom (pos t))%Z /\ rval (pos t) = mirror neg (rval f * powerRZ (IZR (pexp p)) i) /\
     ticklevel t = tl /\ labellevel t = ll /\ label t = None) zr bs) as (bs & Eb & Fb).
  { apply all_some_map. intros i _. unfold one. destruct (power_rational (pexp p) i) as (q & -> & Pq & Vq); [lia|].
    destruct (product_rational f q BP Pq) as (r & -> & Pr & Vr). eexists. split; [reflexivity|]. cbn [pos ticklevel labellevel label denom].
    split; [apply Pr|]. split; auto. rewrite <- Vq, <- Vr. unfold rval, mirror. destruct neg; cbn [num denom]; auto. rewrite opp_IZR. unfold Rdiv. ring. }
  rewrite Eb. cbn [option_map]. exists (if neg then rev bs else bs). split; auto.
  assert (forall t, In t (if neg then rev bs else bs) <-> In t bs) as IB. { intros t. destruct neg; [now rewrite <- in_rev|tauto]. }
  assert (forall i, In i zr <-> lo * Rpower (IZR (pexp p)) (- (1 / 2 * eps)) <= rval f * powerRZ (IZR (pexp p)) i <= hi * Rpower (IZR (pexp p)) (1 / 2 * eps)) as ZR.
  { intros i. unfold zr. rewrite zrange_In. rewrite <- log_le, <- log_ge by auto. unfold loge. rewrite <- floor_ge, <- ceil_le. lia. }
  split; [|split; [|split]].
  - apply Forall_forall. intros t Ht. apply IB in Ht. destruct (Forall2_In_r _ _ _ _ Fb Ht) as (i & _ & H & _). auto.
  - assert (ascending (map (fun i => rval f * powerRZ (IZR (pexp p)) i) zr)) as AZ.
    { apply (ascending_map _ Z.lt); [apply zrange_sorted|]. intros a b Hab. apply Rmult_lt_compat_l; auto. now apply pow_lt. }
    assert (map (fun t => rval (pos t)) bs = map (mirror neg) (map (fun i => rval f * powerRZ (IZR (pexp p)) i) zr)) as EQ.
    { clear - Fb. induction Fb as [|i t zr bs (_ & H & _) F IH]; cbn [map]; auto. now rewrite H, IH. }
    destruct neg.
    + rewrite map_rev, EQ. now apply ascending_rev_opp.
    + rewrite EQ. cbn [mirror]. rewrite map_id. auto.
  - intros t Ht. apply IB in Ht. destruct (Forall2_In_r _ _ _ _ Fb Ht) as (i & _ & _ & _ & H). auto.
  - intros x. assert (forall a b, a = mirror neg b <-> mirror neg a = b) as MM. { intros a b. unfold mirror. destruct neg; split; intros; lra. }
    split.
    + intros (t & Ht & V). apply IB in Ht. destruct (Forall2_In_r _ _ _ _ Fb Ht) as (i & Hi & _ & Ei & _). apply ZR in Hi.
      rewrite V in Ei. apply MM in Ei. unfold scaled_within. rewrite Ei. split; auto. exists (rval f), i. simpl; auto.
    + intros ((g & i & [<-|[]] & Ex) & H). rewrite Ex in H. apply ZR in H. destruct (Forall2_In_l _ _ _ _ Fb H) as (t & Ht & _ & Ei & _).
      exists t. split; [now apply IB|]. rewrite Ei. symmetry. apply MM. auto.
Qed.

(** ** merging of the fractions *)
Lemma fresh_merge h0 h l A tl ll ts P : fresh h0 h l A tl ll -> Forall (fun t => (0 < denom (pos t))%Z) ts ->
  ascending (map (fun t => rval (pos t)) ts) -> (forall t, In t ts -> ticklevel t = tl /\ labellevel t = ll /\ label t = None) ->
  (forall x, (exists t, In t ts /\ rval (pos t) = x) <-> P x) ->
  exists h' l', merge_new (h, l) ts = (h', l') /\ fresh h0 h' l' (fun x => A x \/ P x) tl ll.
Proof.
  intros (F1 & F2 & F3 & F4 & F5 & F6 & F7) D S Lv HP. unfold merge_new. cbn [fst snd].
  destruct (alloc h ts) as [h1 refs] eqn:E. apply (alloc_fresh h ts h1 refs tl ll) in E; auto.
  rewrite Forall_forall in F3.
  assert (levelled h l A (fun x a => (A x /\ a = tl) \/ (~ A x /\ a = None)) (fun x a => (A x /\ a = ll) \/ (~ A x /\ a = None))) as HL.
  { split; [|split]; auto.
    - repeat split; auto. apply Forall_forall. intros r Hr. specialize (F3 r Hr). lia.
    - intros r Hr. destruct (F7 r Hr) as (H1 & H2 & H3). assert (A (vof h r)) by (apply F6; eauto). auto. }
  destruct (merge_step h l _ _ _ h1 refs (fun x => exists t, In t ts /\ rval (pos t) = x) tl ll HL) as (st & m & Em & L2 & Mm & Mk); auto.
  rewrite Em. exists (mkheap st (next h1)), m. split; auto.
  destruct E as (G1 & G2 & G3 & G4 & G5 & G6 & G7). rewrite Forall_forall in G3. destruct L2 as ((W1 & W2 & W3) & LA & LB).
  split; [cbn; lia|]. split; [|split; [|split; [|split; [|split]]]]; auto.
  - intros r Hr. cbn [objects]. rewrite Mk. + rewrite G2 by lia. auto. + intros Hl. specialize (F3 r Hl). lia.
  - apply Forall_forall. intros r Hr. cbn [next]. destruct (Mm r Hr) as [Hl|Hl]; [specialize (F3 r Hl)|specialize (G3 r Hl)]; lia.
  - intros x. rewrite LA. rewrite HP. tauto.
  - intros r Hr. destruct (LB r Hr) as (LT & LL & LN). assert (A (vof (mkheap st (next h1)) r) \/ (exists t, In t ts /\ rval (pos t) = vof (mkheap st (next h1)) r)) as AP by (apply LA; eauto).
    assert (forall (a b c : option Z), (a = b \/ a = None) -> prominent a b c -> c = b) as PR.
    { intros a b c [-> | ->] (Hc & C1 & C2); [tauto|]. destruct Hc as [-> | ->]; auto. destruct b; auto; contradiction C2. }
    split; [|split]; auto.
    + destruct LT as [(_ & a & Ha & Pa)|(NP & [[_ Ha]|[NA _]])]; [|auto|tauto]. apply (PR a); tauto.
    + destruct LL as [(_ & a & Ha & Pa)|(NP & [[_ Ha]|[NA _]])]; [|auto|tauto]. apply (PR a); tauto.
Qed.

Lemma fresh_start h (P : R -> Prop) tl ll : (forall x, ~ P x) -> fresh h h [] P tl ll.
Proof.
  intros HP. repeat split; try (constructor; fail); auto; try easy.
  - intros (r & [] & _).
  - intros Px. now apply HP in Px.
Qed.
Lemma fresh_ext h h' l P Q tl ll : (forall x, P x <-> Q x) -> fresh h h' l P tl ll -> fresh h h' l Q tl ll.
Proof. intros E (F1 & F2 & F3 & F4 & F5 & F6 & F7). repeat split; auto; try (now apply F7); try (intros; apply E, F6; eauto); intros; apply F6, E; auto. Qed.

Lemma merge_fractions eps h0 lo hi neg p tl ll fs : forall done h l, base_ok p -> (forall f, In f fs -> In f (pres p)) -> 0 < lo -> 0 < hi ->
  fresh h0 h l (fun x => scaled_within (1 / 2 * eps) lo hi (map rval done) (IZR (pexp p)) (mirror neg x)) tl ll ->
  exists h' l', merge_lists (h, l) (map (fun f => fraction_ticks eps lo hi neg p f tl ll) fs) = Some (h', l') /\
  fresh h0 h' l' (fun x => scaled_within (1 / 2 * eps) lo hi (map rval (done ++ fs)) (IZR (pexp p)) (mirror neg x)) tl ll.
Proof.
  induction fs as [|f fs IH]; intros done h l B Hf Hlo Hhi F; cbn [map merge_lists].
  - exists h, l. rewrite app_nil_r. auto.
  - destruct (fraction_spec eps lo hi neg p f tl ll B) as (ts & -> & S1 & S2 & S3 & S4); auto. { apply Hf. now left. }
    destruct (fresh_merge _ _ _ _ _ _ ts _ F S1 S2 S3 S4) as (h1 & l1 & -> & F1).
    destruct (IH (done ++ [f]) h1 l1) as (h' & l' & E & F'); auto.
    + intros g Hg. apply Hf. now right.
    + revert F1. apply fresh_ext. intros x. unfold scaled_within, scaled. rewrite map_app. split.
      * intros [((g & i & Hg & Ex) & H)|((g & i & Hg & Ex) & H)]; split; auto; exists g, i; rewrite in_app_iff; auto.
      * intros ((g & i & Hg & Ex) & H). apply in_app_or in Hg. destruct Hg as [Hg|Hg]; [left|right]; split; auto; exists g, i; auto.
    + exists h', l'. split; auto. now rewrite <- app_assoc in F'.
Qed.

Lemma leb_spec x y : leb x y = true <-> x <= y.
Proof. unfold leb. destruct (Rle_dec x y); split; auto; try discriminate; tauto. Qed.
Lemma ltb_spec x y : ltb x y = true <-> x < y.
Proof. unfold ltb. destruct (Rlt_dec x y); split; auto; try discriminate; tauto. Qed.
Lemma mixed_false lo hi : mixed_signs lo hi = false <-> (0 < lo /\ 0 < hi) \/ (lo < 0 /\ hi < 0).
Proof.
  unfold mixed_signs, leb. destruct (Rle_dec lo 0), (Rle_dec 0 hi), (Rle_dec 0 lo), (Rle_dec hi 0); cbn;
    (split; [intros E; try discriminate E; lra|intros; try reflexivity; lra]).
Qed.
Lemma log_ok_base p : base_ok p -> log_ok p = true.
Proof.
  intros (B & E). unfold log_ok. rewrite Forall_forall in B. rewrite !andb_true_iff. repeat split; try lia.
  apply forallb_forall. intros f Hf. apply B in Hf. rewrite andb_true_iff. split; [|now apply positive_nonzero].
  apply ltb_spec. now apply rval_pos.
Qed.

Lemma log_fresh eps h lo hi p tl ll : base_ok p -> mixed_signs lo hi = false -> exists h' refs, log_ticks eps h lo hi p tl ll = Some (h', refs) /\
  fresh h h' refs (log_position (1 / 2 * eps) lo hi (map rval (pres p)) (IZR (pexp p))) tl ll.
Proof.
  intros B M. unfold log_ticks. rewrite M, (log_ok_base p B). cbn [orb negb]. apply mixed_false in M.
  destruct (ltb hi 0) eqn:L.
  - apply ltb_spec in L.
    destruct (merge_fractions eps h (- hi) (- lo) true p tl ll (pres p) [] h []) as (h' & l' & E & F); auto; try lra.
    { apply fresh_start. intros x ((g & i & [] & _) & _). }
    exists h', l'. split; auto. revert F. apply fresh_ext. intros x. unfold log_position. cbn [mirror app]. split; auto. intros [[H _]|[_ H]]; auto. lra.
  - assert (~ hi < 0) as N. { intros H. apply ltb_spec in H. congruence. }
    destruct (merge_fractions eps h lo hi false p tl ll (pres p) [] h []) as (h' & l' & E & F); auto; try lra.
    { apply fresh_start. intros x ((g & i & [] & _) & _). }
    exists h', l'. split; auto. revert F. apply fresh_ext. intros x. unfold log_position. cbn [mirror app]. split; [left; split; auto; lra|]. intros [[_ H]|[H _]]; auto. lra.
Qed.
Lemma log_get_fresh eps h lo hi p tl ll h' refs : base_ok p -> log_ticks eps h lo hi p tl ll = Some (h', refs) ->
  fresh h h' refs (log_position (1 / 2 * eps) lo hi (map rval (pres p)) (IZR (pexp p))) tl ll.
Proof.
  intros B E. destruct (mixed_signs lo hi) eqn:M.
  - unfold log_ticks in E. rewrite M in E. discriminate.
  - destruct (log_fresh eps h lo hi p tl ll B M) as (h1 & l1 & E1 & F). rewrite E in E1. assert (h' = h1) as -> by congruence. assert (refs = l1) as -> by congruence. auto.
Qed.
