From Coq Require Import Reals ZArith QArith Qreals Bool List Lia ZifyBool Lra Sorted.
From Verif Require Import BboxModel TickModel TickSpec TickProofs TickProofs2 TickProps ParterModel ParterSpec.
Import ListNotations.
Open Scope R_scope.

Lemma floor_spec x : IZR (floor x) <= x < IZR (floor x) + 1.
Proof. unfold floor. pose proof (base_Int_part x). lra. Qed.
Lemma ceil_spec x : x <= IZR (ceil x) < x + 1.
Proof. unfold ceil. pose proof (base_Int_part (- x)). rewrite opp_IZR. lra. Qed.
Lemma floor_ge (i : Z) x : (i <= floor x)%Z <-> IZR i <= x.
Proof.
  pose proof (floor_spec x). split; intros Hi.
  - apply IZR_le in Hi. lra.
  - assert (i < floor x + 1)%Z; [|lia]. apply lt_IZR. rewrite plus_IZR. lra.
Qed.
Lemma ceil_le (i : Z) x : (ceil x <= i)%Z <-> x <= IZR i.
Proof.
  pose proof (ceil_spec x). split; intros Hi.
  - apply IZR_le in Hi. lra.
  - assert (ceil x - 1 < i)%Z; [|lia]. apply lt_IZR. rewrite minus_IZR. lra.
Qed.

Lemma zrange_In a b i : In i (zrange a b) <-> (a <= i < b)%Z.
Proof.
  unfold zrange. rewrite in_map_iff. split.
  - intros (k & <- & Hk). apply in_seq in Hk. lia.
  - intros H. exists (Z.to_nat (i - a)). split; [lia|]. apply in_seq. lia.
Qed.
Lemma zrange_cons a b : (a < b)%Z -> zrange a b = a :: zrange (a + 1) b.
Proof.
  intros H. unfold zrange. replace (Z.to_nat (b - a)) with (S (Z.to_nat (b - (a + 1)))) by lia.
  cbn [seq map]. f_equal; [lia|]. rewrite <- seq_shift, map_map. apply map_ext. intros. lia.
Qed.
Lemma zrange_empty a b : (b <= a)%Z -> zrange a b = [].
Proof. intros H. unfold zrange. replace (Z.to_nat (b - a)) with O by lia. reflexivity. Qed.
Lemma zrange_sorted a b : StronglySorted Z.lt (zrange a b).
Proof.
  remember (Z.to_nat (b - a)) as n eqn:E. revert a E. induction n as [|n IH]; intros a E.
  - rewrite zrange_empty by lia. constructor.
  - rewrite zrange_cons by lia. constructor; [apply IH; lia|]. apply Forall_forall. intros x Hx. apply zrange_In in Hx. lia.
Qed.

(** ** rationals *)
Lemma denom_real r : (0 < denom r)%Z -> 0 < IZR (denom r).
Proof. intros H. now apply IZR_lt in H. Qed.
Lemma rval_lt a b : (0 < denom a)%Z -> (0 < denom b)%Z -> ((value a < value b)%Q <-> rval a < rval b).
Proof.
  intros Ha Hb. change (value a) with (valQ a). change (value b) with (valQ b). rewrite <- lt_pos by auto.
  unfold lt, rval. apply denom_real in Ha. apply denom_real in Hb. rewrite Z.ltb_lt. split; intros H.
  - apply IZR_lt in H. rewrite !mult_IZR in H. apply (Rmult_lt_reg_r (IZR (denom a) * IZR (denom b))); [nra|]. field_simplify; nra.
  - apply lt_IZR. rewrite !mult_IZR. apply (Rmult_lt_compat_r (IZR (denom a) * IZR (denom b))) in H; [|nra]. field_simplify in H; nra.
Qed.
Lemma rval_eq a b : (0 < denom a)%Z -> (0 < denom b)%Z -> ((value a == value b)%Q <-> rval a = rval b).
Proof.
  intros Ha Hb. pose proof (rval_lt a b Ha Hb) as L1. pose proof (rval_lt b a Hb Ha) as L2. split; intros H.
  - destruct (Rtotal_order (rval a) (rval b)) as [L|[E|L]]; auto.
    + apply L1 in L. rewrite H in L. now apply Qlt_irrefl in L.
    + apply L2 in L. rewrite H in L. now apply Qlt_irrefl in L.
  - destruct (Q_dec (value a) (value b)) as [[L|L]|E]; auto; exfalso.
    + apply L1 in L. lra.
    + apply L2 in L. lra.
Qed.
Lemma rval_pos d : positive d -> 0 < rval d.
Proof. intros (N & D). unfold rval. apply IZR_lt in N. apply IZR_lt in D. now apply Rdiv_lt_0_compat. Qed.
Lemma positive_nonzero d : positive d -> nonzero d = true.
Proof. intros (N & D). unfold nonzero. lia. Qed.

(** ** states *)
Definition vof (h : heap) (r : nat) : R := rval (pos (objects h r)).
Definition wf (h : heap) (l : list nat) : Prop :=
  Forall (fun r => (r < next h)%nat) l /\ proper (objects h) l /\ ordered true (objects h) l.
Lemma proper_In st l r : proper st l -> In r l -> (0 < denom (pos (st r)))%Z.
Proof. intros P. unfold proper in P. rewrite Forall_forall in P. auto. Qed.

(** a list of new ticks at the positions [P] with given levels *)
Definition fresh (h h' : heap) (refs : list nat) (P : R -> Prop) (tl ll : option Z) : Prop :=
  (next h <= next h')%nat /\ (forall r, (r < next h)%nat -> objects h' r = objects h r) /\
  Forall (fun r => (next h <= r < next h')%nat) refs /\ proper (objects h') refs /\ ordered true (objects h') refs /\
  (forall x, (exists r, In r refs /\ vof h' r = x) <-> P x) /\
  (forall r, In r refs -> ticklevel (objects h' r) = tl /\ labellevel (objects h' r) = ll /\ label (objects h' r) = None).
(** ticks at the positions [A] with tick levels [T] and label levels [L] *)
Definition levelled (h : heap) (l : list nat) (A : R -> Prop) (T L : R -> option Z -> Prop) : Prop :=
  wf h l /\ (forall x, (exists r, In r l /\ vof h r = x) <-> A x) /\
  (forall r, In r l -> T (vof h r) (ticklevel (objects h r)) /\ L (vof h r) (labellevel (objects h r)) /\ label (objects h r) = None).

Lemma wf_keep h h' l : (next h <= next h')%nat -> (forall r, (r < next h)%nat -> objects h' r = objects h r) -> wf h l -> wf h' l.
Proof.
  intros N E (B & P & O). rewrite Forall_forall in B. repeat split.
  - apply Forall_forall. intros r Hr. specialize (B r Hr). lia.
  - apply Forall_forall. intros r Hr. rewrite E by auto. now apply (proper_In _ l).
  - unfold ordered in *. clear P N. induction O as [|a l O IH F]; constructor.
    + apply IH. intros r Hr. apply B. now right.
    + rewrite Forall_forall in *. intros r Hr. rewrite !E by (apply B; simpl; auto). now apply F.
Qed.

Lemma merge_step h l A T L h' refs P tl ll :
  levelled h l A T L -> (forall x, ~ A x -> T x None /\ L x None) -> fresh h h' refs P tl ll ->
  exists st m, mergeticklists true (objects h') l refs = (st, m) /\
    levelled (mkheap st (next h')) m (fun x => A x \/ P x)
      (fun x c => (P x /\ exists a, T x a /\ prominent a tl c) \/ (~ P x /\ T x c))
      (fun x c => (P x /\ exists a, L x a /\ prominent a ll c) \/ (~ P x /\ L x c)) /\
    (forall r, In r m -> In r l \/ In r refs) /\ (forall r, ~ In r l -> st r = objects h' r).
Proof.
  intros (W & HA & HL) HN (N & K & B & PR & O & HP & HR).
  assert (wf h' l) as W' by (now apply (wf_keep h)). destruct W as (Bl & _ & _). destruct W' as (_ & PR' & O').
  rewrite Forall_forall in Bl, B.
  destruct (mergeticklists true (objects h') l refs) as [st m] eqn:E. exists st, m. split; auto.
  assert (forall r, In r l -> ~ In r refs) as DJ. { intros r H1 H2. specialize (Bl r H1). specialize (B r H2). lia. }
  destruct (merge_attributes _ _ _ _ _ PR' PR O' O DJ E) as (M1 & M2 & M3 & M4).
  pose proof (merge_positions_unchanged true (objects h') l refs) as MP. rewrite E in MP. cbn [fst] in MP.
  pose proof (merge_members true (objects h') l refs PR' PR) as (MA & MB & MC). rewrite E in MA, MB, MC. cbn [fst snd] in MA, MB, MC.
  assert (forall r, vof (mkheap st (next h')) r = vof h' r) as VO. { intros r. unfold vof. cbn [objects]. now rewrite MP. }
  assert (forall r, In r l -> vof h' r = vof h r) as VL. { intros r Hr. unfold vof. rewrite K; auto. }
  assert (forall x y, In x l -> In y refs -> ((value (pos (objects h' x)) == value (pos (objects h' y)))%Q <-> vof h' x = vof h' y)) as VE.
  { intros x y Hx Hy. apply rval_eq; [now apply (proper_In _ l)|now apply (proper_In _ refs)]. }
  assert (forall x : R, {y | In y refs /\ vof h' y = x} + {forall y, In y refs -> vof h' y <> x}) as DEC.
  { intros x. clear. induction refs as [|y ys IH]; [right; easy|]. destruct (Req_EM_T (vof h' y) x) as [Ey|Ny].
    - left. exists y. simpl; auto.
    - destruct IH as [(z & Hz & Ez)|Nz]; [left; exists z; simpl; auto|right]. intros z [<-|Hz]; auto. }
  split; [|split; [exact MA|intros r Hr; apply M4; tauto]].
  split; [|split].
  - repeat split; cbn [next objects].
    + apply Forall_forall. intros r Hr. apply MA in Hr. destruct Hr as [Hr|Hr]; [specialize (Bl r Hr); lia|specialize (B r Hr); lia].
    + apply Forall_forall. intros r Hr. rewrite MP. apply MA in Hr. destruct Hr as [Hr|Hr]; [now apply (proper_In _ l)|now apply (proper_In _ refs)].
    + exact (merge_is_sorted true true _ _ _ _ _ PR' PR O' O E).
  - intros x. split.
    + intros (r & Hr & V). rewrite VO in V. apply MA in Hr. destruct Hr as [Hr|Hr].
      * left. apply HA. exists r. rewrite VL in V by auto. auto.
      * right. apply HP. exists r. auto.
    + intros [Ax|Px].
      * apply HA in Ax. destruct Ax as (r & Hr & V). exists r. split; auto. rewrite VO, VL; auto.
      * apply HP in Px. destruct Px as (r & Hr & V). destruct (MC r Hr) as [Hm|(y & Hy & Ey)].
        -- exists r. split; auto. now rewrite VO.
        -- exists y. split; auto. rewrite VO. rewrite <- V. apply rval_eq; auto; [now apply (proper_In _ l)|now apply (proper_In _ refs)].
  - intros r Hr. rewrite VO. cbn [objects]. destruct (in_dec Nat.eq_dec r l) as [Hl|Nl].
    + rewrite VL by auto. destruct (HL r Hl) as (HT & HLL & HLA). destruct (DEC (vof h r)) as [(y & Hy & Ey)|Ny].
      * assert (P (vof h r)) as Pr by (apply HP; eauto).
        destruct (M3 r y Hl Hy) as (_ & Q1 & Q2 & Q3). { apply VE; auto. rewrite Ey. now apply VL. }
        destruct (HR y Hy) as (R1 & R2 & R3). rewrite R1, K in Q1 by auto. rewrite R2, K in Q2 by auto. rewrite R3, K, HLA in Q3 by auto.
        repeat split; auto; left; split; auto; eauto.
      * assert (~ P (vof h r)) as NP. { intros Pr. apply HP in Pr. destruct Pr as (y & Hy & Ey). now apply (Ny y). }
        rewrite M4. 2: { intros _ y Hy Q. apply VE in Q; auto. apply (Ny y Hy). rewrite <- Q. now apply VL. }
        rewrite K by auto. repeat split; auto; right; auto.
    + assert (In r refs) as Hf by (destruct (MA r Hr); tauto).
      rewrite M4 by tauto. destruct (HR r Hf) as (R1 & R2 & R3). rewrite R1, R2, R3.
      assert (~ A (vof h' r)) as NA.
      { intros Ar. apply HA in Ar. destruct Ar as (x & Hx & Vx). apply (proj1 (M2 r Hf) Hr x Hx). apply VE; auto. rewrite VL; auto. }
      assert (P (vof h' r)) as Pr by (apply HP; eauto). apply HN in NA. destruct NA as (NT & NL).
      assert (forall c, prominent None c c) as PN. { intros [c|]; unfold prominent, as_prominent; repeat split; auto; lia. }
      repeat split; auto; left; split; auto; exists None; auto.
Qed.

(** ** new lists *)
Lemma ordered_seq (st : store) (ts : list tick) n0 :
  (forall k, (k < length ts)%nat -> st (n0 + k)%nat = nth k ts no_tick) -> Forall (fun t => (0 < denom (pos t))%Z) ts ->
  ascending (map (fun t => rval (pos t)) ts) -> ordered true st (seq n0 (length ts)).
Proof.
  unfold ordered. revert n0. induction ts as [|t ts IH]; intros n0 E P HS; [constructor|].
  cbn [length seq]. inversion HS as [|z zs HB HS2]; inversion P as [|w ws HP1 HP2]; subst. constructor.
  - apply IH; auto. intros k Hk. specialize (E (S k) ltac:(simpl; lia)). cbn [nth] in E. rewrite <- E. f_equal. lia.
  - apply Forall_forall. intros r Hr. apply in_seq in Hr. cbn beta iota.
    pose proof (E 0%nat ltac:(simpl; lia)) as E0. rewrite Nat.add_0_r in E0. cbn [nth] in E0. rewrite E0.
    pose proof (E (r - n0)%nat ltac:(simpl; lia)) as Er. replace (n0 + (r - n0))%nat with r in Er by lia. rewrite Er.
    destruct (r - n0)%nat as [|k] eqn:Ek; [lia|]. cbn [nth].
    assert (In (nth k ts no_tick) ts) as IK by (apply nth_In; lia).
    apply rval_lt; auto.
    + rewrite Forall_forall in HP2. auto.
    + apply HB. apply in_map_iff. eauto.
Qed.
Lemma alloc_fresh h ts h' refs tl ll : alloc h ts = (h', refs) -> Forall (fun t => (0 < denom (pos t))%Z) ts ->
  ascending (map (fun t => rval (pos t)) ts) -> (forall t, In t ts -> ticklevel t = tl /\ labellevel t = ll /\ label t = None) ->
  fresh h h' refs (fun x => exists t, In t ts /\ rval (pos t) = x) tl ll.
Proof.
  unfold alloc. intros E P S L.
  assert (h' = mkheap (fun r => if Nat.ltb r (next h) then objects h r else nth (r - next h) ts no_tick) (next h + length ts)) as -> by congruence.
  assert (refs = seq (next h) (length ts)) as -> by congruence. clear E.
  assert (forall k, (k < length ts)%nat -> (if Nat.ltb (next h + k) (next h) then objects h (next h + k)%nat else nth (next h + k - next h) ts no_tick) = nth k ts no_tick) as G.
  { intros k Hk. destruct (Nat.ltb_spec (next h + k) (next h)); [lia|]. f_equal. lia. }
  assert (forall r, In r (seq (next h) (length ts)) -> exists k, (k < length ts)%nat /\ r = (next h + k)%nat) as I.
  { intros r Hr. apply in_seq in Hr. exists (r - next h)%nat. lia. }
  split; [cbn; lia|]. split; [|split; [|split; [|split; [|split]]]]; cbn [next objects].
  - intros r Hr. apply Nat.ltb_lt in Hr. now rewrite Hr.
  - apply Forall_forall. intros r Hr. apply in_seq in Hr. lia.
  - apply Forall_forall. intros r Hr. destruct (I r Hr) as (k & Hk & ->). rewrite G by auto.
    rewrite Forall_forall in P. apply P. now apply nth_In.
  - now apply ordered_seq.
  - intros x. unfold vof. cbn [objects]. split.
    + intros (r & Hr & V). destruct (I r Hr) as (k & Hk & ->). rewrite G in V by auto. exists (nth k ts no_tick). split; auto. now apply nth_In.
    + intros (t & Ht & V). apply (In_nth _ _ no_tick) in Ht. destruct Ht as (k & Hk & Et). exists (next h + k)%nat.
      split; [apply in_seq; lia|]. now rewrite G, Et.
  - intros r Hr. destruct (I r Hr) as (k & Hk & ->). rewrite G by auto. apply L. now apply nth_In.
Qed.
