From Coq Require Import String Ascii ZArith QArith Qpower Qabs Qround Qreduction Bool List Lia ZifyBool Arith Lqa.
From Verif Require Import TickModel TickSpec TickProofs TickProofs2 TexterModel TexterSpec TexterProofs TexterProofs2.
Import ListNotations.
Open Scope Z_scope.

(** ** mantissa and exponent *)
Lemma Qle_bool_false a b : Qle_bool a b = false -> (b < a)%Q.
Proof.
  intros H. apply Qnot_le_lt. intros C. apply Qle_bool_iff in C. congruence.
Qed.

Lemma base_gap b : (1 < b)%Q -> (1 + / inject_Z (Zpos (Qden b)) <= b)%Q.
Proof.
  destruct b as [a d]. unfold Qlt, Qle, Qplus, Qinv, inject_Z. cbn. intros H.
  ring_simplify. nia.
Qed.

Lemma gap_pos b : (0 < / inject_Z (Zpos (Qden b)))%Q.
Proof. apply Qinv_lt_0_compat. reflexivity. Qed.

Lemma shrink_spec b : (1 < b)%Q -> forall fuel m e, (0 < m)%Q ->
  (m <= inject_Z (Z.of_nat fuel - 1) * / inject_Z (Zpos (Qden b)))%Q ->
  exists m' k, shrink fuel b m e = Some (m', e + k) /\ 0 <= k /\ (m == m' * Qpower b k)%Q /\ (0 < m' < b)%Q /\
    (k = 0 /\ m' = m \/ (1 <= m')%Q).
Proof.
  intros Hb. pose proof (base_gap b Hb) as G. pose proof (gap_pos b) as Gp.
  set (g := (/ inject_Z (Zpos (Qden b)))%Q) in *.
  induction fuel as [|f IH]; intros m e Hm Hf.
  - exfalso. simpl in Hf. change (inject_Z (-1)) with (-1)%Q in Hf. lra.
  - cbn [shrink]. destruct (Qle_bool b m) eqn:L.
    + apply Qle_bool_iff in L. assert (~ b == 0)%Q as Nb by lra.
      assert (m / b * b == m)%Q as Em by (field; auto).
      assert (1 <= m / b)%Q as M1.
      { apply Qle_shift_div_l; lra. }
      destruct (IH (m / b)%Q (e + 1)) as (m' & k & E & Hk & V & R & C).
      * lra.
      * rewrite Nat2Z.inj_succ in Hf. replace (Z.succ (Z.of_nat f) - 1) with ((Z.of_nat f - 1) + 1) in Hf by lia.
        rewrite inject_Z_plus in Hf. change (inject_Z 1) with 1%Q in Hf.
        set (x := (m / b)%Q) in *. assert (m - x >= g)%Q by nra. lra.
      * exists m', (k + 1). split; [rewrite E; f_equal; f_equal; lia|]. split; [lia|]. split.
        { rewrite Qpower_plus by auto. change (Qpower b 1) with b. rewrite <- Em, V. ring. }
        split; auto. right. destruct C as [[_ ->]|C]; auto.
    + apply Qle_bool_false in L. exists m, 0. rewrite Z.add_0_r. split; auto. split; [lia|]. split; [simpl; ring|].
      split; [auto|]. left. auto.
Qed.

Lemma grow_spec b : (1 < b)%Q -> forall fuel m e, (0 < m < b)%Q ->
  (1 <= m * (1 + inject_Z (Z.of_nat fuel) * / inject_Z (Zpos (Qden b))))%Q ->
  exists m' k, grow (S fuel) b m e = Some (m', e - k) /\ 0 <= k /\ (m' == m * Qpower b k)%Q /\ (1 <= m' < b)%Q.
Proof.
  intros Hb. pose proof (base_gap b Hb) as G. pose proof (gap_pos b) as Gp.
  set (g := (/ inject_Z (Zpos (Qden b)))%Q) in *.
  assert (~ b == 0)%Q as Nb by lra.
  induction fuel as [|f IH]; intros m e Hm Hf; cbn [grow]; destruct (Qle_bool 1 m) eqn:L; cbn [negb].
  - apply Qle_bool_iff in L. exists m, 0. rewrite Z.sub_0_r. split; auto. split; [lia|]. split; [simpl; ring|]. lra.
  - apply Qle_bool_false in L. exfalso. simpl in Hf. change (inject_Z 0) with 0%Q in Hf. lra.
  - apply Qle_bool_iff in L. exists m, 0. rewrite Z.sub_0_r. split; auto. split; [lia|]. split; [simpl; ring|]. lra.
  - apply Qle_bool_false in L. destruct (IH (m * b)%Q (e - 1)) as (m' & k & E & Hk & V & R).
    + nra.
    + rewrite Nat2Z.inj_succ in Hf. unfold Z.succ in Hf. rewrite inject_Z_plus in Hf. change (inject_Z 1) with 1%Q in Hf.
      assert (0 <= inject_Z (Z.of_nat f))%Q as P by (change 0%Q with (inject_Z 0); rewrite <- Zle_Qle; lia).
      set (x := inject_Z (Z.of_nat f)) in *.
      assert (0 <= x * g)%Q by (apply Qmult_le_0_compat; lra).
      assert ((1 + g) * (1 + x * g) >= 1 + (x + 1) * g)%Q as A by nra.
      assert (b * (1 + x * g) >= (1 + g) * (1 + x * g))%Q as B by nra.
      assert (m * (b * (1 + x * g)) >= m * (1 + (x + 1) * g))%Q as C by nra.
      lra.
    + exists m', (k + 1). cbn [grow] in E. rewrite E. split; [f_equal; f_equal; lia|]. split; [lia|]. split; auto.
      rewrite V, Qpower_plus by auto. change (Qpower b 1) with b. ring.
Qed.

Lemma loop_fuel_shrink b m : (0 < m)%Q -> (m <= inject_Z (Z.of_nat (loop_fuel b m) - 1) * / inject_Z (Zpos (Qden b)))%Q.
Proof.
  intros Hm. unfold loop_fuel. set (D := Zpos (Qden b)).
  pose proof (Qle_ceiling m) as C. assert (0 < Qceiling m) as P.
  { assert (inject_Z 0 < inject_Z (Qceiling m))%Q as H by (change (inject_Z 0) with 0%Q; lra). now rewrite <- Zlt_Qlt in H. }
  rewrite !Nat2Z.inj_succ, Z2Nat.id by nia.
  replace (Z.succ (Z.succ (D * Qceiling m)) - 1) with (D * Qceiling m + 1) by lia.
  rewrite inject_Z_plus, inject_Z_mult. assert (0 < inject_Z D)%Q as PD by reflexivity.
  assert (0 < / inject_Z D)%Q as PI by (now apply Qinv_lt_0_compat).
  assert ((inject_Z D * inject_Z (Qceiling m) + inject_Z 1) * / inject_Z D == inject_Z (Qceiling m) + / inject_Z D)%Q as ->.
  { field. lra. }
  lra.
Qed.

Lemma loop_fuel_grow b m : (0 < m)%Q -> exists f, loop_fuel b (/ m) = S f /\
  (1 <= m * (1 + inject_Z (Z.of_nat f) * / inject_Z (Zpos (Qden b))))%Q.
Proof.
  intros Hm. unfold loop_fuel. set (D := Zpos (Qden b)). eexists. split; [reflexivity|].
  assert (0 < / m)%Q as PM by (now apply Qinv_lt_0_compat).
  pose proof (Qle_ceiling (/ m)) as C. assert (0 < Qceiling (/ m)) as P.
  { assert (inject_Z 0 < inject_Z (Qceiling (/ m)))%Q as H by (change (inject_Z 0) with 0%Q; lra). now rewrite <- Zlt_Qlt in H. }
  rewrite !Nat2Z.inj_succ, Z2Nat.id by nia. unfold Z.succ.
  rewrite inject_Z_plus, inject_Z_mult. assert (0 < inject_Z D)%Q as PD by reflexivity.
  assert (0 < / inject_Z D)%Q as PI by (now apply Qinv_lt_0_compat).
  assert ((inject_Z D * inject_Z (Qceiling (/ m)) + inject_Z 1) * / inject_Z D == inject_Z (Qceiling (/ m)) + / inject_Z D)%Q as ->.
  { field. lra. }
  set (c := inject_Z (Qceiling (/ m))) in *. assert (m * / m == 1)%Q as E by (field; lra).
  assert (m * c >= m * / m)%Q by nra. nra.
Qed.

Lemma decompose_spec b r : (1 < b)%Q -> denom r <> 0 -> num r <> 0 ->
  exists s m e, decompose b r = Some (s, m, e) /\ (s = 1 \/ s = -1) /\ (s = -1 <-> (valQ r < 0)%Q) /\ (1 <= m < b)%Q /\
    (valQ r == inject_Z s * m * Qpower b e)%Q.
Proof.
  intros Hb Hd Hn. unfold decompose. replace (num r =? 0) with false by lia. replace (denom r =? 0) with false by lia.
  set (m := (Z.abs (num r) # Z.to_pos (Z.abs (denom r)))%Q).
  assert (m == Qabs (valQ r))%Q as Em.
  { unfold m, valQ. rewrite <- frac_abs, <- fracQ_pos. rewrite Z2Pos.id by lia. reflexivity. }
  assert (0 < m)%Q as Pm by (unfold m, Qlt; cbn; lia).
  destruct (shrink_spec b Hb _ m 0 Pm (loop_fuel_shrink b m Pm)) as (m1 & k1 & E1 & K1 & V1 & R1 & C1).
  rewrite E1. destruct (loop_fuel_grow b m1 (proj1 R1)) as (f & Ef & Hf). rewrite Ef.
  destruct (grow_spec b Hb f m1 (0 + k1) R1 Hf) as (m2 & k2 & E2 & K2 & V2 & R2). rewrite E2.
  do 3 eexists. split; [reflexivity|]. pose proof (sign_value r Hd) as S.
  split; [destruct (_ <? 0); auto|]. split; [rewrite <- S; destruct (Z.ltb_spec (num r * denom r) 0); split; intros; lia|].
  split; auto.
  assert (~ b == 0)%Q as Nb by lra.
  assert (m == m2 * Qpower b (0 + k1 - k2))%Q as V.
  { rewrite V2, V1. replace (0 + k1 - k2) with (k1 + - k2) by lia. rewrite Qpower_plus, Qpower_opp by auto.
    field. now apply Qpower_not_0. }
  rewrite <- Qmult_assoc, <- V, Em. destruct (Z.ltb_spec (num r * denom r) 0) as [L|L].
  - apply S in L. rewrite Qabs_neg by lra. change (inject_Z (-1)) with (-1)%Q. ring.
  - rewrite Qabs_pos; [change (inject_Z 1) with 1%Q; ring|]. apply Qnot_lt_le. intros C. apply S in C. lia.
Qed.

(** ** the default texter *)
Lemma Forall2_impl {A B} (P Q : A -> B -> Prop) l1 l2 : (forall a b, P a b -> Q a b) -> Forall2 P l1 l2 -> Forall2 Q l1 l2.
Proof. intros H. induction 1; constructor; auto. Qed.
Lemma tdenotes_eq t k s q q' : (q == q')%Q -> tdenotes t k s q -> tdenotes t k s q'.
Proof.
  intros E (sg & ip & fp & vi & qf & A & B & C & D). exists sg, ip, fp, vi, qf. split; auto. split; auto. split; auto.
  rewrite <- E. exact D.
Qed.

Section DefaultProofs.
  Variable fmt : Q -> text.
  Variable t : defaulttexter.

  Definition exact (x : Q) : Prop := exists q, decimal (fmt x) q /\ (q == x)%Q.

  Lemma as_tick_exact x : exact x -> exists r, as_tick fmt x = Some r /\ denom r <> 0 /\ (valQ r == x)%Q.
  Proof.
    intros (q & D & E). unfold as_tick, new_rational. cbn [Z.eqb].
    destruct (initfromstring_complete _ _ D) as (r & Er & Hd & Eq). exists r. rewrite Er, finish_1.
    replace (denom r =? 0) with false by lia. split; auto. split; [lia|]. unfold valQ. now rewrite Eq.
  Qed.

  (** meaning of a label *)
  Definition ldenotes (l : deflabel) (q : Q) : Prop :=
    match l with
    | DPlain s => exists k, tdenotes (mantissatexter t) k s q
    | DExp m sign bl el =>
        exists kb qb ke e, tdenotes (basetexter t) kb bl qb /\ tdenotes (exponenttexter t) ke el (inject_Z e) /\
          match m with
          | Some ml => exists k qm, tdenotes (mantissatexter t) k ml qm /\ (q == qm * Qpower qb e)%Q
          | None => (q == inject_Z sign * Qpower qb e)%Q
          end
    end.
  Definition is_exp (l : deflabel) : bool := match l with DExp _ _ _ _ => true | DPlain _ => false end.

  Lemma assemble_spec all ps bl mls els (Pm Pe : part -> text -> Prop) :
    Forall2 Pm (filter (fun p => negb (skips t all p)) ps) mls -> Forall2 Pe (filter pwant ps) els ->
    (forall p, skips t all p = true -> pwant p = true) ->
    Forall2 (fun p l => match l with
       | DPlain s => pwant p = false /\ Pm p s
       | DExp (Some ml) sg b el => pwant p = true /\ b = bl /\ Pm p ml /\ Pe p el /\ skips t all p = false
       | DExp None sg b el => pwant p = true /\ b = bl /\ sg = psign p /\ Pe p el /\ skips t all p = true
       end) ps (assemble t all ps bl mls els).
  Proof.
    revert mls els. induction ps as [|p ps IH]; intros mls els Hm He Hs; cbn [assemble]; [constructor|].
    cbn [filter] in Hm, He. destruct (pwant p) eqn:W.
    - inversion He; subst. destruct (skips t all p) eqn:S; cbn [negb] in Hm.
      + constructor; [tauto|]. auto.
      + inversion Hm; subst. constructor; [tauto|]. auto.
    - destruct (skips t all p) eqn:S; [apply Hs in S; congruence|]. cbn [negb] in Hm. inversion Hm; subst.
      constructor; auto.
  Qed.

  Lemma skips_spec all p : In p all -> skips t all p = true -> pwant p = true /\ (pmantissa p == 1)%Q.
  Proof.
    unfold skips. intros Hp. destruct (skipmantissaunity t); [discriminate| |].
    - intros H. apply andb_true_iff in H. destruct H as [H1 H2]. split; auto. now apply Qeq_bool_iff.
    - intros H. apply andb_true_iff in H. destruct H as [H1 H2]. split; auto. rewrite forallb_forall in H2.
      specialize (H2 p Hp). rewrite H1 in H2. now apply Qeq_bool_iff.
  Qed.
  Lemma skips_want all p : skips t all p = true -> pwant p = true.
  Proof. unfold skips. destruct (skipmantissaunity t); [discriminate| |]; intros H; now apply andb_true_iff in H. Qed.

  (** the facts known about the parts of a tick *)
  Definition outlying (r : rational) : Prop :=
    exists s m e, decompose (base t) r = Some (s, m, e) /\ ~ (- minnegexponent t < e < minexponent t).

  Lemma wantexponent_spec e : wantexponent t e = true <-> ~ (- minnegexponent t < e < minexponent t).
  Proof. unfold wantexponent. destruct (Z.ltb_spec (- minnegexponent t) e), (Z.ltb_spec e (minexponent t)); cbn; split; intros; try lia; try discriminate. Qed.

  Definition partof (ticks : list rational) (r : rational) (p : part) : Prop :=
    ppos p = r /\ decompose (base t) r = Some (psign p, pmantissa p, pexponent p) /\
    (pwant p = true <-> outlying r \/ (uniformexponent t = true /\ num r <> 0 /\ exists r', In r' ticks /\ outlying r')).

  Lemma parts_spec ticks ps0 : sequence (map (exp_part t) ticks) = Some ps0 ->
    Forall2 (partof ticks) ticks (uniform t ps0).
  Proof.
    intros H. apply sequence_inv in H.
    assert (Forall2 (fun r p => ppos p = r /\ decompose (base t) r = Some (psign p, pmantissa p, pexponent p) /\
              (pwant p = true <-> outlying r)) ticks ps0) as F.
    { eapply Forall2_impl; [|exact H]. intros r p E. unfold exp_part in E.
      destruct (decompose (base t) r) as [[[s m] e]|] eqn:D; [|discriminate]. injection E as <-. cbn.
      split; auto. split; auto. rewrite wantexponent_spec. unfold outlying. split.
      - intros N. exists s, m, e. auto.
      - intros (s' & m' & e' & D' & N). rewrite D in D'. now injection D' as <- <- <-. }
    assert (existsb pwant ps0 = true <-> exists r', In r' ticks /\ outlying r') as Ex.
    { clear H. rewrite existsb_exists. split.
      - intros (p & Hp & W). induction F as [|r p' rs ps (A & B & C) F IH]; [easy|]. destruct Hp as [->|Hp].
        + exists r. split; [now left|]. now apply C.
        + destruct (IH Hp) as (r' & Hr & O). exists r'. split; [now right|auto].
      - intros (r & Hr & O). induction F as [|r' p' rs ps (A & B & C) F IH]; [easy|]. destruct Hr as [->|Hr].
        + exists p'. split; [now left|]. now apply C.
        + destruct (IH Hr) as (p & Hp & W). exists p. split; [now right|auto]. }
    unfold uniform. destruct (uniformexponent t) eqn:U; cbn [andb].
    - destruct (existsb pwant ps0) eqn:X.
      + clear H. assert (exists r', In r' ticks /\ outlying r') as O by (now apply Ex). clear Ex X.
        assert (forall tks qs, Forall2 (fun r p => ppos p = r /\ decompose (base t) r = Some (psign p, pmantissa p, pexponent p) /\
              (pwant p = true <-> outlying r)) tks qs -> Forall2 (partof ticks) tks (map (fun p => if num (ppos p) =? 0 then p
                     else mkpart (ppos p) (psign p) (pmantissa p) (pexponent p) true) qs)) as G; [|now apply G].
        clear F. induction 1 as [|r p rs ps (A & B & C) F IH]; cbn [map]; constructor; auto.
        unfold partof.
        destruct (num (ppos p) =? 0) eqn:Z0.
        * split; auto. split; auto. rewrite C. apply Z.eqb_eq in Z0. rewrite A in Z0.
          split; [auto|]. intros [|(_ & N & _)]; [auto|congruence].
        * cbn. split; auto. split; auto. apply Z.eqb_neq in Z0. rewrite A in Z0. split; auto.
      + eapply Forall2_impl; [|exact F]. intros r p (A & B & C). split; auto. split; auto. rewrite C.
        split; auto. intros [|(_ & _ & E)]; auto. apply Ex in E. congruence.
    - eapply Forall2_impl; [|exact F]. intros r p (A & B & C). split; auto. split; auto. rewrite C.
      split; auto. intros [|(E & _)]; auto. congruence.
  Qed.

  Lemma partof_value ticks r p : (1 < base t)%Q -> denom r <> 0 -> partof ticks r p ->
    (valQ r == inject_Z (psign p) * pmantissa p * Qpower (base t) (pexponent p))%Q /\
    (num r = 0 -> psign p = 1 /\ pexponent p = 0) /\
    (num r <> 0 -> (1 <= pmantissa p < base t)%Q /\ (psign p = -1 <-> (valQ r < 0)%Q)) /\ (psign p = 1 \/ psign p = -1).
  Proof.
    intros Hb Hd (A & D & _). destruct (Z.eq_dec (num r) 0) as [Z0|N0].
    - unfold decompose in D. rewrite Z0 in D. cbn in D. injection D as <- <- <-.
      split; [|split; [auto|split; [congruence|auto]]]. unfold valQ, fracQ. rewrite Z0. change (inject_Z 0) with 0%Q.
      change (inject_Z 1) with 1%Q. cbn [Qpower]. unfold Qdiv. ring.
    - destruct (decompose_spec _ _ Hb Hd N0) as (s & m & e & E & S1 & S2 & M & V). rewrite E in D.
      injection D as <- <- <-. split; auto. split; [congruence|]. auto.
  Qed.

  (** all numbers which have to be formatted are formatted exactly *)
  Definition exact_on (r : rational) : Prop := forall s m e, decompose (base t) r = Some (s, m, e) ->
    exact (inject_Z s * m) /\ exact (inject_Z e).

  Lemma exact_denotes dt ticks labels N (xs : list Q) : Forall2 (fun r x => (valQ r == x)%Q) ticks xs ->
    Forall2 (fun r l => exists k, tdenotes dt k l (valQ r) /\ (equalprecision dt = true -> k = None \/ k = Some N)) ticks labels ->
    Forall2 (fun x l => exists k, tdenotes dt k l x) xs labels.
  Proof.
    intros F. revert labels. induction F as [|r x rs xs E F IH]; intros labels G; inversion G; subst; constructor; auto.
    destruct H1 as (k & D & _). exists k. now apply (tdenotes_eq _ _ _ (valQ r)).
  Qed.

  Lemma Forall2_map_r {A B C} (P : A -> C -> Prop) (f : B -> C) l1 l2 : Forall2 P l1 (map f l2) <-> Forall2 (fun a b => P a (f b)) l1 l2.
  Proof.
    split.
    - revert l1. induction l2; intros l1 H; inversion H; subst; constructor; auto.
    - induction 1; simpl; constructor; auto.
  Qed.
  Lemma Forall2_map_l {A B C} (P : C -> B -> Prop) (f : A -> C) l1 l2 : Forall2 P (map f l1) l2 <-> Forall2 (fun a b => P (f a) b) l1 l2.
  Proof.
    split.
    - revert l2. induction l1; intros l2 H; inversion H; subst; constructor; auto.
    - induction 1; simpl; constructor; auto.
  Qed.
  Lemma Forall2_flip {A B} (P : A -> B -> Prop) l1 l2 : Forall2 P l1 l2 -> Forall2 (fun b a => P a b) l2 l1.
  Proof. induction 1; constructor; auto. Qed.
  Lemma Forall2_right {A B} (P : A -> B -> Prop) l1 l2 : Forall2 P l1 l2 -> forall b, In b l2 -> exists a, In a l1 /\ P a b.
  Proof. induction 1 as [|a b l1 l2 H F IH]; [easy|]. intros b' [<-|Hb]; [exists a; simpl; auto|]. destruct (IH b' Hb) as (a' & I & Pa). exists a'. simpl; auto. Qed.
  Lemma Forall2_trans {A B C} (P : A -> B -> Prop) (Q : B -> C -> Prop) (R : A -> C -> Prop) l1 l2 l3 :
    (forall a b c, P a b -> Q b c -> R a c) -> Forall2 P l1 l2 -> Forall2 Q l2 l3 -> Forall2 R l1 l3.
  Proof.
    intros H F. revert l3. induction F; intros l3 G; inversion G; subst; constructor; eauto.
  Qed.

  (** labels of a list of values handed over to a decimal texter *)
  Lemma formatted_labels {A} dt (f : A -> option rational) (v : A -> Q) l : thousandthpartsep dt = [] ->
    (forall a, In a l -> exists r, f a = Some r /\ denom r <> 0 /\ (valQ r == v a)%Q) ->
    exists ts labels, sequence (map f l) = Some ts /\ decimal_labels dt ts = Some labels /\
      Forall2 (fun a s => exists k, tdenotes dt k s (v a)) l labels.
  Proof.
    intros Ht H. destruct (sequence_Some f l) as (ts & Es & Fs).
    { intros a Ha. destruct (H a Ha) as (r & E & _). eauto. }
    assert (Forall2 (fun a r => denom r <> 0 /\ (valQ r == v a)%Q) l ts) as Fv.
    { eapply Forall2_In; [|exact Fs]. intros a r Ia _ E. destruct (H a Ia) as (r' & E' & D & V). rewrite E in E'. injection E' as <-. auto. }
    destruct (decimal_labels_exact dt ts) as (labels & N & El & Fl); auto.
    { clear - Fv. induction Fv as [|a r l ts (D & _) F IH]; constructor; auto. }
    exists ts, labels. split; auto. split; auto.
    apply Forall2_trans with (2 := Fv) (3 := Fl). intros a r s (D & V) (k & T & _). exists k. now apply (tdenotes_eq _ _ _ (valQ r)).
  Qed.

  Lemma default_labels_spec ticks : (1 < base t)%Q ->
    thousandthpartsep (mantissatexter t) = [] -> thousandthpartsep (basetexter t) = [] ->
    thousandthpartsep (exponenttexter t) = [] -> exact (base t) ->
    Forall (fun r => denom r <> 0) ticks -> Forall exact_on ticks ->
    exists labels, default_labels fmt t ticks = Some labels /\
      Forall2 (fun r l => ldenotes l (valQ r) /\
        (is_exp l = true <-> outlying r \/ (uniformexponent t = true /\ num r <> 0 /\ exists r', In r' ticks /\ outlying r')))
        ticks labels.
  Proof.
    intros Hb Tm Tb Te Xb Hd Hx. unfold default_labels.
    destruct (sequence_Some (exp_part t) ticks) as (ps0 & E0 & _).
    { intros r Hr. rewrite Forall_forall in Hd. specialize (Hd r Hr). unfold exp_part.
      destruct (Z.eq_dec (num r) 0) as [Z0|N0].
      - unfold decompose. rewrite Z0. cbn. eauto.
      - destruct (decompose_spec _ _ Hb Hd N0) as (s & m & e & E & _). rewrite E. eauto. }
    rewrite E0. pose proof (parts_spec ticks ps0 E0) as P. set (ps := uniform t ps0) in *.
    destruct (formatted_labels (basetexter t) (as_tick fmt) (fun x => x) [base t] Tb) as (bts & bls & Eb1 & Eb2 & Fb).
    { intros x [<-|[]]. now apply as_tick_exact. }
    cbn [map sequence] in Eb1. destruct (as_tick fmt (base t)) as [bt|]; [|discriminate]. injection Eb1 as <-.
    inversion Fb as [|? bl ? ? (kb & Db) Fb0]; subst. inversion Fb0; subst.
    assert (forall p, In p ps -> exists r, In r ticks /\ partof ticks r p) as Back by (apply Forall2_right; exact P).
    rewrite Forall_forall in Hd, Hx.
    destruct (formatted_labels (mantissatexter t) (mantissa_tick fmt t ps)
      (fun p => if pwant p then inject_Z (psign p) * pmantissa p else valQ (ppos p))%Q
      (filter (fun p => negb (skips t ps p)) ps) Tm) as (mts & mls & Em1 & Em2 & Fm).
    { intros p Hp. apply filter_In in Hp. destruct Hp as [Hp _]. destruct (Back p Hp) as (r & Ir & A & D & W).
      unfold mantissa_tick. destruct (pwant p).
      - apply as_tick_exact. now apply (Hx r Ir _ _ _ D).
      - exists (ppos p). split; auto. rewrite A. split; [auto|reflexivity]. }
    destruct (formatted_labels (exponenttexter t) (fun p => as_tick fmt (inject_Z (pexponent p)))
      (fun p => inject_Z (pexponent p)) (filter pwant ps) Te) as (ets & els & Ee1 & Ee2 & Fe).
    { intros p Hp. apply filter_In in Hp. destruct Hp as [Hp _]. destruct (Back p Hp) as (r & Ir & A & D & W).
      apply as_tick_exact. now apply (Hx r Ir _ _ _ D). }
    rewrite Em1, Ee1, Eb2, Em2, Ee2. eexists. split; [reflexivity|].
    pose proof (assemble_spec ps ps bl mls els _ _ Fm Fe (skips_want ps)) as F.
    assert (Forall2 (fun p l => In p ps /\ match l with
       | DPlain s => pwant p = false /\ (exists k, tdenotes (mantissatexter t) k s (if pwant p then inject_Z (psign p) * pmantissa p else valQ (ppos p))%Q)
       | DExp (Some ml) sg b el => pwant p = true /\ b = bl /\ (exists k, tdenotes (mantissatexter t) k ml (if pwant p then inject_Z (psign p) * pmantissa p else valQ (ppos p))%Q)
           /\ (exists k, tdenotes (exponenttexter t) k el (inject_Z (pexponent p))) /\ skips t ps p = false
       | DExp None sg b el => pwant p = true /\ b = bl /\ sg = psign p /\ (exists k, tdenotes (exponenttexter t) k el (inject_Z (pexponent p))) /\ skips t ps p = true
       end) ps (assemble t ps ps bl mls els)) as F' by (eapply Forall2_In; [|exact F]; auto). clear F.
    assert (Forall2 (fun r p => In r ticks /\ partof ticks r p) ticks ps) as P' by (eapply Forall2_In; [|exact P]; auto).
    apply Forall2_trans with (2 := P') (3 := F').
    intros r p l (Ir & Pr) (Ip & L). pose proof (partof_value _ _ _ Hb (Hd r Ir) Pr) as (V & _ & _ & _).
    destruct Pr as (A & D & W). rewrite <- W. split.
    - destruct l as [s|[ml|] sg b el]; cbn [ldenotes].
      + destruct L as (L1 & k & T). rewrite L1 in T. exists k. now rewrite A in T.
      + destruct L as (L1 & -> & (k & T) & (ke & Te') & _). rewrite L1 in T. exists kb, (base t), ke, (pexponent p).
        split; auto. split; auto. exists k, (inject_Z (psign p) * pmantissa p)%Q. split; auto.
      + destruct L as (L1 & -> & -> & (ke & Te') & Sk). exists kb, (base t), ke, (pexponent p). split; auto. split; auto.
        destruct (skips_spec ps p Ip Sk) as [_ M1]. rewrite V, M1. ring.
    - destruct l as [s|[ml|] sg b el]; cbn [is_exp]; destruct L as (L1 & _); rewrite L1; split; auto; discriminate.
  Qed.
End DefaultProofs.
