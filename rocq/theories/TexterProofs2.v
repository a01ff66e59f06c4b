From Coq Require Import String Ascii ZArith QArith Qpower Qabs Bool List Lia ZifyBool Arith.
From Verif Require Import TickModel TickSpec TickProofs TickProofs2 TexterModel TexterSpec TexterProofs.
Import ListNotations.
Ltac Zify.zify_post_hook ::= Z.div_mod_to_equations.
Open Scope Z_scope.

Definition tdenotes (t : decimaltexter) := denotes (dprefix t) (dinfix t) (dsuffix t) (dplus t) (dminus t)
  (decimalsep t) (thousandsep t) (thousandthpartsep t) (period_before t) (period_behind t).

(** ** zeros *)
Lemma zeros_plain t : thousandthpartsep t = [] -> forall k i, zeros t i k = repeat "0"%char k.
Proof.
  intros H. induction k as [|k IH]; intros i; auto. cbn [zeros repeat]. rewrite H, IH. now destruct (_ && _).
Qed.

Lemma digits_zeros k : digits_value (repeat "0"%char k) 0.
Proof.
  induction k as [|k IH]; [constructor|]. cbn [repeat]. rewrite repeat_cons.
  apply (dv_snoc _ 0 "0"%char 0); auto. exists O. repeat split. lia.
Qed.

Lemma grouped_left_id f : grouped_left [] f f.
Proof.
  induction f as [f IH] using (well_founded_induction (Wf_nat.well_founded_ltof _ (@length ascii))).
  destruct (le_lt_dec (length f) 3); [now constructor|].
  destruct f as [|a [|b [|c f]]]; try (simpl in *; lia).
  apply (gl_more [] f f a b c); [destruct f; simpl in *; [lia|discriminate]|]. apply IH. unfold ltof. simpl. lia.
Qed.

Lemma pow10_shift v n k : (inject_Z (v * 10 ^ Z.of_nat k) * pow10 (- Z.of_nat (n + k)) == inject_Z v * pow10 (- Z.of_nat n))%Q.
Proof.
  unfold pow10. rewrite !Qpower_opp. rewrite Nat2Z.inj_add, Qpower_plus by discriminate.
  rewrite inject_Z_mult, Zpower_Qpower by lia. change (inject_Z 10) with 10%Q.
  assert (forall z, ~ (Qpower 10 z == 0)%Q) as N by (intros; apply Qpower_not_0; discriminate).
  field. split; apply N.
Qed.

(** ** padding *)
Lemma pad_spec t mx ip fp k q : thousandthpartsep t = [] \/ equalprecision t = false ->
  (forall p, k = Some p -> 0 <= p <= mx) ->
  frac_part (decimalsep t) (thousandthpartsep t) (period_before t) (period_behind t) fp (option_map Z.to_nat k) q ->
  exists fp' k' q', pad t mx (ip ++ fp, k) = ip ++ fp' /\
    frac_part (decimalsep t) (thousandthpartsep t) (period_before t) (period_behind t) fp' k' q' /\ (q' == q)%Q /\
    (k = None <-> k' = None) /\ (equalprecision t = true -> k <> None -> k' = Some (Z.to_nat mx)).
Proof.
  intros Ht Hk F. unfold pad. destruct k as [p|].
  2:{ exists fp, None, q. split; auto. split; auto. split; [reflexivity|]. split; [tauto|]. congruence. }
  destruct (equalprecision t) eqn:Eq.
  2:{ exists fp, (Some (Z.to_nat p)), q. split; auto. split; auto. split; [reflexivity|]. split; [split; discriminate|]. discriminate. }
  destruct Ht as [Ht|]; [|discriminate]. rewrite zeros_plain by auto. specialize (Hk p eq_refl).
  cbn [option_map] in F.
  inversion F as [E1 E2 E3|f g v N V G E1 E2 E3|]; subst.
  - assert (p = 0) as -> by lia. cbn [Z.eqb andb]. rewrite Z.sub_0_r, app_nil_r. destruct (Z.ltb_spec 0 mx).
    + exists (decimalsep t ++ repeat "0"%char (Z.to_nat mx)), (Some (Z.to_nat mx)), (inject_Z 0 * pow10 (- Z.of_nat (length (repeat "0"%char (Z.to_nat mx)))))%Q.
      split; auto. split.
      * rewrite <- (repeat_length "0"%char (Z.to_nat mx)) at 2. apply fp_finite.
        -- destruct (Z.to_nat mx) eqn:E; [lia|discriminate].
        -- apply digits_zeros.
        -- rewrite Ht. apply grouped_left_id.
      * split; [apply Qmult_0_l|]. split; [split; discriminate|auto].
    + assert (mx = 0) as -> by lia. exists [], (Some O), 0%Q. simpl. split; auto. split; [constructor|].
      split; [reflexivity|]. split; [split; discriminate|auto].
  - rewrite Ht in G. apply grouped_left_nil in G. subst g.
    assert (p =? 0 = false) as -> by (destruct f; simpl in *; [congruence|lia]). cbn [andb].
    set (z := Z.to_nat (mx - p)).
    exists (decimalsep t ++ f ++ repeat "0"%char z), (Some (length (f ++ repeat "0"%char z))),
      (inject_Z (v * 10 ^ Z.of_nat (length (repeat "0"%char z)) + 0) * pow10 (- Z.of_nat (length (f ++ repeat "0"%char z))))%Q.
    split; [now rewrite <- !app_assoc|]. split.
    + apply fp_finite.
      * destruct f; [congruence|discriminate].
      * apply digits_value_app; auto. apply digits_zeros.
      * rewrite Ht. apply grouped_left_id.
    + split; [|split; [split; discriminate|]].
      * rewrite Z.add_0_r, app_length. apply pow10_shift.
      * intros _ _. f_equal. rewrite app_length, repeat_length. unfold z. lia.
Qed.

(** ** signs *)
Lemma sign_value r : denom r <> 0 -> (num r * denom r < 0 <-> (valQ r < 0)%Q).
Proof.
  intros Hd. unfold valQ, fracQ. assert (~ inject_Z (denom r) == 0)%Q as N by (now apply inject_nz).
  set (n := num r) in *. set (d := denom r) in *.
  setoid_replace (inject_Z n / inject_Z d)%Q with (inject_Z (n * d) / inject_Z (d * d))%Q by (rewrite !inject_Z_mult; field; auto).
  assert (0 < d * d) as P by nia. destruct (d * d) as [|p|p]; try lia.
  change (inject_Z (Z.pos p)) with (Z.pos p # 1)%Q. unfold Qdiv, Qinv, Qmult, Qlt, inject_Z; simpl. lia.
Qed.

Lemma decorate_spec t r mx lab k ip fp q vi :
  denom r <> 0 -> thousandthpartsep t = [] \/ equalprecision t = false ->
  (forall p, k = Some p -> 0 <= p <= mx) -> lab = ip ++ fp -> int_part (thousandsep t) ip vi ->
  frac_part (decimalsep t) (thousandthpartsep t) (period_before t) (period_behind t) fp (option_map Z.to_nat k) q ->
  (inject_Z vi + q == Qabs (valQ r))%Q ->
  exists k', tdenotes t k' (decorate t r (pad t mx (lab, k))) (valQ r) /\ (k = None <-> k' = None) /\
    (equalprecision t = true -> k <> None -> k' = Some (Z.to_nat mx)).
Proof.
  intros Hd Ht Hk -> Hi Hf V. destruct (pad_spec t mx ip fp k q Ht Hk Hf) as (fp' & k' & q' & E & F & Eq & K1 & K2).
  exists k'. split; [|auto]. rewrite E. unfold decorate, tdenotes, denotes.
  exists (if num r * denom r <? 0 then dminus t else dplus t), ip, fp', vi, q'.
  split; [now rewrite <- app_assoc|]. split; auto. split; auto.
  pose proof (sign_value r Hd) as S. destruct (Z.ltb_spec (num r * denom r) 0) as [L|L].
  - left. split; auto. apply S in L. split; auto. rewrite Eq, V, Qabs_neg by (now apply Qlt_le_weak). ring.
  - right. split; auto. assert (0 <= valQ r)%Q as P.
    { apply Qnot_lt_le. intros C. apply S in C. lia. }
    split; auto. rewrite Eq, V, Qabs_pos by auto. reflexivity.
Qed.

(** ** lists *)
Lemma sequence_Some {A B} (f : A -> option B) l : (forall x, In x l -> exists y, f x = Some y) ->
  exists r, sequence (map f l) = Some r /\ Forall2 (fun x y => f x = Some y) l r.
Proof.
  induction l as [|x l IH]; intros H; simpl.
  - exists []. auto.
  - destruct (H x) as (y & E); [now left|]. destruct IH as (r & E1 & F); [intros; apply H; now right|].
    rewrite E, E1. exists (y :: r). split; auto.
Qed.

Lemma sequence_inv {A B} (f : A -> option B) l r : sequence (map f l) = Some r -> Forall2 (fun x y => f x = Some y) l r.
Proof.
  revert r. induction l as [|x l IH]; simpl; intros r H; [injection H as <-; constructor|].
  destruct (f x) as [y|] eqn:E; [|discriminate]. destruct (sequence (map f l)) as [r'|]; [|discriminate].
  injection H as <-. constructor; auto.
Qed.

Lemma maxprec_ge bodies lab p : In (lab, Some p) bodies -> p <= maxprec bodies.
Proof.
  unfold maxprec. generalize 0.
  assert (forall (bodies : list (text * option Z)) m, m <= fold_left (fun m b => match snd b with Some p => if m <? p then p else m | None => m end) bodies m) as Mono.
  { induction bodies0 as [|[l [x|]] bs IH]; intros m; simpl; try lia; auto.
    specialize (IH (if m <? x then x else m)). destruct (Z.ltb_spec m x); lia. }
  revert lab p. induction bodies as [|b bs IH]; intros lab p m H; [easy|]. simpl. destruct H as [->|H].
  - simpl. specialize (Mono bs (if m <? p then p else m)). destruct (Z.ltb_spec m p); lia.
  - eapply IH; eauto.
Qed.

Lemma Forall2_combine_map {A B C} (P : A -> C -> Prop) (f : A * B -> C) l1 l2 :
  Forall2 (fun a b => P a (f (a, b))) l1 l2 -> Forall2 P l1 (map f (combine l1 l2)).
Proof. induction 1; simpl; constructor; auto. Qed.

Lemma Forall2_In {A B} (P Q : A -> B -> Prop) l1 l2 :
  (forall a b, In a l1 -> In b l2 -> P a b -> Q a b) -> Forall2 P l1 l2 -> Forall2 Q l1 l2.
Proof.
  intros H F. induction F as [|a b l1 l2 Hab F IH]; constructor.
  - apply H; simpl; auto.
  - apply IH. intros. apply H; simpl; auto.
Qed.

Lemma decimal_labels_spec t ticks : Forall (fun r => denom r <> 0) ticks ->
  exists bodies, sequence (map (decimal_body t) ticks) = Some bodies /\
    Forall2 (fun r b => decimal_body t r = Some b) ticks bodies /\
    decimal_labels t ticks = Some (map (fun rb => decorate t (fst rb) (pad t (maxprec bodies) (snd rb))) (combine ticks bodies)).
Proof.
  intros H. destruct (sequence_Some (decimal_body t) ticks) as (bodies & E & F).
  { intros r Hr. rewrite Forall_forall in H. destruct (decimal_body_spec t r (H r Hr)) as (lab & k & E & _). eauto. }
  exists bodies. split; auto. split; auto. unfold decimal_labels. now rewrite E.
Qed.

Lemma decimal_labels_exact t ticks : Forall (fun r => denom r <> 0) ticks -> thousandthpartsep t = [] ->
  exists labels N, decimal_labels t ticks = Some labels /\
    Forall2 (fun r l => exists k, tdenotes t k l (valQ r) /\
       (equalprecision t = true -> k = None \/ k = Some N)) ticks labels.
Proof.
  intros H Ht. destruct (decimal_labels_spec t ticks H) as (bodies & E & F & EL).
  exists (map (fun rb => decorate t (fst rb) (pad t (maxprec bodies) (snd rb))) (combine ticks bodies)), (Z.to_nat (maxprec bodies)).
  split; auto. apply Forall2_combine_map. eapply Forall2_In; [|exact F]. intros r [lab k] Hr Hb Eb. cbn [fst snd].
  rewrite Forall_forall in H. destruct (decimal_body_spec t r (H r Hr)) as (lab' & k' & E' & P & NT & Q).
  rewrite Eb in E'. injection E' as <- <-. destruct Q as (ip & fp & q & vi & -> & I & Fp & V); auto.
  destruct (decorate_spec t r (maxprec bodies) (ip ++ fp) k ip fp q vi) as (k' & D & K1 & K2); auto.
  - intros p ->. split; auto. now apply maxprec_ge with (ip ++ fp).
  - exists k'. split; auto. intros Eq. destruct k; [right; apply K2; auto; discriminate|left; tauto].
Qed.


Lemma frac_part_terminating dsep tsep pb pa fp k q vi r : frac_part dsep tsep pb pa fp (Some k) q ->
  (inject_Z vi + q == Qabs r)%Q -> terminating r.
Proof.
  intros F V.
  assert (exists K z, 0 <= K /\ (Qabs r * inject_Z (10 ^ K) == inject_Z z)%Q) as (K & z & HK & E).
  { inversion F; subst.
    - exists 0, vi. split; [lia|]. rewrite <- V. rewrite Qplus_0_r. apply Qmult_1_r.
    - exists (Z.of_nat (length f)), (vi * 10 ^ Z.of_nat (length f) + v). split; [lia|]. rewrite <- V.
      rewrite inject_Z_plus, inject_Z_mult. unfold pow10. rewrite Qpower_opp, Zpower_Qpower by lia.
      change (inject_Z 10) with 10%Q. field. apply Qpower_not_0. discriminate. }
  destruct (Qlt_le_dec r 0) as [L|L].
  - exists K, (- z). split; auto. rewrite inject_Z_opp, <- E, Qabs_neg by (now apply Qlt_le_weak). ring.
  - exists K, z. split; auto. rewrite <- E, Qabs_pos by auto. reflexivity.
Qed.

Lemma decimal_labels_finite t ticks : Forall (fun r => denom r <> 0) ticks -> equalprecision t = false ->
  exists labels, decimal_labels t ticks = Some labels /\
    Forall2 (fun r l => terminating (valQ r) -> exists k, tdenotes t (Some k) l (valQ r)) ticks labels.
Proof.
  intros H He. destruct (decimal_labels_spec t ticks H) as (bodies & E & F & EL).
  eexists. split; [exact EL|]. apply Forall2_combine_map. eapply Forall2_In; [|exact F]. intros r [lab k] Hr Hb Eb. cbn [fst snd].
  intros T. rewrite Forall_forall in H. destruct (decimal_body_spec t r (H r Hr)) as (lab' & k' & E' & P & NT & Q).
  rewrite Eb in E'. injection E' as <- <-. assert (k <> None) as Nk by tauto.
  destruct Q as (ip & fp & q & vi & -> & I & Fp & V); auto.
  destruct (decorate_spec t r (maxprec bodies) (ip ++ fp) k ip fp q vi) as (k' & D & K1 & K2); auto.
  - intros p ->. split; auto. now apply maxprec_ge with (ip ++ fp).
  - destruct k' as [k'|]; [exists k'; auto|]. tauto.
Qed.

Lemma decimal_labels_period t ticks : Forall (fun r => denom r <> 0) ticks -> thousandthpartsep t = [] ->
  exists labels N, decimal_labels t ticks = Some labels /\
    Forall2 (fun r l => (terminating (valQ r) -> exists k, tdenotes t (Some k) l (valQ r) /\ (equalprecision t = true -> k = N)) /\
                        (~ terminating (valQ r) -> tdenotes t None l (valQ r))) ticks labels.
Proof.
  intros H Ht. destruct (decimal_labels_spec t ticks H) as (bodies & E & F & EL).
  eexists. exists (Z.to_nat (maxprec bodies)). split; [exact EL|]. apply Forall2_combine_map. eapply Forall2_In; [|exact F]. intros r [lab k] Hr Hb Eb. cbn [fst snd].
  rewrite Forall_forall in H. destruct (decimal_body_spec t r (H r Hr)) as (lab' & k' & E' & P & NT & Q).
  rewrite Eb in E'. injection E' as <- <-. destruct Q as (ip & fp & q & vi & -> & I & Fp & V); auto.
  destruct (decorate_spec t r (maxprec bodies) (ip ++ fp) k ip fp q vi) as (k' & D & K1 & K2); auto.
  { intros p ->. split; auto. now apply maxprec_ge with (ip ++ fp). }
  split; intros T.
  - destruct k' as [k'|]; [exists k'; split; auto|].
    + intros Eq. destruct k as [p|]; [|tauto]. assert (Some k' = Some (Z.to_nat (maxprec bodies))) as G by (apply K2; auto; discriminate).
      congruence.
    + tauto.
  - destruct k as [p|].
    + exfalso. apply T. eapply frac_part_terminating; eauto.
    + destruct k'; [|auto]. destruct K1 as [K1 _]. discriminate (K1 eq_refl).
Qed.

(** ** keeping labels *)
Lemma set_labels_spec (P : ltick -> text -> Prop) ticks labels :
  Forall2 P (filter wants_label ticks) labels ->
  Forall2 (fun k k' => lpos k' = lpos k /\ llevel k' = llevel k /\
     (wants_label k = false -> llabel k' = llabel k) /\
     (wants_label k = true -> exists s, llabel k' = Some s /\ P k s)) ticks (set_labels ticks labels).
Proof.
  revert labels. induction ticks as [|k ticks IH]; intros labels H; cbn [set_labels]; [constructor|].
  cbn [filter] in H. destruct (wants_label k) eqn:W.
  - inversion H; subst. constructor; auto. cbn. repeat split; auto; [congruence|]. eauto.
  - constructor; auto. repeat split; auto. congruence.
Qed.

(** ** gcd and lcm *)
Lemma gcd_loop_spec fuel i j : 0 <= i -> 0 <= j -> (Z.to_nat j < fuel)%nat -> gcd_loop fuel i j = Some (Z.gcd i j).
Proof.
  revert i j. induction fuel as [|f IH]; intros i j Hi Hj Hf; [lia|]. cbn [gcd_loop].
  destruct (Z.ltb_spec 0 j).
  - pose proof (Z.mod_pos_bound i j H). rewrite IH by lia. f_equal. rewrite (Z.gcd_comm i j).
    now rewrite <- (Z.gcd_mod i j) at 1 by lia; rewrite Z.gcd_comm.
  - assert (j = 0) as -> by lia. rewrite Z.gcd_0_r. f_equal. lia.
Qed.

Lemma gcd2_spec i j : 0 <= i -> 0 <= j -> gcd2 i j = Some (Z.gcd i j).
Proof.
  intros Hi Hj. unfold gcd2. destruct (i <? j).
  - rewrite gcd_loop_spec by lia. now rewrite Z.gcd_comm.
  - apply gcd_loop_spec; lia.
Qed.

Lemma lcm_fold l : forall x, 0 < x -> Forall (fun d => 0 < d) l ->
  exists m, fold_left lcm_step l (Some x) = Some m /\ 0 < m /\ (forall c, (m | c) <-> ((x | c) /\ Forall (fun d => (d | c)) l)).
Proof.
  induction l as [|d l IH]; intros x Hx F; simpl.
  - exists x. split; auto. split; auto. intros c. split; [intros; split; auto|tauto].
  - inversion F; subst. rewrite gcd2_spec by lia.
    assert (0 < Z.gcd x d) as G.
    { pose proof (Z.gcd_nonneg x d). destruct (Z.eq_dec (Z.gcd x d) 0) as [E|]; [apply Z.gcd_eq_0_l in E; lia|lia]. }
    replace (Z.gcd x d =? 0) with false by lia.
    assert (x * d / Z.gcd x d = Z.lcm x d) as E.
    { unfold Z.lcm. destruct (Z.gcd_divide_r x d) as [k Hk].
      assert (d / Z.gcd x d = k) as -> by (rewrite Hk at 1; apply Z.div_mul; lia).
      rewrite Hk at 1. rewrite Z.mul_assoc, Z.div_mul by lia.
      rewrite Z.abs_eq; [auto|]. nia. }
    rewrite E.
    assert (0 < Z.lcm x d) as L.
    { pose proof (Z.lcm_nonneg x d). destruct (Z.eq_dec (Z.lcm x d) 0) as [E0|]; [apply Z.lcm_eq_0 in E0; lia|lia]. }
    destruct (IH (Z.lcm x d) L H2) as (m & E1 & P & D). exists m. split; auto. split; auto.
    intros c. rewrite D. split.
    + intros (A & B). split; [apply Z.divide_trans with (Z.lcm x d); auto; apply Z.divide_lcm_l|].
      constructor; auto. apply Z.divide_trans with (Z.lcm x d); auto. apply Z.divide_lcm_r.
    + intros (A & B). inversion B; subst. split; auto. now apply Z.lcm_least.
Qed.

Lemma reduce_spec r : denom r <> 0 -> exists p, reduce r = Some p /\ 0 <= rnum p /\ 0 < rdenom p /\
  Z.gcd (rnum p) (rdenom p) = 1 /\ (rsign p = 1 \/ rsign p = -1) /\ (num r <> 0 -> rsign p = -1 <-> (valQ r < 0)%Q) /\
  (valQ r == inject_Z (rsign p) * fracQ (rnum p) (rdenom p))%Q.
Proof.
  intros Hd. unfold reduce. rewrite gcd2_spec by lia. set (n := Z.abs (num r)). set (d := Z.abs (denom r)).
  set (g := Z.gcd n d). assert (0 < g) as G.
  { pose proof (Z.gcd_nonneg n d). destruct (Z.eq_dec g 0) as [E|]; [apply Z.gcd_eq_0_r in E; lia|unfold g in *; lia]. }
  replace (g =? 0) with false by lia. eexists. split; [reflexivity|]. cbn [rnum rdenom rsign].
  destruct (Z.gcd_divide_l n d) as [a Ha], (Z.gcd_divide_r n d) as [b Hb]. fold g in Ha, Hb.
  assert (n / g = a) as Ea by (rewrite Ha at 1; apply Z.div_mul; lia).
  assert (d / g = b) as Eb by (rewrite Hb at 1; apply Z.div_mul; lia).
  rewrite Ea, Eb. assert (0 <= n) by lia. assert (0 < d) by lia.
  split; [nia|]. split; [nia|]. split.
  { pose proof (Z.gcd_div_gcd n d g ltac:(lia) eq_refl) as C. now rewrite Ea, Eb in C. }
  split; [destruct (num r <? 0), (denom r <? 0); auto|].
  pose proof (sign_value r Hd) as S. split.
  - intros Nz. rewrite <- S. destruct (Z.ltb_spec (num r) 0), (Z.ltb_spec (denom r) 0); split; intros; nia.
  - unfold valQ, fracQ.
    assert (num r * b = (if num r <? 0 then -1 else 1) * (if denom r <? 0 then -1 else 1) * a * denom r) as E.
    { destruct (Z.ltb_spec (num r) 0), (Z.ltb_spec (denom r) 0); nia. }
    assert (~ inject_Z (denom r) == 0)%Q as N1 by (now apply inject_nz).
    assert (~ inject_Z b == 0)%Q as N2 by (apply inject_nz; nia).
    assert (inject_Z (num r) * inject_Z b == inject_Z ((if num r <? 0 then -1 else 1) * (if denom r <? 0 then -1 else 1)) * inject_Z a * inject_Z (denom r))%Q as EQ.
    { rewrite <- !inject_Z_mult. now rewrite E. }
    setoid_replace (inject_Z (num r)) with (inject_Z (num r) * inject_Z b / inject_Z b)%Q by (field; auto).
    rewrite EQ. field. auto.
Qed.
