(** Rational numbers and ticks: parsing (C20), comparison (C21), arithmetic (C22)
    and merging of tick lists (C23). *)
From Coq Require Import String Ascii ZArith QArith Qpower Qabs Bool List Lia ZifyBool Sorted.
From Verif Require Import TickModel TickSpec TickProofs TickProofs2.
Import ListNotations.
Open Scope Z_scope.

Definition chars (s : string) : list ascii := list_ascii_of_string s.
(** the number a rational object stands for *)
Definition value (r : rational) : Q := (inject_Z (num r) / inject_Z (denom r))%Q.

(** C20: what is accepted is a number text and has its value. *)
Theorem string_value_exact : forall s r, new_rational (FromString s) 1 = Some r ->
  denom r <> 0 /\ exists q, number_text s q /\ (value r == q)%Q.
Proof. exact string_sound. Qed.
Print Assumptions string_value_exact.

(** C20: every number text is accepted, with its value. *)
Theorem string_accepted : forall s q, number_text s q ->
  exists r, new_rational (FromString s) 1 = Some r /\ (value r == q)%Q.
Proof. exact string_complete. Qed.
Print Assumptions string_accepted.

Example string_ex : new_rational (FromString (chars " -1.25e-1/+.5 ")) 1 = Some (mkrat (-1250) 5000).
Proof. vm_compute. reflexivity. Qed.

Example string_ex2 : exists q, number_text (chars "-1.5E2") q /\ (q == - (150))%Q /\
  exists r, new_rational (FromString (chars "-1.5E2")) 1 = Some r /\ (value r == - (150))%Q.
Proof.
  exists (-(15 * pow10 (-1) * pow10 2))%Q. split.
  { constructor. apply (dec [] [] ["-"%char] true ["1"%char] ["."; "5"]%char ["5"%char] ["E"; "2"]%char 2 15).
    - constructor.
    - constructor.
    - constructor.
    - constructor.
    - apply (et_some "E"%char [] false ["2"%char] 2); auto using st_none; try discriminate.
      apply (dv_snoc [] 0 "2"%char 2); [constructor|]. exists 2%nat. repeat split; auto. lia.
    - exists 1. apply (dv_snoc [] 0 "1"%char 1); [constructor|]. exists 1%nat. repeat split; auto. lia.
    - exists 5. apply (dv_snoc [] 0 "5"%char 5); [constructor|]. exists 5%nat. repeat split; auto. lia.
    - apply (dv_snoc ["1"%char] 1 "5"%char 5); [apply (dv_snoc [] 0 "1"%char 1); [constructor|]|].
      + exists 1%nat. repeat split; auto. lia.
      + exists 5%nat. repeat split; auto. lia. }
  split; [reflexivity|]. exists (mkrat (-1500) 10). split; reflexivity.
Qed.

(** C20: strings without any digit are accepted as the number zero. *)
Theorem string_without_digits_refuted :
  ~ (forall s r, new_rational (FromString s) 1 = Some r -> exists c, In c s /\ exists v, digit_value c v).
Proof.
  intros H. destruct (H (chars "+.") (mkrat 0 1)) as (c & Hc & v & n & Hn & E & _); [reflexivity|].
  simpl in Hc. destruct Hc as [<-|[<-|[]]];
    do 10 (destruct n as [|n]; [discriminate E|]); lia.
Qed.
Print Assumptions string_without_digits_refuted.

(** C21: comparison of rationals with positive denominators.  Missing from the
    full statement: rationals with negative denominators, for which it is false. *)
Theorem compare_partial : forall a b, 0 < denom a -> 0 < denom b ->
  (lt a b = true <-> (value a < value b)%Q) /\ (eq a b = true <-> (value a == value b)%Q) /\
  (gt a b = true <-> (value b < value a)%Q) /\ (le a b = true <-> (value a <= value b)%Q) /\
  (ge a b = true <-> (value b <= value a)%Q).
Proof.
  intros a b Ha Hb. change (value a) with (valQ a). change (value b) with (valQ b).
  pose proof (lt_pos a b Ha Hb) as L. pose proof (eq_nz a b ltac:(lia) ltac:(lia)) as E.
  unfold gt, le, ge. repeat split; try tauto.
  - intros H. apply lt_eq_cases; auto; destruct (lt a b), (eq a b); simpl in H; congruence.
  - intros H. destruct (lt a b) eqn:E1.
    + exfalso. apply (Qlt_irrefl (valQ a)). apply Qlt_trans with (valQ b); auto. now apply L.
    + destruct (eq a b) eqn:E2; auto. exfalso. pose proof (proj1 E eq_refl) as E3. rewrite E3 in H.
      now apply Qlt_irrefl in H.
  - intros H. apply orb_true_iff in H. destruct H as [H|H].
    + apply L in H. now apply Qlt_le_weak.
    + apply E in H. rewrite H. apply Qle_refl.
  - intros H. apply orb_true_iff. destruct (Qle_lt_or_eq _ _ H) as [H'|H']; [left; now apply L|right; now apply E].
  - intros H. destruct (Qlt_le_dec (valQ a) (valQ b)) as [H'|]; auto. apply L in H'. rewrite H' in H. discriminate.
  - intros H. destruct (lt a b) eqn:E1; auto. pose proof (proj1 L eq_refl) as H'. exfalso. now apply Qle_not_lt in H.
Qed.
Print Assumptions compare_partial.

Theorem equality_exact : forall a b, denom a <> 0 -> denom b <> 0 -> (eq a b = true <-> (value a == value b)%Q).
Proof. exact eq_nz. Qed.
Print Assumptions equality_exact.

(** C21: numbers without slash give positive denominators, and products keep them. *)
Theorem decimal_denominator : forall s r, ~ In "/"%char s -> new_rational (FromString s) 1 = Some r -> 0 < denom r.
Proof.
  intros s r Hs. unfold new_rational. cbn [Z.eqb]. rewrite split_on_notin by auto.
  destruct (initfromstring s) as [r0|] eqn:E; [|discriminate]. rewrite finish_1.
  pose proof (initfromstring_denom_pos _ _ E). replace (denom r0 =? 0) with false by lia. intros [= <-]. auto.
Qed.
Print Assumptions decimal_denominator.

Theorem product_denominator : forall a b r, 0 < denom a -> 0 < denom b -> rmul a b = Some r -> 0 < denom r.
Proof.
  intros a b r Ha Hb. unfold rmul, new_rational. cbn [Z.eqb]. rewrite finish_1. cbn [denom].
  replace (denom a * denom b =? 0) with false by nia. intros [= <-]. cbn [denom]. nia.
Qed.
Print Assumptions product_denominator.

Example compare_ex : new_rational (FromString (chars "0.1")) 1 = Some (mkrat 1 10) /\
  lt (mkrat 1 10) (mkrat 2 15) = true /\ gt (mkrat (-1) 10) (mkrat (-2) 15) = true /\ eq (mkrat 2 20) (mkrat 1 10) = true.
Proof. repeat split. Qed.

(** C21: for strings with a negative number behind the slash the comparison is inverted. *)
Theorem compare_refuted :
  ~ (forall s1 s2 a b, new_rational (FromString s1) 1 = Some a -> new_rational (FromString s2) 1 = Some b ->
     (lt a b = true <-> (value a < value b)%Q)).
Proof.
  intros H. destruct (H (chars "1/-2") (chars "1") (mkrat 1 (-2)) (mkrat 1 1)) as [_ H2]; try reflexivity.
  assert (lt (mkrat 1 (-2)) (mkrat 1 1) = true) by (apply H2; reflexivity). discriminate.
Qed.
Print Assumptions compare_refuted.

(** C22: products, quotients, absolute values. *)
Theorem product_exact : forall a b, denom a <> 0 -> denom b <> 0 ->
  exists r, rmul a b = Some r /\ denom r <> 0 /\ (value r == value a * value b)%Q.
Proof.
  intros a b Ha Hb. unfold rmul, new_rational. cbn [Z.eqb]. rewrite finish_1. cbn [denom].
  replace (denom a * denom b =? 0) with false by nia. eexists. split; [reflexivity|]. split; [cbn; nia|]. apply frac_mul.
Qed.
Print Assumptions product_exact.

Theorem quotient_exact : forall a b, denom a <> 0 -> denom b <> 0 -> num b <> 0 ->
  exists r, rdiv a b = Some r /\ denom r <> 0 /\ (value r == value a / value b)%Q.
Proof.
  intros a b Ha Hb Hn. unfold rdiv, new_rational. cbn [Z.eqb]. rewrite finish_1. cbn [denom].
  replace (denom a * num b =? 0) with false by nia. eexists. split; [reflexivity|]. split; [cbn; nia|]. apply frac_div.
Qed.
Print Assumptions quotient_exact.

Theorem quotient_by_zero_reported : forall a b, (value b == 0)%Q -> denom b <> 0 -> rdiv a b = None.
Proof.
  intros a b Hv Hb. unfold value, Qdiv in Hv. apply Qmult_integral in Hv.
  apply inject_nz in Hb as Qb.
  destruct Hv as [Hv|Hv].
  - assert (num b = 0) as E by (unfold Qeq in Hv; simpl in Hv; lia).
    unfold rdiv, new_rational. cbn [Z.eqb]. rewrite finish_1. cbn [denom]. rewrite E, Z.mul_0_r. reflexivity.
  - exfalso. apply Qb. rewrite <- (Qinv_involutive (inject_Z (denom b))), Hv. reflexivity.
Qed.
Print Assumptions quotient_by_zero_reported.

Theorem abs_exact : forall a, denom a <> 0 ->
  exists r, rabs a = Some r /\ 0 < denom r /\ (value r == Qabs (value a))%Q.
Proof.
  intros a Ha. unfold rabs, new_rational. cbn [Z.eqb]. rewrite finish_1. cbn [denom].
  replace (Z.abs (denom a) =? 0) with false by lia. eexists. split; [reflexivity|]. split; [cbn; lia|]. apply frac_abs.
Qed.
Print Assumptions abs_exact.

Theorem inplace_exact : forall a b,
  (value (imul a b) == value a * value b)%Q /\ (value (idiv a b) == value a / value b)%Q.
Proof. intros a b. split; [apply frac_mul|apply frac_div]. Qed.
Print Assumptions inplace_exact.

(** C22: integer powers. *)
Theorem power_exact : forall n d p, d <> 0 -> (0 <= p \/ n <> 0) ->
  exists r, new_rational (FromPair n d) p = Some r /\ denom r <> 0 /\
    (value r == Qpower (inject_Z n / inject_Z d) p)%Q.
Proof.
  intros n d p Hd Hn. unfold new_rational. destruct (Z.eqb_spec p 0) as [->|Np].
  - exists (mkrat 1 1). repeat split. discriminate.
  - destruct (finish (mkrat n d) p) as [q|] eqn:E.
    + exists q. split; auto. apply (finish_power (mkrat n d)); auto. destruct Hn; auto. left. lia.
    + unfold finish in E. cbn [denom] in E. replace (d =? 0) with false in E by lia.
      destruct (p =? -1), (p <? -1), (1 <? p); discriminate.
Qed.
Print Assumptions power_exact.

(** C22: powers of numbers written as text. *)
Theorem string_power_exact : forall s q p, number_text s q -> (0 <= p \/ ~ (q == 0)%Q) ->
  exists r, new_rational (FromString s) p = Some r /\ denom r <> 0 /\ (value r == Qpower q p)%Q.
Proof.
  intros s q p Hs Hq. destruct (string_complete s q Hs) as (r & E & V).
  pose proof (proj1 (string_sound s r E)) as Hd.
  assert (exists r0, forall p, p <> 0 -> new_rational (FromString s) p = finish r0 p) as (r0 & F).
  { unfold new_rational in *. cbn [Z.eqb] in E. destruct (split_on "/" s) as [|a [|b [|]]]; try discriminate.
    - destruct (initfromstring a) as [r0|]; try discriminate. exists r0. intros p' Hp. replace (p' =? 0) with false by lia. auto.
    - destruct (initfromstring a) as [r0|]; try discriminate. destruct (initfromstring b) as [r2|]; try discriminate.
      destruct (finish r2 1) as [r2'|]; try discriminate. exists (idiv r0 r2'). intros p' Hp.
      replace (p' =? 0) with false by lia. auto. }
  rewrite F, finish_1 in E by lia. destruct (denom r0 =? 0) eqn:Z0; [discriminate|]. injection E as <-.
  destruct (Z.eq_dec p 0) as [->|Np].
  - exists (mkrat 1 1). repeat split. discriminate.
  - rewrite F by auto. destruct (finish r0 p) as [r1|] eqn:E1.
    + exists r1. split; auto. destruct (finish_power r0 p r1) as (A & B); auto.
      { destruct Hq as [|Hq]; [left; lia|]. right. intros N. apply Hq. rewrite <- V. unfold fracQ. rewrite N.
        unfold Qdiv. apply Qmult_0_l. }
      split; auto. change (value r1) with (valQ r1). rewrite B. unfold valQ. now rewrite V.
    + unfold finish in E1. rewrite Z0 in E1. destruct (p =? -1), (p <? -1), (1 <? p); discriminate.
Qed.
Print Assumptions string_power_exact.

Example arithmetic_ex : rmul (mkrat 2 3) (mkrat (-3) 4) = Some (mkrat (-6) 12) /\
  rdiv (mkrat 2 3) (mkrat (-3) 4) = Some (mkrat 8 (-9)) /\ rdiv (mkrat 1 2) (mkrat 0 5) = None /\
  rabs (mkrat 8 (-9)) = Some (mkrat 8 9) /\ new_rational (FromPair 2 3) (-3) = Some (mkrat 27 8) /\
  new_rational (FromString (chars "0.5")) (-2) = Some (mkrat 100 25).
Proof. repeat split. Qed.

(** C22: in-place division and negative powers do not report division by zero. *)
Theorem inplace_division_by_zero_refuted :
  ~ (forall a b, denom a <> 0 -> denom b <> 0 -> denom (idiv a b) <> 0).
Proof. intros H. apply (H (mkrat 1 2) (mkrat 0 5)); discriminate || reflexivity. Qed.
Print Assumptions inplace_division_by_zero_refuted.

Theorem zero_power_refuted :
  ~ (forall n d p r, new_rational (FromPair n d) p = Some r -> denom r <> 0).
Proof. intros H. apply (H 0 1 (-1) (mkrat 1 0)); reflexivity. Qed.
Print Assumptions zero_power_refuted.

(** C22: a rational constructed from a rational is formatted as a float: whatever
    the formatting gives, the result is not one third. *)
Theorem copy_third_refuted : forall formatted r, new_rational (FromNumber formatted) 1 = Some r -> ~ (value r == 1 # 3)%Q.
Proof.
  intros s r. unfold new_rational. cbn [Z.eqb]. destruct (initfromstring s) as [r0|] eqn:E; [|discriminate].
  rewrite finish_1. destruct (denom r0 =? 0); [discriminate|]. intros [= <-]. now apply (decimal_not_third s).
Qed.
Print Assumptions copy_third_refuted.

Example copy_third_ex : new_rational (FromNumber (chars "0.3333333333")) 1 = Some (mkrat 3333333333 10000000000).
Proof. reflexivity. Qed.

(** C23: sorted input lists (with positive denominators) *)
Definition ordered (strict : bool) (st : store) (l : list nat) : Prop :=
  StronglySorted (fun a b => if strict then (value (pos (st a)) < value (pos (st b)))%Q
                             else (value (pos (st a)) <= value (pos (st b)))%Q) l.
Definition proper (st : store) (l : list nat) : Prop := Forall (fun r => 0 < denom (pos (st r))) l.

Theorem merge_is_sorted : forall strict mergeequal st l1 l2 st' m, proper st l1 -> proper st l2 ->
  ordered strict st l1 -> ordered strict st l2 -> mergeticklists mergeequal st l1 l2 = (st', m) -> ordered strict st' m.
Proof.
  intros strict me st l1 l2 st' m D1 D2 S1 S2 E.
  assert (forall l st, sorted strict st l <-> ordered strict st l) as SO.
  { intros l s. unfold sorted, ordered, ord. destruct strict; tauto. }
  pose proof (merge_sorted_lists me strict st l1 l2 D1 D2 (proj2 (SO _ _) S1) (proj2 (SO _ _) S2)) as H.
  pose proof (merge_positions_unchanged me st l1 l2) as P. rewrite E in H, P. cbn [fst snd] in H, P.
  apply SO. now apply (sorted_ext strict st).
Qed.
Print Assumptions merge_is_sorted.

Theorem merge_positions : forall mergeequal st l1 l2 st' m, proper st l1 -> proper st l2 ->
  mergeticklists mergeequal st l1 l2 = (st', m) ->
  forall q, (exists r, In r m /\ (value (pos (st' r)) == q)%Q) <->
            (exists r, In r (l1 ++ l2) /\ (value (pos (st r)) == q)%Q).
Proof.
  intros me st l1 l2 st' m D1 D2 E q.
  pose proof (merge_positions_unchanged me st l1 l2) as P.
  pose proof (merge_members me st l1 l2 D1 D2) as (A & B & C). rewrite E in P, A, B, C. cbn [fst snd] in *. split.
  - intros (r & Hr & V). exists r. rewrite P in V. split; auto. apply in_or_app. auto.
  - intros (r & Hr & V). apply in_app_or in Hr. destruct Hr as [Hr|Hr].
    + exists r. rewrite P. auto.
    + destruct (C r Hr) as [Hm|(x & Hx & Ex)].
      * exists r. rewrite P. auto.
      * exists x. rewrite P. split; auto. change (valQ (pos (st x)) == q)%Q. unfold vpos in Ex. rewrite Ex. exact V.
Qed.
Print Assumptions merge_positions.

(** C23: the ticks afterwards.  All ticks of the first list are kept.  A tick of the
    second list is left out if the first list has a tick at its position, which then
    gets the more prominent levels, and its label unless it already has one.  No
    other tick object changes. *)
Theorem merge_attributes : forall st l1 l2 st' m, proper st l1 -> proper st l2 ->
  ordered true st l1 -> ordered true st l2 -> (forall r, In r l1 -> ~ In r l2) ->
  mergeticklists true st l1 l2 = (st', m) ->
  (forall r, In r l1 -> In r m) /\
  (forall y, In y l2 -> (In y m <-> forall x, In x l1 -> ~ (value (pos (st x)) == value (pos (st y)))%Q)) /\
  (forall x y, In x l1 -> In y l2 -> (value (pos (st x)) == value (pos (st y)))%Q ->
     pos (st' x) = pos (st x) /\ prominent (ticklevel (st x)) (ticklevel (st y)) (ticklevel (st' x)) /\
     prominent (labellevel (st x)) (labellevel (st y)) (labellevel (st' x)) /\
     label (st' x) = match label (st x) with Some t => Some t | None => label (st y) end) /\
  (forall r, (In r l1 -> forall y, In y l2 -> ~ (value (pos (st r)) == value (pos (st y)))%Q) -> st' r = st r).
Proof.
  intros st l1 l2 st' m D1 D2 S1 S2 Dj E.
  pose proof (merge_members true st l1 l2 D1 D2) as (A & B & C).
  pose proof (merge_dropped true st l1 l2 D1 D2 S1 S2 Dj) as Dr.
  pose proof (merge_contents true st l1 l2 D1 D2 S1 S2 Dj) as Co.
  rewrite E in A, B, C, Dr, Co. cbn [fst snd] in *. split; [|split; [|split]]; auto.
  - intros x y Hx Hy V. destruct (Co x) as [(_ & y' & Hy' & V' & Ex)|([N|N] & Ex)].
    + assert (y' = y) as ->.
      { assert (vpos st y' == vpos st y)%Q as VV by (rewrite V'; exact V).
        clear - S2 Hy Hy' VV. change (sorted true st l2) in S2. induction S2 as [|z l S IH F]; [easy|].
        rewrite Forall_forall in F. destruct Hy as [<-|Hy], Hy' as [<-|Hy']; auto.
        - apply F in Hy'. simpl in Hy'. rewrite VV in Hy'. now apply Qlt_irrefl in Hy'.
        - apply F in Hy. simpl in Hy. rewrite VV in Hy. now apply Qlt_irrefl in Hy. }
      rewrite Ex. unfold tmerge. cbn [pos ticklevel labellevel label].
      assert (forall a b, prominent a b (merge_level a b)) as PM.
      { intros a b. rewrite merge_level_sym_min. unfold prominent, as_prominent.
        destruct a as [u|], b as [v|]; repeat split; auto; try lia.
        destruct (Z.min_spec u v) as [[? ->]|[? ->]]; auto. }
      repeat split; try apply PM.
    + tauto.
    + exfalso. apply (N y Hy). symmetry. exact V.
  - intros r N. destruct (Co r) as [(Hr & y' & Hy' & V' & Ex)|(_ & Ex)]; auto.
    exfalso. apply (N Hr y' Hy'). symmetry. exact V'.
Qed.
Print Assumptions merge_attributes.

(** C23: without mergeequal no tick object changes. *)
Theorem merge_without_equal : forall st l1 l2 st' m, proper st l1 -> proper st l2 ->
  ordered true st l1 -> ordered true st l2 -> (forall r, In r l1 -> ~ In r l2) ->
  mergeticklists false st l1 l2 = (st', m) -> forall r, st' r = st r.
Proof.
  intros st l1 l2 st' m D1 D2 S1 S2 Dj E r.
  pose proof (merge_contents false st l1 l2 D1 D2 S1 S2 Dj r) as Co. rewrite E in Co. cbn [fst] in Co.
  destruct Co as [(_ & y & _ & _ & H)|(_ & H)]; auto.
Qed.
Print Assumptions merge_without_equal.

Definition ex_store : store := fun r => nth r
  [mktick (mkrat 0 1) (Some 0) (Some 0) None; mktick (mkrat 1 1) (Some 1) None None; mktick (mkrat 2 1) (Some 0) (Some 0) None;
   mktick (mkrat 1 2) (Some 1) (Some 1) None; mktick (mkrat 2 2) (Some 0) (Some 2) (Some "one"%string)] (mktick (mkrat 0 1) None None None).
Example merge_ex : proper ex_store [0; 1; 2]%nat /\ proper ex_store [3; 4]%nat /\
  ordered true ex_store [0; 1; 2]%nat /\ ordered true ex_store [3; 4]%nat /\
  (forall r, In r [0; 1; 2]%nat -> ~ In r [3; 4]%nat) /\
  snd (mergeticklists true ex_store [0; 1; 2]%nat [3; 4]%nat) = [0; 3; 1; 2]%nat /\
  fst (mergeticklists true ex_store [0; 1; 2]%nat [3; 4]%nat) 1%nat = mktick (mkrat 1 1) (Some 0) (Some 2) (Some "one"%string).
Proof.
  unfold proper, ordered. repeat split; try (repeat constructor; fail).
  intros r Hr H. simpl in Hr, H. lia.
Qed.

(** C23: the ticks of the input list are changed by merging. *)
Theorem merge_keeps_inputs_refuted :
  ~ (forall st l1 l2 r, fst (mergeticklists true st l1 l2) r = st r).
Proof.
  intros H. specialize (H ex_store [0; 1; 2]%nat [3; 4]%nat 1%nat). vm_compute in H. discriminate.
Qed.
Print Assumptions merge_keeps_inputs_refuted.

(** C23: the number of levels in use. *)
Theorem maxlevels_least : forall ticks,
  least_bound (map ticklevel ticks) (fst (maxlevels ticks)) /\
  least_bound (map labellevel ticks) (snd (maxlevels ticks)).
Proof. exact maxlevels_bound. Qed.
Print Assumptions maxlevels_least.

Example maxlevels_ex : maxlevels (map ex_store [0; 1; 2; 3; 4]%nat) = (2, 3).
Proof. reflexivity. Qed.
