(** * Ranges of data in graphs (C112): which columns give the range of which dimension, and what the positions and the axes get *)

From Coq Require Import ZArith Ascii String List Bool Lia ZifyBool Permutation.
From Verif Require Import RangeModel.
Import ListNotations.
Open Scope Z_scope.

(** ** The columns *)
Definition has (cols : list string) (n : string) : bool := existsb (String.eqb n) cols.
Definition low_ways (cols : list string) (u : string) : list bool := map (has cols) [u ++ "min"; "d" ++ u ++ "min"; "d" ++ u]%string.
Definition high_ways (cols : list string) (u : string) : list bool := map (has cols) [u ++ "max"; "d" ++ u ++ "max"; "d" ++ u]%string.
Definition how_many (l : list bool) : nat := count_occ Bool.bool_dec l true.
(** a range is given for the name *)
Definition ranged (cols : list string) (u : string) : bool := existsb (fun b => b) (low_ways cols u ++ high_ways cols u).
(** in one way at each side, and with a value to which differences refer *)
Definition well_given (cols : list string) (u : string) : Prop :=
  (how_many (low_ways cols u) <= 1)%nat /\ (how_many (high_ways cols u) <= 1)%nat /\
  (has cols ("d" ++ u ++ "min") || has cols ("d" ++ u ++ "max") || has cols ("d" ++ u) = true -> has cols u = true)%string.

Lemma app_len (a b : string) : String.length (a ++ b) = (String.length a + String.length b)%nat.
Proof. induction a as [|c a IH]; cbn; [reflexivity|now rewrite IH]. Qed.
Lemma app_inj_l (u a b : string) : (u ++ a = u ++ b -> a = b)%string.
Proof. induction u as [|c u IH]; cbn; [auto|]. intros [= H]. auto. Qed.
Lemma names_distinct (u : string) : NoDup [u; u ++ "min"; u ++ "max"; "d" ++ u ++ "min"; "d" ++ u ++ "max"; "d" ++ u]%string.
Proof.
  assert (L : forall a b : string, String.length a <> String.length b -> a <> b) by congruence.
  assert (M : (u ++ "min" <> u ++ "max")%string) by (intros E; apply app_inj_l in E; discriminate).
  assert (M' : ("d" ++ u ++ "min" <> "d" ++ u ++ "max")%string) by (intros E; apply (app_inj_l "d"), app_inj_l in E; discriminate).
  repeat (constructor; [cbn [In]|]); try constructor; try tauto.
  - intros H. repeat (destruct H as [H|H]; [revert H; apply L; rewrite ?app_len; cbn; lia|]). exact H.
  - intros H. destruct H as [H|H]; [congruence|]. repeat (destruct H as [H|H]; [revert H; apply L; rewrite ?app_len; cbn; lia|]). exact H.
  - intros H. repeat (destruct H as [H|H]; [revert H; apply L; rewrite ?app_len; cbn; lia|]). exact H.
  - intros H. destruct H as [H|H]; [congruence|]. repeat (destruct H as [H|H]; [revert H; apply L; rewrite ?app_len; cbn; lia|]). exact H.
  - intros H. repeat (destruct H as [H|H]; [revert H; apply L; rewrite ?app_len; cbn; lia|]). exact H.
Qed.
Definition weigh (l : list bool) : Z := match l with [a; b; c; d; e; f] => Z.b2z a + 2 * Z.b2z b + 4 * Z.b2z c + 8 * Z.b2z d + 16 * Z.b2z e + 32 * Z.b2z f | _ => 0 end.
Definition names (u : string) : list string := [u; u ++ "min"; u ++ "max"; "d" ++ u ++ "min"; "d" ++ u ++ "max"; "d" ++ u]%string.

Lemma mask_of_weigh u c : mask_of u c = weigh (map (fun n => String.eqb n c) (names u)).
Proof.
  unfold mask_of. pose proof (names_distinct u) as ND. unfold names. cbn [map].
  set (n1 := (u ++ "min")%string) in *. set (n2 := (u ++ "max")%string) in *. set (n3 := ("d" ++ n1)%string) in *. set (n4 := ("d" ++ n2)%string) in *. set (n5 := ("d" ++ u)%string) in *. clearbody n1 n2 n3 n4 n5.
  do 5 (apply NoDup_cons_iff in ND as [? ND]). cbn [In] in *.
  destruct (String.eqb_spec u c), (String.eqb_spec n1 c), (String.eqb_spec n2 c), (String.eqb_spec n3 c), (String.eqb_spec n4 c), (String.eqb_spec n5 c); subst; try reflexivity; exfalso; tauto.
Qed.
Lemma mask_sum_acc u cols : forall m, fold_left (fun m c => m + mask_of u c) cols m = m + mask_sum u cols.
Proof.
  unfold mask_sum. induction cols as [|c cols IH]; intros m; cbn [fold_left]; [lia|]. rewrite IH, (IH (0 + _)). lia.
Qed.
Lemma has_cons c cols n : has (c :: cols) n = (String.eqb n c || has cols n). Proof. reflexivity. Qed.
Lemma has_in cols n : has cols n = true <-> In n cols.
Proof.
  unfold has. rewrite existsb_exists. split; [intros (x & I & E); apply String.eqb_eq in E; subst; exact I|intros I; exists n; split; [exact I|apply String.eqb_refl]].
Qed.
Lemma mask_sum_weigh u cols : NoDup cols -> mask_sum u cols = weigh (map (has cols) (names u)).
Proof.
  induction 1 as [|c cols NI ND IH]; [reflexivity|]. unfold mask_sum. cbn [fold_left]. rewrite mask_sum_acc, IH, mask_of_weigh.
  assert (K : forall n, Z.b2z (has (c :: cols) n) = Z.b2z (String.eqb n c) + Z.b2z (has cols n)).
  { intros n. rewrite has_cons. destruct (String.eqb_spec n c) as [->|NE]; [|reflexivity]. destruct (has cols c) eqn:H; [apply has_in in H; tauto|reflexivity]. }
  unfold names. cbn [map weigh]. rewrite !K. ring.
Qed.

(** the names of the bits *)
Definition bits (cols : list string) (u : string) := map (has cols) (names u).
Lemma mask_bits l : List.length l = 6%nat -> exists v mn mx dn dx d, l = [v; mn; mx; dn; dx; d] /\
  bit (weigh l) mask_value = v /\ bit (weigh l) mask_min = mn /\ bit (weigh l) mask_max = mx /\ bit (weigh l) mask_dmin = dn /\ bit (weigh l) mask_dmax = dx /\ bit (weigh l) mask_d = d /\
  bit (weigh l) (Z.lor (Z.lor mask_min mask_max) delta) = (mn || mx || dn || dx || d) /\ bit (weigh l) delta = (dn || dx || d) /\ bit (weigh l) low = (mn || dn || d) /\ bit (weigh l) high = (mx || dx || d) /\
  numberofbits (Z.land (weigh l) low) = Z.of_nat (how_many [mn; dn; d]) /\ numberofbits (Z.land (weigh l) high) = Z.of_nat (how_many [mx; dx; d]) /\
  ((weigh l =? mask_value) = v && negb (mn || mx || dn || dx || d)) /\ ((weigh l =? 0) = negb (v || mn || mx || dn || dx || d)).
Proof.
  intros L. do 6 (destruct l as [|? l]; [discriminate|]). destruct l; [|discriminate]. do 6 eexists. split; [reflexivity|].
  destruct b, b0, b1, b2, b3, b4; repeat split; reflexivity.
Qed.

Lemma ranged_bits cols u v mn mx dn dx d : bits cols u = [v; mn; mx; dn; dx; d] -> ranged cols u = (mn || mx || dn || dx || d) /\ how_many (low_ways cols u) = how_many [mn; dn; d] /\
  how_many (high_ways cols u) = how_many [mx; dx; d] /\ existsb (fun b => b) (low_ways cols u) = (mn || dn || d) /\ existsb (fun b => b) (high_ways cols u) = (mx || dx || d) /\
  has cols u = v /\ has cols ("d" ++ u ++ "min")%string = dn /\ has cols ("d" ++ u ++ "max")%string = dx /\ has cols ("d" ++ u)%string = d /\ has cols (u ++ "min")%string = mn /\ has cols (u ++ "max")%string = mx.
Proof.
  intros H. pose proof (f_equal (fun l => nth 0 l false) H) as H0. pose proof (f_equal (fun l => nth 1 l false) H) as H1. pose proof (f_equal (fun l => nth 2 l false) H) as H2.
  pose proof (f_equal (fun l => nth 3 l false) H) as H3. pose proof (f_equal (fun l => nth 4 l false) H) as H4. pose proof (f_equal (fun l => nth 5 l false) H) as H5. clear H.
  unfold bits, names in *. cbn [map nth] in *. unfold ranged, low_ways, high_ways. cbn [map]. rewrite H0, H1, H2, H3, H4, H5. destruct v, mn, mx, dn, dx, d; repeat split; reflexivity.
Qed.
Definition well_givenb (cols : list string) (u : string) : bool :=
  Nat.leb (how_many (low_ways cols u)) 1 && Nat.leb (how_many (high_ways cols u)) 1 &&
  (negb (has cols ("d" ++ u ++ "min")%string || has cols ("d" ++ u ++ "max")%string || has cols ("d" ++ u)%string) || has cols u).
Lemma well_givenb_ok cols u : well_givenb cols u = true <-> well_given cols u.
Proof.
  unfold well_givenb, well_given. rewrite !andb_true_iff, !Nat.leb_le, orb_true_iff, negb_true_iff.
  destruct (has cols ("d" ++ u ++ "min")%string || has cols ("d" ++ u ++ "max")%string || has cols ("d" ++ u)%string), (has cols u); intuition congruence.
Qed.

Lemma mask_of_names u c : mask_of u c <> 0 <-> In c (names u).
Proof.
  rewrite mask_of_weigh. unfold names. cbn [map weigh In].
  destruct (String.eqb_spec u c), (String.eqb_spec (u ++ "min") c), (String.eqb_spec (u ++ "max") c), (String.eqb_spec ("d" ++ u ++ "min") c), (String.eqb_spec ("d" ++ u ++ "max") c), (String.eqb_spec ("d" ++ u) c);
    cbn [Z.b2z]; split; intros H; try lia; try tauto.
Qed.
Lemma in_uses u cols c : In c (uses u cols) <-> In c cols /\ In c (names u).
Proof.
  unfold uses. rewrite filter_In. rewrite <- mask_of_names. destruct (Z.eqb_spec (mask_of u c) 0); cbn; intuition congruence.
Qed.
Lemma uses_single u cols : NoDup cols -> has cols u = true -> ranged cols u = false -> uses u cols = [u].
Proof.
  intros ND H NR. apply has_in in H.
  assert (ALL : forall c, In c (uses u cols) -> c = u).
  { intros c I. apply in_uses in I as [IC IN]. destruct (bits cols u) as [|v l] eqn:B; [discriminate|]. do 5 (destruct l as [|? l]; [discriminate|]). destruct l; [|discriminate].
    destruct (ranged_bits cols u _ _ _ _ _ _ B) as (R & _ & _ & _ & _ & _ & E1 & E2 & E3 & E4 & E5). rewrite NR in R. symmetry in R. repeat (apply orb_false_iff in R as [R ?]). subst.
    apply has_in in IC. unfold names in IN. cbn [In] in IN. destruct IN as [IN|IN]; [congruence|]. repeat (destruct IN as [IN|IN]; [rewrite <- IN in IC; congruence|]). destruct IN. }
  assert (IU : In u (uses u cols)) by (apply in_uses; split; [exact H|left; reflexivity]).
  assert (NU : NoDup (uses u cols)) by (apply NoDup_filter; exact ND).
  destruct (uses u cols) as [|a [|b l]]; [destruct IU|rewrite (ALL a (or_introl eq_refl)); reflexivity|].
  exfalso. rewrite (ALL a (or_introl eq_refl)), (ALL b (or_intror (or_introl eq_refl))) in NU. inversion NU; subst. apply H2. left. reflexivity.
Qed.
Lemma uses_none u cols : has cols u = false -> ranged cols u = false -> uses u cols = [].
Proof.
  intros H NR. destruct (uses u cols) as [|c l] eqn:E; [reflexivity|]. exfalso. assert (I : In c (uses u cols)) by (rewrite E; left; reflexivity).
  apply in_uses in I as [IC IN]. destruct (bits cols u) as [|v l0] eqn:B; [discriminate|]. do 5 (destruct l0 as [|? l0]; [discriminate|]). destruct l0; [|discriminate].
  destruct (ranged_bits cols u _ _ _ _ _ _ B) as (R & _ & _ & _ & _ & E0 & E1 & E2 & E3 & E4 & E5). rewrite NR in R. symmetry in R. repeat (apply orb_false_iff in R as [R ?]). subst.
  apply has_in in IC. unfold names in IN. cbn [In] in IN. repeat (destruct IN as [IN|IN]; [rewrite <- IN in IC; congruence|]). destruct IN.
Qed.

Lemma lt_leb n : (1 <? Z.of_nat n) = negb (Nat.leb n 1).
Proof. destruct n as [|[|n]]; [reflexivity|reflexivity|]. cbn [Nat.leb negb]. lia. Qed.

Section Columns.
Variable usename : string -> string.
Variable cols : list string.
Hypothesis distinct : NoDup cols.

Definition isranged (a : string) : bool := ranged cols (usename a).
Definition posentry (a : string) : string * string * Z := (a, usename a, mask_sum (usename a) cols).
Lemma one_axis_is s a : one_axis usename cols s a =
  if isranged a then if well_givenb cols (usename a) then Some (mkc (usecolumns s ++ uses (usename a) cols) (poscolumns s ++ [posentry a]) (missing s) (minmissing s) (maxmissing s)) else None
  else Some s.
Proof.
  unfold one_axis, posentry, isranged. set (u := usename a). cbv zeta. rewrite (mask_sum_weigh u cols distinct).
  destruct (mask_bits (map (has cols) (names u)) eq_refl) as (v & mn & mx & dn & dx & d & E & B1 & B2 & B3 & B4 & B5 & B6 & B7 & B8 & B9 & B10 & B11 & B12 & B13 & B14).
  destruct (ranged_bits cols u v mn mx dn dx d E) as (R & L & H & _ & _ & HV & HD1 & HD2 & HD3 & _). rewrite B7, B8, B1, B11, B12, B13, R. unfold well_givenb. rewrite L, H, HV, HD1, HD2, HD3.
  destruct (mn || mx || dn || dx || d) eqn:RR.
  - rewrite !lt_leb.
    destruct (Nat.leb (how_many [mn; dn; d]) 1), (Nat.leb (how_many [mx; dx; d]) 1); cbn [negb orb andb]; try reflexivity.
    destruct (dn || dx || d), v; reflexivity.
  - assert (NR : ranged cols u = false) by (rewrite R; reflexivity). destruct v; cbn [andb negb].
    + rewrite (uses_single u cols distinct HV NR), removelast_last. destruct s; reflexivity.
    + rewrite (uses_none u cols HV NR), app_nil_r. destruct s; reflexivity.
Qed.
Lemma all_axes_is axisnames : forall s, all_axes usename cols s axisnames =
  if forallb (fun a => negb (isranged a) || well_givenb cols (usename a)) axisnames
  then Some (mkc (usecolumns s ++ flat_map (fun a => uses (usename a) cols) (filter isranged axisnames)) (poscolumns s ++ map posentry (filter isranged axisnames)) (missing s) (minmissing s) (maxmissing s))
  else None.
Proof.
  induction axisnames as [|a r IH]; intros s; cbn [all_axes forallb filter].
  - cbn. rewrite !app_nil_r. destruct s; reflexivity.
  - rewrite one_axis_is. destruct (isranged a); cbn [negb orb andb].
    + destruct (well_givenb cols (usename a)); [|reflexivity]. rewrite IH. cbn [usecolumns poscolumns missing minmissing maxmissing andb]. destruct (forallb _ r); [|reflexivity]. cbn [flat_map map].
      rewrite <- !app_assoc. reflexivity.
    + rewrite IH. reflexivity.
Qed.

(** the axes with ranges of each dimension, and the dimensions for which something holds *)
Definition given_axes (axisnames : list string) : list string := filter isranged axisnames.
Fixpoint where_ (p : list string -> bool) (o : nat) (axesnames : list (list string)) : list nat :=
  match axesnames with [] => [] | x :: r => if p x then o :: where_ p (S o) r else where_ p (S o) r end.
Definition none_given (x : list string) : bool := match given_axes x with [] => true | _ => false end.
Definition no_low (x : list string) : bool := forallb (fun a => negb (existsb (fun b => b) (low_ways cols (usename a)))) (given_axes x).
Definition no_high (x : list string) : bool := forallb (fun a => negb (existsb (fun b => b) (high_ways cols (usename a)))) (given_axes x).
Definition dim_ok (x : list string) : bool := forallb (fun a => negb (isranged a) || well_givenb cols (usename a)) x && Nat.leb (List.length (given_axes x)) 1.

Lemma dimensions_are axesnames : forall count s, (List.length (poscolumns s) + List.length (missing s) = count)%nat ->
  dimensions usename cols count s axesnames =
  if forallb dim_ok axesnames then
    Some (mkc (usecolumns s ++ flat_map (fun a => uses (usename a) cols) (flat_map given_axes axesnames)) (poscolumns s ++ map posentry (flat_map given_axes axesnames))
      (missing s ++ where_ none_given count axesnames) (minmissing s ++ where_ no_low count axesnames) (maxmissing s ++ where_ no_high count axesnames))
  else None.
Proof.
  induction axesnames as [|x r IH]; intros count s INV; cbn [dimensions forallb where_ flat_map].
  - cbn. rewrite !app_nil_r. destruct s; reflexivity.
  - rewrite all_axes_is. unfold dim_ok at 1. destruct (forallb _ x) eqn:F1; [|reflexivity]. cbn [andb]. fold (given_axes x). unfold end_dimension. cbn [usecolumns poscolumns missing minmissing maxmissing].
    rewrite app_length, map_length. unfold none_given at 1, no_low at 1, no_high at 1. destruct (given_axes x) as [|a [|b l]] eqn:G.
    + cbn [List.length Nat.leb map app flat_map forallb]. destruct (Nat.ltb_spec (count + 1) (List.length (poscolumns s) + 0 + List.length (missing s))); [lia|].
      destruct (Nat.ltb_spec (List.length (poscolumns s) + 0 + List.length (missing s)) (count + 1)); [|lia].
      rewrite IH; [|cbn; rewrite ?app_nil_r, app_length; cbn; lia]. cbn [usecolumns poscolumns missing minmissing maxmissing]. cbn [andb]. destruct (forallb dim_ok r); [|reflexivity].
      rewrite !app_nil_r, <- !app_assoc. reflexivity.
    + cbn [List.length Nat.leb map app flat_map forallb]. destruct (Nat.ltb_spec (count + 1) (List.length (poscolumns s) + 1 + List.length (missing s))); [lia|].
      destruct (Nat.ltb_spec (List.length (poscolumns s) + 1 + List.length (missing s)) (count + 1)); [lia|].
      rewrite rev_app_distr. cbn [rev app]. unfold posentry at 1.
      assert (LB : bit (mask_sum (usename a) cols) low = existsb (fun b => b) (low_ways cols (usename a)) /\ bit (mask_sum (usename a) cols) high = existsb (fun b => b) (high_ways cols (usename a))).
      { rewrite (mask_sum_weigh _ cols distinct). destruct (mask_bits (map (has cols) (names (usename a))) eq_refl) as (v & mn & mx & dn & dx & d & E & _ & _ & _ & _ & _ & _ & _ & _ & B9 & B10 & _).
        destruct (ranged_bits cols (usename a) v mn mx dn dx d E) as (_ & _ & _ & LL & HH & _). rewrite B9, B10, LL, HH. split; reflexivity. }
      destruct LB as [LB HB]. rewrite LB, HB. rewrite IH; [|cbn; rewrite app_length; cbn; lia]. cbn [usecolumns poscolumns missing minmissing maxmissing]. cbn [andb]. destruct (forallb dim_ok r); [|reflexivity].
      rewrite !andb_true_r. destruct (existsb _ (low_ways _ _)), (existsb _ (high_ways _ _)); cbn [negb]; rewrite <- !app_assoc; reflexivity.
    + cbn [List.length Nat.leb]. destruct (Nat.ltb_spec (count + 1) (List.length (poscolumns s) + S (S (List.length l)) + List.length (missing s))); [|lia].
      reflexivity.
Qed.
End Columns.

Lemma in_where p axesnames : forall o i, In i (where_ p o axesnames) <-> exists x, (o <= i)%nat /\ nth_error axesnames (i - o) = Some x /\ p x = true.
Proof.
  induction axesnames as [|x r IH]; intros o i; cbn [where_].
  - split; [intros []|intros (y & _ & E & _); destruct (i - o)%nat; discriminate].
  - assert (H : In i (where_ p (S o) r) <-> exists y, (S o <= i)%nat /\ nth_error (x :: r) (i - o) = Some y /\ p y = true).
    { rewrite IH. split; intros (y & L & E & P); exists y; (split; [lia|]); (split; [|exact P]).
      - replace (i - o)%nat with (S (i - S o)) by lia. exact E.
      - replace (i - o)%nat with (S (i - S o)) in E by lia. exact E. }
    destruct (p x) eqn:P.
    + cbn [In]. rewrite H. split.
      * intros [<-|(y & L & E & Q)]; [exists x; rewrite Nat.sub_diag; split; [lia|]; split; [reflexivity|exact P]|exists y; split; [lia|]; auto].
      * intros (y & L & E & Q). destruct (Nat.eq_dec o i) as [->|NE]; [left; reflexivity|right; exists y; split; [lia|]; auto].
    + rewrite H. split; intros (y & L & E & Q); exists y.
      * split; [lia|]; auto.
      * destruct (Nat.eq_dec o i) as [->|NE]; [rewrite Nat.sub_diag in E; cbn in E; congruence|]. split; [lia|]; auto.
Qed.

(** Columns are accepted exactly if each range is given in one way and for one axis of each dimension.  Then the columns which are used are those
    of the axes with ranges (together with the values), and the dimensions without a range, a minimum or a maximum are known. *)
Theorem range_columns : forall usename cols axesnames, NoDup cols ->
  let rangeaxes x := filter (fun a => ranged cols (usename a)) x in
  ((exists c, columnnames_range usename cols axesnames = Some c) <->
    forall x, In x axesnames -> (List.length (rangeaxes x) <= 1)%nat /\ forall a, In a x -> well_given cols (usename a)) /\
  forall c, columnnames_range usename cols axesnames = Some c ->
    (forall n, In n (usecolumns c) <-> In n cols /\ exists x a, In x axesnames /\ In a (rangeaxes x) /\ In n (names (usename a))) /\
    (forall i, In i (missing c) <-> exists x, nth_error axesnames i = Some x /\ forall a, In a x -> ranged cols (usename a) = false) /\
    (forall i, In i (minmissing c) <-> exists x, nth_error axesnames i = Some x /\ forall a, In a x -> how_many (low_ways cols (usename a)) = 0%nat) /\
    (forall i, In i (maxmissing c) <-> exists x, nth_error axesnames i = Some x /\ forall a, In a x -> how_many (high_ways cols (usename a)) = 0%nat).
Proof.
  intros usename cols axesnames ND rangeaxes. pose proof (dimensions_are usename cols ND axesnames 0 (mkc [] [] [] [] []) eq_refl) as D. fold (columnnames_range usename cols axesnames) in D.
  cbn [usecolumns poscolumns missing minmissing maxmissing app] in D.
  assert (NRW : forall a, ranged cols (usename a) = false -> well_given cols (usename a)).
  { intros a NR. apply well_givenb_ok. destruct (bits cols (usename a)) as [|v l] eqn:B; [discriminate|]. do 5 (destruct l as [|? l]; [discriminate|]). destruct l; [|discriminate].
    destruct (ranged_bits cols _ _ _ _ _ _ _ B) as (R & L & H & _ & _ & _ & E1 & E2 & E3 & _). rewrite NR in R. symmetry in R. repeat (apply orb_false_iff in R as [R ?]). unfold well_givenb. rewrite L, H, E1, E2, E3. subst. reflexivity. }
  assert (OK : forallb (dim_ok usename cols) axesnames = true <-> forall x, In x axesnames -> (List.length (rangeaxes x) <= 1)%nat /\ forall a, In a x -> well_given cols (usename a)).
  { rewrite forallb_forall. split; intros H x I; specialize (H x I).
    - unfold dim_ok in H. apply andb_true_iff in H as [H1 H2]. apply Nat.leb_le in H2. split; [exact H2|]. intros a IA. rewrite forallb_forall in H1. specialize (H1 a IA). apply orb_true_iff in H1 as [H1|H1].
      + apply NRW. apply negb_true_iff in H1. exact H1.
      + apply well_givenb_ok. exact H1.
    - destruct H as [H1 H2]. unfold dim_ok. apply andb_true_iff. split; [|apply Nat.leb_le; exact H1]. apply forallb_forall. intros a IA. apply orb_true_iff. right. apply well_givenb_ok. auto. }
  split.
  - rewrite <- OK. rewrite D. destruct (forallb _ axesnames); split; intros H; try reflexivity; try (eexists; reflexivity); [destruct H; discriminate|discriminate].
  - intros c E. rewrite D in E. destruct (forallb (dim_ok usename cols) axesnames) eqn:F; [|discriminate]. injection E as <-. cbn [usecolumns missing minmissing maxmissing].
    assert (LOWH : forall (a : string) l, existsb (fun b : bool => b) l = false <-> how_many l = 0%nat).
    { intros _ l. induction l as [|b l IH]; [cbn; tauto|]. unfold how_many. cbn [existsb count_occ]. destruct b; cbn [orb]; [destruct (Bool.bool_dec true true); [split; discriminate|congruence]|].
      destruct (Bool.bool_dec false true); [discriminate|exact IH]. }
    assert (NRL : forall a, ranged cols (usename a) = false -> how_many (low_ways cols (usename a)) = 0%nat /\ how_many (high_ways cols (usename a)) = 0%nat).
    { intros a NR. unfold ranged in NR. rewrite existsb_app in NR. apply orb_false_iff in NR as [N1 N2]. split; apply (LOWH a); assumption. }
    split; [|split; [|split]].
    + intros n. rewrite in_flat_map. split.
      * intros (a & IA & IN). apply in_flat_map in IA as (x & IX & IA). apply in_uses in IN as [IC IN]. split; [exact IC|]. exists x, a. auto.
      * intros (IC & x & a & IX & IA & IN). exists a. split; [apply in_flat_map; exists x; auto|apply in_uses; auto].
    + intros i. rewrite in_where. rewrite Nat.sub_0_r. split.
      * intros (x & _ & E & P). exists x. split; [exact E|]. intros a IA. unfold none_given, given_axes in P. destruct (ranged cols (usename a)) eqn:R; [|reflexivity].
        assert (In a (filter (isranged usename cols) x)) as I by (apply filter_In; split; [exact IA|exact R]). destruct (filter _ x); [destruct I|discriminate].
      * intros (x & E & P). exists x. split; [lia|]. split; [exact E|]. unfold none_given. destruct (given_axes usename cols x) as [|a l] eqn:G; [reflexivity|].
        assert (I : In a (given_axes usename cols x)) by (rewrite G; left; reflexivity). apply filter_In in I as [I1 I2]. unfold isranged in I2. rewrite (P a I1) in I2. discriminate.
    + intros i. rewrite in_where. rewrite Nat.sub_0_r. split.
      * intros (x & _ & E & P). exists x. split; [exact E|]. intros a IA. destruct (ranged cols (usename a)) eqn:R; [|apply NRL; exact R]. unfold no_low in P. rewrite forallb_forall in P. apply (LOWH a).
        apply negb_true_iff. apply P. apply filter_In. split; [exact IA|exact R].
      * intros (x & E & P). exists x. split; [lia|]. split; [exact E|]. unfold no_low. apply forallb_forall. intros a IA. apply filter_In in IA as [IA _]. apply negb_true_iff. apply (LOWH a). auto.
    + intros i. rewrite in_where. rewrite Nat.sub_0_r. split.
      * intros (x & _ & E & P). exists x. split; [exact E|]. intros a IA. destruct (ranged cols (usename a)) eqn:R; [|apply NRL; exact R]. unfold no_high in P. rewrite forallb_forall in P. apply (LOWH a).
        apply negb_true_iff. apply P. apply filter_In. split; [exact IA|exact R].
      * intros (x & E & P). exists x. split; [lia|]. split; [exact E|]. unfold no_high. apply forallb_forall. intros a IA. apply filter_In in IA as [IA _]. apply negb_true_iff. apply (LOWH a). auto.
Qed.
Print Assumptions range_columns.
(** errors of y, a maximum of x2 only, and y2 and a further column *)
Example range_columns_ex : exists c, columnnames_range (fun a => a) ["x2max"; "y"; "dy"; "y2"; "color"]%string [["x"; "x2"]; ["y"; "y2"]]%string = Some c /\
  usecolumns c = ["x2max"; "y"; "dy"]%string /\ missing c = [] /\ minmissing c = [0%nat] /\ maxmissing c = [] /\
  columnnames_range (fun a => a) ["y"; "dy"; "ymin"]%string [["x"; "x2"]; ["y"; "y2"]]%string = None /\
  columnnames_range (fun a => a) ["dy"]%string [["x"; "x2"]; ["y"; "y2"]]%string = None /\
  columnnames_range (fun a => a) ["xmin"; "x2max"]%string [["x"; "x2"]; ["y"; "y2"]]%string = None.
Proof. eexists. split; [vm_compute; reflexivity|]. repeat split; vm_compute; reflexivity. Qed.

(** ** The positions *)
Fixpoint present (t : list bool) (o : nat) : list nat := match t with [] => [] | b :: t => if b then o :: present t (S o) else present t (S o) end.
Fixpoint absent (t : list bool) (o : nat) : list nat := match t with [] => [] | b :: t => if b then absent t (S o) else o :: absent t (S o) end.
Lemma indices_present t : forall o, map (fun i => fold_left (fun i m => shift_index m i) (absent t o) i) (seq o (List.length (present t o))) = present t o /\
  forall i, (i < o)%nat -> fold_left (fun i m => shift_index m i) (absent t o) i = i.
Proof.
  induction t as [|b t IH]; intros o; [split; reflexivity|]. cbn [present absent]. destruct (IH (S o)) as [E L]. destruct b.
  - cbn [List.length seq map]. rewrite E. split; [f_equal; apply L; lia|]. intros i I. apply L. lia.
  - cbn [fold_left]. split.
    + rewrite <- E at 2. rewrite <- seq_shift, map_map. apply map_ext_in. intros i I. apply in_seq in I. unfold shift_index at 2. destruct (Nat.leb_spec o i); [reflexivity|lia].
    + intros i I. unfold shift_index at 2. destruct (Nat.leb_spec o i); [lia|]. apply L. lia.
Qed.

Section Fill.
Context {A B : Type}.
Variable f : A -> B.
Variable x : B.
Fixpoint merge (t : list bool) (vals : list A) : list B :=
  match t with [] => [] | true :: t => match vals with v :: vals => f v :: merge t vals | [] => x :: merge t [] end | false :: t => x :: merge t vals end.
Lemma set_nth_app (pre : list B) y r z : set_nth (List.length pre) (pre ++ y :: r) z = pre ++ z :: r.
Proof. induction pre as [|p pre IH]; cbn; [reflexivity|]. f_equal. exact IH. Qed.
Lemma fill t : forall pre vals, List.length vals = List.length (present t (List.length pre)) ->
  fold_left (fun vr (e : nat * A) => set_nth (fst e) vr (f (snd e))) (combine (present t (List.length pre)) vals) (pre ++ repeat x (List.length t)) = pre ++ merge t vals.
Proof.
  induction t as [|b t IH]; intros pre vals L; [reflexivity|]. cbn [present List.length repeat merge] in *. destruct b.
  - destruct vals as [|v vals]; [discriminate|]. cbn [combine fold_left fst snd]. rewrite set_nth_app. specialize (IH (pre ++ [f v]) vals). rewrite app_length in IH. cbn [List.length] in IH.
    replace (List.length pre + 1)%nat with (S (List.length pre)) in IH by lia. rewrite <- app_assoc in IH. cbn [app] in IH. rewrite IH by (cbn in L; lia). rewrite <- app_assoc. reflexivity.
  - specialize (IH (pre ++ [x]) vals). rewrite app_length in IH. cbn [List.length] in IH. replace (List.length pre + 1)%nat with (S (List.length pre)) in IH by lia.
    rewrite <- app_assoc in IH. cbn [app] in IH. rewrite IH by exact L. rewrite <- app_assoc. reflexivity.
Qed.
End Fill.

(** the value at which a range begins or ends *)
Section Values.
Context {V W : Type}.
Variable sub add : V -> V -> option V.
Variable convert : string -> V -> option W.
Definition begins (cols : list string) (u : string) (point : string -> option V) : option V :=
  (if has cols (u ++ "min") then point (u ++ "min")
  else if has cols ("d" ++ u ++ "min") then match point u, point ("d" ++ u ++ "min") with Some v, Some d => sub v d | _, _ => None end
  else if has cols ("d" ++ u) then match point u, point ("d" ++ u) with Some v, Some d => sub v d | _, _ => None end else None)%string.
Definition ends (cols : list string) (u : string) (point : string -> option V) : option V :=
  (if has cols (u ++ "max") then point (u ++ "max")
  else if has cols ("d" ++ u ++ "max") then match point u, point ("d" ++ u ++ "max") with Some v, Some d => add v d | _, _ => None end
  else if has cols ("d" ++ u) then match point u, point ("d" ++ u) with Some v, Some d => add v d | _, _ => None end else None)%string.
Definition converted (a : string) (v : option V) : option W := match v with Some v => convert a v | None => None end.

Lemma lower_is cols a u point : NoDup cols -> well_given cols u -> lower sub convert a u (mask_sum u cols) point = converted a (begins cols u point).
Proof.
  intros ND (W1 & W2 & W3). rewrite (mask_sum_weigh u cols ND). unfold lower, begins. cbv zeta.
  destruct (mask_bits (map (has cols) (names u)) eq_refl) as (v & mn & mx & dn & dx & d & E & B1 & B2 & B3 & B4 & B5 & B6 & B7 & B8 & B9 & B10 & B11 & B12 & B13 & B14).
  destruct (ranged_bits cols u v mn mx dn dx d E) as (R & L & H & _ & _ & HV & HD1 & HD2 & HD3 & HM1 & HM2). rewrite B2, B4, B6, HM1, HD1, HD3. rewrite L in W1.
  set (n1 := (u ++ "min")%string) in *. set (n2 := ("d" ++ n1)%string) in *. set (n3 := ("d" ++ u)%string) in *. clearbody n1 n2 n3. clear E B1 B2 B3 B4 B5 B6 B7 B8 B9 B10 B11 B12 B13 B14 R L H HV HD1 HD2 HD3 HM1 HM2 W3.
  destruct mn, dn, d; cbn in W1; try lia; cbn [andb orb].
  - destruct (point n1) as [w|]; cbn [bind converted]; [destruct (convert a w)|]; reflexivity.
  - destruct (point u) as [w|], (point n2) as [w'|]; cbn [bind converted]; try reflexivity. destruct (sub w w') as [q|]; cbn [bind converted]; [destruct (convert a q)|]; reflexivity.
  - destruct (point u) as [w|], (point n3) as [w'|]; cbn [bind converted]; try reflexivity. destruct (sub w w') as [q|]; cbn [bind converted]; [destruct (convert a q)|]; reflexivity.
  - reflexivity.
Qed.
Lemma upper_is cols a u point : NoDup cols -> well_given cols u -> upper add convert a u (mask_sum u cols) point = converted a (ends cols u point).
Proof.
  intros ND (W1 & W2 & W3). rewrite (mask_sum_weigh u cols ND). unfold upper, ends. cbv zeta.
  destruct (mask_bits (map (has cols) (names u)) eq_refl) as (v & mn & mx & dn & dx & d & E & B1 & B2 & B3 & B4 & B5 & B6 & B7 & B8 & B9 & B10 & B11 & B12 & B13 & B14).
  destruct (ranged_bits cols u v mn mx dn dx d E) as (R & L & H & _ & _ & HV & HD1 & HD2 & HD3 & HM1 & HM2). rewrite B3, B5, B6, HM2, HD2, HD3. rewrite H in W2.
  set (n1 := (u ++ "max")%string) in *. set (n2 := ("d" ++ n1)%string) in *. set (n3 := ("d" ++ u)%string) in *. clearbody n1 n2 n3. clear E B1 B2 B3 B4 B5 B6 B7 B8 B9 B10 B11 B12 B13 B14 R L H HV HD1 HD2 HD3 HM1 HM2 W3.
  destruct mx, dx, d; cbn in W2; try lia; cbn [andb orb].
  - destruct (point n1) as [w|]; cbn [bind converted]; [destruct (convert a w)|]; reflexivity.
  - destruct (point u) as [w|], (point n2) as [w'|]; cbn [bind converted]; try reflexivity. destruct (add w w') as [q|]; cbn [bind converted]; [destruct (convert a q)|]; reflexivity.
  - destruct (point u) as [w|], (point n3) as [w'|]; cbn [bind converted]; try reflexivity. destruct (add w w') as [q|]; cbn [bind converted]; [destruct (convert a q)|]; reflexivity.
  - reflexivity.
Qed.

Lemma where_absent usename cols axesnames : forall o, where_ (none_given usename cols) o axesnames = absent (map (fun x => negb (none_given usename cols x)) axesnames) o.
Proof. induction axesnames as [|x r IH]; intros o; cbn; [reflexivity|]. destruct (none_given usename cols x); cbn; rewrite IH; reflexivity. Qed.
Lemma present_length usename cols axesnames : forallb (dim_ok usename cols) axesnames = true ->
  forall o, List.length (present (map (fun x => negb (none_given usename cols x)) axesnames) o) = List.length (flat_map (given_axes usename cols) axesnames).
Proof.
  induction axesnames as [|x r IH]; intros F o; cbn; [reflexivity|]. cbn in F. apply andb_true_iff in F as [F1 F2]. rewrite app_length. unfold dim_ok in F1. apply andb_true_iff in F1 as [_ F1]. apply Nat.leb_le in F1.
  specialize (IH F2 (S o)). unfold none_given at 1. destruct (given_axes usename cols x) as [|a [|b l]]; cbn [negb List.length] in *; rewrite ?IH; cbn; lia.
Qed.
Lemma absent_length t : forall o, (List.length (present t o) + List.length (absent t o) = List.length t)%nat.
Proof. induction t as [|b t IH]; intros o; cbn; [reflexivity|]. destruct b; cbn; rewrite <- (IH (S o)); lia. Qed.

Definition dim_range usename cols point (x : list string) : option W * option W :=
  match given_axes usename cols x with
  | a :: _ => (converted a (begins cols (usename a) point), converted a (ends cols (usename a) point))
  | [] => (None, None)
  end.
Lemma merge_dims usename cols point axesnames : NoDup cols -> forallb (dim_ok usename cols) axesnames = true ->
  merge (fun e : string * string * Z => let '(a, u, mask) := e in (lower sub convert a u mask point, upper add convert a u mask point)) (None, None)
    (map (fun x => negb (none_given usename cols x)) axesnames) (map (posentry usename cols) (flat_map (given_axes usename cols) axesnames)) = map (dim_range usename cols point) axesnames.
Proof.
  intros ND. induction axesnames as [|x r IH]; intros F; cbn [map flat_map merge]; [reflexivity|]. cbn in F. apply andb_true_iff in F as [F1 F2]. specialize (IH F2).
  unfold dim_ok in F1. apply andb_true_iff in F1 as [F0 F1]. apply Nat.leb_le in F1. unfold none_given at 1. unfold dim_range at 1.
  destruct (given_axes usename cols x) as [|a [|b l]] eqn:G; cbn [negb map app List.length] in *; [f_equal; exact IH| |lia].
  assert (I : In a (given_axes usename cols x)) by (rewrite G; left; reflexivity). apply filter_In in I as [I1 I2]. rewrite forallb_forall in F0. specialize (F0 a I1). rewrite I2 in F0. cbn in F0. apply well_givenb_ok in F0.
  f_equal; [|exact IH]. unfold posentry. rewrite lower_is, upper_is by assumption. reflexivity.
Qed.

(** For each point the range of a dimension goes from the value of the minimum column, or the value minus the difference, to the value of the
    maximum column, or the value plus the difference, converted by the axis which the columns belong to; None stands for what is not given or
    can not be converted. *)
Theorem range_positions : forall usename cols axesnames c point, NoDup cols -> columnnames_range usename cols axesnames = Some c ->
  List.length (vrange sub add convert c point) = List.length axesnames /\
  forall i x, nth_error axesnames i = Some x ->
    (forall a, In a x -> ranged cols (usename a) = true ->
      nth_error (vrange sub add convert c point) i = Some (converted a (begins cols (usename a) point), converted a (ends cols (usename a) point))) /\
    ((forall a, In a x -> ranged cols (usename a) = false) -> nth_error (vrange sub add convert c point) i = Some (None, None)).
Proof.
  intros usename cols axesnames c point ND E. unfold columnnames_range in E. rewrite (dimensions_are usename cols ND axesnames 0 (mkc [] [] [] [] []) eq_refl) in E.
  destruct (forallb (dim_ok usename cols) axesnames) eqn:F; [|discriminate]. injection E as <-.
  assert (VR : vrange sub add convert (mkc (flat_map (fun a => uses (usename a) cols) (flat_map (given_axes usename cols) axesnames)) (map (posentry usename cols) (flat_map (given_axes usename cols) axesnames))
      (where_ (none_given usename cols) 0 axesnames) (where_ (no_low usename cols) 0 axesnames) (where_ (no_high usename cols) 0 axesnames)) point = map (dim_range usename cols point) axesnames).
  { unfold vrange. cbn [missing poscolumns]. rewrite where_absent, map_length. set (t := map (fun x => negb (none_given usename cols x)) axesnames).
    pose proof (present_length usename cols axesnames F 0) as PL. fold t in PL. pose proof (absent_length t 0) as AL. rewrite <- PL. unfold indices. rewrite (proj1 (indices_present t 0)).
    rewrite AL. rewrite <- (merge_dims usename cols point axesnames ND F). fold t.
    set (f := fun e : string * string * Z => let '(a, u, mask) := e in (lower sub convert a u mask point, upper add convert a u mask point)).
    pose proof (fill f (None, None) t [] (map (posentry usename cols) (flat_map (given_axes usename cols) axesnames))) as FI. cbn [List.length app] in FI. rewrite <- FI by (rewrite map_length; symmetry; exact PL).
    clear FI. generalize (repeat (@None W, @None W) (List.length t)). generalize (combine (present t 0) (map (posentry usename cols) (flat_map (given_axes usename cols) axesnames))).
    induction l as [|[i [[a u] m]] l IH]; intros r; [reflexivity|]. cbn [fold_left fst snd]. rewrite IH. reflexivity. }
  cbn [usecolumns poscolumns missing minmissing maxmissing app]. rewrite VR. split; [apply map_length|]. intros i x NX. rewrite nth_error_map, NX. cbn [option_map].
  rewrite forallb_forall in F. specialize (F x (nth_error_In _ _ NX)). unfold dim_ok in F. apply andb_true_iff in F as [_ F]. apply Nat.leb_le in F. split.
  - intros a IA RA. f_equal. unfold dim_range. assert (IG : In a (given_axes usename cols x)) by (apply filter_In; split; [exact IA|exact RA]).
    destruct (given_axes usename cols x) as [|b [|b' l]]; cbn [List.length] in F; [destruct IG| |lia]. destruct IG as [->|[]]. reflexivity.
  - intros NR. f_equal. unfold dim_range. destruct (given_axes usename cols x) as [|b l] eqn:G; [reflexivity|].
    assert (IG : In b (given_axes usename cols x)) by (rewrite G; left; reflexivity). apply filter_In in IG as [I1 I2]. unfold isranged in I2. rewrite NR in I2 by exact I1. discriminate.
Qed.
End Values.
Print Assumptions range_positions.
(** y with error 2, no range for the first dimension *)
Example range_positions_ex : exists c, columnnames_range (fun a => a) ["x"; "y"; "dy"]%string [["x"; "x2"]; ["y"; "y2"]]%string = Some c /\
  vrange (fun v d => Some (v - d)) (fun v d => Some (v + d)) (fun a v => Some (10 * v)) c (fun n => if String.eqb n "y" then Some 5 else if String.eqb n "dy" then Some 2 else Some 1) = [(None, None); (Some 30, Some 70)].
Proof. eexists. split; vm_compute; reflexivity. Qed.
