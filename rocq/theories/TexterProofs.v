From Coq Require Import String Ascii ZArith QArith Qpower Bool List Lia ZifyBool Arith.
From Verif Require PyDict.
From Verif Require Import TickModel TickSpec TickProofs TickProofs2 TexterModel TexterSpec.
Import ListNotations.
Ltac Zify.zify_post_hook ::= Z.div_mod_to_equations.
Open Scope Z_scope.

(** ** digits *)
Lemma digit_char_value d : 0 <= d < 10 -> digit_value (digit_char d) d.
Proof.
  intros H. exists (Z.to_nat d). split; [lia|]. split; [|lia].
  unfold digit_char, ascii_of_nat. f_equal. lia.
Qed.

Lemma str_fuel_spec fuel z : 0 <= z < 10 ^ Z.of_nat fuel -> (0 < fuel)%nat ->
  digits_value (str_fuel fuel z) z /\ str_fuel fuel z <> [] /\
  (hd "0"%char (str_fuel fuel z) = "0"%char -> z = 0) /\
  (z < 10 -> str_fuel fuel z = [digit_char z]).
Proof.
  revert z. induction fuel as [|f IH]; [lia|]. intros z Hz _. cbn [str_fuel].
  destruct (Z.ltb_spec z 10).
  - split; [|split; [discriminate|split; [|auto]]].
    + apply (dv_snoc [] 0 (digit_char z) z); [constructor|]. apply digit_char_value. lia.
    + cbn [hd]. intros E. destruct (digit_char_value z ltac:(lia)) as (n & Hn & E1 & ->). rewrite E in E1.
      do 10 (destruct n as [|n]; [try reflexivity; discriminate E1|]). lia.
  - assert (0 < f)%nat as Hf.
    { destruct f; [|lia]. simpl in Hz. lia. }
    rewrite Nat2Z.inj_succ, Z.pow_succ_r in Hz by lia.
    destruct (IH (z / 10)) as (A & B & C & _); [lia|auto|].
    split; [|split; [|split]].
    + replace z with (z / 10 * 10 + z mod 10) at 3 by lia. constructor; auto. apply digit_char_value. lia.
    + intros E. apply app_eq_nil in E. destruct E; discriminate.
    + destruct (str_fuel f (z / 10)) as [|c s] eqn:E; [congruence|]. cbn [hd app] in *. intros E1. apply C in E1. lia.
    + lia.
Qed.

Lemma log2_pow10 z : 0 <= z -> z < 10 ^ Z.of_nat (S (Z.to_nat (Z.log2 z))).
Proof.
  intros H. pose proof (Z.log2_nonneg z). rewrite Nat2Z.inj_succ, Z2Nat.id by lia.
  destruct (Z.eq_dec z 0) as [->|N]; [reflexivity|].
  destruct (Z.log2_spec z) as [_ L]; [lia|].
  eapply Z.lt_le_trans; [exact L|]. apply Z.pow_le_mono_l. lia.
Qed.

Lemma str_value z : 0 <= z -> digits_value (str z) z.
Proof. intros H. apply str_fuel_spec; [|lia]. split; auto. now apply log2_pow10. Qed.

Lemma str_canonical z : 0 <= z -> canonical (str z).
Proof.
  intros H. destruct (str_fuel_spec (S (Z.to_nat (Z.log2 z))) z) as (_ & B & C & D); [split; auto; now apply log2_pow10|lia|].
  split; [exact B|]. intros E. apply C in E. subst z. reflexivity.
Qed.

Lemma str_digit z : 0 <= z < 10 -> str z = [digit_char z].
Proof. intros H. unfold str. apply str_fuel_spec; [|lia|lia]. split; [lia|]. apply log2_pow10. lia. Qed.

(** ** grouping *)
Lemma thousands_cons sep c q : thousands sep (c :: q) =
  c :: (if (Nat.modulo (length q) 3 =? 0)%nat && (0 <? length q)%nat then sep else []) ++ thousands sep q.
Proof. reflexivity. Qed.

Lemma thousands_snoc3 sep a b c ds : ds <> [] -> thousands sep (ds ++ [a; b; c]) = thousands sep ds ++ sep ++ [a; b; c].
Proof.
  induction ds as [|d ds IH]; [congruence|]. intros _. destruct ds as [|e ds].
  - cbn. reflexivity.
  - rewrite <- app_comm_cons, !(thousands_cons sep d), IH by discriminate.
    match goal with |- d :: ?l = (d :: ?m) ++ ?r => change (d :: l = d :: (m ++ r)) end. f_equal.
    rewrite <- !app_assoc. f_equal. rewrite app_length. cbn [length].
    replace (S (length ds) + 3)%nat with (S (length ds + 3)) by lia.
    replace (S (length ds + 3)) with (S (length ds) + 1 * 3)%nat by lia. rewrite Nat.mod_add by lia.
    replace (0 <? S (length ds) + 1 * 3)%nat with true by (symmetry; apply Nat.ltb_lt; lia).
    replace (0 <? S (length ds))%nat with true by (symmetry; apply Nat.ltb_lt; lia). reflexivity.
Qed.

Lemma thousands_short sep ds : (length ds <= 3)%nat -> thousands sep ds = ds.
Proof.
  destruct ds as [|a [|b [|c [|d ds]]]]; simpl; intros H; try reflexivity. lia.
Qed.

Lemma thousands_grouped sep ds : grouped_right sep ds (thousands sep ds).
Proof.
  remember (length ds) as n eqn:E. revert ds E. induction n as [n IH] using lt_wf_ind. intros ds E.
  destruct (le_lt_dec (length ds) 3) as [L|L].
  - rewrite thousands_short by auto. now constructor.
  - assert (exists ds' a b c, ds = ds' ++ [a; b; c] /\ ds' <> []) as (ds' & a & b & c & -> & N).
    { destruct (exists_last (l := ds)) as (l1 & c & E1); [destruct ds; simpl in L; [lia|discriminate]|].
      destruct (exists_last (l := l1)) as (l2 & b & E2); [subst; rewrite app_length in L; destruct l1; simpl in L; [lia|discriminate]|].
      destruct (exists_last (l := l2)) as (l3 & a & E3); [subst; rewrite !app_length in L; destruct l2; simpl in L; [lia|discriminate]|].
      exists l3, a, b, c. subst. rewrite <- !app_assoc. split; auto. intros ->. simpl in L. lia. }
    rewrite thousands_snoc3 by auto. constructor; auto. apply (IH (length ds')); auto. subst n. rewrite app_length. simpl. lia.
Qed.

Lemma thousands_nil ds : thousands [] ds = ds.
Proof. induction ds as [|c ds IH]; auto. cbn [thousands]. rewrite IH. now destruct (_ && _). Qed.

Definition step_sep (sep : text) (n : nat) : text := if ((n mod 3 =? 0) && (0 <? n))%nat then sep else [].

Lemma grouped_left_snoc sep ds t d : grouped_left sep ds t ->
  grouped_left sep (ds ++ [d]) (t ++ step_sep sep (length ds) ++ [d]).
Proof.
  induction 1 as [ds L|ds t a b c N H IH].
  - destruct ds as [|a [|b [|c [|e ds]]]]; try (simpl in L; lia); try (apply gl_short; simpl; lia).
    simpl. apply (gl_more sep [d] [d] a b c); [discriminate|]. apply gl_short. simpl. lia.
  - cbn [length]. unfold step_sep in *. replace (S (S (S (length ds)))) with (length ds + 1 * 3)%nat by lia.
    rewrite Nat.mod_add by lia. assert (0 < length ds)%nat as P by (destruct ds; simpl; [congruence|lia]).
    replace (0 <? length ds + 1 * 3)%nat with true by (symmetry; apply Nat.ltb_lt; lia).
    replace (0 <? length ds)%nat with true in IH by (symmetry; apply Nat.ltb_lt; lia).
    cbn [app]. rewrite <- app_assoc. apply gl_more; auto. destruct ds; discriminate.
Qed.

Lemma grouped_left_nil ds t : grouped_left [] ds t -> t = ds.
Proof. induction 1; auto. simpl. now rewrite IHgrouped_left. Qed.

(** ** long division *)
Lemma index_Some x l i : index x l = Some i -> nth_error l i = Some x /\ (i < length l)%nat.
Proof.
  revert i. induction l as [|y l IH]; simpl; [discriminate|]. intros i.
  destruct (Z.eqb_spec x y) as [->|]; [intros [= <-]; simpl; split; [auto|lia]|].
  destruct (index x l) as [j|]; [|discriminate]. intros [= <-]. destruct (IH j eq_refl). simpl. split; auto. lia.
Qed.
Lemma index_None x l : index x l = None -> ~ In x l.
Proof.
  induction l as [|y l IH]; simpl; auto. destruct (Z.eqb_spec x y); [discriminate|].
  destruct (index x l); [discriminate|]. intros _ [E|H]; [congruence|]. now apply IH.
Qed.

Lemma digits_value_app s1 v1 s2 v2 : digits_value s1 v1 -> digits_value s2 v2 ->
  digits_value (s1 ++ s2) (v1 * 10 ^ Z.of_nat (length s2) + v2).
Proof.
  intros H1 H2. induction H2 as [|s v c d H2 IH Hd].
  - rewrite app_nil_r. simpl. now replace (v1 * 1 + 0) with v1 by lia.
  - rewrite app_assoc. replace (v1 * 10 ^ Z.of_nat (length (s ++ [c])) + (v * 10 + d))
      with ((v1 * 10 ^ Z.of_nat (length s) + v) * 10 + d).
    + now constructor.
    + rewrite app_length, Nat2Z.inj_add, Z.pow_add_r by lia. simpl (10 ^ Z.of_nat (length [c])). lia.
Qed.

Lemma digits_value_fun s v v' : digits_value s v -> digits_value s v' -> v = v'.
Proof.
  intros H. revert v'. induction H as [|s v c d H IH Hd]; intros v' H'.
  - inversion H'; auto. destruct s; discriminate.
  - inversion H' as [|s0 v0 c0 d0 H0 Hd0]; subst; [destruct s; discriminate|].
    apply app_inj_tail in H1. destruct H1 as [-> ->]. f_equal; [f_equal; auto|].
    destruct Hd as (n & Hn & E & ->), Hd0 as (m & Hm & E' & ->). rewrite E in E'. f_equal.
    do 10 (destruct n as [|n]; [do 10 (destruct m as [|m]; [auto; discriminate E'|]); lia|]). lia.
Qed.

(** state of the loop: [ds] are the digits written, [old] the remainders, one for each digit *)
Record division (r0 n : Z) (ds : text) (old : list Z) (rem : Z) : Prop := {
  dv_len : length old = length ds;
  dv_all : forall i ri, nth_error (old ++ [rem]) i = Some ri ->
    exists v, digits_value (firstn i ds) v /\ r0 * 10 ^ Z.of_nat i = v * n + ri;
  dv_nodup : NoDup old;
  dv_range : Forall (fun r => 0 < r < n) old;
  dv_rem : 0 <= rem < n }.

Lemma division_step r0 n ds old rem : division r0 n ds old rem -> 0 < rem -> ~ In rem old ->
  division r0 n (ds ++ str (rem * 10 / n)) (old ++ [rem]) ((rem * 10) mod n) /\
  str (rem * 10 / n) = [digit_char (rem * 10 / n)].
Proof.
  intros [L A ND F R] P N.
  assert (0 <= rem * 10 / n < 10) as Q by nia.
  rewrite (str_digit _ Q). split; auto. constructor.
  - rewrite !app_length. simpl. lia.
  - intros i ri Hi. destruct (le_lt_dec (S (length ds)) i) as [Hl|Hl].
    + assert (i = S (length ds)) as ->.
      { assert (i < length ((old ++ [rem]) ++ [((rem * 10) mod n)%Z]))%nat by (apply nth_error_Some; congruence).
        rewrite !app_length in H. simpl in H. lia. }
      rewrite nth_error_app2 in Hi by (rewrite app_length; simpl; lia).
      assert (S (length ds) - length (old ++ [rem]) = 0)%nat as E0 by (rewrite app_length; simpl length; lia).
      rewrite E0 in Hi. simpl in Hi. injection Hi as <-.
      destruct (A (length ds) rem) as (v & Hv & E).
      { rewrite nth_error_app2 by lia. now rewrite L, Nat.sub_diag. }
      rewrite firstn_all in Hv. exists (v * 10 + rem * 10 / n). split.
      * rewrite firstn_all2 by (rewrite app_length; simpl; lia). constructor; auto. now apply digit_char_value.
      * rewrite Nat2Z.inj_succ, Z.pow_succ_r by lia.
        pose proof (Z.div_mod (rem * 10) n ltac:(lia)). nia.
    + rewrite nth_error_app1 in Hi by (rewrite app_length; simpl; lia).
      destruct (A i ri Hi) as (v & Hv & E). exists v. split; auto.
      rewrite firstn_app. replace (i - length ds)%nat with O by lia. now rewrite firstn_O, app_nil_r.
  - now apply PyDict.NoDup_snoc.
  - apply Forall_app. split; auto. constructor; [lia|constructor].
  - apply Z.mod_pos_bound. lia.
Qed.

Lemma digits_value_app_inv s1 s2 v : digits_value (s1 ++ s2) v -> exists v1 v2, digits_value s1 v1 /\ digits_value s2 v2.
Proof.
  revert v. induction s2 as [|c s2 IH] using rev_ind; intros v H.
  - rewrite app_nil_r in H. exists v, 0. split; [auto|constructor].
  - rewrite app_assoc in H. inversion H as [E|s v0 c0 d Hs Hd E].
    + destruct (s1 ++ s2); discriminate.
    + apply app_inj_tail in E. destruct E as [-> ->]. destruct (IH _ Hs) as (v1 & v2 & A & B).
      exists v1, (v2 * 10 + d). split; auto. now constructor.
Qed.

Lemma pigeon n l : NoDup l -> Forall (fun r => 0 < r < n) l -> (length l <= Z.to_nat n - 1)%nat.
Proof.
  intros ND F. rewrite <- (map_length Z.to_nat l), <- (seq_length (Z.to_nat n - 1) 1).
  apply NoDup_incl_length.
  - clear - ND F. induction ND as [|x l N ND IH]; simpl; [constructor|]. inversion F; subst. constructor; auto.
    rewrite in_map_iff. intros (y & E & Hy). rewrite Forall_forall in H2. specialize (H2 y Hy).
    assert (y = x) by lia. subst. tauto.
  - intros k Hk. apply in_map_iff in Hk. destruct Hk as (r & <- & Hr). rewrite Forall_forall in F.
    specialize (F r Hr). apply in_seq. lia.
Qed.

Lemma frac_loop_spec t n r0 lab0 : forall fuel rem old ds g,
  division r0 n ds old rem -> grouped_left (thousandthpartsep t) ds g -> (Z.to_nat n < fuel + length old)%nat ->
  exists res, frac_loop fuel t n rem old (Z.of_nat (length ds)) (lab0 ++ g) = Some res /\
   ((exists f g' v, res = (lab0 ++ g', Some (Z.of_nat (length f))) /\ grouped_left (thousandthpartsep t) f g' /\
       digits_value f v /\ r0 * 10 ^ Z.of_nat (length f) = v * n) \/
    (exists f v p vp rm, 0 < rm < n /\ snd res = None /\ p <> [] /\ digits_value f v /\ digits_value p vp /\
       r0 * 10 ^ Z.of_nat (length f) = v * n + rm /\ rm * (10 ^ Z.of_nat (length p) - 1) = vp * n /\
       (thousandthpartsep t = [] -> fst res = lab0 ++ f ++ period_before t ++ p ++ period_behind t))).
Proof.
  induction fuel as [|fuel IH]; intros rem old ds g D G Hf.
  - exfalso. pose proof (pigeon n old (dv_nodup _ _ _ _ _ D) (dv_range _ _ _ _ _ D)).
    pose proof (dv_rem _ _ _ _ _ D). lia.
  - cbn [frac_loop]. destruct (Z.eqb_spec rem 0) as [->|Nz].
    + eexists. split; [reflexivity|]. left. destruct (dv_all _ _ _ _ _ D (length ds) 0) as (v & Hv & E).
      { rewrite nth_error_app2 by (rewrite (dv_len _ _ _ _ _ D); lia). now rewrite (dv_len _ _ _ _ _ D), Nat.sub_diag. }
      rewrite firstn_all in Hv. exists ds, g, v. repeat split; auto. lia.
    + destruct (index rem old) as [i|] eqn:I.
      * eexists. split; [reflexivity|]. right. destruct (index_Some _ _ _ I) as [Hi Li].
        pose proof (dv_len _ _ _ _ _ D) as L.
        destruct (dv_all _ _ _ _ _ D i rem) as (vf & Hvf & Ef); [now rewrite nth_error_app1|].
        destruct (dv_all _ _ _ _ _ D (length ds) rem) as (v & Hv & E).
        { rewrite nth_error_app2 by lia. now rewrite L, Nat.sub_diag. }
        rewrite firstn_all in Hv. pose proof Hv as Hv'. rewrite <- (firstn_skipn i ds) in Hv'.
        destruct (digits_value_app_inv _ _ _ Hv') as (v1 & vp & _ & Hvp).
        assert (length (firstn i ds) = i) as Li' by (rewrite firstn_length; lia).
        assert (length (skipn i ds) = length ds - i)%nat as Ls by (now rewrite skipn_length).
        pose proof (digits_value_fun _ _ _ Hv' (digits_value_app _ _ _ _ Hvf Hvp)) as EV.
        exists (firstn i ds), vf, (skipn i ds), vp, rem.
        split; [pose proof (dv_rem _ _ _ _ _ D); lia|]. split; [reflexivity|]. split.
        { intros Z0. rewrite Z0 in Ls. simpl in Ls. lia. }
        split; auto. split; auto. split; [now rewrite Li'|]. split.
        { assert (10 ^ Z.of_nat (length ds) = 10 ^ Z.of_nat i * 10 ^ Z.of_nat (length (skipn i ds))) as EP.
          { rewrite <- Z.pow_add_r by lia. f_equal. lia. }
          rewrite EP in E. rewrite EV in E.
          set (P := 10 ^ Z.of_nat (length (skipn i ds))) in *. set (Pi := 10 ^ Z.of_nat i) in *.
          replace (r0 * (Pi * P)) with ((r0 * Pi) * P) in E by ring. rewrite Ef in E. lia. }
        intros T. cbn [fst]. rewrite T in G. apply grouped_left_nil in G. subst g.
        set (k := (length (lab0 ++ ds) - (length old - i))%nat).
        assert (k = length lab0 + i)%nat as Ek by (unfold k; rewrite app_length; lia).
        rewrite Ek, firstn_app, firstn_all2, skipn_app, skipn_all2 by lia.
        replace (length lab0 + i - length lab0)%nat with i by lia. simpl. now rewrite <- !app_assoc.
      * destruct (division_step _ _ _ _ _ D) as (D' & S1); [pose proof (dv_rem _ _ _ _ _ D); lia|now apply index_None|].
        set (q := rem * 10 / n) in *.
        set (sep := if ((Z.of_nat (length ds) + 1 - 1) mod 3 =? 0) && (1 <? Z.of_nat (length ds) + 1)
                    then thousandthpartsep t else []).
        assert (sep = step_sep (thousandthpartsep t) (length ds)) as Es.
        { unfold sep, step_sep. replace (Z.of_nat (length ds) + 1 - 1) with (Z.of_nat (length ds)) by lia.
          replace (Z.of_nat (length ds) mod 3 =? 0) with (length ds mod 3 =? 0)%nat.
          - replace (1 <? Z.of_nat (length ds) + 1) with (0 <? length ds)%nat; auto.
            destruct (Nat.ltb_spec 0 (length ds)); symmetry; [apply Z.ltb_lt|apply Z.ltb_ge]; lia.
          - rewrite <- (Nat2Z.inj_mod _ 3). destruct (Nat.eqb_spec (length ds mod 3) 0) as [->|]; auto.
            symmetry. apply Z.eqb_neq. lia. }
        destruct (IH ((rem * 10) mod n) (old ++ [rem]) (ds ++ str q) (g ++ sep ++ str q) D') as (res & E & H).
        { rewrite Es, S1. now apply grouped_left_snoc. }
        { rewrite app_length. simpl. lia. }
        exists res. split; auto. rewrite <- E. f_equal.
        -- rewrite app_length, S1. simpl. lia.
        -- now rewrite <- app_assoc.
Qed.

Lemma division_start r0 n : 0 <= r0 < n -> division r0 n [] [] r0.
Proof.
  intros H. constructor; auto; try constructor.
  intros i ri. destruct i as [|i]; simpl; [|destruct i; discriminate]. intros [= <-].
  exists 0. split; [constructor|]. lia.
Qed.

Lemma period_pow x n P : (x * P) mod n = x mod n -> n <> 0 -> forall j, 0 <= j -> (x * P ^ j) mod n = x mod n.
Proof.
  intros H Hn. apply natlike_ind; [now rewrite Z.pow_0_r, Z.mul_1_r|]. intros j Hj IH.
  rewrite Z.pow_succ_r, (Z.mul_comm P), Z.mul_assoc by auto.
  rewrite Z.mul_mod, IH, <- Z.mul_mod by auto. exact H.
Qed.

Lemma periodic_not_terminating m n F K P v vp rm : 0 < n -> 0 < rm < n -> 0 <= F -> 0 <= K -> 1 <= P ->
  (m mod n) * 10 ^ F = v * n + rm -> rm * (10 ^ P - 1) = vp * n -> (m * 10 ^ K) mod n <> 0.
Proof.
  intros Hn Hr HF HK HP E1 E2 H.
  assert ((rm * 10 ^ K) mod n = 0) as A.
  { rewrite <- Z.mul_mod_idemp_l in H by lia.
    replace (rm * 10 ^ K) with (((m mod n) * 10 ^ K) * 10 ^ F + (- v * 10 ^ K) * n).
    - rewrite Z.mod_add by lia. rewrite <- Z.mul_mod_idemp_l, H by lia. apply Z.mod_0_l. lia.
    - replace ((m mod n) * 10 ^ K * 10 ^ F) with ((m mod n) * 10 ^ F * 10 ^ K) by ring. rewrite E1. ring. }
  assert ((rm * 10 ^ P) mod n = rm mod n) as B.
  { replace (rm * 10 ^ P) with (rm + vp * n) by lia. apply Z.mod_add. lia. }
  pose proof (period_pow rm n (10 ^ P) B ltac:(lia) K HK) as C.
  rewrite <- Z.pow_mul_r in C by lia. replace (P * K) with (K + (P - 1) * K) in C by lia.
  rewrite Z.pow_add_r, Z.mul_assoc in C by nia.
  rewrite <- Z.mul_mod_idemp_l, A, Z.mul_0_l, Z.mod_0_l, Z.mod_small in C by lia. lia.
Qed.

(** ** one label *)
Lemma decimal_body_spec t r : denom r <> 0 ->
  exists lab k, decimal_body t r = Some (lab, k) /\ (forall p, k = Some p -> 0 <= p) /\
    (k = None -> ~ terminating (valQ r)) /\
    (k <> None \/ thousandthpartsep t = [] ->
     exists ip fp q vi, lab = ip ++ fp /\ int_part (thousandsep t) ip vi /\
       frac_part (decimalsep t) (thousandthpartsep t) (period_before t) (period_behind t) fp (option_map Z.to_nat k) q /\
       (inject_Z vi + q == Qabs.Qabs (valQ r))%Q).
Proof.
  intros Hd. unfold decimal_body. set (m := Z.abs (num r)). set (n := Z.abs (denom r)).
  assert (0 < n) as Hn by lia. assert (0 <= m) as Hm by lia. replace (n =? 0) with false by lia.
  set (ip := match thousandsep t with [] => str (m / n) | sep => thousands sep (str (m / n)) end).
  change (match thousandsep t with [] => str (m / n) | a :: l => thousands (a :: l) (str (m / n)) end) with ip.
  assert (0 <= m / n) as Hq by (apply Z.div_pos; lia).
  assert (int_part (thousandsep t) ip (m / n)) as Hip.
  { exists (str (m / n)). split; [now apply str_canonical|]. split; [now apply str_value|].
    unfold ip. destruct (thousandsep t) as [|c s] eqn:E; [|apply thousands_grouped].
    rewrite <- (thousands_nil (str (m / n))) at 2. apply thousands_grouped. }
  assert (0 <= m mod n < n) as Hr by (apply Z.mod_pos_bound; lia).
  assert (Qabs.Qabs (valQ r) == inject_Z (m / n) + fracQ (m mod n) n)%Q as Val.
  { unfold valQ. rewrite <- frac_abs. fold m n. unfold fracQ.
    pose proof (Z.div_mod m n ltac:(lia)) as DM. rewrite DM at 1. rewrite inject_Z_plus, inject_Z_mult.
    assert (~ inject_Z n == 0)%Q by (apply inject_nz; lia). field. auto. }
  destruct (Z.eqb_spec (m mod n) 0) as [Z0|Nz].
  - rewrite Z0. cbn [frac_loop Z.eqb]. exists ip, (Some 0). split; auto. split; [intros p [= <-]; lia|]. split; [discriminate|].
    intros _. exists ip, [], 0%Q, (m / n). rewrite app_nil_r. repeat split; auto; [constructor|].
    rewrite Val, Z0. unfold fracQ. field. apply inject_nz. lia.
  - destruct (frac_loop_spec t n (m mod n) (ip ++ decimalsep t) (S (Z.to_nat n)) (m mod n) [] [] [])
      as (res & E & H); [now apply division_start|apply gl_short; simpl; lia|simpl; lia|].
    rewrite app_nil_r in E. simpl (Z.of_nat (length [])) in E.
    assert (forall z, 0 <= z -> ~ (inject_Z (10 ^ z) == 0)%Q) as NZ10.
    { intros z Hz. apply inject_nz. apply Z.pow_nonzero; lia. }
    assert (forall z, 0 <= z -> (pow10 (- z) == / inject_Z (10 ^ z))%Q) as P10.
    { intros z Hz. unfold pow10. rewrite Qpower_opp. rewrite Zpower_Qpower by auto. reflexivity. }
    destruct H as [(f & g & v & -> & G & V & EQ)|(f & v & p & vp & rm & Hrm & S0 & Np & V & VP & EQ1 & EQ2 & T)].
    + eexists _, _. split; [exact E|]. split; [intros p [= <-]; lia|]. split; [discriminate|]. intros _.
      exists ip, (decimalsep t ++ g), (inject_Z v * pow10 (- Z.of_nat (length f)))%Q, (m / n).
      rewrite app_assoc. split; auto. split; auto. split.
      * cbn [option_map]. rewrite Nat2Z.id. apply fp_finite; auto.
        intros ->. inversion V; [|destruct s; discriminate]. subst v. simpl in EQ. lia.
      * rewrite Val, P10 by lia. unfold fracQ.
        assert (inject_Z (m mod n) * inject_Z (10 ^ Z.of_nat (length f)) == inject_Z v * inject_Z n)%Q as QE
          by (rewrite <- !inject_Z_mult; now rewrite EQ).
        assert (~ inject_Z n == 0)%Q as Nn by (apply inject_nz; lia).
        specialize (NZ10 (Z.of_nat (length f)) ltac:(lia)).
        apply Qplus_inj_l.
        setoid_replace (inject_Z (m mod n)) with (inject_Z v * inject_Z n / inject_Z (10 ^ Z.of_nat (length f)))%Q.
        -- field. auto.
        -- rewrite <- QE. field. auto.
    + destruct res as [lab k]. cbn [fst snd] in *. subst k.
      eexists _, _. split; [exact E|]. split; [discriminate|]. split.
      { intros _ (K & z & HK & Ez).
        assert (1 <= Z.of_nat (length p)) as Lp by (destruct p; simpl; [congruence|lia]).
        apply (periodic_not_terminating m n (Z.of_nat (length f)) K (Z.of_nat (length p)) v vp rm); auto; try lia.
        assert (inject_Z m * inject_Z (10 ^ K) == inject_Z (Z.abs z) * inject_Z n)%Q as Q1.
        { change (inject_Z (Z.abs z)) with (Qabs.Qabs (inject_Z z)). rewrite <- Ez, Qabs.Qabs_Qmult.
          unfold valQ. rewrite <- frac_abs. fold m n. rewrite (Qabs.Qabs_pos (inject_Z (10 ^ K))).
          - unfold fracQ. field. apply inject_nz. lia.
          - change 0%Q with (inject_Z 0). rewrite <- Zle_Qle. apply Z.pow_nonneg. lia. }
        rewrite <- !inject_Z_mult in Q1. apply (proj1 (inject_Z_injective _ _)) in Q1. rewrite Q1. apply Z.mod_mul. lia. }
      intros [|Ht]; [congruence|].
      exists ip, (decimalsep t ++ f ++ period_before t ++ p ++ period_behind t),
          ((inject_Z v + inject_Z vp / (inject_Z (10 ^ Z.of_nat (length p) - 1))) * pow10 (- Z.of_nat (length f)))%Q, (m / n).
        rewrite (T Ht), <- app_assoc. split; auto. split; auto. split.
        { eapply fp_periodic; eauto. }
        rewrite Val, P10 by lia. apply Qplus_inj_l. unfold fracQ.
        assert (~ inject_Z n == 0)%Q as Nn by (apply inject_nz; lia).
        specialize (NZ10 (Z.of_nat (length f)) ltac:(lia)).
        assert (1 <= length p)%nat as Lp by (destruct p; simpl; [congruence|lia]).
        assert (10 <= 10 ^ Z.of_nat (length p)) as P9.
        { change 10 with (10 ^ 1) at 1. apply Z.pow_le_mono_r; lia. }
        set (D := 10 ^ Z.of_nat (length p) - 1) in *.
        assert (~ inject_Z D == 0)%Q as ND by (apply inject_nz; unfold D; lia).
        assert (inject_Z (m mod n) * inject_Z (10 ^ Z.of_nat (length f)) == inject_Z v * inject_Z n + inject_Z rm)%Q as Q1
          by (rewrite <- !inject_Z_mult, <- inject_Z_plus; now rewrite EQ1).
        assert (inject_Z rm * inject_Z D == inject_Z vp * inject_Z n)%Q as Q2
          by (rewrite <- !inject_Z_mult; now rewrite EQ2).
        setoid_replace (inject_Z vp) with (inject_Z rm * inject_Z D / inject_Z n)%Q by (rewrite Q2; field; auto).
        setoid_replace (inject_Z (m mod n)) with ((inject_Z v * inject_Z n + inject_Z rm) / inject_Z (10 ^ Z.of_nat (length f)))%Q
          by (rewrite <- Q1; field; auto).
        field. auto.
Qed.
