(** Arc length and parameters of subpaths made of lines. *)
From Coq Require Import Reals ZArith List Lra Lia Bool Arith.
From Verif Require Import PyDict TrafoModel BboxModel RootsModel CurveModel CurveSpec CurveProofs CurveProofs2 CurveProofs3 CurveProofs4
  NormsubModel NormsubSpec NormsubProofs NormsubProofs2 NormsubProofs3 NormsubProofs4.
Import ListNotations.
Open Scope R_scope.

Local Notation pt := (R * R)%type.

Lemma line_arclen_distance p q : line_arclen p q = distance p q.
Proof. rewrite distance_dist. unfold line_arclen, dist, hypot. f_equal. ring. Qed.
Definition len (l : pt * pt) : R := distance (fst l) (snd l).
Lemma total_cons l ls : total_length (l :: ls) = len l + total_length ls.
Proof. reflexivity. Qed.
Lemma lines_arclen_total ls : lines_arclen ls = total_length ls.
Proof.
  unfold lines_arclen. induction ls as [|[p q] ls IH]; auto. rewrite total_cons. simpl. rewrite IH, line_arclen_distance. reflexivity.
Qed.
Lemma total_app l1 l2 : total_length (l1 ++ l2) = total_length l1 + total_length l2.
Proof. induction l1 as [|l l1 IH]; simpl app; [unfold total_length; simpl; ring|]. rewrite !total_cons, IH. ring. Qed.

(** ** from lengths to parameters *)
Fixpoint a2p (k : nat) (ls : list (pt * pt)) (x : R) : option R :=
  match ls with
  | [] => None
  | l :: ls' =>
      if (ltb (x - len l) 0 || match ls' with [] => true | _ => false end)%bool then Some (INR k + x / len l)
      else a2p (S k) ls' (x - len l)
  end.
Lemma arclentoparam_loop_ok ls : forall k st total,
  map snd (fst (arclentoparam_loop k ls st total)) = map (fun '(x, r) => match r with Some _ => r | None => a2p k ls x end) st /\
  snd (arclentoparam_loop k ls st total) = total + total_length ls.
Proof.
  induction ls as [|[p q] ls IH]; intros k st total; cbn [arclentoparam_loop].
  - simpl. split; [|unfold total_length; simpl; ring]. apply map_ext. intros [x [r|]]; auto.
  - match goal with |- context [arclentoparam_loop (S k) ls ?a ?b] => destruct (IH (S k) a b) as [-> ->] end. rewrite map_map. split.
    + apply map_ext. intros [x [r|]]; auto. cbn [a2p]. unfold line_arclentoparam. rewrite line_arclen_distance. change (distance p q) with (len (p, q)).
      destruct (ltb (x - len (p, q)) 0 || match ls with [] => true | _ => false end)%bool; auto.
    + rewrite total_cons, line_arclen_distance. unfold len. simpl. ring.
Qed.
Lemma a2p_ok ls : Forall (fun l => 0 < len l) ls -> ls <> [] -> forall k x, (k = 0%nat \/ 0 <= x) ->
  exists j l, a2p k ls x = Some (INR (k + j) + (x - total_length (firstn j ls)) / len l) /\ nth_error ls j = Some l /\
    ((k + j = 0)%nat \/ 0 <= (x - total_length (firstn j ls)) / len l) /\ (S j = length ls \/ (x - total_length (firstn j ls)) / len l <= 1).
Proof.
  induction ls as [|l ls IH]; intros F N k x Hk; [congruence|]. inversion F as [|? ? F1 F2]; subst. cbn [a2p].
  assert (Q : 0 <= x -> 0 <= x / len l) by (intros; apply Rmult_le_pos; [auto|apply Rlt_le, Rinv_0_lt_compat; auto]).
  destruct (ltb_spec (x - len l) 0) as [L|L].
  - exists 0%nat, l. simpl. unfold total_length at 1 2 3. simpl. rewrite Nat.add_0_r, Rminus_0_r. split; auto. split; auto.
    split; [destruct Hk; auto|]. right. apply (Rmult_le_reg_r (len l)); auto. unfold Rdiv. rewrite Rmult_assoc, Rinv_l by lra. lra.
  - destruct ls as [|l' ls].
    + exists 0%nat, l. simpl. unfold total_length at 1 2 3. simpl. rewrite Nat.add_0_r, Rminus_0_r. split; auto. split; auto. split; auto. destruct Hk; auto.
    + cbv [orb]. destruct (IH F2 ltac:(discriminate) (S k) (x - len l)) as (j & m & E & Hn & H1 & H2); [right; lra|].
      exists (S j), m. replace (k + S j)%nat with (S k + j)%nat by lia. rewrite firstn_cons, total_cons.
      replace (x - (len l + total_length (firstn j (l' :: ls)))) with (x - len l - total_length (firstn j (l' :: ls))) by ring.
      split; auto. split; auto. split; [destruct H1; [lia|auto]|]. simpl length in *. destruct H2; [left; lia|auto].
Qed.
Lemma a2p_spec ls x : Forall (fun l => 0 < len l) ls -> ls <> [] -> exists t, a2p 0 ls x = Some t /\ arc_length_at ls t x.
Proof.
  intros F N. destruct (a2p_ok ls F N 0 x (or_introl eq_refl)) as (j & l & E & Hn & H1 & H2). simpl plus in *.
  eexists. split; [exact E|]. exists j, l. split; auto.
  assert (P : 0 < len l). { rewrite Forall_forall in F. apply F. eapply nth_error_In; eauto. }
  fold (len l). split; [field; lra|]. split; [destruct H1; [auto|right; lra]|]. destruct H2; [auto|right; lra].
Qed.

(** ** from parameters to lengths *)
Fixpoint starts (k : nat) (ls : list (pt * pt)) (total : R) : list (nat * (pt * pt) * R) :=
  match ls with [] => [] | l :: ls' => (k, l, total) :: starts (S k) ls' (total + len l) end.
Definition part (d : list (nat * (list nat * list R))) (x : nat * (pt * pt) * R) : list (nat * R) :=
  let '(j, l, t0) := x in
  match dget Nat.eqb j d with Some (ix, ss) => combine ix (map (fun t => t0 + len l * t) ss) | None => [] end.
Lemma paramtoarclen_loop_ok d : forall ls k result total,
  paramtoarclen_loop k ls d result total = (sets (flat_map (part d) (starts k ls total)) result, total + total_length ls).
Proof.
  induction ls as [|[p q] ls IH]; intros k result total; cbn [paramtoarclen_loop].
  - simpl. f_equal. unfold total_length. simpl. ring.
  - rewrite IH. f_equal.
    + cbn [flat_map starts]. unfold sets. rewrite fold_left_app.
      replace (line_arclen p q) with (len (p, q)) by (symmetry; apply line_arclen_distance).
      f_equal. unfold part. destruct (dget Nat.eqb k d) as [[ix ss]|]; auto.
      clear. revert ss result. induction ix as [|i ix IH]; intros [|s ss] result; simpl; auto.
    + rewrite total_cons, line_arclen_distance. unfold len. simpl. ring.
Qed.
Lemma starts_In ls : forall k total j l t0, In (j, l, t0) (starts k ls total) <->
  exists n, j = (k + n)%nat /\ nth_error ls n = Some l /\ t0 = total + total_length (firstn n ls).
Proof.
  induction ls as [|l ls IH]; intros k total j l0 t0; cbn [starts].
  - split; [intros []|]. intros ([|n] & _ & H & _); discriminate.
  - cbn [In]. rewrite IH. split.
    + intros [[= <- <- <-]|(n & -> & Hn & ->)].
      * exists 0%nat. split; [lia|]. split; auto. unfold total_length. simpl. ring.
      * exists (S n). split; [lia|]. split; auto. rewrite firstn_cons, total_cons. ring.
    + intros ([|n] & -> & Hn & ->).
      * left. injection Hn as ->. unfold total_length. simpl. rewrite Nat.add_0_r, Rplus_0_r. reflexivity.
      * right. exists n. split; [lia|]. split; auto. rewrite firstn_cons, total_cons. ring.
Qed.
Definition p2a (ls : list (pt * pt)) (t : R) : R :=
  let j := param_index (length ls) t in total_length (firstn j ls) + len (nth j ls ((0, 0), (0, 0))) * (t - INR j).
Lemma nsp_paramtoarclen_ok ls params : ls <> [] -> nsp_paramtoarclen ls params = (map (fun t => Some (p2a ls t)) params, total_length ls).
Proof.
  intros N. unfold nsp_paramtoarclen. destruct ls as [|l ls]; [congruence|]. rewrite paramtoarclen_loop_ok. set (all := l :: ls) in *.
  f_equal; [|ring]. unfold distributeparams.
  set (index := param_index (length all)). set (sub := fun t => t - INR (index t)).
  destruct (distribute_ok index sub params params 0 []) as [E V]; [auto|simpl; tauto|intros j p H; lia|].
  change (distribute_from index sub 0 params []) with (distribute index sub params) in *. simpl in V.
  set (d := distribute index sub params) in *.
  apply nth_error_ext. intros j. destruct (nth_error params j) as [t|] eqn:P.
  - assert (Hj : (j < length params)%nat) by (apply nth_error_Some; congruence).
    rewrite (map_nth_error _ j params P). apply sets_value.
    + rewrite repeat_length. auto.
    + intros c Hc. apply in_flat_map in Hc as ([[key m] t0] & Hs & Hc). apply starts_In in Hs as (n & -> & Hn & ->). unfold part in Hc. simpl plus in Hc.
      destruct (dget Nat.eqb n d) as [[ix ss]|] eqn:G; [|destruct Hc]. apply (dget_In Nat.eqb Nat.eqb_spec) in G. destruct (E _ G) as [_ F]. simpl in F.
      rewrite combine_map in Hc. apply in_map_iff in Hc as ([j' b] & [= -> <-] & Hc). destruct (F j b Hc) as (t' & T' & I' & <-).
      rewrite P in T'. injection T' as <-. unfold p2a. fold index. cbv zeta. rewrite I'. unfold sub. rewrite I'.
      rewrite (nth_error_nth all n _ Hn). ring.
    + left. destruct (V j t Hj P) as (ix & ss & G & I). apply in_map_iff. exists (j, 0 + total_length (firstn (index t) all) + len (nth (index t) all ((0, 0), (0, 0))) * sub t).
      split; auto. apply in_flat_map. exists (index t, nth (index t) all ((0, 0), (0, 0)), 0 + total_length (firstn (index t) all)). split.
      * apply starts_In. exists (index t). split; auto. split; auto. apply nth_error_nth'. unfold index. apply param_index_spec. simpl. lia.
      * unfold part. rewrite G, combine_map. apply in_map_iff. exists (j, sub t). auto.
  - assert (Hj : (length params <= j)%nat) by (apply nth_error_None; auto).
    transitivity (@None (option R)); [|symmetry; apply nth_error_None; rewrite map_length; auto].
    apply nth_error_None. rewrite sets_length, repeat_length. auto.
Qed.
Lemma p2a_spec ls t : ls <> [] -> arc_length_at ls t (p2a ls t).
Proof.
  intros N. destruct (param_index_spec (length ls) t) as (H1 & H2 & H3); [destruct ls; [congruence|simpl; lia]|].
  exists (param_index (length ls) t), (nth (param_index (length ls) t) ls ((0, 0), (0, 0))). split; [apply nth_error_nth'; auto|].
  split; [unfold p2a, len; ring|auto].
Qed.

(** ** the arc length is a strictly increasing function of the parameter *)
Lemma total_nonneg ls : 0 <= total_length ls.
Proof. induction ls as [|l ls IH]; [unfold total_length; simpl; lra|]. rewrite total_cons. unfold len, distance. pose proof (sqrt_pos ((fst (fst l) - fst (snd l)) ^ 2 + (snd (fst l) - snd (snd l)) ^ 2)). lra. Qed.
Lemma total_firstn_S ls k l : nth_error ls k = Some l -> total_length (firstn (S k) ls) = total_length (firstn k ls) + len l.
Proof.
  revert ls. induction k as [|k IH]; intros [|a ls] H; try discriminate.
  - injection H as ->. simpl firstn. rewrite !total_cons. unfold total_length. simpl. ring.
  - rewrite firstn_cons, total_cons, (IH ls H), firstn_cons, total_cons. ring.
Qed.
Lemma total_firstn_le ls j k : (j <= k)%nat -> total_length (firstn j ls) <= total_length (firstn k ls).
Proof.
  revert ls k. induction j as [|j IH]; intros ls k H; [apply total_nonneg|]. destruct k as [|k]; [lia|]. destruct ls as [|l ls]; [simpl; lra|].
  rewrite !firstn_cons, !total_cons. specialize (IH ls k ltac:(lia)). lra.
Qed.
Lemma arc_length_mono ls t u x y : Forall (fun l => 0 < len l) ls -> arc_length_at ls t x -> arc_length_at ls u y -> t < u -> x < y.
Proof.
  intros F (k & l & Hk & -> & K1 & K2) (k' & l' & Hk' & -> & K1' & K2') T.
  assert (P : forall k l, nth_error ls k = Some l -> 0 < len l) by (intros ? ? H; rewrite Forall_forall in F; apply F; eapply nth_error_In; eauto).
  assert (Pl := P k l Hk). assert (Pl' := P k' l' Hk'). fold (len l). fold (len l').
  assert (Lk : (k < length ls)%nat) by (apply nth_error_Some; congruence). assert (Lk' : (k' < length ls)%nat) by (apply nth_error_Some; congruence).
  destruct (lt_eq_lt_dec k k') as [[L| ->]|L].
  - assert (B : total_length (firstn (S k) ls) <= total_length (firstn k' ls)) by (apply total_firstn_le; lia).
    rewrite (total_firstn_S ls k l Hk) in B. assert (T1 : t <= INR k + 1) by (destruct K2; [lia|auto]). assert (T2 : INR k' <= u) by (destruct K1'; [lia|auto]).
    assert ((t - INR k) * len l <= len l) by nra. assert (0 <= (u - INR k') * len l') by nra.
    destruct (Rle_lt_or_eq_dec t (INR k + 1) T1) as [Lt|Eq]; [nra|].
    destruct (Rle_lt_or_eq_dec (INR k') u T2) as [Lt|Eq']; [assert (0 < (u - INR k') * len l') by nra; lra|].
    assert (INR (S k) < INR k') as Lk2 by (rewrite S_INR; lra). apply INR_lt in Lk2.
    assert (B2 : total_length (firstn (S (S k)) ls) <= total_length (firstn k' ls)) by (apply total_firstn_le; lia).
    destruct (nth_error ls (S k)) as [m|] eqn:Hm; [|apply nth_error_None in Hm; lia].
    rewrite (total_firstn_S ls (S k) m Hm), (total_firstn_S ls k l Hk) in B2. pose proof (P _ _ Hm). lra.
  - rewrite Hk in Hk'. injection Hk' as <-. nra.
  - exfalso. assert (T1 : u <= INR k' + 1) by (destruct K2'; [lia|auto]). assert (T2 : INR k <= t) by (destruct K1; [lia|auto]).
    assert (INR (S k') <= INR k) by (apply le_INR; lia). rewrite S_INR in *. lra.
Qed.
Lemma arc_length_unique ls t x y : arc_length_at ls t x -> arc_length_at ls t y -> x = y.
Proof.
  intros (k & l & Hk & -> & K1 & K2) (k' & l' & Hk' & -> & K1' & K2').
  assert (G : forall k l k' l', nth_error ls k = Some l -> nth_error ls k' = Some l' -> (S k = length ls \/ t <= INR k + 1) -> (k' = 0%nat \/ INR k' <= t) -> (k < k')%nat ->
     total_length (firstn k ls) + (t - INR k) * len l = total_length (firstn k' ls) + (t - INR k') * len l').
  { clear. intros k l k' l' Hk Hk' K2 K1' L.
    assert (Lk' : (k' < length ls)%nat) by (apply nth_error_Some; congruence).
    assert (T1 : t <= INR k + 1) by (destruct K2; [lia|auto]). assert (T2 : INR k' <= t) by (destruct K1'; [lia|auto]).
    assert (INR (S k) <= INR k') by (apply le_INR; lia). rewrite S_INR in *.
    assert (k' = S k) as ->. { apply INR_eq. rewrite S_INR. lra. }
    rewrite (total_firstn_S ls k l Hk). assert (E : t = INR k + 1) by (rewrite S_INR in *; lra). rewrite S_INR, E. ring. }
  destruct (lt_eq_lt_dec k k') as [[L| ->]|L].
  - apply (G k l k' l'); auto.
  - rewrite Hk in Hk'. injection Hk' as ->. auto.
  - symmetry. apply (G k' l' k l); auto.
Qed.
Lemma arc_length_param_unique ls t u x : Forall (fun l => 0 < len l) ls -> arc_length_at ls t x -> arc_length_at ls u x -> t = u.
Proof.
  intros F H1 H2. destruct (Rtotal_order t u) as [L|[E|L]]; auto; exfalso.
  - pose proof (arc_length_mono ls t u x x F H1 H2 L). lra.
  - pose proof (arc_length_mono ls u t x x F H2 H1 L). lra.
Qed.
