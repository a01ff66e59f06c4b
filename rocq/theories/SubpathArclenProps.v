(** Arc lengths up to parameters of normsubpaths and normpaths: C172. *)
From Coq Require Import Reals List Arith Lia Bool Lra.
From Verif Require Import CurveModel CurveSpec CurveProofs2 CurveProps CurveLenProofs CurveLenProps CurveArclenModel CurveArclenProps.
From Verif Require Import SubpathLenModel SubpathLenProps PathLenProps NormsubModel NormsubProofs4 SubpathArclenModel.
Import ListNotations.
Open Scope R_scope.

Lemma item_arclen_ok eps i : 0 < eps -> exists needed, forall fuel, (needed <= fuel)%nat -> exists x L,
  item_arclen fuel eps i = Some x /\ is_arc_length (at_pt i) 0 1 L /\ x <= L < x + 2 * eps.
Proof.
  intros He. destruct i as [p q|p0 p1 p2 p3].
  - exists O. intros fuel _. exists (line_arclen p q), (line_arclen p q). split; [reflexivity|]. split; [apply line_arclen_exact|]. lra.
  - destruct (arclen_enclosed p0 p1 p2 p3 eps He) as (n & N). exists n. intros fuel F. destruct (N fuel F) as (lo & up & L & LO & UP & A & B & G).
    exists lo, L. split; [exact LO|]. split; [exact A|]. lra.
Qed.
Lemma item_paramtoarclen_ok eps i t : 0 < eps -> 0 <= t <= 1 -> exists needed, forall fuel, (needed <= fuel)%nat -> exists a x s,
  item_paramtoarclen fuel eps i t = Some (a, x) /\ is_arc_length (at_pt i) 0 t s /\ a <= s < a + 2 * eps.
Proof.
  intros He T. destruct i as [p q|p0 p1 p2 p3].
  - exists O. intros fuel _. exists (line_arclen p q * t), (line_arclen p q * 1), (t * line_arclen p q). split; [reflexivity|].
    split; [apply line_part; lra|]. rewrite (Rmult_comm t). lra.
  - destruct (curve_arclens_partial p0 p1 p2 p3 [t] eps He ltac:(simpl; lra)) as (n & N). exists n. intros fuel F.
    destruct (N fuel F) as (ls & total & E & L & K & _). destruct ls as [|a [|? ?]]; try discriminate.
    destruct (K 0%nat t eq_refl) as (a' & s & X & Y & Z). injection X as <-. exists a, total, s. unfold item_paramtoarclen. rewrite E.
    split; [reflexivity|]. split; [exact Y|]. simpl in Z. lra.
Qed.
Lemma lengths_behind eps items t : 0 < eps -> exists needed, forall fuel, (needed <= fuel)%nat ->
  forall index k r total, (index < k)%nat -> exists y, lengths_loop fuel eps k items index t (Some r) total = Some (Some r, y).
Proof.
  intros He. induction items as [|i items (n1 & N1)]; [exists O; intros fuel _ index k r total _; exists total; reflexivity|].
  destruct (item_arclen_ok eps i He) as (n2 & N2). exists (max n1 n2). intros fuel F index k r total L. cbn [lengths_loop].
  destruct (Nat.eqb_spec k index); [lia|]. destruct (N2 fuel ltac:(lia)) as (x & _ & -> & _). apply N1; lia.
Qed.
Lemma lengths_ok eps items t : 0 < eps -> 0 <= t <= 1 -> forall j i, nth_error items j = Some i -> exists needed, forall fuel, (needed <= fuel)%nat ->
  exists a ss s, arc_lengths (firstn j items) ss /\ is_arc_length (at_pt i) 0 t s /\ a <= total_of ss + s < a + 2 * INR (S j) * eps /\
  forall k total, exists y, lengths_loop fuel eps k items (k + j) t None total = Some (Some (total + a), y).
Proof.
  intros He T. induction items as [|i0 items IH]; intros [|j] i J; try discriminate.
  - injection J as ->. destruct (item_paramtoarclen_ok eps i t He T) as (n1 & N1).
    destruct (lengths_behind eps items t He) as (n2 & N2). exists (max n1 n2). intros fuel F. destruct (N1 fuel ltac:(lia)) as (a & x & s & E & A & L).
    exists a, [], s. split; [constructor|]. split; [exact A|]. split; [simpl; lra|]. intros k total. cbn [lengths_loop]. rewrite Nat.add_0_r, Nat.eqb_refl, E.
    apply N2; lia.
  - cbn [nth_error] in J. destruct (IH j i J) as (n1 & N1). destruct (item_arclen_ok eps i0 He) as (n2 & N2). exists (max n1 n2). intros fuel F.
    destruct (N1 fuel ltac:(lia)) as (a & ss & s & A1 & A2 & A3 & A4). destruct (N2 fuel ltac:(lia)) as (x & L & E & A & B).
    exists (x + a), (L :: ss), s. split; [constructor; auto|]. split; [exact A2|]. split.
    + change (total_of (L :: ss)) with (L + total_of ss). rewrite (S_INR (S j)). lra.
    + intros k total. cbn [lengths_loop]. destruct (Nat.eqb_spec k (k + S j)); [lia|]. rewrite E.
      destruct (A4 (S k) (total + x)) as (y & Y). exists y. replace (k + S j)%nat with (S k + j)%nat by lia. rewrite Y. now rewrite Rplus_assoc.
Qed.

(** C172: a parameter between 0 and the number of items names the item and the parameter on it, and gives a lower bound of the arc
    length up to this point, which differs by less than twice epsilon for each item up to this one. *)
Theorem subpath_arclens : forall items p epsilon, 0 < epsilon -> items <> [] -> 0 <= p <= INR (length items) ->
  exists j i t ss s, nth_error items j = Some i /\ p = INR j + t /\ 0 <= t <= 1 /\ arc_lengths (firstn j items) ss /\ is_arc_length (at_pt i) 0 t s /\
  exists needed, forall fuel, (needed <= fuel)%nat -> exists a total,
    subpath_paramtoarclen fuel epsilon items p = Some (Some a, total) /\ a <= total_of ss + s < a + 2 * INR (S j) * epsilon.
Proof.
  intros items p eps He N P. assert (Len : (0 < length items)%nat) by (destruct items; [congruence|simpl; lia]).
  destruct (param_index_spec (length items) p Len) as (H1 & H2 & H3). set (j := param_index (length items) p) in *.
  destruct (nth_error items j) as [i|] eqn:J; [|apply nth_error_None in J; lia].
  assert (T : 0 <= p - INR j <= 1).
  { split.
    - destruct H2 as [H2|H2]; [rewrite H2; simpl; lra|lra].
    - destruct H3 as [H3|H3]; [rewrite <- H3, S_INR in P; lra|lra]. }
  destruct (lengths_ok eps items (p - INR j) He T j i J) as (n & K). destruct (K n ltac:(lia)) as (_ & ss & s & A1 & A2 & _).
  exists j, i, (p - INR j), ss, s. split; [exact J|]. split; [ring|]. split; [exact T|]. split; [exact A1|]. split; [exact A2|].
  exists n. intros fuel F. destruct (K fuel F) as (a & ss' & s' & B1 & B2 & B3 & B4). destruct (B4 0%nat 0) as (y & Y). exists a, y. split.
  - unfold subpath_paramtoarclen. destruct items; [congruence|]. fold j. cbv zeta. cbn [plus] in Y. rewrite Rplus_0_l in Y. exact Y.
  - assert (U : forall f b x x', is_arc_length f 0 b x -> is_arc_length f 0 b x' -> x = x') by (intros f b x x' X X'; apply Rle_antisym; [apply X, X'|apply X', X]).
    rewrite (U _ _ _ _ A2 B2). replace (total_of ss) with (total_of ss'); [exact B3|]. f_equal.
    clear - A1 B1 U. revert ss' B1. induction A1 as [|x y l l' A1 A2 IH]; intros ss' B1; inversion B1; subst; [reflexivity|]. f_equal; [eapply U; eassumption|auto].
Qed.
Print Assumptions subpath_arclens.
(** behind a line of length 5: the parameter 1.5 is in the middle of the curve *)
Example subpath_arclens_ex : exists fuel a total s, subpath_paramtoarclen fuel 2 [Line (-3, -4) (0, 0); Curve (0, 0) (12, 16) (20, 16) (32, 0)] (3 / 2) = Some (Some a, total) /\
  is_arc_length (at_pt (Curve (0, 0) (12, 16) (20, 16) (32, 0))) 0 (1 / 2) s /\ a <= 5 + s < a + 8.
Proof.
  destruct (subpath_arclens [Line (-3, -4) (0, 0); Curve (0, 0) (12, 16) (20, 16) (32, 0)] (3 / 2) 2 ltac:(lra) ltac:(discriminate) ltac:(simpl; lra))
    as (j & i & t & ss & s & J & E & T & A & B & n & K). destruct (K n ltac:(lia)) as (a & total & F & G). exists n, a, total, s.
  assert (j = 1%nat).
  { destruct j as [|[|j]]; [simpl in E; lra|reflexivity|]. exfalso. assert (S (S j) < 2)%nat by (change 2%nat with (length [Line (-3, -4) (0, 0); Curve (0, 0) (12, 16) (20, 16) (32, 0)]); apply nth_error_Some; congruence). lia. }
  subst j. injection J as <-. simpl in E. replace t with (1 / 2) in * by lra. split; [exact F|]. split; [exact B|].
  inversion A as [|x y l l' A1 A2]; subst. inversion A2; subst. simpl in G.
  assert (y = 5); [|subst; lra]. apply Rle_antisym.
  - apply A1. replace 5 with (line_arclen (-3, -4) (0, 0)) by (apply hypot_is; simpl; lra). apply line_arclen_exact.
  - replace 5 with (line_arclen (-3, -4) (0, 0)) by (apply hypot_is; simpl; lra). apply line_arclen_exact. apply A1.
Qed.

Lemma subpath_arclen_ok eps items : 0 < eps -> exists needed, forall fuel, (needed <= fuel)%nat -> exists x ls,
  subpath_arclen fuel eps items = Some x /\ arc_lengths items ls /\ x <= total_of ls <= x + 2 * INR (length items) * eps.
Proof.
  intros He. induction items as [|i items (n1 & N1)].
  - exists O. intros fuel _. exists 0, []. split; [reflexivity|]. split; [constructor|]. simpl. lra.
  - destruct (item_arclen_ok eps i He) as (n2 & N2). exists (max n1 n2). intros fuel F.
    destruct (N1 fuel ltac:(lia)) as (x & ls & E & A & B). destruct (N2 fuel ltac:(lia)) as (y & L & E' & A' & B').
    exists (y + x), (L :: ls). cbn [subpath_arclen]. rewrite E, E'. split; [reflexivity|]. split; [constructor; auto|].
    change (total_of (L :: ls)) with (L + total_of ls). change (length (i :: items)) with (S (length items)). rewrite S_INR. lra.
Qed.
(** C172: the same for a parameter on one of several subpaths: the subpaths before it are added. *)
Theorem path_arclens : forall np j sp p epsilon, 0 < epsilon -> nth_error np j = Some sp -> sp <> [] -> 0 <= p <= INR (length sp) ->
  exists needed, forall fuel, (needed <= fuel)%nat -> exists n i t ss s a,
    nth_error sp n = Some i /\ p = INR n + t /\ 0 <= t <= 1 /\ arc_lengths (concat (firstn j np) ++ firstn n sp) ss /\ is_arc_length (at_pt i) 0 t s /\
    path_paramtoarclen_one fuel epsilon np j p 0 = Some (Some a) /\ a <= total_of ss + s < a + 2 * INR (S (length ss)) * epsilon.
Proof.
  intros np j sp p eps He J N P.
  assert (H : exists needed, forall fuel, (needed <= fuel)%nat -> exists n i t ss s a,
    nth_error sp n = Some i /\ p = INR n + t /\ 0 <= t <= 1 /\ arc_lengths (concat (firstn j np) ++ firstn n sp) ss /\ is_arc_length (at_pt i) 0 t s /\
    (forall total, path_paramtoarclen_one fuel eps np j p total = Some (Some (total + a))) /\ a <= total_of ss + s < a + 2 * INR (S (length ss)) * eps).
  { revert j J. induction np as [|sp0 np IH]; intros [|j] J; try discriminate.
    - injection J as ->. destruct (subpath_arclens sp p eps He N P) as (n & i & t & ss & s & Q1 & Q2 & Q3 & Q4 & Q5 & m & K).
      exists m. intros fuel F. destruct (K fuel F) as (a & total & E & B). exists n, i, t, ss, s, a. split; [exact Q1|]. split; [exact Q2|]. split; [exact Q3|].
      split; [exact Q4|]. split; [exact Q5|]. split; [intros total0; cbn [path_paramtoarclen_one]; now rewrite E|].
      replace (length ss) with n; [exact B|]. rewrite <- (arcs_length Q4), firstn_length. assert (n < length sp)%nat by (apply nth_error_Some; congruence). lia.
    - cbn [nth_error] in J. destruct (IH j J) as (n1 & N1). destruct (subpath_arclen_ok eps sp0 He) as (n2 & N2). exists (max n1 n2). intros fuel F.
      destruct (N1 fuel ltac:(lia)) as (n & i & t & ss & s & a & Q1 & Q2 & Q3 & Q4 & Q5 & Q6 & Q7). destruct (N2 fuel ltac:(lia)) as (x & ls & E & A & B).
      exists n, i, t, (ls ++ ss), s, (x + a). split; [exact Q1|]. split; [exact Q2|]. split; [exact Q3|].
      split; [cbn [firstn concat]; rewrite <- app_assoc; apply Forall2_app; assumption|]. split; [exact Q5|]. split.
      + intros total. cbn [path_paramtoarclen_one]. rewrite E, Q6. now rewrite Rplus_assoc.
      + rewrite total_app, app_length. replace (S (length ls + length ss)) with (length ls + S (length ss))%nat by lia. rewrite plus_INR, <- (arcs_length A). lra. }
  destruct H as (n & K). exists n. intros fuel F. destruct (K fuel F) as (m & i & t & ss & s & a & Q1 & Q2 & Q3 & Q4 & Q5 & Q6 & Q7).
  exists m, i, t, ss, s, a. split; [exact Q1|]. split; [exact Q2|]. split; [exact Q3|]. split; [exact Q4|]. split; [exact Q5|]. split; [|exact Q7].
  rewrite Q6. now rewrite Rplus_0_l.
Qed.
Print Assumptions path_arclens.
Example path_arclens_ex : path_paramtoarclen_one 0 1 [[Line (-3, -4) (0, 0)]; [Line (0, 0) (6, 8); Line (6, 8) (6, 10)]] 1 (3 / 2) 0 = Some (Some 16).
Proof.
  assert (R1 : line_arclen (-3, -4) (0, 0) = 5) by (apply hypot_is; simpl; lra). assert (R2 : line_arclen (0, 0) (6, 8) = 10) by (apply hypot_is; simpl; lra).
  assert (R3 : line_arclen (6, 8) (6, 10) = 2) by (apply hypot_is; simpl; lra).
  cbn [path_paramtoarclen_one subpath_arclen item_arclen]. unfold subpath_paramtoarclen. cbn [length].
  destruct (param_index_spec 2 (3 / 2) ltac:(lia)) as (H1 & H2 & H3). destruct (param_index 2 (3 / 2)) as [|[|k]]; [simpl in H3; destruct H3; [lia|lra]| |lia].
  cbn [lengths_loop Nat.eqb item_arclen item_paramtoarclen option_map]. rewrite R1, R2, R3. simpl INR. do 2 f_equal. field.
Qed.
