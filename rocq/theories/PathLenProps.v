(** Parameters at arc lengths of normpaths: C173. *)
From Coq Require Import Reals List Lia Bool Lra.
From Verif Require Import CurveModel CurveSpec CurveProofs2 CurveProps CurveLenModel CurveLenSpec CurveLenProps.
From Verif Require Import CurveArclenProps SubpathLenModel SubpathLenProps.
Import ListNotations.
Open Scope R_scope.

Lemma total_app a b : total_of (a ++ b) = total_of a + total_of b.
Proof. induction a as [|x a IH]; simpl; [ring|]. rewrite IH. ring. Qed.
Lemma arcs_length {items ss} : arc_lengths items ss -> length items = length ss.
Proof. induction 1; simpl; auto. Qed.
Lemma subpaths_accuracy eps np : 0 < eps -> Forall (fun sp => sp <> [] /\ Forall (regular eps) sp) np -> exists needed, forall fuel, (needed <= fuel)%nat ->
  exists tot LL, arc_lengths (concat np) LL /\ 0 <= tot <= total_of LL /\ (np <> [] -> total_of LL < tot + 2 * INR (length LL) * eps) /\
  (forall k len r, subpaths_loop fuel eps k np len (Some r) = Some (Some r)) /\
  (np <> [] -> forall k len, exists m p, subpaths_loop fuel eps k np len None = Some (Some (m, Some p)) /\
    (0 <= len <= tot -> exists j sp n i t ss s, nth_error np j = Some sp /\ nth_error sp n = Some i /\ m = (k + j)%nat /\ p = INR n + t /\ 0 <= t <= 1 /\
      arc_lengths (concat (firstn j np) ++ firstn n sp) ss /\ is_arc_length (at_pt i) 0 t s /\ Rabs (total_of ss + s - len) < 2 * INR (S (length ss)) * eps)).
Proof.
  intros He. induction np as [|sp np IH]; intros G.
  - exists O. intros fuel _. exists 0, []. split; [constructor|]. split; [simpl; lra|]. split; [contradiction|]. split; [reflexivity|contradiction].
  - apply Forall_cons_iff in G. destruct G as [[G0 G1] G2]. destruct (IH G2) as (n1 & N1). destruct (subpath_lengths_partial sp eps He G0 G1) as (n2 & N2).
    exists (max n1 n2). intros fuel F. destruct (N1 fuel ltac:(lia)) as (tot & LL & AL & B1 & B2 & S1 & S2). destruct (N2 fuel ltac:(lia)) as (x & L & A & X1 & K).
    assert (X0 : 0 <= x).
    { unfold subpath_param in K.
      assert (P : forall items k len r total, (forall i, In i items -> regular eps i) -> forall o y, items_loop fuel eps k items len r total = Some (o, y) -> total <= y).
      { induction items as [|i items IHi]; intros k len r total R o y; cbn [items_loop]; [intros [= _ <-]; lra|].
        destruct (item_param fuel eps i len) as [[t a]|] eqn:E; [|discriminate].
        assert (0 <= a).
        { destruct i as [p q|p0 p1 p2 p3]; cbn [item_param] in E.
          - destruct (Req_EM_T _ 0); [discriminate|]. injection E as <- <-. apply sqrt_pos.
          - apply (param_outside _ _ _ _ _ _ E). }
        assert (R' : forall i', In i' items -> regular eps i') by (intros; apply R; now right).
        destruct r; cbv zeta; intros Q; apply IHi in Q; auto; lra. }
      destruct (K 0) as (r & E & _). apply (P sp _ _ _ _ (proj1 (Forall_forall _ _) G1)) in E. exact E. }
    assert (LC : length L = length sp) by (symmetry; exact (arcs_length A)).
    exists (x + tot), (L ++ LL). split; [apply Forall2_app; assumption|]. rewrite total_app. split; [lra|]. split; [|split].
    + intros _. rewrite app_length, plus_INR, LC. destruct np as [|sp2 np].
      * inversion AL. subst. simpl. simpl in B1. lra.
      * specialize (B2 ltac:(discriminate)). lra.
    + intros k len r. cbn [subpaths_loop]. destruct (K len) as (t & -> & _). reflexivity.
    + intros _ k len. cbn [subpaths_loop]. destruct (K len) as (p & -> & T). cbv zeta.
      assert (Here : 0 <= len <= x -> exists j sp' n i t ss s, nth_error (sp :: np) j = Some sp' /\ nth_error sp' n = Some i /\ k = (k + j)%nat /\ p = INR n + t /\ 0 <= t <= 1 /\
        arc_lengths (concat (firstn j (sp :: np)) ++ firstn n sp') ss /\ is_arc_length (at_pt i) 0 t s /\ Rabs (total_of ss + s - len) < 2 * INR (S (length ss)) * eps).
      { intros B. destruct (T B) as (n & i & t & ss & s & Q1 & Q2 & Q3 & Q4 & Q5 & Q6). exists O, sp, n, i, t, ss, s.
        split; [reflexivity|]. split; [exact Q1|]. split; [lia|]. split; [exact Q2|]. split; [exact Q3|]. split; [exact Q4|]. split; [exact Q5|].
        replace (length ss) with n; [exact Q6|]. rewrite <- (arcs_length Q4), firstn_length. assert (n < length sp)%nat by (apply nth_error_Some; congruence). lia. }
      destruct (Rlt_dec (len - x) 0) as [C|C].
      * exists k, p. rewrite S1. split; [reflexivity|]. intros B. apply Here. lra.
      * destruct np as [|sp2 np].
        -- exists k, p. rewrite S1. split; [reflexivity|]. intros B. apply Here. inversion AL; subst; simpl in B1. lra.
        -- destruct (S2 ltac:(discriminate) (S k) (len - x)) as (m & q & E & Q). exists m, q. rewrite E. split; [reflexivity|]. intros B.
           destruct (Q ltac:(lra)) as (j & sp' & n & i & t & ss & s & Q1 & Q2 & Q3 & Q4 & Q5 & Q6 & Q7 & Q8).
           exists (S j), sp', n, i, t, (L ++ ss), s. split; [exact Q1|]. split; [exact Q2|]. split; [lia|]. split; [exact Q4|]. split; [exact Q5|].
           split; [cbn [firstn concat]; rewrite <- app_assoc; apply Forall2_app; assumption|]. split; [exact Q7|].
           rewrite total_app, app_length. replace (S (length L + length ss)) with (length L + S (length ss))%nat by lia. rewrite plus_INR, LC.
           apply Rabs_def2 in Q8. apply Rabs_def1; lra.
Qed.

(** C173: the same for paths of several subpaths: for each length up to a total, which is a lower bound of the arc length, a parameter on
    one of the subpaths is found; the error is less than twice epsilon for each item up to the one with the point. *)
Theorem path_lengths_partial : forall np epsilon, 0 < epsilon -> np <> [] -> Forall (fun sp => sp <> [] /\ Forall (regular epsilon) sp) np ->
  exists needed, forall fuel, (needed <= fuel)%nat ->
  exists total ls, arc_lengths (concat np) ls /\ total <= total_of ls < total + 2 * INR (length ls) * epsilon /\
  forall len, exists j p, path_param fuel epsilon np len = Some (Some (j, Some p)) /\
    (0 <= len <= total -> exists sp n i t ss s, nth_error np j = Some sp /\ nth_error sp n = Some i /\ p = INR n + t /\ 0 <= t <= 1 /\
      arc_lengths (concat (firstn j np) ++ firstn n sp) ss /\ is_arc_length (at_pt i) 0 t s /\ Rabs (total_of ss + s - len) < 2 * INR (S (length ss)) * epsilon).
Proof.
  intros np eps He N G. destruct (subpaths_accuracy eps np He G) as (n & H). exists n. intros fuel F.
  destruct (H fuel F) as (tot & LL & A & B1 & B2 & _ & K). exists tot, LL. split; [exact A|]. split; [specialize (B2 N); lra|].
  intros len. destruct (K N 0%nat len) as (m & p & E & Q). exists m, p. split; [exact E|]. intros B.
  destruct (Q B) as (j & sp & n' & i & t & ss & s & Q1 & Q2 & Q3 & R). simpl in Q3. subst m. exists sp, n', i, t, ss, s. split; [exact Q1|]. split; [exact Q2|]. exact R.
Qed.
Print Assumptions path_lengths_partial.
(** a line of length 5 and an arch as subpaths: the point at length 25 is on the second subpath *)
Example path_lengths_ex : exists fuel t s,
  path_param fuel 2 [[Line (-3, -4) (0, 0)]; [Curve (0, 0) (12, 16) (20, 16) (32, 0)]] 25 = Some (Some (1%nat, Some (0 + t))) /\
  0 <= t <= 1 /\ is_arc_length (at_pt (Curve (0, 0) (12, 16) (20, 16) (32, 0))) 0 t s /\ Rabs (5 + s - 25) < 4.
Proof.
  destruct (arch_at 20 ltac:(lra)) as (fuel & t & s & P & T & A & B). exists fuel, t, s. split; [|split; [exact T|split; [exact A|]]].
  - unfold path_param, subpath_param. cbn [subpaths_loop items_loop item_param]. unfold subpath_param. cbn [items_loop item_param].
    assert (R5 : line_arclen (-3, -4) (0, 0) = 5) by (apply hypot_is; simpl; lra). rewrite !R5.
    destruct (Req_EM_T 5 0); [lra|]. cbv zeta. rewrite Rplus_0_l. destruct (Rlt_dec (25 - 5) 0); [lra|]. replace (25 - 5) with 20 by ring. rewrite P.
    destruct (Rlt_dec (20 - 40) 0) as [|]; [|lra]. destruct (Rlt_dec _ 0); reflexivity.
  - replace (5 + s - 25) with (s - 20) by ring. exact B.
Qed.
