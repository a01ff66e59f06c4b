(** Parameters at arc lengths of normsubpaths: C173. *)
From Coq Require Import Reals List Lia Bool Lra.
From Verif Require Import TrafoModel BboxModel CurveModel CurveSpec CurveProofs2 CurveProps CurveLenModel CurveLenSpec CurveLenProofs CurveLenProps.
From Verif Require Import CurveArclenModel CurveArclenProps SubpathLenModel.
Import ListNotations.
Open Scope R_scope.

Local Notation pt := (R * R)%type.

(** the items for which parameters can be found: lines between different points, and curves as in C171 *)
Definition regular (epsilon : R) (i : item) : Prop :=
  match i with
  | Line p q => p <> q
  | Curve p0 p1 p2 p3 => forall d, straight_piece (p0, p1, p2, p3) epsilon d -> solvable d
  end.
(** the arc lengths of items *)
Definition arc_lengths (items : list item) (ss : list R) : Prop := Forall2 (fun i s => is_arc_length (at_pt i) 0 1 s) items ss.
Definition total_of (ss : list R) : R := fold_right Rplus 0 ss.

Lemma line_part p q t : 0 <= t -> is_arc_length (at_pt (Line p q)) 0 t (t * line_arclen p q).
Proof.
  intros T. pose proof (line_arclen_exact (at_pt (Line p q) 0) (at_pt (Line p q) t)) as L.
  change (Line (at_pt (Line p q) 0) (at_pt (Line p q) t)) with (segment (Line p q) 0 t) in L. apply arc_segment in L; [|exact T].
  replace (t * line_arclen p q) with (line_arclen (at_pt (Line p q) 0) (at_pt (Line p q) t)); [exact L|].
  destruct p as [x0 y0], q as [x1 y1]. unfold line_arclen, hypot, at_pt. simpl.
  rewrite <- (Rabs_pos_eq t) at 1 2 3 4 by exact T. rewrite <- (Rabs_pos_eq t T) at 5. rewrite (Rabs_pos_eq t T).
  rewrite <- (sqrt_Rsqr t T) at 5. rewrite <- sqrt_mult.
  - f_equal. unfold Rsqr. ring.
  - apply Rle_0_sqr.
  - pose proof (Rle_0_sqr (x0 - x1)). pose proof (Rle_0_sqr (y0 - y1)). unfold Rsqr in *. lra.
Qed.
Lemma line_positive p q : p <> q -> 0 < line_arclen p q.
Proof.
  intros N. pose proof (ends_polygon p p q q N) as H. unfold chord in H. rewrite dist_sym in H. exact H.
Qed.
Lemma item_accuracy eps i : 0 < eps -> regular eps i -> exists needed, forall fuel, (needed <= fuel)%nat ->
  exists total L, is_arc_length (at_pt i) 0 1 L /\ 0 <= total <= L /\ L < total + 2 * eps /\
  forall len, exists t, item_param fuel eps i len = Some (t, total) /\
    (0 <= len <= total -> 0 <= t <= 1 /\ exists s, is_arc_length (at_pt i) 0 t s /\ Rabs (s - len) < 2 * eps).
Proof.
  intros He G. destruct i as [p q|p0 p1 p2 p3].
  - exists O. intros fuel _. pose proof (line_positive p q G) as P. exists (line_arclen p q), (line_arclen p q). split; [apply line_arclen_exact|].
    split; [lra|]. split; [lra|]. intros len. unfold item_param. destruct (Req_EM_T (line_arclen p q) 0); [lra|].
    exists (len / line_arclen p q). split; [reflexivity|]. intros L.
    assert (T : 0 <= len / line_arclen p q) by (apply Rle_mult_inv_pos; lra).
    assert (E : len / line_arclen p q * line_arclen p q = len) by (field; lra).
    split; [split; [exact T|]; apply (Rmult_le_reg_r (line_arclen p q)); [exact P|]; lra|].
    exists len. split; [rewrite <- E at 2; apply line_part; exact T|]. rewrite Rminus_diag_eq, Rabs_R0 by reflexivity. lra.
  - destruct (curve_lengths_partial p0 p1 p2 p3 eps He G) as (n1 & N1). destruct (arclen_enclosed p0 p1 p2 p3 eps He) as (n2 & N2).
    exists (max n1 n2). intros fuel F. destruct (N1 fuel ltac:(lia)) as (total & T & K). destruct (N2 fuel ltac:(lia)) as (lo & up & L & LO & UP & AL & B & Gp).
    rewrite T in LO. injection LO as <-. exists total, L. split; [exact AL|].
    assert (0 <= total) by (destruct (K 0) as (t0 & P0 & _); apply (param_outside _ _ _ _ _ _ P0)).
    split; [lra|]. split; [lra|]. intros len. destruct (K len) as (t & P & Q & _). exists t. split; [exact P|exact Q].
Qed.
Lemma loop_accuracy eps items : 0 < eps -> Forall (regular eps) items -> exists needed, forall fuel, (needed <= fuel)%nat ->
  exists tot LL, arc_lengths items LL /\ 0 <= tot <= total_of LL /\ (items <> [] -> total_of LL < tot + 2 * INR (length items) * eps) /\
  (forall k len total0 r, items_loop fuel eps k items len (Some r) total0 = Some (Some r, total0 + tot)) /\
  (items <> [] -> forall k len total0, exists r, items_loop fuel eps k items len None total0 = Some (Some r, total0 + tot) /\
    (0 <= len <= tot -> exists j i t ss s, nth_error items j = Some i /\ r = INR (k + j) + t /\ 0 <= t <= 1 /\
      arc_lengths (firstn j items) ss /\ is_arc_length (at_pt i) 0 t s /\ Rabs (total_of ss + s - len) < 2 * INR (S j) * eps)).
Proof.
  intros He. induction items as [|i items IH]; intros G.
  - exists O. intros fuel _. exists 0, []. split; [constructor|]. split; [simpl; lra|]. split; [contradiction|]. split; [|contradiction].
    intros k len total0 r. simpl. now rewrite Rplus_0_r.
  - apply Forall_cons_iff in G. destruct G as [G1 G2]. destruct (IH G2) as (n1 & N1). destruct (item_accuracy eps i He G1) as (n2 & N2).
    exists (max n1 n2). intros fuel F. destruct (N1 fuel ltac:(lia)) as (tot & LL & AL & B1 & B2 & S1 & S2). destruct (N2 fuel ltac:(lia)) as (x & L & A & X1 & X2 & K).
    exists (x + tot), (L :: LL). split; [constructor; auto|]. split; [simpl; lra|]. split; [|split].
    + intros _. change (total_of (L :: LL)) with (L + total_of LL). change (length (i :: items)) with (S (length items)). rewrite S_INR. destruct items as [|i2 items].
      * inversion AL. subst. simpl. lra.
      * specialize (B2 ltac:(discriminate)). lra.
    + intros k len total0 r. cbn [items_loop]. destruct (K len) as (t & -> & _). rewrite S1, Rplus_assoc. reflexivity.
    + intros _ k len total0. cbn [items_loop]. destruct (K len) as (t & -> & T). cbv zeta. destruct (Rlt_dec (len - x) 0) as [C|C].
      * exists (INR k + t). rewrite S1, Rplus_assoc. split; [reflexivity|]. intros B. destruct (T ltac:(lra)) as (T1 & s & T2 & T3).
        exists O, i, t, [], s. split; [reflexivity|]. split; [now rewrite Nat.add_0_r|]. split; [exact T1|]. split; [constructor|]. split; [exact T2|].
        simpl. rewrite Rplus_0_l. lra.
      * destruct items as [|i2 items].
        -- exists (INR k + t). rewrite S1, Rplus_assoc. split; [reflexivity|]. intros B.
           assert (tot = 0) by (inversion AL; subst; simpl in B1; lra). destruct (T ltac:(lra)) as (T1 & s & T2 & T3).
           exists O, i, t, [], s. split; [reflexivity|]. split; [now rewrite Nat.add_0_r|]. split; [exact T1|]. split; [constructor|]. split; [exact T2|].
           simpl. rewrite Rplus_0_l. lra.
        -- destruct (S2 ltac:(discriminate) (S k) (len - x) (total0 + x)) as (r & E & Q). exists r. rewrite E, Rplus_assoc. split; [reflexivity|].
           intros B. destruct (Q ltac:(lra)) as (j & i' & t' & ss & s & Q1 & Q2 & Q3 & Q4 & Q5 & Q6).
           exists (S j), i', t', (L :: ss), s. split; [exact Q1|]. split; [now replace (k + S j)%nat with (S k + j)%nat by lia|]. split; [exact Q3|].
           split; [constructor; auto|]. split; [exact Q5|]. change (total_of (L :: ss)) with (L + total_of ss).
           rewrite (S_INR (S j)). apply Rabs_def2 in Q6. apply Rabs_def1; lra.
Qed.

(** C173: for a normsubpath of items for which parameters can be found, a parameter is found for every length; the total is a lower
    bound of the arc length which differs by less than twice epsilon for each item.  For lengths up to the total the parameter names
    a point of an item, and the arc length up to it differs from the given length by less than twice epsilon for each item up to this one. *)
Theorem subpath_lengths_partial : forall items epsilon, 0 < epsilon -> items <> [] -> Forall (regular epsilon) items ->
  exists needed, forall fuel, (needed <= fuel)%nat ->
  exists total ls, arc_lengths items ls /\ total <= total_of ls < total + 2 * INR (length items) * epsilon /\
  forall len, exists r, subpath_param fuel epsilon items len = Some (Some r, total) /\
    (0 <= len <= total -> exists j i t ss s, nth_error items j = Some i /\ r = INR j + t /\ 0 <= t <= 1 /\
      arc_lengths (firstn j items) ss /\ is_arc_length (at_pt i) 0 t s /\ Rabs (total_of ss + s - len) < 2 * INR (S j) * epsilon).
Proof.
  intros items eps He N G. destruct (loop_accuracy eps items He G) as (n & H). exists n. intros fuel F.
  destruct (H fuel F) as (tot & LL & A & B1 & B2 & _ & K). exists tot, LL. split; [exact A|]. split; [specialize (B2 N); lra|].
  intros len. destruct (K N 0%nat len 0) as (r & E & Q). exists r. rewrite Rplus_0_l in E. split; [exact E|exact Q].
Qed.
Print Assumptions subpath_lengths_partial.
(** a line of length 5 followed by a curve: the point at length 25 is on the curve *)
Example subpath_lengths_ex : exists fuel t s,
  subpath_param fuel 2 [Line (-3, -4) (0, 0); Curve (0, 0) (12, 16) (20, 16) (32, 0)] 25 = Some (Some (1 + t), 45) /\
  0 <= t <= 1 /\ is_arc_length (at_pt (Curve (0, 0) (12, 16) (20, 16) (32, 0))) 0 t s /\ Rabs (5 + s - 25) < 4.
Proof.
  destruct (arch_at 20 ltac:(lra)) as (fuel & t & s & P & T & A & B). exists fuel, t, s. split; [|split; [exact T|split; [exact A|]]].
  - unfold subpath_param. cbn [items_loop item_param]. assert (R5 : line_arclen (-3, -4) (0, 0) = 5) by (apply hypot_is; simpl; lra). rewrite !R5.
    destruct (Req_EM_T 5 0); [lra|]. cbv zeta. destruct (Rlt_dec (25 - 5) 0); [lra|]. replace (25 - 5) with 20 by ring. rewrite P.
    cbv zeta. destruct (Rlt_dec (20 - 40) 0); [|lra]. simpl INR. f_equal. apply pair_eq; [reflexivity|ring].
  - replace (5 + s - 25) with (s - 20) by ring. exact B.
Qed.
