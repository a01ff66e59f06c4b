(** Range, splitting and arc length of Bezier curves. *)
From Coq Require Import Reals List Lra Lia Bool.
From Verif Require Import TrafoModel BboxModel BboxSpec BboxProps CurveModel CurveSpec.
Import ListNotations.
Open Scope R_scope.

Local Notation pt := (R * R)%type.

(** ** the range of a cubic *)
Lemma fold_min_le l : forall x, fold_left Rmin l x <= x /\ (forall y, In y l -> fold_left Rmin l x <= y) /\
  (fold_left Rmin l x = x \/ In (fold_left Rmin l x) l).
Proof.
  induction l as [|y l IH]; simpl; intros x; [split; [lra|tauto]|].
  destruct (IH (Rmin x y)) as [H1 [H2 H3]]. pose proof (Rmin_l x y). pose proof (Rmin_r x y).
  split; [lra|]. split.
  - intros z [<-|Hz]; [lra|auto].
  - destruct H3 as [H3|H3]; [|tauto]. destruct (Rmin_cases x y) as [[_ E]|[_ E]]; rewrite E in *; tauto || (right; left; lra).
Qed.
Lemma fold_max_ge l : forall x, x <= fold_left Rmax l x /\ (forall y, In y l -> y <= fold_left Rmax l x) /\
  (fold_left Rmax l x = x \/ In (fold_left Rmax l x) l).
Proof.
  induction l as [|y l IH]; simpl; intros x; [split; [lra|tauto]|].
  destruct (IH (Rmax x y)) as [H1 [H2 H3]]. pose proof (Rmax_l x y). pose proof (Rmax_r x y).
  split; [lra|]. split.
  - intros z [<-|Hz]; [lra|auto].
  - destruct H3 as [H3|H3]; [|tauto]. destruct (Rmax_cases x y) as [[_ E]|[_ E]]; rewrite E in *; tauto || (right; left; lra).
Qed.

(** a function differentiable on the unit interval has its extrema at the ends or where the
    derivative vanishes *)
Lemma extremum (f f' : R -> R) : (forall t, derivable_pt_lim f t (f' t)) ->
  exists m M, 0 <= m <= 1 /\ 0 <= M <= 1 /\ (forall t, 0 <= t <= 1 -> f m <= f t <= f M) /\
    (0 < m < 1 -> f' m = 0) /\ (0 < M < 1 -> f' M = 0).
Proof.
  intros D.
  assert (C : forall c, 0 <= c <= 1 -> continuity_pt f c).
  { intros c _. apply derivable_continuous_pt. exists (f' c). apply D. }
  destruct (continuity_ab_min f 0 1) as [m [Hm Im]]; [lra|exact C|].
  destruct (continuity_ab_maj f 0 1) as [M [HM IM]]; [lra|exact C|].
  exists m, M. split; [lra|]. split; [lra|]. split; [intros t Ht; split; auto|].
  split; intros H.
  - pose (pr := exist _ (f' m) (D m) : derivable_pt f m).
    apply (deriv_minimum f 0 1 m pr); try lra. intros x H1 H2. apply Hm. lra.
  - pose (pr := exist _ (f' M) (D M) : derivable_pt f M).
    apply (deriv_maximum f 0 1 M pr); try lra. intros x H1 H2. apply HM. lra.
Qed.

Lemma cubic_deriv a b c d t :
  derivable_pt_lim (fun t => ((a * t + 3 / 2 * b) * t + 3 * c) * t + d) t (3 * (a * t * t + b * t + c)).
Proof.
  replace (3 * (a * t * t + b * t + c)) with
    (((a * 1 + 0) * t + (a * t + 3 / 2 * b) * 1 + 0) * t + ((a * t + 3 / 2 * b) * t + 3 * c) * 1 + 0) by field.
  assert (I : derivable_pt_lim id t 1) by apply derivable_pt_lim_id.
  change (fun t0 : R => ((a * t0 + 3 / 2 * b) * t0 + 3 * c) * t0 + d) with
    (plus_fct (mult_fct (plus_fct (mult_fct (plus_fct (mult_real_fct a id) (fct_cte (3 / 2 * b))) id) (fct_cte (3 * c))) id) (fct_cte d)).
  exact (derivable_pt_lim_plus _ _ t _ _ (derivable_pt_lim_mult _ _ t _ _ (derivable_pt_lim_plus _ _ t _ _
          (derivable_pt_lim_mult _ _ t _ _ (derivable_pt_lim_plus _ _ t _ _ (derivable_pt_lim_scal _ a t _ I)
          (derivable_pt_lim_const (3 / 2 * b) t)) I) (derivable_pt_lim_const (3 * c) t)) I) (derivable_pt_lim_const d t)).
Qed.

Lemma ltb_true x y : ltb x y = true <-> x < y.
Proof. unfold ltb. destruct (Rlt_dec x y); split; intros; auto; discriminate || contradiction. Qed.
Lemma between_div p q : q <> 0 -> ((ltb 0 p && ltb p q || ltb q p && ltb p 0)%bool = true <-> 0 < p / q < 1).
Proof.
  intros Hq. rewrite orb_true_iff, !andb_true_iff, !ltb_true.
  assert (E : p = p / q * q) by (field; auto). set (t := p / q) in *. clearbody t. subst p.
  split.
  - intros [[H1 H2]|[H1 H2]]; split; nra.
  - intros [H1 H2]. destruct (Rlt_dec 0 q); [left|right]; split; nra.
Qed.
Lemma between_zero p : (ltb 0 p && ltb p 0 || ltb 0 p && ltb p 0)%bool = false.
Proof. apply not_true_is_false. rewrite orb_true_iff, !andb_true_iff, !ltb_true. lra. Qed.

Lemma bezierpolyrange_exact x0 x1 x2 x3 :
  exact_range (bernstein x0 x1 x2 x3) (fst (bezierpolyrange x0 x1 x2 x3)) (snd (bezierpolyrange x0 x1 x2 x3)).
Proof.
  unfold bezierpolyrange. cbv zeta. cbn [fst snd].
  set (a := x3 - 3 * x2 + 3 * x1 - x0). set (b := 2 * x0 - 4 * x1 + 2 * x2). set (c := x1 - x0).
  set (s := b * b - 4 * a * c).
  set (p := fun t => ((a * t + 3 / 2 * b) * t + 3 * c) * t + x0).
  assert (PB : forall t, bernstein x0 x1 x2 x3 t = p t).
  { intros t. unfold bernstein, p, a, b, c. field. }
  match goal with |- context [map p (1 :: ?e)] => set (extra := e) end.
  (* the candidates are parameters between 0 and 1 *)
  assert (IN : forall t, In t extra -> 0 < t < 1).
  { intros t. unfold extra. destruct (Rge_dec s 0); [|intros []].
    set (q := if Rge_dec b 0 then _ else _). rewrite in_app_iff. intros [H|H].
    - destruct (ltb 0 q && ltb q a || ltb a q && ltb q 0)%bool eqn:B; [|destruct H]. destruct H as [<-|[]].
      apply between_div; auto. intros Ha. rewrite Ha, between_zero in B. discriminate.
    - destruct (ltb 0 c && ltb c q || ltb q c && ltb c 0)%bool eqn:B; [|destruct H]. destruct H as [<-|[]].
      apply between_div; auto. intros Ha. rewrite Ha, between_zero in B. discriminate. }
  (* every critical parameter is a candidate, unless the polynomial is constant *)
  assert (CR : forall t, 0 < t < 1 -> a * t * t + b * t + c = 0 -> In t extra \/ p t = p 0).
  { intros t Ht Hr. unfold extra.
    assert (S : s = (2 * a * t + b) ^ 2).
    { unfold s. replace c with (- (a * t * t + b * t)) by lra. ring. }
    assert (S0 : s >= 0) by (rewrite S; apply Rle_ge, pow2_ge_0).
    destruct (Rge_dec s 0) as [_|]; [|contradiction].
    set (q := if Rge_dec b 0 then _ else _).
    assert (SQ : sqrt s * sqrt s = s) by (apply sqrt_sqrt; lra).
    assert (SP : 0 <= sqrt s) by apply sqrt_pos.
    assert (Q : q * q + b * q + a * c = 0).
    { unfold q. unfold s in SQ. destruct (Rge_dec b 0).
      - replace (- (1 / 2) * (b + sqrt s) * (- (1 / 2) * (b + sqrt s)) + b * (- (1 / 2) * (b + sqrt s)) + a * c)
          with (1 / 4 * (sqrt s * sqrt s) - 1 / 4 * b * b + a * c) by field. unfold s. rewrite SQ. field.
      - replace (- (1 / 2) * (b - sqrt s) * (- (1 / 2) * (b - sqrt s)) + b * (- (1 / 2) * (b - sqrt s)) + a * c)
          with (1 / 4 * (sqrt s * sqrt s) - 1 / 4 * b * b + a * c) by field. unfold s. rewrite SQ. field. }
    assert (Q0 : q = 0 -> b = 0 /\ s = 0).
    { unfold q. destruct (Rge_dec b 0); intros E.
      - assert (b = 0 /\ sqrt s = 0) as [-> E2] by lra. rewrite E2 in SQ. lra.
      - exfalso. lra. }
    assert (F : (a * t - q) * (q * t - c) = 0).
    { replace ((a * t - q) * (q * t - c)) with (q * (a * t * t + b * t + c) - t * (q * q + b * q + a * c)) by ring.
      rewrite Hr, Q. ring. }
    assert (CONST : a = 0 -> b = 0 -> In t extra \/ p t = p 0).
    { intros Ea Eb. right. assert (Ec : c = 0) by (rewrite Ea, Eb in Hr; lra).
      unfold p. rewrite Ea, Eb, Ec. ring. }
    fold q in extra. rewrite in_app_iff.
    apply Rmult_integral in F. destruct F as [F|F].
    - destruct (Req_dec a 0) as [Ea|Na].
      + assert (Eq : q = 0) by (rewrite Ea in F; lra). destruct (Q0 Eq) as [Eb _].
        destruct (CONST Ea Eb) as [I|I]; [|tauto]. left. unfold extra in I. destruct (Rge_dec s 0); [|contradiction].
        rewrite in_app_iff in I. exact I.
      + left. left. assert (Et : q / a = t) by (replace q with (a * t) by lra; field; auto).
        replace (ltb 0 q && ltb q a || ltb a q && ltb q 0)%bool with true.
        * left. exact Et.
        * symmetry. apply between_div; auto. rewrite Et. exact Ht.
    - destruct (Req_dec q 0) as [Eq|Nq].
      + destruct (Q0 Eq) as [Eb Es]. assert (Ec : c = 0) by (rewrite Eq in F; lra).
        assert (Ea : a = 0).
        { rewrite Eb, Ec in Hr. assert (H : a * (t * t) = 0) by lra. apply Rmult_integral in H.
          destruct H as [|H]; auto. exfalso. apply Rmult_integral in H. lra. }
        destruct (CONST Ea Eb) as [I|I]; [|tauto]. left. unfold extra in I. destruct (Rge_dec s 0); [|contradiction].
        rewrite in_app_iff in I. exact I.
      + left. right. assert (Et : c / q = t) by (replace c with (q * t) by lra; field; auto).
        replace (ltb 0 c && ltb c q || ltb q c && ltb c 0)%bool with true.
        * left. exact Et.
        * symmetry. apply between_div; auto. rewrite Et. exact Ht. }
  destruct (fold_min_le (map p (1 :: extra)) (p 0)) as [L1 [L2 L3]].
  destruct (fold_max_ge (map p (1 :: extra)) (p 0)) as [G1 [G2 G3]].
  destruct (extremum p (fun t => 3 * (a * t * t + b * t + c)) (cubic_deriv a b c x0)) as [m [M [Im [IM [B [Dm DM]]]]]].
  assert (CAND : forall t, 0 <= t <= 1 -> (0 < t < 1 -> 3 * (a * t * t + b * t + c) = 0) ->
            p t = p 0 \/ In (p t) (map p (1 :: extra))).
  { intros t Ht H. destruct (Req_dec t 0) as [->|N0]; [now left|].
    destruct (Req_dec t 1) as [->|N1]; [right; now left|].
    assert (H' : a * t * t + b * t + c = 0) by (specialize (H ltac:(lra)); lra).
    destruct (CR t ltac:(lra) H') as [I|I]; [|now left]. right. right. now apply in_map. }
  split; [|split].
  - intros t Ht. rewrite PB. destruct (B t Ht) as [B1 B2]. split.
    + apply Rle_trans with (p m); [|exact B1].
      destruct (CAND m Im Dm) as [E|I]; [rewrite E; exact L1|auto].
    + apply Rle_trans with (p M); [exact B2|].
      destruct (CAND M IM DM) as [E|I]; [rewrite E; exact G1|auto].
  - destruct L3 as [E|I].
    + exists 0. split; [lra|]. now rewrite PB.
    + apply in_map_iff in I. destruct I as [t [E [<-|I]]].
      * exists 1. split; [lra|]. now rewrite PB.
      * exists t. specialize (IN t I). split; [lra|]. now rewrite PB.
  - destruct G3 as [E|I].
    + exists 0. split; [lra|]. now rewrite PB.
    + apply in_map_iff in I. destruct I as [t [E [<-|I]]].
      * exists 1. split; [lra|]. now rewrite PB.
      * exists t. specialize (IN t I). split; [lra|]. now rewrite PB.
Qed.
