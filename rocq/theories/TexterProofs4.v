(** Proofs about the rational texter and the range of exponents of the default texter. *)
From Coq Require Import String Ascii ZArith Znumtheory QArith Qpower Qabs Qround Qreduction Bool List Lia ZifyBool Arith Lqa.
From Verif Require Import TickModel TickSpec TickProofs TickProofs2 TexterModel TexterSpec TexterProofs TexterProofs2 TexterProofs3.
Import ListNotations.
Open Scope Z_scope.

(** ** powers of the base *)
Lemma Qpower_ge1 b : (1 < b)%Q -> forall n : nat, (1 <= Qpower b (Z.of_nat n))%Q.
Proof.
  intros Hb. induction n as [|n IH]; [simpl; lra|].
  rewrite Nat2Z.inj_succ. unfold Z.succ. rewrite Qpower_plus by lra. change (Qpower b 1) with b. nra.
Qed.
Lemma Qpower_mono b i j : (1 < b)%Q -> i <= j -> (Qpower b i <= Qpower b j)%Q.
Proof.
  intros Hb H. replace j with (i + Z.of_nat (Z.to_nat (j - i))) by lia. rewrite Qpower_plus by lra.
  pose proof (Qpower_ge1 b Hb (Z.to_nat (j - i))). assert (0 <= Qpower b i)%Q by (apply Qpower_pos; lra). nra.
Qed.

Lemma exponent_below b m e h : (1 < b)%Q -> (1 <= m < b)%Q -> (m * Qpower b e < Qpower b h)%Q <-> e < h.
Proof.
  intros Hb Hm. assert (0 < Qpower b e)%Q as P.
  { assert (0 <= Qpower b e)%Q by (apply Qpower_pos; lra). assert (~ Qpower b e == 0)%Q by (apply Qpower_not_0; lra). lra. }
  split.
  - intros H. apply Z.nle_gt. intros C. apply (Qpower_mono b _ _ Hb) in C. nra.
  - intros H. assert (e + 1 <= h) as C by lia. apply (Qpower_mono b _ _ Hb) in C.
    rewrite Qpower_plus in C by lra. change (Qpower b 1) with b in C. nra.
Qed.

Lemma outlying_spec t r : (1 < base t)%Q -> denom r <> 0 ->
  outlying t r <-> out_of_range (base t) (minnegexponent t) (minexponent t) (valQ r).
Proof.
  intros Hb Hd. unfold outlying, out_of_range. destruct (Z.eq_dec (num r) 0) as [Z0|N0].
  - assert (valQ r == 0)%Q as V by (unfold valQ, fracQ; rewrite Z0; unfold Qdiv; apply Qmult_0_l).
    unfold decompose. rewrite Z0. cbn. split.
    + intros (s & m & e & E & N). injection E as <- <- <-. right. auto.
    + intros [[C _]|[_ N]]; [tauto|]. exists 1, 0%Q, 0. auto.
  - destruct (decompose_spec _ _ Hb Hd N0) as (s & m & e & E & S1 & S2 & M & V).
    assert (0 < Qpower (base t) e)%Q as P.
    { assert (0 <= Qpower (base t) e)%Q by (apply Qpower_pos; lra). assert (~ Qpower (base t) e == 0)%Q by (apply Qpower_not_0; lra). lra. }
    assert (Qabs (valQ r) == m * Qpower (base t) e)%Q as A.
    { rewrite V. rewrite !Qabs_Qmult. rewrite (Qabs_pos m) by lra. rewrite (Qabs_pos (Qpower _ _)) by lra.
      destruct S1 as [-> | ->]; [change (Qabs (inject_Z 1)) with 1%Q|change (Qabs (inject_Z (-1))) with 1%Q]; ring. }
    assert (~ valQ r == 0)%Q as Nv.
    { intros C. rewrite C in A. change (Qabs 0) with 0%Q in A. nra. }
    rewrite A. pose proof (exponent_below _ m e (minexponent t) Hb M) as X.
    pose proof (exponent_below _ m e (1 - minnegexponent t) Hb M) as Y.
    assert ((Qpower (base t) (1 - minnegexponent t) <= m * Qpower (base t) e)%Q <-> - minnegexponent t < e) as Y'.
    { split; intros H.
      - apply Z.nle_gt. intros C. assert (e < 1 - minnegexponent t) as C' by lia. apply Y in C'. lra.
      - apply Qnot_lt_le. intros C. apply Y in C. lia. }
    split.
    + intros (s' & m' & e' & E' & N). rewrite E in E'. injection E' as <- <- <-. left. split; auto. rewrite X, Y'. auto.
    + intros [[_ N]|[C _]]; [|tauto]. rewrite X, Y' in N. exists s, m, e. auto.
Qed.

(** ** fractions *)
Definition rshows (t : rationaltexter) (sign n d : Z) (l : ratlabel) : Prop :=
  match l with
  | RText s => shows_text (rprefix t) (rinfix t) (rsuffix t) (numprefix t) (numinfix t) (numsuffix t)
                 (denomprefix t) (denominfix t) (denomsuffix t) (rplus t) (rminus t) (minuspos t) sign n d s
  | RFrac a b c e => shows_fraction (rprefix t) (rinfix t) (rsuffix t) (numprefix t) (numinfix t) (numsuffix t)
                 (denomprefix t) (denominfix t) (denomsuffix t) (rplus t) (rminus t) (minuspos t) sign n d a b c e
  end.

Lemma nonempty_false s : nonempty s = false <-> s = [].
Proof. destruct s; cbn; split; congruence. Qed.

Lemma ratlabel_spec t p : minuspos t = 0 \/ minuspos t = 1 \/ minuspos t = -1 ->
  0 <= rnum p -> 0 < rdenom p -> rsign p = 1 \/ rsign p = -1 ->
  exists l, ratlabel_of t p = Some l /\ rshows t (rsign p) (rnum p) (rdenom p) l.
Proof.
  intros Hp Hn Hd Hs. unfold ratlabel_of.
  replace (negb ((minuspos t =? 0) || (minuspos t =? 1) || (minuspos t =? -1))) with false by lia.
  set (pm := if rsign p =? -1 then rminus t else rplus t).
  assert (forall h, sign_at (rplus t) (rminus t) (minuspos t) h (rsign p) = if minuspos t =? h then pm else []) as SA.
  { intros h. unfold sign_at, pm. destruct (minuspos t =? h); auto. destruct Hs as [-> | ->]; reflexivity. }
  rewrite <- !SA.
  set (nod := negb (nonempty (sign_at (rplus t) (rminus t) (minuspos t) (-1) (rsign p))) &&
     negb (nonempty (denomprefix t)) && negb (nonempty (denominfix t)) && negb (nonempty (denomsuffix t))).
  assert (nod = true -> sign_at (rplus t) (rminus t) (minuspos t) (-1) (rsign p) ++ denomprefix t ++ denominfix t ++ denomsuffix t = []) as HN.
  { unfold nod. intros H. rewrite !andb_true_iff, !negb_true_iff, !nonempty_false in H. destruct H as (((-> & ->) & ->) & ->). reflexivity. }
  destruct (skipnum0 t && (rnum p =? 0)) eqn:Z0.
  { eexists. split; [reflexivity|]. cbn [rshows]. apply st_zero. apply andb_true_iff in Z0. lia. }
  destruct (_ && nod) eqn:S1.
  { eexists. split; [reflexivity|]. cbn [rshows]. rewrite !andb_true_iff, !negb_true_iff, !nonempty_false in S1.
    destruct S1 as (((((((((_ & _) & N1) & D1) & NE) & M1) & P1) & I1) & U1) & ND).
    replace (rprefix t ++ _ ++ rinfix t ++ rsuffix t) with
      (rprefix t ++ sign_at (rplus t) (rminus t) (minuspos t) 0 (rsign p) ++ rinfix t ++
       (numprefix t ++ sign_at (rplus t) (rminus t) (minuspos t) 1 (rsign p) ++ numinfix t ++ [] ++ numsuffix t) ++ rsuffix t).
    2: { rewrite M1, P1, I1, U1. reflexivity. }
    apply st_int; auto; try lia.
    - right. split; [lia|auto].
    - intros _. rewrite P1, I1, U1, !app_nil_r. intros C. apply app_eq_nil in C. destruct C as [C1 C2]. apply app_eq_nil in C2.
      destruct C2 as [C2 C3]. rewrite C1, C2, C3 in NE. discriminate. }
  set (one := skipnum1 t && (rnum p =? 1) && (nonempty (numprefix t) || nonempty (numinfix t) || nonempty (numsuffix t))).
  assert (exists N, numeral (rnum p) N /\ (N = [] -> numprefix t ++ numinfix t ++ numsuffix t <> []) /\
    (if one then numprefix t ++ sign_at (rplus t) (rminus t) (minuspos t) 1 (rsign p) ++ numinfix t ++ numsuffix t
     else numprefix t ++ sign_at (rplus t) (rminus t) (minuspos t) 1 (rsign p) ++ numinfix t ++ str (rnum p) ++ numsuffix t)
    = numprefix t ++ sign_at (rplus t) (rminus t) (minuspos t) 1 (rsign p) ++ numinfix t ++ N ++ numsuffix t) as (N & HN1 & HN2 & ->).
  { destruct one eqn:O.
    - exists []. unfold one in O. rewrite !andb_true_iff in O. destruct O as ((_ & O1) & O2). split; [right; split; [lia|auto]|]. split; auto.
      intros _ C. apply app_eq_nil in C. destruct C as [C1 C2]. apply app_eq_nil in C2.
      destruct C2 as [C2 C3]. rewrite C1, C2, C3 in O2. discriminate.
    - exists (str (rnum p)). split; [left; split; [now apply str_canonical|now apply str_value]|]. split; auto.
      intros C. exfalso. now apply (proj1 (str_canonical _ Hn)). }
  destruct (skipdenom1 t && (rdenom p =? 1) && nod) eqn:S2; eexists; (split; [reflexivity|]); cbn [rshows].
  - rewrite !andb_true_iff in S2. apply st_int; auto; try lia.
    + intros E. specialize (HN2 E). intros C. apply HN2. apply app_eq_nil in C. destruct C as [_ C]. apply app_eq_nil in C.
      destruct C as [_ C]. now apply app_eq_nil in C.
    + apply HN. apply S2.
  - constructor; auto; [apply str_canonical|apply str_value]; lia.
Qed.

Lemma fracQ_scale f n d : f <> 0 -> d <> 0 -> (fracQ (f * n) (f * d) == fracQ n d)%Q.
Proof.
  intros Hf Hd. unfold fracQ. rewrite !inject_Z_mult. field. split; now apply inject_nz.
Qed.

Lemma rational_labels_spec t ticks : Forall (fun k => denom (lpos k) <> 0) ticks ->
  minuspos t = 0 \/ minuspos t = 1 \/ minuspos t = -1 ->
  (equaldenom t = true -> Forall (fun k => llabel k = None -> llevel k <> None) ticks) ->
  exists labels E, rational_labels t ticks = Some labels /\ 0 < E /\
    (forall c, Forall (fun k => exists z, valQ (lpos k) * inject_Z c == inject_Z z)%Q (filter wants_label ticks) <-> (E | c)) /\
    Forall2 (fun k l => exists sign n d, (sign = 1 \/ sign = -1) /\ 0 <= n /\ 0 < d /\
       (valQ (lpos k) == inject_Z sign * fracQ n d)%Q /\
       (equaldenom t = false -> Z.gcd n d = 1) /\ (equaldenom t = true -> d = E) /\ rshows t sign n d l)
      (filter wants_label ticks) labels.
Proof.
  intros Hd Hp He. unfold rational_labels.
  set (sel := filter wants_label ticks).
  assert (Forall (fun k => denom (lpos k) <> 0) sel) as Hd'.
  { rewrite Forall_forall in *. intros k Hk. apply filter_In in Hk. now apply Hd. }
  destruct (sequence_Some (fun k => reduce (lpos k)) sel) as (ps & Es & Fs).
  { intros k Hk. rewrite Forall_forall in Hd'. destruct (reduce_spec (lpos k) (Hd' k Hk)) as (p & E & _). eauto. }
  rewrite Es.
  assert (Forall2 (fun k p => 0 <= rnum p /\ 0 < rdenom p /\ Z.gcd (rnum p) (rdenom p) = 1 /\ (rsign p = 1 \/ rsign p = -1) /\
    (valQ (lpos k) == inject_Z (rsign p) * fracQ (rnum p) (rdenom p))%Q) sel ps) as F.
  { eapply Forall2_In; [|exact Fs]. intros k p Hk _ E. rewrite Forall_forall in Hd'.
    destruct (reduce_spec (lpos k) (Hd' k Hk)) as (p' & E' & A1 & A2 & A3 & A4 & _ & A5). rewrite E in E'. injection E' as <-. auto. }
  clear Fs Es.
  (* the least common denominator *)
  assert (exists m, lcmn (map rdenom ps) = (match ps with [] => Some None | _ => Some (Some m) end) /\ 0 < m /\
     forall c, (m | c) <-> Forall (fun d => (d | c)) (map rdenom ps)) as (E & EL & PE & DE).
  { assert (Forall (fun d => 0 < d) (map rdenom ps)) as Pd.
    { clear - F. induction F as [|k p ks ps H F IH]; cbn; constructor; auto. tauto. }
    destruct ps as [|p ps].
    - exists 1. cbn. split; auto. split; [lia|]. intros c. split; [constructor|intros; apply Z.divide_1_l].
    - cbn [map] in *. inversion Pd; subst. destruct (lcm_fold (map rdenom ps) (rdenom p)) as (m & E1 & P1 & D1); auto.
      exists m. cbn [lcmn]. rewrite E1. split; auto. split; auto. intros c. rewrite D1. split; [intros []; constructor; auto|].
      intros H. inversion H; auto. }
  assert (forall c, Forall (fun k => exists z, valQ (lpos k) * inject_Z c == inject_Z z)%Q sel <-> (E | c)) as HC.
  { intros c. rewrite DE. clear - F. induction F as [|k p ks ps (A1 & A2 & A3 & A4 & A5) F IH]; cbn [map]; [split; constructor|].
    assert ((exists z, valQ (lpos k) * inject_Z c == inject_Z z)%Q <-> (rdenom p | c)) as H.
    { assert (~ inject_Z (rdenom p) == 0)%Q as N by (apply inject_nz; lia). unfold fracQ in A5. split.
      - intros (z & Ez). rewrite A5 in Ez.
        assert (inject_Z (rsign p * rnum p * c) == inject_Z (z * rdenom p))%Q as Eq.
        { rewrite !inject_Z_mult, <- Ez. field. auto. }
        rewrite inject_Z_injective in Eq. apply Z.gauss with (rnum p); [|now rewrite Z.gcd_comm].
        destruct A4 as [S|S]; rewrite S in Eq; [exists z|exists (- z)]; lia.
      - intros (q & ->). exists (rsign p * rnum p * q). rewrite A5, !inject_Z_mult. field. auto. }
    split; intros G; inversion G; subst; constructor; try tauto. }
  set (ps' := if equaldenom t then map (fun p => let factor := E / rdenom p in
         mkrpart (factor * rnum p) (factor * rdenom p) (rsign p)) ps else ps).
  assert (common t (existsb (fun k => match llabel k, llevel k with None, None => true | _, _ => false end) ticks) ps = Some ps') as EC.
  { unfold common, ps'. destruct (equaldenom t); auto.
    replace (existsb _ ticks) with false.
    - rewrite EL. destruct ps; reflexivity.
    - symmetry. apply not_true_is_false. intros C. apply existsb_exists in C. destruct C as (k & Ik & Ck).
      specialize (He eq_refl). rewrite Forall_forall in He. specialize (He k Ik). destruct (llabel k); [discriminate|].
      destruct (llevel k); [discriminate|]. now apply He. }
  rewrite EC.
  assert (Forall2 (fun k p => 0 <= rnum p /\ 0 < rdenom p /\ (rsign p = 1 \/ rsign p = -1) /\
    (valQ (lpos k) == inject_Z (rsign p) * fracQ (rnum p) (rdenom p))%Q /\
    (equaldenom t = false -> Z.gcd (rnum p) (rdenom p) = 1) /\ (equaldenom t = true -> rdenom p = E)) sel ps') as F'.
  { unfold ps'. destruct (equaldenom t).
    - assert (Forall (fun d => (d | E)) (map rdenom ps)) as Dv by (apply DE; apply Z.divide_refl).
      clear - F Dv PE. induction F as [|k p ks ps (A1 & A2 & A3 & A4 & A5) F IH]; cbn [map] in *; constructor; inversion Dv; subst; auto.
      cbn [rnum rdenom rsign]. destruct H1 as (q & ->). rewrite Z.div_mul by lia. assert (0 < q) by nia.
      split; [nia|]. split; [nia|]. split; auto. split; [|split; [discriminate|auto]]. now rewrite fracQ_scale by lia.
    - eapply Forall2_impl; [|exact F]. intros k p (A1 & A2 & A3 & A4 & A5). repeat split; auto. discriminate. }
  destruct (sequence_Some (ratlabel_of t) ps') as (labels & El & Fl).
  { intros p Ip. destruct (Forall2_right _ _ _ F' p Ip) as (k & _ & A1 & A2 & A3 & _).
    destruct (ratlabel_spec t p Hp A1 A2 A3) as (l & L & _). eauto. }
  exists labels, E. split; auto. split; auto. split; auto.
  apply Forall2_trans with (2 := F') (3 := Fl). intros k p l (A1 & A2 & A3 & A4 & A5 & A6) L.
  destruct (ratlabel_spec t p Hp A1 A2 A3) as (l' & L' & S). rewrite L in L'. injection L' as <-.
  exists (rsign p), (rnum p), (rdenom p). repeat split; auto.
Qed.
