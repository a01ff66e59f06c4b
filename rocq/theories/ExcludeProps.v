(** C81: the ranges of a path excluded from stroking *)
From Coq Require Import Reals List Bool Arith Lia Lra Sorted.
From Verif Require Import ExcludeModel.
Import ListNotations.
Open Scope R_scope.

(** the parameter lies in one of the ranges *)
Definition covered (l : list range) (p : R) : Prop := exists r, In r l /\ fst r <= p <= snd r.
(** proper ranges in increasing order with gaps between them *)
Definition tidy (l : list range) : Prop := Forall (fun r : range => fst r <= snd r) l /\ StronglySorted (fun a b : range => snd a < fst b) l.

Lemma ltb_true a b : ltb a b = true <-> a < b.
Proof. unfold ltb. destruct (Rlt_dec a b); split; auto; discriminate. Qed.
Lemma ltb_false a b : ltb a b = false <-> b <= a.
Proof. unfold ltb. destruct (Rlt_dec a b); split; intros; try discriminate; try lra; auto. Qed.
Lemma count_firstn {A} (f : A -> bool) l : Forall (fun a => f a = true) (firstn (count_while f l) l).
Proof. induction l as [|a l IH]; cbn; [constructor|]. destruct (f a) eqn:E; [constructor; auto|constructor]. Qed.
Lemma count_le {A} (f : A -> bool) l : (count_while f l <= length l)%nat.
Proof. induction l as [|a l IH]; cbn; [lia|]. destruct (f a); lia. Qed.
Lemma count_stop {A} (f : A -> bool) l d : (count_while f l < length l)%nat -> f (nth (count_while f l) l d) = false.
Proof. induction l as [|a l IH]; cbn; [lia|]. destruct (f a) eqn:E; auto. intros. apply IH. lia. Qed.

(** the list cut in three: before, overlapping, behind *)
Lemma cut_three l b e : tidy l -> b <= e -> exists A B C, l = A ++ B ++ C /\
  length A = count_while (fun r : range => ltb (snd r) b) l /\
  length C = count_while (fun r : range => ltb e (fst r)) (rev l) /\
  Forall (fun r : range => snd r < b) A /\ Forall (fun r : range => e < fst r) C /\ Forall (fun r : range => b <= snd r /\ fst r <= e) B.
Proof.
  intros [P S] L. set (n := count_while (fun r : range => ltb (snd r) b) l). set (m := count_while (fun r : range => ltb e (fst r)) (rev l)).
  assert (n <= length l)%nat as Ln by apply count_le.
  assert (m <= length l)%nat as Lm by (rewrite <- rev_length; apply count_le).
  assert (Forall (fun r : range => snd r < b) (firstn n l)) as HA.
  { eapply Forall_impl; [|apply count_firstn]. intros r H. now apply ltb_true. }
  assert (Forall (fun r : range => e < fst r) (skipn (length l - m) l)) as HC.
  { pose proof (count_firstn (fun r : range => ltb e (fst r)) (rev l)) as H. fold m in H. rewrite firstn_rev in H.
    apply Forall_rev in H. rewrite rev_involutive in H. eapply Forall_impl; [|exact H]. intros r Q. now apply ltb_true. }
  assert (n <= length l - m)%nat as D.
  { destruct (le_lt_dec n (length l - m)); auto. exfalso.
    set (r := nth (length l - m) l (0, 0)).
    assert (In r (firstn n l)) as I1.
    { unfold r. assert (nth (length l - m) l (0, 0) = nth (length l - m) (firstn n l ++ skipn n l) (0, 0)) as -> by now rewrite firstn_skipn. rewrite app_nth1 by (rewrite firstn_length; lia). apply nth_In. rewrite firstn_length. lia. }
    assert (In r (skipn (length l - m) l)) as I2.
    { unfold r. assert (nth (length l - m) l (0, 0) = nth (length l - m) (firstn (length l - m) l ++ skipn (length l - m) l) (0, 0)) as -> by now rewrite firstn_skipn. rewrite app_nth2 by (rewrite firstn_length; lia).
      apply nth_In. rewrite firstn_length, skipn_length. lia. }
    rewrite Forall_forall in HA, HC, P. specialize (HA r I1). specialize (HC r I2).
    assert (In r l) as I3 by (unfold r; apply nth_In; lia). specialize (P r I3). lra. }
  exists (firstn n l), (firstn (length l - m - n) (skipn n l)), (skipn (length l - m) l).
  assert (l = firstn n l ++ firstn (length l - m - n) (skipn n l) ++ skipn (length l - m) l) as EL.
  { rewrite <- (firstn_skipn n l) at 1. f_equal. rewrite <- (firstn_skipn (length l - m - n) (skipn n l)) at 1. f_equal.
    assert (forall (i j : nat) (k : list range), skipn i (skipn j k) = skipn (i + j) k) as SS.
    { intros i j. revert i. induction j; intros i k; [now rewrite Nat.add_0_r|]. destruct k; [now rewrite !skipn_nil|].
      rewrite Nat.add_succ_r. cbn. apply IHj. }
    rewrite SS. f_equal. lia. }
  split; [exact EL|]. split; [rewrite firstn_length; lia|]. split; [rewrite skipn_length; fold m; lia|]. split; auto. split; auto.
  set (A := firstn n l) in *. set (C := skipn (length l - m) l) in *. set (B := firstn (length l - m - n) (skipn n l)) in *.
  assert (length A = n) as LA by (unfold A; rewrite firstn_length; lia).
  assert (length C = m) as LC by (unfold C; rewrite skipn_length; lia).
  clearbody A B C. destruct B as [|r0 B]; [constructor|].
  assert (b <= snd r0) as Q1.
  { assert (count_while (fun r : range => ltb (snd r) b) l < length l)%nat as K by (fold n; rewrite EL, !app_length, LA; cbn; lia).
    pose proof (count_stop _ l (0, 0) K) as H. cbv beta in H. fold n in H. apply ltb_false in H. rewrite EL in H. rewrite app_nth2 in H by lia.
    replace (n - length A)%nat with O in H by lia. exact H. }
  assert (fst (last (r0 :: B) (0, 0)) <= e) as Q2.
  { assert (count_while (fun r : range => ltb e (fst r)) (rev l) < length (rev l))%nat as K by (fold m; rewrite rev_length; rewrite EL, !app_length, LC; cbn; lia).
    pose proof (count_stop _ (rev l) (0, 0) K) as H. cbv beta in H. fold m in H. apply ltb_false in H.
    destruct (exists_last (l := r0 :: B) ltac:(discriminate)) as (B' & z & EB). rewrite EB, last_last.
    rewrite EL, EB, !rev_app_distr in H. rewrite <- app_assoc in H. rewrite app_nth2 in H by (rewrite rev_length; lia).
    rewrite rev_length, LC, Nat.sub_diag in H. exact H. }
  assert (StronglySorted (fun a b : range => snd a < fst b) (r0 :: B)) as SB.
  { rewrite EL in S. clear - S. induction A; cbn in S; [|inversion S; auto]. 
    change (StronglySorted (fun a b : range => snd a < fst b) ((r0 :: B) ++ C)) in S. revert S. generalize (r0 :: B) as k. induction k; cbn; intros S; [constructor|].
    inversion S; subst. constructor; auto. rewrite Forall_app in H2. tauto. }
  assert (Forall (fun r : range => fst r <= snd r) (r0 :: B)) as PB.
  { rewrite EL in P. rewrite !Forall_app in P. tauto. }
  clear - Q1 Q2 SB PB. revert r0 Q1 Q2 SB PB. induction B as [|r1 B IH]; intros r0 Q1 Q2 SB PB.
  - constructor; auto.
  - inversion SB as [|? ? SB1 F]; subst. inversion PB as [|? ? P0 PB1]; subst. inversion F as [|? ? F1 F2]; subst. inversion PB1 as [|? ? P1 PB2]; subst.
    assert (Forall (fun r : range => b <= snd r /\ fst r <= e) (r1 :: B)) as H.
    { apply IH; auto. lra. }
    constructor; auto. inversion H; subst. lra.
Qed.

Lemma sorted_app (A B : list range) : StronglySorted (fun a b : range => snd a < fst b) (A ++ B) <->
  StronglySorted (fun a b : range => snd a < fst b) A /\ StronglySorted (fun a b : range => snd a < fst b) B /\
  forall a b, In a A -> In b B -> snd a < fst b.
Proof.
  induction A as [|r A IH]; cbn.
  - split; [intros H; repeat split; auto; try constructor; contradiction|intros (_ & H & _); auto].
  - split.
    + intros H. inversion H as [|? ? H1 H2]; subst. apply IH in H1 as (S1 & S2 & S3). rewrite Forall_app in H2. destruct H2 as [F1 F2]. split; [constructor; auto|].
      split; auto. intros a b [<-|I] J; auto. rewrite Forall_forall in F2. auto.
    + intros (H1 & H2 & H3). inversion H1 as [|? ? H4 H5]; subst. constructor; [apply IH; auto|]. rewrite Forall_app. split; auto.
      rewrite Forall_forall. auto.
Qed.
Lemma covered_app A B p : covered (A ++ B) p <-> covered A p \/ covered B p.
Proof.
  unfold covered. split.
  - intros (r & I & H). apply in_app_iff in I as [I|I]; [left|right]; eauto.
  - intros [(r & I & H)|(r & I & H)]; exists r; rewrite in_app_iff; auto.
Qed.
Lemma covered_one b e p : covered [(b, e)] p <-> b <= p <= e.
Proof. unfold covered. split; [intros (r & [<-|[]] & H); auto|intros H; exists (b, e); cbn; auto]. Qed.

(** one call *)
Lemma exclude_one l b e : tidy l -> b <= e ->
  tidy (excluderange (Some l) b e) /\ forall p, covered (excluderange (Some l) b e) p <-> covered l p \/ b <= p <= e.
Proof.
  intros T L. destruct (cut_three l b e T L) as (A & B & C & EL & LA & LC & HA & HC & HB).
  assert (exists b1 e1, excluderange (Some l) b e = A ++ [(b1, e1)] ++ C /\
    ((B = [] /\ b1 = b /\ e1 = e) \/ (exists r0 z B1 B2, B = r0 :: B1 /\ B = B2 ++ [z] /\ b1 = Rmin b (fst r0) /\ e1 = Rmax e (snd z)))) as (b1 & e1 & EX & CASES).
  { unfold excluderange. rewrite <- LA, <- LC.
    destruct (Nat.eqb_spec (length A) (length l)) as [E1|E1].
    { assert (B = [] /\ C = []) as [-> ->].
      { rewrite EL, !app_length in E1. split; apply length_zero_iff_nil; lia. }
      exists b, e. rewrite !app_nil_r in *. split; [now rewrite EL|left; auto]. }
    destruct (Nat.eqb_spec (length l - length C) 0) as [E2|E2].
    { assert (A = [] /\ B = []) as [-> ->].
      { rewrite EL, !app_length in E2. split; apply length_zero_iff_nil; lia. }
      exists b, e. cbn in *. split; [now rewrite EL|left; auto]. }
    assert (length l - length C = length A + length B)%nat as E3 by (rewrite EL, !app_length; lia).
    rewrite E3. rewrite Nat.max_r by lia.
    assert (firstn (length A) l = A) as -> by (rewrite EL, firstn_app, Nat.sub_diag; cbn; rewrite app_nil_r; apply firstn_all).
    assert (skipn (length A + length B) l = C) as -> by (rewrite EL, app_assoc, skipn_app, app_length, Nat.sub_diag; rewrite skipn_all2 by (rewrite app_length; lia); reflexivity).
    assert (nth (length A) l (0, 0) = nth 0 (B ++ C) (0, 0)) as -> by (rewrite EL, app_nth2, Nat.sub_diag; auto).
    eexists _, _. split; [reflexivity|].
    destruct B as [|r0 B1].
    - left. split; auto. cbn [length app nth]. rewrite Nat.add_0_r. split.
      + destruct C as [|c C]; [exfalso; apply E1; rewrite EL; cbn; now rewrite app_nil_r|]. cbn. inversion HC; subst.
        destruct (ltb (fst c) b) eqn:Q; auto. apply ltb_true in Q. lra.
      + destruct (exists_last (l := A)) as (A' & z & EA).
        { intros ->. apply E2. rewrite E3. reflexivity. }
        assert (nth (length A - 1) l (0, 0) = z) as ->.
        { rewrite EL, app_nth1 by (rewrite EA, app_length; cbn; lia). rewrite EA, app_length. cbn. rewrite app_nth2 by lia. replace (length A' + 1 - 1 - length A')%nat with O by lia. reflexivity. }
        rewrite EA in HA. apply Forall_app in HA as [_ HA]. inversion HA; subst. destruct (ltb e (snd z)) eqn:Q; auto. apply ltb_true in Q. lra.
    - right. destruct (exists_last (l := r0 :: B1) ltac:(discriminate)) as (B2 & z & EB). exists r0, z, B1, B2. split; auto. split; auto. split.
      + cbn. unfold ltb, Rmin. destruct (Rlt_dec (fst r0) b), (Rle_dec b (fst r0)); lra.
      + assert (nth (length A + length (r0 :: B1) - 1) l (0, 0) = z) as ->.
        { rewrite EL, app_nth2 by (cbn; lia). rewrite EB, app_length. cbn. rewrite app_nth1 by (rewrite app_length; cbn; lia).
          rewrite app_nth2 by lia. replace (length A + (length B2 + 1) - 1 - length A - length B2)%nat with O by lia. reflexivity. }
        unfold ltb, Rmax. destruct (Rlt_dec e (snd z)), (Rle_dec e (snd z)); lra. }
  destruct T as [P S]. rewrite EL in P, S. rewrite !Forall_app in P. destruct P as (P1 & P2 & P3).
  apply sorted_app in S as (S1 & S2 & S3). apply sorted_app in S2 as (S2 & S4 & S5).
  assert (forall r, In r A -> snd r < b) as HA' by now apply Forall_forall.
  assert (forall r, In r C -> e < fst r) as HC' by now apply Forall_forall.
  assert (forall r, In r B -> b <= snd r /\ fst r <= e) as HB' by now apply Forall_forall.
  assert (forall r, In r B -> fst r <= snd r) as PB' by now apply Forall_forall.
  rewrite EX. rewrite EL.
  assert (b1 <= b /\ e <= e1 /\ (forall r, In r A -> snd r < b1) /\ (forall r, In r C -> e1 < fst r) /\
          forall p, b1 <= p <= e1 <-> covered B p \/ b <= p <= e) as (K1 & K2 & K3 & K4 & K5).
  { destruct CASES as [(-> & -> & ->)|(r0 & z & B1 & B2 & EB1 & EB2 & -> & ->)].
    - split; [lra|]. split; [lra|]. split; auto. split; auto. intros p. split; auto. intros [(r & [] & _)|H]; auto.
    - assert (In r0 B) as I0 by (rewrite EB1; now left). assert (In z B) as Iz by (rewrite EB2, in_app_iff; right; now left).
      pose proof (HB' r0 I0) as H0. pose proof (HB' z Iz) as Hz. pose proof (PB' r0 I0). pose proof (PB' z Iz).
      split; [apply Rmin_l|]. split; [apply Rmax_l|]. split; [|split].
      + intros r I. apply Rmin_glb_lt; auto. apply S3; auto. rewrite in_app_iff. auto.
      + intros r I. apply Rmax_lub_lt; auto.
      + assert (forall r, In r B -> fst r0 <= fst r) as M1.
        { rewrite EB1. rewrite EB1 in S2. inversion S2 as [|? ? _ F4]. intros r [<-|I]; [lra|]. rewrite Forall_forall in F4. specialize (F4 r I). lra. }
        assert (forall r, In r B -> snd r <= snd z) as M2.
        { intros r I. rewrite EB2 in I, S2. apply sorted_app in S2 as (_ & _ & S6). apply in_app_iff in I as [I|[<-|[]]]; [|lra].
          specialize (S6 r z I ltac:(now left)). lra. }
        intros p. split.
        * intros Hp. destruct (Rle_dec b p) as [Q1|Q1], (Rle_dec p e) as [Q2|Q2]; auto.
          -- left. exists z. split; auto. split; [lra|]. destruct Hp as [_ Hp]. unfold Rmax in Hp. destruct (Rle_dec e (snd z)); lra.
          -- left. exists r0. split; auto. split; [|lra]. destruct Hp as [Hp _]. unfold Rmin in Hp. destruct (Rle_dec b (fst r0)); lra.
          -- exfalso. lra.
        * intros [(r & I & Hr)|Hp].
          -- pose proof (M1 r I). pose proof (M2 r I). split; [apply Rle_trans with (fst r0); [apply Rmin_r|lra]|apply Rle_trans with (snd z); [lra|apply Rmax_r]].
          -- split; [apply Rle_trans with b; [apply Rmin_l|lra]|apply Rle_trans with e; [lra|apply Rmax_l]]. }
  split.
  - split.
    + rewrite !Forall_app. split; auto. split; auto. constructor; [|constructor]. cbn. lra.
    + apply sorted_app. split; auto. split.
      * cbn. constructor; auto. rewrite Forall_forall. intros r I. cbn. auto.
      * cbn. intros r r' I [<-|J]; cbn; auto. specialize (HA' r I). specialize (HC' r' J). lra.
  - intros p. rewrite !covered_app, covered_one, K5. tauto.
Qed.

(** the state after a history of calls *)
Definition after (history : list range) : option (list range) :=
  fold_left (fun ranges r => Some (excluderange ranges (fst r) (snd r))) history None.
(** C81: whatever ranges are excluded in whatever order, the list of ranges stays in order without
    overlap and covers exactly the parameters of the ranges excluded *)
Theorem excluded_union : forall history l, Forall (fun r : range => fst r <= snd r) history -> after history = Some l ->
  tidy l /\ forall p, covered l p <-> covered history p.
Proof.
  intros history. induction history as [|r history IH] using rev_ind; intros l P E; [discriminate|].
  apply Forall_app in P as [P1 P2]. inversion P2 as [|? ? Q _]; subst.
  unfold after in E. rewrite fold_left_app in E. cbn in E. change (fold_left _ history None) with (after history) in E.
  assert (l = excluderange (after history) (fst r) (snd r)) as -> by congruence. clear E.
  destruct (after history) as [l0|] eqn:E0.
  - destruct (IH l0 P1 eq_refl) as [T C]. destruct (exclude_one l0 (fst r) (snd r) T Q) as [T' C']. split; auto.
    intros p. rewrite C', C, covered_app. destruct r as [b e]. rewrite covered_one. tauto.
  - destruct history as [|h0 history].
    + cbn. split; [split; [constructor; auto|constructor; constructor]|]. intros p. destruct r as [b e]. cbn. tauto.
    + exfalso. clear - E0. unfold after in E0. cbn in E0.
      assert (forall h s, fold_left (fun ranges r => Some (excluderange ranges (fst r) (snd r))) h (Some s) <> None) as N.
      { induction h as [|a h IHh]; intros s; cbn; [discriminate|]. apply IHh. }
      eapply N. exact E0.
Qed.
Print Assumptions excluded_union.

(** C81: the pieces kept for stroking are the gaps: together with the excluded ranges they make up
    the whole path, and only end points are in both *)
Theorem kept_complement : forall l a b, tidy l -> Forall (fun r : range => a <= fst r /\ snd r <= b) l -> a <= b ->
  (forall p, a <= p <= b <-> covered (kept l a b) p \/ covered l p) /\
  (forall p, covered (kept l a b) p -> covered l p -> exists r, In r l /\ (p = fst r \/ p = snd r)) /\
  length (kept l a b) = S (length l).
Proof.
  intros l a b T F L.
  assert (kept l a b = every_second (pieces a (split_points l) b)) as -> by (destruct l; reflexivity).
  assert (Forall (fun r : range => snd r <= b) l /\ Forall (fun r : range => a <= fst r) l) as [F1 F2].
  { split; eapply Forall_impl; try exact F; cbn; tauto. }
  clear F. revert a L F2. destruct T as [P S]. induction l as [|[x y] l IH]; intros a L F2.
  - cbn. split; [|split; auto].
    + intros p. rewrite covered_one. split; auto. intros [H|(r & [] & _)]; auto.
    + intros p _ (r & [] & _).
  - inversion P as [|? ? P0 P1]; subst. inversion S as [|? ? S0 S1]; subst. inversion F1 as [|? ? G0 G1]; subst. inversion F2 as [|? ? H0 H1]; subst. cbn in *.
    destruct (IH P1 S0 G1 y) as (I1 & I2 & I3); [lra| |].
    { eapply Forall_impl; [|exact S1]. intros r Q. lra. }
    assert (forall p, covered (every_second (pieces y (split_points l) b)) p -> y <= p) as Lo.
    { intros p H. assert (y <= p <= b) by (apply I1; auto). lra. }
    split; [|split].
    + intros p. change (covered ((a, x) :: every_second (pieces y (split_points l) b)) p) with (covered ([(a, x)] ++ every_second (pieces y (split_points l) b)) p).
      change (covered ((x, y) :: l) p) with (covered ([(x, y)] ++ l) p). rewrite !covered_app, !covered_one.
      split.
      * intros Hp. destruct (Rle_dec p x); [left; left; lra|]. destruct (Rle_dec p y); [right; left; lra|].
        assert (y <= p <= b) as K by lra. apply I1 in K. tauto.
      * intros [[Q|Q]|[Q|Q]]; try lra.
        -- assert (y <= p <= b) by (apply I1; auto). lra.
        -- assert (y <= p <= b) by (apply I1; auto). lra.
    + intros p K1 K2.
      change (covered ([(a, x)] ++ every_second (pieces y (split_points l) b)) p) in K1. change (covered ([(x, y)] ++ l) p) in K2.
      apply covered_app in K1. apply covered_app in K2. rewrite covered_one in K1, K2.
      destruct K1 as [K1|K1], K2 as [K2|K2].
      * exists (x, y). split; [now left|]. left. cbn. lra.
      * assert (y <= p <= b) by (apply I1; auto). exfalso. destruct K2 as (r & J & Hr). rewrite Forall_forall in S1. specialize (S1 r J). lra.
      * pose proof (Lo p K1). exists (x, y). split; [now left|]. right. cbn. lra.
      * destruct (I2 p K1 K2) as (r & J & Hr). exists r. split; auto.
    + now rewrite I3.
Qed.
Print Assumptions kept_complement.
Example excluded_ex : after [(4, 5); (0, 1); (2, 3); (5/2, 9/2)] = Some [(0, 1); (2, 5)].
Proof.
  unfold after, excluderange, ltb. cbn.
  repeat (match goal with |- context [Rlt_dec ?a ?b] => lazymatch constr:((a, b)) with context [Rlt_dec] => fail | _ => idtac end; destruct (Rlt_dec a b); try lra end; cbn); try reflexivity.
Qed.
Example kept_ex : kept [(0, 1); (2, 5)] 0 7 = [(0, 0); (1, 2); (5, 7)].
Proof. reflexivity. Qed.
