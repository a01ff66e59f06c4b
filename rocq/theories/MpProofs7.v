(** From the knots as given to the joined ones *)
From Coq Require Import Reals List Bool PeanoNat Lra Lia.
From Verif Require Import CurveModel CurveProofs4 MpModel MpSpec MpProofs MpProofs2 MpProofs3 MpProofs4 MpProofs5 MpProofs6.
Import ListNotations.
Local Open Scope R_scope.

Section Transfer.
  Variables (N : nat) (eps : R) (K : heap).
  Hypotheses (N0 : (0 < N)%nat) (eps0 : 0 < eps).
  Hypothesis Pr : forall i, (i < N)%nat -> proper N K i.
  Let B := joins N eps K.
  Let Pl : forall i, place (B i) = place (K i) := proj1 (joins_upto N eps K N0 N (le_n N)).

  Lemma unset_spec t : t <> EndCycle -> reflect (unset t) (1 <? number t)%nat.
  Proof. intros N1. unfold unset. destruct t; try contradiction; constructor; tauto || intuition discriminate. Qed.
  Lemma not_endcycle i : (i < N)%nat -> rtype (K i) <> EndCycle.
  Proof. intros H E. destruct (Pr i H) as ([[Q _]|[[Q _]|(V & _)]] & _); [congruence|congruence|]. rewrite E in V. contradiction. Qed.
  Lemma joint_spec i : (i < N)%nat -> reflect (joined N eps K i) (joint N eps K i).
  Proof.
    intros H. unfold joined, joint, chord_x, chord_y. pose proof (unset_spec (rtype (K i)) (not_endcycle i H)) as U.
    assert (near eps (kx (K i) - kx (K (after N i))) (ky (K i) - ky (K (after N i))) = near eps (kx (K (after N i)) - kx (K i)) (ky (K (after N i)) - ky (K i))) as ->.
    { unfold near. f_equal. ring. }
    destruct U, (near_spec eps (kx (K (after N i)) - kx (K i)) (ky (K (after N i)) - ky (K i))); cbn [andb]; constructor; tauto.
  Qed.
  Lemma right_ok i : (i < N)%nat -> rside (B i) = if joint N eps K i then (Explicit, Some (kx (K i)), Some (ky (K i))) else if joint N eps K (before N i) && is (rtype (K i)) Open then (Curl, Some 1, ry (K i)) else rside (K i).
  Proof.
    intros H. pose proof (proj2 (joins_upto N eps K N0 N (le_n N))) as S0. destruct (S0 i H) as [R _]. fold (joins N eps K) in R. fold B in R. rewrite R. unfold right_side.
    rewrite (proj2 (Nat.ltb_lt _ _) H), (proj2 (Nat.ltb_lt _ _) (before_lt N i N0)). reflexivity.
  Qed.
  Lemma left_ok i : (i < N)%nat -> lside (B i) = if joint N eps K (before N i) then (Explicit, Some (kx (K (before N i))), Some (ky (K (before N i)))) else if joint N eps K i && is (ltype (K i)) Open then (Curl, Some 1, ly (K i)) else lside (K i).
  Proof.
    intros H. pose proof (proj2 (joins_upto N eps K N0 N (le_n N))) as S0. destruct (S0 i H) as [_ L]. fold (joins N eps K) in L. fold B in L. rewrite L. unfold left_side.
    rewrite (proj2 (Nat.ltb_lt _ _) H), (proj2 (Nat.ltb_lt _ _) (before_lt N i N0)). reflexivity.
  Qed.
  (** segments which are not joined *)
  Lemma right_free i : (i < N)%nat -> ~ joined N eps K i -> ry (B i) = ry (K i) /\
    ((rtype (B i) = Curl /\ rx (B i) = Some 1 /\ rtype (K i) = Open /\ joined N eps K (before N i)) \/
     (rtype (B i) = rtype (K i) /\ rx (B i) = rx (K i) /\ (rtype (K i) = Open -> ~ joined N eps K (before N i)))).
  Proof.
    intros H J. pose proof (right_ok i H) as R. destruct (joint_spec i H); [contradiction|]. destruct (joint_spec (before N i) (before_lt N i N0)) as [Jb|Jb]; cbn [andb] in R.
    - destruct (is_spec (rtype (K i)) Open) as [E|E].
      + unfold rside in R. injection R as -> -> ->. split; [reflexivity|]. left. auto.
      + destruct (rside_parts _ _ R) as (-> & -> & ->). split; [reflexivity|]. right. split; [reflexivity|]. split; [reflexivity|]. intros Q. contradiction.
    - destruct (rside_parts _ _ R) as (-> & -> & ->). split; [reflexivity|]. right. auto.
  Qed.
  Lemma left_free i : (i < N)%nat -> ~ joined N eps K i -> let j := after N i in ly (B j) = ly (K j) /\
    ((ltype (B j) = Curl /\ lx (B j) = Some 1 /\ ltype (K j) = Open /\ joined N eps K j) \/
     (ltype (B j) = ltype (K j) /\ lx (B j) = lx (K j) /\ (ltype (K j) = Open -> ~ joined N eps K j))).
  Proof.
    intros H J j. assert (j < N)%nat as jN by (apply after_lt, N0). pose proof (left_ok j jN) as L. assert (before N j = i) as Bj by (apply before_after; assumption). rewrite Bj in L.
    destruct (joint_spec i H); [contradiction|]. destruct (joint_spec j jN) as [Jb|Jb]; cbn [andb] in L.
    - destruct (is_spec (ltype (K j)) Open) as [E|E].
      + unfold lside in L. injection L as -> -> ->. split; [reflexivity|]. left. auto.
      + destruct (lside_parts _ _ L) as (-> & -> & ->). split; [reflexivity|]. right. split; [reflexivity|]. split; [reflexivity|]. intros Q. contradiction.
    - destruct (lside_parts _ _ L) as (-> & -> & ->). split; [reflexivity|]. right. auto.
  Qed.
  Lemma joined_sides i : (i < N)%nat -> joined N eps K i -> rside (B i) = (Explicit, Some (kx (K i)), Some (ky (K i))) /\ lside (B (after N i)) = (Explicit, Some (kx (K i)), Some (ky (K i))).
  Proof.
    intros H J. split.
    - rewrite right_ok by exact H. destruct (joint_spec i H); [reflexivity|contradiction].
    - rewrite left_ok by (apply after_lt, N0). rewrite before_after by assumption. destruct (joint_spec i H); [reflexivity|contradiction].
  Qed.

  Lemma free_same i : (i < N)%nat -> free N eps B i <-> free N eps K i.
  Proof.
    intros H. unfold free. rewrite (same_chord_x N K B Pl), (same_chord_y N K B Pl). destruct (joint_spec i H) as [J|J].
    - destruct (joined_sides i H J) as [R _]. unfold rside in R. injection R as -> _ _. destruct J. unfold unset. intuition discriminate.
    - destruct (right_free i H J) as (_ & [(-> & _ & -> & _)|(-> & _)]); unfold unset; [|tauto]. intuition.
  Qed.
  Lemma free_unjoined i : free N eps K i -> ~ joined N eps K i. Proof. unfold free, joined. tauto. Qed.
  Lemma unset_cases i : (i < N)%nat -> unset (rtype (K i)) -> free N eps K i \/ joined N eps K i.
  Proof. intros H U. unfold free, joined. destruct (near_spec eps (chord_x N K i) (chord_y N K i)); tauto. Qed.
  Lemma tension_out_same i : (i < N)%nat -> ~ joined N eps K i -> tension_out B i = tension_out K i.
  Proof. intros H J. unfold tension_out. destruct (right_free i H J) as [-> _]. reflexivity. Qed.
  Lemma tension_in_same i : (i < N)%nat -> ~ joined N eps K i -> tension_in N B i = tension_in N K i.
  Proof. intros H J. unfold tension_in. destruct (left_free i H J) as [-> _]. reflexivity. Qed.

  Lemma good_joins i : (i < N)%nat -> good_segment N eps B i.
  Proof.
    intros H. unfold good_segment. destruct (joint_spec i H) as [J|J].
    - destruct (joined_sides i H J) as [R L]. unfold rside in R. unfold lside in L. injection R as -> -> ->. injection L as -> -> ->. right. left. repeat split; discriminate.
    - destruct (right_free i H J) as (Ry & Rr). destruct (left_free i H J) as (Ly & Ll). rewrite (same_chord_x N K B Pl), (same_chord_y N K B Pl). rewrite Ry, Ly.
      destruct (Pr i H) as ([[E1 E2]|[(E1 & E2 & X)|(V1 & V2 & T1 & T2)]] & _).
      + left. destruct Rr as [(_ & _ & Q & _)|(-> & _)]; [congruence|]. destruct Ll as [(_ & _ & Q & _)|(-> & _)]; [congruence|]. auto.
      + right. left. destruct Rr as [(_ & _ & Q & _)|(-> & -> & _)]; [congruence|]. destruct Ll as [(_ & _ & Q & _)|(-> & -> & _)]; [congruence|]. auto.
      + right. right. split; [|split; [|split; [|split]]]; auto.
        * destruct Rr as [(-> & -> & _)|(-> & -> & _)]; [exists 1; split; [reflexivity|lra]|exact V1].
        * destruct Ll as [(-> & -> & _)|(-> & -> & _)]; [exists 1; split; [reflexivity|lra]|exact V2].
        * intros Q. apply J. split; [apply (value_unset _ _ V1)|exact Q].
  Qed.
  Lemma good_knot i : (i < N)%nat -> (ltype (B i) = Open -> rtype (B i) = Open \/ rtype (B i) = Explicit) /\ (rtype (B i) = Open -> ltype (B i) = Open \/ ltype (B i) = Explicit).
  Proof.
    intros H. destruct (Pr i H) as (_ & P1 & P2). pose proof (right_ok i H) as R. pose proof (left_ok i H) as L.
    destruct (joint N eps K i), (joint N eps K (before N i)); cbn [andb] in R, L.
    - unfold rside in R. unfold lside in L. injection R as -> _ _. injection L as -> _ _. split; discriminate.
    - destruct (is_spec (ltype (K i)) Open); [unfold lside in L; injection L as -> _ _|destruct (lside_parts _ _ L) as (-> & _)]; unfold rside in R; injection R as -> _ _; split; try discriminate; intros; contradiction.
    - destruct (is_spec (rtype (K i)) Open); [unfold rside in R; injection R as -> _ _|destruct (rside_parts _ _ R) as (-> & _)]; unfold lside in L; injection L as -> _ _; split; try discriminate; intros; contradiction.
    - destruct (rside_parts _ _ R) as (-> & _). destruct (lside_parts _ _ L) as (-> & _). split; assumption.
  Qed.

  (** what is before an open right side and behind an open left one *)
  Lemma open_before i : (i < N)%nat -> rtype (K i) = Open -> ~ free N eps K (before N i) -> ~ joined N eps K (before N i) -> ltype (K i) = Explicit /\ lside (B i) = lside (K i).
  Proof.
    intros H E F J. set (b := before N i) in *. assert (b < N)%nat as bN by (apply before_lt, N0). assert (after N b = i) as Ab by (apply after_before; assumption).
    destruct (Pr i H) as (_ & _ & P2). destruct (Pr b bN) as ([[E1 E2]|[(E1 & E2 & X)|(V1 & V2 & T1 & T2)]] & _); rewrite ?Ab in *.
    - destruct (P2 E); congruence.
    - split; [exact E2|]. rewrite left_ok by exact H. fold b. destruct (joint_spec b bN); [contradiction|]. rewrite E2. cbn [is number Nat.eqb]. rewrite andb_false_r. reflexivity.
    - destruct (unset_cases b bN (value_unset _ _ V1)); contradiction.
  Qed.
  Lemma open_behind j : (j < N)%nat -> ltype (K j) = Open -> ~ free N eps K j -> ~ joined N eps K j -> rtype (K j) = Explicit /\ rside (B j) = rside (K j).
  Proof.
    intros H E F J. destruct (Pr j H) as (_ & P1 & _). assert (rtype (K j) = Explicit) as X.
    { destruct (P1 E) as [Q|Q]; [|exact Q]. destruct (unset_cases j H); [right; right; exact Q|contradiction|contradiction]. }
    split; [exact X|]. rewrite right_ok by exact H. destruct (joint_spec j H); [contradiction|]. rewrite X. cbn [is number Nat.eqb]. rewrite andb_false_r. reflexivity.
  Qed.

  Lemma begins_same theta phi i : (i < N)%nat -> free N eps K i -> begins N eps B theta phi i -> begins N eps K theta phi i.
  Proof.
    intros H F. pose proof (free_unjoined i F) as J. destruct (right_free i H J) as (Ry & Rr).
    assert (forall g, curl_begin N B theta phi g i -> curl_begin N K theta phi g i) as Cu.
    { intros g. unfold curl_begin. rewrite tension_out_same, tension_in_same, (same_chord N K B Pl) by assumption. auto. }
    assert (b_lt : (before N i < N)%nat) by (apply before_lt, N0).
    destruct Rr as [(E1 & E2 & E3 & E4)|(E1 & E2 & E3)].
    - unfold begins. rewrite E1, E3. intros A. split; [intros Q; destruct (free_unjoined _ Q E4)|]. intros _. specialize (A 1 E2).
      assert (control_before K i = None) as ->; [|apply Cu, A]. unfold control_before. destruct (Pr i H) as (_ & _ & P2). destruct (P2 E3) as [->|X]; [reflexivity|].
      exfalso. destruct (Pr (before N i) b_lt) as ([[_ Q]|[(Q & _)|(_ & V & _)]] & _); rewrite ?after_before in * by assumption; [congruence| |].
      + destruct E4 as [U _]. rewrite Q in U. unfold unset in U. intuition discriminate.
      + rewrite X in V. contradiction.
    - unfold begins. rewrite E1. destruct (rtype (K i)) eqn:T; auto.
      + rewrite E2. intros A a Ea. rewrite <- (same_leaves N K B Pl). apply A, Ea.
      + rewrite E2. intros A g Eg. apply Cu, A, Eg.
      + intros [A1 A2]. specialize (E3 eq_refl). split; intros Q.
        * destruct (A1 (proj2 (free_same _ b_lt) Q)) as [D M]. split.
          -- rewrite <- (same_leaves N K B Pl), <- (same_arrives N K B Pl). exact D.
          -- unfold mock_at_begin, mock_at_end in *. rewrite !tension_out_same, !tension_in_same, !(same_chord N K B Pl) in M by assumption. exact M.
        * destruct (open_before i H T Q E3) as [X L]. assert (~ free N eps B (before N i)) as NB by (rewrite free_same by exact b_lt; exact Q). specialize (A2 NB).
          assert (control_before B i = control_before K i) as Cb. { unfold control_before. destruct (lside_parts _ _ L) as (-> & -> & ->). reflexivity. }
          rewrite Cb, (same_x K B Pl), (same_y K B Pl) in A2. destruct (control_before K i) as [[a b]|]; [|apply Cu, A2]. destruct A2 as [A2 A3]. split; intros Sh; [apply Cu, A2, Sh|]. rewrite <- (same_leaves N K B Pl). apply A3, Sh.
  Qed.
  Lemma ends_same theta phi i : (i < N)%nat -> free N eps K i -> ends N eps B theta phi i -> ends N eps K theta phi i.
  Proof.
    intros H F. pose proof (free_unjoined i F) as J. destruct (left_free i H J) as (Ly & Ll). unfold ends. cbv zeta. set (j := after N i) in *.
    assert (forall g, curl_end N B theta phi g i -> curl_end N K theta phi g i) as Cu.
    { intros g. unfold curl_end. rewrite tension_out_same, tension_in_same, (same_chord N K B Pl) by assumption. auto. }
    assert (jN : (j < N)%nat) by (apply after_lt, N0).
    destruct Ll as [(E1 & E2 & E3 & E4)|(E1 & E2 & E3)].
    - rewrite E1, E3. intros A. split; [intros Q; destruct (free_unjoined _ Q E4)|]. intros _. specialize (A 1 E2).
      assert (control_behind K j = None) as ->; [|apply Cu, A]. unfold control_behind. destruct E4 as [U _]. destruct U as [->|[->| ->]]; reflexivity.
    - rewrite E1. destruct (ltype (K j)) eqn:T; auto.
      + rewrite E2. intros A a Ea. rewrite <- (same_arrives N K B Pl). apply A, Ea.
      + rewrite E2. intros A g Eg. apply Cu, A, Eg.
      + intros [A1 A2]. specialize (E3 eq_refl). split; intros Q.
        * destruct (A1 (proj2 (free_same _ jN) Q)) as [D M]. split.
          -- rewrite <- (same_leaves N K B Pl), <- (same_arrives N K B Pl). exact D.
          -- unfold mock_at_begin, mock_at_end in *. rewrite !tension_out_same, !tension_in_same, !(same_chord N K B Pl) in M by assumption. exact M.
        * destruct (open_behind j jN T Q E3) as [X L]. assert (~ free N eps B j) as NB by (rewrite free_same by exact jN; exact Q). specialize (A2 NB).
          assert (control_behind B j = control_behind K j) as Cb. { unfold control_behind. destruct (rside_parts _ _ L) as (-> & -> & ->). reflexivity. }
          rewrite Cb, (same_x K B Pl), (same_y K B Pl) in A2. destruct (control_behind K j) as [[a b]|]; [|apply Cu, A2]. destruct A2 as [A2 A3]. split; intros Sh; [apply Cu, A2, Sh|]. rewrite <- (same_arrives N K B Pl). apply A3, Sh.
  Qed.
  Lemma done_same theta phi K' i : (i < N)%nat -> segment_done N eps B theta phi K' i -> segment_result N eps K theta phi K' i.
  Proof.
    intros H (D1 & D2 & D3). unfold segment_result. cbv zeta. set (j := after N i) in *. split; [|split; [|split]].
    - intros F. specialize (D1 (proj2 (free_same i H) F)). pose proof (free_unjoined i F) as J. unfold chosen in *. cbv zeta in *. fold j in D1. fold j.
      rewrite tension_out_same, tension_in_same, (same_chord_x N K B Pl), (same_chord_y N K B Pl), !(same_x K B Pl), !(same_y K B Pl) in D1 by assumption. exact D1.
    - intros J. destruct (joined_sides i H J) as [R L]. destruct D2 as [D2 D4]; [unfold rside in R; congruence|]. rewrite R in D2. fold j in L. rewrite L in D4. unfold rside in D2. unfold lside in D4. repeat split; congruence.
    - intros E. assert (~ joined N eps K i) as J by (intros [U _]; rewrite E in U; unfold unset in U; intuition discriminate).
      destruct (right_free i H J) as (Ry & [(_ & _ & Q & _)|(Rt & Rx & _)]); [congruence|]. destruct (left_free i H J) as (Ly & Ll). fold j in Ly, Ll.
      assert (ltype (K j) = Explicit) as El. { destruct (Pr i H) as ([[Q _]|[(_ & Q & _)|(V & _)]] & _); [congruence|exact Q|]. rewrite E in V. contradiction. }
      destruct Ll as [(_ & _ & Q & _)|(Lt & Lx & _)]; [congruence|]. destruct D2 as [D2 D4]; [congruence|]. unfold rside in D2. unfold lside in D4. repeat split; congruence.
    - intros E. assert (~ joined N eps K i) as J by (intros [U _]; rewrite E in U; unfold unset in U; intuition discriminate).
      destruct (right_free i H J) as (_ & [(_ & _ & Q & _)|(Rt & _)]); [congruence|]. apply D3. congruence.
  Qed.

  Lemma choices_ok : exists theta phi,
    (forall i, (i < N)%nat -> free N eps K i -> begins N eps K theta phi i /\ ends N eps K theta phi i) /\
    ((exists i, (i < N)%nat /\ free N eps K i /\ flat (theta i) (phi i)) -> make_choices N eps K = None) /\
    ((forall i, (i < N)%nat -> free N eps K i -> ~ flat (theta i) (phi i)) -> exists K', make_choices N eps K = Some K' /\
       (forall i, kx (K' i) = kx (K i) /\ ky (K' i) = ky (K i)) /\ (forall i, (i < N)%nat -> segment_result N eps K theta phi K' i)).
  Proof.
    destruct (finish_ok N eps B N0 eps0 good_joins good_knot) as (theta & phi & BE & R1 & R2). exists theta, phi. unfold make_choices. fold B. split; [|split].
    - intros i H F. destruct (BE i H (proj2 (free_same i H) F)) as [X Y]. split; [apply begins_same|apply ends_same]; assumption.
    - intros (i & H & F & Fl). apply R1. exists i. split; [exact H|]. split; [apply free_same; assumption|exact Fl].
    - intros F. destruct R2 as (K' & E & P' & D').
      { intros i H Fi. apply F; [exact H|]. apply free_same; assumption. }
      exists K'. split; [exact E|]. split.
      + intros i. specialize (P' i). rewrite Pl in P'. unfold place in P'. split; congruence.
      + intros i H. apply done_same, D'; exact H.
  Qed.
End Transfer.
