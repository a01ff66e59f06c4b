(** All control points *)
From Coq Require Import Reals List Bool PeanoNat Lra Lia.
From Verif Require Import CurveModel CurveProofs4 MpModel MpSpec MpProofs MpProofs2 MpProofs3 MpProofs4 MpProofs5.
Import ListNotations.
Local Open Scope R_scope.

(** ** The breakpoint *)
Section Good.
  Variables (N : nat) (eps : R) (B : heap).
  Hypotheses (N0 : (0 < N)%nat) (eps0 : 0 < eps).
  Hypothesis Seg : forall i, (i < N)%nat -> good_segment N eps B i.
  Hypothesis Knot : forall i, (i < N)%nat -> (ltype (B i) = Open -> rtype (B i) = Open \/ rtype (B i) = Explicit) /\ (rtype (B i) = Open -> ltype (B i) = Open \/ ltype (B i) = Explicit).

  Definition all_done (res : option heap) : Prop :=
    exists theta phi, (forall i, (i < N)%nat -> free N eps B i -> begins N eps B theta phi i /\ ends N eps B theta phi i) /\
      ((exists i, (i < N)%nat /\ free N eps B i /\ flat (theta i) (phi i)) -> res = None) /\
      ((forall i, (i < N)%nat -> free N eps B i -> ~ flat (theta i) (phi i)) ->
         exists K', res = Some K' /\ (forall i, place (K' i) = place (B i)) /\ (forall i, (i < N)%nat -> segment_done N eps B theta phi K' i)).

  Lemma broken_ok h : (h < N)%nat -> smooth (B h) = false -> all_done (runs N eps N h N B).
  Proof.
    intros hN Hb. assert (pos N h 0 = h) as P0 by (apply along_0; assumption).
    destruct (loop_ok N eps B N0 eps0 Seg Knot h hN Hb N 0 B) as (theta & phi & BE & R1 & R2); [lia|exact N0|rewrite P0; exact Hb| |].
    { split; [reflexivity|]. split; intros; split; reflexivity. }
    rewrite P0, Nat.sub_0_r in R1, R2. exists theta, phi.
    assert (forall i, (i < N)%nat -> exists s, (0 <= s < N)%nat /\ i = pos N h s) as At.
    { intros i Hi. exists (step_of N h i). split; [pose proof (step_lt N N0 h hN i); lia|symmetry; apply pos_step; assumption]. }
    split; [|split].
    - intros i Hi F. destruct (At i Hi) as (s & Hs & ->). apply BE; assumption.
    - intros (i & Hi & F & Fl). apply R1. destruct (At i Hi) as (s & Hs & ->). exists s. auto.
    - intros F. destruct R2 as (K' & E' & P' & D' & _).
      { intros s Hs Fs. apply F; [apply along_lt, N0|exact Fs]. }
      exists K'. split; [exact E'|]. split; [exact P'|]. intros i Hi. destruct (At i Hi) as (s & Hs & ->). apply D', Hs.
  Qed.

  Lemma cyclic_ok : (forall i, (i < N)%nat -> smooth (B i) = true) -> all_done (runs N eps N 0 N (upd 0 (fun k => set_left EndCycle (lx k) (ly k) k) B)).
  Proof.
    intros Sm. set (C := upd 0 (fun k => set_left EndCycle (lx k) (ly k) k) B).
    assert (forall i, (i < N)%nat -> ltype (B i) = Open /\ rtype (B i) = Open) as Op by (intros i Hi; pose proof (Sm i Hi); destruct (smooth_spec (B i)); [assumption|discriminate]).
    assert (forall k, (k < N)%nat -> along N 0 k = k) as Al by (intros k Hk; unfold along; apply Nat.mod_small; exact Hk).
    assert (along N 0 N = 0%nat) as AlN by (unfold along; apply Nat.mod_same; lia).
    assert (forall j, place (C j) = place (B j)) as Pl by (intros j; apply upd_place; reflexivity).
    assert (forall j, rside (C j) = rside (B j)) as Rs by (intros j; apply upd_rside; reflexivity).
    assert (forall j, j <> 0%nat -> C j = B j) as Ot by (intros j Hj; apply upd_other, Hj).
    assert (ltype (C 0%nat) = EndCycle) as C0 by (unfold C; rewrite upd_same; reflexivity).
    assert (rtype (C 0%nat) = Open) as CR by (destruct (rside_parts _ _ (Rs 0%nat)) as (-> & _); apply Op, N0).
    assert (forall j, ly (C j) = ly (B j)) as Ly by (intros j; unfold C, upd; destruct (Nat.eqb_spec j 0); reflexivity).
    assert (forall j, ry (C j) = ry (B j)) as Ry by (intros j; destruct (rside_parts _ _ (Rs j)) as (_ & _ & ->); reflexivity).
    assert (runs N eps N 0 N C = runs N eps (S (N - 1)) 0 N C) as -> by (f_equal; lia). rewrite runs_S.
    assert (steps N N C 0 1 = Some N) as St.
    { apply steps_ok; [|lia|lia|].
      - rewrite AlN. destruct (smooth_spec (C 0%nat)) as [[Q _]|]; [congruence|reflexivity].
      - intros j J. rewrite Al by lia. rewrite Ot by lia. apply Sm. lia. }
    assert (forall i, (i < N)%nat -> free N eps B i /\ tense (ry (B i)) /\ tense (ly (B (after N i))) /\ 0 < chord N B i) as Fs.
    { intros i Hi. destruct (free_segment N eps B eps0 Seg i Hi) as (F1 & _ & _ & F4 & F5 & F6); [right; right; apply Op, Hi|]. exact (conj F1 (conj F4 (conj F5 F6))). }
    unfold body. rewrite CR. cbn [number Nat.leb]. rewrite St. cbn [bind].
    destruct (psis_ok N C 0 N N0 N0 ltac:(lia)) as (l & El & _).
    { intros k Hk. rewrite (same_chord N B C Pl), Al by exact Hk. apply Fs, Hk. }
    rewrite El. cbn [bind]. rewrite AlN. unfold open_left. rewrite C0. change (is EndCycle Open) with false. cbn [bind].
    unfold open_right. rewrite CR, C0. change (is EndCycle Explicit) with false. rewrite andb_false_r. cbn [bind].
    destruct (solve_ok N C 0 N N0 N0 l) as (th & ph & Ang & Res1 & Res2); [lia|exact El| | | | | |].
    { intros k Hk. rewrite (same_chord N B C Pl), Al by exact Hk. apply Fs, Hk. }
    { intros k Hk. rewrite Al by exact Hk. rewrite Ry, Ly. rewrite along_S, Al by assumption. destruct (Fs k Hk) as (_ & F2 & F3 & _). split; assumption. }
    { intros k Hk. rewrite Al by lia. rewrite Ot by lia. apply Op. lia. }
    { rewrite CR. exact I. }
    { left. rewrite AlN. auto. }
    exists th, ph. assert (forall k, (k < N)%nat -> th (along N 0 k) = th k /\ ph (along N 0 k) = ph k) as At by (intros k Hk; rewrite Al by exact Hk; split; reflexivity).
    assert (forall k, (k < N)%nat -> ry (C (along N 0 k)) = ry (B (along N 0 k)) /\ ly (C (along N 0 (S k))) = ly (B (along N 0 (S k)))) as Tr by (intros; split; [apply Ry|apply Ly]).
    assert (forall k, (1 <= k < N)%nat -> ltype (B (along N 0 k)) = Open /\ rtype (B (along N 0 k)) = Open) as Op' by (intros k Hk; rewrite Al by lia; apply Op; lia).
    assert (forall k, (k < N)%nat -> free N eps B (along N 0 k)) as Fr by (intros k Hk; rewrite Al by exact Hk; apply Fs, Hk).
    assert (eff_r N eps B C 0 N) as Er by (right; right; split; [apply Op, N0|rewrite AlN; exact C0]).
    assert (eff_l N eps B C 0 N) as El' by (right; right; rewrite AlN; split; [apply Op, N0|exact C0]).
    split; [|split].
    - intros i Hi _. rewrite <- (Al i Hi). assert (1 <= N)%nat as N1 by lia. split.
      + exact (run_begins N eps B C 0 N N0 N0 N1 Pl Tr Op' Fr eps0 Er (fun _ => eq_refl) th ph th ph Ang At i Hi).
      + exact (run_ends_ok N eps B C 0 N N0 N0 N1 Pl Tr Op' Fr eps0 El' (fun _ => eq_refl) th ph th ph Ang At i Hi).
    - intros (i & Hi & _ & F). rewrite Res1; [reflexivity|]. exists i. split; assumption.
    - intros F. destruct Res2 as (K' & E' & Ctl & Ple & _).
      { intros k Hk. apply F; [exact Hk|]. apply Fs, Hk. }
      rewrite E'. cbn [bind]. rewrite Nat.leb_refl. exists K'. split; [reflexivity|]. split; [intros j; rewrite Ple; apply Pl|].
      intros i Hi. destruct (Op i Hi) as [_ T]. split; [|rewrite T; split; discriminate]. intros _.
      destruct (Ctl i Hi) as (v & w & H1 & H2 & H3 & H4).
      rewrite (run_out N B C 0 N Tr i Hi) in H1. rewrite (run_in N B C 0 N N0 Tr i Hi) in H2. rewrite along_S in H4 by exact N0. rewrite Al in H1, H2, H3, H4 by exact Hi. change (next N i) with (after N i) in H4.
      rewrite (same_chord_x N B C Pl), (same_chord_y N B C Pl), (same_x B C Pl), (same_y B C Pl) in H3, H4.
      unfold chosen. cbv zeta. unfold rside in H3. unfold lside in H4. injection H3 as T1 X1 Z1. injection H4 as T2 X2 Z2. split; [exact T1|]. split; [exact T2|]. exists v, w. split; [exact H1|]. split; [exact H2|].
      rewrite X1, Z1, X2, Z2. repeat split; f_equal; ring.
  Qed.

  Lemma finish_ok : all_done (let '(h, K) := find_break N B in runs N eps N h N K).
  Proof.
    unfold find_break. destruct (find (fun i => negb (smooth (B i))) (seq 0 N)) as [h|] eqn:E.
    - apply find_some in E. destruct E as [E1 E2]. apply in_seq in E1. apply negb_true_iff in E2. apply broken_ok; [lia|exact E2].
    - apply cyclic_ok. intros i Hi. pose proof (find_none _ _ E i) as Q. rewrite in_seq in Q. specialize (Q ltac:(lia)). apply negb_false_iff in Q. exact Q.
  Qed.
End Good.

(** ** Knots in the same place *)
Section Joins.
  Variables (N : nat) (eps : R) (K : heap).
  Hypothesis N0 : (0 < N)%nat.
  Definition joint (i : nat) : bool := (1 <? number (rtype (K i)))%nat && near eps (kx (K i) - kx (K (after N i))) (ky (K i) - ky (K (after N i))).

  Definition right_side (m i : nat) : ktype * option R * option R :=
    if (i <? m)%nat && joint i then (Explicit, Some (kx (K i)), Some (ky (K i)))
    else if (before N i <? m)%nat && joint (before N i) && is (rtype (K i)) Open then (Curl, Some 1, ry (K i)) else rside (K i).
  Definition left_side (m i : nat) : ktype * option R * option R :=
    let b := before N i in
    if (b <? m)%nat && joint b then (Explicit, Some (kx (K b)), Some (ky (K b)))
    else if (i <? m)%nat && joint i && is (ltype (K i)) Open then (Curl, Some 1, ly (K i)) else lside (K i).

  Lemma join_sides p A : let q := after N p in
    (1 <? number (rtype (A p)))%nat && near eps (kx (A p) - kx (A q)) (ky (A p) - ky (A q)) = true ->
    (forall i, place (join N eps p A i) = place (A i)) /\
    (forall i, rside (join N eps p A i) = if (i =? p)%nat then (Explicit, Some (kx (A p)), Some (ky (A p))) else if (i =? q)%nat && is (rtype (A i)) Open then (Curl, Some 1, ry (A i)) else rside (A i)) /\
    (forall i, lside (join N eps p A i) = if (i =? q)%nat then (Explicit, Some (kx (A p)), Some (ky (A p))) else if (i =? p)%nat && is (ltype (A i)) Open then (Curl, Some 1, ly (A i)) else lside (A i)).
  Proof.
    intros q T. unfold join. change (next N p) with q. rewrite T. clear T.
    split; [|split]; intros i; unfold upd; destruct (Nat.eqb_spec i q) as [->|Nq], (Nat.eqb_spec q p) as [Eq|Np]; try rewrite Eq; rewrite ?Nat.eqb_refl;
      try (destruct (Nat.eqb_spec i p) as [->|Nip]; rewrite ?Nat.eqb_refl); try congruence; cbn [set_left set_right ltype rtype lx ly rx ry kx ky is andb];
      repeat match goal with |- context [is ?t Open] => destruct (is_spec t Open); cbn [set_left set_right ltype rtype lx ly rx ry kx ky is andb] end; try reflexivity; try congruence.
    all: cbn in *; congruence.
  Qed.
  Lemma join_none p A : (1 <? number (rtype (A p)))%nat && near eps (kx (A p) - kx (A (after N p))) (ky (A p) - ky (A (after N p))) = false -> join N eps p A = A.
  Proof. intros T. unfold join. change (next N p) with (after N p). rewrite T. reflexivity. Qed.

  Lemma joins_upto m : (m <= N)%nat -> let A := fold_left (fun K p => join N eps p K) (seq 0 m) K in
    (forall i, place (A i) = place (K i)) /\ (forall i, (i < N)%nat -> rside (A i) = right_side m i /\ lside (A i) = left_side m i).
  Proof.
    induction m as [|m IH]; intros M A.
    - split; [reflexivity|]. intros i Hi. unfold right_side, left_side. cbn [Nat.ltb Nat.leb andb]. split; reflexivity.
    - unfold A. rewrite seq_S, fold_left_app. cbn [Nat.add fold_left]. destruct (IH ltac:(lia)) as [IP IS]. set (A0 := fold_left (fun K p => join N eps p K) (seq 0 m) K) in *. clearbody A0. clear A IH.
      set (q := after N m). assert (q < N)%nat as qN by (apply after_lt, N0). assert (before N q = m) as Bq by (apply before_after; lia).
      assert ((1 <? number (rtype (A0 m)))%nat && near eps (kx (A0 m) - kx (A0 q)) (ky (A0 m) - ky (A0 q)) = joint m) as T.
      { unfold joint. rewrite !(same_x K A0 IP), !(same_y K A0 IP). fold q. f_equal. destruct (IS m) as [R _]; [lia|]. unfold right_side in R. rewrite Nat.ltb_irrefl in R. cbn [andb] in R.
        destruct ((before N m <? m)%nat && joint (before N m)); cbn [andb] in R; [destruct (is_spec (rtype (K m)) Open) as [E|E]|].
        - unfold rside in R. injection R as -> _ _. rewrite E. reflexivity.
        - destruct (rside_parts _ _ R) as (-> & _). reflexivity.
        - destruct (rside_parts _ _ R) as (-> & _). reflexivity. }
      assert (forall j, (j < N)%nat -> before N j = m <-> j = q) as Bj.
      { intros j Hj. split; [intros Q|intros ->; exact Bq]. unfold q. rewrite <- Q. symmetry. apply after_before; assumption. }
      assert (forall j, (j <? S m)%nat = (j <? m)%nat || (j =? m)%nat) as Lt by (intros j; destruct (Nat.ltb_spec j (S m)), (Nat.ltb_spec j m), (Nat.eqb_spec j m); cbn; lia || reflexivity).
      destruct (joint m) eqn:Jm.
      + destruct (join_sides m A0 T) as (JP & JR & JL). fold q in JR, JL. split; [intros i; rewrite JP; apply IP|]. intros i Hi. rewrite JR, JL. clear JP JR JL. destruct (IS i Hi) as [R L].
        assert ((before N i =? m)%nat = (i =? q)%nat) as Bi by (destruct (Nat.eqb_spec (before N i) m), (Nat.eqb_spec i q); try reflexivity; apply Bj in Hi; tauto).
        rewrite (same_x K A0 IP), (same_y K A0 IP). unfold right_side, left_side in *. rewrite !Lt, Bi. destruct (Nat.eqb_spec i m) as [Em|Em].
        * subst i. rewrite Jm, orb_true_r. cbn [andb]. split; [reflexivity|]. rewrite Nat.ltb_irrefl in L. cbn [andb] in L.
          destruct (Nat.eqb_spec m q) as [Eq|Eq].
          -- rewrite orb_true_r. cbn [andb]. assert (before N m = m) as Bm by (apply Bj; assumption). rewrite Bm, Jm. reflexivity.
          -- rewrite orb_false_r. destruct ((before N m <? m)%nat && joint (before N m)).
             ++ unfold lside in L. injection L as L1 L2 L3. rewrite L1. unfold lside. rewrite L1, L2, L3. reflexivity.
             ++ destruct (lside_parts _ _ L) as (-> & _ & ->). rewrite L. reflexivity.
        * cbn [andb orb]. rewrite orb_false_r. destruct (Nat.eqb_spec i q) as [Eq|Eq].
          -- subst i. rewrite Bq, Jm, orb_true_r in *. rewrite Nat.ltb_irrefl in R. cbn [andb] in *. split; [|reflexivity].
             destruct ((q <? m)%nat && joint q).
             ++ unfold rside in R. injection R as L1 L2 L3. rewrite L1. unfold rside. rewrite L1, L2, L3. reflexivity.
             ++ destruct (rside_parts _ _ R) as (-> & _ & ->). rewrite R. reflexivity.
          -- rewrite orb_false_r. split; assumption.
      + rewrite join_none by exact T. split; [exact IP|]. intros i Hi. destruct (IS i Hi) as [R L]. rewrite R, L. unfold right_side, left_side. rewrite !Lt.
        assert (forall j, ((j <? m)%nat || (j =? m)%nat) && joint j = (j <? m)%nat && joint j) as Q by (intros j; destruct (Nat.eqb_spec j m) as [->|]; [rewrite Jm, !andb_false_r; reflexivity|rewrite orb_false_r; reflexivity]).
        rewrite !Q. split; reflexivity.
  Qed.
End Joins.
