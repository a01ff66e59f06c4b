(** The loop over the runs, with a breakpoint *)
From Coq Require Import Reals List Bool PeanoNat Lra Lia.
From Verif Require Import CurveModel CurveProofs4 MpModel MpSpec MpProofs MpProofs2 MpProofs3 MpProofs4.
Import ListNotations.
Local Open Scope R_scope.

Lemma first_true (f : nat -> bool) m : (1 <= m)%nat -> f m = true -> exists n, (1 <= n <= m)%nat /\ f n = true /\ forall k, (1 <= k < n)%nat -> f k = false.
Proof.
  induction m as [m IH] using lt_wf_ind. intros M F. destruct (Nat.eq_dec m 1) as [->|Nm]; [exists 1%nat; repeat split; auto; lia|].
  destruct (existsb f (seq 1 (m - 1))) eqn:E.
  - apply existsb_exists in E. destruct E as (j & J & Fj). apply in_seq in J. destruct (IH j) as (n & Hn & Fn & An); [lia|lia|exact Fj|]. exists n. repeat split; auto; lia.
  - exists m. split; [lia|]. split; [exact F|]. intros k Hk. destruct (f k) eqn:Fk; [|reflexivity]. assert (existsb f (seq 1 (m - 1)) = true) as Q; [|congruence].
    apply existsb_exists. exists k. split; [apply in_seq; lia|exact Fk].
Qed.
Lemma steps_ok N K p n : smooth (K (along N p n)) = false -> forall fuel k, (k <= n)%nat -> (n - k < fuel)%nat -> (forall j, (k <= j < n)%nat -> smooth (K (along N p j)) = true) -> steps N fuel K p k = Some n.
Proof.
  intros F. induction fuel as [|fuel IH]; intros k Kn Fu A; [lia|]. cbn [steps]. destruct (Nat.eq_dec k n) as [->|]; [rewrite F; reflexivity|].
  rewrite A by lia. apply IH; [lia|lia|]. intros; apply A; lia.
Qed.
Lemma smooth_spec k : reflect (ltype k = Open /\ rtype k = Open) (smooth k).
Proof. unfold smooth. destruct (is_spec (ltype k) Open), (is_spec (rtype k) Open); cbn; constructor; tauto. Qed.
Lemma near_spec eps x y : reflect (short eps x y) (near eps x y).
Proof. unfold near, short, below. destruct (Rlt_dec _ _); constructor; assumption. Qed.
Lemma some_or_none n (P : nat -> Prop) : (forall k, P k \/ ~ P k) -> (exists k, (k < n)%nat /\ P k) \/ (forall k, (k < n)%nat -> ~ P k).
Proof.
  intros D. induction n as [|n [(k & Hk & Pk)|IH]]; [right; intros; lia|left; exists k; split; [lia|exact Pk]|].
  destruct (D n) as [Pn|Pn]; [left; exists n; split; [lia|exact Pn]|]. right. intros k Hk. destruct (Nat.eq_dec k n) as [->|]; [exact Pn|]. apply IH. lia.
Qed.
Lemma rside_parts k k' : rside k = rside k' -> rtype k = rtype k' /\ rx k = rx k' /\ ry k = ry k'. Proof. unfold rside. intros E. repeat split; congruence. Qed.
Lemma lside_parts k k' : lside k = lside k' -> ltype k = ltype k' /\ lx k = lx k' /\ ly k = ly k'. Proof. unfold lside. intros E. repeat split; congruence. Qed.

(** the body of the loop *)
Definition body (N : nat) (eps : R) (p : nat) (K : heap) : option (heap * nat) :=
  if (2 <=? number (rtype (K p)))%nat then
    let* n := steps N N K p 1 in
    let* psi := psis N K p n in
    let* K := open_left eps (along N p n) K in
    let* K := open_right eps p K in
    let* K := solve_choices N p n (fun k => nth k psi 0) K in Some (K, n)
  else if is (rtype (K p)) Endpoint then
    let q := next N p in
    let K := upd p (fun k => set_right Endpoint (Some (kx k)) (Some (ky k)) k) K in
    Some (upd q (fun k => set_left (ltype k) (Some (kx k)) (Some (ky k)) k) K, 1%nat)
  else Some (K, 1%nat).
Lemma runs_S N eps f p d K : runs N eps (S f) p d K = let* (K, n) := body N eps p K in if (d <=? n)%nat then Some K else runs N eps f (along N p n) (d - n) K.
Proof. reflexivity. Qed.

Section Good.
  Variables (N : nat) (eps : R) (B : heap).
  Hypotheses (N0 : (0 < N)%nat) (eps0 : 0 < eps).
  Definition good_segment (i : nat) : Prop :=
    let a := B i in let b := B (after N i) in
    (rtype a = Endpoint /\ ltype b = Endpoint) \/
    (rtype a = Explicit /\ ltype b = Explicit /\ rx a <> None /\ ry a <> None /\ lx b <> None /\ ly b <> None) \/
    (value (rtype a) (rx a) /\ value (ltype b) (lx b) /\ tense (ry a) /\ tense (ly b) /\ ~ short eps (chord_x N B i) (chord_y N B i)).
  Hypothesis Seg : forall i, (i < N)%nat -> good_segment i.
  Hypothesis Knot : forall i, (i < N)%nat -> (ltype (B i) = Open -> rtype (B i) = Open \/ rtype (B i) = Explicit) /\ (rtype (B i) = Open -> ltype (B i) = Open \/ ltype (B i) = Explicit).

  Lemma value_unset t o : value t o -> unset t. Proof. unfold value, unset. destruct t; try contradiction; auto. Qed.
  Lemma unset_number t : unset t -> (2 <=? number t)%nat = true. Proof. intros [->|[->| ->]]; reflexivity. Qed.
  Lemma free_segment i : (i < N)%nat -> unset (rtype (B i)) ->
    free N eps B i /\ value (rtype (B i)) (rx (B i)) /\ value (ltype (B (after N i))) (lx (B (after N i))) /\ tense (ry (B i)) /\ tense (ly (B (after N i))) /\ 0 < chord N B i.
  Proof.
    intros H U. destruct (Seg i H) as [[E _]|[[E _]|(V1 & V2 & T1 & T2 & Ns)]]; [rewrite E in U; unfold unset in U; intuition discriminate|rewrite E in U; unfold unset in U; intuition discriminate|].
    repeat split; auto. unfold chord. apply sqrt_lt_R0. unfold short in Ns. assert (0 < eps ^ 2) by (apply pow_lt; exact eps0). lra.
  Qed.
  Lemma explicit_left i : (i < N)%nat -> ltype (B i) = Explicit -> rtype (B (before N i)) = Explicit /\ exists a b, lx (B i) = Some a /\ ly (B i) = Some b.
  Proof.
    intros H E. pose proof (after_before N i N0 H) as Ab. destruct (Seg (before N i) (before_lt N i N0)) as [[_ E2]|[(E1 & E2 & _ & _ & X & Y)|(V1 & V2 & _)]]; rewrite Ab in *.
    - congruence.
    - split; [exact E1|]. destruct (lx (B i)), (ly (B i)); try contradiction. eauto.
    - rewrite E in V2. contradiction.
  Qed.
  Lemma explicit_right i : (i < N)%nat -> rtype (B i) = Explicit -> exists a b, rx (B i) = Some a /\ ry (B i) = Some b.
  Proof.
    intros H E. destruct (Seg i H) as [[E2 _]|[(_ & _ & X & Y & _)|(V1 & _)]].
    - congruence.
    - destruct (rx (B i)), (ry (B i)); try contradiction. eauto.
    - rewrite E in V1. contradiction.
  Qed.

  Section Loop.
    Variable h : nat.
    Hypotheses (hN : (h < N)%nat) (Hb : smooth (B h) = false).
    Definition pos (s : nat) : nat := along N h s.
    Let pos_lt s : (pos s < N)%nat := along_lt N N0 h s.
    Let pos_S s : after N (pos s) = pos (S s) := along_after N h s N0.
    Let pos_N : pos N = h.
    Proof. unfold pos. pose proof (along_N N N0 h 0) as Q. rewrite Nat.add_0_r in Q. rewrite Q. apply along_0; assumption. Qed.
    (** the number of steps from h *)
    Definition step_of (i : nat) : nat := ((i + (N - h)) mod N)%nat.
    Lemma step_pos s : (s < N)%nat -> step_of (pos s) = s.
    Proof.
      intros H. unfold step_of, pos, along. rewrite Nat.add_mod_idemp_l by lia. replace (h + s + (N - h))%nat with (s + 1 * N)%nat by lia. rewrite Nat.mod_add by lia. apply Nat.mod_small, H.
    Qed.

    Definition invariant (t : nat) (K : heap) : Prop :=
      (forall i, place (K i) = place (B i)) /\
      (forall s, (t <= s < N)%nat -> rside (K (pos s)) = rside (B (pos s)) /\ lside (K (pos (S s))) = lside (B (pos (S s)))) /\
      (forall i, (i < N)%nat -> rtype (B i) = Explicit -> rside (K i) = rside (B i) /\ lside (K (after N i)) = lside (B (after N i))).
    Definition segment_done (theta phi : nat -> R) (K' : heap) (i : nat) : Prop :=
      (free N eps B i -> chosen N B theta phi K' i) /\
      (rtype (B i) = Explicit -> rside (K' i) = rside (B i) /\ lside (K' (after N i)) = lside (B (after N i))) /\
      (rtype (B i) = Endpoint -> rtype (K' i) = Endpoint /\ ltype (K' (after N i)) = Endpoint).
    Definition unchanged (K K' : heap) (s : nat) : Prop := rside (K' (pos s)) = rside (K (pos s)) /\ lside (K' (pos (S s))) = lside (K (pos (S s))).

    (** the type at the end of a run *)
    Lemma breakpoint_right t K s : invariant t K -> (t < s <= N)%nat -> ltype (B (pos s)) = Open -> smooth (B (pos s)) = false -> rtype (B (pos s)) = Explicit /\ rside (K (pos s)) = rside (B (pos s)).
    Proof.
      intros (Pl & Sd & Ex) H E Sm. destruct (Knot (pos s) (pos_lt s)) as [Kn _]. destruct (Kn E) as [Q|Q].
      - destruct (smooth_spec (B (pos s))); [discriminate|]. tauto.
      - split; [exact Q|]. apply Ex; [apply pos_lt|exact Q].
    Qed.
    Lemma same_smooth t K s : invariant t K -> (t < s <= N)%nat -> (s = N -> smooth (B (pos s)) = false) -> smooth (K (pos s)) = smooth (B (pos s)).
    Proof.
      intros I H HN. pose proof I as (Pl & Sd & Ex). assert (lside (K (pos s)) = lside (B (pos s))) as L.
      { replace s with (S (s - 1)) by lia. apply Sd. lia. }
      destruct (lside_parts _ _ L) as (T & _ & _). unfold smooth. rewrite T. destruct (is_spec (ltype (B (pos s))) Open) as [E|E]; [cbn [andb]|reflexivity].
      destruct (Nat.eq_dec s N) as [Es|Es].
      - destruct (breakpoint_right t K s I H E (HN Es)) as [_ R]. destruct (rside_parts _ _ R) as (-> & _). reflexivity.
      - destruct (Sd s) as [R _]; [lia|]. destruct (rside_parts _ _ R) as (-> & _). reflexivity.
    Qed.

    Lemma step_ok t K : (t < N)%nat -> smooth (B (pos t)) = false -> invariant t K ->
      exists n theta phi, (1 <= n)%nat /\ (t + n <= N)%nat /\ smooth (B (pos (t + n))) = false /\
        (forall s, (t <= s < t + n)%nat -> free N eps B (pos s) -> begins N eps B theta phi (pos s) /\ ends N eps B theta phi (pos s)) /\
        ((exists s, (t <= s < t + n)%nat /\ free N eps B (pos s) /\ flat (theta (pos s)) (phi (pos s))) -> body N eps (pos t) K = None) /\
        ((forall s, (t <= s < t + n)%nat -> free N eps B (pos s) -> ~ flat (theta (pos s)) (phi (pos s))) ->
           exists K', body N eps (pos t) K = Some (K', n) /\ (forall i, place (K' i) = place (B i)) /\
             (forall s, (t <= s < t + n)%nat -> segment_done theta phi K' (pos s)) /\ (forall s, (s < t \/ t + n <= s < N)%nat -> unchanged K K' s)) .
    Proof.
      intros tN Sm I. pose proof I as (Pl & Sd & Ex).
      assert (pos (t + 1) = after N (pos t)) as P1 by (rewrite pos_S; f_equal; lia).
      destruct (Sd t) as [Rt Lt]; [lia|]. destruct (rside_parts _ _ Rt) as (RT & RX & RY). destruct (lside_parts _ _ Lt) as (LT & LX & LY).
      unfold body. rewrite RT.
      assert (rtype (B (pos t)) = Endpoint \/ rtype (B (pos t)) = Explicit \/ unset (rtype (B (pos t)))) as [Ty|[Ty|Ty]].
      { destruct (Seg _ (pos_lt t)) as [[E _]|[[E _]|(V & _)]]; auto. right. right. exact (value_unset _ _ V). }
      - (* a line *)
        exists 1%nat, (fun _ => 0), (fun _ => 0). split; [lia|]. split; [lia|].
        assert (ltype (B (after N (pos t))) = Endpoint) as Tl.
        { destruct (Seg _ (pos_lt t)) as [[_ E]|[[E _]|(V & _)]]; [exact E|congruence|]. rewrite Ty in V. contradiction. }
        assert (~ free N eps B (pos t)) as Nf by (intros [U _]; rewrite Ty in U; unfold unset in U; intuition discriminate).
        split; [rewrite P1; destruct (smooth_spec (B (after N (pos t)))); [destruct a; congruence|reflexivity]|].
        assert (forall s, (t <= s < t + 1)%nat -> s = t) as Only by (intros; lia).
        split; [intros s Hs F; rewrite (Only s Hs) in F; contradiction|]. split; [intros (s & Hs & F & _); rewrite (Only s Hs) in F; contradiction|]. intros _.
        rewrite Ty. cbn [number Nat.leb is]. eexists. split; [reflexivity|]. change (next N (pos t)) with (after N (pos t)).
        set (f := fun k => set_right _ _ _ k). set (g := fun k => set_left _ _ _ k).
        split; [intros i; rewrite upd_place by reflexivity; rewrite upd_place by reflexivity; apply Pl|]. split.
        + intros s Hs. rewrite (Only s Hs). split; [intros F; contradiction|]. split; [congruence|]. intros _. split.
          * assert (rside (upd (after N (pos t)) g (upd (pos t) f K) (pos t)) = rside (upd (pos t) f K (pos t))) as R by (apply upd_rside; reflexivity).
            destruct (rside_parts _ _ R) as (-> & _). rewrite upd_same. reflexivity.
          * rewrite upd_same. unfold g, set_left. cbn [ltype]. assert (lside (upd (pos t) f K (after N (pos t))) = lside (K (after N (pos t)))) as L by (apply upd_lside; reflexivity).
            destruct (lside_parts _ _ L) as (-> & _). rewrite <- P1. rewrite Nat.add_1_r. rewrite LT. rewrite <- pos_S. exact Tl.
        + intros s Hs. assert (s <> t /\ (s < N)%nat) as [Ns Ls] by lia. split.
          * rewrite upd_rside by reflexivity. apply f_equal, upd_other. intros E. apply Ns. rewrite <- (step_pos s), E by exact Ls. apply step_pos, tN.
          * rewrite upd_other; [apply upd_lside; reflexivity|]. rewrite <- pos_S. intros E. apply Ns. apply (f_equal (before N)) in E. rewrite !before_after in E by (auto; apply pos_lt).
            rewrite <- (step_pos s), E by exact Ls. apply step_pos, tN.
      - (* explicit control points *)
        exists 1%nat, (fun _ => 0), (fun _ => 0). split; [lia|]. split; [lia|].
        assert (ltype (B (after N (pos t))) = Explicit) as Tl.
        { destruct (Seg _ (pos_lt t)) as [[E _]|[(_ & E & _)|(V & _)]]; [congruence|exact E|]. rewrite Ty in V. contradiction. }
        assert (~ free N eps B (pos t)) as Nf by (intros [U _]; rewrite Ty in U; unfold unset in U; intuition discriminate).
        split; [rewrite P1; destruct (smooth_spec (B (after N (pos t)))); [destruct a; congruence|reflexivity]|].
        assert (forall s, (t <= s < t + 1)%nat -> s = t) as Only by (intros; lia).
        split; [intros s Hs F; rewrite (Only s Hs) in F; contradiction|]. split; [intros (s & Hs & F & _); rewrite (Only s Hs) in F; contradiction|]. intros _.
        rewrite Ty. cbn [number Nat.leb is]. eexists. split; [reflexivity|]. split; [exact Pl|]. split.
        + intros s Hs. rewrite (Only s Hs). split; [intros F; contradiction|]. split; [intros _; apply Ex; [apply pos_lt|exact Ty]|congruence].
        + intros s Hs. split; reflexivity.
      - (* a run *)
        rewrite (unset_number _ Ty).
        destruct (first_true (fun k => negb (smooth (B (pos (t + k))))) (N - t)) as (n & Hn & Fn & An); [lia| |].
        { replace (t + (N - t))%nat with N by lia. rewrite pos_N, Hb. reflexivity. }
        apply negb_true_iff in Fn. assert (forall k, (1 <= k < n)%nat -> smooth (B (pos (t + k))) = true) as Ao by (intros k Hk; specialize (An k Hk); apply negb_false_iff in An; exact An). clear An.
        assert (forall k, along N (pos t) k = pos (t + k)) as Al by (intros k; apply along_along, N0).
        assert (forall k, (1 <= k <= n)%nat -> smooth (K (pos (t + k))) = smooth (B (pos (t + k)))) as Ks.
        { intros k Hk. apply (same_smooth t K); [exact I|lia|]. intros Q. rewrite Q, pos_N. exact Hb. }
        assert (steps N N K (pos t) 1 = Some n) as Est.
        { apply steps_ok; try lia; [rewrite Al, Ks by lia; exact Fn|]. intros j J. rewrite Al, Ks by lia. apply Ao, J. }
        rewrite Est. cbn [bind].
        (* all segments of the run are free *)
        assert (forall k, (k < n)%nat -> unset (rtype (B (pos (t + k))))) as Un.
        { intros k Hk. destruct k as [|k]; [rewrite Nat.add_0_r; exact Ty|]. destruct (smooth_spec (B (pos (t + S k)))) as [[_ E]|Q]; [right; right; exact E|]. specialize (Ao (S k) ltac:(lia)).
          destruct (smooth_spec (B (pos (t + S k)))); [contradiction|discriminate]. }
        assert (forall k, (k < n)%nat -> free N eps B (pos (t + k)) /\ value (rtype (B (pos (t + k)))) (rx (B (pos (t + k)))) /\ value (ltype (B (pos (t + S k)))) (lx (B (pos (t + S k)))) /\
          tense (ry (B (pos (t + k)))) /\ tense (ly (B (pos (t + S k)))) /\ 0 < chord N B (pos (t + k))) as Fs.
        { intros k Hk. destruct (free_segment (pos (t + k)) (pos_lt _) (Un k Hk)) as (F1 & F2 & F3 & F4 & F5 & F6). rewrite pos_S in F3, F5. rewrite <- Nat.add_succ_r in F3, F5. exact (conj F1 (conj F2 (conj F3 (conj F4 (conj F5 F6))))). }
        assert (forall k, (k < n)%nat -> rside (K (pos (t + k))) = rside (B (pos (t + k))) /\ lside (K (pos (t + S k))) = lside (B (pos (t + S k)))) as Ss.
        { intros k Hk. rewrite Nat.add_succ_r. apply Sd. lia. }
        set (p := pos t) in *. set (q := pos (t + n)) in *. rewrite Al. fold q.
        assert (lside (K q) = lside (B q)) as Lq. { destruct (Ss (n - 1)%nat) as [_ Q]; [lia|]. replace (t + S (n - 1))%nat with (t + n)%nat in Q by lia. exact Q. }
        destruct (lside_parts _ _ Lq) as (LqT & LqX & LqY).
        assert (q < N)%nat as qN by apply pos_lt. assert (p < N)%nat as pN by apply pos_lt.
        assert (value (ltype (B q)) (lx (B q))) as Vq. { destruct (Fs (n - 1)%nat) as (_ & _ & V & _); [lia|]. replace (t + S (n - 1))%nat with (t + n)%nat in V by lia. exact V. }
        (* the end of the run *)
        assert (exists Kl, open_left eps q K = Some Kl /\ (forall j, place (Kl j) = place (B j)) /\ (forall j, rside (Kl j) = rside (K j)) /\ (forall j, j <> q \/ ltype (K j) <> Open -> lside (Kl j) = lside (K j)) /\
          ly (Kl q) = ly (B q) /\ ((ltype (Kl q) = ltype (B q) /\ lx (Kl q) = lx (B q) /\ ltype (B q) <> Open) \/
          (ltype (B q) = Open /\ ~ free N eps B q /\ exists a b, control_behind B q = Some (a, b) /\
            (short eps (a - kx (B q)) (b - ky (B q)) -> ltype (Kl q) = Curl /\ lx (Kl q) = Some 1) /\
            (~ short eps (a - kx (B q)) (b - ky (B q)) -> ltype (Kl q) = Given /\ lx (Kl q) = Some (n_arg (a - kx (B q)) (b - ky (B q))))))) as (Kl & El & Pl1 & R1 & L1 & Y1 & Eff1).
        { unfold open_left. destruct (is_spec (ltype (K q)) Open) as [E|E].
          - destruct (breakpoint_right t K (t + n) I ltac:(lia)) as [Xq Rq]; [fold q; congruence|exact Fn|]. fold q in Xq, Rq. destruct (rside_parts _ _ Rq) as (RqT & RqX & RqY).
            destruct (explicit_right q qN Xq) as (a & b & Ea & Eb). rewrite RqX, RqY, Ea, Eb. cbn [bind]. rewrite (same_x B K Pl), (same_y B K Pl).
            set (x := a - kx (B q)). set (y := b - ky (B q)).
            assert (~ free N eps B q) as Nf by (intros [U _]; rewrite Xq in U; unfold unset in U; intuition discriminate).
            assert (control_behind B q = Some (a, b)) as Cb by (unfold control_behind; rewrite Xq, Ea, Eb; reflexivity).
            eexists. split; [reflexivity|]. destruct (near_spec eps x y) as [Q|Q].
            + split; [intros j; rewrite upd_place by reflexivity; apply Pl|]. split; [intros j; apply upd_rside; reflexivity|].
              split; [intros j [Nj|Nj]; apply f_equal, upd_other; congruence|]. split; [rewrite upd_same; exact LqY|]. right. split; [congruence|]. split; [exact Nf|].
              exists a, b. split; [exact Cb|]. fold x y. rewrite upd_same. split; [intros _; split; reflexivity|intros; contradiction].
            + split; [intros j; rewrite upd_place by reflexivity; apply Pl|]. split; [intros j; apply upd_rside; reflexivity|].
              split; [intros j [Nj|Nj]; apply f_equal, upd_other; congruence|]. split; [rewrite upd_same; exact LqY|]. right. split; [congruence|]. split; [exact Nf|].
              exists a, b. split; [exact Cb|]. fold x y. rewrite upd_same. split; [intros; contradiction|intros _; split; reflexivity].
          - exists K. split; [reflexivity|]. split; [exact Pl|]. split; [reflexivity|]. split; [reflexivity|]. split; [exact LqY|]. left. repeat split; congruence. }
        (* its begin *)
        assert (exists Kr, open_right eps p Kl = Some Kr /\ (forall j, place (Kr j) = place (B j)) /\ (forall j, lside (Kr j) = lside (Kl j)) /\ (forall j, j <> p -> rside (Kr j) = rside (K j)) /\
          ry (Kr p) = ry (B p) /\ value (rtype (Kr p)) (rx (Kr p)) /\ ((rtype (Kr p) = rtype (B p) /\ rx (Kr p) = rx (B p) /\ rtype (B p) <> Open) \/
          (rtype (B p) = Open /\ ~ free N eps B (before N p) /\ exists a b, control_before B p = Some (a, b) /\
            (short eps (kx (B p) - a) (ky (B p) - b) -> rtype (Kr p) = Curl /\ rx (Kr p) = Some 1) /\
            (~ short eps (kx (B p) - a) (ky (B p) - b) -> rtype (Kr p) = Given /\ rx (Kr p) = Some (n_arg (kx (B p) - a) (ky (B p) - b)))))) as (Kr & Er & Pl2 & L2 & R2 & Y2 & V2 & Eff2).
        { unfold open_right. destruct (rside_parts _ _ (R1 p)) as (RpT & RpX & RpY). destruct (is_spec (rtype (Kl p)) Open) as [E|E].
          - assert (rtype (B p) = Open) as EB by congruence. destruct (Knot p pN) as [_ Kn]. assert (ltype (B p) = Explicit) as Xp.
            { destruct (Kn EB) as [Q|Q]; [|exact Q]. destruct (smooth_spec (B p)); [discriminate|tauto]. }
            destruct (explicit_left p pN Xp) as (Xb & a & b & Ea & Eb).
            assert (lside (Kl p) = lside (B p)) as Lp.
            { destruct (Ex (before N p) (before_lt N p N0) Xb) as [_ Q]. rewrite after_before in Q by assumption. rewrite L1; [exact Q|]. right. destruct (lside_parts _ _ Q) as (-> & _). rewrite Xp. discriminate. }
            destruct (lside_parts _ _ Lp) as (LpT & LpX & LpY). rewrite LpT, Xp, LpX, LpY, Ea, Eb. cbn [is andb bind]. rewrite (same_x B Kl Pl1), (same_y B Kl Pl1).
            set (x := kx (B p) - a). set (y := ky (B p) - b).
            assert (~ free N eps B (before N p)) as Nf by (intros [U _]; rewrite Xb in U; unfold unset in U; intuition discriminate).
            assert (control_before B p = Some (a, b)) as Cb by (unfold control_before; rewrite Xp, Ea, Eb; reflexivity).
            eexists. split; [reflexivity|]. destruct (near_spec eps x y) as [Q|Q].
            + split; [intros j; rewrite upd_place by reflexivity; apply Pl1|]. split; [intros j; apply upd_lside; reflexivity|].
              split; [intros j Nj; rewrite upd_other by exact Nj; apply R1|]. split; [rewrite upd_same; cbn; congruence|]. split; [rewrite upd_same; cbn; exists 1; split; [reflexivity|lra]|].
              right. split; [exact EB|]. split; [exact Nf|].
              exists a, b. split; [exact Cb|]. fold x y. rewrite upd_same. split; [intros _; split; reflexivity|intros; contradiction].
            + split; [intros j; rewrite upd_place by reflexivity; apply Pl1|]. split; [intros j; apply upd_lside; reflexivity|].
              split; [intros j Nj; rewrite upd_other by exact Nj; apply R1|]. split; [rewrite upd_same; cbn; congruence|]. split; [rewrite upd_same; cbn; eexists; reflexivity|].
              right. split; [exact EB|]. split; [exact Nf|].
              exists a, b. split; [exact Cb|]. fold x y. rewrite upd_same. split; [intros; contradiction|intros _; split; reflexivity].
          - exists Kl. split; [reflexivity|]. split; [exact Pl1|]. split; [reflexivity|]. split; [intros j _; apply R1|]. split; [congruence|].
            destruct (Fs 0%nat) as (_ & V & _); [lia|]. rewrite Nat.add_0_r in V. fold p in V. split; [rewrite RpT, RpX, RT, RX; exact V|]. left. repeat split; congruence. }
        (* the run *)
        assert (forall k, (1 <= k < n)%nat -> ltype (B (pos (t + k))) = Open /\ rtype (B (pos (t + k))) = Open) as Op.
        { intros k Hk. pose proof (Ao k Hk) as Q. destruct (smooth_spec (B (pos (t + k)))); [assumption|discriminate]. }
        assert (forall k, (k < n)%nat -> ry (Kr (pos (t + k))) = ry (B (pos (t + k))) /\ ly (Kr (pos (t + S k))) = ly (B (pos (t + S k)))) as Tr.
        { intros k Hk. destruct (Ss k Hk) as [Rk Lk]. destruct (rside_parts _ _ Rk) as (_ & _ & Ry). destruct (lside_parts _ _ Lk) as (_ & _ & Ly). split.
          - destruct (Nat.eq_dec (pos (t + k)) p) as [->|Np]; [exact Y2|]. destruct (rside_parts _ _ (R2 _ Np)) as (_ & _ & ->). exact Ry.
          - destruct (lside_parts _ _ (L2 (pos (t + S k)))) as (_ & _ & ->). destruct (Nat.eq_dec (pos (t + S k)) q) as [->|Nq]; [exact Y1|].
            destruct (lside_parts _ _ (L1 _ (or_introl Nq))) as (_ & _ & ->). exact Ly. }
        assert (ltype (Kr q) <> EndCycle /\ ltype (Kr q) <> Open /\ value (ltype (Kr q)) (lx (Kr q))) as (Nc & No & Ve).
        { destruct (lside_parts _ _ (L2 q)) as (-> & -> & _). destruct Eff1 as [(E1 & E2 & E3)|(E1 & E2 & a & b & E3 & E4 & E5)].
          - rewrite E1, E2. split; [|split; assumption]. intros Q. rewrite Q in Vq. contradiction.
          - destruct (near_spec eps (a - kx (B q)) (b - ky (B q))) as [Q|Q]; [destruct (E4 Q) as [-> ->]|destruct (E5 Q) as [-> ->]]; (split; [discriminate|split; [discriminate|]]); cbn; eauto.
            exists 1. split; [reflexivity|lra]. }
        assert (psis N K p n = psis N Kr p n) as Eps.
        { symmetry. apply psis_same; [intros j; rewrite Pl2, Pl; reflexivity|]. rewrite Al. fold q. destruct (is_spec (ltype (Kr q)) EndCycle); [contradiction|].
          destruct (is_spec (ltype (K q)) EndCycle) as [Q|]; [|reflexivity]. rewrite <- LqT in Vq. rewrite Q in Vq. contradiction. }
        destruct (psis_ok N Kr p n N0 pN ltac:(lia)) as (l & Epl & _).
        { intros k Hk. rewrite Al, (same_chord N B Kr Pl2). apply Fs, Hk. }
        rewrite Eps, Epl. cbn [bind]. rewrite El. cbn [bind]. rewrite Er. cbn [bind].
        destruct (solve_ok N Kr p n N0 pN l) as (th & ph & Ang & Res1 & Res2); [lia|exact Epl| | | | | |].
        { intros k Hk. rewrite Al, (same_chord N B Kr Pl2). apply Fs, Hk. }
        { intros k Hk. rewrite !Al. destruct (Tr k Hk) as [-> ->]. destruct (Fs k Hk) as (_ & _ & _ & T1 & T2 & _). split; assumption. }
        { intros k Hk. rewrite Al. destruct (Op k Hk) as [O1 O2].
          assert (pos (t + k) <> p) as Np. { unfold p. intros Q. apply (f_equal step_of) in Q. rewrite !step_pos in Q by lia. lia. }
          assert (pos (t + k) <> q) as Nq. { unfold q. unfold pos. apply along_inj; lia. }
          destruct (rside_parts _ _ (R2 _ Np)) as (-> & _). destruct (lside_parts _ _ (L2 (pos (t + k)))) as (-> & _). destruct (lside_parts _ _ (L1 _ (or_introl Nq))) as (-> & _).
          destruct (Ss k) as [Rk _]; [lia|]. destruct (rside_parts _ _ Rk) as (-> & _). destruct (Ss (k - 1)%nat) as [_ Lk]; [lia|]. replace (t + S (k - 1))%nat with (t + k)%nat in Lk by lia.
          destruct (lside_parts _ _ Lk) as (-> & _). split; assumption. }
        { exact V2. }
        { right. rewrite Al. fold q. split; assumption. }
        set (theta := fun i => th (step_of i - t)%nat). set (phi := fun i => ph (step_of i - t)%nat).
        assert (forall k, (k < n)%nat -> theta (pos (t + k)) = th k /\ phi (pos (t + k)) = ph k) as At.
        { intros k Hk. unfold theta, phi. rewrite step_pos by lia. replace (t + k - t)%nat with k by lia. split; reflexivity. }
        exists n, theta, phi. split; [lia|]. split; [lia|]. split; [exact Fn|].
        assert (forall s, (t <= s < t + n)%nat -> s = (t + (s - t))%nat /\ (s - t < n)%nat) as Idx by (intros; lia).
        split; [|split].
        + intros s Hs _. destruct (Idx s Hs) as [Es Hk]. set (k := (s - t)%nat) in *. rewrite Es.
          assert (eff_r N eps B Kr p n) as EfR by (destruct Eff2 as [Q|Q]; [left; exact Q|right; left; exact Q]).
          assert (eff_l N eps B Kr p n) as EfL.
          { unfold eff_l. cbv zeta. rewrite Al. fold q. destruct (lside_parts _ _ (L2 q)) as (-> & -> & _). destruct Eff1 as [Q|Q]; [left; exact Q|right; left; exact Q]. }
          assert (forall k, (k < n)%nat -> ry (Kr (along N p k)) = ry (B (along N p k)) /\ ly (Kr (along N p (S k))) = ly (B (along N p (S k)))) as Tr' by (intros; rewrite !Al; apply Tr; assumption).
          assert (forall k, (1 <= k < n)%nat -> ltype (B (along N p k)) = Open /\ rtype (B (along N p k)) = Open) as Op' by (intros; rewrite !Al; apply Op; assumption).
          assert (forall k, (k < n)%nat -> free N eps B (along N p k)) as Fr' by (intros; rewrite !Al; apply Fs; assumption).
          assert (ltype (Kr (along N p n)) = EndCycle -> n = N) as Cy by (rewrite Al; fold q; intros; contradiction).
          assert (forall k, (k < n)%nat -> theta (along N p k) = th k /\ phi (along N p k) = ph k) as At' by (intros; rewrite Al; apply At; assumption).
          assert (1 <= n)%nat as n1 by lia. rewrite <- Al. split.
          * apply (run_begins N eps B Kr p n N0 pN n1 Pl2 Tr' Op' Fr' eps0 EfR Cy th ph theta phi Ang At' k Hk).
          * apply (run_ends_ok N eps B Kr p n N0 pN n1 Pl2 Tr' Op' Fr' eps0 EfL Cy th ph theta phi Ang At' k Hk).
        + intros (s & Hs & _ & F). destruct (Idx s Hs) as [Es Hk]. rewrite Es in F. destruct (At _ Hk) as [A1 A2]. rewrite A1, A2 in F. rewrite Res1; [reflexivity|]. exists (s - t)%nat. split; assumption.
        + intros F. destruct Res2 as (K' & EK & Ctl & Ple & Rle & Lle).
          { intros k Hk Fk. destruct (At k Hk) as [A1 A2]. apply (F (t + k)%nat); [lia|apply Fs, Hk|]. rewrite A1, A2. exact Fk. }
          rewrite EK. cbn [bind]. exists K'. split; [reflexivity|]. split; [intros j; rewrite Ple; apply Pl2|]. split.
          * intros s Hs. destruct (Idx s Hs) as [Es Hk]. set (k := (s - t)%nat) in *. rewrite Es. pose proof (Un k Hk) as Uk. split; [|split; intros Q; rewrite Q in Uk; unfold unset in Uk; intuition discriminate].
            intros _. destruct (Ctl k Hk) as (v & w & H1 & H2 & H3 & H4). rewrite !Al in *. rewrite (same_chord_x N B Kr Pl2), (same_chord_y N B Kr Pl2), !(same_x B Kr Pl2), !(same_y B Kr Pl2) in *.
            rewrite (run_out N B Kr p n) in H1 by (auto; intros; rewrite !Al; apply Tr; assumption). rewrite (run_in N B Kr p n) in H2 by (auto; intros; rewrite !Al; apply Tr; assumption). rewrite Al in H1, H2.
            destruct (At k Hk) as [A1 A2]. unfold chosen. rewrite pos_S, <- Nat.add_succ_r. cbv zeta. rewrite A1, A2. unfold rside in H3. unfold lside in H4.
            injection H3 as T1 X1 Z1. injection H4 as T2 X2 Z2. split; [exact T1|]. split; [exact T2|]. exists v, w. split; [exact H1|]. split; [exact H2|].
            rewrite X1, Z1, X2, Z2. repeat split; f_equal; ring.
          * intros s Hs. assert ((s < N)%nat) as Ls by lia.
            assert (forall k, (k < n)%nat -> pos s <> pos (t + k)) as Nr. { intros k Hk Q. apply (f_equal step_of) in Q. rewrite !step_pos in Q by lia. lia. }
            assert (forall k, (k < n)%nat -> pos (S s) <> pos (t + S k)) as Nl.
            { intros k Hk Q. rewrite Nat.add_succ_r, <- !pos_S in Q. apply (f_equal (before N)) in Q. rewrite !before_after in Q by (auto; apply pos_lt). exact (Nr k Hk Q). }
            split.
            -- rewrite Rle; [|intros (k & Hk & Q); rewrite Al in Q; exact (Nr k Hk Q)]. apply R2. unfold p. rewrite <- (Nat.add_0_r t). apply Nr. lia.
            -- rewrite Lle; [|intros (k & Hk & Q); rewrite Al in Q; exact (Nl k Hk Q)]. rewrite L2. apply L1. left. unfold q. replace (t + n)%nat with (t + S (n - 1))%nat by lia. apply Nl. lia.
    Qed.

    Lemma pos_step i : (i < N)%nat -> pos (step_of i) = i.
    Proof. intros H. unfold step_of, pos, along. rewrite Nat.add_mod_idemp_r by lia. replace (h + (i + (N - h)))%nat with (i + 1 * N)%nat by lia. rewrite Nat.mod_add by lia. apply Nat.mod_small, H. Qed.
    Lemma step_lt i : (step_of i < N)%nat. Proof. apply Nat.mod_upper_bound. lia. Qed.
    Lemma no_left j : (j < N)%nat -> smooth (B j) = false -> rtype (B j) = Open -> ~ free N eps B (before N j).
    Proof.
      intros H Sm E [U _]. destruct (smooth_spec (B j)); [discriminate|]. destruct (Knot j H) as [_ Kn]. destruct (Kn E) as [Q|Q]; [tauto|]. destruct (explicit_left j H Q) as [X _]. rewrite X in U. unfold unset in U. intuition discriminate.
    Qed.
    Lemma no_right j : (j < N)%nat -> smooth (B j) = false -> ltype (B j) = Open -> ~ free N eps B j.
    Proof.
      intros H Sm E [U _]. destruct (smooth_spec (B j)); [discriminate|]. destruct (Knot j H) as [Kn _]. destruct (Kn E) as [Q|Q]; [tauto|]. rewrite Q in U. unfold unset in U. intuition discriminate.
    Qed.
    Lemma begins_ext theta phi theta' phi' i : theta i = theta' i -> phi i = phi' i ->
      (rtype (B i) = Open -> free N eps B (before N i) -> theta (before N i) = theta' (before N i) /\ phi (before N i) = phi' (before N i)) ->
      begins N eps B theta phi i -> begins N eps B theta' phi' i.
    Proof.
      intros E1 E2 E3. unfold begins, curl_begin, continuous, mock_at_begin, mock_at_end. rewrite <- E1, <- E2. destruct (rtype (B i)); auto. intros [A C]. split; [|exact C].
      intros F. destruct (E3 eq_refl F) as [<- <-]. apply A, F.
    Qed.
    Lemma ends_ext theta phi theta' phi' i : theta i = theta' i -> phi i = phi' i ->
      (ltype (B (after N i)) = Open -> free N eps B (after N i) -> theta (after N i) = theta' (after N i) /\ phi (after N i) = phi' (after N i)) ->
      ends N eps B theta phi i -> ends N eps B theta' phi' i.
    Proof.
      intros E1 E2 E3. unfold ends, curl_end, continuous, mock_at_begin, mock_at_end. cbv zeta. rewrite <- E1, <- E2. destruct (ltype (B (after N i))); auto. intros [A C]. split; [|exact C].
      intros F. destruct (E3 eq_refl F) as [<- <-]. apply A, F.
    Qed.
    Lemma done_ext theta phi theta' phi' K K' s : theta (pos s) = theta' (pos s) -> phi (pos s) = phi' (pos s) -> unchanged K K' s ->
      segment_done theta phi K (pos s) -> segment_done theta' phi' K' (pos s).
    Proof.
      intros E1 E2 [U1 U2] (D1 & D2 & D3). rewrite <- pos_S in U2. unfold segment_done. split; [|split].
      - intros F. specialize (D1 F). unfold chosen in *. cbv zeta in *. rewrite <- E1, <- E2. destruct (rside_parts _ _ U1) as (-> & -> & ->). destruct (lside_parts _ _ U2) as (-> & -> & ->). exact D1.
      - intros X. destruct (D2 X) as [<- <-]. split; assumption.
      - intros X. destruct (rside_parts _ _ U1) as (-> & _). destruct (lside_parts _ _ U2) as (-> & _). apply D3, X.
    Qed.

    Lemma loop_ok fuel : forall t K, (N - t <= fuel)%nat -> (t < N)%nat -> smooth (B (pos t)) = false -> invariant t K ->
      exists theta phi,
        (forall s, (t <= s < N)%nat -> free N eps B (pos s) -> begins N eps B theta phi (pos s) /\ ends N eps B theta phi (pos s)) /\
        ((exists s, (t <= s < N)%nat /\ free N eps B (pos s) /\ flat (theta (pos s)) (phi (pos s))) -> runs N eps fuel (pos t) (N - t) K = None) /\
        ((forall s, (t <= s < N)%nat -> free N eps B (pos s) -> ~ flat (theta (pos s)) (phi (pos s))) ->
           exists K', runs N eps fuel (pos t) (N - t) K = Some K' /\ (forall i, place (K' i) = place (B i)) /\
             (forall s, (t <= s < N)%nat -> segment_done theta phi K' (pos s)) /\ (forall s, (s < t)%nat -> unchanged K K' s)).
    Proof.
      induction fuel as [|fuel IH]; intros t K Fu tN Sm I; [lia|]. rewrite runs_S.
      destruct (step_ok t K tN Sm I) as (n & th1 & ph1 & n1 & nN & Sn & BE & Res1 & Res2).
      destruct (Nat.eq_dec (t + n) N) as [Ee|Ee].
      { assert ((N - t <=? n)%nat = true) as Le by (apply Nat.leb_le; lia). rewrite Ee in BE, Res1, Res2. exists th1, ph1. split; [exact BE|]. split.
        - intros X. rewrite Res1 by exact X. reflexivity.
        - intros X. destruct (Res2 X) as (K' & -> & P' & D' & U'). cbn [bind]. rewrite Le. exists K'. split; [reflexivity|]. split; [exact P'|]. split; [exact D'|]. intros s Hs. apply U'. left. exact Hs. }
      assert ((N - t <=? n)%nat = false) as Le by (apply Nat.leb_gt; lia).
      assert (forall K', (forall i, place (K' i) = place (B i)) -> (forall s, (s < t \/ t + n <= s < N)%nat -> unchanged K K' s) ->
                (forall s, (t <= s < t + n)%nat -> rtype (B (pos s)) = Explicit -> rside (K' (pos s)) = rside (B (pos s)) /\ lside (K' (after N (pos s))) = lside (B (after N (pos s)))) -> invariant (t + n) K') as Inv.
      { intros K' P' U' X'. destruct I as (Pl & Sd & Ex). split; [exact P'|]. split.
        - intros s Hs. destruct (U' s) as [A1 A2]; [lia|]. rewrite A1, A2. apply Sd. lia.
        - intros i Hi E. rewrite <- (pos_step i Hi) in *. pose proof (step_lt i) as Hl. set (s := step_of i) in *.
          destruct (Nat.lt_ge_cases s t) as [C|C]; [|destruct (Nat.lt_ge_cases s (t + n)) as [C'|C']; [apply X'; [lia|exact E]|]]; (destruct (U' s) as [A1 A2]; [lia|]); rewrite pos_S, A1, A2, <- pos_S; apply Ex; auto. }
      (* the angles of both parts *)
      assert (forall th2 ph2, (forall s, (t + n <= s < N)%nat -> free N eps B (pos s) -> begins N eps B th2 ph2 (pos s) /\ ends N eps B th2 ph2 (pos s)) ->
        exists theta phi, (forall s, (t <= s < N)%nat -> free N eps B (pos s) -> begins N eps B theta phi (pos s) /\ ends N eps B theta phi (pos s)) /\
          (forall s, (t <= s < t + n)%nat -> theta (pos s) = th1 (pos s) /\ phi (pos s) = ph1 (pos s)) /\ (forall s, (t + n <= s < N)%nat -> theta (pos s) = th2 (pos s) /\ phi (pos s) = ph2 (pos s))) as Merge.
      { intros th2 ph2 BE2.
        set (theta := fun i => if (step_of i <? t + n)%nat then th1 i else th2 i). set (phi := fun i => if (step_of i <? t + n)%nat then ph1 i else ph2 i).
        assert (forall s, (t <= s < t + n)%nat -> theta (pos s) = th1 (pos s) /\ phi (pos s) = ph1 (pos s)) as A1.
        { intros s Hs. unfold theta, phi. rewrite step_pos by lia. rewrite (proj2 (Nat.ltb_lt s (t + n))) by lia. split; reflexivity. }
        assert (forall s, (t + n <= s < N)%nat -> theta (pos s) = th2 (pos s) /\ phi (pos s) = ph2 (pos s)) as A2.
        { intros s Hs. unfold theta, phi. rewrite step_pos by lia. rewrite (proj2 (Nat.ltb_ge s (t + n))) by lia. split; reflexivity. }
        exists theta, phi. split; [|split; assumption]. intros s Hs F. destruct (Nat.lt_ge_cases s (t + n)) as [C|C].
        - destruct (BE s ltac:(lia) F) as [Bg En]. destruct (A1 s) as [X1 X2]; [lia|]. split.
          + eapply begins_ext; [symmetry; exact X1|symmetry; exact X2| |exact Bg]. intros O Fb. destruct (Nat.eq_dec s t) as [->|Ns].
            * exfalso. exact (no_left _ (pos_lt t) Sm O Fb).
            * replace s with (S (s - 1)) in * by lia. rewrite <- pos_S, before_after by auto. destruct (A1 (s - 1)%nat) as [-> ->]; [lia|]. split; reflexivity.
          + eapply ends_ext; [symmetry; exact X1|symmetry; exact X2| |exact En]. rewrite pos_S. intros O Fb. destruct (Nat.eq_dec (S s) (t + n)) as [Es|Ns].
            * exfalso. rewrite Es in *. exact (no_right _ (pos_lt _) Sn O Fb).
            * destruct (A1 (S s)) as [-> ->]; [lia|]. split; reflexivity.
        - destruct (BE2 s ltac:(lia) F) as [Bg En]. destruct (A2 s) as [X1 X2]; [lia|]. split.
          + eapply begins_ext; [symmetry; exact X1|symmetry; exact X2| |exact Bg]. intros O Fb. destruct (Nat.eq_dec s (t + n)) as [->|Ns].
            * exfalso. exact (no_left _ (pos_lt _) Sn O Fb).
            * replace s with (S (s - 1)) in * by lia. rewrite <- pos_S, before_after by auto. destruct (A2 (s - 1)%nat) as [-> ->]; [lia|]. split; reflexivity.
          + eapply ends_ext; [symmetry; exact X1|symmetry; exact X2| |exact En]. rewrite pos_S. intros O Fb. destruct (Nat.eq_dec (S s) N) as [Es|Ns].
            * exfalso. rewrite Es, pos_N in *. exact (no_right h hN Hb O Fb).
            * destruct (A2 (S s)) as [-> ->]; [lia|]. split; reflexivity. }
      assert (forall s, free N eps B (pos s) \/ ~ free N eps B (pos s)) as Df.
      { intros s. unfold free, unset. destruct (near_spec eps (chord_x N B (pos s)) (chord_y N B (pos s))); [tauto|]. destruct (rtype (B (pos s))); intuition discriminate. }
      destruct (some_or_none n (fun k => free N eps B (pos (t + k)) /\ flat (th1 (pos (t + k))) (ph1 (pos (t + k))))) as [(k & Hk & Fk & Flk)|Nof].
      { intros k. destruct (Df (t + k)%nat), (flat_cases (th1 (pos (t + k))) (ph1 (pos (t + k)))); tauto. }
      - (* the first part fails *)
        destruct (IH (t + n)%nat K) as (th2 & ph2 & BE2 & _); [lia|lia|exact Sn| |].
        { apply Inv; [apply I|intros; split; reflexivity|]. intros s Hs E. destruct I as (_ & _ & Ex). apply Ex; auto. }
        destruct (Merge th2 ph2 BE2) as (theta & phi & BE' & A1 & A2). exists theta, phi. split; [exact BE'|].
        assert (body N eps (pos t) K = None) as Bn by (apply Res1; exists (t + k)%nat; split; [lia|split; assumption]). rewrite Bn. split; [reflexivity|].
        intros F. exfalso. apply (F (t + k)%nat); [lia|exact Fk|]. destruct (A1 (t + k)%nat) as [-> ->]; [lia|]. exact Flk.
      - assert (forall s, (t <= s < t + n)%nat -> free N eps B (pos s) -> ~ flat (th1 (pos s)) (ph1 (pos s))) as F1.
        { intros s Hs F Q. apply (Nof (s - t)%nat); [lia|]. replace (t + (s - t))%nat with s by lia. split; assumption. }
        destruct (Res2 F1) as (K' & Bs & P' & D' & U'). rewrite Bs. cbn [bind]. rewrite Le.
        assert (along N (pos t) n = pos (t + n)) as Al by (apply along_along, N0). rewrite Al. replace (N - t - n)%nat with (N - (t + n))%nat by lia.
        destruct (IH (t + n)%nat K') as (th2 & ph2 & BE2 & R1 & R2); [lia|lia|exact Sn| |].
        { apply Inv; [exact P'|exact U'|]. intros s Hs E. apply D'; assumption. }
        destruct (Merge th2 ph2 BE2) as (theta & phi & BE' & A1 & A2). exists theta, phi. split; [exact BE'|]. split.
        + intros (s & Hs & Fs & Fl). destruct (Nat.lt_ge_cases s (t + n)) as [C|C].
          * exfalso. destruct (A1 s) as [X1 X2]; [lia|]. rewrite X1, X2 in Fl. exact (F1 s ltac:(lia) Fs Fl).
          * apply R1. exists s. destruct (A2 s) as [X1 X2]; [lia|]. rewrite X1, X2 in Fl. split; [lia|]. split; assumption.
        + intros F. destruct R2 as (K2 & E2 & P2 & D2 & U2).
          { intros s Hs Fs Q. destruct (A2 s) as [X1 X2]; [lia|]. apply (F s ltac:(lia) Fs). rewrite X1, X2. exact Q. }
          exists K2. split; [exact E2|]. split; [exact P2|]. split.
          * intros s Hs. destruct (Nat.lt_ge_cases s (t + n)) as [C|C].
            -- destruct (A1 s) as [X1 X2]; [lia|]. eapply done_ext; [symmetry; exact X1|symmetry; exact X2|apply U2; lia|apply D'; lia].
            -- destruct (A2 s) as [X1 X2]; [lia|]. eapply done_ext; [symmetry; exact X1|symmetry; exact X2|split; reflexivity|apply D2; lia].
          * intros s Hs. destruct (U2 s) as [Y1 Y2]; [lia|]. destruct (U' s) as [Z1 Z2]; [lia|]. split; congruence.
    Qed.
  End Loop.
End Good.
