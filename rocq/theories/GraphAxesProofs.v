(** * Creating axes (GraphAxesModel.v, second part): invariants *)
From Coq Require Import ZArith QArith Arith Bool List Lia.
From Verif Require Import GraphAxesModel GraphAxesProps.
Import ListNotations.
Open Scope nat_scope.

Lemma key_eqb_spec a b : key_eqb a b = true <-> a = b.
Proof.
  destruct a as [g n], b as [h m]. unfold key_eqb. cbn [fst snd]. rewrite andb_true_iff, Nat.eqb_eq, name_eqb_spec. split.
  - intros (-> & ->). reflexivity.
  - intros E. split; congruence.
Qed.
Lemma key_eqb_refl a : key_eqb a a = true. Proof. apply key_eqb_spec; reflexivity. Qed.
Lemma key_eqb_neq a b : a <> b -> key_eqb a b = false.
Proof. intros N. destruct (key_eqb a b) eqn:E; [|reflexivity]. apply key_eqb_spec in E. contradiction. Qed.
Lemma key_dec (a b : key) : a = b \/ a <> b.
Proof. destruct (key_eqb a b) eqn:E; [left; apply key_eqb_spec; exact E|right; intros ->; rewrite key_eqb_refl in E; discriminate]. Qed.
Lemma call_eqb_spec a b : call_eqb a b = true <-> a = b.
Proof. destruct a, b; cbn [call_eqb]; rewrite ?Nat.eqb_eq, ?key_eqb_spec; split; congruence. Qed.
Lemma did_spec c s : did c s = true <-> In c (calls s).
Proof. unfold did. rewrite existsb_exists. split; [intros (x & H & E); apply call_eqb_spec in E; subst; exact H|intros H; exists c; split; [exact H|apply call_eqb_spec; reflexivity]]. Qed.

Definition shown (k : key) (s : state) := match get k s with Some a => a_shown a | None => None end.
Definition pos (k : key) (s : state) : bool := match get k s with Some a => a_pos a | None => false end.
Definition info (k : key) (s : state) := match get k s with Some a => Some (a_kind a, a_data a, a_paint a) | None => None end.

Lemma get_set_same k a s : get k s <> None -> get k (set_axis k a s) = Some a.
Proof.
  unfold get, set_axis. cbn [axes]. induction (axes s) as [|p l IH]; cbn [find map]; [congruence|].
  destruct (key_eqb k (fst p)) eqn:E; cbn [fst].
  - rewrite E. reflexivity.
  - rewrite E. exact IH.
Qed.
Lemma get_set_other k k' a s : k <> k' -> get k' (set_axis k a s) = get k' s.
Proof.
  intros N. unfold get, set_axis. cbn [axes]. induction (axes s) as [|p l IH]; cbn [find map]; [reflexivity|].
  destruct (key_eqb k (fst p)) eqn:E; cbn [fst].
  - apply key_eqb_spec in E. rewrite <- E. rewrite (key_eqb_neq k' k) by congruence. exact IH.
  - destruct (key_eqb k' (fst p)); [reflexivity|exact IH].
Qed.
Lemma nth_replace {B} (l : list B) : forall i j b x, nth j (replace i b l) x = if (i =? j) && (i <? length l) then b else nth j l x.
Proof.
  induction l as [|y l IH]; intros [|i] [|j] b x; cbn [replace nth length]; rewrite ?andb_false_r; try reflexivity.
  rewrite IH. reflexivity.
Qed.
Lemma get_set_data d d' x s : get_data d' (set_data d x s) = if (d =? d') && (d <? length (datas s)) then x else get_data d' s.
Proof. unfold get_data, set_data. cbn [datas]. apply nth_replace. Qed.

(** what the limits of an axis allow: values are in the range *)
Definition covers (d : data) (v : Q) : Prop :=
  (fixmin d = None -> exists m, dmin d = Some m /\ (m <= v)%Q) /\ (fixmax d = None -> exists m, dmax d = Some m /\ (v <= m)%Q).
Lemma adjust_value_covers d v : covers (adjust_value d v) v.
Proof.
  unfold covers, adjust_value. cbn. split; intros ->.
  - destruct (dmin d) as [m|]; [|exists v; split; [reflexivity|apply Qle_refl]]. destruct (Qlt_le_dec v m); eexists; (split; [reflexivity|]); [apply Qle_refl|assumption].
  - destruct (dmax d) as [m|]; [|exists v; split; [reflexivity|apply Qle_refl]]. destruct (Qlt_le_dec m v); eexists; (split; [reflexivity|]); [apply Qle_refl|assumption].
Qed.
Lemma adjust_value_mono d v w : covers d v -> covers (adjust_value d w) v.
Proof.
  unfold covers, adjust_value. cbn. intros (H1 & H2). split; intros F; rewrite F.
  - destruct (H1 F) as (m & -> & L). destruct (Qlt_le_dec w m); eexists; (split; [reflexivity|]); [|exact L]. apply Qlt_le_weak in q. eapply Qle_trans; eassumption.
  - destruct (H2 F) as (m & -> & L). destruct (Qlt_le_dec m w); eexists; (split; [reflexivity|]); [|exact L]. apply Qlt_le_weak in q. eapply Qle_trans; eassumption.
Qed.
Lemma fold_adjust vs : forall d, let d' := fold_left adjust_value vs d in
  fixmin d' = fixmin d /\ fixmax d' = fixmax d /\ ticks d' = ticks d /\ (forall v, covers d v -> covers d' v) /\ (forall v, In v vs -> covers d' v).
Proof.
  induction vs as [|w vs IH]; intros d; cbn [fold_left].
  - cbn zeta. split; [reflexivity|]. split; [reflexivity|]. split; [reflexivity|]. split; [auto|]. intros v [].
  - destruct (IH (adjust_value d w)) as (F1 & F2 & F3 & F4 & F5). cbn zeta in *. split; [exact F1|]. split; [exact F2|]. split; [exact F3|]. split.
    + intros v H. apply F4, adjust_value_mono, H.
    + intros v [<-|H]; [apply F4, adjust_value_covers|apply F5, H].
Qed.

(** the default of an index beyond the list covers nothing, so data indices must be valid *)
Lemma adjusts_facts l : forall s s', adjusts l s = Some s' ->
  axes s' = axes s /\ calls s' = calls s /\ events s' = events s /\ length (datas s') = length (datas s) /\
  (forall d, fixmin (get_data d s') = fixmin (get_data d s) /\ fixmax (get_data d s') = fixmax (get_data d s) /\ ticks (get_data d s') = ticks (get_data d s) /\
             (forall v, covers (get_data d s) v -> covers (get_data d s') v)) /\
  (forall d, (forall k vs a, In (k, vs) l -> get k s = Some a -> a_data a = d -> a_shown a <> None) -> get_data d s' = get_data d s) /\
  (forall k vs a v, In (k, vs) l -> get k s = Some a -> a_shown a = None -> a_data a < length (datas s) -> In v vs -> covers (get_data (a_data a) s') v).
Proof.
  induction l as [|(k, vs) l IH]; intros s s' H; cbn [adjusts] in H.
  - injection H as <-. split; [reflexivity|]. split; [reflexivity|]. split; [reflexivity|]. split; [reflexivity|]. split; [auto|]. split; [reflexivity|]. intros k vs a v [].
  - destruct (adjust k vs s) as [s1|] eqn:A; [|discriminate]. destruct (IH s1 s' H) as (E1 & E2 & E3 & E4 & E5 & E6 & E7).
    unfold adjust in A. destruct (get k s) as [a|] eqn:G; [|discriminate]. injection A as A.
    assert (P : axes s1 = axes s /\ calls s1 = calls s /\ events s1 = events s /\ length (datas s1) = length (datas s)).
    { rewrite <- A. destruct (a_shown a); [auto|]. cbn. repeat split. clear. generalize (fold_left adjust_value vs (get_data (a_data a) s)). intros x. revert a. intros a. generalize (a_data a). induction (datas s) as [|y m IH]; intros [|i]; cbn; auto. }
    destruct P as (P1 & P2 & P3 & P4).
    assert (G1 : forall k', get k' s1 = get k' s) by (intros k'; unfold get; rewrite P1; reflexivity).
    assert (D : forall d, get_data d s1 = get_data d s \/ (a_shown a = None /\ a_data a = d /\ a_data a < length (datas s) /\ get_data d s1 = fold_left adjust_value vs (get_data d s))).
    { intros d. rewrite <- A. destruct (a_shown a); [left; reflexivity|]. rewrite get_set_data. destruct ((a_data a =? d) && (a_data a <? length (datas s))) eqn:E; [|left; reflexivity].
      apply andb_prop in E. destruct E as (Ea & Eb). apply Nat.eqb_eq in Ea. apply Nat.ltb_lt in Eb. right. rewrite Ea. rewrite Ea in Eb. auto. }
    split; [congruence|]. split; [congruence|]. split; [congruence|]. split; [congruence|]. split; [|split].
    + intros d. destruct (E5 d) as (F1 & F2 & F3 & F4). destruct (D d) as [Ed|(_ & _ & _ & Ed)]; rewrite Ed in *; [auto|].
      destruct (fold_adjust vs (get_data d s)) as (A1 & A2 & A3 & A4 & _). cbn zeta in *. split; [congruence|]. split; [congruence|]. split; [congruence|]. auto.
    + intros d Hd. rewrite (E6 d).
      * destruct (D d) as [Ed|(S0 & Sd & _)]; [exact Ed|]. exfalso. apply (Hd k vs a (or_introl eq_refl) G Sd). exact S0.
      * intros k' vs' a' Hi Hg. rewrite G1 in Hg. apply (Hd k' vs' a'); [right; exact Hi|exact Hg].
    + intros k' vs' a' v [Hi|Hi] Hg Hs Hl Hv.
      * injection Hi as -> ->. assert (a' = a) by congruence. subst a'. apply (proj2 (proj2 (proj2 (E5 (a_data a))))).
        rewrite <- A, Hs, get_set_data, Nat.eqb_refl. rewrite (proj2 (Nat.ltb_lt _ _) Hl). cbn [andb]. apply (proj2 (proj2 (proj2 (proj2 (fold_adjust vs' (get_data (a_data a) s)))))). exact Hv.
      * rewrite <- G1 in Hg. rewrite <- P4 in Hl. exact (E7 k' vs' a' v Hi Hg Hs Hl Hv).
Qed.
Lemma adjusts_some l : forall s, (forall k vs, In (k, vs) l -> get k s <> None) -> exists s', adjusts l s = Some s'.
Proof.
  induction l as [|(k, vs) l IH]; intros s H; [exists s; reflexivity|]. cbn [adjusts]. unfold adjust.
  destruct (get k s) as [a|] eqn:G; [|exfalso; exact (H k vs (or_introl eq_refl) G)].
  apply IH. intros k' vs' Hi. destruct (a_shown a); exact (H k' vs' (or_intror Hi)).
Qed.

Section Inv.
  Variable partition : data -> Q * Q -> option (Q * Q).
  Variable static : nat -> list (key * list Q).
  Variable dynamic : nat -> list data -> list (key * list Q).
  (** the axes and their limits, which do not change *)
  Variable cfg : key -> option (kind * nat * bool).
  Variable limits : nat -> option Q * option Q.
  Variable ndata : nat.
  Hypothesis values_known : forall g ds k vs, In (k, vs) (static g ++ dynamic g ds) -> fst k = g /\ cfg k <> None.
  Hypothesis data_known : forall k kd d p, cfg k = Some (kd, d, p) -> d < ndata.

  (** linked axes have painters, each anchored axis has its own data, and linked axes are in the graph of the axis they are linked to *)
  Definition usual : Prop :=
    (forall k t d p, cfg k = Some (Linked t, d, p) -> p = true) /\
    (forall k k' d p p', cfg k = Some (Anchored, d, p) -> cfg k' = Some (Anchored, d, p') -> k = k') /\
    (forall k k' kd kd' d p p', cfg k = Some (kd, d, p) -> cfg k' = Some (kd', d, p') -> fst k = fst k').

  Definition before (l : list event) (k : key) : Prop :=
    In (Ranged (fst k)) l /\ (2 < snd (snd k) -> In (Created (dependson k)) l).
  Definition root (l : list event) (d : nat) : Prop := exists r p, cfg r = Some (Anchored, d, p) /\ In (Created r) l.
  Definition fits (g : nat) (d : nat) (P : Q -> Prop) : Prop :=
    exists ds, forall k vs v kd p, In (k, vs) (static g ++ dynamic g ds) -> In v vs -> cfg k = Some (kd, d, p) -> P v.
  Definition inrange (d : nat) (lo hi : Q) (v : Q) : Prop := (fst (limits d) = None -> (lo <= v)%Q) /\ (snd (limits d) = None -> (v <= hi)%Q).

  Record Inv (s : state) : Prop := {
    J0 : forall k, info k s = cfg k;
    J1 : forall l1 k l2, events s = l1 ++ Created k :: l2 -> ~ In (Created k) l1 /\ before l1 k /\
         exists kd d p, cfg k = Some (kd, d, p) /\ (kd = Anchored \/ (p = true -> root l1 d));
    J2 : forall k, In (Created k) (events s) <-> shown k s <> None;
    J3 : forall k, pos k s = true -> before (events s) k;
    J4 : forall g, did (DidRanges g) s = true <-> In (Ranged g) (events s);
    J5 : forall d, ticks (get_data d s) = true -> root (events s) d;
    J6 : usual -> forall k r kd d p, shown k s = Some r -> cfg k = Some (kd, d, p) -> ticks (get_data d s) = true /\ r = (dmin (get_data d s), dmax (get_data d s));
    J7 : length (datas s) = ndata;
    J8 : usual -> forall g d, In (Ranged g) (events s) -> ticks (get_data d s) = false -> fits g d (covers (get_data d s));
    J9 : usual -> forall k lo hi, In (Parted k lo hi) (events s) -> exists kd d p, cfg k = Some (kd, d, p) /\ fits (fst k) d (inrange d lo hi);
    J10 : forall d, d < ndata -> (fixmin (get_data d s), fixmax (get_data d s)) = limits d }.

  Lemma inv_mark c s : (forall g, c <> DidRanges g) -> Inv s -> Inv (mark c s).
  Proof.
    intros N H. constructor; try apply H. intros g. cbn [events]. rewrite <- (J4 s H). unfold did, mark. cbn [calls existsb].
    destruct c; cbn [call_eqb]; try reflexivity. exfalso; eapply N; reflexivity.
  Qed.

  Lemma info_get k s a : get k s = Some a -> info k s = Some (a_kind a, a_data a, a_paint a).
  Proof. unfold info. intros ->. reflexivity. Qed.

  Lemma app_created l1 k l2 l e : l ++ [e] = l1 ++ Created k :: l2 ->
    (e = Created k /\ l1 = l /\ l2 = []) \/ (exists l3, l2 = l3 ++ [e] /\ l = l1 ++ Created k :: l3).
  Proof.
    destruct (exists_last (l := Created k :: l2)) as (m & x & E); [discriminate|]. intros H. rewrite E, app_assoc in H. apply app_inj_tail in H. destruct H as (-> & ->).
    destruct m as [|y m]; cbn in E; injection E as E1 E2.
    - left. subst. rewrite app_nil_r. auto.
    - right. exists m. subst. auto.
  Qed.

  (** ** Ranges *)
  Lemma inv_doranges g s : Inv s -> exists s', doranges static dynamic g s = Ok s' /\ Inv s' /\ did (DidRanges g) s' = true /\ axes s' = axes s /\
    (forall c, In c (calls s) -> In c (calls s')) /\ (exists l, events s' = events s ++ l).
  Proof.
    intros H. unfold doranges. destruct (did (DidRanges g) s) eqn:Dg.
    { exists s. split; [reflexivity|]. split; [exact H|]. split; [exact Dg|]. split; [reflexivity|]. split; [auto|]. exists []. rewrite app_nil_r. reflexivity. }
    set (s0 := mark (DidRanges g) s).
    assert (K : forall ds k vs, In (k, vs) (static g ++ dynamic g ds) -> get k s <> None).
    { intros ds k vs Hi. destruct (values_known g ds k vs Hi) as (_ & Hk). rewrite <- (J0 s H k) in Hk. unfold info in Hk. destruct (get k s); congruence. }
    destruct (adjusts_some (static g) s0) as (s1 & A1).
    { intros k vs Hi. apply (K [] k vs). apply in_or_app. left; exact Hi. }
    rewrite A1. destruct (adjusts_facts _ _ _ A1) as (E1 & E2 & E3 & E4 & E5 & E6 & E7).
    assert (G1 : forall k, get k s1 = get k s) by (intros k; unfold get; rewrite E1; reflexivity).
    destruct (adjusts_some (dynamic g (datas s1)) s1) as (s2 & A2).
    { intros k vs Hi. rewrite G1. apply (K (datas s1) k vs). apply in_or_app. right; exact Hi. }
    rewrite A2. destruct (adjusts_facts _ _ _ A2) as (F1 & F2 & F3 & F4 & F5 & F6 & F7).
    assert (G2 : forall k, get k s2 = get k s) by (intros k; unfold get; rewrite F1, E1; reflexivity).
    (* no axis of the graph has a canvas *)
    assert (No : forall k, fst k = g -> shown k s = None).
    { intros k Ek. destruct (shown k s) eqn:Es; [|reflexivity]. exfalso. assert (Hc : In (Created k) (events s)) by (apply (J2 s H); rewrite Es; discriminate).
      apply in_split in Hc. destruct Hc as (l1 & l2 & Hc). destruct (J1 s H l1 k l2 Hc) as (_ & (Hr & _) & _). rewrite Ek in Hr.
      assert (In (Ranged g) (events s)) by (rewrite Hc; apply in_or_app; left; exact Hr). apply (J4 s H) in H0. congruence. }
    assert (Dt : forall d, ticks (get_data d s2) = ticks (get_data d s)).
    { intros d. destruct (F5 d) as (_ & _ & -> & _). destruct (E5 d) as (_ & _ & -> & _). reflexivity. }
    assert (Dc : forall d v, covers (get_data d s) v -> covers (get_data d s2) v).
    { intros d v Hv. apply (proj2 (proj2 (proj2 (F5 d)))). apply (proj2 (proj2 (proj2 (E5 d)))). exact Hv. }
    assert (Du : usual -> forall k kd d p, cfg k = Some (kd, d, p) -> fst k <> g -> get_data d s2 = get_data d s).
    { intros (_ & _ & U) k kd d p Ck Nk. rewrite (F6 d).
      - apply (E6 d). intros k' vs a Hi Hg Hd _. destruct (values_known g [] k' vs) as (Hk & _); [apply in_or_app; left; exact Hi|]. apply Nk. rewrite <- Hk.
        pose proof (J0 s H k') as Ik. rewrite (info_get k' s a Hg) in Ik. rewrite Hd in Ik. exact (U _ _ _ _ _ _ _ Ck (eq_sym Ik)).
      - intros k' vs a Hi Hg Hd _. rewrite G1 in Hg. destruct (values_known g (datas s1) k' vs) as (Hk & _); [apply in_or_app; right; exact Hi|]. apply Nk. rewrite <- Hk.
        pose proof (J0 s H k') as Ik. rewrite (info_get k' s a Hg) in Ik. rewrite Hd in Ik. exact (U _ _ _ _ _ _ _ Ck (eq_sym Ik)). }
    exists (log (Ranged g) s2). split; [reflexivity|].
    assert (Ev : events (log (Ranged g) s2) = events s ++ [Ranged g]) by (cbn [log events]; rewrite F3, E3; reflexivity).
    assert (Sh : forall k, shown k (log (Ranged g) s2) = shown k s) by (intros k; unfold shown; change (get k (log (Ranged g) s2)) with (get k s2); rewrite G2; reflexivity).
    assert (Mono : forall k, before (events s) k -> before (events s ++ [Ranged g]) k).
    { intros k (B1 & B2). split; [apply in_or_app; left; exact B1|intros B; apply in_or_app; left; auto]. }
    split; [|split; [|split; [|split]]].
    - constructor.
      + intros k. unfold info. change (get k (log (Ranged g) s2)) with (get k s2). rewrite G2. apply (J0 s H).
      + intros l1 k l2 Hl. rewrite Ev in Hl. apply app_created in Hl. destruct Hl as [(F & _)|(l3 & -> & Hl)]; [discriminate|]. exact (J1 s H l1 k l3 Hl).
      + intros k. rewrite Ev, Sh, <- (J2 s H k), in_app_iff. split; [intros [Hx|[Hx|[]]]; [exact Hx|discriminate]|tauto].
      + intros k Hp. rewrite Ev. apply Mono, (J3 s H). unfold pos in *. change (get k (log (Ranged g) s2)) with (get k s2) in Hp. rewrite G2 in Hp. exact Hp.
      + intros g'. rewrite Ev, did_spec. cbn [log calls]. rewrite F2, E2. unfold s0, mark. cbn [calls]. rewrite in_app_iff, <- (J4 s H g'), did_spec. cbn [In].
        split; [intros [E|E]; [right; left; congruence|left; exact E]|intros [E|[E|[]]]; [right; exact E|left; congruence]].
      + intros d Ht. change (get_data d (log (Ranged g) s2)) with (get_data d s2) in Ht. rewrite Dt in Ht. destruct (J5 s H d Ht) as (r & p & R1 & R2). exists r, p. split; [exact R1|].
        rewrite Ev. apply in_or_app. left; exact R2.
      + intros U k r kd d p Hs Hc. rewrite Sh in Hs. change (get_data d (log (Ranged g) s2)) with (get_data d s2). rewrite (Du U k kd d p Hc); [exact (J6 s H U k r kd d p Hs Hc)|].
        intros Ek. rewrite (No k Ek) in Hs. discriminate.
      + cbn [log datas]. rewrite F4, E4. exact (J7 s H).
      + intros U g' d Hr Ht. rewrite Ev in Hr. change (get_data d (log (Ranged g) s2)) with (get_data d s2) in *. rewrite Dt in Ht. apply in_app_or in Hr.
        destruct Hr as [Hr|[Hr|[]]].
        * destruct (J8 s H U g' d Hr Ht) as (ds & P). exists ds. intros k vs v kd p Hi Hv Hc. apply Dc. exact (P k vs v kd p Hi Hv Hc).
        * injection Hr as <-. exists (datas s1). intros k vs v kd p Hi Hv Hc.
          destruct (values_known g _ k vs Hi) as (Hk & _). pose proof (J0 s H k) as Ik. rewrite Hc in Ik. unfold info in Ik. destruct (get k s) as [a|] eqn:Gk; [|discriminate].
          assert (Ed : a_data a = d) by congruence. assert (Hsh : a_shown a = None) by (pose proof (No k Hk) as Q1; unfold shown in Q1; rewrite Gk in Q1; exact Q1).
          assert (Hlen : d < length (datas s)) by (rewrite (J7 s H); exact (data_known _ _ _ _ Hc)). subst d.
          apply in_app_or in Hi. destruct Hi as [Hi|Hi].
          -- apply (proj2 (proj2 (proj2 (F5 (a_data a))))). exact (E7 k vs a v Hi Gk Hsh Hlen Hv).
          -- apply (F7 k vs a v Hi); [rewrite G1; exact Gk|exact Hsh|rewrite E4; exact Hlen|exact Hv].
      + intros U k lo hi Hi. rewrite Ev in Hi. apply in_app_or in Hi. destruct Hi as [Hi|[Hi|[]]]; [exact (J9 s H U k lo hi Hi)|discriminate].
      + intros d Hd. change (get_data d (log (Ranged g) s2)) with (get_data d s2). destruct (F5 d) as (-> & -> & _). destruct (E5 d) as (-> & -> & _). exact (J10 s H d Hd).
    - rewrite did_spec. cbn [log calls]. rewrite F2, E2. left; reflexivity.
    - cbn [log axes]. rewrite F1, E1. reflexivity.
    - intros c Hc. cbn [log calls]. rewrite F2, E2. right; exact Hc.
    - exists [Ranged g]. exact Ev.
  Qed.

  (** ** One axis *)
  Definition frame (s s' : state) : Prop :=
    (forall c, In c (calls s) -> In c (calls s')) /\
    (forall k, did (DidCreate k) s = true -> shown k s' = shown k s) /\
    (forall k, pos k s = true -> pos k s' = true) /\
    (exists l, events s' = events s ++ l).
  Lemma frame_refl s : frame s s.
  Proof. split; [auto|]. split; [auto|]. split; [auto|]. exists []. rewrite app_nil_r. reflexivity. Qed.
  Lemma frame_trans s s' s'' : frame s s' -> frame s' s'' -> frame s s''.
  Proof.
    intros (A1 & A2 & A3 & l & A4) (B1 & B2 & B3 & m & B4). split; [auto|]. split; [|split; [auto|]].
    - intros k Hk. rewrite B2; [auto|]. apply did_spec. apply A1. apply did_spec. exact Hk.
    - exists (l ++ m). rewrite B4, A4, app_assoc. reflexivity.
  Qed.
  Lemma frame_mark c s : frame s (mark c s).
  Proof. split; [intros x Hx; right; exact Hx|]. split; [reflexivity|]. split; [auto|]. exists []. cbn. rewrite app_nil_r. reflexivity. Qed.
  Lemma frame_axes s s' : axes s' = axes s -> (forall c, In c (calls s) -> In c (calls s')) -> (exists l, events s' = events s ++ l) -> frame s s'.
  Proof.
    intros A C E. split; [exact C|]. split; [intros k _; unfold shown, get; rewrite A; reflexivity|]. split; [|exact E]. intros k. unfold pos, get. rewrite A. auto.
  Qed.

  Lemma inv_setpositioner k s : Inv s -> before (events s) k -> Inv (out (setpositioner k s)) /\ frame s (out (setpositioner k s)).
  Proof.
    intros H B. unfold setpositioner. destruct (get k s) as [a|] eqn:G; [|split; [exact H|apply frame_refl]].
    destruct (a_pos a) eqn:P; [split; [exact H|apply frame_refl]|]. cbn [out].
    set (a' := mkaxis (a_kind a) (a_data a) (a_paint a) true (a_shown a)). set (s' := set_axis k a' s).
    assert (Gk : get k s' = Some a') by (apply get_set_same; congruence).
    assert (Go : forall k', k' <> k -> get k' s' = get k' s) by (intros k' N; apply get_set_other; congruence).
    assert (Sh : forall k', shown k' s' = shown k' s).
    { intros k'. unfold shown. destruct (key_dec k' k) as [->|N]; [rewrite Gk, G; reflexivity|rewrite Go by exact N; reflexivity]. }
    split.
    - constructor; try apply H.
      + intros k'. rewrite <- (J0 s H k'). unfold info. destruct (key_dec k' k) as [->|N]; [rewrite Gk, G; reflexivity|rewrite Go by exact N; reflexivity].
      + intros k'. rewrite Sh. apply (J2 s H).
      + intros k' Hp. destruct (key_dec k' k) as [->|N]; [exact B|]. apply (J3 s H). unfold pos in *. rewrite Go in Hp by exact N. exact Hp.
      + intros U k' r kd d p Hs. rewrite Sh in Hs. apply (J6 s H U k' r kd d p Hs).
    - split; [auto|]. split; [intros k' _; apply Sh|]. split.
      + intros k' Hp. unfold pos in *. destruct (key_dec k' k) as [->|N]; [rewrite Gk; reflexivity|rewrite Go by exact N; exact Hp].
      + exists []. cbn. rewrite app_nil_r. reflexivity.
  Qed.

  Definition with_data (k : nat) (D : option data) (s : state) : state := match D with Some D => set_data k D s | None => s end.
  Lemma inv_show k a s D : Inv s -> get k s = Some a -> a_shown a = None -> a_pos a = true ->
    match D with
    | Some D => a_kind a = Anchored /\ fixmin D = fixmin (get_data (a_data a) s) /\ fixmax D = fixmax (get_data (a_data a) s) /\ ticks D = true
    | None => (exists t, a_kind a = Linked t) /\ (a_paint a = true -> ticks (get_data (a_data a) s) = true)
    end ->
    Inv (show k a (with_data (a_data a) D s)) /\
    (forall k', k' <> k -> shown k' (show k a (with_data (a_data a) D s)) = shown k' s) /\
    (forall k', pos k' (show k a (with_data (a_data a) D s)) = pos k' s).
  Proof.
    intros H G S P HD. set (s1 := with_data (a_data a) D s).
    assert (Ax : axes s1 = axes s) by (unfold s1; destruct D; reflexivity).
    assert (Ca : calls s1 = calls s) by (unfold s1; destruct D; reflexivity).
    assert (Ev : events s1 = events s) by (unfold s1; destruct D; reflexivity).
    assert (Ck : cfg k = Some (a_kind a, a_data a, a_paint a)) by (rewrite <- (J0 s H k); apply info_get; exact G).
    assert (Hd : a_data a < ndata) by exact (data_known _ _ _ _ Ck).
    assert (Len : length (datas s1) = ndata).
    { unfold s1, with_data. rewrite <- (J7 s H). destruct D as [x|]; [|reflexivity]. cbn. clear. generalize (a_data a). induction (datas s) as [|y m IH]; intros [|i]; cbn; auto. }
    assert (Ga : forall d, get_data d s1 = match D with Some x => if a_data a =? d then x else get_data d s | None => get_data d s end).
    { intros d. unfold s1, with_data. destruct D as [x|]; [|reflexivity]. rewrite get_set_data, (J7 s H), (proj2 (Nat.ltb_lt _ _) Hd), andb_true_r. reflexivity. }
    unfold show. set (dd := get_data (a_data a) s1).
    set (a' := mkaxis (a_kind a) (a_data a) (a_paint a) (a_pos a) (Some (dmin dd, dmax dd))). set (s' := log (Created k) (set_axis k a' s1)).
    assert (G0 : forall k', get k' s1 = get k' s) by (intros k'; unfold get; rewrite Ax; reflexivity).
    assert (Gk : get k s' = Some a').
    { change (get k s') with (get k (set_axis k a' s1)). apply get_set_same. rewrite G0. congruence. }
    assert (Go : forall k', k' <> k -> get k' s' = get k' s).
    { intros k' N. change (get k' s') with (get k' (set_axis k a' s1)). rewrite get_set_other by congruence. apply G0. }
    assert (So : forall k', k' <> k -> shown k' s' = shown k' s) by (intros k' N; unfold shown; rewrite Go by exact N; reflexivity).
    assert (Po : forall k', pos k' s' = pos k' s).
    { intros k'. unfold pos. destruct (key_dec k' k) as [->|N]; [rewrite Gk, G; reflexivity|rewrite Go by exact N; reflexivity]. }
    assert (Es : events s' = events s ++ [Created k]) by (cbn; rewrite Ev; reflexivity).
    assert (Nk : ~ In (Created k) (events s)).
    { intros F. apply (J2 s H) in F. apply F. unfold shown. rewrite G. exact S. }
    assert (Bk : before (events s) k) by (apply (J3 s H); unfold pos; rewrite G; exact P).
    assert (Gd : forall d, get_data d s' = get_data d s1) by reflexivity.
    split; [|split; [exact So|exact Po]].
    constructor.
    - intros k'. rewrite <- (J0 s H k'). unfold info. destruct (key_dec k' k) as [->|N]; [rewrite Gk, G; reflexivity|rewrite Go by exact N; reflexivity].
    - intros l1 k' l2 Hl. rewrite Es in Hl. apply app_created in Hl. destruct Hl as [(F & -> & _)|(l3 & -> & Hl)]; [|exact (J1 s H l1 k' l3 Hl)].
      injection F as <-. split; [exact Nk|]. split; [exact Bk|]. exists (a_kind a), (a_data a), (a_paint a). split; [exact Ck|].
      destruct D as [x|]; [left; apply HD|right]. intros Pa. apply (J5 s H). apply HD. exact Pa.
    - intros k'. rewrite Es, in_app_iff. cbn [In]. destruct (key_dec k' k) as [->|N].
      + unfold shown. rewrite Gk. cbn. split; [discriminate|auto].
      + rewrite So by exact N. rewrite <- (J2 s H k'). split; [intros [F|[F|[]]]; [exact F|congruence]|tauto].
    - intros k' Hp. rewrite Po in Hp. destruct (J3 s H k' Hp) as (B1 & B2). rewrite Es. split; [apply in_or_app; auto|intros B; apply in_or_app; auto].
    - intros g. rewrite Es, in_app_iff. cbn [In]. rewrite did_spec. change (calls s') with (calls s1). rewrite Ca, <- did_spec, (J4 s H g).
      split; [auto|intros [F|[F|[]]]; [exact F|discriminate]].
    - intros d. rewrite Gd, Ga. intros Ht. assert (Old : ticks (get_data d s) = true -> root (events s') d).
      { intros Ho. destruct (J5 s H d Ho) as (r & p & R1 & R2). exists r, p. split; [exact R1|]. rewrite Es. apply in_or_app; auto. }
      destruct D as [x|]; [|auto]. destruct (a_data a =? d) eqn:E; [|auto]. apply Nat.eqb_eq in E. subst d. exists k, (a_paint a). destruct HD as (HD & _).
      rewrite HD in Ck. split; [exact Ck|]. rewrite Es. apply in_or_app. right. left. reflexivity.
    - intros U k' r kd d p Hs Hc. rewrite Gd. destruct (key_dec k' k) as [->|N].
      + rewrite Ck in Hc. injection Hc as <- <- <-. unfold shown in Hs. rewrite Gk in Hs. cbn in Hs. injection Hs as <-. split; [|reflexivity].
        rewrite Ga. destruct D as [x|]; [rewrite Nat.eqb_refl; apply HD|]. destruct HD as ((t & Hk) & HD). apply HD. rewrite Hk in Ck. exact (proj1 U _ _ _ _ Ck).
      + rewrite So in Hs by exact N. destruct (J6 s H U k' r kd d p Hs Hc) as (T1 & T2). rewrite Ga. destruct D as [x|]; [|auto]. destruct (a_data a =? d) eqn:E; [|auto].
        exfalso. apply Nat.eqb_eq in E. subst d. destruct (J5 s H _ T1) as (r0 & p0 & R1 & R2). destruct HD as (HD & _). rewrite HD in Ck.
        assert (r0 = k) by exact (proj1 (proj2 U) _ _ _ _ _ R1 Ck). subst r0. contradiction.
    - exact Len.
    - intros U g d Hr. rewrite Es in Hr. apply in_app_or in Hr. destruct Hr as [Hr|[Hr|[]]]; [|discriminate]. rewrite Gd, Ga. intros Ht.
      destruct D as [x|]; [|exact (J8 s H U g d Hr Ht)]. destruct (a_data a =? d); [|exact (J8 s H U g d Hr Ht)]. destruct HD as (_ & _ & _ & HD). congruence.
    - intros U k' lo hi Hi. rewrite Es in Hi. apply in_app_or in Hi. destruct Hi as [Hi|[Hi|[]]]; [|discriminate]. exact (J9 s H U k' lo hi Hi).
    - intros d Hdd. rewrite Gd, Ga. destruct D as [x|]; [|exact (J10 s H d Hdd)]. destruct (a_data a =? d) eqn:E; [|exact (J10 s H d Hdd)].
      apply Nat.eqb_eq in E. subst d. destruct HD as (_ & -> & -> & _). exact (J10 s H _ Hdd).
  Qed.

  Lemma inv_parted k a lo hi s : Inv s -> get k s = Some a -> a_shown a = None -> a_pos a = true -> a_kind a = Anchored ->
    dmin (get_data (a_data a) s) = Some lo -> dmax (get_data (a_data a) s) = Some hi -> Inv (log (Parted k lo hi) s).
  Proof.
    intros H G S P Ka Lo Hi.
    assert (Ck : cfg k = Some (a_kind a, a_data a, a_paint a)) by (rewrite <- (J0 s H k); apply info_get; exact G).
    assert (Ev : events (log (Parted k lo hi) s) = events s ++ [Parted k lo hi]) by reflexivity.
    constructor; try apply H.
    - intros l1 k' l2 Hl. rewrite Ev in Hl. apply app_created in Hl. destruct Hl as [(F & _)|(l3 & -> & Hl)]; [discriminate|exact (J1 s H l1 k' l3 Hl)].
    - intros k'. rewrite Ev, in_app_iff. cbn [In]. change (shown k' (log (Parted k lo hi) s)) with (shown k' s). rewrite <- (J2 s H k').
      split; [intros [F|[F|[]]]; [exact F|discriminate]|tauto].
    - intros k' Hp. destruct (J3 s H k' Hp) as (B1 & B2). rewrite Ev. split; [apply in_or_app; auto|intros B; apply in_or_app; auto].
    - intros g. rewrite Ev, in_app_iff. cbn [In]. change (did (DidRanges g) (log (Parted k lo hi) s)) with (did (DidRanges g) s). rewrite (J4 s H g).
      split; [auto|intros [F|[F|[]]]; [exact F|discriminate]].
    - intros d Ht. destruct (J5 s H d Ht) as (r & p & R1 & R2). exists r, p. split; [exact R1|]. rewrite Ev. apply in_or_app; auto.
    - intros U g d Hr. rewrite Ev in Hr. apply in_app_or in Hr. destruct Hr as [Hr|[Hr|[]]]; [|discriminate]. exact (J8 s H U g d Hr).
    - intros U k' lo' hi' Hl. rewrite Ev in Hl. apply in_app_or in Hl. destruct Hl as [Hl|[Hl|[]]]; [exact (J9 s H U k' lo' hi' Hl)|].
      injection Hl as <- <- <-. exists (a_kind a), (a_data a), (a_paint a). split; [exact Ck|].
      assert (Tf : ticks (get_data (a_data a) s) = false).
      { destruct (ticks (get_data (a_data a) s)) eqn:T; [|reflexivity]. exfalso. destruct (J5 s H _ T) as (r & p & R1 & R2). rewrite Ka in Ck.
        assert (r = k) by exact (proj1 (proj2 U) _ _ _ _ _ R1 Ck). subst r. apply (J2 s H) in R2. apply R2. unfold shown. rewrite G. exact S. }
      assert (Rg : In (Ranged (fst k)) (events s)) by (apply (J3 s H k); unfold pos; rewrite G; exact P).
      destruct (J8 s H U (fst k) (a_data a) Rg Tf) as (ds & Hf). exists ds. intros k' vs v kd p Hi' Hv Hc. destruct (Hf k' vs v kd p Hi' Hv Hc) as (C1 & C2).
      pose proof (J10 s H (a_data a) (data_known _ _ _ _ Ck)) as L10. unfold inrange. rewrite <- L10. cbn [fst snd]. split.
      + intros F. destruct (C1 F) as (m & M1 & M2). rewrite Lo in M1. injection M1 as <-. exact M2.
      + intros F. destruct (C2 F) as (m & M1 & M2). rewrite Hi in M1. injection M1 as <-. exact M2.
  Qed.

  Lemma show_frame k a s D : did (DidCreate k) s = false \/ True -> (forall k', k' <> k -> shown k' (show k a (with_data (a_data a) D s)) = shown k' s) ->
    (forall k', pos k' (show k a (with_data (a_data a) D s)) = pos k' s) ->
    forall s0, (forall c, In c (calls s0) -> In c (calls s)) -> did (DidCreate k) s0 = false -> frame s0 s -> frame s0 (show k a (with_data (a_data a) D s)).
  Proof.
    intros _ So Po s0 C0 D0 (A1 & A2 & A3 & l & A4). split; [|split; [|split]].
    - intros c Hc. destruct D; cbn; apply A1; exact Hc.
    - intros k' Hk. rewrite So; [auto|]. intros ->. congruence.
    - intros k' Hk. rewrite Po. auto.
    - exists (l ++ [Created k]). rewrite app_assoc, <- A4. destruct D; reflexivity.
  Qed.

  Theorem inv_create n : forall k s r, Inv s -> doaxiscreate partition static dynamic n k s = Some r -> Inv (out r) /\ frame s (out r).
  Proof.
    induction n as [|n IH]; intros k s r H Hr; cbn [doaxiscreate] in Hr; destruct (did (DidCreate k) s) eqn:Dk.
    1, 3: injection Hr as <-; split; [exact H|apply frame_refl].
    1: discriminate.
    set (s0 := mark (DidCreate k) s) in *. assert (H0 : Inv s0) by (apply inv_mark; [discriminate|exact H]).
    assert (Fr0 : frame s s0) by apply frame_mark.
    assert (Dk0 : did (DidCreate k) s0 = true) by (apply did_spec; left; reflexivity).
    (* the positioner *)
    match type of Hr with bind ?p ?f = _ => set (P := p) in *; set (F := f) in * end.
    assert (HP : forall r, P = Some r -> Inv (out r) /\ frame s0 (out r)).
    { subst P. clear F Hr r. destruct (did (DidPositioner k) s0); [intros r Hr; injection Hr as <-; split; [exact H0|apply frame_refl]|].
      set (s1 := mark (DidPositioner k) s0). assert (H1 : Inv s1) by (apply inv_mark; [discriminate|exact H0]).
      destruct (inv_doranges (fst k) s1 H1) as (s2 & E2 & H2 & D2 & Ax2 & C2 & L2). rewrite E2. cbn [bind].
      assert (Fr2 : frame s0 s2) by (apply (frame_trans _ s1); [apply frame_mark|apply frame_axes; assumption]).
      assert (R2 : In (Ranged (fst k)) (events s2)) by (apply (J4 s2 H2); exact D2).
      destruct (snd (snd k) <=? 2) eqn:N2.
      - intros r Hr. assert (Q1 := Hr). apply (f_equal (fun o => match o with Some x => x | None => r end)) in Q1. subst r.
        apply Nat.leb_le in N2. destruct (inv_setpositioner k s2 H2) as (I3 & F3); [split; [exact R2|lia]|]. split; [exact I3|exact (frame_trans _ _ _ Fr2 F3)].
      - destruct (doaxiscreate partition static dynamic n (dependson k) s2) as [r2|] eqn:E3; [|discriminate].
        destruct (IH _ _ _ H2 E3) as (I3 & F3). destruct r2 as [s3|s3]; cbn [bind out] in *; [|intros r Hr; injection Hr as <-; split; [exact I3|exact (frame_trans _ _ _ Fr2 F3)]].
        assert (Fr3 := frame_trans _ _ _ Fr2 F3). intros r.
        destruct (get (dependson k) s3) as [b|] eqn:Gb; [|intros Hr; injection Hr as <-; split; assumption].
        destruct (a_pos b); [|intros Hr; injection Hr as <-; split; assumption].
        destruct (a_shown b) eqn:Sb; [|intros Hr; injection Hr as <-; split; assumption].
        intros Hr. assert (Q1 := Hr). apply (f_equal (fun o => match o with Some x => x | None => r end)) in Q1. subst r.
        destruct (inv_setpositioner k s3 I3) as (I4 & F4).
        { destruct F3 as (_ & _ & _ & l & El). split; [rewrite El; apply in_or_app; left; exact R2|]. intros _. apply (J2 s3 I3). unfold shown. rewrite Gb, Sb. discriminate. }
        split; [exact I4|exact (frame_trans _ _ _ Fr3 F4)]. }
    destruct P as [[s4|s4]|]; cbn [bind] in Hr.
    3: discriminate.
    2: { injection Hr as <-. destruct (HP _ eq_refl) as (I4 & F4). split; [exact I4|exact (frame_trans _ _ _ Fr0 F4)]. }
    destruct (HP _ eq_refl) as (I4 & F4). cbn [out] in I4, F4. clear HP. assert (Fs4 := frame_trans _ _ _ Fr0 F4). subst F. cbv beta in Hr.
    destruct (get k s4) as [a|] eqn:G; [|injection Hr as <-; split; assumption].
    destruct (a_shown a) eqn:Sa; [injection Hr as <-; split; assumption|].
    destruct (a_kind a) as [|[t|]] eqn:Ka.
    - injection Hr as <-. unfold create_anchored. destruct (a_pos a) eqn:Pa; cbn [negb]; [|split; assumption].
      destruct (dmin (get_data (a_data a) s4)) as [lo|] eqn:Lo; [|split; assumption]. destruct (dmax (get_data (a_data a) s4)) as [hi|] eqn:Hi; [|split; assumption].
      assert (I5 := inv_parted k a lo hi s4 I4 G Sa Pa Ka Lo Hi). set (s5 := log (Parted k lo hi) s4) in *.
      assert (Fr5 : frame s s5) by (apply (frame_trans _ _ _ Fs4); apply frame_axes; [reflexivity|auto|exists [Parted k lo hi]; reflexivity]).
      destruct (partition (get_data (a_data a) s4) (lo, hi)) as [(lo', hi')|]; [|split; assumption].
      set (D := mkdata (fixmin (get_data (a_data a) s4)) (fixmax (get_data (a_data a) s4)) (Some lo') (Some hi') true).
      destruct (inv_show k a s5 (Some D) I5 G Sa Pa) as (I6 & So & Po); [split; [exact Ka|]; split; [reflexivity|]; split; reflexivity|].
      cbn [out]. split; [exact I6|]. apply (show_frame k a s5 (Some D) (or_intror I) So Po s); [apply Fr5|exact Dk|exact Fr5].
    - destruct (a_pos a) eqn:Pa; cbn [negb] in Hr; [|injection Hr as <-; split; assumption].
      match type of Hr with bind ?p ?f = _ => set (T := p) in *; set (F := f) in * end.
      assert (HT : forall r, T = Some r -> Inv (out r) /\ frame s4 (out r)).
      { subst T. destruct (get t s4) as [b|]; [|intros r' Hr'; injection Hr' as <-; split; [exact I4|apply frame_refl]].
        destruct (a_shown b); [intros r' Hr'; injection Hr' as <-; split; [exact I4|apply frame_refl]|]. intros r' Hr'. exact (IH _ _ _ I4 Hr'). }
      destruct T as [[s5|s5]|]; cbn [bind] in Hr.
      3: discriminate.
      2: { injection Hr as <-. destruct (HT _ eq_refl) as (I5 & F5). split; [exact I5|exact (frame_trans _ _ _ Fs4 F5)]. }
      destruct (HT _ eq_refl) as (I5 & F5). cbn [out] in I5, F5. subst F. cbv beta in Hr. assert (Fr5 := frame_trans _ _ _ Fs4 F5).
      destruct (get k s5) as [a'|] eqn:G'; [|injection Hr as <-; split; assumption]. injection Hr as <-.
      assert (Sa' : a_shown a' = None).
      { assert (Dk4 : did (DidCreate k) s4 = true) by (apply did_spec, F4, did_spec, Dk0). pose proof (proj1 (proj2 F5) k Dk4) as Q1. unfold shown in Q1. rewrite G, G' in Q1. congruence. }
      assert (Pa' : a_pos a' = true).
      { assert (pos k s5 = true) by (apply F5; unfold pos; rewrite G; exact Pa). unfold pos in H1. rewrite G' in H1. exact H1. }
      assert (Ka' : a_kind a' = Linked (Some t)).
      { pose proof (J0 s4 I4 k) as Q1. pose proof (J0 s5 I5 k) as Q2. rewrite (info_get _ _ _ G) in Q1. rewrite (info_get _ _ _ G') in Q2. congruence. }
      unfold create_linked. destruct (a_paint a' && negb (ticks (get_data (a_data a') s5))) eqn:Pt; [split; assumption|]. cbn [out].
      destruct (inv_show k a' s5 None I5 G' Sa' Pa') as (I6 & So & Po).
      { split; [exists (Some t); exact Ka'|]. intros Ep. rewrite Ep in Pt. destruct (ticks (get_data (a_data a') s5)); [reflexivity|discriminate]. }
      cbn [with_data] in *. split; [exact I6|]. apply (show_frame k a' s5 None (or_intror I) So Po s); [apply Fr5|exact Dk|exact Fr5].
    - injection Hr as <-. split; assumption.
  Qed.

  Lemma inv_creates n ks : forall s r, Inv s -> creates partition static dynamic n ks s = Some r -> Inv (out r).
  Proof.
    induction ks as [|k ks IH]; intros s r H Hr; cbn [creates] in Hr; [injection Hr as <-; exact H|].
    destruct (doaxiscreate partition static dynamic n k s) as [r1|] eqn:E; [|discriminate]. destruct (inv_create n k s r1 H E) as (I1 & _).
    destruct r1 as [s1|s1]; cbn [bind out] in *; [exact (IH _ _ I1 Hr)|injection Hr as <-; exact I1].
  Qed.
  Lemma inv_step n o s r : Inv s -> step partition static dynamic n o s = Some r -> Inv (out r).
  Proof.
    intros H Hr. destruct o as [g|k|k|g]; cbn [step] in Hr.
    - injection Hr as <-. destruct (inv_doranges g s H) as (s' & -> & I' & _). exact I'.
    - exact (proj1 (inv_create n k s r H Hr)).
    - destruct (get k s) as [a|]; [|injection Hr as <-; exact H]. destruct (a_shown a); [injection Hr as <-; exact H|exact (proj1 (inv_create n k s r H Hr))].
    - unfold dolayout in Hr. destruct (did (DidLayout g) s); [injection Hr as <-; exact H|]. refine (inv_creates n _ _ _ _ Hr). apply inv_mark; [discriminate|exact H].
  Qed.
  Lemma inv_run n l : forall s s', Inv s -> run partition static dynamic n l s = Some s' -> Inv s'.
  Proof.
    induction l as [|o l IH]; intros s s' H Hr; cbn [run] in Hr; [injection Hr as <-; exact H|].
    destruct (step partition static dynamic n o s) as [r|] eqn:E; [|discriminate]. exact (IH _ _ (inv_step n o s r H E) Hr).
  Qed.
End Inv.
