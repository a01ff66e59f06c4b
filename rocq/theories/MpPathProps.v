(** * MetaPost paths: from the elements to the path items *)
From Coq Require Import Reals List Bool PeanoNat Lra Lia.
From Verif Require Import CurveModel PathModel MpModel MpSpec MpProofs MpProofs2 MpProofs3 MpProofs4 MpProofs5 MpProofs6 MpProofs7 MpProps.
Import ListNotations.
Local Open Scope R_scope.
Local Notation pt := (R * R)%type.

(** ** What elements mean *)
(** knot i and the link behind it *)
Definition knot_of (es : elements) (i : nat) : knot := nth i (map fst es) (smoothknot 0 0).
Definition link_of (es : elements) (i : nat) : option link := nth i (map snd es) None.
Definition is_curve (l : option link) : Prop := match l with Some (Tension _ _) | Some (Controls _ _) => True | _ => False end.

(** what a link says about the side of the knot where it begins, and about the one where it ends *)
Definition out_side (l : option link) (k : knot) : ktype * option R * option R :=
  match l with
  | None => (rtype k, rx k, ry k)
  | Some (Straight _) => (Endpoint, None, None)
  | Some (Controls (a, b) _) => (Explicit, Some a, Some b)
  | Some (Tension a _) => (rtype k, rx k, Some a)
  end.
Definition in_side (l : option link) (k : knot) : ktype * option R * option R :=
  match l with
  | None => (ltype k, lx k, ly k)
  | Some (Straight _) => (Endpoint, None, None)
  | Some (Controls _ (a, b)) => (Explicit, Some a, Some b)
  | Some (Tension _ b) => (ltype k, lx k, Some b)
  end.
Definition described (es : elements) (K : heap) : Prop :=
  let N := length es in
  forall i, (i < N)%nat ->
    kx (K i) = kx (knot_of es i) /\ ky (K i) = ky (knot_of es i) /\
    (rtype (K i), rx (K i), ry (K i)) = out_side (link_of es i) (knot_of es i) /\
    (ltype (K (after N i)), lx (K (after N i)), ly (K (after N i))) = in_side (link_of es i) (knot_of es (after N i)).

(** Elements which make sense: curves begin and end at knots which allow that, with tensions of at least 3/4 and curls not
    below 0; knots without a link are ends; lines do not keep angles, and are not next to smooth knots. *)
Definition sensible (es : elements) : Prop :=
  let N := length es in
  (0 < N)%nat /\ forall i, (i < N)%nat ->
    let k := knot_of es i in let n := knot_of es (after N i) in
    (ltype k = Open <-> rtype k = Open) /\
    match link_of es i with
    | Some (Tension a b) => value (rtype k) (rx k) /\ value (ltype n) (lx n) /\ 3 / 4 <= Rabs a /\ 3 / 4 <= Rabs b
    | Some (Controls _ _) => rtype k <> Endpoint /\ ltype n <> Endpoint
    | Some (Straight keepangles) => keepangles = false /\ ltype k <> Open /\ rtype n <> Open
    | None => rtype k = Endpoint /\ ltype n = Endpoint
    end.

(** the item for the segment from knot i to knot j *)
Definition drawn (K : heap) (l : option link) (i j : nat) (it : pathitem) : Prop :=
  let z := (kx (K j), ky (K j)) in
  match l with
  | None => it = Moveto z
  | Some (Straight _) => it = Lineto z
  | Some _ => exists a b c d, rx (K i) = Some a /\ ry (K i) = Some b /\ lx (K j) = Some c /\ ly (K j) = Some d /\ it = Curveto (a, b) (c, d) z
  end.

(** ** The loop over the links *)
Section Links.
  Variable es : elements.
  Let N := length es.
  Hypothesis Sb : sensible es.

  Let N0 : (0 < N)%nat := proj1 Sb.
  Definition upto (m : nat) (K : heap) : Prop :=
    forall i, (i < N)%nat ->
      place (K i) = place (knot_of es i) /\
      rside (K i) = (if (i <? m)%nat then out_side (link_of es i) (knot_of es i) else rside (knot_of es i)) /\
      lside (K (after N i)) = (if (i <? m)%nat then in_side (link_of es i) (knot_of es (after N i)) else lside (knot_of es (after N i))).

  Lemma after_inj i j : (i < N)%nat -> (j < N)%nat -> after N i = after N j -> i = j.
  Proof. intros H G E. rewrite <- (before_after N i), <- (before_after N j), E by assumption. reflexivity. Qed.

  Lemma set_sides l i j K a b c d a' b' c' : (i < N)%nat -> (j < N)%nat ->
    l = Some (upd j (set_left a b c) (upd i (set_right a' b' c') K)) -> d = l -> exists K', d = Some K' /\
      (forall k, place (K' k) = place (K k)) /\ (forall k, rside (K' k) = if (k =? i)%nat then (a', b', c') else rside (K k)) /\
      (forall k, lside (K' k) = if (k =? j)%nat then (a, b, c) else lside (K k)).
  Proof.
    intros H G -> ->. eexists. split; [reflexivity|]. split; [|split]; intros k.
    - rewrite !upd_place; reflexivity.
    - rewrite upd_rside by reflexivity. unfold upd. destruct (k =? i)%nat; reflexivity.
    - unfold upd. destruct (k =? j)%nat; destruct (k =? i)%nat; reflexivity.
  Qed.

  Lemma knots_set l m K : (m < N)%nat -> link_of es m = Some l -> upto m K -> exists K', set_knots l m (after N m) K = Some K' /\
      (forall k, place (K' k) = place (K k)) /\ (forall k, rside (K' k) = if (k =? m)%nat then out_side (Some l) (knot_of es m) else rside (K k)) /\
      (forall k, lside (K' k) = if (k =? after N m)%nat then in_side (Some l) (knot_of es (after N m)) else lside (K k)).
  Proof.
    intros H E U. destruct (U m H) as (_ & R1 & L1). rewrite Nat.ltb_irrefl in R1, L1. destruct (proj2 Sb m H) as [_ S1]. fold N in S1. rewrite E in S1.
    pose proof (after_lt N m N0) as A. unfold rside in R1. unfold lside in L1. injection R1 as R1 R2 R3. injection L1 as L1 L2 L3.
    destruct l as [keep|[a b] [c d]|a b]; cbn [set_knots].
    - destruct S1 as (-> & _). eapply (set_sides _ m (after N m)); [exact H|exact A|reflexivity|reflexivity].
    - eapply (set_sides _ m (after N m)); [exact H|exact A|reflexivity|reflexivity].
    - destruct S1 as (V1 & V2 & _). rewrite R1, L1.
      assert ((number (rtype (knot_of es m)) <=? 1)%nat = false) as -> by (destruct (rtype (knot_of es m)); cbn in *; tauto).
      assert ((number (ltype (knot_of es (after N m))) <=? 1)%nat = false) as -> by (destruct (ltype (knot_of es (after N m))); cbn in *; tauto).
      cbn [orb out_side in_side]. rewrite <- R1, <- R2, <- L1, <- L2.
      eexists. split; [reflexivity|]. split; [|split]; intros k.
      + rewrite !upd_place; reflexivity.
      + rewrite upd_rside by reflexivity. unfold upd. destruct (Nat.eqb_spec k m) as [->|]; reflexivity.
      + unfold upd. destruct (Nat.eqb_spec k (after N m)) as [->|]; destruct (_ =? m)%nat; reflexivity.
  Qed.

  (** whether all knots up to m are linked by curves to the knots before them, and to something behind them *)
  Definition curved (m i : nat) : Prop := match i with O => ltype (knot_of es 0) <> Endpoint | S j => is_curve (link_of es j) end /\ rtype (knot_of es i) <> Endpoint.

  Lemma set_all_ok : forall r m K c, (m + length r = N)%nat -> (forall j, (j < length r)%nat -> nth j (map snd r) None = link_of es (m + j)) -> upto m K ->
    exists K' c', set_all N r m K c = Some (K', c') /\ upto N K' /\ (c' = true <-> c = true /\ forall i, (m <= i < N)%nat -> curved m i).
  Proof.
    induction r as [|[k l] r IH]; intros m K c H E U.
    - exists K, c. split; [reflexivity|]. cbn in H. rewrite Nat.add_0_r in H. subst m. split; [exact U|]. split; [intros ->; split; [reflexivity|lia]|tauto].
    - cbn [length] in H. assert (m < N)%nat as Hm by lia. assert (l = link_of es m) as El by (specialize (E 0%nat ltac:(cbn; lia)); cbn in E; rewrite Nat.add_0_r in E; exact E).
      cbn [set_all]. set (c1 := c && _).
      assert (c1 = true <-> c = true /\ curved m m) as C1.
      { unfold c1. rewrite andb_true_iff, negb_true_iff, orb_false_iff.
        destruct (U m Hm) as (_ & R1 & _). rewrite Nat.ltb_irrefl in R1. unfold rside in R1. injection R1 as R1 _ _. rewrite R1.
        assert (forall t, is t Endpoint = false <-> t <> Endpoint) as IE by (intros []; cbn; split; congruence).
        rewrite !IE. unfold curved. destruct m as [|j].
        - assert (ltype (K 0%nat) = ltype (knot_of es 0)) as ->; [|tauto].
          pose proof (before_lt N 0 N0) as B. destruct (U (before N 0) B) as (_ & _ & L1). rewrite after_before in L1 by assumption. destruct (Nat.ltb_spec (before N 0) 0); [lia|]. unfold lside in L1. congruence.
        - assert (after N j = S j) as Aj by (unfold after; rewrite Nat.add_1_r; apply Nat.mod_small; exact Hm).
          destruct (U j ltac:(lia)) as (_ & _ & L1). destruct (Nat.ltb_spec j (S j)); [|lia]. rewrite Aj in L1. unfold lside in L1.
          destruct (proj2 Sb j ltac:(lia)) as [_ Sj]. fold N in Sj. rewrite Aj in Sj.
          destruct (link_of es j) as [[keep|[x y] [z w]|x y]|]; cbn [in_side is_curve] in *; injection L1 as L1 _ _; rewrite L1.
          + tauto.
          + split; [tauto|]. intros (A & _ & B). split; [exact A|]. split; [discriminate|exact B].
          + assert (ltype (knot_of es (S j)) <> Endpoint) by (intros Q; rewrite Q in Sj; cbn in Sj; tauto). tauto.
          + split; [|tauto]. intros (_ & Q & _). tauto. }
      assert (exists K1, (match l with Some l => set_knots l m (next N m) K | None => Some K end) = Some K1 /\ upto (S m) K1) as (K1 & -> & U1).
      { change (next N m) with (after N m). rewrite El. destruct (link_of es m) as [l'|] eqn:El'.
        - destruct (knots_set l' m K Hm El' U) as (K1 & -> & P & R1 & L1). exists K1. split; [reflexivity|]. intros i Hi. destruct (U i Hi) as (P0 & R0 & L0).
          split; [rewrite P; exact P0|]. split.
          + rewrite R1. destruct (Nat.eqb_spec i m) as [->|Ni]; [destruct (Nat.ltb_spec m (S m)); [rewrite El'; reflexivity|lia]|]. rewrite R0. destruct (Nat.ltb_spec i m), (Nat.ltb_spec i (S m)); try lia; reflexivity.
          + rewrite L1. destruct (Nat.eqb_spec (after N i) (after N m)) as [Q|Ni].
            * apply after_inj in Q; [|assumption..]. subst i. destruct (Nat.ltb_spec m (S m)); [rewrite El'; reflexivity|lia].
            * rewrite L0. assert (i <> m) by congruence. destruct (Nat.ltb_spec i m), (Nat.ltb_spec i (S m)); try lia; reflexivity.
        - exists K. split; [reflexivity|]. intros i Hi. destruct (U i Hi) as (P0 & R0 & L0). split; [exact P0|].
          destruct (Nat.eqb_spec i m) as [->|Ni].
          + destruct (Nat.ltb_spec m (S m)); [|lia]. rewrite Nat.ltb_irrefl in R0, L0. rewrite El'. split; assumption.
          + destruct (Nat.ltb_spec i m), (Nat.ltb_spec i (S m)); try lia; split; assumption. }
      cbn [bind]. destruct (IH (S m) K1 c1) as (K' & c' & -> & U' & C'); [lia| |exact U1|].
      { intros j Hj. specialize (E (S j) ltac:(cbn; lia)). cbn in E. rewrite E. f_equal. lia. }
      exists K', c'. split; [reflexivity|]. split; [exact U'|]. rewrite C', C1. split.
      + intros ((A & B) & D). split; [exact A|]. intros i Hi. destruct (Nat.eq_dec i m) as [->|]; [exact B|apply D; lia].
      + intros (A & D). split; [split; [exact A|apply D; lia]|]. intros i Hi. apply D. lia.
  Qed.
End Links.

(** Sensible elements are understood, and the knots are proper for the choice of control points. *)
Theorem elements_understood es : sensible es -> exists K c, set_all (length es) es 0 (heap_of es) true = Some (K, c) /\ described es K /\
  (forall i, (i < length es)%nat -> proper (length es) K i) /\ (is_curve (link_of es (length es - 1)) -> (c = true <-> forall i, (i < length es)%nat -> is_curve (link_of es i))).
Proof.
  intros Sb. pose proof (proj1 Sb) as N0. destruct (set_all_ok es Sb es 0 (heap_of es) true) as (K & c & -> & U & C).
  - lia.
  - intros j _. reflexivity.
  - intros i H. split; [reflexivity|]. destruct (Nat.ltb_spec i 0); [lia|]. split; reflexivity.
  - exists K, c. split; [reflexivity|].
    assert (described es K) as De.
    { intros i H. destruct (U i H) as (P & R1 & L1). destruct (Nat.ltb_spec i (length es)); [|lia]. unfold place in P. injection P as P1 P2. exact (conj P1 (conj P2 (conj R1 L1))). }
    split; [exact De|]. split.
    + intros i H. destruct (De i H) as (_ & _ & R1 & L1). destruct (proj2 Sb i H) as (Sm & Si). unfold proper. split.
      * destruct (link_of es i) as [[keep|[x y] [z w]|x y]|]; cbn [out_side in_side] in R1, L1; injection R1 as R1 R2 R3; injection L1 as L1 L2 L3; rewrite R1, R2, R3, L1, L2, L3.
        -- left. split; reflexivity.
        -- right. left. repeat split; discriminate.
        -- right. right. destruct Si as (V1 & V2 & T1 & T2). split; [exact V1|]. split; [exact V2|]. split; [exists x|exists y]; split; trivial.
        -- left. exact Si.
      * (* the left side of knot i belongs to the link before it *)
        pose proof (before_lt (length es) i N0) as Bl. destruct (De _ Bl) as (_ & _ & _ & L0). destruct (proj2 Sb _ Bl) as (_ & Sb0). rewrite after_before in L0, Sb0 by assumption.
        assert (ltype (K i) = Open -> ltype (knot_of es i) = Open) as A1.
        { destruct (link_of es (before (length es) i)) as [[keep|[x y] [z w]|x y]|]; cbn [in_side] in L0; injection L0 as L0 _ _; rewrite L0; trivial; discriminate. }
        assert (rtype (K i) = Open -> rtype (knot_of es i) = Open) as A2.
        { destruct (link_of es i) as [[keep|[x y] [z w]|x y]|]; cbn [out_side] in R1; injection R1 as R1 _ _; rewrite R1; trivial; discriminate. }
        assert (rtype (knot_of es i) = Open -> rtype (K i) = Open \/ rtype (K i) = Explicit) as A3.
        { intros Q. destruct (link_of es i) as [[keep|[x y] [z w]|x y]|]; cbn [out_side] in R1; injection R1 as R1 _ _; rewrite R1; try tauto. }
        assert (ltype (knot_of es i) = Open -> ltype (K i) = Open \/ ltype (K i) = Explicit) as A4.
        { intros Q. destruct (link_of es (before (length es) i)) as [[keep|[x y] [z w]|x y]|]; cbn [in_side] in L0; injection L0 as L0 _ _; rewrite L0; try tauto. }
        tauto.
    + intros Lc. rewrite C. split.
      * intros [_ D] i H. destruct (Nat.eq_dec i (length es - 1)) as [->|]; [exact Lc|]. apply (D (S i)). lia.
      * intros D. split; [reflexivity|]. intros i H. split.
        -- destruct i as [|j]; [|apply D; lia]. destruct (proj2 Sb (length es - 1)%nat ltac:(lia)) as (_ & Sl).
           assert (after (length es) (length es - 1) = 0%nat) as Al by (unfold after; replace (length es - 1 + 1)%nat with (length es) by lia; apply Nat.mod_same; lia).
           rewrite Al in Sl. destruct (link_of es (length es - 1)) as [[keep|? ?|x y]|]; cbn in Lc; try tauto. intros Q. rewrite Q in Sl. cbn in Sl. tauto.
        -- specialize (D i ltac:(lia)). destruct (proj2 Sb i ltac:(lia)) as (_ & Si). destruct (link_of es i) as [[keep|? ?|x y]|]; cbn in D; try tauto. intros Q. rewrite Q in Si. cbn in Si. tauto.
Qed.
Print Assumptions elements_understood.

(** ** The path items *)
Lemma curve_points es eps K theta phi K' i : sensible es -> described es K -> (i < length es)%nat -> segment_result (length es) eps K theta phi K' i -> is_curve (link_of es i) ->
  rtype (K' i) = Explicit /\ ltype (K' (after (length es) i)) = Explicit /\ rx (K' i) <> None /\ ry (K' i) <> None /\ lx (K' (after (length es) i)) <> None /\ ly (K' (after (length es) i)) <> None.
Proof.
  intros Sb De H (F & J & Ex & _) Cu. destruct (De i H) as (_ & _ & R1 & L1). destruct (proj2 Sb i H) as (_ & Si).
  assert (unset (rtype (K i)) \/ rtype (K i) = Explicit /\ rx (K i) <> None /\ ry (K i) <> None /\ lx (K (after (length es) i)) <> None /\ ly (K (after (length es) i)) <> None) as [U|(T & V)].
  { destruct (link_of es i) as [[keep|[x y] [z w]|x y]|]; cbn in Cu; try tauto; cbn [out_side in_side] in R1, L1; injection R1 as R1 R2 R3; injection L1 as L1 L2 L3.
    - right. rewrite R1, R2, R3, L2, L3. repeat split; discriminate.
    - left. rewrite R1. destruct Si as (V1 & _). destruct (rtype (knot_of es i)); cbn in V1; unfold unset; tauto. }
  - destruct (near_spec eps (chord_x (length es) K i) (chord_y (length es) K i)) as [Sh|Sh].
    + destruct (J (conj U Sh)) as (-> & -> & -> & -> & -> & ->). repeat split; discriminate.
    + destruct (F (conj U Sh)) as (-> & -> & v & w & _ & _ & -> & -> & -> & ->). repeat split; discriminate.
  - destruct (Ex T) as (-> & -> & -> & -> & -> & ->). tauto.
Qed.

Lemma item_drawn K l i j : (is_curve l -> rx (K i) <> None /\ ry (K i) <> None /\ lx (K j) <> None /\ ly (K j) <> None) -> exists it, item_to K l i j = Some it /\ drawn K l i j it.
Proof.
  intros H. destruct l as [[keep|p q|x y]|]; cbn [item_to drawn is_curve] in *; eauto.
  1, 2: destruct (H I) as (A & B & C & D); destruct (rx (K i)) as [a|]; [|tauto]; destruct (ry (K i)) as [b|]; [|tauto]; destruct (lx (K j)) as [c|]; [|tauto]; destruct (ly (K j)) as [d|]; [|tauto];
    cbn; eexists; split; [reflexivity|]; exists a, b, c, d; auto.
Qed.

Lemma items_drawn K : forall es l i,
  (forall j, (j < length es)%nat -> let lj := match j with O => l | S j' => link_of es j' end in is_curve lj -> rx (K (i + j - 1)%nat) <> None /\ ry (K (i + j - 1)%nat) <> None /\ lx (K (i + j)%nat) <> None /\ ly (K (i + j)%nat) <> None) ->
  exists its, items K es l i = Some its /\ length its = length es /\
    forall j, (j < length es)%nat -> exists it, nth_error its j = Some it /\ drawn K (match j with O => l | S j' => link_of es j' end) (i + j - 1)%nat (i + j)%nat it.
Proof.
  induction es as [|[k l'] es IH]; intros l i H; [exists []; split; [reflexivity|]; split; [reflexivity|cbn; lia]|].
  cbn [items]. destruct (item_drawn K l (i - 1) i) as (it & -> & Dr).
  { intros C. specialize (H 0%nat ltac:(cbn; lia) C). rewrite Nat.add_0_r in H. exact H. }
  cbn [bind]. destruct (IH l' (S i)) as (its & -> & Le & D).
  { intros j Hj lj C. specialize (H (S j) ltac:(cbn; lia)). cbn zeta in H. replace (i + S j)%nat with (S i + j)%nat in H by lia. apply H. destruct j; exact C. }
  exists (it :: its). split; [reflexivity|]. split; [cbn; lia|]. intros [|j] Hj.
  - exists it. split; [reflexivity|]. rewrite Nat.add_0_r. exact Dr.
  - destruct (D j ltac:(cbn in Hj; lia)) as (it' & E & Dj). exists it'. split; [exact E|]. replace (i + S j)%nat with (S i + j)%nat by lia. destruct j; exact Dj.
Qed.

Lemma last_link es : snd (last es (smoothknot 0 0, None)) = link_of es (length es - 1).
Proof.
  unfold link_of. change (@None link) with (snd (smoothknot 0 0, @None link)) at 2. rewrite map_nth. f_equal. induction es as [|a [|b es] IH]; [reflexivity..|].
  change (last (a :: b :: es) (smoothknot 0 0, None)) with (last (b :: es) (smoothknot 0 0, None)). rewrite IH. cbn [length]. rewrite !Nat.sub_succ, !Nat.sub_0_r. reflexivity.
Qed.

(** The path: knots with the given sides, angles and control points as MetaPost's, and the items go through the knots in
    their order.  If the last element is a curve, the path goes back to the first knot, and it is closed if all links are
    curves. *)
Theorem metapost_path es eps : sensible es -> 0 < eps ->
  let N := length es in
  exists K theta phi, described es K /\
    (forall i, (i < N)%nat -> free N eps K i -> begins N eps K theta phi i /\ ends N eps K theta phi i) /\
    (path_init eps es = None <-> exists i, (i < N)%nat /\ free N eps K i /\ cos (theta i) = -1 /\ cos (phi i) = -1) /\
    forall its, path_init eps es = Some its -> exists K' front tail,
      (forall i, kx (K' i) = kx (K i) /\ ky (K' i) = ky (K i)) /\ (forall i, (i < N)%nat -> segment_result N eps K theta phi K' i) /\
      its = front ++ tail /\ length front = N /\
      nth_error front 0 = Some (Moveto (kx (knot_of es 0), ky (knot_of es 0))) /\
      (forall i, (S i < N)%nat -> exists it, nth_error front (S i) = Some it /\ drawn K' (link_of es i) i (S i) it) /\
      (~ is_curve (link_of es (N - 1)) -> tail = []) /\
      (is_curve (link_of es (N - 1)) -> exists it, drawn K' (link_of es (N - 1)) (N - 1) 0 it /\
         ((forall i, (i < N)%nat -> is_curve (link_of es i)) -> tail = [it; Closepath]) /\
         (~ (forall i, (i < N)%nat -> is_curve (link_of es i)) -> tail = [it])).
Proof.
  intros Sb eps0 N. pose proof (proj1 Sb) as N0. fold N in N0. destruct (elements_understood es Sb) as (K & c & E1 & De & Pr & Cl). fold N in E1, Pr, Cl.
  destruct (choices_are_hobbys N eps K N0 eps0 Pr) as (theta & phi & BE & Fail & Res). exists K, theta, phi. split; [exact De|]. split; [exact BE|].
  unfold path_init. fold N. rewrite E1. cbn [bind]. destruct (make_choices N eps K) as [K'|] eqn:M.
  2: { cbn [bind]. split; [|discriminate]. split; [intros _; apply Fail; reflexivity|reflexivity]. }
  destruct (Res K' eq_refl) as [Pl Sg]. cbn [bind].
  assert (forall i, (i < N)%nat -> is_curve (link_of es i) -> rtype (K' i) = Explicit /\ ltype (K' (after N i)) = Explicit /\ rx (K' i) <> None /\ ry (K' i) <> None /\ lx (K' (after N i)) <> None /\ ly (K' (after N i)) <> None) as Cp.
  { intros i H C. exact (curve_points es eps K theta phi K' i Sb De H (Sg i H) C). }
  assert (forall i, (S i < N)%nat -> after N i = S i) as As by (intros i H; unfold after; rewrite Nat.add_1_r; apply Nat.mod_small; exact H).
  assert (after N (N - 1) = 0%nat) as Al by (unfold after; replace (N - 1 + 1)%nat with N by lia; apply Nat.mod_same; lia).
  destruct (items_drawn K' es None 0) as (front & -> & Le & D).
  { intros j Hj lj C. destruct j as [|j]; [cbn in C; tauto|]. unfold lj in C. fold N in Hj. destruct (Cp j ltac:(lia) C) as (_ & _ & Q). rewrite As in Q by exact Hj. replace (0 + S j - 1)%nat with j by lia. exact Q. }
  cbn [bind]. rewrite last_link. fold N in Le, D |- *.
  assert (exists tail, closing K' (link_of es (N - 1)) (N - 1) c = Some tail /\ (~ is_curve (link_of es (N - 1)) -> tail = []) /\
    (is_curve (link_of es (N - 1)) -> exists it, drawn K' (link_of es (N - 1)) (N - 1) 0 it /\ tail = it :: if c then [Closepath] else [])) as (tail & -> & T1 & T2).
  { destruct (link_of es (N - 1)) as [l|] eqn:El; [destruct l as [keep|p q|x y]|].
    1, 4: destruct (De (N - 1)%nat ltac:(lia)) as (_ & _ & R1 & _); fold N in R1; rewrite El in R1; cbn [out_side] in R1; injection R1 as R1 _ _;
      destruct (Sg (N - 1)%nat ltac:(lia)) as (_ & _ & _ & En); rewrite Al in En.
    - destruct (En R1) as [_ L]. exists []. unfold closing. rewrite L. split; [reflexivity|]. split; [reflexivity|]. cbn; tauto.
    - destruct (proj2 Sb (N - 1)%nat ltac:(lia)) as (_ & Si). rewrite El in Si. destruct Si as [Si _]. rewrite Si in R1. destruct (En R1) as [_ L]. exists []. unfold closing. rewrite L. split; [reflexivity|]. split; [reflexivity|]. cbn; tauto.
    - destruct (Cp (N - 1)%nat ltac:(lia)) as (_ & L & Q); [rewrite El; exact I|]. rewrite Al in L, Q. destruct (item_drawn K' (Some (Controls p q)) (N - 1) 0 (fun _ => Q)) as (it & Ei & Di).
      unfold closing. rewrite L, Ei. change (is Explicit Explicit) with true. cbn iota. cbn [bind]. eexists. split; [reflexivity|]. split; [cbn; tauto|]. intros _. exists it. split; [exact Di|reflexivity].
    - destruct (Cp (N - 1)%nat ltac:(lia)) as (_ & L & Q); [rewrite El; exact I|]. rewrite Al in L, Q. destruct (item_drawn K' (Some (Tension x y)) (N - 1) 0 (fun _ => Q)) as (it & Ei & Di).
      unfold closing. rewrite L, Ei. change (is Explicit Explicit) with true. cbn iota. cbn [bind]. eexists. split; [reflexivity|]. split; [cbn; tauto|]. intros _. exists it. split; [exact Di|reflexivity]. }
  cbn [bind]. split; [split; [discriminate|intros Q; apply Fail in Q; discriminate]|].
  intros its E. injection E as <-. exists K', front, tail. split; [exact Pl|]. split; [exact Sg|]. split; [reflexivity|]. split; [exact Le|]. split; [|split; [|split; [exact T1|]]].
  - destruct (D 0%nat ltac:(lia)) as (it & E0 & D0). rewrite E0. cbn in D0. rewrite D0. destruct (Pl 0%nat) as [-> ->]. destruct (De 0%nat ltac:(lia)) as (-> & -> & _). reflexivity.
  - intros i H. destruct (D (S i) H) as (it & E0 & D0). exists it. split; [exact E0|]. replace (0 + S i - 1)%nat with i in D0 by lia. exact D0.
  - intros C. destruct (T2 C) as (it & Di & ->). exists it. split; [exact Di|]. specialize (Cl C). destruct c.
    + split; [reflexivity|]. intros Q. destruct Q. apply Cl. reflexivity.
    + split; [|reflexivity]. intros Q. apply Cl in Q. discriminate.
Qed.
Print Assumptions metapost_path.

(** ** Examples *)
Definition curve : link := tensioncurve 1 false None None.
Lemma curve_is : curve = Tension 1 1.
Proof. unfold curve, tensioncurve. rewrite Rabs_pos_eq, Rmax_right by lra. reflexivity. Qed.

(** a triangle of smooth knots and curves *)
Definition triangle : elements := [(smoothknot 0 0, Some curve); (smoothknot 1 0, Some curve); (smoothknot 0 1, Some curve)].
Example triangle_sensible : sensible triangle /\ forall i, (i < length triangle)%nat -> is_curve (link_of triangle i).
Proof.
  unfold triangle. rewrite curve_is. split; [split; [cbn; lia|]|].
  - intros i H. cbn in H. assert (3 / 4 <= Rabs 1) as T by (rewrite Rabs_pos_eq; lra). destruct i as [|[|[|]]]; [| | |lia]; (split; [split; reflexivity|exact (conj I (conj I (conj T T)))]).
  - intros i H. cbn in H. destruct i as [|[|[|]]]; [| | |lia]; exact I.
Qed.

Lemma same_curve m a b c d a' b' c' d' z : a = a' -> b = b' -> c = c' -> d = d' -> Some [m; Curveto (a, b) (c, d) z] = Some [m; Curveto (a', b') (c', d') z].
Proof. congruence. Qed.

(** the arch again *)
Definition arch_path : elements := [(beginknot 0 0 1 (Some (PI / 2)), Some curve); (endknot 1 0 1 (Some (- (PI / 2))), None)].
Example arch_drawn : path_init (1 / 100) arch_path = Some [Moveto (0, 0); Curveto (0, 2 / 3) (1, 2 / 3) (1, 0)].
Proof.
  assert (sensible arch_path) as Sb.
  { unfold arch_path. rewrite curve_is. split; [cbn; lia|]. intros i H. cbn in H. destruct i as [|[|]]; [| |lia].
    - split; [split; discriminate|]. assert (3 / 4 <= Rabs 1) as T by (rewrite Rabs_pos_eq; lra). exact (conj (ex_intro _ _ eq_refl) (conj (ex_intro _ _ eq_refl) (conj T T))).
    - split; [split; discriminate|]. split; reflexivity. }
  destruct (metapost_path arch_path (1 / 100) Sb ltac:(lra)) as (K & theta & phi & De & BE & Fail & Res).
  destruct (De 0%nat ltac:(cbn; lia)) as (X0 & Y0 & R0 & L1). destruct (De 1%nat ltac:(cbn; lia)) as (X1 & Y1 & R1 & L0).
  change (length arch_path) with 2%nat in *. change (after 2 0) with 1%nat in *. change (after 2 1) with 0%nat in *.
  unfold arch_path, link_of, knot_of in R0, L1, R1, X0, Y0, X1, Y1. rewrite curve_is in R0, L1, R1. cbn in X0, Y0, X1, Y1, R0, L1, R1. injection R0 as R0 R0x R0y. injection L1 as L1 L1x L1y. injection R1 as R1 _ _.
  assert (chord_x 2 K 0 = 1) as Cx by (unfold chord_x; change (after 2 0) with 1%nat; rewrite X0, X1; lra).
  assert (chord_y 2 K 0 = 0) as Cy by (unfold chord_y; change (after 2 0) with 1%nat; rewrite Y0, Y1; lra).
  assert (chord 2 K 0 = 1) as C by (unfold chord; rewrite Cx, Cy; replace (1 ^ 2 + 0 ^ 2) with 1 by ring; apply sqrt_1).
  assert (free 2 (1 / 100) K 0) as F by (split; [left; exact R0|]; unfold short; rewrite Cx, Cy; lra).
  destruct (BE 0%nat ltac:(lia) F) as [B E]. unfold begins in B. rewrite R0 in B. specialize (B _ R0x). unfold ends in E. change (after 2 0) with 1%nat in E. rewrite L1 in E. specialize (E _ L1x).
  unfold leaves in B. unfold arrives in E. rewrite Cx, Cy, C in B, E. injection B as B1 B2. injection E as E1 E2. rewrite cos_PI2 in B1. rewrite sin_PI2 in B2. rewrite cos_neg, cos_PI2 in E1. rewrite sin_neg, sin_PI2 in E2.
  assert (cos (theta 0%nat) = 0) as C1 by lra. assert (sin (theta 0%nat) = 1) as S1 by lra. assert (cos (phi 0%nat) = 0) as C2 by lra. assert (sin (phi 0%nat) = 1) as S2 by lra.
  destruct (path_init (1 / 100) arch_path) as [its|] eqn:P.
  - destruct (Res its eq_refl) as (K' & front & tail & Pl & Sg & -> & Le & F0 & Dr & T1 & _).
    destruct (Sg 0%nat ltac:(lia)) as (Ch & _). destruct (Ch F) as (_ & _ & v & w & V & W & Z1 & Z2 & Z3 & Z4). change (after 2 0) with 1%nat in *.
    assert (tension_out K 0 = 1) as To by (unfold tension_out; rewrite R0y; reflexivity). assert (tension_in 2 K 0 = 1) as Ti by (unfold tension_in; change (after 2 0) with 1%nat; rewrite L1y; reflexivity).
    rewrite To in V. rewrite Ti in W.
    assert (forall t1 t2 u, cos t1 = 0 -> sin t1 = 1 -> cos t2 = 0 -> sin t2 = 1 -> has_speed 1 t1 t2 u -> u = 2 / 3) as Sp.
    { intros t1 t2 u A1 A2 A3 A4 [(Q & _)|(_ & ->)]; [lra|]. unfold speed, hobby. rewrite A1, A2, A3, A4, Rabs_pos_eq by lra.
      replace (_ / 1) with (2 / 3) by field. apply Rmin_right. lra. }
    rewrite (Sp _ _ _ C1 S1 C2 S2 V) in Z1, Z2. rewrite (Sp _ _ _ C2 S2 C1 S1 W) in Z3, Z4. rewrite X0, Cx, Cy, C1, S1 in Z1. rewrite Y0, Cx, Cy, C1, S1 in Z2. rewrite X1, Cx, Cy, C2, S2 in Z3. rewrite Y1, Cx, Cy, C2, S2 in Z4.
    rewrite T1 by (cbn; tauto). destruct (Dr 0%nat ltac:(lia)) as (it & Ei & Di).
    destruct front as [|a [|b [|]]]; try discriminate. cbn in F0, Ei. injection F0 as ->. injection Ei as ->.
    change (link_of arch_path 0) with (Some curve) in Di. rewrite curve_is in Di. destruct Di as (p & q & r & s & Q1 & Q2 & Q3 & Q4 & ->).
    rewrite Z1 in Q1. rewrite Z2 in Q2. rewrite Z3 in Q3. rewrite Z4 in Q4. injection Q1 as <-. injection Q2 as <-. injection Q3 as <-. injection Q4 as <-.
    destruct (Pl 1%nat) as [-> ->]. rewrite X1, Y1. cbn [app]. apply same_curve; lra.
  - exfalso. destruct (proj1 Fail eq_refl) as (i & H & [U _] & Q1 & Q2). destruct i as [|[|]]; [| |lia].
    + lra.
    + rewrite R1 in U. unfold unset in U. intuition discriminate.
Qed.

(** ** What is not as the manual says *)
Lemma near_false x y : 1 / 10000 <= x ^ 2 + y ^ 2 -> near (1 / 100) x y = false.
Proof. intros H. unfold near, below. destruct (Rlt_dec _ _); [lra|reflexivity]. Qed.

(** A closing line is not drawn: knots[0].ltype is mp_endpoint then (l.349), not mp_explicit. *)
Definition lines : elements := [(roughknot 0 0 1 None None None, Some (Straight false)); (roughknot 1 0 1 None None None, Some (Straight false)); (roughknot 0 1 1 None None None, Some (Straight false))].
Theorem closing_line_refuted : path_init (1 / 100) lines = Some [Moveto (0, 0); Lineto (1, 0); Lineto (0, 1)].
Proof. cbv -[IZR Rplus Rminus Rmult Rdiv Rlt_dec pow]. reflexivity. Qed.
Print Assumptions closing_line_refuted.

Lemma joins_id N eps K : (forall i, (i < N)%nat -> (1 <? number (rtype (K i)))%nat && near eps (kx (K i) - kx (K (after N i))) (ky (K i) - ky (K (after N i))) = false) -> joins N eps K = K.
Proof.
  intros H. unfold joins. assert (forall l, (forall i, In i l -> (i < N)%nat) -> fold_left (fun K p => join N eps p K) l K = K) as G.
  { induction l as [|i l IH]; intros L; [reflexivity|]. cbn [fold_left]. rewrite join_none by (apply H, L; left; reflexivity). apply IH. intros j Hj. apply L. right. exact Hj. }
  apply G. intros i Hi. apply in_seq in Hi. lia.
Qed.
(** A smooth knot between a curve and a line does not become a knot with curl 1, but q.rx_pt - q.x_pt is evaluated with
    rx_pt = None (mp_path.py l.134). *)
Definition curve_line : elements := [(beginknot 0 0 1 None, Some (Tension 1 1)); (smoothknot 1 0, Some (Straight false)); (endknot 2 1 1 None, None)].
Theorem smooth_before_line_refuted : path_init (1 / 100) curve_line = None.
Proof.
  unfold path_init. assert (exists K c, set_all (length curve_line) curve_line 0 (heap_of curve_line) true = Some (K, c) /\
    K 0%nat = mkknot 0 0 Endpoint None None Curl (Some 1) (Some 1) /\ K 1%nat = mkknot 1 0 Open None (Some 1) Endpoint None None /\ K 2%nat = mkknot 2 1 Endpoint None None Endpoint None None) as (K & c & -> & K0 & K1 & K2).
  { do 2 eexists. split; [cbn; reflexivity|]. split; [|split]; reflexivity. }
  cbn [bind length curve_line]. unfold make_choices. rewrite joins_id.
  2: { intros i H. destruct i as [|[|[|]]]; [| | |lia]; change (after 3 0) with 1%nat; change (after 3 1) with 2%nat; change (after 3 2) with 0%nat; rewrite ?K0, ?K1, ?K2; [|reflexivity..]. cbn [kx ky]. rewrite near_false by lra. apply andb_false_r. }
  unfold find_break. assert (find (fun i => negb (smooth (K i))) (seq 0 3) = Some 0%nat) as -> by (cbn [seq find]; unfold smooth; rewrite K0; reflexivity).
  rewrite runs_S. assert (body 3 (1 / 100) 0 K = None) as ->; [|reflexivity].
  unfold body. assert ((2 <=? number (rtype (K 0)))%nat = true) as -> by (rewrite K0; reflexivity).
  assert (steps 3 3 K 0 1 = Some 1%nat) as -> by (cbn [steps]; change (along 3 0 1) with 1%nat; unfold smooth; rewrite K1; reflexivity). cbn [bind].
  unfold psis, closed, node. change (along 3 0 1) with 1%nat. rewrite K1. cbn [ltype]. change (is Open EndCycle) with false. cbn iota. cbn [Nat.sub seq map sequence bind].
  unfold open_left. rewrite K1. reflexivity.
Qed.
Print Assumptions smooth_before_line_refuted.

(** A smooth knot between a line and a curve does not become a knot with curl 1 either: the curve leaves it toward the next
    knot, whatever the direction is there.  With curl 1 both angles to the chord are the same. *)
Definition line_curve : elements := [(beginknot 0 0 1 None, Some (Straight false)); (smoothknot 1 0, Some (Tension 1 1)); (endknot 2 0 1 (Some (PI / 2)), None)].
Theorem smooth_behind_line_refuted : exists a b c, 1 < a /\ path_init (1 / 100) line_curve = Some [Moveto (0, 0); Lineto (1, 0); Curveto (a, 0) (b, c) (2, 0)].
Proof.
  unfold path_init. assert (exists K c, set_all (length line_curve) line_curve 0 (heap_of line_curve) true = Some (K, c) /\
    K 0%nat = mkknot 0 0 Endpoint None None Endpoint None None /\ K 1%nat = mkknot 1 0 Endpoint None None Open None (Some 1) /\ K 2%nat = mkknot 2 0 Given (Some (PI / 2)) (Some 1) Endpoint None None) as (K & c & -> & K0 & K1 & K2).
  { do 2 eexists. split; [cbn; reflexivity|]. split; [|split]; reflexivity. }
  cbn [bind length line_curve]. unfold make_choices. rewrite joins_id.
  2: { intros i H. destruct i as [|[|[|]]]; [| | |lia]; change (after 3 0) with 1%nat; change (after 3 1) with 2%nat; change (after 3 2) with 0%nat; rewrite ?K0, ?K1, ?K2; [reflexivity| |reflexivity]. cbn [kx ky]. rewrite near_false by lra. apply andb_false_r. }
  unfold find_break. assert (find (fun i => negb (smooth (K i))) (seq 0 3) = Some 0%nat) as -> by (cbn [seq find]; unfold smooth; rewrite K0; reflexivity).
  rewrite runs_S. unfold body at 1. assert ((2 <=? number (rtype (K 0)))%nat = false) as -> by (rewrite K0; reflexivity). assert (is (rtype (K 0%nat)) Endpoint = true) as -> by (rewrite K0; reflexivity).
  cbn zeta. set (A := upd (next 3 0) _ _). cbn [bind]. change (3 <=? 1)%nat with false. cbn iota. change (along 3 0 1) with 1%nat. change (3 - 1)%nat with 2%nat.
  assert (A 0%nat = mkknot 0 0 Endpoint None None Endpoint (Some 0) (Some 0)) as A0 by (unfold A, upd; cbn; rewrite K0; reflexivity).
  assert (A 1%nat = mkknot 1 0 Endpoint (Some 1) (Some 0) Open None (Some 1)) as A1 by (unfold A, upd; cbn; rewrite K1; reflexivity).
  assert (A 2%nat = mkknot 2 0 Given (Some (PI / 2)) (Some 1) Endpoint None None) as A2 by (unfold A, upd; cbn; rewrite K2; reflexivity).
  clearbody A. clear K K0 K1 K2.
  rewrite runs_S. unfold body at 1. assert ((2 <=? number (rtype (A 1)))%nat = true) as -> by (rewrite A1; reflexivity).
  assert (steps 3 3 A 1 1 = Some 1%nat) as -> by (cbn [steps]; change (along 3 1 1) with 2%nat; unfold smooth; rewrite A2; reflexivity). cbn [bind].
  unfold psis, closed, node. change (along 3 1 1) with 2%nat. rewrite A2. cbn [ltype]. change (is Given EndCycle) with false. cbn iota. cbn [Nat.sub seq map sequence bind app].
  unfold open_left. rewrite A2. change (is (ltype _) Open) with false. cbn iota. cbn [bind]. unfold open_right. rewrite A1. change (is (rtype _) Open && _) with false. cbn iota. cbn [bind].
  unfold solve_choices, node. change (along 3 1 1) with 2%nat. change (along 3 1 0) with 1%nat. rewrite A1, A2. change (is (rtype _) Given && _) with false. change (is (rtype _) Curl && _) with false. cbn iota.
  unfold thetas, first_entry, node. change (along 3 1 0) with 1%nat. change (along 3 1 1) with 2%nat. rewrite A1. cbn [rtype bind Nat.sub entries last]. rewrite A2. cbn [ltype lx bind backward hd].
  assert (dx 3 A 1 0 = 1) as Dx by (unfold dx, node; change (along 3 1 0) with 1%nat; change (along 3 1 1) with 2%nat; rewrite A1, A2; cbn; lra).
  assert (dy 3 A 1 0 = 0) as Dy by (unfold dy, node; change (along 3 1 0) with 1%nat; change (along 3 1 1) with 2%nat; rewrite A1, A2; cbn; lra).
  rewrite Dx, Dy. assert (n_arg 1 0 = 0) as Na.
  { unfold n_arg, atan2. destruct (Rlt_dec 0 1); [|lra]. replace (0 / 1) with 0 by field. apply atan_0. }
  rewrite Na, Rminus_0_r. assert (reduce_angle (PI / 2) = PI / 2) as Ra.
  { unfold reduce_angle, below. rewrite Rabs_pos_eq by (pose proof PI_RGT_0; lra). destruct (Rlt_dec PI (PI / 2)); [pose proof PI_RGT_0; lra|reflexivity]. }
  rewrite Ra. cbn [seq all_controls nth]. change (along 3 1 0) with 1%nat. change (along 3 1 1) with 2%nat. rewrite Dx, Dy.
  replace (0 - PI / 2 * 0) with 0 by ring. set (phi := - 0 - PI / 2). unfold set_controls. rewrite A1, A2. cbn [ly ry bind].
  assert (cos phi = 0) as Cp by (unfold phi; replace (- 0 - PI / 2) with (- (PI / 2)) by ring; rewrite cos_neg; apply cos_PI2).
  assert (~ flat 0 phi) as Nf by (intros [_ Q]; rewrite Cp in Q; lra).
  assert (3 / 4 <= Rabs 1) as T by (rewrite Rabs_pos_eq; lra).
  destruct (velocities_ok 1 1 0 phi T T Nf) as (v & w & -> & V & _). cbn [bind]. destruct (has_speed_range _ _ _ _ T Nf V) as (_ & V1). specialize (V1 Rlt_0_1).
  set (B := upd 2 _ _). assert (B 0%nat = A 0%nat) as B0 by reflexivity. assert (B 1%nat = set_right Explicit (Some (1 + (1 * cos 0 - 0 * sin 0) * v)) (Some (0 + (0 * cos 0 + 1 * sin 0) * v)) (A 1%nat)) as B1 by (unfold B, upd; cbn; rewrite A1; reflexivity).
  assert (B 2%nat = set_left Explicit (Some (2 - (1 * cos phi + 0 * sin phi) * w)) (Some (0 - (0 * cos phi - 1 * sin phi) * w)) (A 2%nat)) as B2 by (unfold B, upd; cbn; rewrite A2; reflexivity).
  clearbody B. rewrite A0 in B0. rewrite A1, cos_0, sin_0 in B1. rewrite A2 in B2. cbn in B1, B2. clear A A0 A1 A2 Dx Dy.
  change (2 <=? 1)%nat with false. cbn iota. change (along 3 1 1) with 2%nat. rewrite runs_S. unfold body at 1. assert ((2 <=? number (rtype (B 2)))%nat = false) as -> by (rewrite B2; reflexivity). assert (is (rtype (B 2%nat)) Endpoint = true) as -> by (rewrite B2; reflexivity).
  cbn zeta. set (C := upd (next 3 2) _ _). assert (kx (C 0%nat) = 0 /\ ky (C 0%nat) = 0 /\ ltype (C 0%nat) = Endpoint) as (C0 & C0' & Cl) by (unfold C, upd; cbn; rewrite B0; repeat split).
  assert (C 1%nat = B 1%nat) as C1 by reflexivity. assert (kx (C 2%nat) = kx (B 2%nat) /\ ky (C 2%nat) = ky (B 2%nat) /\ lx (C 2%nat) = lx (B 2%nat) /\ ly (C 2%nat) = ly (B 2%nat)) as (C2 & C3 & C4 & C5) by (unfold C, upd; cbn; repeat split).
  clearbody C. cbn [bind Nat.leb Nat.sub]. unfold line_curve. cbn [items item_to Nat.sub bind]. rewrite C1, C2, C3, C4, C5, B1, B2, C0, C0'. cbn [kx ky lx ly rx ry point2 bind set_left set_right].
  cbn [last snd]. unfold closing. rewrite Cl. change (is Endpoint Explicit) with false. cbn iota. cbn [bind app].
  eexists (1 + (1 * 1 - 0 * 0) * v), _, _. split; [lra|]. replace (0 + (0 * 1 + 1 * 0) * v) with 0 by ring. reflexivity.
Qed.
Print Assumptions smooth_behind_line_refuted.

(** A line with keepangles behind a curve with control points replaces the x coordinate of the second control point by the
    angle of the line (path.py l.226). *)
Definition controls_line : elements :=
  [(roughknot 0 0 1 None None None, Some (Controls (1, 2) (3, 4))); (smoothknot 5 0, Some (Straight true));
   (roughknot 6 0 1 None None None, Some (Controls (7, 8) (9, 10)))].
Theorem controls_before_line_refuted : path_init (1 / 100) controls_line = Some [Moveto (0, 0); Curveto (1, 2) (0, 4) (5, 0); Lineto (6, 0); Curveto (7, 8) (9, 10) (0, 0)].
Proof.
  assert (atan2 (0 - 0) (6 - 5) = 0) as A.
  { unfold atan2. destruct (Rlt_dec 0 (6 - 5)); [|lra]. replace ((0 - 0) / (6 - 5)) with 0 by field. apply atan_0. }
  cbv -[IZR Rplus Rminus Rmult Rdiv Rlt_dec pow near sqrt Req_EM_T atan2]. rewrite A. reflexivity.
Qed.
Print Assumptions controls_before_line_refuted.

(** A line with keepangles to the last knot of an open path gives this knot an angle behind it.  Then mp_solve_choices does
    not find an end: its loop goes on and on around the knots (l.182-319).  In the model this is an error. *)
Definition last_line : elements := [(beginknot 0 0 1 None, Some (Controls (1, 2) (3, 4))); (roughknot 5 0 1 None None None, Some (Straight true)); (endknot 6 0 1 None, None)].
Theorem keepangles_at_end_refuted : path_init (1 / 100) last_line = None.
Proof.
  unfold path_init. assert (exists K c a, set_all (length last_line) last_line 0 (heap_of last_line) true = Some (K, c) /\
    K 0%nat = mkknot 0 0 Endpoint None None Explicit (Some 1) (Some 2) /\ K 1%nat = mkknot 5 0 Given (Some a) (Some 4) Endpoint None None /\ K 2%nat = mkknot 6 0 Endpoint None None Given (Some a) None) as (K & c & a & -> & K0 & K1 & K2).
  { do 3 eexists. split; [cbn; reflexivity|]. split; [|split]; reflexivity. }
  cbn [bind length last_line]. unfold make_choices. rewrite joins_id.
  2: { intros i H. destruct i as [|[|[|]]]; [| | |lia]; change (after 3 0) with 1%nat; change (after 3 1) with 2%nat; change (after 3 2) with 0%nat; rewrite ?K0, ?K1, ?K2; [reflexivity..|]. cbn [kx ky]. rewrite near_false by lra. apply andb_false_r. }
  unfold find_break. assert (find (fun i => negb (smooth (K i))) (seq 0 3) = Some 0%nat) as -> by (cbn [seq find]; unfold smooth; rewrite K0; reflexivity).
  rewrite runs_S. assert (body 3 (1 / 100) 0 K = Some (K, 1%nat)) as -> by (unfold body; rewrite K0; reflexivity). cbn [bind]. change (3 <=? 1)%nat with false. cbn iota. change (along 3 0 1) with 1%nat.
  rewrite runs_S. unfold body at 1. assert ((2 <=? number (rtype (K 1)))%nat = false) as -> by (rewrite K1; reflexivity). assert (is (rtype (K 1%nat)) Endpoint = true) as -> by (rewrite K1; reflexivity).
  cbn zeta. set (A := upd (next 3 1) _ _). cbn [bind]. change (3 - 1 <=? 1)%nat with false. cbn iota. change (along 3 1 1) with 2%nat.
  assert (ltype (A 0%nat) = Endpoint) as A0 by (unfold A, upd; cbn; rewrite K0; reflexivity).
  assert (A 2%nat = mkknot 6 0 Endpoint (Some 6) (Some 0) Given (Some a) None) as A2 by (unfold A, upd; cbn; rewrite K2; reflexivity).
  clearbody A. rewrite runs_S. assert (body 3 (1 / 100) 2 A = None) as ->; [|reflexivity].
  unfold body. assert ((2 <=? number (rtype (A 2)))%nat = true) as -> by (rewrite A2; reflexivity).
  assert (steps 3 3 A 2 1 = Some 1%nat) as -> by (cbn [steps]; change (along 3 2 1) with 0%nat; unfold smooth; rewrite A0; reflexivity). cbn [bind].
  unfold psis, closed, node. change (along 3 2 1) with 0%nat. rewrite A0. change (is Endpoint EndCycle) with false. cbn iota. cbn [Nat.sub seq map sequence bind].
  unfold open_left. rewrite A0. change (is Endpoint Open) with false. cbn iota. cbn [bind]. unfold open_right. rewrite A2. change (is (rtype _) Open && _) with false. cbn iota. cbn [bind].
  unfold solve_choices, node. change (along 3 2 0) with 2%nat. change (along 3 2 1) with 0%nat. rewrite A0, A2. change (is (rtype _) Given && _) with false. change (is (rtype _) Curl && _) with false. cbn iota.
  unfold thetas, first_entry, node. change (along 3 2 0) with 2%nat. change (along 3 2 1) with 0%nat. rewrite A2. cbn [rtype rx bind Nat.sub entries last]. rewrite A0. reflexivity.
Qed.
Print Assumptions keepangles_at_end_refuted.
