From Coq Require Import String Ascii ZArith QArith Qpower Qabs Bool List Lia ZifyBool Sorted.
From Verif Require Import TickModel TickSpec TickProofs.
Import ListNotations.
Open Scope Z_scope.

(** ** comparison *)
Lemma fracQ_pos n p : (fracQ n (Zpos p) == n # p)%Q.
Proof. unfold fracQ. rewrite Qmake_Qdiv. reflexivity. Qed.

Definition valQ (r : rational) : Q := fracQ (num r) (denom r).

Lemma lt_pos a b : 0 < denom a -> 0 < denom b -> (lt a b = true <-> (valQ a < valQ b)%Q).
Proof.
  unfold valQ, lt. destruct a as [n1 d1], b as [n2 d2]. cbn [num denom]. intros H1 H2.
  destruct d1 as [|p1|p1]; try lia. destruct d2 as [|p2|p2]; try lia.
  rewrite !fracQ_pos. unfold Qlt. cbn [Qnum Qden]. lia.
Qed.

Lemma eq_nz a b : denom a <> 0 -> denom b <> 0 -> (eq a b = true <-> (valQ a == valQ b)%Q).
Proof.
  unfold valQ, eq. destruct a as [n1 d1], b as [n2 d2]. cbn [num denom]. intros H1 H2.
  rewrite Z.eqb_eq. unfold fracQ.
  apply inject_nz in H1 as Q1. apply inject_nz in H2 as Q2. split; intros H.
  - assert (inject_Z n1 * inject_Z d2 == inject_Z n2 * inject_Z d1)%Q as E.
    { rewrite <- !inject_Z_mult. now rewrite H. }
    setoid_replace (inject_Z n1 / inject_Z d1)%Q with ((inject_Z n1 * inject_Z d2) / (inject_Z d1 * inject_Z d2))%Q
      by (field; auto).
    rewrite E. field; auto.
  - assert (inject_Z n1 * inject_Z d2 == inject_Z n2 * inject_Z d1)%Q as E.
    { setoid_replace (inject_Z n1 * inject_Z d2)%Q with (inject_Z n1 / inject_Z d1 * (inject_Z d1 * inject_Z d2))%Q
        by (field; auto). rewrite H. field; auto. }
    rewrite <- !inject_Z_mult in E. exact (proj1 (inject_Z_injective _ _) E).
Qed.

Lemma lt_eq_cases a b : 0 < denom a -> 0 < denom b ->
  lt a b = false -> eq a b = false -> (valQ b < valQ a)%Q.
Proof.
  intros Ha Hb H1 H2. destruct (Qlt_le_dec (valQ b) (valQ a)) as [|L]; auto. exfalso.
  destruct (Qle_lt_or_eq _ _ L) as [L'|E].
  - apply lt_pos in L'; auto. congruence.
  - apply eq_nz in E; try lia. congruence.
Qed.

(** ** powers *)
Lemma finish_power r p q : denom r <> 0 -> finish r p = Some q -> p <> 0 ->
  (0 < p \/ num r <> 0) -> denom q <> 0 /\ (valQ q == Qpower (valQ r) p)%Q.
Proof.
  unfold finish, valQ. intros Hd. replace (denom r =? 0) with false by lia. intros H Hp Hn.
  apply inject_nz in Hd as Qd.
  assert (forall n, 0 <= n -> (Qpower (fracQ (num r) (denom r)) n == fracQ (num r ^ n) (denom r ^ n))%Q) as Pw.
  { intros n Hn0. unfold fracQ, Qdiv. rewrite Qmult_power, Qinv_power, <- !Zpower_Qpower by auto. reflexivity. }
  destruct (Z.eqb_spec p (-1)) as [->|N1].
  - injection H as <-. cbn [num denom]. destruct Hn as [|Hn]; [lia|]. split; auto.
    apply inject_nz in Hn. unfold fracQ. simpl Qpower. cbn. field. auto.
  - destruct (Z.ltb_spec p (-1)).
    + injection H as <-. cbn [num denom]. destruct Hn as [|Hn]; [lia|]. split; [apply Z.pow_nonzero; lia|].
      rewrite <- (Z.opp_involutive p) at 3. rewrite Qpower_opp, Pw by lia. unfold fracQ.
      assert (num r ^ (- p) <> 0) as A by (apply Z.pow_nonzero; lia).
      assert (denom r ^ (- p) <> 0) as B by (apply Z.pow_nonzero; lia).
      apply inject_nz in A. apply inject_nz in B. field. auto.
    + destruct (Z.ltb_spec 1 p).
      * injection H as <-. cbn [num denom]. split; [apply Z.pow_nonzero; lia|]. now rewrite Pw by lia.
      * injection H as <-. assert (p = 1) as -> by lia. split; auto. reflexivity.
Qed.

(** ** merging levels *)
Lemma merge_level_sym_min a b : merge_level a b = match a, b with
  | None, x => x | x, None => x | Some x, Some y => Some (Z.min x y) end.
Proof.
  unfold merge_level. destruct a as [x|], b as [y|]; auto. destruct (Z.ltb_spec y x); f_equal; lia.
Qed.

(** ** merging lists *)
Section Merge.
  Variable me : bool.
  Implicit Types (st : store) (l : list nat).

  Definition vpos st r : Q := valQ (pos (st r)).
  Definition posden st l := Forall (fun r => 0 < denom (pos (st r))) l.

  Lemma upd_pos st x t : pos t = pos (st x) -> forall r, pos (upd st x t r) = pos (st r).
  Proof. intros H r. unfold upd. destruct (Nat.eqb_spec r x); subst; auto. Qed.

  Definition merged_store st x y := if me then upd st x (tmerge (st x) (st y)) else st.

  Lemma merged_pos st x y r : pos (merged_store st x y r) = pos (st r).
  Proof. unfold merged_store. destruct me; auto. now apply upd_pos. Qed.

  (** induction principle following the loop *)
  Lemma merge_ind (P : list nat -> store -> list nat -> store -> list nat -> Prop) :
    (forall st r2, P [] st r2 st r2) ->
    (forall st x r1, P (x :: r1) st [] st (x :: r1)) ->
    (forall st x r1 y r2 st' m, lt (pos (st y)) (pos (st x)) = true -> P (x :: r1) st r2 st' m ->
       P (x :: r1) st (y :: r2) st' (y :: m)) ->
    (forall st x r1 y r2 st' m, lt (pos (st y)) (pos (st x)) = false -> eq (pos (st y)) (pos (st x)) = true ->
       P r1 (merged_store st x y) r2 st' m -> P (x :: r1) st (y :: r2) st' (x :: m)) ->
    (forall st x r1 y r2 st' m, lt (pos (st y)) (pos (st x)) = false -> eq (pos (st y)) (pos (st x)) = false ->
       P r1 st (y :: r2) st' m -> P (x :: r1) st (y :: r2) st' (x :: m)) ->
    forall rest1 st pre rest2, exists st' m, merge_loop me rest1 st pre rest2 = (st', pre ++ m) /\ P rest1 st rest2 st' m.
  Proof.
    intros H1 H2 H3 H4 H5. induction rest1 as [|x rest1 IH]; intros st pre rest2.
    - exists st, rest2. split; auto.
    - revert pre. induction rest2 as [|y rest2 IH2]; intros pre.
      + exists st, (x :: rest1). split; auto.
      + cbn [merge_loop]. destruct (lt (pos (st y)) (pos (st x))) eqn:L.
        * destruct (IH2 (pre ++ [y])) as (st' & m & E & HP). exists st', (y :: m). split; auto.
          cbn [merge_loop] in E. rewrite E. f_equal. now rewrite <- app_assoc.
        * destruct (eq (pos (st y)) (pos (st x))) eqn:Q.
          -- fold (merged_store st x y). destruct (IH (merged_store st x y) (pre ++ [x]) rest2) as (st' & m & E & HP).
             exists st', (x :: m). split; auto. rewrite E. f_equal. now rewrite <- app_assoc.
          -- destruct (IH st (pre ++ [x]) (y :: rest2)) as (st' & m & E & HP). exists st', (x :: m). split; auto.
             rewrite E. f_equal. now rewrite <- app_assoc.
  Qed.

  Lemma merge_spec st l1 l2 (P : list nat -> store -> list nat -> store -> list nat -> Prop) :
    (forall rest1 st pre rest2, exists st' m, merge_loop me rest1 st pre rest2 = (st', pre ++ m) /\ P rest1 st rest2 st' m) ->
    P l1 st l2 (fst (mergeticklists me st l1 l2)) (snd (mergeticklists me st l1 l2)).
  Proof.
    intros H. unfold mergeticklists. destruct (H l1 st [] l2) as (st' & m & E & HP). rewrite E. exact HP.
  Qed.

  Lemma merge_positions_unchanged st l1 l2 r :
    pos (fst (mergeticklists me st l1 l2) r) = pos (st r).
  Proof.
    revert r. apply (merge_spec st l1 l2 (fun _ st _ st' _ => forall r, pos (st' r) = pos (st r))).
    apply merge_ind; auto. intros. rewrite H1. apply merged_pos.
  Qed.

  Lemma merge_members st l1 l2 :
    posden st l1 -> posden st l2 ->
    (forall r, In r (snd (mergeticklists me st l1 l2)) -> In r l1 \/ In r l2) /\
    (forall r, In r l1 -> In r (snd (mergeticklists me st l1 l2))) /\
    (forall r, In r l2 -> In r (snd (mergeticklists me st l1 l2)) \/ exists x, In x l1 /\ (vpos st x == vpos st r)%Q).
  Proof.
    apply (merge_spec st l1 l2 (fun l1 st l2 st' m => posden st l1 -> posden st l2 ->
      (forall r, In r m -> In r l1 \/ In r l2) /\ (forall r, In r l1 -> In r m) /\
      (forall r, In r l2 -> In r m \/ exists x, In x l1 /\ (vpos st x == vpos st r)%Q))).
    apply merge_ind; clear st l1 l2.
    - intros st r2 _ _. simpl. tauto.
    - intros st x r1 _ _. simpl. tauto.
    - intros st x r1 y r2 st' m L IH D1 D2. inversion D2; subst. destruct IH as (A & B & C); auto.
      split; [|split].
      + intros r [<-|Hr]; [right; now left|]. destruct (A r Hr); auto. right. now right.
      + intros r Hr. right. auto.
      + intros r [<-|Hr]; [left; now left|]. destruct (C r Hr) as [|C']; [left; now right|auto].
    - intros st x r1 y r2 st' m L E IH D1 D2. inversion D1; subst. inversion D2; subst.
      assert (posden (merged_store st x y) r1) as D1'.
      { eapply Forall_impl; [|eassumption]. simpl. intros. now rewrite merged_pos. }
      assert (posden (merged_store st x y) r2) as D2'.
      { eapply Forall_impl; [|eassumption]. simpl. intros. now rewrite merged_pos. }
      destruct (IH D1' D2') as (A & B & C). split; [|split].
      + intros r [<-|Hr]; [left; now left|]. destruct (A r Hr); simpl; auto.
      + intros r [<-|Hr]; simpl; auto.
      + intros r [<-|Hr].
        * right. exists x. split; [now left|]. apply eq_nz in E; try lia. unfold vpos. now rewrite E.
        * destruct (C r Hr) as [|(x' & Hx' & Ex')]; [left; now right|]. right. exists x'. split; [now right|].
          unfold vpos in *. now rewrite !merged_pos in Ex'.
    - intros st x r1 y r2 st' m L E IH D1 D2. inversion D1; subst. destruct IH as (A & B & C); auto.
      split; [|split].
      + intros r [<-|Hr]; [left; now left|]. destruct (A r Hr); auto. left. now right.
      + intros r [<-|Hr]; simpl; auto.
      + intros r Hr. destruct (C r Hr) as [|(x' & Hx' & Ex')]; [left; now right|]. right. exists x'. split; auto. now right.
  Qed.

  (** sortedness, strict or not *)
  Definition ord (strict : bool) (p q : Q) : Prop := if strict then (p < q)%Q else (p <= q)%Q.
  Definition sorted strict st l := StronglySorted (fun a b => ord strict (vpos st a) (vpos st b)) l.

  Lemma ord_lt s p q : (p < q)%Q -> ord s p q.
  Proof. destruct s; simpl; auto using Qlt_le_weak. Qed.
  Lemma ord_lt_trans s p q r : (p < q)%Q -> ord s q r -> ord s p r.
  Proof. intros H1 H2. apply ord_lt. destruct s; simpl in H2; [now apply Qlt_trans with q|now apply Qlt_le_trans with q]. Qed.
  Lemma ord_eq s p q r : (p == q)%Q -> ord s q r -> ord s p r.
  Proof. intros H1 H2. destruct s; simpl in *; now rewrite H1. Qed.

  Lemma sorted_ext s st st' l : (forall r, pos (st' r) = pos (st r)) -> sorted s st l -> sorted s st' l.
  Proof.
    intros E. unfold sorted. induction 1 as [|x l Hs IH HF]; constructor; auto.
    eapply Forall_impl; [|exact HF]. intros a H. unfold vpos in *. now rewrite !E.
  Qed.

  Lemma merge_sorted_lists s st l1 l2 : posden st l1 -> posden st l2 -> sorted s st l1 -> sorted s st l2 ->
    sorted s st (snd (mergeticklists me st l1 l2)).
  Proof.
    intros D1 D2 S1 S2.
    apply (merge_spec st l1 l2 (fun l1 st l2 st' m => posden st l1 -> posden st l2 -> sorted s st l1 -> sorted s st l2 ->
      sorted s st m /\ (forall r, In r m -> In r l1 \/ In r l2))); auto.
    clear. apply merge_ind.
    - intros st r2 _ _ _ S2. auto.
    - intros st x r1 _ _ S1 _. auto.
    - intros st x r1 y r2 st' m L IH D1 D2 S1 S2. inversion D2; subst. inversion S2 as [|? ? S2' F2]; subst.
      destruct IH as (A & B); auto. split.
      + constructor; auto. apply Forall_forall. intros r Hr. destruct (B r Hr) as [H|H].
        * inversion D1; subst. apply lt_pos in L; auto. inversion S1 as [|? ? S1' F1]; subst.
          destruct H as [<-|H]; [now apply ord_lt|]. rewrite Forall_forall in F1. eapply ord_lt_trans; eauto.
        * rewrite Forall_forall in F2. auto.
      + intros r [<-|Hr]; [right; now left|]. destruct (B r Hr); auto. right. now right.
    - intros st x r1 y r2 st' m L E IH D1 D2 S1 S2. inversion D1; subst. inversion D2; subst.
      inversion S1 as [|? ? S1' F1]; subst. inversion S2 as [|? ? S2' F2]; subst.
      assert (forall l, posden st l -> posden (merged_store st x y) l) as PD.
      { intros l H. eapply Forall_impl; [|exact H]. simpl. intros. now rewrite merged_pos. }
      destruct IH as (A & B); auto; try (apply (sorted_ext s st); auto; intros; apply merged_pos).
      split.
      + constructor; [apply (sorted_ext s (merged_store st x y)); auto; intros; now rewrite merged_pos|].
        apply Forall_forall. intros r Hr. rewrite Forall_forall in F1, F2. destruct (B r Hr) as [H|H]; auto.
        apply eq_nz in E; try lia. eapply ord_eq; [symmetry; exact E|]. now apply F2.
      + intros r [<-|Hr]; [left; now left|]. destruct (B r Hr); simpl; auto.
    - intros st x r1 y r2 st' m L E IH D1 D2 S1 S2. inversion D1; subst. inversion D2; subst.
      inversion S1 as [|? ? S1' F1]; subst. destruct IH as (A & B); auto. split.
      + constructor; auto. apply Forall_forall. intros r Hr. rewrite Forall_forall in F1.
        destruct (B r Hr) as [H|H]; auto.
        assert (vpos st x < vpos st y)%Q as LX by (apply lt_eq_cases; auto).
        destruct H as [<-|H]; [now apply ord_lt|]. inversion S2 as [|? ? S2' F2]; subst. rewrite Forall_forall in F2.
        eapply ord_lt_trans; [exact LX|]. now apply F2.
      + intros r [<-|Hr]; [left; now left|]. destruct (B r Hr); simpl in *; auto.
  Qed.

  Lemma strict_lt_all st x l : sorted true st (x :: l) -> forall r, In r l -> (vpos st x < vpos st r)%Q.
  Proof. intros H r Hr. inversion H as [|? ? _ F]; subst. rewrite Forall_forall in F. now apply F. Qed.

  (** the contents of the tick objects afterwards *)
  Lemma merge_contents st l1 l2 : posden st l1 -> posden st l2 -> sorted true st l1 -> sorted true st l2 ->
    (forall r, In r l1 -> ~ In r l2) ->
    forall r, (In r l1 /\ (exists y, In y l2 /\ (vpos st y == vpos st r)%Q /\
                 fst (mergeticklists me st l1 l2) r = if me then tmerge (st r) (st y) else st r)) \/
              ((~ In r l1 \/ forall y, In y l2 -> ~ (vpos st y == vpos st r)%Q) /\
               fst (mergeticklists me st l1 l2) r = st r).
  Proof.
    apply (merge_spec st l1 l2 (fun l1 st l2 st' m => posden st l1 -> posden st l2 -> sorted true st l1 -> sorted true st l2 ->
      (forall r, In r l1 -> ~ In r l2) ->
      forall r, (In r l1 /\ (exists y, In y l2 /\ (vpos st y == vpos st r)%Q /\
                 st' r = if me then tmerge (st r) (st y) else st r)) \/
              ((~ In r l1 \/ forall y, In y l2 -> ~ (vpos st y == vpos st r)%Q) /\ st' r = st r))).
    clear. apply merge_ind.
    - intros st r2 _ _ _ _ _ r. right. split; auto.
    - intros st x r1 _ _ _ _ _ r. right. split; auto.
    - intros st x r1 y r2 st' m L IH D1 D2 S1 S2 Dj r. inversion D2; subst. inversion S2; subst.
      destruct (IH D1) with (r := r) as [(H & y' & Hy' & E)|(H & E)]; auto.
      { intros r' H1' H2'. apply (Dj r'); auto. now right. }
      + left. split; auto. exists y'. split; auto. now right.
      + right. split; auto. destruct H as [|H]; auto. 
        destruct (in_dec Nat.eq_dec r (x :: r1)) as [Hin|]; auto. right.
        intros y' [<-|Hy']; auto. inversion D1; subst. apply lt_pos in L; auto.
        assert (vpos st y < vpos st r)%Q as LL.
        { destruct Hin as [<-|Hin]; auto. eapply Qlt_trans; [exact L|]. now apply (strict_lt_all st x r1). }
        intros E'. rewrite E' in LL. now apply Qlt_irrefl in LL.
    - intros st x r1 y r2 st' m L E IH D1 D2 S1 S2 Dj r. inversion D1; subst. inversion D2; subst.
      inversion S1 as [|? ? S1' F1]; subst. inversion S2 as [|? ? S2' F2]; subst.
      assert (forall l, posden st l -> posden (merged_store st x y) l) as PD.
      { intros l H. eapply Forall_impl; [|exact H]. simpl. intros. now rewrite merged_pos. }
      assert (forall r', vpos (merged_store st x y) r' = vpos st r') as VP by (intros; unfold vpos; now rewrite merged_pos).
      assert (forall l, sorted true st l -> sorted true (merged_store st x y) l) as SO
        by (intros; apply (sorted_ext true st); auto; intros; apply merged_pos).
      assert (forall r', r' <> x -> merged_store st x y r' = st r') as Old.
      { intros r' N. unfold merged_store. destruct me; auto. unfold upd. destruct (Nat.eqb_spec r' x); congruence. }
      assert (~ In x r1) as Nx.
      { intros H. pose proof (strict_lt_all _ _ _ S1 _ H) as LL. now apply Qlt_irrefl in LL. }
      assert (~ In x (y :: r2)) as Nx2 by (apply Dj; now left).
      apply eq_nz in E; try lia.
      destruct (IH (PD _ H2) (PD _ H4) (SO _ S1') (SO _ S2')) with (r := r) as [(H & y' & Hy' & E' & E'')|(H & E')].
      { intros r' H1' H2'. apply (Dj r'); simpl; auto. }
      + assert (r <> x) by congruence. left. split; [now right|]. exists y'. split; [now right|].
        rewrite !VP in E'. split; auto. rewrite E''. rewrite (Old r), (Old y'); auto.
        intros ->. apply Nx2. now right.
      + destruct (Nat.eq_dec r x) as [->|N].
        * left. split; [now left|]. exists y. split; [now left|]. split; auto. rewrite E'.
          unfold merged_store. destruct me; auto. unfold upd. now rewrite Nat.eqb_refl.
        * right. rewrite E', Old by auto. split; auto. destruct H as [H|H].
          -- left. simpl. intros [|]; [congruence|tauto].
          -- destruct (in_dec Nat.eq_dec r (x :: r1)) as [Hin|]; auto. right. intros y' [<-|Hy'].
             ++ intros E3. destruct Hin as [|Hin]; [congruence|].
                pose proof (strict_lt_all _ _ _ S1 _ Hin) as LL.
                unfold vpos in *. rewrite <- E, E3 in LL. now apply Qlt_irrefl in LL.
             ++ specialize (H y' Hy'). now rewrite !VP in H.
    - intros st x r1 y r2 st' m L E IH D1 D2 S1 S2 Dj r. inversion D1; subst. inversion D2; subst.
      inversion S1 as [|? ? S1' F1]; subst.
      assert (~ In x r1) as Nx.
      { intros H. pose proof (strict_lt_all _ _ _ S1 _ H) as LL. now apply Qlt_irrefl in LL. }
      assert (vpos st x < vpos st y)%Q as LX by (apply lt_eq_cases; auto).
      destruct (IH H2 D2 S1' S2) with (r := r) as [(H & y' & Hy' & E')|(H & E')].
      { intros r' H1' H2'. apply (Dj r'); simpl in *; auto. }
      + left. split; [now right|]. exists y'. auto.
      + right. split; auto. destruct (Nat.eq_dec r x) as [->|N].
        * right. intros y' Hy' E3.
          assert (vpos st y <= vpos st y')%Q as LL.
          { destruct Hy' as [<-|Hy']; [apply Qle_refl|]. apply Qlt_le_weak. now apply (strict_lt_all st y r2). }
          rewrite E3 in LL. now apply Qle_not_lt in LL.
        * destruct H as [H|H]; auto. left. simpl. intros [|]; [congruence|tauto].
  Qed.

  (** which references are in the result *)
  Lemma merge_dropped st l1 l2 : posden st l1 -> posden st l2 -> sorted true st l1 -> sorted true st l2 ->
    (forall r, In r l1 -> ~ In r l2) ->
    forall y, In y l2 -> (In y (snd (mergeticklists me st l1 l2)) <-> forall x, In x l1 -> ~ (vpos st x == vpos st y)%Q).
  Proof.
    intros D1 D2 S1 S2 Dj y Hy. destruct (merge_members st l1 l2 D1 D2) as (A & B & C). split.
    - intros H x Hx E. pose proof (merge_sorted_lists true st l1 l2 D1 D2 S1 S2) as SS.
      assert (x <> y) as N by (intros ->; now apply (Dj y)).
      specialize (B x Hx). clear - SS H B E N. revert H B. induction SS as [|z l Hs IH F]; simpl; [tauto|].
      rewrite Forall_forall in F. intros [<-|H] [<-|B]; auto.
      + apply F in B. simpl in B. rewrite E in B. now apply Qlt_irrefl in B.
      + apply F in H. simpl in H. rewrite E in H. now apply Qlt_irrefl in H.
    - intros H. destruct (C y Hy) as [|(x & Hx & E)]; auto. now apply H in E.
  Qed.
End Merge.

(** ** maxlevels *)
Lemma bump_spec m l : 0 <= m -> bump m l = match l with Some v => Z.max m (v + 1) | None => m end.
Proof. unfold bump. destruct l as [v|]; auto. intros. destruct (Z.leb_spec m v); lia. Qed.


Lemma maxlevels_bound ticks :
  least_bound (map ticklevel ticks) (fst (maxlevels ticks)) /\
  least_bound (map labellevel ticks) (snd (maxlevels ticks)).
Proof.
  unfold maxlevels.
  assert (forall m, 0 <= fst m -> 0 <= snd m ->
    let r := fold_left (fun m t => (bump (fst m) (ticklevel t), bump (snd m) (labellevel t))) ticks m in
    (fst m <= fst r /\ (forall v, In (Some v) (map ticklevel ticks) -> v < fst r) /\
     (forall m', fst m <= m' -> (forall v, In (Some v) (map ticklevel ticks) -> v < m') -> fst r <= m')) /\
    (snd m <= snd r /\ (forall v, In (Some v) (map labellevel ticks) -> v < snd r) /\
     (forall m', snd m <= m' -> (forall v, In (Some v) (map labellevel ticks) -> v < m') -> snd r <= m'))) as G.
  { induction ticks as [|t ticks IH]; intros [a b] Ha Hb; simpl in *.
    - repeat split; try lia; tauto.
    - destruct (IH (bump a (ticklevel t), bump b (labellevel t))) as ((A1 & A2 & A3) & (B1 & B2 & B3)); simpl;
        try (rewrite bump_spec by auto; destruct (_ t); lia).
      simpl in *. match type of A2 with context [fold_left ?f ?l ?a] => generalize dependent (fold_left f l a) end.
      intros res A1 A2 A3 B1 B2 B3. rewrite bump_spec in A1, A3 by auto. rewrite bump_spec in B1, B3 by auto.
      split.
      + split; [destruct (ticklevel t); lia|]. split.
        * intros v [E|Hv]; auto. rewrite E in A1. simpl in A1. lia.
        * intros m' Hm H. apply A3; auto. destruct (ticklevel t) as [v|] eqn:E; auto.
          specialize (H v (or_introl eq_refl)). lia.
      + split; [destruct (labellevel t); lia|]. split.
        * intros v [E|Hv]; auto. rewrite E in B1. simpl in B1. lia.
        * intros m' Hm H. apply B3; auto. destruct (labellevel t) as [v|] eqn:E; auto.
          specialize (H v (or_introl eq_refl)). lia. }
  destruct (G (0, 0)) as ((A1 & A2 & A3) & (B1 & B2 & B3)); simpl; try lia.
  unfold least_bound. simpl in *. repeat split; auto.
Qed.

(** ** decimal denominators *)
Lemma initfromstring_pow10 s r : initfromstring s = Some r -> exists m, 0 <= m /\ denom r = 10 ^ m.
Proof.
  unfold initfromstring. destruct (split_on "e" _) as [|mant [|e [|]]]; try discriminate;
    destruct (two_parts _) as [[c0 c1]|]; try discriminate; destruct (cut_sign c0) as [neg c0'];
    destruct (part_value c0') as [x|]; try discriminate; destruct (part_value c1) as [y|]; try discriminate.
  - intros [= <-]. exists (Z.of_nat (length c1)). simpl. split; [lia|auto].
  - destruct e as [|c e]; try discriminate. destruct (cut_sign (c :: e)) as [eneg e'].
    destruct (isdigit e') eqn:Hd; try discriminate.
    assert (0 <= int_of e') as P.
    { unfold int_of. assert (forallb is_digit e' = true) as F by (destruct e'; [discriminate|exact Hd]).
      clear - F. assert (forall v, 0 <= v -> 0 <= fold_left (fun v c => v * 10 + (code c - 48)) e' v) as G.
      { induction e' as [|c l IH]; simpl in *; auto. intros v Hv. apply andb_true_iff in F. destruct F as [F1 F2].
        apply IH; auto. unfold is_digit in F1. lia. }
      apply G. lia. }
    destruct eneg; intros [= <-]; simpl.
    + exists (Z.of_nat (length c1) + int_of e'). split; [lia|]. rewrite Z.pow_add_r; lia.
    + exists (Z.of_nat (length c1)). split; [lia|auto].
Qed.

Lemma initfromstring_denom_pos s r : initfromstring s = Some r -> 0 < denom r.
Proof. intros H. destruct (initfromstring_pow10 _ _ H) as (m & Hm & ->). apply Z.pow_pos_nonneg; lia. Qed.

Lemma pow10_mod3 m : 0 <= m -> 10 ^ m mod 3 = 1.
Proof.
  revert m. apply natlike_ind; [reflexivity|]. intros x Hx IH. rewrite Z.pow_succ_r by auto.
  rewrite Z.mul_mod, IH by lia. reflexivity.
Qed.

Lemma decimal_not_third s r : initfromstring s = Some r -> ~ (valQ r == 1 # 3)%Q.
Proof.
  intros H E. destruct (initfromstring_pow10 _ _ H) as (m & Hm & Hd).
  pose proof (initfromstring_denom_pos _ _ H) as P.
  assert (eq r (mkrat 1 3) = true) as E'.
  { apply eq_nz; simpl; try lia. unfold valQ at 2. simpl num; simpl denom. rewrite fracQ_pos. exact E. }
  unfold eq in E'. cbn [num denom] in E'. rewrite Hd in E'. pose proof (pow10_mod3 m Hm) as M.
  apply Z.eqb_eq in E'. assert (10 ^ m = num r * 3) as E2 by lia. rewrite E2, Z.mod_mul in M by lia. discriminate.
Qed.

Lemma frac_mul a b c d : (fracQ (a * c) (b * d) == fracQ a b * fracQ c d)%Q.
Proof.
  unfold fracQ. rewrite !inject_Z_mult. unfold Qdiv. rewrite Qinv_mult_distr. ring.
Qed.

Lemma frac_div a b c d : (fracQ (a * d) (b * c) == fracQ a b / fracQ c d)%Q.
Proof.
  unfold fracQ. rewrite !inject_Z_mult. unfold Qdiv. rewrite !Qinv_mult_distr, Qinv_involutive. ring.
Qed.

Lemma frac_abs a b : (fracQ (Z.abs a) (Z.abs b) == Qabs (fracQ a b))%Q.
Proof.
  unfold fracQ, Qdiv. rewrite Qabs_Qmult, Qabs_Qinv. reflexivity.
Qed.
