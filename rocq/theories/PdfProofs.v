(** Proofs about the registries and the PDF file. *)
From Coq Require Import String Ascii ZArith Bool List Lia.
From Verif Require Import PyDict TickModel TickSpec TexterModel TexterProofs PdfModel PdfSpec.
Import ListNotations.
Open Scope Z_scope.

Lemma key_eqb_spec a b : reflect (a = b) (key_eqb a b).
Proof.
  destruct a as [a1 a2], b as [b1 b2]. unfold key_eqb. simpl.
  destruct (Z.eqb_spec a1 b1), (Z.eqb_spec a2 b2); constructor; congruence.
Qed.

(** ** first occurrences *)
Section Firsts.
  Context {A : Type} (dec : forall x y : A, {x = y} + {x <> y}).
  Local Notation fa := (firsts_acc dec).
  Lemma fa_ext l s1 s2 : (forall x, In x s1 <-> In x s2) -> fa s1 l = fa s2 l.
  Proof.
    revert s1 s2. induction l as [|x l IH]; simpl; auto. intros s1 s2 E.
    destruct (in_dec dec x s1) as [H|H], (in_dec dec x s2) as [H'|H']; try (exfalso; firstorder; fail); auto.
    f_equal. apply IH. intros y. simpl. rewrite E. tauto.
  Qed.
  Lemma fa_In l s x : In x (fa s l) <-> In x l /\ ~ In x s.
  Proof.
    revert s. induction l as [|y l IH]; simpl; [tauto|]. intros s.
    destruct (in_dec dec y s) as [H|H].
    - rewrite IH. split; [tauto|]. intros [[<-|] ?]; tauto.
    - simpl. rewrite IH. simpl. destruct (dec y x) as [<-|N]; [tauto|]. tauto.
  Qed.
  Lemma fa_NoDup l s : NoDup (fa s l).
  Proof.
    revert s. induction l as [|y l IH]; simpl; [constructor|]. intros s.
    destruct (in_dec dec y s); auto. constructor; auto. rewrite fa_In. simpl. tauto.
  Qed.
  Lemma fa_app l m s : fa s (l ++ m) = fa s l ++ fa (l ++ s) m.
  Proof.
    revert s. induction l as [|y l IH]; simpl; auto. intros s.
    destruct (in_dec dec y s) as [H|H].
    - rewrite IH. f_equal. apply fa_ext. intros x. simpl. rewrite in_app_iff. split; [auto|].
      intros [<-|?]; auto.
    - rewrite IH. simpl. f_equal. f_equal. apply fa_ext. intros x. rewrite !in_app_iff. simpl.
      rewrite in_app_iff. tauto.
  Qed.
  Lemma fa_idem l s s' : incl s' s -> fa s (fa s' l) = fa s l.
  Proof.
    revert s s'. induction l as [|y l IH]; simpl; auto. intros s s' I.
    destruct (in_dec dec y s') as [H|H].
    - rewrite IH by auto. destruct (in_dec dec y s); auto. exfalso; auto.
    - simpl. destruct (in_dec dec y s) as [H1|H1].
      + rewrite IH; auto. intros x [<-|?]; auto.
      + f_equal. apply IH. intros x [<-|?]; simpl; auto.
  Qed.
End Firsts.
Lemma firsts_In l k : In k (firsts l) <-> In k l.
Proof. unfold firsts. rewrite fa_In. simpl. tauto. Qed.
Lemma firsts_snoc l k : firsts (l ++ [k]) = if in_dec key_dec k (firsts l) then firsts l else firsts l ++ [k].
Proof.
  unfold firsts at 1. rewrite fa_app. simpl. rewrite app_nil_r. fold (firsts l).
  destruct (in_dec key_dec k l) as [H|H]; destruct (in_dec key_dec k (firsts l)) as [H'|H'];
    rewrite firsts_In in H'; try tauto. now rewrite app_nil_r.
Qed.
Lemma firsts_app_firsts l m : firsts (l ++ firsts m) = firsts (l ++ m).
Proof. unfold firsts. rewrite !fa_app. f_equal. apply fa_idem. intros x []. Qed.

(** ** one registry *)
Definition wf (r : registry) : Prop :=
  types r = map (fun o => (okey o, o)) (objects r) /\ NoDup (map okey (objects r)).
Lemma wf_keys r : wf r -> keys (types r) = map okey (objects r).
Proof. intros [E _]. rewrite E. unfold keys. rewrite map_map. reflexivity. Qed.
Lemma wf_NoDup r : wf r -> NoDup (keys (types r)).
Proof. intros W. rewrite wf_keys by auto. apply W. Qed.
Lemma wf_new : wf new_registry.
Proof. split; simpl; [reflexivity|constructor]. Qed.

Lemma wf_dget r k o : wf r -> (dget key_eqb k (types r) = Some o <-> In o (objects r) /\ okey o = k).
Proof.
  intros W. pose proof (wf_NoDup r W) as N. destruct W as [E _]. split.
  - intros H. apply (dget_In key_eqb key_eqb_spec) in H. rewrite E in H. apply in_map_iff in H.
    destruct H as [o' [[= <- <-] H]]. auto.
  - intros [H <-]. apply (In_dget key_eqb key_eqb_spec); auto. rewrite E.
    apply (in_map (fun o => (okey o, o))) in H. exact H.
Qed.
Lemma wf_dget_None r k : wf r -> (dget key_eqb k (types r) = None <-> ~ In k (map okey (objects r))).
Proof. intros W. rewrite (dget_None key_eqb key_eqb_spec), wf_keys by auto. tauto. Qed.

Lemma add_spec r h o r' h' : wf r -> add r h o = Some (r', h') ->
  wf r' /\ merged r' = merged r /\
  (exists l, objects r' = objects r ++ l /\ incl l [o]) /\
  forall R, map okey (objects r) = firsts R -> map okey (objects r') = firsts (R ++ [okey o]).
Proof.
  intros W. unfold add. destruct (dget key_eqb (okey o) (types r)) as [o'|] eqn:D.
  - intros H. assert (r' = r) as ->.
    { destruct (omergeable o'); [|now inversion H].
      destruct (Nat.eqb _ _ && _); [discriminate|now inversion H]. }
    repeat split; try apply W.
    + exists []. rewrite app_nil_r. split; auto. intros x [].
    + intros R E. rewrite firsts_snoc. destruct (in_dec key_dec (okey o) (firsts R)) as [|N]; auto.
      exfalso. apply N. rewrite <- E. apply wf_dget in D; auto. destruct D as [D <-]. now apply in_map.
  - intros [= <- <-]. rewrite wf_dget_None in D by auto. repeat split; simpl.
    + rewrite (dset_new key_eqb key_eqb_spec) by (rewrite wf_keys; auto).
      rewrite map_app. simpl. f_equal. apply W.
    + rewrite map_app. simpl. destruct W as [_ W]. clear -W D. induction (map okey (objects r)) as [|k l IH]; simpl.
      * constructor; [intros []|constructor].
      * inversion W; subst. constructor.
        -- rewrite in_app_iff. simpl. simpl in D. intros [?|[E'|[]]]; [tauto|]. apply D. left. congruence.
        -- apply IH; auto. simpl in D. tauto.
    + exists [o]. split; auto. apply incl_refl.
    + intros R E. rewrite map_app. simpl. rewrite firsts_snoc.
      destruct (in_dec key_dec (okey o) (firsts R)) as [I|_]; [rewrite <- E in I; tauto|]. now rewrite E.
Qed.

Lemma add_all_spec l : forall r h r' h', wf r -> add_all r h l = Some (r', h') ->
  wf r' /\ merged r' = merged r /\
  (exists m, objects r' = objects r ++ m /\ incl m l) /\
  forall R, map okey (objects r) = firsts R -> map okey (objects r') = firsts (R ++ map okey l).
Proof.
  induction l as [|o l IH]; simpl; intros r h r' h' W H.
  - inversion H; subst. repeat split; try apply W.
    + exists []. rewrite app_nil_r. split; auto. intros x [].
    + intros R E. now rewrite app_nil_r.
  - destruct (add r h o) as [[r1 h1]|] eqn:A; [|discriminate].
    destruct (add_spec _ _ _ _ _ W A) as [W1 [M1 [[m1 [O1 I1]] F1]]].
    destruct (IH _ _ _ _ W1 H) as [W2 [M2 [[m2 [O2 I2]] F2]]].
    split; [auto|]. split; [congruence|]. split.
    + exists (m1 ++ m2). rewrite O2, O1, app_assoc. split; auto. apply incl_app.
      * intros x Hx. apply I1 in Hx. destruct Hx as [<-|[]]. now left.
      * intros x Hx. right. auto.
    + intros R E. rewrite (F2 (R ++ [okey o])) by auto. now rewrite <- app_assoc.
Qed.

(** ** several registries *)
Lemma set_nth_length {A} n (x : A) l : length (set_nth n x l) = length l.
Proof. revert n. induction l; destruct n; simpl; auto. Qed.
Lemma set_nth_same {A} n (x y : A) l : nth_error l n = Some y -> nth_error (set_nth n x l) n = Some x.
Proof. revert n. induction l; destruct n; simpl; try discriminate; auto. Qed.
Lemma set_nth_other {A} n m (x : A) l : n <> m -> nth_error (set_nth n x l) m = nth_error l m.
Proof. revert n m. induction l; destruct n, m; simpl; try congruence; auto. Qed.

(** the registries of a world against its history *)
Record inv (hist : list op) (w : world) : Prop := mkinv {
  inv_wf : forall r reg, nth_error (regs w) r = Some reg ->
    wf reg /\ map okey (objects reg) = firsts (registrations hist r) /\
    (forall o, In o (objects reg) -> added hist o);
  inv_out : forall r, (length (regs w) <= r)%nat -> registrations hist r = [] }.

Lemma added_cons p hist o : added hist o -> added (p :: hist) o.
Proof. intros [r H]. exists r. now right. Qed.

Lemma inv_step hist w p w' : inv hist w -> step w p = Some w' -> inv (p :: hist) w'.
Proof.
  intros [W O] S. destruct p as [|i v|r1 o|r1 r2]; simpl in S.
  - inversion S; subst; clear S. split; simpl.
    + intros r reg H. destruct (Nat.ltb_spec r (length (regs w))) as [L|L].
      * rewrite nth_error_app1 in H by auto. destruct (W _ _ H) as [? [? ?]]. repeat split; auto; try apply H0.
        intros; now apply added_cons; auto.
      * rewrite nth_error_app2 in H by auto. rewrite (O r L).
        assert (r - length (regs w) = 0)%nat as E.
        { destruct (r - length (regs w))%nat as [|[|?]] eqn:E; auto; discriminate. }
        rewrite E in H. simpl in H. inversion H; subst. split; [apply wf_new|]. split; [reflexivity|]. intros ? [].
    + intros r. rewrite app_length. simpl. intros L. apply O. lia.
  - inversion S; subst; clear S. split; simpl; auto.
    intros r reg H. destruct (W _ _ H) as [? [? ?]]. repeat split; auto; try apply H0.
    intros; now apply added_cons; auto.
  - destruct (nth_error (regs w) r1) as [reg|] eqn:E; [|discriminate].
    destruct (add reg (wheap w) o) as [[reg' h']|] eqn:A; [|discriminate]. inversion S; subst; clear S.
    destruct (W _ _ E) as [W1 [F1 A1]]. destruct (add_spec _ _ _ _ _ W1 A) as [W2 [_ [[l [L1 L2]] F2]]].
    split; simpl.
    + intros r reg0 H. destruct (Nat.eqb_spec r1 r) as [->|N].
      * rewrite (set_nth_same _ _ _ _ E) in H. inversion H; subst. split; [auto|]. split; [auto|].
        intros x. rewrite L1, in_app_iff. intros [I|I]; [apply added_cons; auto|].
        apply L2 in I. destruct I as [<-|[]]. exists r. now left.
      * rewrite set_nth_other in H by auto. rewrite app_nil_r. destruct (W _ _ H) as [? [? ?]].
        split; auto. split; auto. intros. apply added_cons; auto.
    + intros r. rewrite set_nth_length. intros L. rewrite O by auto.
      destruct (Nat.eqb_spec r1 r) as [->|N]; [|reflexivity].
      apply nth_error_None in L. congruence.
  - destruct (nth_error (regs w) r1) as [reg1|] eqn:E1; [|discriminate].
    destruct (nth_error (regs w) r2) as [reg2|] eqn:E2; [|discriminate].
    destruct (merged reg2) eqn:M; [discriminate|].
    destruct (add_all reg1 (wheap w) (objects reg2)) as [[reg1' h']|] eqn:A; [|discriminate].
    destruct (nth_error (set_nth r1 reg1' (regs w)) r2) as [reg2'|] eqn:E3; [|discriminate].
    inversion S; subst; clear S.
    destruct (W _ _ E1) as [W1 [F1 A1]]. destruct (W _ _ E2) as [W2 [F2 A2]].
    destruct (add_all_spec _ _ _ _ _ W1 A) as [W3 [_ [[l [L1 L2]] F3]]].
    assert (G1 : wf reg1' /\ map okey (objects reg1') = firsts (registrations hist r1 ++ registrations hist r2) /\
                 (forall x, In x (objects reg1') -> added (Merge r1 r2 :: hist) x)).
    { split; [auto|]. split.
      - rewrite (F3 _ F1), F2. apply firsts_app_firsts.
      - intros x. rewrite L1, in_app_iff. intros [I|I]; apply added_cons; auto. }
    assert (G : forall r reg, nth_error (set_nth r1 reg1' (regs w)) r = Some reg ->
       wf reg /\ map okey (objects reg) = firsts (registrations (Merge r1 r2 :: hist) r) /\
       (forall o, In o (objects reg) -> added (Merge r1 r2 :: hist) o)).
    { intros r reg H. simpl. destruct (Nat.eqb_spec r1 r) as [->|N].
      - rewrite (set_nth_same _ _ _ _ E1) in H. inversion H; subst. exact G1.
      - rewrite set_nth_other in H by auto. rewrite app_nil_r. destruct (W _ _ H) as [? [? ?]].
        split; auto. split; auto. intros. apply added_cons; auto. }
    split; simpl regs.
    + intros r reg H. destruct (Nat.eq_dec r2 r) as [->|N].
      * rewrite (set_nth_same _ _ _ _ E3) in H. inversion H; subst. simpl objects. destruct (G _ _ E3) as [? [? ?]]; auto.
      * rewrite set_nth_other in H by auto. auto.
    + intros r. rewrite !set_nth_length. intros L. simpl. rewrite (O r) by auto.
      destruct (Nat.eqb_spec r1 r) as [->|N]; [|reflexivity].
      apply nth_error_None in L. congruence.
Qed.

Lemma inv_steps ops : forall hist w w', inv hist w -> steps w ops = Some w' -> inv (rev ops ++ hist) w'.
Proof.
  induction ops as [|p ops IH]; simpl; intros hist w w' I H; [inversion H; subst; exact I|].
  destruct (step w p) as [w1|] eqn:S; [|discriminate].
  rewrite <- app_assoc. simpl. eapply IH; [|eassumption]. eapply inv_step; eassumption.
Qed.
Lemma inv_run ops w : run ops = Some w -> inv (rev ops) w.
Proof.
  intros H. rewrite <- (app_nil_r (rev ops)). eapply inv_steps; [|exact H]. split; simpl.
  - intros r reg. destruct r; discriminate.
  - reflexivity.
Qed.

(** ** numbers *)
Lemma number_from_nth l : forall n i, nth_error (number_from n l) i = option_map (fun o => (o, n + Z.of_nat i)) (nth_error l i).
Proof.
  induction l as [|o l IH]; intros n i; [destruct i; reflexivity|].
  destruct i; simpl; [now rewrite Z.add_0_r|]. rewrite IH.
  destruct (nth_error l i); simpl; auto. do 2 f_equal. lia.
Qed.
Lemma refno_nth l : forall n i o,
  (forall x y, In x l -> In y l -> oident x = oident y -> x = y) -> NoDup l ->
  nth_error l i = Some o -> refno_of (number_from n l) (oident o) = Some (n + Z.of_nat i).
Proof.
  induction l as [|x l IH]; intros n i o C N H; [destruct i; discriminate|].
  unfold refno_of. simpl. inversion N as [|? ? N1 N2]; subst. destruct i as [|i].
  - simpl in H. inversion H; subst. rewrite Nat.eqb_refl. now rewrite Z.add_0_r.
  - simpl in H. destruct (Nat.eqb_spec (oident x) (oident o)) as [E|E].
    + exfalso. apply nth_error_In in H as H'. assert (x = o) by (apply C; simpl; auto). subst. auto.
    + specialize (IH (n + 1) i o). unfold refno_of in IH. rewrite IH; auto.
      * f_equal. lia.
      * intros a b ? ?. apply C; now right.
Qed.
Lemma consistent_rev ops : consistent ops -> consistent (rev ops).
Proof.
  intros C o o' [r H] [r' H']. apply C; [exists r|exists r']; apply in_rev; auto.
Qed.
Lemma NoDup_of_keys l : NoDup (map okey l) -> NoDup l.
Proof. apply NoDup_map_inv. Qed.

(** ** discipline *)
Record inv2 (hist : list op) (done : list nat) (w : world) : Prop := mkinv2 {
  inv2_done : forall r reg, nth_error (regs w) r = Some reg -> merged reg <> None -> In r done;
  inv2_incl : forall r reg r', nth_error (regs w) r = Some reg -> merged reg = Some r' ->
    incl (registrations hist r) (registrations hist r') }.
Lemma inv2_step hist done w p w' l : inv hist w -> inv2 hist done w -> disciplined done (p :: l) -> step w p = Some w' ->
  exists done', inv2 (p :: hist) done' w' /\ disciplined done' l.
Proof.
  intros I [D J] P S. destruct p as [|i v|r1 o|r1 r2]; simpl in S, P.
  - exists done. split; auto. inversion S; subst; clear S.
    assert (G : forall r reg, nth_error (regs w ++ [new_registry]) r = Some reg -> merged reg <> None -> nth_error (regs w) r = Some reg).
    { intros r reg H N. destruct (Nat.ltb_spec r (length (regs w))) as [L|L]; [now rewrite nth_error_app1 in H by auto|].
      rewrite nth_error_app2 in H by auto.
      destruct (r - length (regs w))%nat as [|[|?]] eqn:E; simpl in H; try discriminate.
      inversion H; subst. simpl in N. congruence. }
    split; simpl.
    + intros r reg H N. eauto.
    + intros r reg r' H N. eapply J; [|exact N]. apply G; auto. congruence.
  - exists done. split; auto. inversion S; subst; clear S. split; simpl; eauto.
  - destruct P as [P1 P2]. exists done. split; auto.
    destruct (nth_error (regs w) r1) as [reg1|] eqn:E; [|discriminate].
    destruct (add reg1 (wheap w) o) as [[reg' h']|] eqn:A; [|discriminate]. inversion S; subst; clear S.
    destruct (inv_wf _ _ I _ _ E) as [W1 _]. destruct (add_spec _ _ _ _ _ W1 A) as [_ [M _]].
    assert (N1 : merged reg1 = None).
    { destruct (merged reg1) eqn:M1; auto. exfalso. apply P1. apply (D _ _ E). congruence. }
    split; simpl.
    + intros r reg H Hm. destruct (Nat.eq_dec r1 r) as [->|N].
      * rewrite (set_nth_same _ _ _ _ E) in H. inversion H; subst. congruence.
      * rewrite set_nth_other in H by auto. eauto.
    + intros r reg r' H Hm. destruct (Nat.eqb_spec r1 r) as [->|N].
      * rewrite (set_nth_same _ _ _ _ E) in H. inversion H; subst. congruence.
      * rewrite set_nth_other in H by auto. rewrite app_nil_r. apply incl_appl. eauto.
  - destruct P as [P1 [P2 P3]]. exists (r2 :: done). split; auto.
    destruct (nth_error (regs w) r1) as [reg1|] eqn:E1; [|discriminate].
    destruct (nth_error (regs w) r2) as [reg2|] eqn:E2; [|discriminate].
    destruct (merged reg2) eqn:M2; [discriminate|].
    destruct (add_all reg1 (wheap w) (objects reg2)) as [[reg1' h']|] eqn:A; [|discriminate].
    destruct (nth_error (set_nth r1 reg1' (regs w)) r2) as [reg2'|] eqn:E3; [|discriminate].
    inversion S; subst; clear S.
    destruct (inv_wf _ _ I _ _ E1) as [W1 _]. destruct (add_all_spec _ _ _ _ _ W1 A) as [_ [M _]].
    assert (N1 : merged reg1 = None).
    { destruct (merged reg1) eqn:M1; auto. exfalso. apply P1. apply (D _ _ E1). congruence. }
    split; cbn [regs].
    + intros r reg H Hm. destruct (Nat.eq_dec r2 r) as [->|N]; [now left|]. right.
      rewrite set_nth_other in H by auto. destruct (Nat.eq_dec r1 r) as [->|N'].
      * rewrite (set_nth_same _ _ _ _ E1) in H. inversion H; subst. congruence.
      * rewrite set_nth_other in H by auto. eauto.
    + intros r reg r' H Hm. simpl. destruct (Nat.eq_dec r2 r) as [->|N].
      * rewrite (set_nth_same _ _ _ _ E3) in H. inversion H; subst. simpl in Hm. inversion Hm; subst r'.
        destruct (Nat.eqb_spec r1 r); [contradiction|]. rewrite Nat.eqb_refl, app_nil_r. apply incl_appr, incl_refl.
      * rewrite set_nth_other in H by auto. destruct (Nat.eqb_spec r1 r) as [->|N'].
        -- rewrite (set_nth_same _ _ _ _ E1) in H. inversion H; subst. congruence.
        -- rewrite set_nth_other in H by auto. rewrite app_nil_r. apply incl_appl. eauto.
Qed.
Lemma inv2_steps ops : forall hist done w w', inv hist w -> inv2 hist done w -> disciplined done ops -> steps w ops = Some w' ->
  exists done', inv2 (rev ops ++ hist) done' w'.
Proof.
  induction ops as [|p ops IH]; intros hist done w w' I I2 P H; simpl in H.
  - inversion H; subst. exists done. exact I2.
  - destruct (step w p) as [w1|] eqn:S; [|discriminate].
    destruct (inv2_step _ _ _ _ _ _ I I2 P S) as [done' [I3 P3]].
    simpl. rewrite <- app_assoc. simpl. eapply IH; [|eassumption..]. eapply inv_step; eassumption.
Qed.
