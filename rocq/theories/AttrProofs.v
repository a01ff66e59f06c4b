From Coq Require Import String Bool Arith Lia List Permutation.
From Verif Require Import AttrModel AttrSpec.
Import ListNotations.

Lemma isinstance_In a c : isinstance a c = true <-> In c (ainst a).
Proof.
  unfold isinstance. rewrite existsb_exists. split.
  - intros (x & Hx & E). apply String.eqb_eq in E. now subst.
  - intros H. exists c. split; auto. apply String.eqb_refl.
Qed.

Lemma isinstance_any_In a cs : isinstance_any a cs = true <-> exists c, In c cs /\ In c (ainst a).
Proof.
  unfold isinstance_any. rewrite existsb_exists.
  split; intros (c & H1 & H2); exists c; rewrite ?isinstance_In in *; auto.
Qed.

Definition killsb (b a : attr) : bool :=
  match akind b with
  | Excl c | SortBeforeExcl c _ | ClearClass c => isinstance a c
  | ClearAll => true
  | Plain | SortBefore _ => false
  end.

Lemma killsb_spec b a : killsb b a = true <-> kills b a.
Proof. unfold killsb, kills. destruct (akind b); rewrite ?isinstance_In; intuition congruence. Qed.

Definition staysb (a : attr) : bool :=
  match akind a with ClearClass _ | ClearAll => false | _ => true end.
Lemma staysb_spec a : staysb a = true <-> stays a.
Proof. unfold staysb, stays. destruct (akind a); intuition congruence. Qed.

(** ** what one merge does, as an insertion *)

Lemma sb_loop_false self bs l : sortbefore_loop self bs false l = l.
Proof. induction l as [|a l IH]; simpl; auto. now rewrite IH. Qed.

Lemma sb_loop_spec self bs l : exists l1 l2,
  l = l1 ++ l2 /\ sortbefore_loop self bs true l = l1 ++ self :: l2 /\
  (forall a, In a l1 -> isinstance_any a bs = false) /\
  (match l2 with [] => True | a :: _ => isinstance_any a bs = true end).
Proof.
  induction l as [|a l (l1 & l2 & E & E2 & F1 & F2)]; simpl.
  - exists [], []. repeat split; simpl; tauto.
  - destruct (isinstance_any a bs) eqn:B; simpl.
    + exists [], (a :: l). rewrite sb_loop_false. repeat split; simpl; auto; tauto.
    + exists (a :: l1), l2. rewrite E2, E. repeat split; simpl; auto.
      intros x [->|H]; auto.
Qed.

Definition notin_cls c := fun a => negb (isinstance a c).

Lemma sbe_loop_false self c bs l : sortbeforeexcl_loop self c bs false l = filter (notin_cls c) l.
Proof.
  induction l as [|a l IH]; simpl; auto. unfold notin_cls at 1.
  rewrite IH. destruct (isinstance a c); reflexivity.
Qed.

Lemma sbe_loop_spec self c bs l : exists l1 l2,
  l = l1 ++ l2 /\
  sortbeforeexcl_loop self c bs true l = filter (notin_cls c) l1 ++ self :: filter (notin_cls c) l2 /\
  (forall a, In a l1 -> isinstance_any a bs = false) /\
  (match l2 with [] => True | a :: _ => isinstance_any a bs = true end).
Proof.
  induction l as [|a l (l1 & l2 & E & E2 & F1 & F2)]; simpl.
  - exists [], []. repeat split; simpl; tauto.
  - destruct (isinstance_any a bs) eqn:B; simpl.
    + exists [], (a :: l). rewrite sbe_loop_false. repeat split; simpl; auto; try tauto.
      unfold notin_cls at 2. destruct (isinstance a c); reflexivity.
    + exists (a :: l1), l2. rewrite E2, E. repeat split; simpl; auto.
      * unfold notin_cls at 3. destruct (isinstance a c); reflexivity.
      * intros x [->|H]; auto.
Qed.

(** merge b l = survivors of l under b, with b inserted if it stays. *)
Definition keep (b : attr) (l : list attr) := filter (fun a => negb (killsb b a)) l.

Lemma filter_true {A} (l : list A) : filter (fun _ => true) l = l.
Proof. induction l; simpl; congruence. Qed.
Lemma filter_false {A} (l : list A) : filter (fun _ => false) l = [].
Proof. induction l; simpl; auto. Qed.

Lemma merge_spec b l : exists l1 l2, l = l1 ++ l2 /\
  merge b l = keep b l1 ++ (if staysb b then [b] else []) ++ keep b l2 /\
  (issb b = true -> forall a, In a l1 -> isinstance_any a (before_classes b) = false) /\
  (issb b = false -> l2 = []) /\
  (match l2 with [] => True | a :: _ => isinstance_any a (before_classes b) = true end).
Proof.
  unfold merge, keep, killsb, staysb, issb, before_classes.
  destruct (akind b) as [|c|bs|c bs|c|] eqn:K.
  - exists l, []. simpl. rewrite filter_true. repeat split; auto using app_nil_r, eq_sym; congruence.
  - exists l, []. simpl. repeat split; auto; try congruence. symmetry; apply app_nil_r.
  - destruct (sb_loop_spec b bs l) as (l1 & l2 & E & E2 & F1 & F2).
    exists l1, l2. simpl. rewrite !filter_true. repeat split; auto; congruence.
  - destruct (sbe_loop_spec b c bs l) as (l1 & l2 & E & E2 & F1 & F2).
    exists l1, l2. repeat split; auto; congruence.
  - exists l, []. simpl. rewrite !app_nil_r. repeat split; auto; congruence.
  - exists l, []. simpl. rewrite filter_false. repeat split; auto; try congruence.
    symmetry; apply app_nil_r.
Qed.

Lemma keep_app b l1 l2 : keep b (l1 ++ l2) = keep b l1 ++ keep b l2.
Proof. unfold keep. now rewrite filter_app. Qed.

Lemma keep_In b l a : In a (keep b l) <-> In a l /\ ~ kills b a.
Proof.
  unfold keep. rewrite filter_In, <- killsb_spec. destruct (killsb b a); simpl; intuition congruence.
Qed.

Lemma merge_perm b l : Permutation (merge b l) (keep b l ++ if staysb b then [b] else []).
Proof.
  destruct (merge_spec b l) as (l1 & l2 & E & M & _). rewrite M, E, keep_app, <- app_assoc.
  apply Permutation_app_head. apply Permutation_app_comm.
Qed.

Lemma keep_perm b l l' : Permutation l l' -> Permutation (keep b l) (keep b l').
Proof.
  unfold keep. induction 1; simpl; auto.
  - destruct (negb (killsb b x)); auto.
  - destruct (negb (killsb b x)), (negb (killsb b y)); auto. constructor.
  - etransitivity; eauto.
Qed.

(** ** survivors, computed from the right end *)
Lemma survivors_snoc l s b : Survivors l s ->
  Survivors (l ++ [b]) (keep b s ++ if staysb b then [b] else []).
Proof.
  induction 1 as [|a l s St Nk S IH|a l s D S IH]; simpl.
  - destruct (staysb b) eqn:E.
    + apply sv_keep; [now apply staysb_spec| intros ? [] | constructor].
    + apply sv_drop; [left; rewrite <- staysb_spec; congruence|constructor].
  - destruct (killsb b a) eqn:K; simpl.
    + apply sv_drop; auto. right. exists b. rewrite in_app_iff; simpl. split; auto. now apply killsb_spec.
    + apply sv_keep; auto. intros x. rewrite in_app_iff; simpl. intros [H|[<-|[]]]; auto.
      rewrite <- killsb_spec. congruence.
  - apply sv_drop; auto. destruct D as [D|(x & Hx & D)]; auto. right. exists x.
    rewrite in_app_iff. auto.
Qed.

Lemma survivors_fun l s1 s2 : Survivors l s1 -> Survivors l s2 -> s1 = s2.
Proof.
  intros H. revert s2. induction H as [|a l s St Nk S IH|a l s D S IH]; intros s2 H2.
  - inversion H2; auto.
  - inversion H2 as [|? ? ? St' Nk' S'|? ? ? D' S']; subst; [f_equal; auto|].
    exfalso. destruct D' as [H1|(b & Hb & Kb)]; auto. eapply Nk; eauto.
  - inversion H2 as [|? ? ? St' Nk' S'|? ? ? D' S']; subst; auto.
    exfalso. destruct D as [H1|(b & Hb & Kb)]; auto. eapply Nk'; eauto.
Qed.

Lemma survivors_total l : exists s, Survivors l s.
Proof.
  induction l as [|a l IH] using rev_ind.
  - exists []. constructor.
  - destruct IH as (s & S). eexists. apply survivors_snoc; eauto.
Qed.

Lemma mergeattrs_snoc l b : mergeattrs (l ++ [b]) = merge b (mergeattrs l).
Proof. unfold mergeattrs. now rewrite fold_left_app. Qed.

Lemma mergeattrs_perm l s : Survivors l s -> Permutation (mergeattrs l) s.
Proof.
  revert s. induction l as [|b l IH] using rev_ind; intros s S.
  - inversion S; subst. constructor.
  - destruct (survivors_total l) as (s0 & S0).
    pose proof (survivors_fun _ _ _ S (survivors_snoc _ _ b S0)) as ->.
    rewrite mergeattrs_snoc. etransitivity; [apply merge_perm|].
    apply Permutation_app_tail. apply keep_perm. auto.
Qed.

(** Order of the attributes which do not sort themselves. *)
Definition nosb (a : attr) := negb (issb a).

Lemma filter_keep f b l : filter f (keep b l) = keep b (filter f l).
Proof.
  unfold keep. induction l as [|a l IH]; simpl; auto.
  destruct (killsb b a) eqn:K, (f a) eqn:F; simpl; rewrite ?F, ?K, IH; simpl; rewrite ?K; auto.
Qed.

Lemma mergeattrs_order l s : Survivors l s -> filter nosb (mergeattrs l) = filter nosb s.
Proof.
  revert s. induction l as [|b l IH] using rev_ind; intros s S.
  - inversion S; subst. reflexivity.
  - destruct (survivors_total l) as (s0 & S0).
    pose proof (survivors_fun _ _ _ S (survivors_snoc _ _ b S0)) as ->.
    rewrite mergeattrs_snoc.
    destruct (merge_spec b (mergeattrs l)) as (l1 & l2 & E & M & _ & Hn & _).
    rewrite M, !filter_app, filter_keep, filter_keep, filter_keep.
    rewrite <- (IH _ S0), E, filter_app, keep_app.
    destruct (issb b) eqn:B.
    + assert (filter nosb (if staysb b then [b] else []) = []) as ->.
      { destruct (staysb b); simpl; auto. unfold nosb. now rewrite B. }
      simpl. now rewrite app_nil_r.
    + rewrite (Hn eq_refl). simpl. now rewrite !app_nil_r.
Qed.

(** ** at most one of an exclusive class, and it is the last given *)
Lemma survivors_last l1 a l2 s : Survivors (l1 ++ a :: l2) s -> stays a ->
  (forall b, In b l2 -> ~ kills b a) -> In a s.
Proof.
  revert s. induction l1 as [|x l1 IH]; simpl; intros s S St Nk.
  - inversion S; subst; simpl; auto. destruct H1 as [H|(b & Hb & Kb)]; [contradiction|].
    exfalso; eapply Nk; eauto.
  - inversion S; subst; simpl; eauto.
Qed.

Lemma survivors_sub l s : Survivors l s -> forall a, In a s -> In a l.
Proof. induction 1; simpl; intros x; intuition. Qed.

Lemma exclusive_kills c l a b : exclusive_in c l -> In b l -> In c (ainst b) -> In c (ainst a) -> kills b a.
Proof.
  intros E Hb Ib Ia. unfold kills. destruct (E b Hb Ib) as [->|(bs & ->)]; auto.
Qed.

Lemma exclusive_survivors c l s : Survivors l s -> exclusive_in c l ->
  (filter (fun a => isinstance a c) s = [] \/ exists a, filter (fun a => isinstance a c) s = [a]).
Proof.
  induction 1 as [|a l s St Nk S IH|a l s D S IH]; intros E; simpl; auto.
  - assert (E' : exclusive_in c l) by (intros x Hx; apply E; simpl; auto).
    destruct (isinstance a c) eqn:I; auto.
    right. exists a. f_equal.
    destruct (filter (fun a0 => isinstance a0 c) s) as [|b r] eqn:F; auto.
    exfalso. assert (Hb : In b (filter (fun a0 => isinstance a0 c) s)) by (rewrite F; simpl; auto).
    apply filter_In in Hb. destruct Hb as (Hb & Ib).
    apply (Nk b). eapply survivors_sub; eauto.
    eapply exclusive_kills with (l := a :: l); eauto.
    + right. eapply survivors_sub; eauto.
    + now apply isinstance_In.
    + now apply isinstance_In.
  - apply IH. intros x Hx; apply E; simpl; auto.
Qed.

Lemma filter_perm {A} (f : A -> bool) l l' : Permutation l l' -> Permutation (filter f l) (filter f l').
Proof.
  induction 1; simpl; auto.
  - destruct (f x); auto.
  - destruct (f x), (f y); auto. constructor.
  - etransitivity; eauto.
Qed.

Lemma mergeattrs_exclusive c l a l2 : exclusive_in c (l ++ a :: l2) -> In c (ainst a) ->
  (forall b, In b l2 -> ~ In c (ainst b)) ->
  (forall b, In b l2 -> ~ kills b a) ->
  filter (fun x => isinstance x c) (mergeattrs (l ++ a :: l2)) = [a].
Proof.
  intros E Ia Nc Nk.
  destruct (survivors_total (l ++ a :: l2)) as (s & S).
  pose proof (mergeattrs_perm _ _ S) as P.
  apply (filter_perm (fun x => isinstance x c)) in P.
  assert (Sa : stays a).
  { unfold stays. destruct (E a) as [->|(bs & ->)]; auto. rewrite in_app_iff; simpl; auto. }
  assert (Hin : In a (filter (fun x => isinstance x c) s)).
  { apply filter_In. split. eapply survivors_last; eauto. now apply isinstance_In. }
  destruct (exclusive_survivors c _ _ S E) as [F|(b & F)]; rewrite F in *; simpl in Hin; [tauto|].
  destruct Hin as [->|[]]. apply Permutation_sym, Permutation_length_1_inv in P. exact P.
Qed.

(** ** incremental merging *)
Lemma mergeattrs_app l1 l2 : mergeattrs (l1 ++ l2) = fold_left (fun acc a => merge a acc) l2 (mergeattrs l1).
Proof. unfold mergeattrs. now rewrite fold_left_app. Qed.

(** ** order of sorting attributes *)
Lemma mustprecede_spec a b : mustprecede a b <-> issb a = true /\ isinstance_any b (before_classes a) = true.
Proof. unfold mustprecede. rewrite isinstance_any_In. tauto. Qed.

(** pairs formulation *)
Lemma prec_ok_cons x l : prec_ok (x :: l) <-> (forall a, In a l -> ~ mustprecede a x) /\ prec_ok l.
Proof.
  split.
  - intros H. split.
    + intros a Ha. apply (H [] x l); auto.
    + intros l1 y l2 E. apply (H (x :: l1) y l2). simpl. now f_equal.
  - intros (H1 & H2) l1 y l2 E. destruct l1 as [|z l1]; simpl in E; inversion E; subst; auto.
    eapply H2; eauto.
Qed.

Lemma prec_ok_app l1 l2 : prec_ok (l1 ++ l2) <->
  prec_ok l1 /\ prec_ok l2 /\ (forall x a, In x l1 -> In a l2 -> ~ mustprecede a x).
Proof.
  induction l1 as [|y l1 IH]; simpl.
  - split; [|tauto]. intros H. split; [|split]; auto.
    intros l1 x l2' E. destruct l1; discriminate.
  - rewrite !prec_ok_cons, IH. split.
    + intros (H1 & H2 & H3 & H4). split; [split|split]; auto.
      * intros a Ha. apply H1. apply in_app_iff; auto.
      * intros x a [->|Hx] Ha; auto. apply H1. apply in_app_iff; auto.
    + intros ((H1 & H2) & H3 & H4). split; [|split; [|split]]; auto.
      intros a Ha. apply in_app_iff in Ha. destruct Ha; auto.
Qed.

Lemma prec_ok_keep b l : prec_ok l -> prec_ok (keep b l).
Proof.
  induction l as [|x l IH]; simpl; auto.
  rewrite prec_ok_cons. intros (H1 & H2). destruct (killsb b x); simpl; auto.
  apply prec_ok_cons. split; auto. intros a Ha. apply H1. now apply keep_In in Ha.
Qed.

Lemma merge_sub b l a : In a (merge b l) -> a = b \/ In a l.
Proof.
  intros H. apply (Permutation_in _ (merge_perm b l)) in H.
  apply in_app_iff in H. destruct H as [H|H].
  - right. now apply keep_In in H.
  - destruct (staysb b); simpl in H; intuition.
Qed.

Lemma mergeattrs_sub l a : In a (mergeattrs l) -> In a l.
Proof.
  induction l as [|b l IH] using rev_ind; simpl; auto.
  rewrite mergeattrs_snoc, in_app_iff. simpl. intros H.
  apply merge_sub in H. intuition.
Qed.

Lemma mergeattrs_prec l : sb_transitive l -> sb_irrefl l -> prec_ok (mergeattrs l).
Proof.
  induction l as [|b l IH] using rev_ind; intros T I.
  - intros l1 x l2 E. destruct l1; discriminate.
  - assert (T' : sb_transitive l) by (intros x y z ? ? ?; apply T; apply in_app_iff; auto).
    assert (I' : sb_irrefl l) by (intros x y ? ?; apply I; apply in_app_iff; auto).
    specialize (IH T' I').
    rewrite mergeattrs_snoc.
    destruct (merge_spec b (mergeattrs l)) as (l1 & l2 & E & M & F1 & F2 & F3).
    rewrite M. rewrite E in IH. apply prec_ok_app in IH. destruct IH as (P1 & P2 & P12).
    assert (Hsub : forall x, In x (l1 ++ l2) -> In x (l ++ [b])).
    { intros x Hx. rewrite <- E in Hx. apply in_app_iff. left. now apply mergeattrs_sub. }
    assert (Hb : In b (l ++ [b])) by (apply in_app_iff; simpl; auto).
    apply prec_ok_app. split; [now apply prec_ok_keep|]. split.
    + destruct (staysb b) eqn:St; simpl; [|now apply prec_ok_keep].
      apply prec_ok_cons. split; [|now apply prec_ok_keep].
      intros a Ha. apply keep_In in Ha. destruct Ha as (Ha & _). intros Mp.
      (* a after b must precede b *)
      destruct l2 as [|x l2]; [easy|]. simpl in F3.
      destruct (issb b) eqn:B; [|now specialize (F2 eq_refl)].
      assert (Mbx : mustprecede b x) by now apply mustprecede_spec.
      destruct Ha as [->|Ha].
      * eapply I; [| |exact Mp|exact Mbx]; auto. apply Hsub, in_app_iff; simpl; auto.
      * apply prec_ok_cons in P2. destruct P2 as (P2 & _). apply (P2 a Ha).
        eapply T; [| | |exact Mp|exact Mbx]; auto; apply Hsub, in_app_iff; simpl; auto.
    + intros x a Hx Ha. apply keep_In in Hx. destruct Hx as (Hx & _).
      apply in_app_iff in Ha. destruct Ha as [Ha|Ha].
      * destruct (staysb b); [|easy]. destruct Ha as [->|[]].
        intros Mp. apply mustprecede_spec in Mp. destruct Mp as (B & Mp).
        rewrite (F1 B x Hx) in Mp. discriminate.
      * apply keep_In in Ha. destruct Ha as (Ha & _). auto.
Qed.

(** ** idempotence *)
Lemma kills_none_keep b l : (forall a, In a l -> ~ kills b a) -> keep b l = l.
Proof.
  induction l as [|a l IH]; simpl; intros H; auto.
  destruct (killsb b a) eqn:K; simpl.
  - exfalso. apply (H a); auto. now apply killsb_spec.
  - f_equal. auto.
Qed.

(** later elements of the merged list do not kill earlier ones *)
Definition nokill (l : list attr) : Prop :=
  forall l1 x l2, l = l1 ++ x :: l2 -> forall a, In a l2 -> ~ kills a x.

Lemma merge_fixpoint l : (forall a, In a l -> stays a) -> nokill l -> prec_ok l ->
  mergeattrs l = l.
Proof.
  induction l as [|b l IH] using rev_ind; intros St Nk P; auto.
  rewrite mergeattrs_snoc, IH.
  - destruct (merge_spec b l) as (l1 & l2 & E & M & F1 & F2 & F3). rewrite M.
    assert (staysb b = true) as -> by (apply staysb_spec, St, in_app_iff; simpl; auto).
    assert (K : forall a, In a l -> ~ kills b a).
    { intros a Ha. apply in_split in Ha. destruct Ha as (m1 & m2 & ->).
      apply (Nk m1 a (m2 ++ [b])). now rewrite <- app_assoc. apply in_app_iff; simpl; auto. }
    rewrite !kills_none_keep; try (intros a Ha; apply K; rewrite E; apply in_app_iff; auto).
    destruct l2 as [|x l2].
    + rewrite E, !app_nil_r. reflexivity.
    + exfalso. destruct (issb b) eqn:B; [|now specialize (F2 eq_refl)].
      apply (P l1 x (l2 ++ [b])) with (a := b).
      * rewrite E, <- app_assoc. reflexivity.
      * apply in_app_iff; simpl; auto.
      * now apply mustprecede_spec.
  - intros a Ha. apply St, in_app_iff; auto.
  - intros l1 x l2 E a Ha. apply (Nk l1 x (l2 ++ [b])).
    + rewrite E, <- app_assoc. reflexivity.
    + apply in_app_iff; auto.
  - now apply prec_ok_app in P.
Qed.

(** pairwise relation *)
Lemma FOP_perm {A} (R : A -> A -> Prop) (Rsym : forall x y, R x y -> R y x) l l' :
  Permutation l l' -> ForallOrdPairs R l -> ForallOrdPairs R l'.
Proof.
  induction 1; intros F; auto.
  - inversion F; subst. constructor; auto. eapply Permutation_Forall; eauto.
  - inversion F as [|? ? F1 F2]; subst. inversion F2 as [|? ? F3 F4]; subst.
    inversion F1; subst. constructor; [constructor; auto|constructor; auto].
Qed.

Lemma FOP_nokill l : ForallOrdPairs (fun x a => ~ kills a x) l -> nokill l.
Proof.
  induction 1 as [|x l F P IH].
  - intros l1 x l2 E. destruct l1; discriminate.
  - intros l1 y l2 E a Ha. destruct l1 as [|z l1]; simpl in E; inversion E; subst.
    + rewrite Forall_forall in F. auto.
    + eapply IH; eauto.
Qed.

Lemma survivors_FOP l s : Survivors l s -> ForallOrdPairs (fun x a => ~ kills a x) s.
Proof.
  induction 1 as [|a l s St Nk S IH|a l s D S IH]; auto; [constructor|].
  constructor; auto. apply Forall_forall. intros x Hx. apply Nk. eapply survivors_sub; eauto.
Qed.

Lemma survivors_stays l s : Survivors l s -> forall a, In a s -> stays a.
Proof. induction 1; simpl; intros x Hx; [easy|destruct Hx as [<-|Hx]; auto|auto]. Qed.

Lemma FOP_impl_in {A} (R R' : A -> A -> Prop) l :
  (forall x y, In x l -> In y l -> R x y -> R' x y) -> ForallOrdPairs R l -> ForallOrdPairs R' l.
Proof.
  intros H F. induction F as [|x l F P IH]; constructor.
  - rewrite Forall_forall in *. intros y Hy. apply H; simpl; auto.
  - apply IH. intros; apply H; simpl; auto.
Qed.

Lemma mergeattrs_nokill l : kill_sym l -> nokill (mergeattrs l).
Proof.
  intros Sy. destruct (survivors_total l) as (s & S).
  pose proof (mergeattrs_perm _ _ S) as P.
  apply FOP_nokill.
  assert (F : ForallOrdPairs (fun x a => ~ kills a x /\ ~ kills x a) s).
  { eapply FOP_impl_in; [|eapply survivors_FOP; eauto].
    intros x y Hx Hy Nk. split; auto. intros K. apply Nk.
    apply Sy; auto; try (eapply survivors_sub; eauto). eapply survivors_stays; eauto. }
  eapply FOP_perm in F; [|intros x y []; split; assumption|exact (Permutation_sym P)].
  eapply FOP_impl_in; [|exact F]. simpl; tauto.
Qed.

Lemma mergeattrs_idem l : sb_transitive l -> sb_irrefl l -> kill_sym l ->
  mergeattrs (mergeattrs l) = mergeattrs l.
Proof.
  intros T I Sy. apply merge_fixpoint.
  - intros a Ha. destruct (survivors_total l) as (s & S).
    eapply survivors_stays; eauto. eapply Permutation_in; [eapply mergeattrs_perm|]; eauto.
  - now apply mergeattrs_nokill.
  - now apply mergeattrs_prec.
Qed.

(** ** checkattrs *)
Lemma filter_length_le {A} (f : A -> bool) l : length (filter f l) <= length l.
Proof. induction l as [|x l IH]; simpl; auto. destruct (f x); simpl; lia. Qed.

Lemma getattrs_length l cs : length (getattrs l cs) = length l ->
  forall a, In a l -> isinstance_any a cs = true.
Proof.
  unfold getattrs. induction l as [|x l IH]; simpl; [easy|].
  pose proof (filter_length_le (fun a => isinstance_any a cs) l) as L.
  destruct (isinstance_any x cs) eqn:X; simpl; intros H a [->|Ha]; auto; try lia; apply IH; auto; lia.
Qed.

Lemma getattrs_all l cs : (forall a, In a l -> isinstance_any a cs = true) -> getattrs l cs = l.
Proof.
  unfold getattrs. induction l as [|x l IH]; simpl; intros H; auto.
  rewrite (H x) by auto. f_equal. auto.
Qed.

Lemma checkattrs_ok l cs : checkattrs l cs = CheckOk <->
  (forall a, In a l -> exists c, In c cs /\ In c (ainst a)).
Proof.
  unfold checkattrs. split.
  - destruct (Nat.eqb (length l) (length (getattrs l cs))) eqn:E.
    + intros _ a Ha. apply Nat.eqb_eq in E. apply isinstance_any_In.
      eapply getattrs_length; eauto.
    + destruct (check_loop l (getattrs l cs)); [discriminate|].
      destruct (nth_error l (length (getattrs l cs))) eqn:N; [discriminate|].
      exfalso. apply nth_error_None in N. apply Nat.eqb_neq in E.
      pose proof (filter_length_le (fun a => isinstance_any a cs) l). unfold getattrs in *. lia.
  - intros H. rewrite getattrs_all; [now rewrite Nat.eqb_refl|].
    intros a Ha. apply isinstance_any_In. auto.
Qed.

(** the instance named in the error is the first which is not allowed *)
Lemma check_first ok bad l cs : ids_consistent (ok ++ bad :: l) ->
  (forall a, In a ok -> isinstance_any a cs = true) -> isinstance_any bad cs = false ->
  checkattrs (ok ++ bad :: l) cs = CheckTypeError bad.
Proof.
  intros Id Hok Hbad. unfold checkattrs.
  assert (G : getattrs (ok ++ bad :: l) cs = ok ++ getattrs l cs).
  { unfold getattrs. rewrite filter_app. simpl. rewrite Hbad. f_equal. now apply getattrs_all. }
  rewrite G.
  assert (L : length (getattrs l cs) <= length l) by apply filter_length_le.
  rewrite !app_length. simpl.
  destruct (Nat.eqb _ _) eqn:E; [apply Nat.eqb_eq in E; lia|].
  assert (C : check_loop (ok ++ bad :: l) (ok ++ getattrs l cs) =
              check_loop (bad :: l) (getattrs l cs)).
  { clear. induction ok as [|x ok IH]; simpl; auto. now rewrite Nat.eqb_refl. }
  rewrite C. destruct (getattrs l cs) as [|y r] eqn:Gl; simpl.
  - rewrite nth_error_app2 by lia. replace (length ok + 0 - length ok) with 0 by lia. reflexivity.
  - destruct (Nat.eqb (aid bad) (aid y)) eqn:Ey; auto.
    exfalso. apply Nat.eqb_eq in Ey.
    assert (Hy : In y (getattrs l cs)) by (rewrite Gl; simpl; auto).
    apply filter_In in Hy. destruct Hy as (Hy & Iy).
    assert (bad = y); [|congruence].
    apply Id; auto; apply in_app_iff; simpl; auto.
Qed.

(** ** selection *)
Lemma changelist_cyclic l index : l <> [] -> exists a,
  changelist_select l true index = Sel a /\ nth_error l (index mod length l) = Some a.
Proof.
  intros H. unfold changelist_select. destruct l as [|x l]; [easy|].
  destruct (nth_error (x :: l) (index mod length (x :: l))) eqn:E; eauto.
  exfalso. apply nth_error_None in E.
  pose proof (Nat.mod_upper_bound index (length (x :: l))). simpl length in *. lia.
Qed.

Lemma selectattrs_pointwise l index total r : selectattrs l index total = Sel r <->
  Forall2 (fun x a => match x with AFix b => a = b | AChange c => select c index total = Sel a end) l r.
Proof.
  revert r. induction l as [|x l IH]; simpl; intros r.
  - split; [intros [= <-]; constructor|inversion 1; auto].
  - split.
    + destruct x as [a|c].
      * destruct (selectattrs l index total) eqn:E; try discriminate. intros [= <-].
        constructor; auto. now apply IH.
      * destruct (select c index total) eqn:Es; try discriminate.
        destruct (selectattrs l index total) eqn:E; try discriminate. intros [= <-].
        constructor; auto. now apply IH.
    + inversion 1 as [|? a ? r' H1 H2]; subst. apply IH in H2.
      destruct x; [subst; now rewrite H2|now rewrite H1, H2].
Qed.
