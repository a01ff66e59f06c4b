From Coq Require Import String Ascii Bool List Permutation.
From Verif Require Import PyDict UtilsModel.
Import ListNotations.
Open Scope string_scope.

(** Specification side: no reference to the helpers of the model. *)

(** [prefixed key part sub]: key is part, an underscore and sub, and part is
    free of underscores *)
Definition prefixed (key part sub : string) : Prop :=
  key = part ++ "_" ++ sub /\ forall a b, part <> a ++ "_" ++ b.

Definition no_underscore (s : string) : Prop := forall a b, s <> a ++ "_" ++ b.

Definition allowed (parts : option (list string)) (p : string) : Prop :=
  match parts with None => True | Some l => In p l end.

(** put the prefixes back and collect all entries *)
Definition flatten {V} (split : list (string * list (string * V))) : list (string * V) :=
  flat_map (fun pd => map (fun kv => (fst pd ++ "_" ++ fst kv, snd kv)) (snd pd)) split.

Lemma split_uscore_Some s p r : split_uscore s = Some (p, r) <-> prefixed s p r.
Proof.
  unfold prefixed. revert p r. induction s as [|c s IH]; intros p r; simpl.
  - split; [discriminate|]. intros (E & _). destruct p; discriminate.
  - destruct (Ascii.eqb_spec c uscore) as [->|N].
    + split.
      * intros [= <- <-]. split; auto. intros a b H. destruct a; discriminate.
      * intros (E & Np). destruct p as [|c' p]; simpl in E; [now injection E as ->|].
        injection E as <- E. exfalso. apply (Np "" p). reflexivity.
    + destruct (split_uscore s) as [[p' r']|] eqn:S.
      * split.
        -- intros [= <- <-]. destruct (proj1 (IH p' r') eq_refl) as (E & Np). split.
           ++ rewrite E. reflexivity.
           ++ intros a b H. destruct a as [|c' a]; simpl in H; [injection H as Hc _; exfalso; now apply N|].
              injection H as -> H. now apply (Np a b).
        -- intros (E & Np). destruct p as [|c' p]; simpl in E; [injection E as Hc _; exfalso; now apply N|].
           injection E as <- E.
           assert (Some (p', r') = Some (p, r)) as [= -> ->]; auto.
           apply IH. split; auto. intros a b H. apply (Np (String c a) b). simpl. now rewrite H.
      * split; [discriminate|]. intros (E & Np). destruct p as [|c' p]; simpl in E; [injection E as Hc _; exfalso; now apply N|].
        injection E as <- E. enough (@None (string * string) = Some (p, r)) by discriminate. apply IH. split; auto.
        intros a b H. apply (Np (String c a) b). simpl. now rewrite H.
Qed.

Lemma split_uscore_None s : split_uscore s = None <-> no_underscore s.
Proof.
  unfold no_underscore. split.
  - intros H a b E. subst s. revert H. induction a as [|c a IH]; simpl; [discriminate|].
    destruct (Ascii.eqb c uscore); [discriminate|]. simpl in IH. destruct (split_uscore _) as [[]|]; [discriminate|]. auto.
  - intros H. destruct (split_uscore s) as [[p r]|] eqn:E; auto.
    apply split_uscore_Some in E. destruct E as (E & _). now apply H in E.
Qed.

Lemma prefixed_fun k p s p' s' : prefixed k p s -> prefixed k p' s' -> p = p' /\ s = s'.
Proof.
  intros H H'. apply split_uscore_Some in H. apply split_uscore_Some in H'. split; congruence.
Qed.

Lemma in_parts_spec parts p : in_parts parts p = true <-> allowed parts p.
Proof.
  unfold in_parts, allowed. destruct parts as [l|]; [|tauto].
  rewrite existsb_exists. split.
  - intros (x & Hx & E). apply String.eqb_eq in E. now subst.
  - intros H. exists p. split; auto. apply String.eqb_refl.
Qed.

Section P.
  Context {V : Type}.
  Implicit Types (split : list (string * list (string * V))) (rest d : list (string * V)).

  Lemma flatten_app s1 s2 : flatten (V := V) (s1 ++ s2) = (flatten s1 ++ flatten s2)%list.
  Proof. unfold flatten. apply flat_map_app. Qed.

  (** every part occurs once, is allowed, non-empty and without repetition *)
  Definition good_split parts split :=
    NoDup (keys split) /\
    forall p d, In (p, d) split -> no_underscore p /\ allowed parts p /\ d <> nil /\ NoDup (keys d).

  Definition good_rest parts rest :=
    NoDup (keys rest) /\
    forall k, In k (keys rest) -> no_underscore k \/ exists p s, prefixed k p s /\ ~ allowed parts p.

  Lemma flatten_In split k v : In (k, v) (flatten split) <->
    exists p s d, In (p, d) split /\ In (s, v) d /\ k = p ++ "_" ++ s.
  Proof.
    unfold flatten. rewrite in_flat_map. split.
    - intros ((p & d) & H1 & H2). apply in_map_iff in H2. destruct H2 as ((s & v') & [= E1 E2] & H2).
      subst. exists p, s, d. auto.
    - intros (p & s & d & H1 & H2 & ->). exists (p, d). split; auto.
      apply in_map_iff. exists (s, v). auto.
  Qed.

  Lemma good_flatten_key parts split p s v d : good_split parts split -> In (p, d) split -> In (s, v) d ->
    prefixed (p ++ "_" ++ s) p s.
  Proof. intros (_ & G) H1 H2. destruct (G _ _ H1) as (N & _). split; auto. Qed.

  Lemma kwstep_inv parts split rest done key value :
    good_split parts split -> good_rest parts rest ->
    Permutation done (flatten split ++ rest) -> ~ In key (keys done) ->
    forall split' rest', kwstep parts (split, rest) (key, value) = (split', rest') ->
    good_split parts split' /\ good_rest parts rest' /\
    Permutation ((key, value) :: done) (flatten split' ++ rest').
  Proof.
    intros GS GR PM NK split' rest'. unfold kwstep.
    assert (forall k v, In (k, v) (flatten split) \/ In (k, v) rest -> key <> k) as Fresh.
    { intros k v H ->. apply NK. unfold keys. apply in_map_iff. exists (k, v). split; auto.
      apply (Permutation_in _ (Permutation_sym PM)). apply in_app_iff. tauto. }
    assert (~ In key (keys rest)) as NR.
    { intros H. apply in_map_iff in H. destruct H as ((k & v) & E & H). simpl in E. subst.
      eapply Fresh; eauto. }
    assert (forall P : Prop, (no_underscore key \/ exists p s, prefixed key p s /\ ~ allowed parts p) ->
      (split, dset String.eqb key value rest) = (split', rest') ->
      good_split parts split' /\ good_rest parts rest' /\
      Permutation ((key, value) :: done) (flatten split' ++ rest')) as RestCase.
    { intros _ Hk [= <- <-]. split; auto. split.
      - destruct GR as (G1 & G2). split; [apply NoDup_dset; auto using String.eqb_spec|].
        intros k Hin. apply (In_keys_dset _ String.eqb_spec) in Hin. destruct Hin as [->|]; auto.
      - rewrite (dset_new _ String.eqb_spec) by auto. rewrite app_assoc.
        rewrite <- Permutation_cons_append. now constructor. }
    destruct (split_uscore key) as [[p s]|] eqn:S; [|apply (RestCase True); left; now apply split_uscore_None].
    pose proof (proj1 (split_uscore_Some _ _ _) S) as PF.
    destruct (in_parts parts p) eqn:IP.
    2: { apply (RestCase True). right. exists p, s. split; auto. rewrite <- in_parts_spec. congruence. }
    apply in_parts_spec in IP. clear RestCase.
    assert (no_underscore p) as Np by exact (proj2 PF).
    destruct (dget String.eqb p split) as [sub|] eqn:G.
    - intros [= <- <-]. rewrite ?G, ?G. apply (dget_In _ String.eqb_spec) in G.
      assert (In p (keys split)) as Hp by (apply in_map_iff; exists (p, sub); auto).
      destruct (dset_split _ String.eqb_spec p (dset String.eqb s value sub) split Hp) as (d1 & d2 & v0 & E1 & E2).
      destruct GS as (G1 & G2).
      assert (v0 = sub) as ->.
      { subst split. assert (In (p, v0) (d1 ++ (p, v0) :: d2)) as H by (apply in_elt).
        apply (In_dget _ String.eqb_spec) in H; auto. apply (In_dget _ String.eqb_spec) in G; auto. congruence. }
      assert (~ In s (keys sub)) as Ns.
      { intros H. apply in_map_iff in H. destruct H as ((s' & v') & E & H). simpl in E. subst s'.
        apply (Fresh key v'); auto. left. apply flatten_In. exists p, s, sub. split; auto. split; auto. exact (proj1 PF). }
      rewrite E2. split; [|split; auto].
      + split.
        * rewrite <- E2. apply NoDup_dset; auto using String.eqb_spec.
        * intros p' d' Hin. apply in_app_iff in Hin. simpl in Hin.
          assert (In (p', d') split \/ (p', d') = (p, dset String.eqb s value sub)) as [H|[= -> ->]].
          { subst split. rewrite in_app_iff. simpl. intuition congruence. }
          -- now apply G2.
          -- destruct (G2 _ _ G) as (_ & _ & _ & ND). repeat split; auto.
             ++ destruct sub as [|[]]; simpl; [discriminate|]. destruct (s =? s0)%string; discriminate.
             ++ apply NoDup_dset; auto using String.eqb_spec.
      + rewrite (dset_new _ String.eqb_spec) by auto. subst split.
        rewrite PM, !flatten_app. unfold flatten at 2 4. simpl. rewrite map_app. simpl.
        replace (p ++ String "_" s) with key by exact (proj1 PF).
        rewrite !app_comm_cons. rewrite <- !app_assoc. simpl.
        rewrite !app_assoc.
        rewrite <- Permutation_middle, <- !app_assoc. reflexivity.
    - intros [= <- <-]. pose proof (proj1 (dget_None _ String.eqb_spec _ _) G) as Hp.
      rewrite (dget_dset_same _ String.eqb_spec). simpl.
      rewrite (dset_new _ String.eqb_spec p nil split Hp).
      assert (dset String.eqb p [(s, value)] (split ++ [(p, [])]) = (split ++ [(p, [(s, value)])])%list) as ->.
      { clear - Hp. induction split as [|[k1 v1] l IH]; simpl.
        - now rewrite String.eqb_refl.
        - simpl in Hp. destruct (String.eqb_spec p k1); [subst; tauto|]. rewrite IH; auto. }
      destruct GS as (G1 & G2). split; [|split; auto].
      + split.
        * unfold keys. rewrite map_app. simpl. apply NoDup_snoc; auto.
        * intros p' d' Hin. apply in_app_iff in Hin. destruct Hin as [Hin|[[= <- <-]|[]]]; auto.
          repeat split; auto; [discriminate|]. constructor; auto; constructor.
      + rewrite flatten_app. unfold flatten at 2. simpl.
        replace (p ++ String "_" s) with key by exact (proj1 PF).
        rewrite <- app_assoc. simpl. rewrite <- Permutation_middle. now constructor.
  Qed.

  Lemma kwloop_inv parts kwargs : forall split rest done,
    good_split parts split -> good_rest parts rest -> Permutation done (flatten split ++ rest) ->
    NoDup (keys (done ++ kwargs)) ->
    forall split' rest', fold_left (kwstep parts) kwargs (split, rest) = (split', rest') ->
    good_split parts split' /\ good_rest parts rest' /\ Permutation (done ++ kwargs) (flatten split' ++ rest').
  Proof.
    induction kwargs as [|[k v] kw IH]; intros split rest done GS GR PM ND split' rest' E.
    - simpl in E. injection E as <- <-. rewrite app_nil_r. auto.
    - change (fold_left (kwstep parts) kw (kwstep parts (split, rest) (k, v)) = (split', rest')) in E.
      destruct (kwstep parts (split, rest) (k, v)) as [s1 r1] eqn:E1.
      assert (Permutation ((k, v) :: done ++ kw) (done ++ (k, v) :: kw)) as PP by apply Permutation_middle.
      assert (NoDup (keys (((k, v) :: done) ++ kw))) as ND'.
      { unfold keys in *. eapply Permutation_NoDup; [|exact ND].
        apply Permutation_map. symmetry. exact PP. }
      destruct (kwstep_inv parts split rest done k v GS GR PM) with (split' := s1) (rest' := r1) as (A & B & C); auto.
      { simpl in ND'. inversion ND' as [|? ? N _]; subst. intros H. apply N.
        unfold keys. rewrite map_app, in_app_iff. now left. }
      destruct (IH s1 r1 ((k, v) :: done) A B C ND' _ _ E) as (A' & B' & C'). split; auto. split; auto.
      rewrite <- PP. exact C'.
  Qed.

  Lemma kwsplit_ok (kwargs : list (string * V)) parts split rest : NoDup (keys kwargs) ->
    fold_left (kwstep parts) kwargs ([], []) = (split, rest) ->
    good_split parts split /\ good_rest parts rest /\ Permutation kwargs (flatten split ++ rest).
  Proof.
    intros ND E. apply (kwloop_inv parts kwargs [] [] []); auto.
    - split; [constructor|simpl; tauto].
    - split; [constructor|simpl; tauto].
  Qed.

  Lemma flatten_nodup parts split : good_split parts split -> NoDup (keys (flatten split)).
  Proof.
    unfold good_split. induction split as [|[p d] l IH]; intros (G1 & G2); simpl; [constructor|].
    assert (forall (A B : list string), NoDup A -> NoDup B -> (forall x, In x A -> ~ In x B) -> NoDup (A ++ B)%list) as App.
    { induction A as [|a A IHA]; simpl; auto. intros B NA NB Dj. inversion NA; subst. constructor.
      - rewrite in_app_iff. intros [|]; [tauto|]. apply (Dj a); auto.
      - apply IHA; auto. }
    unfold keys. rewrite map_app. apply App.
    - rewrite map_map. simpl. destruct (G2 p d) as (_ & _ & _ & N); [now left|].
      clear - N. unfold keys in N. induction d as [|[s v] d IH]; simpl in *; [constructor|].
      inversion N as [|? ? N1 N2]; subst. constructor; auto. intros H. apply N1.
      apply in_map_iff in H. destruct H as ((s' & v') & E & H). simpl in E.
      apply in_map_iff. exists (s', v'). split; auto. simpl. clear - E.
      induction p as [|c p IH]; simpl in E; injection E as E; auto.
    - apply IH. simpl in G1. inversion G1; subst. split; auto. intros; apply G2. now right.
    - intros k H1 H2. apply in_map_iff in H1. destruct H1 as ((k1 & v1) & E1 & H1). simpl in E1. subst k1.
      apply in_map_iff in H1. destruct H1 as ((s & v) & [= E1 E2] & H1). simpl in *. subst.
      apply in_map_iff in H2. destruct H2 as ((k2 & v2) & E2 & H2). simpl in E2. subst k2.
      apply flatten_In in H2. destruct H2 as (p' & s' & d' & H2 & H3 & E).
      assert (p = p') as <-.
      { eapply (prefixed_fun (p ++ String "_" s) p s p' s').
        - split; [reflexivity|]. apply (G2 p d). now left.
        - split; [exact E|]. apply (G2 p' d'). now right. }
      inversion G1 as [|? ? N1 _]; subst. apply N1. apply in_map_iff. exists (p, d'). auto.
  Qed.

  Lemma dupdate_get (u : list (string * V)) : forall d k, dget String.eqb k (dupdate d u) =
    match dget String.eqb k (rev u) with Some v => Some v | None => dget String.eqb k d end.
  Proof.
    assert (forall k (a b : list (string * V)), dget String.eqb k (a ++ b) =
      match dget String.eqb k a with Some v => Some v | None => dget String.eqb k b end) as App.
    { induction a as [|[k1 v1] a IH]; simpl; auto. intros b. destruct (k =? k1)%string; auto. }
    unfold dupdate. induction u as [|[k1 v1] u IH]; intros d k; simpl; auto.
    rewrite IH, App. simpl. destruct (dget String.eqb k (rev u)); auto.
    destruct (String.eqb_spec k k1) as [->|N].
    - apply (dget_dset_same _ String.eqb_spec).
    - now apply (dget_dset_other _ String.eqb_spec).
  Qed.
End P.
