(** Keyword argument splitting (C16). *)
From Coq Require Import String Bool List Permutation.
From Verif Require Import PyDict UtilsModel UtilsProofs.
Import ListNotations.
Open Scope string_scope.

(** C16: the entries of the result, with the prefixes put back, are exactly the
    given entries; no entry of the result repeats. *)
Theorem kwsplit_partitions : forall V (kwargs : list (string * V)) parts allow split rest,
  NoDup (map fst kwargs) -> kwsplit kwargs parts allow = Some (split, rest) ->
  Permutation kwargs (flatten split ++ rest) /\ NoDup (map fst (flatten split ++ rest)).
Proof.
  intros V kwargs parts allow split rest ND. unfold kwsplit.
  destruct (fold_left _ kwargs _) as [s r] eqn:E. destruct (allow && _)%bool; [discriminate|].
  intros [= <- <-]. destruct (kwsplit_ok kwargs parts s r ND E) as (_ & _ & P). split; auto.
  eapply Permutation_NoDup; [|exact ND]. now apply Permutation_map.
Qed.
Print Assumptions kwsplit_partitions.

(** C16: an entry lands in part p under s iff its key is p_s with p free of
    underscores and p is one of the parts; all others land in the rest. *)
Theorem kwsplit_placement : forall V (kwargs : list (string * V)) parts allow split rest,
  NoDup (map fst kwargs) -> kwsplit kwargs parts allow = Some (split, rest) ->
  forall k v, In (k, v) kwargs ->
    (forall p s, prefixed k p s -> allowed parts p ->
       (exists d, dget String.eqb p split = Some d /\ dget String.eqb s d = Some v) /\ dget String.eqb k rest = None) /\
    ((forall p s, prefixed k p s -> ~ allowed parts p) -> dget String.eqb k rest = Some v).
Proof.
  intros V kwargs parts allow split rest ND. unfold kwsplit.
  destruct (fold_left _ kwargs _) as [s r] eqn:E. destruct (allow && _)%bool; [discriminate|].
  intros [= <- <-]. destruct (kwsplit_ok kwargs parts s r ND E) as ((G1 & G2) & (R1 & R2) & P).
  intros k v Hin. apply (Permutation_in _ P) in Hin. apply in_app_iff in Hin. split.
  - intros p sub PF Al.
    assert (~ In k (keys r)) as Nr.
    { intros H. destruct (R2 k H) as [N|(p' & s' & PF' & Nal)].
      - apply (N p sub). apply PF.
      - destruct (prefixed_fun _ _ _ _ _ PF PF'); subst. tauto. }
    split; [|now apply (dget_None _ String.eqb_spec)].
    destruct Hin as [Hin|Hin].
    + apply flatten_In in Hin. destruct Hin as (p' & s' & d & H1 & H2 & Ek).
      destruct (G2 _ _ H1) as (Np & _ & _ & Nd).
      assert (p = p' /\ sub = s') as (<- & <-) by (apply (prefixed_fun k); auto; split; auto).
      exists d. split; apply (In_dget _ String.eqb_spec); auto.
    + exfalso. apply Nr. apply in_map_iff. exists (k, v). auto.
  - intros Nal. destruct Hin as [Hin|Hin]; [|now apply (In_dget _ String.eqb_spec)].
    exfalso. apply flatten_In in Hin. destruct Hin as (p' & s' & d & H1 & H2 & Ek).
    destruct (G2 _ _ H1) as (Np & Al & _). apply (Nal p' s'); auto. split; auto.
Qed.
Print Assumptions kwsplit_placement.

(** C16: with allow_only_split the error is raised exactly if some entry does
    not belong to a part; otherwise the call always succeeds. *)
Theorem kwsplit_error_iff : forall V (kwargs : list (string * V)) parts allow,
  NoDup (map fst kwargs) ->
  (kwsplit kwargs parts allow = None <->
   allow = true /\ exists k v, In (k, v) kwargs /\ forall p s, prefixed k p s -> ~ allowed parts p).
Proof.
  intros V kwargs parts allow ND. unfold kwsplit.
  destruct (fold_left _ kwargs _) as [s r] eqn:E.
  destruct (kwsplit_ok kwargs parts s r ND E) as ((G1 & G2) & (R1 & R2) & P).
  split.
  - destruct allow; simpl; [|discriminate]. destruct r as [|[k v] r]; simpl; [discriminate|]. intros _. split; auto.
    exists k, v. split.
    + apply (Permutation_in _ (Permutation_sym P)). apply in_app_iff. right. now left.
    + intros p sub PF. destruct (R2 k) as [N|(p' & s' & PF' & Nal)]; [now left| |].
      * exfalso. apply (N p sub). apply PF.
      * destruct (prefixed_fun _ _ _ _ _ PF PF'); now subst.
  - intros (-> & k & v & Hin & Nal). destruct r as [|]; auto. exfalso.
    apply (Permutation_in _ P) in Hin. rewrite app_nil_r in Hin. apply flatten_In in Hin.
    destruct Hin as (p' & s' & d & H1 & H2 & Ek). destruct (G2 _ _ H1) as (Np & Al & _).
    apply (Nal p' s'); auto. split; auto.
Qed.
Print Assumptions kwsplit_error_iff.

(** The later keyword dictionaries win over the earlier ones and all of them
    over the members of the object. *)
Theorem merge_members_kwargs_last_wins : forall V (getattr : string -> option V) us u names d,
  merge_members_kwargs getattr (us ++ [u]) names = Some d ->
  exists d', merge_members_kwargs getattr us names = Some d' /\
    forall k, dget String.eqb k d = match dget String.eqb k (rev u) with
                                    | Some v => Some v
                                    | None => dget String.eqb k d'
                                    end.
Proof.
  intros V getattr us u names d. unfold merge_members_kwargs.
  destruct (members getattr names []) as [m|]; simpl; [|discriminate].
  rewrite fold_left_app. simpl. intros [= <-]. eexists. split; [reflexivity|].
  intros k. apply dupdate_get.
Qed.
Print Assumptions merge_members_kwargs_last_wins.

Example kwsplit_ex : kwsplit [("aaa_bbb", 1); ("ddd_e_f", 2); ("ggg", 3); ("aaa_c", 4)] (Some ["aaa"; "ddd"]) false
  = Some ([("aaa", [("bbb", 1); ("c", 4)]); ("ddd", [("e_f", 2)])], [("ggg", 3)]).
Proof. reflexivity. Qed.

Example kwsplit_ex_error : kwsplit [("aaa_bbb", 1); ("ggg", 3)] None true = None.
Proof. reflexivity. Qed.

Example merge_members_ex : merge_members_kwargs (fun n => if String.eqb n "title" then Some 0 else None)
  [[("title", 1)]; [("title", 2); ("x", 3)]] ["title"] = Some [("title", 2); ("x", 3)].
Proof. reflexivity. Qed.
