(** Python dictionaries as association lists in insertion order.

    This is a model of the Python built-in, used wherever the modelled code in
    /repo/pyx uses a dict: [dset] is d[key] = value (an existing key keeps its
    position, a new one is appended), [dget] is d.get(key). *)
From Coq Require Import Bool List Permutation.
Import ListNotations.

Section Dict.
  Context {K V : Type} (eqb : K -> K -> bool).
  Hypothesis eqb_spec : forall a b, reflect (a = b) (eqb a b).

  Fixpoint dget (k : K) (d : list (K * V)) : option V :=
    match d with
    | [] => None
    | (k', v) :: d' => if eqb k k' then Some v else dget k d'
    end.

  Fixpoint dset (k : K) (v : V) (d : list (K * V)) : list (K * V) :=
    match d with
    | [] => [(k, v)]
    | (k', v') :: d' => if eqb k k' then (k', v) :: d' else (k', v') :: dset k v d'
    end.

  Definition keys (d : list (K * V)) : list K := map fst d.

  Lemma dget_None k d : dget k d = None <-> ~ In k (keys d).
  Proof.
    induction d as [|[k' v'] d IH]; simpl; [tauto|].
    destruct (eqb_spec k k').
    - subst. split; [discriminate|]. intros N. exfalso. apply N. now left.
    - rewrite IH. split; intros N; [|tauto]. intros [|]; [congruence|tauto].
  Qed.

  Lemma dget_In k v d : dget k d = Some v -> In (k, v) d.
  Proof.
    induction d as [|[k' v'] d IH]; simpl; [discriminate|].
    destruct (eqb_spec k k'); [intros [= ->]; subst; now left|auto].
  Qed.

  Lemma In_dget k v d : NoDup (keys d) -> In (k, v) d -> dget k d = Some v.
  Proof.
    induction d as [|[k' v'] d IH]; simpl; [tauto|]. intros ND Hin.
    inversion ND as [|? ? N1 N2]; subst. destruct (eqb_spec k k').
    - subst. destruct Hin as [[= ->]|Hin]; auto. exfalso. apply N1.
      change k' with (fst (k', v)). now apply in_map.
    - destruct Hin as [[= -> ->]|Hin]; [congruence|auto].
  Qed.

  Lemma dget_dset_same k v d : dget k (dset k v d) = Some v.
  Proof.
    induction d as [|[k' v'] d IH]; simpl.
    - destruct (eqb_spec k k); congruence.
    - destruct (eqb_spec k k') as [E|E]; simpl; destruct (eqb_spec k k'); congruence.
  Qed.

  Lemma dget_dset_other k k' v d : k <> k' -> dget k (dset k' v d) = dget k d.
  Proof.
    intros N. induction d as [|[k1 v1] d IH]; simpl.
    - destruct (eqb_spec k k'); congruence.
    - destruct (eqb_spec k' k1) as [E|E]; simpl; [subst; destruct (eqb_spec k k1); congruence|].
      destruct (eqb_spec k k1); congruence.
  Qed.

  Lemma dset_new k v d : ~ In k (keys d) -> dset k v d = d ++ [(k, v)].
  Proof.
    induction d as [|[k1 v1] d IH]; simpl; auto. intros N.
    destruct (eqb_spec k k1); [subst; tauto|]. rewrite IH; auto.
  Qed.

  Lemma keys_dset_old k v d : In k (keys d) -> keys (dset k v d) = keys d.
  Proof.
    induction d as [|[k1 v1] d IH]; simpl; [tauto|]. intros H.
    destruct (eqb_spec k k1); simpl; auto. f_equal. apply IH. destruct H; [congruence|auto].
  Qed.

  Lemma keys_dec k d : {In k (keys d)} + {~ In k (keys d)}.
  Proof.
    apply in_dec. intros a b. destruct (eqb_spec a b); auto.
  Qed.

  Lemma keys_dset k v d : keys (dset k v d) = if keys_dec k d then keys d else keys d ++ [k].
  Proof.
    destruct (keys_dec k d); [now apply keys_dset_old|].
    rewrite dset_new by auto. unfold keys. now rewrite map_app.
  Qed.

  Lemma NoDup_snoc {A} (l : list A) x : NoDup l -> ~ In x l -> NoDup (l ++ [x]).
  Proof.
    intros H N. apply (Permutation_NoDup (l := x :: l)).
    - apply Permutation_cons_append.
    - now constructor.
  Qed.

  Lemma NoDup_dset k v d : NoDup (keys d) -> NoDup (keys (dset k v d)).
  Proof.
    intros H. rewrite keys_dset. destruct (keys_dec k d); auto. now apply NoDup_snoc.
  Qed.

  Lemma In_keys_dset k k' v d : In k' (keys (dset k v d)) <-> k' = k \/ In k' (keys d).
  Proof.
    rewrite keys_dset. destruct (keys_dec k d).
    - split; [tauto|]. intros [->|]; auto.
    - rewrite in_app_iff. simpl. intuition congruence.
  Qed.

  Lemma dset_split k v d : In k (keys d) -> exists d1 d2 v0,
    d = d1 ++ (k, v0) :: d2 /\ dset k v d = d1 ++ (k, v) :: d2.
  Proof.
    induction d as [|[k1 v1] d IH]; simpl; [tauto|]. intros H. destruct (eqb_spec k k1) as [E|E].
    - subst. exists [], d, v1. auto.
    - destruct IH as (d1 & d2 & v0 & E1 & E2); [destruct H; [congruence|auto]|].
      exists ((k1, v1) :: d1), d2, v0. rewrite E2. subst d. auto.
  Qed.
End Dict.
