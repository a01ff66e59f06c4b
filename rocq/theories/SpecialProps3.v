(** C147: names that are given twice in the special of an included file *)
From Coq Require Import Ascii String ZArith Reals List Bool Lia.
From Verif Require Import MapModel MapSpec MapProps SpecialModel SpecialSpec SpecialProps.
Import ListNotations.

Lemma cut_read : forall k v : chars, ~ In 61%Z k -> cut (k ++ 61%Z :: v) = Some (k, v).
Proof.
  induction k as [|c k IH]; intros v N; cbn [app cut]; [reflexivity|]. destruct (Z.eqb_spec c 61) as [->|Nc]; [exfalso; apply N; now left|].
  rewrite IH by (intros I; apply N; now right). reflexivity.
Qed.
Lemma keyvalue_read : forall k v : chars, ~ In 61%Z k -> ~ In 61%Z v -> keyvalue (k ++ 61%Z :: v) = Some (k, v).
Proof.
  intros k v Nk Nv. unfold keyvalue. rewrite cut_read by auto. destruct (existsb (Z.eqb 61) v) eqn:E; auto. apply existsb_exists in E as (x & I & X). apply Z.eqb_eq in X. now subst.
Qed.
(** C147: of a name that is given twice only the later value counts, wherever the two are *)
Theorem later_value : forall fl int k v v' (a b c : list chars), ~ In 61%Z k -> ~ In 61%Z v -> ~ In 61%Z v' ->
  getinclude fl int (a ++ (k ++ 61%Z :: v) :: b ++ (k ++ 61%Z :: v') :: c) = getinclude fl int (a ++ b ++ (k ++ 61%Z :: v') :: c).
Proof.
  intros fl int k v v' a b c Nk Nv Nv'. unfold getinclude.
  assert (S : forall l m : list (option (chars * chars)), sequence (l ++ m) = bind (sequence l) (fun x => bind (sequence m) (fun y => Some (x ++ y)))).
  { induction l as [|[x|] l IH]; intros m; cbn [app sequence bind]; auto; [destruct (sequence m); reflexivity|]. rewrite IH. destruct (sequence l); cbn [bind]; auto. destruct (sequence m); reflexivity. }
  rewrite !map_app. cbn [map]. rewrite !map_app. cbn [map]. rewrite !S. cbn [sequence]. rewrite !S. cbn [sequence]. rewrite !keyvalue_read by auto. cbn [bind].
  destruct (sequence (map keyvalue a)) as [la|]; cbn [bind]; auto. destruct (sequence (map keyvalue b)) as [lb|]; cbn [bind]; auto. destruct (sequence (map keyvalue c)) as [lc|]; cbn [bind]; auto.
  assert (V : forall n, value (la ++ (k, v) :: lb ++ (k, v') :: lc) n = value (la ++ lb ++ (k, v') :: lc) n).
  { intros n. unfold value. f_equal. rewrite !rev_app_distr. cbn [rev]. rewrite !rev_app_distr. cbn [rev]. rewrite <- !app_assoc. cbn [app].
    assert (F : forall f (l m : list (chars * chars)), find f (l ++ m) = match find f l with Some x => Some x | None => find f m end).
    { intros f l m. induction l as [|x l IH]; cbn [app find]; auto. destruct (f x); auto. }
    rewrite !F. cbn [find fst]. destruct (find _ (rev lc)); auto. destruct (chars_eqb k (kw n)) eqn:E; auto. rewrite !F. cbn [find fst]. rewrite E. reflexivity. }
  cbn [option_map bind]. rewrite !V. reflexivity.
Qed.
Print Assumptions later_value.
Example later_value_ex : option_map e_file (getinclude (fun _ => Some 0%R) (fun _ => None) (map key ["file=a.eps"; "llx=0"; "lly=0"; "urx=0"; "ury=0"; "file=b.eps"]%string)) = Some (key "b.eps").
Proof. reflexivity. Qed.
