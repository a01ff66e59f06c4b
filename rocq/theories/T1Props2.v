(** * The subroutines for flex and hint replacement in stripped fonts (C93) *)
From Coq Require Import ZArith Ascii String List Bool Lia ZifyBool.
From Verif Require Import T1Model T1Proofs2.
Import ListNotations.
Open Scope Z_scope.

Lemma min_le a l x : In x (a :: l) -> fold_right Z.min a l <= x.
Proof.
  intros [<-|H].
  - induction l as [|b l IH]; cbn; lia.
  - revert x H. induction l as [|b l IH]; intros x []; cbn; [subst; lia|]. specialize (IH x H). lia.
Qed.
Lemma min_in a l : In (fold_right Z.min a l) (a :: l).
Proof. induction l as [|b l IH]; cbn; [auto|]. destruct (Z.min_spec b (fold_right Z.min a l)) as [[_ ->]|[_ ->]]; [auto|]. destruct IH; auto. Qed.

(** If any of the four first subroutines is used, and they are those of Adobe, then all four of them are kept; if none of them is used, none of
    them is kept. *)
Theorem flex_subrs_kept : forall F gs used j, hasflexhintsubrs F = true -> (forall i, In i used -> 0 <= i) -> (j < 4)%nat ->
  ((exists i, In i used /\ i < 4) -> nth_error (subrs (stripped F gs used)) j = nth_error (subrs F) j /\ nth_error (subrs F) j <> None) /\
  ((forall i, In i used -> 4 <= i) -> used <> [] -> nth_error (subrs (stripped F gs used)) j = Some [Cmd Return]).
Proof.
  intros F gs used j FH NN J. split.
  - intros (i & I & L).
    assert (AD : adjusted F used = [0; 1; 2; 3] ++ used).
    { unfold adjusted. destruct used as [|a r]; [destruct I|]. rewrite FH. pose proof (min_le a r i I). destruct (Z.ltb_spec (fold_right Z.min a r) 4); [reflexivity|lia]. }
    assert (LEN : (4 <= List.length (subrs F))%nat).
    { unfold hasflexhintsubrs in FH. destruct (subrs F) as [|s0 [|s1 [|s2 [|s3 l]]]]; cbn [List.length]; try lia; exfalso; unfold flexhintsubrs in FH; cbn [firstn list_eqb] in FH;
        repeat rewrite ?andb_false_r in FH; discriminate. }
    assert (JI : In (Z.of_nat j) (adjusted F used)) by (rewrite AD; apply in_or_app; left; assert (j = 0 \/ j = 1 \/ j = 2 \/ j = 3)%nat as [-> | [-> | [-> | ->]]] by lia; cbn; auto 6).
    unfold stripped. cbn [subrs]. pose proof (max_le _ _ JI) as M. set (u := adjusted F used) in *.
    rewrite nth_error_map. rewrite nth_error_nth' with (d := 0%nat) by (rewrite seq_length; lia). cbn [option_map]. rewrite seq_nth by lia. cbn [Nat.add].
    replace (existsb (Z.eqb (Z.of_nat j)) u) with true by (symmetry; apply existsb_exists; exists (Z.of_nat j); split; [exact JI|apply Z.eqb_refl]).
    rewrite (nth_error_nth' (subrs F) []) by lia. split; [reflexivity|discriminate].
  - intros H NE. assert (AD : adjusted F used = used).
    { unfold adjusted. destruct used as [|a r]; [reflexivity|]. pose proof (H _ (min_in a r)). destruct (Z.ltb_spec (fold_right Z.min a r) 4); [lia|]. rewrite andb_false_r. reflexivity. }
    unfold stripped. rewrite AD. cbn [subrs]. destruct used as [|a r]; [congruence|]. pose proof (H a (or_introl eq_refl)) as A4. pose proof (max_le a (a :: r) (or_introl eq_refl)) as M. set (u := a :: r) in *.
    rewrite nth_error_map. rewrite nth_error_nth' with (d := 0%nat) by (rewrite seq_length; lia). cbn [option_map]. rewrite seq_nth by lia. cbn [Nat.add].
    replace (existsb (Z.eqb (Z.of_nat j)) u) with false; [reflexivity|]. symmetry. apply not_true_is_false. intros X. apply existsb_exists in X as (x & IX & EX). apply Z.eqb_eq in EX. specialize (H x IX). lia.
Qed.
Print Assumptions flex_subrs_kept.
(** hint replacement (subroutine 3) keeps the flex subroutines *)
Example flex_subrs_kept_ex : let F := mkfont (flexhintsubrs ++ [[Num 1; Cmd Return]]) [] in
  subrs (stripped F [] [3]) = flexhintsubrs /\ subrs (stripped F [] [4]) = [[Cmd Return]; [Cmd Return]; [Cmd Return]; [Cmd Return]; [Num 1; Cmd Return]].
Proof. split; reflexivity. Qed.
