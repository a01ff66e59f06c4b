(** Lists in the configuration. *)
From Coq Require Import Ascii String List Arith Bool Lia.
From Verif Require Import ConfigModel ConfigSpec ConfigProps.
Import ListNotations.
Open Scope string_scope.

Lemma each_app P a b : each P (a ++ b) <-> each P a /\ each P b.
Proof. induction a as [|c a IH]; simpl; [tauto|rewrite IH; tauto]. Qed.
Lemma split_word w : each (fun c => is_space c = false) w -> forall acc rest, split_from (w ++ rest) acc = split_from rest (acc ++ w).
Proof.
  induction w as [|c w IH]; intros H acc rest; [now rewrite app_nil_s|]. destruct H as [H1 H2]. cbn [append split_from]. rewrite H1, IH by auto.
  now rewrite app_assoc_s.
Qed.
Lemma not_empty w : w <> "" -> String.eqb w "" = false.
Proof. intros H. destruct (String.eqb_spec w ""); congruence. Qed.
Lemma split_words ws : Forall (fun w => w <> "" /\ each (fun c => is_space c = false) w) ws -> split (String.concat " " ws) = ws.
Proof.
  unfold split. induction ws as [|w ws IH]; intros F; [reflexivity|]. inversion F as [|? ? [F1 F2] F3]; subst. destruct ws as [|w2 ws].
  - cbn [String.concat]. rewrite <- (app_nil_s w) at 1. rewrite split_word by auto. cbn [append split_from]. now rewrite (not_empty w F1).
  - change (String.concat " " (w :: w2 :: ws)) with (w ++ " " ++ String.concat " " (w2 :: ws)). rewrite split_word by auto.
    change (split_from (" " ++ ?x) ?y) with (if String.eqb y "" then split_from x "" else y :: split_from x "").
    cbn [append]. rewrite (not_empty w F1), IH by auto. reflexivity.
Qed.
Lemma prefix_written p : each (fun c => c <> "S"%char /\ c <> " "%char) p -> forall s, prefix p (written s) = true -> exists r, s = p ++ r.
Proof.
  induction p as [|x p IH]; intros H s E; [exists s; auto|]. destruct H as [[H1 H2] H3]. destruct s as [|c s]; [discriminate|]. cbn [written] in E.
  destruct (Ascii.eqb_spec c " ") as [->|N].
  - cbn [append prefix] in E. destruct (ascii_dec x "S"); [congruence|discriminate].
  - cbn [append prefix] in E. destruct (ascii_dec x c) as [<-|]; [|discriminate]. destruct (IH H3 s E) as [r ->]. exists r. reflexivity.
Qed.
Lemma replace_written s : (forall a b, s <> a ++ "SPACE" ++ b) -> replace_from "SPACE" " " 0 (written s) = s.
Proof.
  induction s as [|c s IH]; intros H; [reflexivity|].
  assert (H' : forall a b, s <> a ++ "SPACE" ++ b) by (intros a b ->; apply (H (String c a) b); reflexivity).
  cbn [written]. destruct (Ascii.eqb_spec c " ") as [->|N].
  - change (replace_from "SPACE" " " 0 ("SPACE" ++ written s)) with
      (if is_prefix "SPACE" ("SPACE" ++ written s) then " " ++ replace_from "SPACE" " " 0 (written s)
       else String "S" (replace_from "SPACE" " " 0 ("PACE" ++ written s))).
    assert (P : is_prefix "SPACE" ("SPACE" ++ written s) = true) by (unfold is_prefix; cbn; destruct (written s); reflexivity).
    rewrite P, IH by auto. reflexivity.
  - cbn [append replace_from].
    assert (P : is_prefix "SPACE" (String c (written s)) = false).
    { unfold is_prefix. cbn [prefix]. destruct (ascii_dec "S" c) as [<-|]; auto.
      destruct (prefix "PACE" (written s)) eqn:E; [|reflexivity]. exfalso.
      destruct (prefix_written "PACE") with (s := s) as [r ->]; auto.
      - simpl. repeat split; discriminate.
      - apply (H "" r). reflexivity. }
    rewrite P, IH; auto.
Qed.
Lemma written_chars s : each (fun c => c = " "%char \/ is_space c = false) s -> each (fun c => is_space c = false) (written s).
Proof.
  induction s as [|c s IH]; simpl; auto. intros [H1 H2]. apply each_app. split; auto. destruct (Ascii.eqb_spec c " ") as [->|N]; [simpl; repeat split|].
  simpl. split; auto. destruct H1; [congruence|auto].
Qed.
(** C151: a list of any items, which may contain blanks but no other white space and not the
    word SPACE, is read as it is when the blanks are written as SPACE and the items are
    separated by blanks. *)
Theorem getlist_reads : forall items, Forall list_item items -> getlist "SPACE" (String.concat " " (map written items)) = items.
Proof.
  intros items F. unfold getlist. rewrite split_words.
  - change (String.eqb "SPACE" "") with false. cbv iota. rewrite map_map. rewrite <- (map_id items) at 2. apply map_ext_in. intros s I.
    rewrite Forall_forall in F. apply replace_written. apply F; auto.
  - apply Forall_map. revert F. apply Forall_impl. intros s (H1 & H2 & H3). split; [|now apply written_chars].
    destruct s as [|c s]; [congruence|]. simpl. destruct (Ascii.eqb c " "); discriminate.
Qed.
Print Assumptions getlist_reads.
Example getlist_ex : getlist "SPACE" "/usr/share/texmf/ls-R  C:\ProgramSPACEFiles\ls-R" = ["/usr/share/texmf/ls-R"; "C:\Program Files\ls-R"].
Proof. reflexivity. Qed.
(** C151: another replacement string need not work, even if it is not used in the items: of two
    overlapping places the first one is replaced. *)
Theorem getlist_overlap_refuted : getlist "xx" "axxxb" = ["a xb"] /\ (forall p q, "ax b" <> p ++ "xx" ++ q) /\
  exists before after, "axxxb" = before ++ "xx" ++ after /\ "ax b" = before ++ " " ++ after.
Proof.
  split; [reflexivity|]. split.
  - intros p q H. do 4 (destruct p as [|? p]; [discriminate|simpl in H; injection H as _ H]). destruct p; discriminate.
  - exists "ax", "b". split; reflexivity.
Qed.
Print Assumptions getlist_overlap_refuted.
(** without a replacement string the items are the words *)
Theorem getlist_words : forall ws, Forall (fun w => w <> "" /\ each (fun c => is_space c = false) w) ws -> getlist "" (String.concat " " ws) = ws.
Proof. intros ws F. unfold getlist. apply split_words. exact F. Qed.
Print Assumptions getlist_words.
