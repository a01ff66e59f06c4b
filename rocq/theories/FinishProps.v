(** * The content of a page is the same in all output formats (C110) *)

From Coq Require Import Bool List.
From Verif Require Import FinishModel.
Import ListNotations.

Section Ind.
Variable P : item -> Prop.
Hypothesis PL : forall n, P (Leaf n).
Hypothesis PC : forall l, (forall i, In i l -> P i) -> P (Canvas l).
Hypothesis PG : forall b l a, (forall i, In i l -> P i) -> (forall i, In i a -> P i) -> P (Graph b l a).
Fixpoint item_all (i : item) : P i :=
  let all := fix all (l : list item) : forall i, In i l -> P i :=
    match l with
    | [] => fun i H => match H with end
    | x :: r => fun i H => match H with or_introl E => eq_ind x P (item_all x) i E | or_intror H => all r i H end
    end in
  match i with Leaf n => PL n | Canvas l => PC l (all l) | Graph b l a => PG b l a (all l) (all a) end.
End Ind.

(** n is a leaf of the item, where graphs have all that finish adds *)
Inductive shows : item -> nat -> Prop :=
| shows_leaf n : shows (Leaf n) n
| shows_canvas l i n : In i l -> shows i n -> shows (Canvas l) n
| shows_items b l a i n : In i l -> shows i n -> shows (Graph b l a) n
| shows_added l a i n : In i a -> shows i n -> shows (Graph false l a) n.

Lemma flat_map_map_in {A B C} (f : B -> list C) (g : A -> B) (h : A -> list C) l : (forall i, In i l -> f (g i) = h i) -> flat_map f (map g l) = flat_map h l.
Proof.
  induction l as [|x l IH]; intros H; cbn; [reflexivity|]. rewrite (H x) by (now left). f_equal. apply IH. intros i I. apply H. now right.
Qed.
Lemma svg_after : forall i, process_svg (bbox_after i) = process_ps i.
Proof.
  apply item_all; cbn; intros.
  - reflexivity.
  - apply flat_map_map_in. exact H.
  - destruct b; cbn.
    + apply flat_map_map_in. exact H.
    + rewrite flat_map_app. f_equal; apply flat_map_map_in; assumption.
Qed.
Lemma ps_after : forall i, process_ps (bbox_after i) = process_ps i.
Proof.
  apply item_all; cbn; intros.
  - reflexivity.
  - apply flat_map_map_in. exact H.
  - destruct b; cbn.
    + apply flat_map_map_in. exact H.
    + rewrite flat_map_app. f_equal; apply flat_map_map_in; assumption.
Qed.
Lemma ps_shows : forall i n, In n (process_ps i) <-> shows i n.
Proof.
  apply (item_all (fun i => forall n, In n (process_ps i) <-> shows i n)).
  - intros m n. cbn. split.
    + intros [->|[]]. constructor.
    + intros H. inversion H. now left.
  - intros l H n. cbn. rewrite in_flat_map. split.
    + intros (i & I & J). apply (shows_canvas l i); [exact I|]. apply H; assumption.
    + intros J. inversion J as [|l' i n' I S| |]; subst. exists i. split; [exact I|]. apply H; assumption.
  - intros b l a Hl Ha n. assert (L : In n (flat_map process_ps l) <-> exists i, In i l /\ shows i n).
    { rewrite in_flat_map. split; intros (i & I & J); exists i; (split; [exact I|]); apply (Hl i I); exact J. }
    assert (A : In n (flat_map process_ps a) <-> exists i, In i a /\ shows i n).
    { rewrite in_flat_map. split; intros (i & I & J); exists i; (split; [exact I|]); apply (Ha i I); exact J. }
    destruct b; cbn.
    + rewrite L. split; [intros (i & I & J); apply (shows_items true l a i); assumption|]. intros J. inversion J; subst; eauto.
    + rewrite in_app_iff, L, A. split.
      * intros [(i & I & J)|(i & I & J)]; [apply (shows_items false l a i)|apply (shows_added l a i)]; assumption.
      * intros J. inversion J; subst; eauto.
Qed.

(** If the page has no bbox given, all formats show the same, and that is all there is *)
Theorem page_content_same : forall transformed f g canvas,
  page_output false transformed f canvas = page_output false transformed g canvas /\
  forall n, In n (page_output false transformed f canvas) <-> shows canvas n.
Proof.
  intros t f g c. assert (E : forall f, page_output false t f c = process_ps c).
  { intros [| |]; unfold page_output, process, process_pdf; destruct t; cbn; rewrite ?app_nil_r; apply ps_after || apply svg_after. }
  split; [rewrite !E; reflexivity|]. intros n. rewrite E. apply ps_shows.
Qed.
Print Assumptions page_content_same.

(** A path, a graph in a canvas, and a finished graph containing a graph *)
Definition sample : item := Canvas [Leaf 1; Canvas [Graph false [Leaf 2] [Leaf 3; Leaf 4]]; Graph true [Leaf 5; Graph false [] [Leaf 6]] []].
Example page_content_same_ex : page_output false true SVG sample = [1; 2; 3; 4; 5; 6] /\ page_output false false PDF sample = [1; 2; 3; 4; 5; 6].
Proof. split; reflexivity. Qed.

(** With a bbox PostScript and PDF still show everything *)
Theorem page_content_bbox : forall pagebbox transformed f canvas, f <> SVG -> forall n,
  In n (page_output pagebbox transformed f canvas) <-> shows canvas n.
Proof.
  intros b t f c F n. destruct b; [|apply (page_content_same t f f c)]. rewrite <- ps_shows. destruct f; [| |congruence];
    unfold page_output, process, process_pdf; destruct t; cbn; rewrite ?app_nil_r; reflexivity.
Qed.
Print Assumptions page_content_bbox.
Example page_content_bbox_ex : page_output true true PS sample = [1; 2; 3; 4; 5; 6] /\ page_output true true SVG sample = [1; 2; 5].
Proof. split; reflexivity. Qed.

(** but SVG does not show what finish would have added to the graphs *)
Theorem page_content_svg_refuted : exists canvas n, shows canvas n /\ In n (page_output true false PDF canvas) /\ ~ In n (page_output true false SVG canvas).
Proof.
  exists (Canvas [Graph false [] [Leaf 7]]), 7. split.
  - apply (shows_canvas _ (Graph false [] [Leaf 7])); [now left|]. apply (shows_added _ _ (Leaf 7)); [now left|constructor].
  - cbn. intuition.
Qed.
Print Assumptions page_content_svg_refuted.

(** It does if and only if nothing is missing: each graph is finished or has nothing to add *)
Inductive complete : item -> Prop :=
| complete_leaf n : complete (Leaf n)
| complete_canvas l : (forall i, In i l -> complete i) -> complete (Canvas l)
| complete_graph b l a : (forall i, In i l -> complete i) -> (b = false -> forall i n, In i a -> ~ shows i n) -> complete (Graph b l a).

Lemma flat_len {A} (f g : A -> list nat) l : (forall i, In i l -> length (f i) <= length (g i)) -> length (flat_map f l) <= length (flat_map g l).
Proof.
  induction l as [|x l IH]; intros H; cbn; [apply le_n|]. rewrite !app_length. apply PeanoNat.Nat.add_le_mono; [apply H; now left|].
  apply IH. intros i I. apply H. now right.
Qed.
Lemma flat_len_eq {A} (f g : A -> list nat) l : (forall i, In i l -> length (f i) <= length (g i)) -> length (flat_map f l) = length (flat_map g l) ->
  forall i, In i l -> length (f i) = length (g i).
Proof.
  induction l as [|x l IH]; intros H E i I; [destruct I|]. cbn in E. rewrite !app_length in E.
  assert (LA := H x (or_introl eq_refl)). assert (LB := flat_len f g l (fun i I => H i (or_intror I))).
  assert (X : length (f x) = length (g x) /\ length (flat_map f l) = length (flat_map g l)).
  { split.
    - apply PeanoNat.Nat.le_antisymm; [exact LA|]. apply (PeanoNat.Nat.add_le_mono_r _ _ (length (flat_map g l))). rewrite <- E. apply PeanoNat.Nat.add_le_mono_l. exact LB.
    - apply PeanoNat.Nat.le_antisymm; [exact LB|]. apply (PeanoNat.Nat.add_le_mono_l _ _ (length (g x))). rewrite <- E. apply PeanoNat.Nat.add_le_mono_r. exact LA. }
  destruct X as [X1 X2]. destruct I as [<-|I]; [exact X1|]. apply IH; [intros j J; apply H; now right|exact X2|exact I].
Qed.
Lemma svg_le : forall i, length (process_svg i) <= length (process_ps i).
Proof.
  apply item_all; cbn; intros.
  - apply le_n.
  - apply flat_len. exact H.
  - destruct b; [apply flat_len; exact H|]. rewrite app_length. apply (PeanoNat.Nat.le_trans _ _ _ (flat_len _ _ l H)). apply PeanoNat.Nat.le_add_r.
Qed.
Lemma flat_map_eq {A} (f g : A -> list nat) l : (forall i, In i l -> f i = g i) -> flat_map f l = flat_map g l.
Proof. induction l as [|x l IH]; intros H; cbn; [reflexivity|]. rewrite (H x) by (now left). f_equal. apply IH. intros i I. apply H. now right. Qed.
Lemma svg_complete : forall i, complete i <-> process_svg i = process_ps i.
Proof.
  intros i. split.
  - revert i. apply (item_all (fun i => complete i -> process_svg i = process_ps i)).
    + reflexivity.
    + intros l H C. inversion C; subst. cbn. apply flat_map_eq. auto.
    + intros b l a H1 H2 C. inversion C as [| |b' l' a' C1 C2]; subst. cbn. assert (E : flat_map process_svg l = flat_map process_ps l) by (apply flat_map_eq; auto).
      destruct b; [exact E|]. rewrite E. assert (N : flat_map process_ps a = []).
      { destruct (flat_map process_ps a) as [|n r] eqn:F; [reflexivity|]. exfalso. assert (I : In n (flat_map process_ps a)) by (rewrite F; now left).
        apply in_flat_map in I. destruct I as (x & X & Y). apply (C2 eq_refl x n X). apply ps_shows. exact Y. }
      rewrite N, app_nil_r. reflexivity.
  - intros E. assert (L : length (process_svg i) = length (process_ps i)) by congruence. clear E. revert L.
    revert i. apply (item_all (fun i => length (process_svg i) = length (process_ps i) -> complete i)).
    + constructor.
    + intros l H E. constructor. intros i I. apply H; [exact I|]. cbn in E. apply (flat_len_eq _ _ l (fun i _ => svg_le i) E i I).
    + intros b l a H1 H2 E. cbn in E. assert (LE := flat_len process_svg process_ps l (fun i _ => svg_le i)).
      assert (X : length (flat_map process_svg l) = length (flat_map process_ps l) /\ (b = false -> flat_map process_ps a = [])).
      { destruct b; [split; [exact E|discriminate]|]. rewrite app_length in E. rewrite E in LE.
        destruct (flat_map process_ps a) as [|n r]; [cbn in E; rewrite PeanoNat.Nat.add_0_r in E; auto|].
        exfalso. cbn in LE. rewrite PeanoNat.Nat.add_succ_r in LE. apply (PeanoNat.Nat.nle_succ_diag_l (length (flat_map process_ps l))).
        apply (PeanoNat.Nat.le_trans _ (S (length (flat_map process_ps l) + length r))); [apply le_n_S, PeanoNat.Nat.le_add_r|exact LE]. }
      destruct X as [X1 X2]. constructor.
      * intros i I. apply H1; [exact I|]. apply (flat_len_eq _ _ l (fun i _ => svg_le i) X1 i I).
      * intros B i n I S. specialize (X2 B). assert (J : In n (flat_map process_ps a)) by (apply in_flat_map; exists i; split; [exact I|apply ps_shows; exact S]).
        rewrite X2 in J. exact J.
Qed.
Theorem page_content_svg : forall transformed canvas, page_output true transformed SVG canvas = page_output true transformed PDF canvas <-> complete canvas.
Proof.
  intros t c. rewrite svg_complete. unfold page_output, process, process_pdf. destruct t; cbn; rewrite ?app_nil_r; reflexivity.
Qed.
Print Assumptions page_content_svg.
Example page_content_svg_ex : complete (Canvas [Leaf 1; Graph true [Leaf 2] [Leaf 2]; Graph false [] [Canvas []]]).
Proof. apply svg_complete. reflexivity. Qed.

(** A file written in any format does not change what is written later *)
Theorem page_content_again : forall transformed f g canvas,
  page_output false transformed f (bbox_after canvas) = page_output false transformed g canvas.
Proof.
  intros t f g c. destruct (page_content_same t g PS c) as [-> _]. destruct (page_content_same t f PS (bbox_after c)) as [-> _].
  unfold page_output, process. destruct t; cbn; rewrite ?app_nil_r, !ps_after; reflexivity.
Qed.
Print Assumptions page_content_again.
Example page_content_again_ex : page_output false false SVG (bbox_after sample) = [1; 2; 3; 4; 5; 6].
Proof. reflexivity. Qed.
