(** Properties of attribute lists (C13, C14, C15). *)
From Coq Require Import String Bool Arith List Permutation.
From Verif Require Import AttrModel AttrSpec AttrProofs.
Import ListNotations.
Open Scope string_scope.

(** Sample attributes with the class relations of color.py, style.py and text.py. *)
Definition ex_red := mkattr 1 ["rgb"; "color"; "attr"] (Excl "color").
Definition ex_gray := mkattr 2 ["gray"; "color"; "attr"] (Excl "color").
Definition ex_trafo := mkattr 3 ["trafo"; "attr"] Plain.
Definition ex_dash := mkattr 4 ["dash"; "attr"] (Excl "dash").
Definition ex_lw := mkattr 5 ["linewidth"; "attr"] (SortBeforeExcl "linewidth" ["dash"; "linestyle"]).
Definition ex_clear := mkattr 6 ["clearclass"; "attr"] (ClearClass "color").
(* text.py:496-505, 546-549, 585-591 *)
Definition ex_parbox := mkattr 7 ["parbox_pt"; "attr"] (SortBeforeExcl "parbox_pt" ["_localattr"]).
Definition ex_vshift := mkattr 8 ["_vshift"; "attr"] (SortBefore ["valign"; "parbox_pt"; "_localattr"]).
Definition ex_size := mkattr 9 ["size"; "attr"] (SortBefore ["_mathmode"; "_vshift"]).

(** C13: the merged list holds exactly the surviving occurrences ... *)
Theorem merge_survivors : forall l s, Survivors l s -> Permutation (mergeattrs l) s.
Proof. exact mergeattrs_perm. Qed.
Print Assumptions merge_survivors.

Theorem survivors_exist_unique : forall l, exists s, Survivors l s /\ forall s', Survivors l s' -> s' = s.
Proof.
  intros l. destruct (survivors_total l) as (s & S). exists s. split; auto.
  intros s' S'. exact (survivors_fun _ _ _ S' S).
Qed.
Print Assumptions survivors_exist_unique.

(** ... and the attributes which do not sort themselves keep their order. *)
Theorem merge_keeps_order : forall l s, Survivors l s ->
  filter (fun a => negb (issb a)) (mergeattrs l) = filter (fun a => negb (issb a)) s.
Proof. exact mergeattrs_order. Qed.
Print Assumptions merge_keeps_order.

Example merge_survivors_ex :
  Survivors [ex_red; ex_trafo; ex_clear; ex_trafo; ex_gray; ex_dash; ex_lw]
            [ex_trafo; ex_trafo; ex_gray; ex_dash; ex_lw] /\
  mergeattrs [ex_red; ex_trafo; ex_clear; ex_trafo; ex_gray; ex_dash; ex_lw] =
            [ex_trafo; ex_trafo; ex_gray; ex_lw; ex_dash].
Proof.
  split; [|reflexivity].
  apply sv_drop. { right. exists ex_clear. simpl. unfold kills; simpl. tauto. }
  apply sv_keep; [exact I| |].
  { intros b Hb. simpl in Hb. unfold kills. repeat destruct Hb as [<-|Hb]; simpl; try tauto; intuition discriminate. }
  apply sv_drop. { left. unfold stays; simpl; tauto. }
  repeat (apply sv_keep; [exact I| |]);
    try (intros b Hb; simpl in Hb; unfold kills; repeat destruct Hb as [<-|Hb]; simpl; try tauto; intuition discriminate).
  constructor.
Qed.

(** C13: of a class used exclusively exactly the last occurrence remains,
    unless it is cleared afterwards. *)
Theorem exclusive_last_wins : forall c l a l2, exclusive_in c (l ++ a :: l2) -> In c (ainst a) ->
  (forall b, In b l2 -> ~ In c (ainst b)) -> (forall b, In b l2 -> ~ kills b a) ->
  filter (fun x => isinstance x c) (mergeattrs (l ++ a :: l2)) = [a].
Proof. exact mergeattrs_exclusive. Qed.
Print Assumptions exclusive_last_wins.

Example exclusive_last_wins_ex :
  exclusive_in "color" ([ex_red; ex_trafo] ++ ex_gray :: [ex_dash]) /\
  filter (fun x => isinstance x "color") (mergeattrs ([ex_red; ex_trafo] ++ ex_gray :: [ex_dash])) = [ex_gray].
Proof.
  split; [|reflexivity].
  intros a Ha Hi. simpl in Ha. repeat destruct Ha as [<-|Ha]; simpl in *; auto; intuition discriminate.
Qed.

(** An attribute added afterwards is present exactly if it is not a clear. *)
Theorem last_attr_present : forall l a, stays a -> In a (mergeattrs (l ++ [a])).
Proof.
  intros l a St. destruct (survivors_total (l ++ [a])) as (s & S).
  eapply Permutation_in; [apply Permutation_sym, mergeattrs_perm; eauto|].
  eapply survivors_last; eauto.
Qed.
Print Assumptions last_attr_present.

(** C14: merging is incremental ... *)
Theorem merge_incremental : forall l1 l2,
  mergeattrs (l1 ++ l2) = fold_left (fun acc a => merge a acc) l2 (mergeattrs l1).
Proof. exact mergeattrs_app. Qed.
Print Assumptions merge_incremental.

(** ... and idempotent, provided the sorting relation of the attributes is a
    strict order and exclusive attributes exclude each other mutually. *)
Theorem merge_idempotent : forall l, sb_transitive l -> sb_irrefl l -> kill_sym l ->
  mergeattrs (mergeattrs l) = mergeattrs l.
Proof. exact mergeattrs_idem. Qed.
Print Assumptions merge_idempotent.

(** C13: under the same conditions sorting attributes precede what they have to precede. *)
Theorem merge_sorted : forall l, sb_transitive l -> sb_irrefl l -> prec_ok (mergeattrs l).
Proof. exact mergeattrs_prec. Qed.
Print Assumptions merge_sorted.

Example merge_idempotent_ex : let l := [ex_dash; ex_red; ex_lw; ex_gray] in
  sb_transitive l /\ sb_irrefl l /\ kill_sym l /\ mergeattrs l = [ex_lw; ex_dash; ex_gray].
Proof.
  intros l; unfold l. split; [|split; [|split; [|reflexivity]]].
  - intros a b x Ha Hb Hx (H1 & c & H2 & H3) (H4 & c' & H5 & H6).
    simpl in *. repeat destruct Ha as [<-|Ha]; try discriminate; try tauto.
    repeat destruct Hb as [<-|Hb]; try discriminate; try tauto; simpl in *; intuition (subst; discriminate).
  - intros a b Ha Hb (H1 & c & H2 & H3) (H4 & c' & H5 & H6).
    simpl in *. repeat destruct Ha as [<-|Ha]; try discriminate; try tauto.
    repeat destruct Hb as [<-|Hb]; try discriminate; try tauto; simpl in *; intuition (subst; discriminate).
  - intros a b Ha Hb. unfold kills, stays. simpl in *.
    repeat destruct Ha as [<-|Ha]; try tauto; repeat destruct Hb as [<-|Hb]; simpl; try tauto; intuition discriminate.
Qed.

(** The unconditional versions are false already for the text attributes of
    text.py: size must precede vshift, but given after a parbox and before the
    vshift it ends up behind it. *)
Theorem merge_sorted_refuted : exists l, ~ prec_ok (mergeattrs l) /\
  l = [ex_parbox; ex_size; ex_vshift].
Proof.
  exists [ex_parbox; ex_size; ex_vshift]. split; auto.
  intros H. apply (H [] ex_vshift [ex_parbox; ex_size] eq_refl ex_size); simpl; auto.
  split; auto. exists "_vshift". simpl; auto.
Qed.
Print Assumptions merge_sorted_refuted.

Theorem merge_idempotent_refuted : exists l, mergeattrs (mergeattrs l) <> mergeattrs l.
Proof. exists [ex_parbox; ex_size; ex_vshift]. discriminate. Qed.
Print Assumptions merge_idempotent_refuted.

(** Attribute checking raises exactly if some attribute is of none of the
    allowed classes, and names the first such attribute. *)
Theorem check_accepts : forall l cs, checkattrs l cs = CheckOk <->
  (forall a, In a l -> exists c, In c cs /\ In c (ainst a)).
Proof. exact checkattrs_ok. Qed.
Print Assumptions check_accepts.

Theorem check_names_first : forall ok bad l cs, ids_consistent (ok ++ bad :: l) ->
  (forall a, In a ok -> isinstance_any a cs = true) -> isinstance_any bad cs = false ->
  checkattrs (ok ++ bad :: l) cs = CheckTypeError bad.
Proof. exact check_first. Qed.
Print Assumptions check_names_first.

Example check_ex : checkattrs [ex_red; ex_trafo; ex_dash] ["color"; "dash"] = CheckTypeError ex_trafo
  /\ checkattrs [ex_red; ex_dash] ["color"; "dash"] = CheckOk.
Proof. split; reflexivity. Qed.

(** C15: cyclic selection. *)
Theorem changelist_selects_cyclically : forall l index total, l <> [] -> exists a,
  select (ChangeList l true) index total = Sel a /\ nth_error l (index mod length l) = Some a.
Proof. intros l index total. exact (changelist_cyclic l index). Qed.
Print Assumptions changelist_selects_cyclically.

Theorem changelist_noncyclic : forall l index total,
  (forall a, select (ChangeList l false) index total = Sel a <-> nth_error l index = Some a) /\
  (select (ChangeList l false) index total = SelNone <-> length l <= index).
Proof.
  intros l index total. simpl. unfold changelist_select.
  destruct (Nat.ltb_spec index (length l)) as [H|H].
  - destruct (nth_error l index) eqn:E; [|apply nth_error_None in E; exfalso; apply (Nat.lt_irrefl index); eapply Nat.lt_le_trans; eauto].
    split; [|split; [discriminate|]].
    + intros b. split; intros [= ->]; auto.
    + intros H'. exfalso. apply (Nat.lt_irrefl index); eapply Nat.lt_le_trans; eauto.
  - split; [|tauto]. intros a. split; [discriminate|]. intros E.
    exfalso. apply nth_error_None in H. congruence.
Qed.
Print Assumptions changelist_noncyclic.

(** Selection by the number of data sets: the entry for the total counts, and it is an
    error if there is none. *)
Theorem multichange_by_total : forall table index total,
  (NoDup (map fst table) -> forall c, In (total, c) table -> select (MultiChange table) index total = select c index total) /\
  (~ In total (map fst table) -> select (MultiChange table) index total = SelErr).
Proof.
  intros table index total. split.
  - intros ND c Hc. simpl. induction table as [|[k c'] t IH]; [easy|]. inversion ND as [|? ? N ND']; subst. destruct Hc as [E|Hc].
    + injection E as -> ->. now rewrite Nat.eqb_refl.
    + destruct (Nat.eqb_spec k total) as [->|]; [exfalso; apply N; now apply (in_map fst) in Hc|]. now apply IH.
  - intros N. simpl. induction table as [|[k c'] t IH]; [easy|]. simpl in N.
    destruct (Nat.eqb_spec k total) as [->|]; [tauto|]. apply IH. tauto.
Qed.
Print Assumptions multichange_by_total.

Example multichange_ex : select (MultiChange [(1, ChangeList [ex_red] true); (2, ChangeList [ex_red; ex_gray] true)]) 1 2 = Sel ex_gray.
Proof. reflexivity. Qed.

(** The selected list has one attribute for each entry, in the same order. *)
Theorem selectattrs_in_order : forall l index total r, selectattrs l index total = Sel r <->
  Forall2 (fun x a => match x with AFix b => a = b | AChange c => select c index total = Sel a end) l r.
Proof. exact selectattrs_pointwise. Qed.
Print Assumptions selectattrs_in_order.

Example selectattrs_ex :
  selectattrs [AFix ex_dash; AChange (ChangeList [ex_red; ex_gray] true)] 3 7 = Sel [ex_dash; ex_gray].
Proof. reflexivity. Qed.
