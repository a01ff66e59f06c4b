(** The choice of a partition (C78) *)
From Coq Require Import Reals Bool List Sorting.Permutation Sorted Lra Lia.
From Verif Require Import ParterModel ParterProofs3 AxisModel AxisProps.
Import ListNotations.
Open Scope R_scope.

Definition lighter (v w : variant) : Prop := vrate v <= vrate w.
Lemma insert_perm v l : Permutation (v :: l) (insert v l).
Proof.
  induction l as [|w l IH]; cbn [insert]; auto. destruct (ltb (vrate w) (vrate v)); auto.
  eapply perm_trans; [apply perm_swap|]. auto.
Qed.
Lemma insert_sorted v l : StronglySorted lighter l -> StronglySorted lighter (insert v l).
Proof.
  induction 1 as [|w l S IH F]; cbn [insert]; [repeat constructor|].
  destruct (ltb_case (vrate w) (vrate v)) as [[-> H]|[-> H]].
  - constructor; auto. apply (Permutation_Forall (insert_perm v l)). constructor; auto. unfold lighter. lra.
  - constructor; [constructor; auto|]. constructor; [unfold lighter; lra|]. eapply Forall_impl; [|apply F]. unfold lighter. intros; lra.
Qed.
Lemma sort_perm l : Permutation l (sort l).
Proof. induction l as [|v l IH]; cbn; auto. eapply perm_trans; [|apply insert_perm]. auto. Qed.
Lemma sort_sorted l : StronglySorted lighter (sort l).
Proof. induction l; cbn; [constructor|]. apply insert_sorted; auto. Qed.

Lemma number_In rates k v : In v (number k rates) <->
  stored v = false /\ exists i, which v = (k + i)%nat /\ nth_error rates i = Some (vrate v).
Proof.
  unfold number. revert k. induction rates as [|r rates IH]; intros k; cbn.
  - split; [easy|]. intros (_ & [|i] & _ & H); discriminate.
  - rewrite IH. split.
    + intros [<-|(H1 & i & H2 & H3)]; cbn.
      * split; auto. exists O. split; [lia|auto].
      * split; auto. exists (S i). split; [lia|auto].
    + intros (H1 & [|i] & H2 & H3); cbn in H3.
      * left. injection H3 as ->. destruct v; cbn in *. f_equal; auto. lia.
      * right. split; auto. exists i. split; [lia|auto].
Qed.

Definition pending (l : list variant) : nat := length (filter (fun v => negb (stored v)) l).
Lemma pending_perm l l' : Permutation l l' -> pending l = pending l'.
Proof.
  unfold pending. induction 1; cbn; auto.
  - destruct (stored x); cbn; lia.
  - destruct (stored x), (stored y); cbn; lia.
  - lia.
Qed.
Definition fair (layout : nat -> option R * bool) (rates : list R) (v : variant) : Prop :=
  exists r, nth_error rates (which v) = Some r /\
    if stored v then exists e, fst (layout (which v)) = Some e /\ vrate v = r + e else vrate v = r.
Definition result_ok (layout : nat -> option R * bool) (rates : list R) (o : outcome) : Prop :=
  match o with
  | Chosen v =>
      exists r e, nth_error rates (which v) = Some r /\ fst (layout (which v)) = Some e /\ vrate v = r + e /\
        forall j s f, nth_error rates j = Some s -> fst (layout j) = Some f -> r + e <= s + f
  | NoValid => forall j s, nth_error rates j = Some s -> fst (layout j) = None
  | Unfinished => False
  end.
Lemma choose_ok layout rates : (forall j e, fst (layout j) = Some e -> 0 <= e /\ snd (layout j) = true) ->
  forall fuel vs, StronglySorted lighter vs -> Forall (fair layout rates) vs ->
    (forall j s f, nth_error rates j = Some s -> fst (layout j) = Some f -> exists v, In v vs /\ which v = j) ->
    (pending vs < fuel)%nat -> result_ok layout rates (choose fuel layout vs).
Proof.
  intros Lay. induction fuel as [|fuel IH]; intros vs S F C P; [lia|]. cbn [choose]. destruct vs as [|v rest].
  - cbn. intros j s H. destruct (fst (layout j)) as [e|] eqn:E; auto. destruct (C j s e H E) as (v & [] & _).
  - inversion S as [|? ? S' F1]; subst. inversion F as [|? ? (r & Er & Ev) F2]; subst. destruct (stored v) eqn:St.
    + destruct Ev as (e & Ee & Eq). cbn. exists r, e. split; [auto|split; [auto|split; [auto|]]].
      intros j s f Hs Hf. destruct (C j s f Hs Hf) as (w & [<-|Iw] & <-); [rewrite Hs in Er; rewrite Hf in Ee; assert (s = r) by congruence; assert (f = e) by congruence; lra|].
      rewrite Forall_forall in F1, F2. specialize (F1 w Iw). destruct (F2 w Iw) as (r' & Er' & Ev').
      assert (r' = s) as -> by congruence. unfold lighter in F1. destruct (Lay _ _ Hf) as [F0 _]. destruct (stored w).
      * destruct Ev' as (e' & Ee' & Eq'). assert (e' = f) as -> by congruence. lra.
      * lra.
    + assert (pending rest < fuel)%nat as P'. { unfold pending in *. cbn in P. rewrite St in P. cbn in P. lia. }
      destruct (layout (which v)) as [[e|] drawn] eqn:El.
      * assert (0 <= e /\ drawn = true) as [E0 ->]. { specialize (Lay (which v) e). rewrite El in Lay. cbn in Lay. auto. }
        assert (Permutation (mkvariant (vrate v + e) (which v) true :: rest) (sort (mkvariant (vrate v + e) (which v) true :: rest))) as Pm by apply sort_perm.
        apply IH.
        -- apply sort_sorted.
        -- apply (Permutation_Forall Pm). constructor; auto. exists r. cbn [which stored vrate]. split; auto. exists e. rewrite El. split; auto. lra.
        -- intros j s f Hs Hf. destruct (C j s f Hs Hf) as (w & [->|Iw] & <-).
           ++ exists (mkvariant (vrate w + e) (which w) true). split; auto. apply (Permutation_in _ Pm). left; auto.
           ++ exists w. split; auto. apply (Permutation_in _ Pm). right; auto.
        -- rewrite <- (pending_perm _ _ Pm). unfold pending in *. cbn. auto.
      * assert (forall j s f, nth_error rates j = Some s -> fst (layout j) = Some f -> exists w, In w rest /\ which w = j) as C'.
        { intros j s f Hs Hf. destruct (C j s f Hs Hf) as (w & [<-|Iw] & <-); [rewrite El in Hf; discriminate|]. eauto. }
        destruct rest as [|w rest].
        -- cbn. intros j s Hs. destruct (fst (layout j)) as [e|] eqn:E; auto. destruct (C' j s e Hs E) as (w & [] & _).
        -- assert (Permutation (w :: rest) (sort (w :: rest))) as Pm by apply sort_perm. apply IH.
           ++ apply sort_sorted.
           ++ apply (Permutation_Forall Pm); auto.
           ++ intros j s f Hs Hf. destruct (C' j s f Hs Hf) as (x & Ix & <-). exists x. split; auto. apply (Permutation_in _ Pm); auto.
           ++ rewrite <- (pending_perm _ _ Pm). auto.
Qed.

(** C78: with non-negative layout rates and painters which draw something the loop ends, after
    at most one layout for each variant, and chooses a variant with the least sum of the
    rates among all variants with a valid layout; it fails only if no layout is valid *)
Theorem best_partition_chosen layout rates fuel :
  (forall j e, fst (layout j) = Some e -> 0 <= e /\ snd (layout j) = true) -> (length rates < fuel)%nat ->
  match choose_variant fuel layout rates with
  | Chosen v =>
      exists r e, nth_error rates (which v) = Some r /\ fst (layout (which v)) = Some e /\ vrate v = r + e /\
        forall j s f, nth_error rates j = Some s -> fst (layout j) = Some f -> r + e <= s + f
  | NoValid => forall j s, nth_error rates j = Some s -> fst (layout j) = None
  | Unfinished => False
  end.
Proof.
  intros Lay L. change (result_ok layout rates (choose_variant fuel layout rates)). unfold choose_variant.
  pose proof (sort_perm (number 0 rates)) as Pm. apply choose_ok; auto.
  - apply sort_sorted.
  - apply (Permutation_Forall Pm). apply Forall_forall. intros v Hv. apply number_In in Hv. destruct Hv as (H1 & i & H2 & H3).
    exists (vrate v). cbn in H2. rewrite H1, H2. auto.
  - intros j s f Hs _. exists (mkvariant s j false). split; auto. apply (Permutation_in _ Pm), number_In. cbn. split; auto. exists j. auto.
  - rewrite <- (pending_perm _ _ Pm). apply Nat.le_lt_trans with (m := length rates); auto. unfold pending, number.
    assert (forall k, length (filter (fun v => negb (stored v)) (map (fun '(i, r) => mkvariant r i false) (combine (seq k (length rates)) rates))) <= length rates)%nat as K.
    { clear. induction rates as [|r rates IH]; intros k; cbn; [lia|]. specialize (IH (S k)). lia. }
    apply K.
Qed.
Print Assumptions best_partition_chosen.
Example choose_ex :
  choose_variant 4 (fun j => match j with O => (Some 5, true) | S O => (None, false) | _ => (Some 1, true) end) [1; 2; 3] = Chosen (mkvariant (3 + 1) 2 true).
Proof.
  unfold choose_variant, number. cbn.
  repeat (match goal with |- context [ltb ?x ?y] => destruct (ltb_case x y) as [[-> ?]|[-> ?]]; try lra end; cbn). reflexivity.
Qed.

(** C78, refuted: a painter may draw nothing at all (painter.regular with basepathattrs,
    tickattrs and labelattrs None, and no title): the stored canvas is then empty, hence
    false, the labels are None and the layout is rated 0.  The loop never ends. *)
Theorem best_partition_refuted :
  exists layout rates, (forall j, exists e, fst (layout j) = Some e /\ 0 <= e) /\ forall fuel, choose_variant fuel layout rates = Unfinished.
Proof.
  exists (fun _ => (Some 0, false)), [1; 2]. split; [intros j; exists 0; cbn; split; [auto|lra]|].
  assert (forall fuel r, r <= 2 -> choose fuel (fun _ => (Some 0, false)) [mkvariant r 0 false; mkvariant 2 1 false] = Unfinished) as K.
  { induction fuel as [|fuel IH]; intros r H; cbn; auto. unfold ltb. destruct (Rlt_dec 2 (r + 0)); [lra|]. apply IH. lra. }
  intros fuel. unfold choose_variant, number. cbn. unfold ltb. destruct (Rlt_dec 2 1); [lra|]. apply K. lra.
Qed.
Print Assumptions best_partition_refuted.

(** ** the search for variants *)
Definition rates_of (calls : list (option (option R))) : list R :=
  flat_map (fun c => match c with Some (Some r) => [r] | _ => [] end) calls.
Definition least_of (best : option R) (found : list R) : Prop :=
  match best with Some b => In b found /\ forall r, In r found -> b <= r | None => found = [] end.
Lemma least_app best found r : least_of best found ->
  least_of (if match best with None => true | Some b => ltb r b end then Some r else best) (found ++ [r]).
Proof.
  intros L. destruct best as [b|]; cbn in *.
  - destruct L as [L1 L2]. destruct (ltb_case r b) as [[-> H]|[-> H]]; cbn.
    + split; [apply in_or_app; cbn; auto|]. intros x Hx. apply in_app_or in Hx. destruct Hx as [Hx|[<-|[]]]; [apply L2 in Hx; lra|lra].
    + split; [apply in_or_app; auto|]. intros x Hx. apply in_app_or in Hx. destruct Hx as [Hx|[<-|[]]]; auto.
  - subst. cbn. split; auto. intros x [<-|[]]. lra.
Qed.
Lemma search_ok mw : forall calls worse best found best' found', (worse <= mw)%nat -> least_of best found ->
  search mw worse calls best found = (best', found') ->
  least_of best' found' /\
  exists made rest, calls = made ++ rest /\ found' = found ++ rates_of made /\ Forall (fun c => c <> None) made /\
    (rest = [] \/ (exists t, rest = None :: t) \/
     exists earlier tail, made = earlier ++ tail /\ (length tail = mw \/ (earlier = [] /\ (length tail + worse)%nat = mw)) /\
       forall r, In (Some (Some r)) tail -> exists b, best' = Some b /\ b <= r).
Proof.
  induction calls as [|c calls IH]; intros worse best found best' found' W L E; cbn [search] in E; destruct (Nat.leb_spec mw worse) as [Hm|Hm].
  1: { injection E as <- <-. split; auto. exists [], []. cbn. rewrite app_nil_r. auto 6. }
  1: { injection E as <- <-. split; auto. exists [], []. cbn. rewrite app_nil_r. auto 6. }
  1: { injection E as <- <-. split; auto. exists [], (c :: calls). cbn. rewrite app_nil_r. split; [auto|split; [auto|split; [auto|]]].
       right. right. exists [], []. cbn. split; [auto|split; [right; split; [auto|lia]|easy]]. }
  destruct c as [[r|]|].
  - pose proof (least_app best found r L) as L'.
    destruct (match best with None => true | Some b => ltb r b end) eqn:Eb.
    + destruct (IH 0%nat (Some r) (found ++ [r]) best' found' ltac:(lia) L' E) as (Lb & made & rest & -> & -> & F & St).
      split; auto. exists (Some (Some r) :: made), rest. cbn. rewrite <- app_assoc. split; [auto|split; [auto|split; [constructor; [discriminate|auto]|]]].
      destruct St as [St|[St|(earlier & tail & -> & Hl & Hr)]]; auto. right. right.
      exists (Some (Some r) :: earlier), tail. split; [auto|split; [|auto]]. left. destruct Hl as [Hl|[_ Hl]]; lia.
    + destruct (IH (S worse) best (found ++ [r]) best' found' ltac:(lia) L' E) as (Lb & made & rest & -> & -> & F & St).
      split; auto. exists (Some (Some r) :: made), rest. cbn. rewrite <- app_assoc. split; [auto|split; [auto|split; [constructor; [discriminate|auto]|]]].
      destruct St as [St|[St|(earlier & tail & -> & Hl & Hr)]]; auto. right. right. destruct Hl as [Hl|[-> Hl]].
      * exists (Some (Some r) :: earlier), tail. auto.
      * exists [], (Some (Some r) :: tail). cbn. split; [auto|split; [right; split; [auto|lia]|]].
        intros x [Hx|Hx]; auto. injection Hx as <-. destruct best' as [b|]; cbn in Lb.
        -- exists b. split; auto. apply Lb. apply in_or_app. left. apply in_or_app. cbn. auto.
        -- apply app_eq_nil in Lb. destruct Lb as [Lb _]. apply app_eq_nil in Lb. destruct Lb; discriminate.
  - destruct (IH (S worse) best found best' found' ltac:(lia) L E) as (Lb & made & rest & -> & -> & F & St).
    split; auto. exists (Some None :: made), rest. cbn. split; [auto|split; [auto|split; [constructor; [discriminate|auto]|]]].
    destruct St as [St|[St|(earlier & tail & -> & Hl & Hr)]]; auto. right. right. destruct Hl as [Hl|[-> Hl]].
    + exists (Some None :: earlier), tail. auto.
    + exists [], (Some None :: tail). cbn. split; [auto|split; [right; split; [auto|lia]|]]. intros x [Hx|Hx]; [discriminate|auto].
  - injection E as <- <-. split; auto. exists [], (None :: calls). cbn. rewrite app_nil_r. split; [auto|split; [auto|split; [auto|]]]. right. left. eauto.
Qed.

(** C78: the search with one partition function takes all partitions up to the point where
    the function ends or where the last [maxworse] of them were not better than the best rate *)
Theorem partition_search maxworse calls best found :
  search maxworse 0 calls None [] = (best, found) ->
  match best with Some b => In b found /\ forall r, In r found -> b <= r | None => found = [] end /\
  exists made rest, calls = made ++ rest /\ found = rates_of made /\ Forall (fun c => c <> None) made /\
    (rest = [] \/ (exists t, rest = None :: t) \/
     exists earlier tail, made = earlier ++ tail /\ length tail = maxworse /\
       forall r, In (Some (Some r)) tail -> exists b, best = Some b /\ b <= r).
Proof.
  intros E. destruct (search_ok maxworse calls 0 None [] best found) as (L & made & rest & H1 & H2 & H3 & H4); [lia|reflexivity|auto|].
  split; auto. exists made, rest. split; [auto|split; [auto|split; [auto|]]].
  destruct H4 as [H4|[H4|(earlier & tail & H5 & H6 & H7)]]; auto. right. right. exists earlier, tail. split; [auto|split; [|auto]].
  destruct H6 as [H6|[_ H6]]; lia.
Qed.
Print Assumptions partition_search.
(** C78: over all partition functions the best rate is that of a found variant *)
Theorem search_finds_least maxworse functions :
  let '(best, found) := search_all maxworse functions in
  match best with Some b => In b found /\ forall r, In r found -> b <= r | None => found = [] end.
Proof.
  unfold search_all. assert (forall acc, least_of (fst acc) (snd acc) ->
    least_of (fst (fold_left (fun acc calls => search maxworse 0 calls (fst acc) (snd acc)) functions acc))
             (snd (fold_left (fun acc calls => search maxworse 0 calls (fst acc) (snd acc)) functions acc))) as K.
  { induction functions as [|f functions IH]; intros acc L; cbn [fold_left]; auto. apply IH.
    destruct (search maxworse 0 f (fst acc) (snd acc)) as [b' f'] eqn:E.
    destruct (search_ok maxworse f 0 _ _ _ _ (Nat.le_0_l _) L E) as [L' _]. auto. }
  specialize (K (None, []) eq_refl). destruct (fold_left _ functions _) as [best found]. exact K.
Qed.
Print Assumptions search_finds_least.
Example search_ex : search 2 0 [Some (Some 5); Some (Some 3); Some None; Some (Some 4); Some (Some 1)] None [] = (Some 3, [5; 3; 4]).
Proof. cbn. unfold ltb. destruct (Rlt_dec 3 5); [|lra]. destruct (Rlt_dec 4 3); [lra|]. reflexivity. Qed.
