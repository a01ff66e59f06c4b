(** C63: layers *)
From Coq Require Import List Bool Arith Permutation Lia.
From Verif Require Import LayerModel.
Import ListNotations.

(** the layers among some items, in order *)
Definition names (l : list entry) : list nat := flat_map (fun e => match e with Layer n => [n] | Drawing _ => [] end) l.
(** every layer is exactly once among the items, at all levels *)
Fixpoint well (c : lcanvas) : Prop :=
  match c with LC items layers =>
    NoDup (map fst layers) /\ Permutation (names items) (map fst layers) /\
    (fix all (d : list (nat * lcanvas)) : Prop := match d with [] => True | p :: r => well (snd p) /\ all r end) layers
  end.
(** what is drawn, in order *)
Fixpoint drawn (c : lcanvas) : list nat :=
  match c with LC items layers =>
    let d := map (fun p => (fst p, drawn (snd p))) layers in
    flat_map (fun e => match e with Drawing k => [k] | Layer n => match assoc n d with Some l => l | None => [] end end) items
  end.
Definition all_well (d : list (nat * lcanvas)) : Prop := forall n c, In (n, c) d -> well c.
Lemma well_iff items layers : well (LC items layers) <-> NoDup (map fst layers) /\ Permutation (names items) (map fst layers) /\ all_well layers.
Proof.
  cbn. assert ((fix all (d : list (nat * lcanvas)) : Prop := match d with [] => True | p :: r => well (snd p) /\ all r end) layers <-> all_well layers) as E; [|tauto].
  induction layers as [|[n c] d IH].
  - split; [intros _ ? ? []|auto].
  - split.
    + intros [H1 H2] m c' [E|I]; [injection E as <- <-; auto|]. eapply IH; eauto.
    + intros H. split; [apply (H n c); now left|]. apply IH. intros m c' I. apply (H m c'). now right.
Qed.
(** what an item draws *)
Definition shown (d : list (nat * lcanvas)) (e : entry) : list nat :=
  match e with Drawing k => [k] | Layer n => match assoc n d with Some c => drawn c | None => [] end end.
Lemma assoc_map {A B} (f : A -> B) n d : assoc n (map (fun p => (fst p, f (snd p))) d) = match assoc n d with Some a => Some (f a) | None => None end.
Proof. induction d as [|[m a] d IH]; auto. cbn. destruct (Nat.eqb n m); auto. Qed.
Lemma drawn_eq items layers : drawn (LC items layers) = flat_map (shown layers) items.
Proof.
  cbn. apply flat_map_ext. intros [k|n]; auto. unfold shown. rewrite assoc_map. destruct (assoc n layers); auto.
Qed.
Lemma assoc_in {A} n (d : list (nat * A)) a : assoc n d = Some a -> In (n, a) d.
Proof. induction d as [|[m b] d IH]; cbn; [discriminate|]. destruct (Nat.eqb_spec n m) as [->|N]; intros H; [injection H as <-; auto|auto]. Qed.
Lemma assoc_keys {A} n (d : list (nat * A)) : assoc n d <> None <-> In n (map fst d).
Proof.
  induction d as [|[m b] d IH]; cbn; [tauto|]. destruct (Nat.eqb_spec n m) as [->|N]; [split; [auto|discriminate]|].
  rewrite IH. split; auto. intros [->|I]; [congruence|auto].
Qed.
Lemma assoc_none {A} n (d : list (nat * A)) : assoc n d = None <-> ~ In n (map fst d).
Proof. rewrite <- assoc_keys. destruct (assoc n d); split; intros H; try congruence. exfalso. apply H. discriminate. Qed.
Lemma keys_update {A} n (a : A) d : map fst (update n a d) = map fst d.
Proof. induction d as [|[m b] d IH]; cbn; auto. destruct (Nat.eqb n m); cbn; congruence. Qed.
Lemma assoc_update {A} n m (a : A) d : assoc m (update n a d) = if Nat.eqb m n then (match assoc n d with Some _ => Some a | None => None end) else assoc m d.
Proof.
  induction d as [|[k b] d IH]; cbn; [destruct (Nat.eqb m n); auto|]. destruct (Nat.eqb_spec n k) as [->|N]; cbn.
  - destruct (Nat.eqb m k); auto.
  - destruct (Nat.eqb_spec m k) as [->|N2]; auto. destruct (Nat.eqb_spec k n); auto. congruence.
Qed.
Lemma in_update {A} n m (a b : A) d : In (m, b) (update n a d) -> (m = n /\ b = a) \/ In (m, b) d.
Proof.
  induction d as [|[k c] d IH]; cbn; auto. destruct (Nat.eqb_spec n k) as [->|N]; cbn.
  - intros [E|I]; [injection E as <- <-; auto|auto].
  - intros [E|I]; auto. destruct (IH I) as [?|?]; auto.
Qed.
Lemma names_app a b : names (a ++ b) = names a ++ names b.
Proof. apply flat_map_app. Qed.

Lemma remove_spec n l l' : remove n l = Some l' -> exists a b, l = a ++ Layer n :: b /\ l' = a ++ b.
Proof.
  revert l'. induction l as [|e l IH]; cbn; intros l' H; [discriminate|]. destruct (is_layer n e) eqn:E.
  - destruct e; [discriminate|]. apply Nat.eqb_eq in E as ->. injection H as <-. exists [], l. auto.
  - destruct (remove n l) as [r|]; [|discriminate]. injection H as <-. destruct (IH r eq_refl) as (a & b & -> & ->). exists (e :: a), b. auto.
Qed.
Lemma above_spec k e l l' : insert_above k e l = Some l' -> exists a b, l = a ++ Layer k :: b /\ l' = a ++ Layer k :: e :: b.
Proof.
  revert l'. induction l as [|x l IH]; cbn; intros l' H; [discriminate|]. destruct (is_layer k x) eqn:E.
  - destruct x; [discriminate|]. apply Nat.eqb_eq in E as ->. injection H as <-. exists [], l. auto.
  - destruct (insert_above k e l) as [r|]; [|discriminate]. injection H as <-. destruct (IH r eq_refl) as (a & b & -> & ->). exists (x :: a), b. auto.
Qed.
Lemma below_spec k e l l' : insert_below k e l = Some l' -> exists a b, l = a ++ Layer k :: b /\ l' = a ++ e :: Layer k :: b.
Proof.
  revert l'. induction l as [|x l IH]; cbn; intros l' H; [discriminate|]. destruct (is_layer k x) eqn:E.
  - destruct x; [discriminate|]. apply Nat.eqb_eq in E as ->. injection H as <-. exists [], l. auto.
  - destruct (insert_below k e l) as [r|]; [|discriminate]. injection H as <-. destruct (IH r eq_refl) as (a & b & -> & ->). exists (x :: a), b. auto.
Qed.
Lemma key_spec d name k : key d name = Some k -> name = [k] /\ In k (map fst d).
Proof.
  unfold key. destruct name as [|a [|]]; try discriminate. destruct (assoc a d) eqn:E; [|discriminate]. intros H. injection H as <-.
  split; auto. apply assoc_keys. congruence.
Qed.

(** Items, with a layer put next to another one of the same canvas: [rest] is what remains without
    the layer *)
Definition put (n : nat) (above below : option (list nat)) (rest items : list entry) : Prop :=
  match above, below with
  | Some a, None => exists k l r, a = [k] /\ rest = l ++ Layer k :: r /\ items = l ++ Layer k :: Layer n :: r
  | None, Some b => exists k l r, b = [k] /\ rest = l ++ Layer k :: r /\ items = l ++ Layer n :: Layer k :: r
  | _, _ => False
  end.
(** C63: a successful call for a layer of this canvas gives an existing layer its new place next to
    the layer named, or none at all, and appends a new one or puts it next to the layer named;
    everything else keeps its order *)
Theorem simple_layer_place : forall n above below items layers c', layer [n] above below (LC items layers) = (c', true) ->
  layers_of c' = (if is_some (assoc n layers) then layers else layers ++ [(n, fresh)]) /\
  match above, below with
  | None, None => items_of c' = if is_some (assoc n layers) then items else items ++ [Layer n]
  | _, _ => exists rest, put n above below rest (items_of c') /\
            (if is_some (assoc n layers) then exists l r, items = l ++ Layer n :: r /\ rest = l ++ r else rest = items)
  end.
Proof.
  intros n above below items layers c' H. cbn in H.
  destruct above as [a|], below as [b|]; cbn in H; try discriminate; unfold simple_layer in H; cbn in H; destruct (assoc n layers) as [sub|] eqn:E; cbn in *.
  - destruct (remove n items) as [i|] eqn:R; cbn in H; [|discriminate]. destruct (key layers a) as [k|] eqn:K; [|discriminate].
    destruct (insert_above k (Layer n) i) as [i'|] eqn:I; [|discriminate]. injection H as <-. split; auto.
    apply key_spec in K as [-> _]. apply remove_spec in R as (l & r & -> & ->). apply above_spec in I as (l' & r' & E1 & ->). exists (l ++ r). cbn. split; eauto 8.
  - destruct (key (layers ++ [(n, fresh)]) a) as [k|] eqn:K; [|discriminate].
    destruct (insert_above k (Layer n) items) as [i'|] eqn:I; [|discriminate]. injection H as <-. split; auto.
    apply key_spec in K as [-> _]. apply above_spec in I as (l' & r' & E1 & ->). exists items. cbn. split; eauto 8.
  - destruct (remove n items) as [i|] eqn:R; cbn in H; [|discriminate]. destruct (key layers b) as [k|] eqn:K; [|discriminate].
    destruct (insert_below k (Layer n) i) as [i'|] eqn:I; [|discriminate]. injection H as <-. split; auto.
    apply key_spec in K as [-> _]. apply remove_spec in R as (l & r & -> & ->). apply below_spec in I as (l' & r' & E1 & ->). exists (l ++ r). cbn. split; eauto 8.
  - destruct (key (layers ++ [(n, fresh)]) b) as [k|] eqn:K; [|discriminate].
    destruct (insert_below k (Layer n) items) as [i'|] eqn:I; [|discriminate]. injection H as <-. split; auto.
    apply key_spec in K as [-> _]. apply below_spec in I as (l' & r' & E1 & ->). exists items. cbn. split; eauto 8.
  - injection H as <-. auto.
  - injection H as <-. auto.
Qed.
Print Assumptions simple_layer_place.
Lemma layer_eq g m rest above below c : layer (g :: m :: rest) above below c =
  if is_some above && is_some below then (c, false)
  else let c1 := match assoc g (layers_of c) with Some _ => c | None => LC (items_of c ++ [Layer g]) (layers_of c ++ [(g, fresh)]) end in
       match in_group g above, in_group g below, assoc g (layers_of c1) with
       | Some a, Some b, Some sub => let (sub', ok) := layer (m :: rest) a b sub in (LC (items_of c1) (update g sub' (layers_of c1)), ok)
       | _, _, _ => (c1, false)
       end.
Proof. reflexivity. Qed.
(** C63: a call for a layer of a group is the call for the group, which is appended if it is new *)
Theorem group_layer : forall g m rest above below items layers c', layer (g :: m :: rest) above below (LC items layers) = (c', true) ->
  exists a b sub sub', above = match a with Some x => Some (g :: x) | None => None end /\ below = match b with Some x => Some (g :: x) | None => None end /\
    sub = match assoc g layers with Some s => s | None => fresh end /\ layer (m :: rest) a b sub = (sub', true) /\
    items_of c' = (if is_some (assoc g layers) then items else items ++ [Layer g]) /\
    (forall k, assoc k (layers_of c') = if Nat.eqb k g then Some sub' else assoc k layers).
Proof.
  intros g m rest above below items layers c' H. rewrite layer_eq in H. cbv zeta in H.
  destruct (is_some above && is_some below); [discriminate|]. cbn [items_of layers_of] in H.
  set (c1 := match assoc g layers with Some _ => LC items layers | None => LC (items ++ [Layer g]) (layers ++ [(g, fresh)]) end) in *.
  assert (forall o x, in_group g o = Some x -> o = match x with Some y => Some (g :: y) | None => None end) as IG.
  { intros [[|h [|h' l]]|] x Q; cbn in Q; try discriminate.
    - destruct (Nat.eqb_spec h g) as [->|]; [|discriminate]. injection Q as <-. reflexivity.
    - injection Q as <-. reflexivity. }
  destruct (in_group g above) as [a|] eqn:Ea; [|discriminate]. destruct (in_group g below) as [b|] eqn:Eb; [|discriminate].
  destruct (assoc g (layers_of c1)) as [sub|] eqn:Es; [|discriminate].
  destruct (layer (m :: rest) a b sub) as [sub' ok] eqn:El. injection H as <- ->.
  exists a, b, sub, sub'. split; [apply IG; auto|]. split; [apply IG; auto|].
  assert (forall k, assoc k (layers ++ [(g, fresh)]) = match assoc k layers with Some s => Some s | None => if Nat.eqb k g then Some fresh else None end) as AA.
  { intros k. clear. induction layers as [|[x y] d IH]; cbn; auto. destruct (Nat.eqb k x); auto. }
  unfold c1 in *. destruct (assoc g layers) as [s|] eqn:E0; cbn in *.
  - split; [congruence|]. split; auto. split; auto. intros k. rewrite assoc_update. rewrite E0. reflexivity.
  - rewrite AA, E0, Nat.eqb_refl in Es. split; [congruence|]. split; auto. split; auto. intros k. rewrite assoc_update, !AA, E0, Nat.eqb_refl.
    destruct (Nat.eqb k g); auto. destruct (assoc k layers); auto.
Qed.
Print Assumptions group_layer.

Lemma put_permutation n above below rest items : put n above below rest items -> Permutation items (Layer n :: rest).
Proof.
  unfold put. destruct above as [a|], below as [b|]; try contradiction; intros (k & l & r & _ & -> & ->).
  - symmetry. change (l ++ Layer k :: Layer n :: r) with (l ++ [Layer k] ++ Layer n :: r). rewrite app_assoc. change (l ++ Layer k :: r) with (l ++ [Layer k] ++ r). rewrite app_assoc. apply Permutation_middle.
  - symmetry. apply Permutation_middle.
Qed.
Lemma names_permutation a b : Permutation a b -> Permutation (names a) (names b).
Proof. intros P. unfold names. now apply Permutation_flat_map. Qed.
Lemma fresh_well : well fresh.
Proof. cbn. repeat split; constructor. Qed.
Lemma well_of c : well c -> NoDup (map fst (layers_of c)) /\ Permutation (names (items_of c)) (map fst (layers_of c)) /\ all_well (layers_of c).
Proof. destruct c. apply well_iff. Qed.
Lemma nodup_snoc {A} (x : A) l : ~ In x l -> NoDup l -> NoDup (l ++ [x]).
Proof. intros N D. apply Permutation_NoDup with (x :: l); [apply Permutation_cons_append|]. constructor; auto. Qed.
Lemma assoc_snoc {A} k g (x : A) d : assoc k (d ++ [(g, x)]) = match assoc k d with Some s => Some s | None => if Nat.eqb k g then Some x else None end.
Proof. induction d as [|[a b] d IH]; cbn; auto. destruct (Nat.eqb k a); auto. Qed.

Lemma layer_well name : forall above below c c', well c -> layer name above below c = (c', true) ->
  well c' /\ Permutation (drawn c) (drawn c') /\ (above = None -> below = None -> drawn c' = drawn c).
Proof.
  induction name as [|n name IH]; intros above below c c' W H.
  { cbn in H. destruct (is_some above && is_some below); discriminate. }
  destruct c as [items layers]. apply well_iff in W as (N & P & W).
  destruct name as [|m rest].
  - destruct (simple_layer_place n above below items layers c' H) as [L I]. destruct c' as [items' layers']. cbn in L, I.
    assert (all_well layers') as W'.
    { rewrite L. destruct (is_some (assoc n layers)); auto. intros k c J. apply in_app_iff in J as [J|[J|[]]]; [eapply W; eauto|]. injection J as <- <-. apply fresh_well. }
    assert (NoDup (map fst layers')) as N'.
    { rewrite L. destruct (assoc n layers) as [old|] eqn:E; cbn; auto. rewrite map_app. apply nodup_snoc; auto. now apply assoc_none. }
    assert (forall e, e <> Layer n -> shown layers' e = shown layers e) as Sh.
    { intros [k|k] Ne; auto. cbn. rewrite L. destruct (assoc n layers) as [old|] eqn:E; cbn; auto. rewrite assoc_snoc. destruct (assoc k layers); auto.
      destruct (Nat.eqb k n); auto. }
    assert (assoc n layers = None -> shown layers' (Layer n) = []) as ShN.
    { intros E. cbn. rewrite L, E. cbn. rewrite assoc_snoc, E, Nat.eqb_refl. reflexivity. }
    assert (forall l, assoc n layers = None -> (forall e, In e l -> In e items) -> flat_map (shown layers') l = flat_map (shown layers) l) as Old.
    { intros l E. induction l as [|e l IHl]; intros J; auto. cbn. rewrite IHl by (intros; apply J; now right). rewrite Sh; auto.
      intros ->. assert (In n (names items)) as K.
      { unfold names. apply in_flat_map. exists (Layer n). split; [apply J; now left|now left]. }
      apply (Permutation_in n P) in K. apply assoc_none in E. contradiction. }
    assert (is_some (assoc n layers) = true -> layers' = layers) as Same by (intros E; rewrite L, E; auto).
    (* the two cases: next to another layer or not *)
    assert ((above = None /\ below = None /\ items' = (if is_some (assoc n layers) then items else items ++ [Layer n])) \/
            (exists rest, put n above below rest items' /\ (if is_some (assoc n layers) then exists l r, items = l ++ Layer n :: r /\ rest = l ++ r else rest = items) /\
             ~ (above = None /\ below = None))) as CASES.
    { destruct above as [a|], below as [b|]; cbn in I.
      - destruct I as (rest & [] & _).
      - right. destruct I as (rest & J & K). exists rest. split; auto. split; auto. intros [? ?]; discriminate.
      - right. destruct I as (rest & J & K). exists rest. split; auto. split; auto. intros [? ?]; discriminate.
      - left. auto. }
    destruct CASES as [(-> & -> & EI)|(rest & PU & RE & NN)].
    + assert (drawn (LC items' layers') = drawn (LC items layers)) as DD.
      { rewrite !drawn_eq. rewrite EI. destruct (assoc n layers) as [old|] eqn:E; cbn.
        - rewrite Same; auto.
        - rewrite flat_map_app. cbn [flat_map]. rewrite (ShN eq_refl), !app_nil_r. apply Old; auto. }
      split; [|split; auto; now rewrite DD]. apply well_iff. split; auto. split; auto. rewrite EI, L. destruct (assoc n layers) as [old|] eqn:E; cbn; auto.
      rewrite names_app, map_app. cbn. now apply Permutation_app_tail.
    + pose proof (put_permutation _ _ _ _ _ PU) as PP. split; [|split; [|tauto]].
      * apply well_iff. split; auto. split; auto. rewrite L. destruct (assoc n layers) as [old|] eqn:E; cbn in *.
        -- destruct RE as (l & r & -> & ->). rewrite (names_permutation _ _ PP). rewrite <- P.
           symmetry. apply names_permutation. symmetry. apply Permutation_middle.
        -- subst rest. rewrite (names_permutation _ _ PP). cbn. rewrite map_app. cbn. rewrite P. apply Permutation_cons_append.
      * rewrite !drawn_eq. rewrite (Permutation_flat_map (shown layers') PP). cbn [flat_map].
        destruct (assoc n layers) as [old|] eqn:E; cbn [is_some] in *.
        -- rewrite (Same eq_refl). destruct RE as (l & r & -> & ->).
           change (shown layers (Layer n) ++ flat_map (shown layers) (l ++ r)) with (flat_map (shown layers) (Layer n :: l ++ r)).
           apply Permutation_flat_map. symmetry. apply Permutation_middle.
        -- subst rest. rewrite (ShN eq_refl). cbn. rewrite Old; auto.
  - destruct (group_layer n m rest above below items layers c' H) as (a & b & sub & sub' & Ea & Eb & Es & El & EI & EL).
    assert (well sub) as Ws.
    { subst sub. destruct (assoc n layers) as [old|] eqn:E; [|apply fresh_well]. apply assoc_in in E. eapply W; eauto. }
    destruct (IH a b sub sub' Ws El) as (Ws' & Pd & Eq).
    assert (map fst (layers_of c') = if is_some (assoc n layers) then map fst layers else map fst layers ++ [n]) as EK.
    { clear - H. rewrite layer_eq in H. cbv zeta in H. destruct (is_some above && is_some below); [discriminate|]. cbn [items_of layers_of] in H.
      destruct (assoc n layers) as [old|] eqn:E0; cbn [layers_of items_of] in H;
        destruct (in_group n above); try discriminate; destruct (in_group n below); try discriminate;
        match type of H with context [assoc ?x ?y] => destruct (assoc x y) end; try discriminate;
        match type of H with context [layer ?w ?x ?y ?z] => destruct (layer w x y z) end; injection H as <- _; cbn; rewrite keys_update; auto.
      now rewrite map_app. }
    destruct c' as [items' layers']. cbn in EI, EL, EK.
    assert (NoDup (map fst layers')) as N'.
    { rewrite EK. destruct (assoc n layers) as [old|] eqn:E; cbn; auto. apply nodup_snoc; auto. now apply assoc_none. }
    split; [|].
    { apply well_iff. split; auto. split.
      - rewrite EI, EK. destruct (assoc n layers); cbn; auto. rewrite names_app. cbn. now apply Permutation_app_tail.
      - intros k c J. assert (assoc k layers' = Some c) as AK.
        { clear - J N'. induction layers' as [|[x y] d IHd]; [destruct J|]. cbn in *. inversion N' as [|? ? X1 X2]; subst.
          destruct J as [J|J]; [injection J as -> ->; now rewrite Nat.eqb_refl|].
          destruct (Nat.eqb_spec k x) as [->|]; auto. exfalso. apply X1. apply in_map_iff. exists (x, c). auto. }
        rewrite EL in AK. destruct (Nat.eqb k n); [injection AK as <-; auto|]. eapply W. apply assoc_in. exact AK. }
    assert (forall e, e <> Layer n -> shown layers' e = shown layers e) as Sh.
    { intros [k|k] Ne; auto. cbn. rewrite EL. destruct (Nat.eqb_spec k n); auto. subst. congruence. }
    assert (shown layers' (Layer n) = drawn sub') as ShN by (cbn; rewrite EL, Nat.eqb_refl; auto).
    assert (Permutation (shown layers (Layer n)) (shown layers' (Layer n))) as PN.
    { rewrite ShN. cbn. subst sub. destruct (assoc n layers); auto. }
    assert (forall l, Permutation (flat_map (shown layers) l) (flat_map (shown layers') l)) as PL.
    { induction l as [|e l IHl]; cbn; auto. apply Permutation_app; auto.
      destruct e as [k|k]; [apply Permutation_refl|]. destruct (Nat.eq_dec k n) as [->|Ne]; auto. rewrite Sh by congruence. apply Permutation_refl. }
    assert (forall l, above = None -> below = None -> flat_map (shown layers') l = flat_map (shown layers) l) as EQL.
    { intros l Qa Qb. assert (a = None /\ b = None) as [-> ->].
      { rewrite Ea in Qa. rewrite Eb in Qb. destruct a, b; try discriminate. auto. }
      induction l as [|e l IHl]; cbn; auto. rewrite IHl. f_equal. destruct e as [k|k]; auto. destruct (Nat.eq_dec k n) as [->|Ne]; [|apply Sh; congruence].
      rewrite ShN, Eq; auto. subst sub. cbn. destruct (assoc n layers); auto. }
    assert (assoc n layers = None -> drawn fresh = []) as _ by auto.
    rewrite !drawn_eq, EI. destruct (assoc n layers) as [old|] eqn:E0; cbn [is_some].
    + split; auto.
    + assert (shown layers (Layer n) = []) as Z0 by (cbn; rewrite E0; auto).
      assert (shown layers' (Layer n) = []) as Z1.
      { rewrite Z0 in PN. now apply Permutation_nil in PN. }
      split.
      * rewrite flat_map_app. cbn [flat_map]. rewrite Z1, !app_nil_r. apply PL.
      * intros Qa Qb. rewrite flat_map_app. cbn [flat_map]. rewrite Z1, !app_nil_r. apply EQL; auto.
Qed.

(** ** histories of calls *)
Inductive call := Insert (name : list nat) (k : nat) | GetLayer (name : list nat) (above below : option (list nat)) | Clear.
(** all calls of the history succeed and lead from one canvas to the other *)
Inductive history : lcanvas -> list call -> lcanvas -> Prop :=
| H_nil c : history c [] c
| H_insert c name k h c' : history (insert name k c) h c' -> history c (Insert name k :: h) c'
| H_layer c name a b h c1 c' : layer name a b c = (c1, true) -> history c1 h c' -> history c (GetLayer name a b :: h) c'
| H_clear c h c' : history (clear c) h c' -> history c (Clear :: h) c'.
Lemma insert_well name k : forall c, well c -> well (insert name k c).
Proof.
  induction name as [|g rest IH]; intros [items layers] W; apply well_iff in W as (N & P & W); cbn [insert items_of layers_of].
  - apply well_iff. split; auto. split; auto. rewrite names_app. cbn. now rewrite app_nil_r.
  - destruct (assoc g layers) as [sub|] eqn:E; [|apply well_iff; auto]. apply well_iff. rewrite keys_update. split; auto. split; auto.
    intros n c J. apply in_update in J as [[-> ->]|J]; [|eapply W; eauto]. apply IH. eapply W. apply assoc_in. exact E.
Qed.
(** C63: after any history of successful calls every layer is exactly once among the items of its canvas *)
Theorem layers_once : forall c h c', well c -> history c h c' -> well c'.
Proof.
  intros c h c' W H. induction H as [c|c name k h c' H IH|c name a b h c1 c' E H IH|c h c' H IH]; auto.
  - apply IH. now apply insert_well.
  - apply IH. now apply (layer_well _ _ _ _ _ W E).
  - apply IH. apply fresh_well.
Qed.
Print Assumptions layers_once.
(** C63: a successful call neither loses nor doubles a drawing, and without above and below it does
    not change the order of drawings *)
Theorem layer_keeps_drawings : forall name above below c c', well c -> layer name above below c = (c', true) ->
  Permutation (drawn c) (drawn c') /\ (above = None -> below = None -> drawn c' = drawn c).
Proof. intros. eapply layer_well; eauto. Qed.
Print Assumptions layer_keeps_drawings.
(** C63: calls without above and below never fail on a canvas in order *)
Theorem layer_succeeds : forall name c, well c -> name <> [] -> snd (layer name None None c) = true.
Proof.
  induction name as [|n name IH]; intros [items layers] W N; [congruence|]. apply well_iff in W as (_ & _ & W).
  destruct name as [|m rest].
  - cbn. unfold simple_layer. cbn. destruct (assoc n layers); reflexivity.
  - assert (exists sub, well sub /\ snd (layer (n :: m :: rest) None None (LC items layers)) = snd (layer (m :: rest) None None sub)) as (sub & Ws & ->).
    { rewrite layer_eq. cbn [is_some andb]. cbn [items_of layers_of in_group]. destruct (assoc n layers) as [s|] eqn:E.
      - cbn [layers_of]. rewrite E. exists s. split; [eapply W; apply assoc_in; eauto|].
        destruct (layer (m :: rest) None None _) as [sub' ok]. reflexivity.
      - cbn [layers_of]. rewrite assoc_snoc, E, Nat.eqb_refl. exists fresh. split; [apply fresh_well|].
        destruct (layer (m :: rest) None None _) as [sub' ok]. reflexivity. }
    apply IH; auto. discriminate.
Qed.
Print Assumptions layer_succeeds.

(** C63 is false with failing calls: asking for a new layer above one that does not exist raises an
    exception, but the new layer is registered without being among the items.  A later successful
    call for it gives a canvas that is never drawn. *)
Theorem layer_missing_refuted : exists c name above c1 c2 k, well c /\ layer name above None c = (c1, false) /\
  layer name None None c1 = (c2, true) /\ drawn (insert name k c2) = drawn c.
Proof.
  exists fresh, [1], (Some [2]), (LC [] [(1, fresh)]), (LC [] [(1, fresh)]), 7. split; [apply fresh_well|]. repeat split.
Qed.
Print Assumptions layer_missing_refuted.
(** C63: asking for an existing layer above itself removes it from the canvas with all its drawings *)
Theorem layer_itself_refuted : exists c n c1, well c /\ drawn c <> [] /\ layer [n] (Some [n]) None c = (c1, false) /\ drawn c1 = [].
Proof.
  exists (LC [Layer 1] [(1, LC [Drawing 5] [])]), 1, (LC [] [(1, LC [Drawing 5] [])]). split; [cbn; repeat split; repeat constructor; auto|].
  split; [discriminate|]. split; reflexivity.
Qed.
Print Assumptions layer_itself_refuted.

Example layers_ex : exists c, history fresh
  [GetLayer [1] None None; Insert [1] 10; Insert [] 11; GetLayer [2; 3] None None; Insert [2; 3] 12; GetLayer [2; 4] None (Some [2; 3]); Insert [2; 4] 13;
   GetLayer [1] (Some [2]) None] c /\ drawn c = [11; 13; 12; 10].
Proof.
  eexists. split; [|shelve]. repeat (first [apply H_nil|apply H_insert|eapply H_layer; [reflexivity|]]).
  Unshelve. reflexivity.
Qed.
