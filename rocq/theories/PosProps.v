(** C170: which columns of the data give the positions of points in graphs *)
From Coq Require Import String QArith List Bool Arith Lia.
From Verif Require Import PosModel.
Import ListNotations.
Open Scope nat_scope.

(** the name of the column for an axis: given by the dictionary usenames or the name of the axis *)
Definition uses (usenames : list (name * name)) (a u : name) : Prop := In (a, u) usenames \/ (~ In a (map fst usenames) /\ u = a).
(** the axis takes the values of this column *)
Definition takes (usenames : list (name * name)) (cs : list name) (a u : name) : Prop := uses usenames a u /\ In u cs.

Lemma get_in d k v : NoDup (map fst d) -> get d k = Some v <-> In (k, v) d.
Proof.
  induction d as [|[k' v'] d IH]; cbn [get map fst]; intros N; [split; [discriminate|intros []]|]. inversion N as [|? ? N1 N2]; subst. destruct (String.eqb_spec k k') as [-> |E].
  - split; [intros [= ->]; now left|]. intros [[= ->]|I]; auto. elim N1. now apply (in_map fst) in I.
  - rewrite IH by auto. cbn. split; auto. intros [[= -> _]|I]; auto. now elim E.
Qed.
Lemma get_none d k : get d k = None <-> ~ In k (map fst d).
Proof.
  induction d as [|[k' v'] d IH]; cbn [get map fst]; [tauto|]. destruct (String.eqb_spec k k') as [-> |E]; [split; [discriminate|intros H; elim H; now left]|].
  rewrite IH. cbn. split; intros H; [intros [F|F]; [now elim E|auto]|auto].
Qed.
Lemma usename_uses un a u : NoDup (map fst un) -> uses un a u <-> u = usename un a.
Proof.
  intros N. unfold uses, usename. destruct (get un a) as [v|] eqn:G.
  - assert (In (a, v) un) as I by now apply get_in. split; [|intros ->; now left]. intros [J|[J _]].
    + apply get_in in J; auto. rewrite J in G. now injection G.
    + elim J. now apply (in_map fst) in I.
  - apply get_none in G. split; [intros [J|[_ ->]]; auto|intros ->; now right]. elim G. now apply (in_map fst) in J.
Qed.
Definition hit (cs : list name) (u : name) : bool := existsb (String.eqb u) cs.
Lemma hit_in cs u : hit cs u = true <-> In u cs.
Proof. unfold hit. rewrite existsb_exists. split; [intros (x & I & E); apply String.eqb_eq in E; now subst|intros I; exists u; split; auto; apply String.eqb_refl]. Qed.
Lemma columns_loop_spec u a : forall cs p, NoDup cs -> columns_loop u a cs p = if hit cs u then mkpdata (cols p ++ [Some u]) (missing p) ((u, a) :: axisnames p) else p.
Proof.
  induction cs as [|c cs IH]; intros p N; [reflexivity|]. inversion N as [|? ? N1 N2]; subst. cbn [columns_loop hit existsb]. rewrite IH by auto. fold (hit cs u).
  destruct (String.eqb_spec u c) as [-> |E]; cbn [orb]; auto. destruct (hit cs c) eqn:H; auto. apply hit_in in H. contradiction.
Qed.
Section Loops.
Variables (un : list (name * name)) (cs : list name).
Hypothesis Ncs : NoDup cs.
Definition hits (axes : list name) : list name := filter (fun a => hit cs (usename un a)) axes.
Lemma axes_loop_spec : forall axes p, axes_loop un cs axes p =
  mkpdata (cols p ++ map (fun a => Some (usename un a)) (hits axes)) (missing p) (rev (map (fun a => (usename un a, a)) (hits axes)) ++ axisnames p).
Proof.
  induction axes as [|a axes IH]; intros p; cbn [axes_loop hits filter]; [cbn; rewrite app_nil_r; now destruct p|]. rewrite columns_loop_spec by auto. rewrite IH. fold (hits axes).
  destruct (hit cs (usename un a)); auto. cbn [cols missing axisnames map rev]. now rewrite <- !app_assoc.
Qed.
(** the column of a dimension *)
Definition col (axes : list name) : option name := match hits axes with [a] => Some (usename un a) | _ => None end.
Fixpoint nones {A} (n : nat) (l : list (option A)) : list nat := match l with Some _ :: r => nones (S n) r | None :: r => n :: nones (S n) r | [] => [] end.
Lemma dims_loop_spec : forall dims n p, List.length (cols p) = n ->
  if forallb (fun axes => List.length (hits axes) <=? 1) dims
  then exists q, dims_loop un cs n dims p = Some q /\ cols q = cols p ++ map col dims /\ missing q = missing p ++ nones n (map col dims) /\
    axisnames q = rev (map (fun a => (usename un a, a)) (flat_map hits dims)) ++ axisnames p
  else dims_loop un cs n dims p = None.
Proof.
  induction dims as [|axes dims IH]; intros n p L; cbn [forallb dims_loop map nones flat_map].
  - exists p. rewrite !app_nil_r. auto.
  - rewrite axes_loop_spec. cbn [cols missing axisnames]. rewrite app_length, map_length, L. assert (col axes = match hits axes with [a] => Some (usename un a) | _ => None end) as -> by reflexivity.
    destruct (hits axes) as [|a [|a' r]] eqn:H; cbn [List.length Nat.leb andb map app rev].
    + destruct (Nat.ltb_spec (n + 1) (n + 0)) as [F|_]; [lia|]. destruct (Nat.ltb_spec (n + 0) (n + 1)) as [_|F]; [|lia].
      specialize (IH (S n) (mkpdata ((cols p ++ []) ++ [None]) (missing p ++ [n]) (axisnames p))). cbn [cols missing axisnames] in IH. rewrite app_nil_r in IH.
      rewrite app_nil_r. specialize (IH ltac:(rewrite app_length; cbn; lia)). destruct (forallb _ dims); auto.
      destruct IH as (q & E & C & M & X). exists q. split; auto. rewrite C, M, X. rewrite <- !app_assoc. auto.
    + destruct (Nat.ltb_spec (n + 1) (n + 1)) as [F|_]; [lia|].
      specialize (IH (S n) (mkpdata (cols p ++ [Some (usename un a)]) (missing p) ((usename un a, a) :: axisnames p))). cbn [cols missing axisnames] in IH.
      specialize (IH ltac:(rewrite app_length; cbn; lia)). destruct (forallb _ dims); auto.
      destruct IH as (q & E & C & M & X). exists q. split; auto. rewrite C, M, X. cbn [nones]. rewrite <- !app_assoc. auto.
    + destruct (Nat.ltb_spec (n + 1) (n + S (S (List.length r)))) as [_|F]; [reflexivity|lia].
Qed.
End Loops.
(** ** the places of the columns *)
Definition shift (ms : list nat) (i : nat) : nat := fold_left (fun i m => if m <=? i then i + 1 else i) ms i.
Fixpoint places {A} (n : nat) (l : list (option A)) : list (nat * A) := match l with Some x :: r => (n, x) :: places (S n) r | None :: r => places (S n) r | [] => [] end.
Lemma nones_ge {A} : forall (l : list (option A)) n m, In m (nones n l) -> n <= m.
Proof. induction l as [|[x|] l IH]; intros n m; cbn [nones]; [intros []| |]; intros I; [apply IH in I; lia|]. destruct I as [-> |I]; [lia|apply IH in I; lia]. Qed.
Lemma shift_low : forall ms i, (forall m, In m ms -> i < m) -> shift ms i = i.
Proof. induction ms as [|m ms IH]; intros i H; [reflexivity|]. unfold shift. cbn [fold_left]. destruct (Nat.leb_spec m i) as [F|_]; [pose proof (H m (or_introl eq_refl)); lia|]. apply IH. intros; apply H; now right. Qed.
Lemma shift_places {A} : forall (l : list (option A)) n, map (fun '(i, x) => (shift (nones n l) i, x)) (combine (seq n (List.length (somes l))) (somes l)) = places n l.
Proof.
  induction l as [|[x|] l IH]; intros n; [reflexivity| |].
  - cbn [somes flat_map app List.length seq combine map nones places]. fold (@somes A l). rewrite IH. f_equal. f_equal. apply shift_low. intros m I. apply nones_ge in I. lia.
  - cbn [somes flat_map app nones places]. fold (@somes A l). rewrite <- IH. rewrite <- seq_shift. generalize (somes l). intros s.
    assert (G : forall k (s' : list A), n <= k -> map (fun '(i, x) => (shift (n :: nones (S n) l) i, x)) (combine (seq k (List.length s')) s') = map (fun '(i, x) => (shift (nones (S n) l) i, x)) (combine (map S (seq k (List.length s'))) s')).
    { intros k s'. revert k. induction s' as [|y s' IHs]; intros k K; [reflexivity|]. cbn [List.length seq combine map]. rewrite IHs by lia. f_equal. unfold shift at 1. cbn [fold_left].
      destruct (Nat.leb_spec n k) as [_|F]; [|lia]. now rewrite Nat.add_1_r. }
    apply G. lia.
Qed.
Lemma places_in {A} : forall (l : list (option A)) n i x, In (i, x) (places n l) <-> n <= i /\ nth_error l (i - n) = Some (Some x).
Proof.
  induction l as [|o l IH]; intros n i x; cbn [places].
  - split; [intros []|]. intros [_ H]. destruct (i - n); discriminate.
  - destruct o as [y|].
    + cbn [In]. rewrite IH. split.
      * intros [[= <- <-]|[L E]]; [split; auto; now rewrite Nat.sub_diag|]. split; [lia|]. replace (i - n) with (S (i - S n)) by lia. exact E.
      * intros [L E]. destruct (i - n) as [|k] eqn:K; [left; cbn in E; injection E as ->; f_equal; lia|]. right. split; [lia|]. replace (i - S n) with k by lia. exact E.
    + rewrite IH. split; intros [L E].
      * split; [lia|]. replace (i - n) with (S (i - S n)) by lia. exact E.
      * destruct (i - n) as [|k] eqn:K; [discriminate|]. split; [lia|]. replace (i - S n) with k by lia. exact E.
Qed.
Lemma places_nodup {A} : forall (l : list (option A)) n, NoDup (map fst (places n l)).
Proof.
  induction l as [|[x|] l IH]; intros n; cbn [places map fst]; auto using NoDup_nil. constructor; auto. intros I. apply in_map_iff in I. destruct I as ([i y] & E & I). cbn in E. subst.
  apply places_in in I. lia.
Qed.
Lemma initdrawpoints_spec p : missing p = nones 0 (cols p) -> (forall c, In (Some c) (cols p) -> get (axisnames p) c <> None) ->
  initdrawpoints p = Some (map (fun '(i, c) => (c, i, match get (axisnames p) c with Some a => a | None => c end)) (places 0 (cols p))).
Proof.
  intros M G. unfold initdrawpoints, enumerate. rewrite M. set (ax := fun c => match get (axisnames p) c with Some a => a | None => c end).
  assert (E : forall l : list (nat * name), (forall i c, In (i, c) l -> get (axisnames p) c <> None) ->
    fold_right (fun '(i, c) r => match get (axisnames p) c, r with Some a, Some r => Some ((c, i, a) :: r) | _, _ => None end) (Some []) l = Some (map (fun '(i, c) => (c, i, ax c)) l)).
  { induction l as [|[i c] l IH]; intros H; [reflexivity|]. cbn [fold_right map]. rewrite IH by (intros i' c' J; apply (H i' c'); now right). pose proof (H i c (or_introl eq_refl)) as Hc.
    destruct (get (axisnames p) c) as [a|] eqn:Ga; [|congruence]. assert (ax c = a) as -> by (unfold ax; now rewrite Ga). reflexivity. }
  rewrite E.
  2:{ intros i c I. apply in_combine_r in I. apply G. unfold somes in I. apply in_flat_map in I. destruct I as ([x|] & I & J); [|destruct J]. destruct J as [-> |[]]. exact I. }
  f_equal. rewrite <- shift_places. rewrite map_map. generalize (combine (seq 0 (List.length (somes (cols p)))) (somes (cols p))). generalize (nones 0 (cols p)). clear.
  induction l as [|m ms IH]; intros l.
  - cbn [fold_left]. apply map_ext. intros [i c]. reflexivity.
  - cbn [fold_left]. rewrite map_map. transitivity (fold_left (fun l m => map (fun '(c, i, a) => if m <=? i then (c, i + 1, a) else (c, i, a)) l) ms (map (fun '(i, c) => (c, i, ax c)) (map (fun '(i, c) => (if m <=? i then i + 1 else i, c)) l))).
    + f_equal. rewrite map_map. apply map_ext. intros [i c]. destruct (m <=? i); reflexivity.
    + rewrite IH, map_map. apply map_ext. intros [i c]. reflexivity.
Qed.
(** ** drawing *)
Lemma set_same {A} i (x : A) l : i < List.length l -> nth_error (set_nth i x l) i = Some x.
Proof. revert l. induction i as [|i IH]; intros [|y l] L; cbn in *; try lia; auto. apply IH. lia. Qed.
Lemma set_other {A} i j (x : A) l : i <> j -> nth_error (set_nth i x l) j = nth_error l j.
Proof. revert j l. induction i as [|i IH]; intros [|j] [|y l] L; cbn; auto; try lia. Qed.
Lemma set_length {A} i (x : A) l : List.length (set_nth i x l) = List.length l.
Proof. revert l. induction i as [|i IH]; intros [|y l]; cbn; auto. Qed.
Section DrawProofs.
Context {V : Type}.
Variables (convert : name -> V -> option Q) (epsilon : Q) (point : name -> V).
Lemma draw_spec : forall l s, NoDup (map (fun '(_, i, _) => i) l) -> (forall c i a, In (c, i, a) l -> i < List.length (vpos s)) ->
  let r := draw_loop convert epsilon point l s in
  (forall c i a, In (c, i, a) l -> nth_error (vpos r) i = Some (convert a (point c))) /\
  (forall i, ~ In i (map (fun '(_, i, _) => i) l) -> nth_error (vpos r) i = nth_error (vpos s) i) /\
  available r = available s && forallb (fun '(c, _, a) => match convert a (point c) with Some _ => true | None => false end) l /\
  valid r = valid s && forallb (fun '(c, _, a) => match convert a (point c) with Some v => negb (outside epsilon v) | None => false end) l.
Proof.
  induction l as [|[[c i] a] l IH]; intros s N L.
  - cbn. rewrite !andb_true_r. repeat split; auto. intros ? ? ? [].
  - cbn [map] in N. inversion N as [|? ? N1 N2]; subst. cbn [draw_loop map forallb].
    set (s' := match convert a (point c) with None => _ | Some v => _ end).
    assert (vpos s' = set_nth i (convert a (point c)) (vpos s)) as Vs by (unfold s'; destruct (convert a (point c)); reflexivity).
    specialize (IH s' N2). cbv zeta in *. destruct IH as (A & B & C & D).
    { intros c' i' a' I. rewrite Vs, set_length. eapply L. right. exact I. }
    split; [|split; [|split]].
    + intros c' i' a' [[= <- <- <-]|I]; [|now apply A]. rewrite B by exact N1. rewrite Vs. apply set_same. eapply L. now left.
    + intros j J. rewrite B by (intros I; apply J; now right). rewrite Vs. apply set_other. intros ->. apply J. now left.
    + rewrite C. unfold s'. destruct (convert a (point c)); cbn [available]; auto. now rewrite andb_false_r.
    + rewrite D. unfold s'. destruct (convert a (point c)) as [v|]; cbn [valid]; [|now rewrite andb_false_r]. destruct (outside epsilon v); cbn; auto. now rewrite andb_false_r.
Qed.
End DrawProofs.
Lemma outside_spec eps v : outside eps v = false <-> (- eps <= v <= 1 + eps)%Q.
Proof. unfold outside. rewrite orb_false_iff, !negb_false_iff, !Qle_bool_iff. tauto. Qed.

Lemma hits_in un cs axes a : In a (hits un cs axes) <-> In a axes /\ In (usename un a) cs.
Proof. unfold hits. rewrite filter_In, hit_in. tauto. Qed.
(** C170: there is an error exactly if two axes of a dimension could take values *)
Theorem pos_multiple : forall un dims cs, NoDup (map fst un) -> NoDup cs -> Forall (@NoDup name) dims ->
  columnnames un dims cs = None <-> exists axes a a' u u', In axes dims /\ In a axes /\ In a' axes /\ a <> a' /\ takes un cs a u /\ takes un cs a' u'.
Proof.
  intros un dims cs Nu Nc Nd. unfold columnnames. pose proof (dims_loop_spec un cs Nc dims 0 (mkpdata [] [] []) eq_refl) as H.
  destruct (forallb _ dims) eqn:F.
  - destruct H as (q & -> & _). split; [discriminate|]. intros (axes & a & a' & u & u' & I & Ia & Ia' & Ne & (U & C) & (U' & C')).
    rewrite forallb_forall in F. specialize (F axes I). apply Nat.leb_le in F. apply usename_uses in U; auto. apply usename_uses in U'; auto. subst.
    assert (In a (hits un cs axes)) as H1 by now apply hits_in. assert (In a' (hits un cs axes)) as H2 by now apply hits_in.
    destruct (hits un cs axes) as [|x [|y r]]; [contradiction| |cbn in F; lia]. destruct H1 as [<-|[]]. destruct H2 as [<-|[]]. now elim Ne.
  - rewrite H. split; auto. intros _. assert (existsb (fun axes => negb (List.length (hits un cs axes) <=? 1)) dims = true) as X.
    { clear -F. induction dims as [|d dims IH]; cbn in *; [discriminate|]. destruct (_ <=? 1); cbn in *; auto. }
    apply existsb_exists in X. destruct X as (axes & I & X). apply negb_true_iff, Nat.leb_gt in X.
    assert (NoDup (hits un cs axes)) as N by (apply NoDup_filter; rewrite Forall_forall in Nd; auto).
    destruct (hits un cs axes) as [|a [|a' r]] eqn:E; try (cbn in X; lia).
    assert (In a (hits un cs axes)) as H1 by (rewrite E; now left). assert (In a' (hits un cs axes)) as H2 by (rewrite E; right; now left). apply hits_in in H1, H2.
    exists axes, a, a', (usename un a), (usename un a'). repeat split; try tauto; try (now apply usename_uses). intros ->. inversion N as [|? ? N1 _]. apply N1. now left.
Qed.
Print Assumptions pos_multiple.
(** C170: if no two axes take the values of the same column, then each coordinate of a point is that of the axis which takes the values of a column, and the coordinates of the
    other dimensions are left; the position is available if all values have a position on their axes, and valid if these are inside of the graph; the columns are the used ones, and each
    adjusts its axis. *)
Theorem pos_coordinates : forall un dims cs p ret, NoDup (map fst un) -> NoDup cs -> columnnames un dims cs = Some (p, ret) ->
  (forall a a' u, In a (concat dims) -> In a' (concat dims) -> takes un cs a u -> takes un cs a' u -> a = a') ->
  (forall u, In u ret <-> exists a, In a (concat dims) /\ takes un cs a u) /\
  (forall u a, adjustaxis p u = Some a <-> In a (concat dims) /\ takes un cs a u) /\
  exists l, initdrawpoints p = Some l /\
  forall V (convert : name -> V -> option Q) epsilon point s, List.length (vpos s) = List.length dims ->
    let r := drawpoint convert epsilon point l s in
    (forall i axes a u, nth_error dims i = Some axes -> In a axes -> takes un cs a u -> nth_error (vpos r) i = Some (convert a (point u))) /\
    (forall i axes, nth_error dims i = Some axes -> (forall a u, In a axes -> ~ takes un cs a u) -> nth_error (vpos r) i = nth_error (vpos s) i) /\
    (available r = true <-> forall a u, In a (concat dims) -> takes un cs a u -> exists v, convert a (point u) = Some v) /\
    (valid r = true <-> forall a u, In a (concat dims) -> takes un cs a u -> exists v, convert a (point u) = Some v /\ (- epsilon <= v <= 1 + epsilon)%Q).
Proof.
  intros un dims cs p ret Nu Nc E Inj. unfold columnnames in E. pose proof (dims_loop_spec un cs Nc dims 0 (mkpdata [] [] []) eq_refl) as H.
  destruct (forallb _ dims) eqn:F; [|rewrite H in E; discriminate]. destruct H as (q & Q & C & M & X). rewrite Q in E. injection E as -> <-. cbn [cols missing axisnames app] in C, M, X.
  rewrite app_nil_r in X. rewrite <- C in M.
  assert (T : forall a u, takes un cs a u <-> u = usename un a /\ In u cs) by (intros; unfold takes; rewrite usename_uses by auto; tauto).
  assert (K : forall axes, In axes dims -> forall a, In a axes -> In (usename un a) cs -> hits un cs axes = [a]).
  { intros axes I a Ia Ic. rewrite forallb_forall in F. specialize (F axes I). apply Nat.leb_le in F. assert (In a (hits un cs axes)) as Ha by now apply hits_in.
    destruct (hits un cs axes) as [|x [|y r]]; [contradiction| |cbn in F; lia]. destruct Ha as [-> |[]]. reflexivity. }
  assert (Cn : forall i u, nth_error (cols p) i = Some (Some u) <-> exists axes a, nth_error dims i = Some axes /\ In a axes /\ takes un cs a u).
  { intros i u. rewrite C, nth_error_map. destruct (nth_error dims i) as [axes|] eqn:Ei; cbn [option_map]; [|split; [discriminate|intros (? & ? & ? & _); discriminate]].
    apply nth_error_In in Ei. split.
    - unfold col. destruct (hits un cs axes) as [|a [|y r]] eqn:Hh; intros [= <-]. exists axes, a. split; auto. assert (In a (hits un cs axes)) as Ha by (rewrite Hh; now left). apply hits_in in Ha.
      split; [tauto|]. apply T. tauto.
    - intros (axes' & a & [= <-] & Ia & Ta). apply T in Ta. destruct Ta as [-> Ic]. unfold col. now rewrite (K axes Ei a Ia Ic). }
  assert (Ax : forall u a, get (axisnames p) u = Some a <-> In a (concat dims) /\ takes un cs a u).
  { assert (Fl : forall a, In a (flat_map (hits un cs) dims) <-> In a (concat dims) /\ In (usename un a) cs).
    { intros a. rewrite in_flat_map, in_concat. split; [intros (x & I & J); apply hits_in in J; split; [exists x|]; tauto|]. intros [(x & I & J) L]. exists x. split; auto. now apply hits_in. }
    assert (Gi : forall u a, In (u, a) (axisnames p) <-> In a (concat dims) /\ takes un cs a u).
    { intros u a. rewrite X, <- in_rev, in_map_iff, T. split.
      - intros (x & [= <- <-] & I). apply Fl in I. tauto.
      - intros (I & -> & J). exists a. split; auto. apply Fl. tauto. }
    intros u a. split.
    - intros G. apply Gi. clear -G. induction (axisnames p) as [|[k v] d IH]; cbn in G; [discriminate|]. destruct (String.eqb_spec u k) as [-> |]; [injection G as ->; now left|right; auto].
    - intros [I J]. destruct (get (axisnames p) u) as [b|] eqn:G.
      + f_equal. assert (In (u, b) (axisnames p)) as Gb. { clear -G. induction (axisnames p) as [|[k v] d IH]; cbn in G; [discriminate|]. destruct (String.eqb_spec u k) as [-> |]; [injection G as ->; now left|right; auto]. }
        apply Gi in Gb. destruct Gb as [Gb1 Gb2]. exact (Inj b a u Gb1 I Gb2 J).
      + apply get_none in G. elim G. apply (in_map fst (axisnames p) (u, a)). now apply Gi. }
  split; [|split; [exact Ax|]].
  { intros u. unfold somes. rewrite in_flat_map. split.
    - intros ([x|] & I & J); [|destruct J]. destruct J as [-> |[]]. apply In_nth_error in I. destruct I as [i I]. apply Cn in I. destruct I as (axes & a & Ei & Ia & Ta). exists a. split; auto.
      apply in_concat. exists axes. split; auto. now apply nth_error_In in Ei.
    - intros (a & Ia & Ta). apply in_concat in Ia. destruct Ia as (axes & I & Ia). apply In_nth_error in I. destruct I as [i I].
      exists (Some u). split; [|now left]. apply (nth_error_In _ i). apply Cn. eauto. }
  assert (Gn : forall c, In (Some c) (cols p) -> exists a, get (axisnames p) c = Some a).
  { intros c I. apply In_nth_error in I. destruct I as [i I]. apply Cn in I. destruct I as (axes & a & Ei & Ia & Ta). exists a. apply Ax. split; auto. apply in_concat. exists axes. split; auto. now apply nth_error_In in Ei. }
  eexists. split. { apply initdrawpoints_spec; auto. intros c I. destruct (Gn c I) as [a ->]. discriminate. }
  set (l := map _ (places 0 (cols p))). intros V convert epsilon point s L r.
  assert (Ll : forall c i a, In (c, i, a) l <-> exists axes, nth_error dims i = Some axes /\ In a axes /\ takes un cs a c).
  { intros c i a. unfold l. rewrite in_map_iff. split.
    - intros ([j x] & [= <- <- Ea] & I). apply places_in in I. destruct I as [_ I]. rewrite Nat.sub_0_r in I. pose proof I as I'. apply Cn in I. destruct I as (axes & b & Ei & Ib & Tb).
      assert (get (axisnames p) x = Some b) as Gb. { apply Ax. split; auto. apply in_concat. exists axes. split; auto. now apply nth_error_In in Ei. }
      rewrite Gb in Ea. subst b. eauto.
    - intros (axes & Ei & Ia & Ta). exists (i, c). assert (get (axisnames p) c = Some a) as Gb. { apply Ax. split; auto. apply in_concat. exists axes. split; auto. now apply nth_error_In in Ei. }
      rewrite Gb. split; auto. apply places_in. split; [lia|]. rewrite Nat.sub_0_r. apply Cn. eauto. }
  assert (Nl : NoDup (map (fun '(_, i, _) => i) l)).
  { unfold l. rewrite map_map. erewrite map_ext; [apply (places_nodup (cols p) 0)|]. now intros [i c]. }
  destruct (draw_spec convert epsilon point l (mkshared (vpos s) true true) Nl) as (D1 & D2 & D3 & D4).
  { intros c i a I. apply Ll in I. destruct I as (axes & Ei & _). cbn [vpos]. rewrite L. apply nth_error_Some. congruence. }
  fold (drawpoint convert epsilon point l s) in D1, D2, D3, D4. fold r in D1, D2, D3, D4. cbn [vpos available valid andb] in D2, D3, D4.
  assert (Lc : forall c a, (exists i, In (c, i, a) l) <-> In a (concat dims) /\ takes un cs a c).
  { intros c a. rewrite in_concat. split.
    - intros [i I]. apply Ll in I. destruct I as (axes & Ei & Ia & Ta). apply nth_error_In in Ei. eauto.
    - intros [(axes & I & Ia) Ta]. apply In_nth_error in I. destruct I as [i I]. exists i. apply Ll. eauto. }
  split; [|split; [|split]].
  - intros i axes a u Ei Ia Ta. apply D1. apply Ll. eauto.
  - intros i axes Ei No. apply D2. intros I. apply in_map_iff in I. destruct I as ([[c j] a] & -> & I). apply Ll in I. destruct I as (axes' & Ei' & Ia & Ta). rewrite Ei in Ei'. injection Ei' as <-. eapply No; eauto.
  - rewrite D3, forallb_forall. split.
    + intros H a u Ia Ta. destruct (proj2 (Lc u a)) as [i I]; auto. specialize (H _ I). cbv beta iota in H. destruct (convert a (point u)) as [v|]; [eauto|discriminate].
    + intros H [[c i] a] I. destruct (proj1 (Lc c a)) as [Ia Ta]; eauto. destruct (H a c Ia Ta) as [v ->]. reflexivity.
  - rewrite D4, forallb_forall. split.
    + intros H a u Ia Ta. destruct (proj2 (Lc u a)) as [i I]; auto. specialize (H _ I). cbv beta iota in H. destruct (convert a (point u)) as [v|]; [|discriminate]. exists v. split; auto. apply negb_true_iff, outside_spec in H. auto.
    + intros H [[c i] a] I. destruct (proj1 (Lc c a)) as [Ia Ta]; eauto. destruct (H a c Ia Ta) as (v & -> & B). apply negb_true_iff, outside_spec. auto.
Qed.
Print Assumptions pos_coordinates.
(** C170: if two axes take the values of the same column, all values are converted by the last of them *)
Theorem pos_same_column_refuted : ~ (forall un dims cs p ret l V (convert : name -> V -> option Q) epsilon point s i axes a u, NoDup (map fst un) -> NoDup cs ->
  columnnames un dims cs = Some (p, ret) -> initdrawpoints p = Some l -> List.length (vpos s) = List.length dims ->
  nth_error dims i = Some axes -> In a axes -> takes un cs a u -> nth_error (vpos (drawpoint convert epsilon point l s)) i = Some (convert a (point u))).
Proof.
  intros H.
  specialize (H [("x", "t"); ("y", "t")]%string [["x"; "x2"]; ["y"; "y2"]]%string ["t"]%string (mkpdata [Some "t"; Some "t"]%string [] [("t", "y"); ("t", "x")]%string) ["t"; "t"]%string
    [("t", 0, "y"); ("t", 1, "y")]%string Q (fun a v => if String.eqb a "x" then Some (v / 10)%Q else Some (v / 20)%Q) 0%Q (fun _ => 5%Q) (mkshared [None; None] true true) 0 ["x"; "x2"]%string "x"%string "t"%string).
  assert (nth_error [Some (5 / 20)%Q; Some (5 / 20)%Q] 0 = Some (Some (5 / 10)%Q)) as X; [|discriminate X].
  apply H; try reflexivity.
  - cbn. repeat constructor; cbn; intros G; intuition discriminate.
  - repeat constructor. intros [].
  - now left.
  - split; [left; now left|now left].
Qed.
Print Assumptions pos_same_column_refuted.

(** the columns t and y for the axes x and y2; nothing for the third dimension, and a value outside of the graph *)
Example pos_ex : match columnnames [("x", "t"); ("y2", "y")]%string [["x"; "x2"]; ["z"]; ["y2"; "y3"]]%string ["y"; "t"; "w"]%string with
  | Some (p, ret) => ret = ["t"; "y"]%string /\ missing p = [1] /\ match initdrawpoints p with
    | Some l => drawpoint (fun a (v : Q) => if String.eqb a "x" then Some (v / 10)%Q else Some v) 0 (fun c => if String.eqb c "t" then 5%Q else 2%Q) l (mkshared (vpos0 [[]; []; []]) true true) =
        mkshared [Some (5 / 10)%Q; None; Some 2%Q] true false
    | None => False end
  | None => False end.
Proof. vm_compute. auto. Qed.
Example pos_multiple_ex : columnnames [] [["x"; "x2"]; ["y"]]%string ["x"; "x2"; "y"]%string = None.
Proof. reflexivity. Qed.
