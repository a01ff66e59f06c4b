(** The points of the parts of a subpath. *)
From Coq Require Import Reals ZArith List Lra Lia Bool Arith.
From Verif Require Import PyDict TrafoModel BboxModel RootsModel CurveModel CurveSpec CurveProofs CurveProofs2 CurveProofs3 CurveProofs4 CurveProps
  NormsubModel NormsubSpec NormsubProofs NormsubProofs2 NormsubProofs3 NormsubProofs4 NormsubProofs6 NormsubProps NormsubProps2.
Import ListNotations.
Open Scope R_scope.

Local Notation pt := (R * R)%type.

Lemma segment_back i : segment i 1 0 = item_reversed i.
Proof.
  destruct i as [[x0 y0] [x1 y1]|[x0 y0] [x1 y1] [x2 y2] [x3 y3]]; simpl.
  - unfold line_segment. simpl. f_equal; apply pair_eq; ring.
  - unfold curve_segment, segment_coord, curve_coord. simpl. f_equal; apply pair_eq; field.
Qed.
Lemma segment_along i a b v : at_pt (segment i a b) v = at_pt i (a + v * (b - a)).
Proof.
  destruct i as [[x0 y0] [x1 y1]|[x0 y0] [x1 y1] [x2 y2] [x3 y3]]; simpl.
  - unfold line_segment. simpl. apply pair_eq; ring.
  - unfold curve_segment, segment_coord, curve_coord. simpl. apply pair_eq; field.
Qed.

Section Route.
  Variables (s : nsp) (e : R).
  Hypothesis Es : epsilon s = Some e.
  Hypothesis Ne : items s <> [].
  Variable fuel : nat.
  Let n := length (items s).
  Let dflt := Line (0, 0) (0, 0).
  Definition seg (x : nat * R * R) : item := let '(k, a, b) := x in segment (nth k (items s) dflt) a b.
  Let index := param_index n.

  (** the pieces on the way from the parameter c of the item k to the parameter u *)
  Definition between (k j : nat) : list (nat * R * R) :=
    if Nat.ltb k j then map (fun m => (m, 0, 1)) (seq (S k) (j - k - 1)) else map (fun m => (m, 1, 0)) (rev (seq (S j) (k - j - 1))).
  Definition leave (k j : nat) : R := if Nat.ltb k j then 1 else 0.
  Definition enter (k j : nat) : R := if Nat.ltb k j then 0 else 1.
  Definition way (k : nat) (c u : R) : list (nat * R * R) :=
    let j := index u in
    if Nat.eqb j k then [(k, c, u - INR k)]
    else (k, c, leave k j) :: between k j ++ [(j, enter k j, u - INR j)].
  Fixpoint ways (cur : list (nat * R * R)) (k : nat) (c : R) (us : list R) : list (list (nat * R * R)) :=
    match us with
    | [] => []
    | u :: us' => (cur ++ way k c u) :: ways [] (index u) (u - INR (index u)) us'
    end.
  Definition runs (w : list (nat * R * R)) (r : nsp) : Prop := extend fuel (empty_nsp (Some e)) (map seg w) = Ok r.

  Lemma slice_seq {A} (d : A) l : forall a m, (a + m <= length l)%nat -> firstn m (skipn a l) = map (fun k => nth k l d) (seq a m).
  Proof.
    induction l as [|x l IH]; intros a m H.
    - simpl in H. assert (a = 0 /\ m = 0)%nat as [-> ->] by lia. reflexivity.
    - destruct a as [|a].
      + simpl. destruct m as [|m]; auto. simpl in *. f_equal. rewrite <- seq_shift, map_map. rewrite <- (IH 0%nat m) by lia. reflexivity.
      + simpl in *. rewrite IH by lia. rewrite <- seq_shift, map_map. reflexivity.
  Qed.
  Lemma between_items k j : (k < n)%nat -> (j < n)%nat -> j <> k ->
    map seg (between k j) = (if Nat.ltb k j then firstn (j - k - 1) (skipn (S k) (items s)) else map item_reversed (rev (firstn (k - j - 1) (skipn (S j) (items s))))).
  Proof.
    intros Hk Hj N. unfold between. fold n. destruct (Nat.ltb_spec k j).
    - rewrite (slice_seq dflt) by (fold n; lia). rewrite map_map. apply map_ext. intros m. unfold seg. apply segment_whole.
    - rewrite (slice_seq dflt) by (fold n; lia). rewrite map_map, <- map_rev, map_map. apply map_ext. intros m. unfold seg. apply segment_back.
  Qed.
  Lemma extend_app l1 l2 r : extend fuel r (l1 ++ l2) = bind (extend fuel r l1) (fun r' => extend fuel r' l2).
  Proof.
    revert r. induction l1 as [|i l1 IH]; intros r; unfold extend in *; cbn [app extend_with bind]; auto.
    destruct (append fuel r i); cbn [bind]; auto.
  Qed.
  Lemma runs_snoc w r x r' : runs w r -> append fuel r (seg x) = Ok r' -> runs (w ++ [x]) r'.
  Proof. intros R A. unfold runs in *. rewrite map_app, extend_app, R. cbn [bind map]. unfold extend. cbn [extend_with]. rewrite A. reflexivity. Qed.

  (** the pieces of one item, the first of which is appended *)
  Fixpoint cuts (cur : list (nat * R * R)) (k : nat) (c : R) (cs : list R) : list (list (nat * R * R)) :=
    match cs with [] => [] | d :: cs' => (cur ++ [(k, c, d)]) :: cuts [] k d cs' end.
  Lemma more_cuts k i : nth_error (items s) k = Some i -> forall cs c done last done' last',
    more_segments fuel (Some e) (pairs (segment i) (c :: cs)) done last = Ok (done', last') ->
    exists rs, done' ++ [last'] = done ++ [last] ++ rs /\ Forall2 runs (cuts [] k c cs) rs.
  Proof.
    intros Hk. induction cs as [|d cs IH]; intros c done last done' last' M.
    - cbn in M. injection M as <- <-. exists []. split; [reflexivity|constructor].
    - change (pairs (segment i) (c :: d :: cs)) with (segment i c d :: pairs (segment i) (d :: cs)) in M. cbn [more_segments] in M.
      destruct (make fuel [segment i c d] false (Some e)) as [r| |] eqn:R; cbn [bind] in M; try discriminate.
      destruct (IH d (done ++ [last]) r done' last' M) as (rs & E & F). exists (r :: rs). split; [rewrite E, <- !app_assoc; reflexivity|].
      cbn [cuts]. constructor; auto. unfold runs. cbn [app map]. unfold seg. rewrite (nth_error_nth _ _ dflt Hk).
      unfold make in R. destruct (extend fuel (empty_nsp (Some e)) [segment i c d]); cbn [bind] in R; congruence.
  Qed.
  Lemma add_cuts k i cur c d cs done last done' last' : nth_error (items s) k = Some i -> runs cur last ->
    add_segments fuel (Some e) i (c :: d :: cs) done last = Ok (done', last') ->
    exists rs, done' ++ [last'] = done ++ rs /\ Forall2 runs (cuts cur k c (d :: cs)) rs.
  Proof.
    intros Hk R A.
    assert (A' : bind (append fuel last (segment i c d)) (fun r => more_segments fuel (Some e) (pairs (segment i) (d :: cs)) done r) = Ok (done', last')) by exact A.
    clear A. destruct (append fuel last (segment i c d)) as [r| |] eqn:Rn; cbn [bind] in A'; try discriminate.
    destruct (more_cuts k i Hk cs d done r done' last' A') as (rs & E & F). exists (r :: rs). split; [exact E|]. cbn [cuts]. constructor; auto.
    apply runs_snoc with last; auto. unfold seg. now rewrite (nth_error_nth _ _ dflt Hk).
  Qed.
  Lemma ways_cuts k us : forall cur c, (forall u, In u us -> index u = k) -> ways cur k c us = cuts cur k c (map (fun u => u - INR k) us).
  Proof.
    induction us as [|u us IH]; intros cur c H; auto. cbn [ways map cuts]. assert (Hu : index u = k) by (apply H; simpl; auto).
    unfold way. rewrite Hu, Nat.eqb_refl. f_equal. apply IH. intros v V. apply H. simpl. auto.
  Qed.
  (** leaving the item k for the item of t *)
  Lemma ways_leave k us t ps : forall cur c, (forall u, In u us -> index u = k) -> index t <> k ->
    exists init w, cuts cur k c (map (fun u => u - INR k) us ++ [leave k (index t)]) = init ++ [w] /\
      ways cur k c (us ++ t :: ps) = init ++ ways (w ++ between k (index t)) (index t) (enter k (index t)) (t :: ps).
  Proof.
    induction us as [|u us IH]; intros cur c H N.
    - exists [], (cur ++ [(k, c, leave k (index t))]). split; auto. cbn [app ways]. f_equal.
      unfold way. rewrite Nat.eqb_refl. destruct (Nat.eqb_spec (index t) k); [congruence|]. rewrite <- !app_assoc. reflexivity.
    - assert (Hu : index u = k) by (apply H; simpl; auto).
      destruct (IH [] (u - INR k)) as (init & w & E1 & E2); [intros v V; apply H; simpl; auto|auto|].
      exists ((cur ++ [(k, c, u - INR k)]) :: init), w. split.
      + cbn [map app cuts]. rewrite E1. reflexivity.
      + change ((u :: us) ++ t :: ps) with (u :: us ++ t :: ps). cbn [ways]. unfold way at 1. rewrite Hu, Nat.eqb_refl. rewrite E2. reflexivity.
  Qed.
  Lemma index_lt t : (index t < n)%nat.
  Proof. apply param_index_spec. unfold n. destruct (items s); [congruence|simpl; lia]. Qed.

  Lemma loop_runs ps : forall us k c cur done last result,
    (k < n)%nat -> (forall u, In u us -> index u = k) -> us ++ ps <> [] -> runs cur last ->
    segments_loop fuel s ps done last (c :: map (fun u => u - INR k) us) (Some k) = Ok result ->
    exists rs, result = done ++ rs /\ Forall2 runs (ways cur k c (us ++ ps)) rs.
  Proof.
    induction ps as [|t ps IH]; intros us k c cur done last result Hk Hu N R Run; cbn [segments_loop] in Run.
    - destruct (nth_error (items s) k) as [i|] eqn:Hi; [|discriminate]. rewrite Es in Run. rewrite app_nil_r in *.
      destruct us as [|u us]; [congruence|]. cbn [map] in Run.
      destruct (add_segments fuel (Some e) i _ done last) as [[done' last']| |] eqn:A; cbn [bind] in Run; try discriminate.
      injection Run as <-. destruct (add_cuts k i cur c _ _ done last done' last' Hi R A) as (rs & E & F).
      exists rs. split; auto. rewrite ways_cuts by auto. exact F.
    - fold n in Run. fold (index t) in Run. destruct (Nat.eqb_spec (index t) k) as [Ek|Nk].
      + subst k. destruct (IH (us ++ [t]) (index t) c cur done last result) as (rs & E & F); auto.
        * intros u U. apply in_app_or in U as [U|[<-|[]]]; auto.
        * rewrite <- app_assoc. destruct us; discriminate.
        * rewrite map_app. exact Run.
        * exists rs. split; auto. rewrite <- app_assoc in F. exact F.
      + destruct (nth_error (items s) k) as [i|] eqn:Hi; [|discriminate]. rewrite Es in Run.
        fold (leave k (index t)) in Run. fold (enter k (index t)) in Run.
        destruct (ways_leave k us t ps cur c Hu Nk) as (init & w & W1 & W2).
        destruct (add_segments fuel (Some e) i _ done last) as [[done' last']| |] eqn:A; cbn [bind] in Run; try discriminate.
        assert (X : exists rs, done' ++ [last'] = done ++ rs /\ Forall2 runs (init ++ [w]) rs).
        { rewrite <- W1. destruct (map (fun u => u - INR k) us ++ [leave k (index t)]) as [|d cs] eqn:D; [destruct us; discriminate|].
          apply (add_cuts k i cur c d cs done last done' last' Hi R). change ((c :: ?l) ++ ?m) with (c :: l ++ m) in A. rewrite D in A. exact A. }
        destruct X as (rs & X1 & X2). apply Forall2_app_inv_l in X2 as (rs1 & rs2 & X2 & X3 & ->).
        inversion X3 as [|? r2 ? ? X4 X5]; subst. inversion X5; subst. rewrite app_assoc in X1. apply app_inj_tail in X1 as [-> <-].
        rewrite <- between_items in Run by (auto using index_lt).
        destruct (extend fuel last' _) as [last2| |] eqn:Y; cbn [bind] in Run; try discriminate.
        destruct (IH [t] (index t) (enter k (index t)) (w ++ between k (index t)) (done ++ rs1) last2 result) as (rs & E & F).
        * apply index_lt.
        * intros u [<-|[]]. auto.
        * discriminate.
        * unfold runs in *. rewrite map_app, extend_app, X4. exact Y.
        * exact Run.
        * exists (rs1 ++ rs). split; [rewrite E, <- app_assoc; auto|]. rewrite W2. apply Forall2_app; auto.
  Qed.
  Lemma segments_runs t ps result : ps <> [] -> segments_loop fuel s (t :: ps) [] (empty_nsp (Some e)) [] None = Ok result ->
    Forall2 runs (ways [] (index t) (t - INR (index t)) ps) result.
  Proof.
    intros N Run. cbn [segments_loop] in Run. fold n in Run. fold (index t) in Run.
    destruct (loop_runs ps [] (index t) (t - INR (index t)) [] [] (empty_nsp (Some e)) result) as (rs & -> & F); auto; [apply index_lt|intros u []|reflexivity].
  Qed.
  Lemma ways_nth ps : forall t m r u v result, Forall2 runs (ways [] (index t) (t - INR (index t)) ps) result ->
    nth_error result m = Some r -> nth_error (t :: ps) m = Some u -> nth_error (t :: ps) (S m) = Some v ->
    runs (way (index u) (u - INR (index u)) v) r.
  Proof.
    induction ps as [|p ps IH]; intros t m r u v result F Hr Hu Hv.
    - cbn in F. inversion F; subst. destruct m; discriminate.
    - cbn [ways app] in F. inversion F as [|? r1 ? rs F1 F2]; subst. destruct m as [|m].
      + cbn in *. injection Hr as <-. injection Hu as <-. injection Hv as <-. exact F1.
      + apply (IH p m r u v rs); auto.
  Qed.
End Route.

(** ** the way as a sequence of linked pieces *)
(** the parameter x restricted to the parameters of the k-th of n items, where the first and
    the last item are continued beyond the ends *)
Definition clamp (n k : nat) (x : R) : R :=
  let x := if Nat.eqb (S k) n then x else Rmin x (INR k + 1) in
  if Nat.eqb k 0 then x else Rmax x (INR k).
Lemma clamp_mono n k x y : x <= y -> clamp n k x <= clamp n k y.
Proof.
  intros H. unfold clamp. destruct (Nat.eqb (S k) n), (Nat.eqb k 0); auto.
  - now apply Rle_max_compat_r.
  - apply Rmin_glb; [eapply Rle_trans; [apply Rmin_l|auto]|apply Rmin_r].
  - apply Rle_max_compat_r. apply Rmin_glb; [eapply Rle_trans; [apply Rmin_l|auto]|apply Rmin_r].
Qed.
Lemma clamp_range n k x : (k = 0%nat \/ INR k <= clamp n k x) /\ (S k = n \/ clamp n k x <= INR k + 1).
Proof.
  unfold clamp. split.
  - destruct (Nat.eqb_spec k 0); auto. right. apply Rmax_r.
  - destruct (Nat.eqb_spec (S k) n); auto. right. destruct (Nat.eqb k 0); [apply Rmin_r|]. apply Rmax_lub; [apply Rmin_r|lra].
Qed.
Lemma clamp_in n k x : (k = 0%nat \/ INR k <= x) -> (S k = n \/ x <= INR k + 1) -> clamp n k x = x.
Proof.
  intros H1 H2. unfold clamp.
  assert (E : (if Nat.eqb (S k) n then x else Rmin x (INR k + 1)) = x).
  { destruct (Nat.eqb_spec (S k) n); auto. destruct H2; [congruence|]. now apply Rmin_left. }
  rewrite E. destruct (Nat.eqb_spec k 0); auto. destruct H1; [congruence|]. now apply Rmax_left.
Qed.
Lemma clamp_above n k x : S k <> n -> INR k + 1 <= x -> clamp n k x = INR k + 1.
Proof.
  intros H1 H2. unfold clamp. destruct (Nat.eqb_spec (S k) n); [congruence|]. rewrite Rmin_right by auto.
  destruct (Nat.eqb k 0); auto. apply Rmax_left. lra.
Qed.
Lemma clamp_below n k x : k <> 0%nat -> x <= INR k -> clamp n k x = INR k.
Proof.
  intros H1 H2. unfold clamp. destruct (Nat.eqb_spec k 0); [congruence|]. apply Rmax_right.
  destruct (Nat.eqb (S k) n); auto. eapply Rle_trans; [apply Rmin_l|auto].
Qed.

Section Linked.
  Variables (its : list item).
  Let n := length its.
  Let itm k := nth k its (Line (0, 0) (0, 0)).
  Hypothesis joint : forall k, (S k < n)%nat -> at_pt (itm k) 1 = at_pt (itm (S k)) 0.

  Fixpoint linked (x : R) (P : pt) (w : list (nat * R * R)) (y : R) (Q : pt) : Prop :=
    match w with
    | [] => x = y /\ P = Q
    | (k, a, b) :: w' => INR k + a = x /\ at_pt (itm k) a = P /\ linked (INR k + b) (at_pt (itm k) b) w' y Q
    end.
  Lemma linked_app w1 w2 y Q z S : forall x P, linked x P w1 y Q -> linked y Q w2 z S -> linked x P (w1 ++ w2) z S.
  Proof.
    induction w1 as [|[[k a] b] w1 IH]; intros x P H1 H2; cbn [linked app] in *; [destruct H1 as [-> ->]; auto|].
    destruct H1 as (E1 & E2 & H1). auto.
  Qed.
  Lemma linked_up m : forall k, (S k + m <= n)%nat ->
    linked (INR (S k)) (at_pt (itm k) 1) (map (fun m => (m, 0, 1)) (seq (S k) m)) (INR (S (k + m))) (at_pt (itm (k + m)) 1).
  Proof.
    induction m as [|m IH]; intros k H; cbn [seq map linked]; [rewrite Nat.add_0_r; auto|].
    split; [ring|]. split; [symmetry; apply joint; lia|]. replace (k + S m)%nat with (S k + m)%nat by lia.
    rewrite <- S_INR. apply IH. lia.
  Qed.
  Lemma linked_down m : forall j, (S j + m < n)%nat ->
    linked (INR (S j + m)) (at_pt (itm (S j + m)) 0) (map (fun m => (m, 1, 0)) (rev (seq (S j) m))) (INR (S j)) (at_pt (itm (S j)) 0).
  Proof.
    induction m as [|m IH]; intros j H; [cbn [seq rev map linked]; rewrite Nat.add_0_r; auto|].
    rewrite seq_S, rev_app_distr. cbn [rev app map linked]. split; [rewrite <- S_INR; f_equal; lia|].
    split; [rewrite joint by lia; f_equal; f_equal; lia|]. rewrite Rplus_0_r. apply IH. lia.
  Qed.

  Variables t u : R.
  Hypothesis Hn : (0 < n)%nat.
  Let kt := param_index n t.
  Let ku := param_index n u.
  Let W := way (mknsp its false None None) kt (t - INR kt) u.
  Lemma way_linked : linked t (at_pt (itm kt) (t - INR kt)) W u (at_pt (itm ku) (u - INR ku)).
  Proof.
    destruct (param_index_spec n t Hn) as (T1 & T2 & T3). fold kt in T1, T2, T3.
    destruct (param_index_spec n u Hn) as (U1 & U2 & U3). fold ku in U1, U2, U3.
    unfold W, way. cbn [items]. fold n. fold ku. destruct (Nat.eqb_spec ku kt) as [E|N].
    - rewrite E. cbn [linked]. split; [ring|]. split; [auto|]. split; [ring|auto].
    - cbn [linked]. split; [ring|]. split; [auto|]. unfold leave, between, enter. destruct (Nat.ltb_spec kt ku) as [L|G].
      + apply linked_app with (y := INR ku) (Q := at_pt (itm ku) 0).
        * rewrite <- S_INR. replace ku with (S (kt + (ku - kt - 1)))%nat at 2 by lia.
          replace (at_pt (itm ku) 0) with (at_pt (itm (kt + (ku - kt - 1))) 1) by (rewrite joint by lia; f_equal; f_equal; lia).
          apply linked_up. lia.
        * cbn [linked]. split; [ring|]. split; [auto|]. split; [ring|auto].
      + apply linked_app with (y := INR (S ku)) (Q := at_pt (itm (S ku)) 0).
        * rewrite Rplus_0_r. replace kt with (S ku + (kt - ku - 1))%nat at 1 2 by lia. apply linked_down. lia.
        * cbn [linked]. split; [rewrite S_INR; ring|]. split; [apply joint; lia|]. split; [ring|auto].
  Qed.
  Definition cut (x : nat * R * R) : Prop :=
    let '(k, a, b) := x in (k < n)%nat /\ a = clamp n k t - INR k /\ b = clamp n k u - INR k.
  Lemma way_cuts : Forall cut W.
  Proof.
    destruct (param_index_spec n t Hn) as (T1 & T2 & T3). fold kt in T1, T2, T3.
    destruct (param_index_spec n u Hn) as (U1 & U2 & U3). fold ku in U1, U2, U3.
    assert (Ct := clamp_in n kt t T2 T3). assert (Cu := clamp_in n ku u U2 U3).
    unfold W, way. cbn [items]. fold n. fold ku. destruct (Nat.eqb_spec ku kt) as [E|N].
    - constructor; [|constructor]. cbn. rewrite Ct, <- E, Cu. auto.
    - unfold leave, between, enter. destruct (Nat.ltb_spec kt ku) as [L|G].
      + assert (Hu : INR ku <= u) by (destruct U2; [lia|auto]). assert (Ht : t <= INR kt + 1) by (destruct T3; [lia|auto]).
        assert (L' : INR kt + 1 <= INR ku) by (rewrite <- S_INR; apply le_INR; lia).
        constructor; [|apply Forall_app; split].
        * cbn. split; auto. rewrite Ct, (clamp_above n kt u) by (lia || lra). split; ring.
        * apply Forall_map, Forall_forall. intros m M. apply in_seq in M.
          assert (INR kt + 1 <= INR m) by (rewrite <- S_INR; apply le_INR; lia). assert (INR m + 1 <= INR ku) by (rewrite <- S_INR; apply le_INR; lia).
          cbn. split; [lia|]. rewrite (clamp_below n m t), (clamp_above n m u) by (lia || lra). split; ring.
        * constructor; [|constructor]. cbn. split; auto. rewrite Cu, (clamp_below n ku t) by (lia || lra). split; ring.
      + assert (Hu : u <= INR ku + 1) by (destruct U3; [lia|auto]). assert (Ht : INR kt <= t) by (destruct T2; [lia|auto]).
        assert (L' : INR ku + 1 <= INR kt) by (rewrite <- S_INR; apply le_INR; lia).
        constructor; [|apply Forall_app; split].
        * cbn. split; auto. rewrite Ct, (clamp_below n kt u) by (lia || lra). split; ring.
        * apply Forall_map, Forall_forall. intros m M. apply in_rev, in_seq in M.
          assert (INR ku + 1 <= INR m) by (rewrite <- S_INR; apply le_INR; lia). assert (INR m + 1 <= INR kt) by (rewrite <- S_INR; apply le_INR; lia).
          cbn. split; [lia|]. rewrite (clamp_below n m u), (clamp_above n m t) by (lia || lra). split; ring.
        * constructor; [|constructor]. cbn. split; auto. rewrite Cu, (clamp_above n ku t) by (lia || lra). split; ring.
  Qed.

  (** ** the way as a function *)
  Definition sg (x : nat * R * R) : item := let '(k, a, b) := x in segment (itm k) a b.
  Definition keep (x : nat * R * R) : bool := let '(k, a, b) := x in if Req_EM_T a b then false else true.
  Lemma linked_keep w y Q : forall x P, linked x P w y Q -> linked x P (filter keep w) y Q.
  Proof.
    induction w as [|[[k a] b] w IH]; intros x P H; auto. cbn [linked] in H. destruct H as (E1 & E2 & H). cbn [filter keep].
    destruct (Req_EM_T a b) as [<-|N]; [|cbn [linked]; auto]. rewrite <- E1, <- E2. auto.
  Qed.
  Definition on_between (d : R) (w : list (nat * R * R)) (x y : R) (phi : R -> R) : Prop :=
    phi 0 = x /\ phi (INR (length w)) = y /\
    (forall v v', 0 <= v -> v <= v' -> v' <= INR (length w) -> 0 <= d * (phi v' - phi v)) /\
    (forall z, 0 <= d * (z - x) -> 0 <= d * (y - z) -> exists v, 0 <= v <= INR (length w) /\ phi v = z) /\
    (forall v p, 0 <= v <= INR (length w) -> on_path (map sg w) v p -> on_path its (phi v) p).
  Lemma on_path_cons i l v p : on_path (i :: l) v p -> 0 <= v <= INR (length (i :: l)) ->
    (v <= 1 /\ p = at_pt i v) \/ (1 <= v /\ on_path l (v - 1) p).
  Proof.
    intros (k & j & H1 & H2 & H3 & H4) Hv. destruct k as [|k].
    - left. cbn in H1. injection H1 as <-. change (INR 0) with 0 in *. rewrite Rminus_0_r in H2. split; auto. destruct H4 as [H4|H4]; [|lra].
      rewrite <- H4 in Hv. change (INR 1) with 1 in Hv. lra.
    - right. cbn [nth_error] in H1. rewrite S_INR in *. destruct H3 as [H3|H3]; [lia|].
      pose proof (pos_INR k). split; [lra|]. exists k, j. split; auto. split; [rewrite H2; f_equal; ring|].
      split; [right; lra|]. destruct H4 as [H4|H4]; [left; simpl in H4; lia|right; lra].
  Qed.
  Lemma way_function d w y Q : d <> 0 -> forall x P, linked x P w y Q -> Forall (fun x => keep x = true) w ->
    Forall (fun '(k, a, b) => (k < n)%nat /\ 0 <= d * (b - a) /\ (forall c, 0 <= d * (c - a) -> 0 <= d * (b - c) -> (k = 0%nat \/ 0 <= c) /\ (S k = n \/ c <= 1))) w ->
    exists phi, on_between d w x y phi.
  Proof.
    intros Hd. induction w as [|[[k a] b] w IH]; intros x P H K F.
    - cbn in H. destruct H as [<- <-]. exists (fun _ => x). unfold on_between. simpl. split; auto. split; auto. split; [intros; replace (x - x) with 0 by ring; lra|].
      split.
      + intros z Z1 Z2. exists 0. split; [lra|]. assert (Z : d * (z - x) = 0) by lra. apply Rmult_integral in Z as [Z|Z]; [congruence|lra].
      + intros v p _ (k & i & N & _). destruct k; discriminate.
    - cbn [linked] in H. destruct H as (E1 & E2 & H). inversion K as [|? ? K1 K2]; subst. inversion F as [|? ? F0 F4]; subst. cbv beta iota in F0. destruct F0 as (F1 & F2 & F3).
      destruct (IH _ _ H K2 F4) as (phi & P0 & P1 & P2 & P3 & P4). cbn [keep] in K1. destruct (Req_EM_T a b) as [|Nab]; [discriminate|].
      exists (fun v => if Rle_dec v 1 then INR k + a + v * (b - a) else phi (v - 1)).
      assert (Len : INR (length ((k, a, b) :: w)) = INR (length w) + 1) by (cbn [length]; apply S_INR).
      pose proof (pos_INR (length w)) as Lp. unfold on_between. rewrite Len.
      assert (V1 : forall v, 1 <= v -> (if Rle_dec v 1 then INR k + a + v * (b - a) else phi (v - 1)) = phi (v - 1)).
      { intros v Hv. destruct (Rle_dec v 1); auto. replace v with 1 by lra. replace (1 - 1) with 0 by ring. rewrite P0. ring. }
      split; [|split; [|split; [|split]]].
      + destruct (Rle_dec 0 1); [ring|lra].
      + rewrite V1 by lra. rewrite <- P1. f_equal. ring.
      + intros v v' H1 H2 H3. destruct (Rle_dec v' 1) as [A|A].
        * destruct (Rle_dec v 1); [|lra]. replace (d * (INR k + a + v' * (b - a) - (INR k + a + v * (b - a)))) with ((v' - v) * (d * (b - a))) by ring.
          apply Rmult_le_pos; lra.
        * destruct (Rle_dec v 1) as [B|B]; [|apply P2; lra].
          specialize (P2 0 (v' - 1) ltac:(lra) ltac:(lra) ltac:(lra)). rewrite P0 in P2.
          replace (d * (phi (v' - 1) - (INR k + a + v * (b - a)))) with (d * (phi (v' - 1) - (INR k + b)) + (1 - v) * (d * (b - a))) by ring.
          apply Rplus_le_le_0_compat; auto. apply Rmult_le_pos; lra.
      + intros z Z1 Z2. destruct (Rle_dec 0 (d * (INR k + b - z))) as [A|A].
        * set (v := (z - (INR k + a)) / (b - a)). assert (Ev : v * (b - a) = z - (INR k + a)) by (unfold v; field; lra).
          assert (Dp : 0 < d * (b - a)).
          { destruct F2 as [F2|F2]; auto. symmetry in F2. apply Rmult_integral in F2 as [F2|F2]; [congruence|]. exfalso. apply Nab. lra. }
          assert (V : 0 <= v <= 1).
          { assert (G1 : 0 <= v * (d * (b - a))) by (replace (v * (d * (b - a))) with (d * (v * (b - a))) by ring; rewrite Ev; lra).
            assert (G2 : 0 <= (1 - v) * (d * (b - a))).
            { replace ((1 - v) * (d * (b - a))) with (d * (b - a) - d * (v * (b - a))) by ring. rewrite Ev.
              replace (d * (b - a) - d * (z - (INR k + a))) with (d * (INR k + b - z)) by ring. auto. }
            split.
            - destruct (Rle_dec 0 v); auto. exfalso. assert (0 < (- v) * (d * (b - a))) by (apply Rmult_lt_0_compat; lra). lra.
            - destruct (Rle_dec v 1); auto. exfalso. assert (0 < (v - 1) * (d * (b - a))) by (apply Rmult_lt_0_compat; lra). lra. }
          exists v. split; [lra|]. destruct (Rle_dec v 1); [|lra]. lra.
        * destruct (P3 z) as (v & Hv & Ez); auto.
          { replace (d * (z - (INR k + b))) with (- (d * (INR k + b - z))) by ring. lra. }
          exists (v + 1). split; [lra|]. rewrite V1 by lra. rewrite <- Ez. f_equal. ring.
      + intros v p Hv O. cbn [map] in O. apply on_path_cons in O; [|cbn [length]; rewrite map_length, S_INR; exact Hv].
        destruct O as [[A ->]|[A O]].
        * destruct (Rle_dec v 1); [|lra]. unfold sg. rewrite segment_along. exists k, (itm k). split; [apply nth_error_nth'; auto|].
          replace (INR k + a + v * (b - a) - INR k) with (a + v * (b - a)) by ring. split; auto.
          destruct (F3 (a + v * (b - a))) as [G1 G2].
          { replace (d * (a + v * (b - a) - a)) with (v * (d * (b - a))) by ring. apply Rmult_le_pos; lra. }
          { replace (d * (b - (a + v * (b - a)))) with ((1 - v) * (d * (b - a))) by ring. apply Rmult_le_pos; lra. }
          split; [destruct G1; [auto|right; lra]|destruct G2; [auto|right; lra]].
        * rewrite V1 by auto. apply P4; auto. lra.
  Qed.
End Linked.

(** ** extending by pieces of which some are single points *)
Lemma append_point e f s i P : 0 < e -> epsilon s = Some e -> closed s = false -> (skipped s = None \/ skipped s = Some (Line P P)) ->
  (forall l, lastitem (items s) = Some l -> atend_pt l = P) -> atbegin_pt i = P ->
  append (S f) s i = append (S f) (with_skipped s None) i.
Proof.
  intros He Es Hc K M B. destruct K as [K|K]; [f_equal; destruct s; simpl in *; subst; auto|].
  cbn [append with_skipped epsilon closed skipped items]. rewrite Es, Hc, K. unfold mismatch. cbn [with_skipped skipped items]. rewrite K. cbn [atend_pt].
  rewrite B, gap_self. assert (Z : negb (ltb 0 e) = false) by (destruct (ltb_spec 0 e); auto; lra). rewrite Z.
  assert (Z' : (match lastitem (items s) with Some l => negb (ltb (gap (atend_pt l) P) e) | None => false end) = false).
  { destruct (lastitem (items s)) as [l|]; auto. now rewrite (M l), gap_self. }
  rewrite Z'. cbn [atbegin_pt]. assert (W : modifiedbegin_pt i P = i) by (destruct i; simpl in *; subst; auto). rewrite W. reflexivity.
Qed.
Lemma segment_point i a : exists p, (segment i a a = Line p p \/ segment i a a = Curve p p p p) /\ at_pt i a = p.
Proof.
  exists (at_pt i a). split; auto. destruct i as [[x0 y0] [x1 y1]|[x0 y0] [x1 y1] [x2 y2] [x3 y3]]; [left; reflexivity|right].
  simpl. unfold curve_segment, segment_coord, curve_coord. simpl. f_equal; apply pair_eq; field.
Qed.
Lemma extend_mixed e its f w y Q : 0 < e -> forall s x P, linked its x P w y Q ->
  Forall (fun '(k, a, b) => a = b \/ fast e (sg its (k, a, b))) w ->
  epsilon s = Some e -> closed s = false -> (skipped s = None \/ skipped s = Some (Line P P)) ->
  (forall l, lastitem (items s) = Some l -> atend_pt l = P) ->
  exists sk, extend (S f) s (map (sg its) w) = Ok (mknsp (items s ++ map (sg its) (filter keep w)) false (Some e) sk) /\
    (sk = None \/ sk = Some (Line Q Q)).
Proof.
  intros He. induction w as [|[[k a] b] w IH]; intros s x P H F Es Hc K M.
  - cbn in H. destruct H as [_ <-]. exists (skipped s). split; auto. cbn. rewrite app_nil_r. destruct s; simpl in *; subst; auto.
  - cbn [linked] in H. destruct H as (E1 & E2 & H). inversion F as [|? ? F1 F2]; subst. cbn [map filter keep].
    unfold extend. cbn [extend_with]. change (extend_with (append (S f))) with (extend (S f)).
    set (i := nth k its (Line (0, 0) (0, 0))) in *.
    destruct (segment_ends i a b) as [B1 B2].
    rewrite (append_point e f s _ (at_pt i a)) by (auto; exact B1).
    destruct (Req_EM_T a b) as [<-|N].
    + destruct (segment_point i a) as (p & D & Ep). unfold sg at 1. fold i.
      assert (A : append (S f) (with_skipped s None) (segment i a a) = Ok (with_skipped s (Some (Line p p)))).
      { cbn [append with_skipped epsilon closed skipped items]. rewrite Es, Hc. unfold mismatch. cbn [with_skipped skipped items].
        assert (Z' : (match lastitem (items s) with Some l => negb (ltb (gap (atend_pt l) (atbegin_pt (segment i a a))) e) | None => false end) = false).
        { destruct (lastitem (items s)) as [l|]; auto. rewrite (M l), B1, gap_self by auto. destruct (ltb_spec 0 e); auto; lra. }
        rewrite Z'. assert (Z : leb e 0 = false) by (destruct (leb e 0) eqn:Y; auto; apply leb_true in Y; lra).
        assert (Z3 : leb e (0 * 3) = false) by (replace (0 * 3) with 0 by ring; auto).
        destruct D as [-> | ->].
        - rewrite dist_self, Z. reflexivity.
        - unfold substantial. rewrite dist_self, Z, Z3. reflexivity. }
      rewrite A. cbn [bind]. rewrite Ep in *.
      destruct (IH (with_skipped s (Some (Line p p))) (INR k + a) p) as (sk & X1 & X2); auto.
      exists sk. split; auto.
    + destruct F1 as [F1|F1]; [congruence|].
      rewrite (append_fast e) by (auto; intros l L; unfold sg; fold i; rewrite B1; auto).
      cbn [bind]. destruct (IH (push (with_skipped s None) (sg its (k, a, b))) (INR k + b) (at_pt i b)) as (sk & X1 & X2); auto.
      * cbn [push items with_skipped]. intros l L. rewrite lastitem_app in L. injection L as <-. exact B2.
      * exists sk. split; auto. rewrite X1. cbn [push items with_skipped map]. now rewrite <- app_assoc.
Qed.

(** C76: every part of a subpath has the points of the subpath between its ends, in their
    order and without leaving out any: there is a monotone function from the parameters of
    the part onto the parameters between t and u, and the part has at each of its parameters
    the point of the subpath there.  The pieces of the items between t and u have to be
    single points or to have a velocity of at least epsilon. *)
Theorem segments_points : forall fuel e s p q params result, 0 < e -> epsilon s = Some e -> connected p (items s) q -> items s <> [] ->
  (closed s = false \/ (hd 0 params <> 0 /\ hd 0 params <> INR (length (items s)))) ->
  nsp_segments fuel s params = Ok result ->
  forall m r t u, nth_error result m = Some r -> nth_error params m = Some t -> nth_error params (S m) = Some u ->
  (forall k i, nth_error (items s) k = Some i ->
     let a := clamp (length (items s)) k t - INR k in let b := clamp (length (items s)) k u - INR k in
     a = b \/ speed_at_least e (segment i a b)) ->
  exists phi, phi 0 = t /\ phi (INR (length (items r))) = u /\
    ((t <= u /\ forall v v', 0 <= v -> v <= v' -> v' <= INR (length (items r)) -> phi v <= phi v') \/
     (u <= t /\ forall v v', 0 <= v -> v <= v' -> v' <= INR (length (items r)) -> phi v' <= phi v)) /\
    (forall z, Rmin t u <= z <= Rmax t u -> exists v, 0 <= v <= INR (length (items r)) /\ phi v = z) /\
    (forall v x, 0 <= v <= INR (length (items r)) -> on_path (items r) v x -> on_path (items s) (phi v) x).
Proof.
  intros fuel e s p q params result He Es C N Hc Run m r t u Hr Ht Hu V. apply chained_connected in C. unfold nsp_segments in Run.
  destruct params as [|t0 [|t1 params]]; try discriminate. destruct (items s) as [|i0 its0] eqn:I; [congruence|]. rewrite <- I in *. clear I.
  destruct (segments_loop fuel s (t0 :: t1 :: params) [] (empty_nsp (epsilon s)) [] None) as [res| |] eqn:Lp; cbn [bind] in Run; try discriminate.
  assert (K : (closed s && (reqb t0 0 && reqb (last (t0 :: t1 :: params) 0) (INR (length (items s))) || reqb (last (t0 :: t1 :: params) 0) 0 && reqb t0 (INR (length (items s)))))%bool = false).
  { destruct Hc as [->|[H1 H2]]; auto. simpl in H1, H2. unfold reqb. destruct (Req_EM_T t0 0); [congruence|]. destruct (Req_EM_T t0 (INR (length (items s)))); [congruence|].
    rewrite andb_false_r. apply andb_false_r. }
  rewrite K in Run. injection Run as <-. rewrite Es in Lp.
  assert (Nl : t1 :: params <> []) by discriminate.
  pose proof (ways_nth s e fuel _ _ m r t u _ (segments_runs s e Es N fuel t0 (t1 :: params) res Nl Lp) Hr Ht Hu) as R.
  clear Lp K Hr Ht Hu Nl. set (its := items s) in *. set (n := length its) in *.
  assert (Hn : (0 < n)%nat) by (unfold n; destruct its; [congruence|simpl; lia]).
  set (W := way (mknsp its false None None) (param_index n t) (t - INR (param_index n t)) u) in *.
  change (extend fuel (empty_nsp (Some e)) (map (sg its) W) = Ok r) in R.
  assert (J : forall k, (S k < length its)%nat -> at_pt (nth k its (Line (0, 0) (0, 0))) 1 = at_pt (nth (S k) its (Line (0, 0) (0, 0))) 0).
  { intros k Hk. rewrite (proj2 (begin_at _)), (proj1 (begin_at _)). apply (chained_nth its p q k); auto; apply nth_error_nth'; lia. }
  pose proof (way_linked its J t u Hn) as L. fold n in L. fold W in L. pose proof (way_cuts its t u Hn) as Cu. fold n in Cu. fold W in Cu.
  assert (Ff : Forall (fun '(k, a, b) => a = b \/ fast e (sg its (k, a, b))) W).
  { revert Cu. apply Forall_impl. intros [[k a] b] (H1 & -> & ->). destruct (V k (nth k its (Line (0, 0) (0, 0)))) as [H|H]; [now apply nth_error_nth'|auto|].
    right. apply fast_speed; [lra|exact H]. }
  destruct fuel as [|f].
  { exfalso. unfold W, way in R. destruct (Nat.eqb _ _); cbn in R; discriminate. }
  destruct (extend_mixed e its f W _ _ He (empty_nsp (Some e)) _ _ L Ff eq_refl eq_refl (or_introl eq_refl)) as (sk & X & _); [intros l Y; discriminate|].
  rewrite R in X. injection X as ->. cbn [items empty_nsp app]. rewrite map_length.
  apply linked_keep in L.
  assert (Kp : Forall (fun x => keep x = true) (filter keep W)) by (apply Forall_forall; intros z Z; apply filter_In in Z; tauto).
  assert (Fn : forall d, (d = 1 /\ t <= u \/ d = - (1) /\ u <= t) -> Forall (fun '(k, a, b) => (k < n)%nat /\ 0 <= d * (b - a) /\
    (forall c, 0 <= d * (c - a) -> 0 <= d * (b - c) -> (k = 0%nat \/ 0 <= c) /\ (S k = n \/ c <= 1))) (filter keep W)).
  { intros d Hd. apply Forall_forall. intros [[k a] b] Z. apply filter_In in Z as [Z _]. rewrite Forall_forall in Cu. apply Cu in Z as (H1 & -> & ->). fold n.
    split; auto. destruct (clamp_range n k t) as [A1 A2]. destruct (clamp_range n k u) as [B1 B2].
    destruct Hd as [[-> Hd]|[-> Hd]]; apply (clamp_mono n k) in Hd; (split; [lra|]); intros c C1 C2; (split; [destruct A1, B1; auto; right; lra|destruct A2, B2; auto; right; lra]). }
  destruct (Rle_dec t u) as [D|D].
  - destruct (way_function its t u Hn 1 (filter keep W) _ _ ltac:(lra) _ _ L Kp (Fn 1 ltac:(auto))) as (phi & P0 & P1 & P2 & P3 & P4).
    exists phi. split; auto. split; auto. split; [|split; auto].
    + left. split; auto. intros v v' H1 H2 H3. specialize (P2 v v' H1 H2 H3). lra.
    + rewrite Rmin_left, Rmax_right by auto. intros z [Z1 Z2]. apply P3; lra.
  - destruct (way_function its t u Hn (- (1)) (filter keep W) _ _ ltac:(lra) _ _ L Kp (Fn (- (1)) ltac:(right; split; [auto|lra]))) as (phi & P0 & P1 & P2 & P3 & P4).
    exists phi. split; auto. split; auto. split; [|split; auto].
    + right. split; [lra|]. intros v v' H1 H2 H3. specialize (P2 v v' H1 H2 H3). lra.
    + rewrite Rmin_right, Rmax_left by lra. intros z [Z1 Z2]. apply P3; lra.
Qed.
Print Assumptions segments_points.
(** A part from the second line of two back to the first one is the way from (4,3/2) over the
    corner to (1,0): the point at its parameter 1/3 is that of the subpath between. *)
Lemma line_part_speed e x y x' y' d : 0 <= e -> 0 <= d -> e <= d -> (x' - x) * (x' - x) + (y' - y) * (y' - y) = d * d -> speed_at_least e (Line (x, y) (x', y')).
Proof. intros He Hd H E. apply line_speed; auto. rewrite (dist_is (x, y) (x', y') d); auto; simpl; lra. Qed.
Example segments_points_ex : exists phi, phi 0 = 3 / 2 /\ phi 2 = 1 / 4 /\
  (forall z, 1 / 4 <= z <= 3 / 2 -> exists v, 0 <= v <= 2 /\ phi v = z) /\
  (forall v x, 0 <= v <= 2 -> on_path [Line (4, 3 / 2) (4, 0); Line (4, 0) (1, 0)] v x -> on_path two_lines (phi v) x).
Proof.
  assert (Hs : mknsp two_lines false (Some 1) None = mknsp two_lines false (Some 1) None) by auto.
  destruct (segments_points 1 1 (mknsp two_lines false (Some 1) None) (0, 0) (4, 3) [3 / 2; 1 / 4] _ ltac:(lra) eq_refl two_lines_connected ltac:(discriminate)
    (or_introl eq_refl) segments_ex 0%nat _ (3 / 2) (1 / 4) eq_refl eq_refl eq_refl) as (phi & P0 & P1 & _ & P3 & P4).
  - intros k i Hi. cbn [items length] in *. unfold two_lines in *. cbn [length]. destruct k as [|[|k]]; [| |destruct k; discriminate]; cbn in Hi; injection Hi as <-.
    + assert (A : clamp 2 0 (3 / 2) = 1) by (unfold clamp; cbn [Nat.eqb INR]; rewrite Rmin_right; lra).
      assert (B : clamp 2 0 (1 / 4) = 1 / 4) by (unfold clamp; cbn [Nat.eqb INR]; rewrite Rmin_left; lra).
      cbv zeta. rewrite A, B. right. cbn [segment INR]. unfold line_segment. cbn [at_pt fst snd]. apply line_part_speed with 3; lra.
    + assert (A : clamp 2 1 (3 / 2) = 3 / 2) by (unfold clamp; cbn [Nat.eqb INR]; rewrite Rmax_left; lra).
      assert (B : clamp 2 1 (1 / 4) = 1) by (unfold clamp; cbn [Nat.eqb INR]; rewrite Rmax_right; lra).
      cbv zeta. rewrite A, B. right. cbn [segment INR]. unfold line_segment. cbn [at_pt fst snd]. apply line_part_speed with (3 / 2); lra.
  - cbn [items length INR] in *. rewrite Rmin_right, Rmax_left in P3 by lra. replace (1 + 1) with 2 in * by lra. exists phi. auto.
Qed.
