(** * Surfaces are complete; counterexamples for their order (C106) *)

From Coq Require Import Reals Bool List Lra Lia Arith Sorted.
From Verif Require Import Graph3dModel Graph3dSpec Graph3dProps Graph3dProps2 Graph3dProps3 GraphBar3dProps SurfaceModel SurfaceSpec SurfaceProps SurfaceProps2 SurfaceProps3.
Import ListNotations.
Open Scope R_scope.

Lemma back_some g i1 i2 neg a b v1 v2 v3 v4 n : well_placed g -> (i1 < 3)%nat -> (i2 < 3)%nat -> i1 <> i2 -> corners_at i1 i2 a b v1 v2 v3 v4 -> (n < 4)%nat ->
  fst a <> snd a -> fst b <> snd b -> exists x, is_back g neg (triangle v1 v2 v3 v4 n) = Some x.
Proof.
  intros (X & Y & Z & _ & W) I1 I2 N H L Da Db. pose proof (normal_third g i1 i2 _ _ _ _ _ _ _ I1 I2 N H L) as Nt.
  assert (in_graph (corner (triangle v1 v2 v3 v4 n))) as Gc.
  { destruct H as (_ & _ & _ & _ & _ & _ & _ & _ & G1 & G2 & G3 & G4). destruct n as [|[|[|?]]]; cbn; assumption. }
  destruct (triangle v1 v2 v3 v4 n) as [[p q] r]. cbn [corner fst] in Gc.
  assert (normal (position g p) (position g q) (position g r) <> (0, 0, 0)) as M0.
  { intros Q. rewrite Q in Nt. assert (third i1 i2 (0, 0, 0) = 0) as Q0 by (destruct i1 as [|[|[|?]]]; try lia; destruct i2 as [|[|[|?]]]; try lia; cbn; ring). rewrite Q0 in Nt.
    symmetry in Nt. pose proof (scale_pos g i1 X Y Z). pose proof (scale_pos g i2 X Y Z).
    repeat (apply Rmult_integral in Nt as [Nt|Nt]); lra. }
  destruct (angle_sign (proj g) (position g p) (position g q) (position g r) (W p Gc) M0) as (x & k & Ea & _).
  cbn [is_back]. unfold vangle. rewrite Ea. cbn. eauto.
Qed.
Lemma triangles_some g i1 i2 neg a b v1 v2 v3 v4 order : well_placed g -> (i1 < 3)%nat -> (i2 < 3)%nat -> i1 <> i2 -> corners_at i1 i2 a b v1 v2 v3 v4 ->
  fst a <> snd a -> fst b <> snd b -> (forall z i, In (z, i) order -> (i < 4)%nat) -> exists l, triangles g a b neg v1 v2 v3 v4 order = Some l.
Proof.
  intros W I1 I2 N H Da Db. induction order as [|[z i] order IH]; intros L; cbn [triangles]; [eauto|].
  destruct (back_some g i1 i2 neg a b v1 v2 v3 v4 i W I1 I2 N H) as (x & ->); auto; [apply (L z i); left; reflexivity|]. cbn [bind].
  destruct IH as (l & ->); [intros z' i' I; apply (L z' i'); right; exact I|]. cbn [bind]. eauto.
Qed.
Lemma collect_some {A B} (f : A -> option (list B)) l : (forall a, In a l -> exists xs, f a = Some xs) ->
  exists out, collect f l = Some out /\ forall a xs x, In a l -> f a = Some xs -> In x xs -> In x out.
Proof.
  induction l as [|a l IH]; intros H; cbn [collect]; [exists []; split; [reflexivity|intros ? ? ? []]|].
  destruct (H a) as (xs & E); [left; reflexivity|]. destruct IH as (out & -> & P); [intros b I; apply H; right; exact I|]. rewrite E. cbn [bind].
  exists (xs ++ out). split; [reflexivity|]. intros b ys x [<-|I] F X; apply in_or_app; [left; congruence|right; eauto].
Qed.
Lemma sort_elements_some g i1 i2 r1 r2 : 0 < xscale g -> exists order, sort_elements g i1 i2 r1 r2 = Some order /\ forall n, (n < 4)%nat -> In n (map snd order).
Proof.
  intros X. unfold sort_elements. rewrite !vzindex_some by exact X. cbn [bind].
  destruct r1, r2; (eexists; split; [reflexivity|]; intros n L; eapply Permutation.Permutation_in; [apply Permutation.Permutation_map; symmetry; apply sort_perm|]; cbn; lia).
Qed.

Lemma pairs_rev (l : list R) a b : In (a, b) (pairs l) -> In (b, a) (pairs (rev l)).
Proof.
  assert (forall l (x y : R) k, In (x, y) (pairs (l ++ x :: y :: k))) as Q.
  { clear. induction l as [|z l IH]; intros x y k; [cbn [app]; rewrite pairs_cons; left; reflexivity|].
    cbn [app]. destruct (l ++ x :: y :: k) as [|w m] eqn:E; [destruct l; discriminate|]. rewrite pairs_cons. right. rewrite <- E. apply IH. }
  assert (In (a, b) (pairs l) -> exists k m, l = k ++ a :: b :: m) as P.
  { clear Q. induction l as [|x l IH]; [intros []|]. destruct l as [|y l]; [intros []|]. rewrite pairs_cons. intros [E|I].
    - injection E as -> ->. exists [], l. reflexivity.
    - destruct (IH I) as (k & m & E). exists (x :: k), m. rewrite E. reflexivity. }
  intros I. destruct (P I) as (k & m & ->). rewrite rev_app_distr. cbn [rev]. rewrite <- !app_assoc. cbn [app]. apply Q.
Qed.

(** Surfaces are complete: with available and valid data at the four corners of a cell of the grid, there is a triangle between
    its middle and each of its sides; and drawing succeeds. *)
Theorem surface_complete : forall g index1 index2 data values1 values2,
  well_placed g -> (index1 < 3)%nat -> (index2 < 3)%nat -> index1 <> index2 ->
  on_grid index1 index2 data -> StronglySorted Rlt values1 -> StronglySorted Rlt values2 ->
  exists elements, surface g index1 index2 data values1 values2 = Some elements /\
  forall a a' b b' v1 v2 v3 v4, In (a, a') (pairs values1) -> In (b, b') (pairs values2) ->
    data a b = Some (true, true, v1) -> data a b' = Some (true, true, v2) -> data a' b = Some (true, true, v3) -> data a' b' = Some (true, true, v4) ->
    forall p q, In (p, q) [(v1, v2); (v1, v3); (v2, v4); (v3, v4)] ->
    exists e, In e elements /\ (tri e = (p, q, midvalue v1 v2 v3 v4) \/ tri e = (q, p, midvalue v1 v2 v3 v4)).
Proof.
  intros g i1 i2 data vs1 vs2 W I1 I2 N G S1 S2. destruct W as (X & Y & Z & W'). assert (well_placed g) as W by (split; auto).
  unfold surface. destruct (reversed_spec g i1 X Y Z I1) as (r1 & -> & _). destruct (reversed_spec g i2 X Y Z I2) as (r2 & -> & _). cbn [bind].
  destruct (sort_elements_some g i1 i2 r1 r2 X) as (order & O & Nums). rewrite O. cbn [bind].
  destruct (pairs_order r1 vs1 S1) as (P1 & _). destruct (pairs_order r2 vs2 S2) as (P2 & _).
  assert (forall a b, In a (pairs (if r1 then rev vs1 else vs1)) -> In b (pairs (if r2 then rev vs2 else vs2)) -> exists l, cell g data (xorb r1 r2) order a b = Some l /\
    forall v1 v2 v3 v4 n, data (fst a) (fst b) = Some (true, true, v1) -> data (fst a) (snd b) = Some (true, true, v2) -> data (snd a) (fst b) = Some (true, true, v3) -> data (snd a) (snd b) = Some (true, true, v4) ->
      (n < 4)%nat -> exists e, In e l /\ tri e = triangle v1 v2 v3 v4 n) as K.
  { intros a b Ia Ib. assert (fst a <> snd a) as Da by (apply P1 in Ia; unfold ordered in Ia; destruct r1; lra).
    assert (fst b <> snd b) as Db by (apply P2 in Ib; unfold ordered in Ib; destruct r2; lra).
    unfold cell. destruct (data (fst a) (fst b)) as [[[x1 y1] v1]|] eqn:D1; [|eexists; split; [reflexivity|intros; congruence]].
    destruct (data (fst a) (snd b)) as [[[x2 y2] v2]|] eqn:D2; [|eexists; split; [reflexivity|intros; congruence]].
    destruct (data (snd a) (fst b)) as [[[x3 y3] v3]|] eqn:D3; [|eexists; split; [reflexivity|intros; congruence]].
    destruct (data (snd a) (snd b)) as [[[x4 y4] v4]|] eqn:D4; [|eexists; split; [reflexivity|intros; congruence]].
    destruct x1, x2, x3, x4; cbn [negb orb]; try (eexists; split; [reflexivity|intros; congruence]).
    destruct y1, y2, y3, y4; cbn [negb orb]; try (eexists; split; [reflexivity|intros; congruence]).
    assert (corners_at i1 i2 a b v1 v2 v3 v4) as H.
    { apply G in D1 as (A1 & B1 & C1), D2 as (A2 & B2 & C2), D3 as (A3 & B3 & C3), D4 as (A4 & B4 & C4). unfold corners_at. auto 20. }
    destruct (triangles_some g i1 i2 (xorb r1 r2) a b v1 v2 v3 v4 order W I1 I2 N H Da Db (numbers g i1 i2 r1 r2 order O)) as (l & T). exists l. split; [exact T|].
    intros u1 u2 u3 u4 n [= <-] [= <-] [= <-] [= <-] L. destruct (triangles_spec _ _ _ _ _ _ _ _ _ _ T) as (M & Tr).
    pose proof (Nums n L) as J. rewrite <- M in J. apply in_map_iff in J as (e & <- & J). exists e. split; [exact J|]. apply (Tr e J). }
  destruct (collect_some (fun a => collect (fun b => cell g data (xorb r1 r2) order a b) (pairs (if r2 then rev vs2 else vs2))) (pairs (if r1 then rev vs1 else vs1))) as (out & E & Out).
  { intros a Ia. destruct (collect_some (fun b => cell g data (xorb r1 r2) order a b) (pairs (if r2 then rev vs2 else vs2))) as (xs & Ex & _); [|eauto].
    intros b Ib. destruct (K a b Ia Ib) as (l & El & _). eauto. }
  exists out. split; [exact E|].
  assert (forall a b v1 v2 v3 v4 n, In a (pairs (if r1 then rev vs1 else vs1)) -> In b (pairs (if r2 then rev vs2 else vs2)) ->
    data (fst a) (fst b) = Some (true, true, v1) -> data (fst a) (snd b) = Some (true, true, v2) -> data (snd a) (fst b) = Some (true, true, v3) -> data (snd a) (snd b) = Some (true, true, v4) ->
    (n < 4)%nat -> exists e, In e out /\ tri e = triangle v1 v2 v3 v4 n) as J.
  { intros a b v1 v2 v3 v4 n Ia Ib D1 D2 D3 D4 L. destruct (K a b Ia Ib) as (l & El & Tl). destruct (Tl v1 v2 v3 v4 n D1 D2 D3 D4 L) as (e & Ie & Te). exists e. split; [|exact Te].
    destruct (collect_some (fun b => cell g data (xorb r1 r2) order a b) (pairs (if r2 then rev vs2 else vs2))) as (xs & Ex & Xs).
    { intros b' Ib'. destruct (K a b' Ia Ib') as (l' & El' & _). eauto. }
    apply (Out a xs e Ia Ex). apply (Xs b l e Ib El Ie). }
  intros a a' b b' v1 v2 v3 v4 Ia Ib D1 D2 D3 D4 p q Pq.
  assert (In (if r1 then (a', a) else (a, a')) (pairs (if r1 then rev vs1 else vs1))) as Ja by (destruct r1; [apply pairs_rev|]; exact Ia).
  assert (In (if r2 then (b', b) else (b, b')) (pairs (if r2 then rev vs2 else vs2))) as Jb by (destruct r2; [apply pairs_rev|]; exact Ib).
  assert (forall u1 u2 u3 u4, midvalue u1 u2 u3 u4 = midvalue u3 u4 u1 u2 /\ midvalue u1 u2 u3 u4 = midvalue u2 u1 u4 u3) as Sy.
  { intros [[? ?] ?] [[? ?] ?] [[? ?] ?] [[? ?] ?]. split; cbn; apply vec_ext; f_equal; ring. }
  assert (forall u1 u2 u3 u4, data (fst (if r1 then (a', a) else (a, a'))) (fst (if r2 then (b', b) else (b, b'))) = Some (true, true, u1) ->
    data (fst (if r1 then (a', a) else (a, a'))) (snd (if r2 then (b', b) else (b, b'))) = Some (true, true, u2) ->
    data (snd (if r1 then (a', a) else (a, a'))) (fst (if r2 then (b', b) else (b, b'))) = Some (true, true, u3) ->
    data (snd (if r1 then (a', a) else (a, a'))) (snd (if r2 then (b', b) else (b, b'))) = Some (true, true, u4) ->
    midvalue u1 u2 u3 u4 = midvalue v1 v2 v3 v4 ->
    In (p, q) [(u1, u2); (u2, u1); (u1, u3); (u3, u1); (u2, u4); (u4, u2); (u3, u4); (u4, u3)] ->
    exists e, In e out /\ (tri e = (p, q, midvalue v1 v2 v3 v4) \/ tri e = (q, p, midvalue v1 v2 v3 v4))) as F.
  { intros u1 u2 u3 u4 E1 E2 E3 E4 Em I. pose proof (fun n => J _ _ _ _ _ _ n Ja Jb E1 E2 E3 E4) as J'.
    destruct (J' 0%nat ltac:(lia)) as (e0 & O0 & T0). destruct (J' 1%nat ltac:(lia)) as (e1 & O1 & T1). destruct (J' 2%nat ltac:(lia)) as (e2 & O2 & T2). destruct (J' 3%nat ltac:(lia)) as (e3 & O3 & T3).
    cbn [triangle] in T0, T1, T2, T3. rewrite Em in *.
    destruct I as [I|[I|[I|[I|[I|[I|[I|[I|[]]]]]]]]]; injection I as -> ->; eauto. }
  destruct r1, r2; cbn [fst snd] in F.
  - apply (F v4 v3 v2 v1 D4 D3 D2 D1); [rewrite (proj1 (Sy v4 v3 v2 v1)); apply Sy|]. cbn in Pq |- *. tauto.
  - apply (F v3 v4 v1 v2 D3 D4 D1 D2); [apply Sy|]. cbn in Pq |- *. tauto.
  - apply (F v2 v1 v4 v3 D2 D1 D4 D3); [apply Sy|]. cbn in Pq |- *. tauto.
  - apply (F v1 v2 v3 v4 D1 D2 D3 D4); [reflexivity|]. cbn in Pq |- *. tauto.
Qed.
Print Assumptions surface_complete.
