(** Proofs about the annotations of a document. *)
From Coq Require Import String Ascii ZArith Bool List Lia ZifyBool.
From Verif Require Import PyDict TickModel PdfModel PdfSpec PdfProofs.
Import ListNotations.
Open Scope nat_scope.

Local Notation ak := annotations_key.
Definition kinds (l : list obj) : Prop := forall o, In o l -> (omergeable o = true <-> okey o = ak).
Record holds (lo hi : nat) (reg : registry) (h : heap) (c : list Z) : Prop := mkholds {
  h_wf : wf reg;
  h_kinds : kinds (objects reg);
  h_content : match dget key_eqb ak (types reg) with
              | Some o => h (oident o) = c /\ lo <= oident o < hi
              | None => c = []
              end }.

Lemma holds_weaken lo hi hi' reg h c : hi <= hi' -> holds lo hi reg h c -> holds lo hi' reg h c.
Proof. intros L [W K C]. split; auto. destruct (dget _ _ _); auto. destruct C. split; auto. lia. Qed.
Lemma holds_heap lo hi reg h h' c : (forall i, lo <= i < hi -> h' i = h i) -> holds lo hi reg h c -> holds lo hi reg h' c.
Proof. intros E [W K C]. split; auto. destruct (dget _ _ _); auto. destruct C. split; auto. rewrite E; auto. Qed.

Lemma add_plain lo hi reg h c o : holds lo hi reg h c -> omergeable o = false -> okey o <> ak ->
  exists reg', add reg h o = Some (reg', h) /\ holds lo hi reg' h c /\ merged reg' = merged reg.
Proof.
  intros [W K C] M N. unfold add. destruct (dget key_eqb (okey o) (types reg)) as [o'|] eqn:D.
  - pose proof D as D'. apply (proj1 (wf_dget reg _ _ W)) in D'. destruct D' as [I E].
    assert (omergeable o' = false) as ->.
    { destruct (omergeable o') eqn:X; auto. exfalso. apply N. rewrite <- E. apply (K _ I). exact X. }
    exists reg. split; [reflexivity|]. split; [split; auto|reflexivity].
  - eexists. split; [reflexivity|].
    assert (A : add reg h o = Some (mkreg (dset key_eqb (okey o) o (types reg)) (objects reg ++ [o]) (merged reg), h))
      by (unfold add; now rewrite D).
    destruct (add_spec _ _ _ _ _ W A) as [W' [M' _]]. split; [split; auto|auto].
    + simpl. intros x. rewrite in_app_iff. intros [I|[<-|[]]]; [now apply K|]. rewrite M. split; [discriminate|tauto].
    + simpl. rewrite (dget_dset_other key_eqb key_eqb_spec) by auto. exact C.
Qed.

Lemma add_annot lo hi reg h c o : holds lo hi reg h c -> omergeable o = true -> okey o = ak -> hi <= oident o -> lo <= hi ->
  exists reg' h', add reg h o = Some (reg', h') /\ holds lo (S (oident o)) reg' h' (c ++ h (oident o)) /\ merged reg' = merged reg /\
    (forall i, ~ lo <= i < hi -> h' i = h i).
Proof.
  intros [W K C] M N L1 L2. unfold add. rewrite N. destruct (dget key_eqb ak (types reg)) as [o'|] eqn:D.
  - pose proof D as D'. apply (proj1 (wf_dget reg _ _ W)) in D'. destruct D' as [I E]. destruct C as [C1 C2].
    assert (omergeable o' = true) as -> by now apply (K _ I).
    destruct (Nat.eqb_spec (oident o') (oident o)); [lia|]. cbn [andb].
    eexists _, _. split; [reflexivity|]. split; [|split; [reflexivity|]].
    + split; auto. rewrite D. split; [|lia]. unfold hset. rewrite Nat.eqb_refl. now rewrite C1.
    + intros i Hi. unfold hset. destruct (Nat.eqb_spec i (oident o')); auto. subst. lia.
  - eexists _, _. split; [reflexivity|].
    assert (A : add reg h o = Some (mkreg (dset key_eqb (okey o) o (types reg)) (objects reg ++ [o]) (merged reg), h))
      by (unfold add; rewrite N; now rewrite D).
    destruct (add_spec _ _ _ _ _ W A) as [W' [M' _]]. split; [|split; auto]. rewrite N in W'. split; auto.
    + simpl. intros x. rewrite in_app_iff. intros [I|[<-|[]]]; [now apply K|]. tauto.
    + simpl. rewrite (dget_dset_same key_eqb key_eqb_spec). split; [now rewrite C|lia].
Qed.

Lemma steps_app l1 : forall w w1 l2, steps w l1 = Some w1 -> steps w (l1 ++ l2) = steps w1 l2.
Proof.
  induction l1 as [|p l IH]; simpl; intros w w1 l2 H; [now inversion H|].
  destruct (step w p); [eauto|discriminate].
Qed.
Lemma set_nth_twice {A} n (x y : A) l : set_nth n x (set_nth n y l) = set_nth n x l.
Proof. revert n. induction l; destruct n; simpl; congruence. Qed.

Lemma annot_steps annots : forall lo n r reg w c, nth_error (regs w) r = Some reg -> holds lo n reg (wheap w) c -> lo <= n ->
  exists reg' h', steps w (annot_ops r n annots) = Some (mkworld (set_nth r reg' (regs w)) h') /\
    holds lo (n + 2 * length annots) reg' h' (c ++ annots) /\ merged reg' = merged reg /\
    (forall i, i < lo -> h' i = wheap w i).
Proof.
  induction annots as [|a annots IH]; intros lo n r reg w c E H L.
  - exists reg, (wheap w). simpl. rewrite Nat.add_0_r, app_nil_r. split; [|auto].
    destruct w as [rs h]. simpl in *. do 2 f_equal. clear -E. revert r E.
    induction rs; destruct r; simpl; try discriminate; [now intros [= ->]|]. intros E. f_equal. auto.
  - cbn [annot_ops steps step].  cbn [regs wheap]. rewrite E.
    assert (H1 : holds lo n reg (hset (wheap w) n [a]) c).
    { eapply holds_heap; [|exact H]. intros i Hi. unfold hset. destruct (Nat.eqb_spec i n); [lia|auto]. }
    destruct (add_annot lo n reg _ c (mkobj ak n true) H1 eq_refl eq_refl (le_n n) L) as [reg1 [h1 [A1 [H2 [M2 O2]]]]].
    cbn [oident] in *. rewrite A1.
    replace (hset (wheap w) n [a] n) with [a] in H2 by (unfold hset; now rewrite Nat.eqb_refl).
    cbn [regs wheap]. rewrite (set_nth_same _ _ _ _ E).
    destruct (add_plain lo (S n) reg1 h1 _ (mkobj (1, a)%Z (S n) false) H2 eq_refl) as [reg2 [A2 [H3 M3]]]; [discriminate|].
    rewrite A2. cbn [regs wheap]. rewrite set_nth_twice.
    destruct (IH lo (S (S n)) r reg2 (mkworld (set_nth r reg2 (regs w)) h1) (c ++ [a])) as [reg3 [h3 [A3 [H4 [M4 O4]]]]].
    + apply (set_nth_same _ _ _ _ E).
    + eapply holds_weaken; [|exact H3]. lia.
    + lia.
    + exists reg3, h3. rewrite A3. cbn [regs]. rewrite set_nth_twice. split; [reflexivity|].
      rewrite <- app_assoc in H4. split; [|split; [congruence|]].
      * eapply holds_weaken; [|exact H4]. simpl length. lia.
      * intros i Hi. rewrite O4 by auto. cbn [wheap]. rewrite O2 by lia. unfold hset.
        destruct (Nat.eqb_spec i n); [lia|auto].
Qed.

(** merging a page into the global registry *)
Definition content_of (h : heap) (l : list obj) : list Z := flat_map (fun o => if omergeable o then h (oident o) else []) l.
Lemma content_none h l : kinds l -> ~ In ak (map okey l) -> content_of h l = [].
Proof.
  unfold content_of. induction l as [|o l IH]; simpl; intros K N; auto.
  destruct (omergeable o) eqn:M.
  - exfalso. apply N. left. apply (K o); [now left|auto].
  - apply IH; [|tauto]. intros x Hx. apply K. now right.
Qed.
Lemma content_one h l o : kinds l -> NoDup (map okey l) -> In o l -> okey o = ak -> content_of h l = h (oident o).
Proof.
  induction l as [|x l IH]; simpl; intros K N I E; [destruct I|]. inversion N; subst.
  assert (K' : kinds l) by (intros y Hy; apply K; now right).
  destruct I as [->|I].
  - replace (omergeable o) with true by (symmetry; apply (K o); simpl; auto).
    fold (content_of h l). rewrite content_none, app_nil_r; auto. now rewrite <- E.
  - replace (omergeable x) with false.
    + simpl. now apply IH.
    + destruct (omergeable x) eqn:M; auto. exfalso. apply (K x) in M; [|now left]. apply H1. rewrite M, <- E. now apply in_map.
Qed.
Lemma content_holds lo hi reg h c : holds lo hi reg h c -> content_of h (objects reg) = c.
Proof.
  intros [W K C]. destruct (dget key_eqb ak (types reg)) as [o|] eqn:D.
  - apply (proj1 (wf_dget reg _ _ W)) in D. destruct D as [I E]. destruct C as [<- _].
    apply content_one; auto. apply W.
  - subst. rewrite (wf_dget_None reg) in D by auto. now apply content_none.
Qed.

Lemma merge_page L : forall G h c hi hi', holds 0 hi G h c -> kinds L -> NoDup (map okey L) ->
  (forall o, In o L -> omergeable o = true -> hi <= oident o < hi') -> hi <= hi' ->
  exists G' h', add_all G h L = Some (G', h') /\ holds 0 hi' G' h' (c ++ content_of h L) /\ merged G' = merged G.
Proof.
  induction L as [|o L IH]; intros G h c hi hi' H K N B LE.
  - exists G, h. simpl. rewrite app_nil_r. split; auto. split; auto. eapply holds_weaken; eauto.
  - simpl in N. inversion N as [|? ? N1 N2]; subst.
    assert (K' : kinds L) by (intros y Hy; apply K; now right).
    simpl add_all. simpl content_of. destruct (omergeable o) eqn:M.
    + assert (E : okey o = ak) by (apply (K o); simpl; auto). pose proof (B o (or_introl eq_refl) M) as Bo.
      destruct (add_annot 0 hi G h c o H M E) as [G1 [h1 [A1 [H1 [M1 _]]]]]; [lia|lia|]. rewrite A1.
      rewrite E in N1.
      destruct (IH G1 h1 _ (S (oident o)) hi' H1 K' N2) as [G2 [h2 [A2 [H2 M2]]]].
      * intros y Hy My. exfalso. apply N1. replace ak with (okey y); [now apply in_map|]. apply (K' y); auto.
      * lia.
      * exists G2, h2. split; auto. fold (content_of h L). rewrite content_none in H2 by auto.
        rewrite (content_none h L) by auto. rewrite app_nil_r in *. split; auto. congruence.
    + assert (E : okey o <> ak).
      { intros E. apply (K o) in E; [congruence|now left]. }
      destruct (add_plain 0 hi G h c o H M E) as [G1 [A1 [H1 M1]]]. rewrite A1.
      destruct (IH G1 h c hi hi' H1 K' N2) as [G2 [h2 [A2 [H2 M2]]]]; auto.
      * intros y Hy. apply B. now right.
      * exists G2, h2. split; auto. split; auto. congruence.
Qed.

Lemma page_steps p next annots G rest h c :
  length rest = p -> holds 0 next G h c ->
  exists G' rest' h', steps (mkworld (G :: rest) h) (page_ops p next annots) = Some (mkworld (G' :: rest') h') /\
    length rest' = S p /\ holds 0 (next + 2 + 2 * length annots) G' h' (c ++ annots).
Proof.
  intros L H. unfold page_ops.
  assert (E0 : nth_error (G :: rest ++ [new_registry]) (S p) = Some new_registry).
  { simpl. rewrite nth_error_app2 by lia. now replace (p - length rest) with 0 by lia. }
  cbn [app steps step regs wheap]. rewrite E0.
  set (pg := mkobj (2, Z.of_nat p)%Z next false).
  assert (H0 : holds (S (S next)) (S (S next)) new_registry h []).
  { split; [apply wf_new|intros o []|reflexivity]. }
  destruct (add_plain _ _ _ h [] pg H0 eq_refl) as [r1 [A1 [H1 M1]]]; [discriminate|]. rewrite A1.
  set (w1 := mkworld (set_nth (S p) r1 (G :: rest ++ [new_registry])) h).
  assert (E1 : nth_error (regs w1) (S p) = Some r1) by apply (set_nth_same _ _ _ _ E0).
  destruct (annot_steps annots _ _ (S p) r1 w1 [] E1 H1 (le_n _)) as [r2 [h2 [A2 [H2 [M2 O2]]]]].
  rewrite (steps_app _ _ _ _ A2). unfold w1. cbn [regs wheap steps step]. rewrite set_nth_twice.
  rewrite (set_nth_same _ _ _ _ E0).
  destruct (add_plain _ _ _ h2 _ (mkobj (3, Z.of_nat p)%Z (S next) false) H2 eq_refl) as [r3 [A3 [H3 M3]]]; [discriminate|].
  rewrite A3. cbn [regs wheap]. rewrite set_nth_twice.
  assert (E3 : nth_error (set_nth (S p) r3 (G :: rest ++ [new_registry])) (S p) = Some r3) by apply (set_nth_same _ _ _ _ E0).
  rewrite E3.
  assert (E4 : nth_error (set_nth (S p) r3 (G :: rest ++ [new_registry])) 0 = Some G) by reflexivity.
  rewrite E4. replace (merged r3) with (@None nat) by (rewrite M3, M2, M1; reflexivity).
  assert (HG : holds 0 next G h2 c).
  { eapply holds_heap; [|exact H]. intros i Hi. rewrite O2 by lia. reflexivity. }
  destruct (merge_page (objects r3) G h2 c next (next + 2 + 2 * length annots) HG) as [G' [h' [A4 [H4 M4]]]].
  - apply (h_kinds _ _ _ _ _ H3).
  - apply (h_wf _ _ _ _ _ H3).
  - intros o Io Mo. pose proof (h_kinds _ _ _ _ _ H3 _ Io) as K. apply K in Mo.
    pose proof (h_content _ _ _ _ _ H3) as C.
    assert (D : dget key_eqb ak (types r3) = Some o) by (apply wf_dget; [apply (h_wf _ _ _ _ _ H3)|auto]).
    rewrite D in C. lia.
  - lia.
  - rewrite A4. cbn [set_nth]. cbn [nth_error].
    change (nth_error (set_nth p r3 (rest ++ [new_registry])) p) with (nth_error (set_nth (S p) r3 (G :: rest ++ [new_registry])) (S p)).
    rewrite E3. cbn [regs wheap nth_error set_nth].
    destruct (add_plain _ _ _ h' _ pg H4 eq_refl) as [G'' [A5 [H5 M5]]]; [discriminate|]. rewrite A5.
    eexists _, _, _. split; [reflexivity|]. split.
    + rewrite !set_nth_length, app_length. simpl. lia.
    + rewrite (content_holds _ _ _ _ _ H3) in H5. exact H5.
Qed.

Lemma pages_steps pages : forall p next G rest h c, length rest = p -> holds 0 next G h c ->
  exists G' rest' h' hi, steps (mkworld (G :: rest) h) (pages_ops p next pages) = Some (mkworld (G' :: rest') h') /\
    holds 0 hi G' h' (c ++ concat pages).
Proof.
  induction pages as [|annots pages IH]; intros p next G rest h c L H.
  - exists G, rest, h, next. simpl. rewrite app_nil_r. auto.
  - destruct (page_steps p next annots G rest h c L H) as [G1 [rest1 [h1 [S1 [L1 H1]]]]].
    cbn [pages_ops concat]. rewrite (steps_app _ _ _ _ S1).
    destruct (IH (S p) _ _ _ _ _ L1 H1) as [G2 [rest2 [h2 [hi [S2 H2]]]]].
    exists G2, rest2, h2, hi. rewrite app_assoc. auto.
Qed.
Lemma document_annots pages : exists w, document_world pages = Some w /\ forall p, page_annots w p = concat pages.
Proof.
  destruct (pages_steps pages 0 0 new_registry [] (fun _ => []) [] eq_refl) as [G [rest [h [hi [S H]]]]].
  - split; [apply wf_new|intros o []|reflexivity].
  - exists (mkworld (G :: rest) h). split.
    + unfold document_world, run. simpl. exact S.
    + intros p. unfold page_annots. simpl. pose proof (h_content _ _ _ _ _ H) as C. simpl in C.
      destruct (dget key_eqb ak (types G)); [apply C|now rewrite C].
Qed.
