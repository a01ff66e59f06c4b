(** Theorems about PDF registries, files, strings and annotations and about PSregistry. *)
From Coq Require Import String Ascii ZArith Bool List Lia.
From Verif Require Import PyDict TickModel TickSpec TexterModel TexterProofs PdfModel PdfSpec PdfProofs PdfProofs2 PdfProofs3.
Import ListNotations.
Open Scope Z_scope.

(** ** C37: the registry *)

(** After any history of operations on any number of registries the objects of each
    registry have the keys registered in it, in the order of their first registration and
    each only once; the dictionary finds exactly these objects by their keys. *)
Theorem registry_contents : forall ops w, run ops = Some w ->
  forall r reg, nth_error (regs w) r = Some reg ->
  map okey (objects reg) = firsts (registrations (rev ops) r) /\
  NoDup (map okey (objects reg)) /\
  (forall o, In o (objects reg) -> added ops o) /\
  (forall k o, dget key_eqb k (types reg) = Some o <-> In o (objects reg) /\ okey o = k).
Proof.
  intros ops w H r reg E. destruct (inv_wf _ _ (inv_run _ _ H) _ _ E) as [W [F A]].
  split; [auto|]. split; [apply W|]. split.
  - intros o Ho. destruct (A o Ho) as [r' I]. exists r'. now apply in_rev.
  - intros k o. now apply wf_dget.
Qed.
Print Assumptions registry_contents.

Definition h_ops : list op :=
  [New; New; Add 1 (mkobj (5, 1) 0 false); Add 1 (mkobj (5, 2) 1 false); Add 0 (mkobj (5, 2) 2 false);
   Add 1 (mkobj (5, 1) 3 false); Merge 0 1; Add 0 (mkobj (5, 3) 4 false)].
Example registry_contents_ex :
  option_map (fun w => map (fun r => map okey (objects r)) (regs w)) (run h_ops)
    = Some [[(5, 2); (5, 1); (5, 3)]; [(5, 1); (5, 2)]]
  /\ registrations (rev h_ops) 0 = [(5, 2); (5, 1); (5, 2); (5, 1); (5, 3)].
Proof. split; reflexivity. Qed.

(** If registries are not changed after having been merged, a reference to any key
    registered in a registry is resolved, through the chain of merges, to the number of the
    object with this key in the registry written to the file. *)
Theorem references_resolve : forall ops w, run ops = Some w -> consistent ops -> disciplined [] ops ->
  forall top reg n r k, nth_error (regs w) top = Some reg -> merged reg = None ->
  leads w top n r -> In k (registrations (rev ops) r) ->
  exists i o, nth_error (objects reg) i = Some o /\ okey o = k /\
    nth_error (firsts (registrations (rev ops) top)) i = Some k /\
    getrefno (S n) w top r k = Some (Z.of_nat i + 1).
Proof.
  intros ops w H C P top reg n r k E M L I.
  pose proof (inv_run _ _ H) as V.
  assert (V2 : exists done, inv2 (rev ops) done w).
  { rewrite <- (app_nil_r (rev ops)). eapply inv2_steps; [| |exact P|exact H].
    - split; simpl; [intros [|?] ? X; discriminate X|reflexivity].
    - split; simpl; [intros [|?] ? X; discriminate X|intros [|?] ? ? X; discriminate X]. }
  destruct V2 as [done [_ J]].
  assert (G : forall n r, leads w top n r -> In k (registrations (rev ops) r) ->
            In k (registrations (rev ops) top) /\ getrefno (S n) w top r k = getrefno 1 w top top k).
  { clear n r L I. induction n as [|n IH]; intros r L I; inversion L; subst.
    - split; auto.
    - match goal with Hn : nth_error (regs w) r = Some ?g, Hm : merged ?g = Some ?r', Hl : leads w top n ?r' |- _ =>
        destruct (IH r' Hl (J _ _ _ Hn Hm _ I)) as [I1 G1]; split; [exact I1|];
        rewrite <- G1; change (getrefno (S (S n)) w top r k) with
          (match nth_error (regs w) r, nth_error (regs w) top with
           | Some reg0, Some regtop => match merged reg0 with
             | Some r0 => getrefno (S n) w top r0 k
             | None => match dget key_eqb k (types reg0) with
                       | Some o => refno_of (number_from 1 (objects regtop)) (oident o) | None => None end end
           | _, _ => None end); rewrite Hn, E, Hm; reflexivity end. }
  destruct (G n r L I) as [I1 G1]. clear G.
  destruct (inv_wf _ _ V _ _ E) as [W [F A]].
  assert (I2 : In k (map okey (objects reg))) by (rewrite F; now apply firsts_In).
  apply in_map_iff in I2. destruct I2 as [o [K Io]]. destruct (In_nth_error _ _ Io) as [i Hi].
  exists i, o. split; [auto|]. split; [auto|]. split.
  - rewrite <- F, <- K. now apply map_nth_error.
  - rewrite G1. simpl. rewrite E, M.
    assert (D : dget key_eqb k (types reg) = Some o) by (apply wf_dget; auto). rewrite D.
    rewrite (refno_nth _ 1 i o); auto.
    + f_equal. lia.
    + intros x y Hx Hy. apply (consistent_rev _ C); auto.
    + apply NoDup_of_keys, W.
Qed.
Print Assumptions references_resolve.

Example references_ex : exists w, run h_ops = Some w /\ leads w 0 1 1 /\
  map (getrefno 2 w 0 1) [(5, 1); (5, 2); (5, 3); (5, 4)] = [Some 2; Some 1; Some 3; None].
Proof.
  eexists. split; [reflexivity|]. split; [|reflexivity].
  eapply leads_step; [reflexivity|reflexivity|constructor].
Qed.
(** without the discipline a registered object is not found: an object added to the page's
    registry after the merge has no number *)
Theorem late_registration_refuted : exists ops w k,
  run ops = Some w /\ leads w 0 1 1 /\ In k (registrations (rev ops) 1) /\ getrefno 2 w 0 1 k = None.
Proof.
  exists [New; New; Merge 0 1; Add 1 (mkobj (5, 1) 0 false)]. eexists. exists (5, 1).
  split; [reflexivity|]. split; [eapply leads_step; [reflexivity|reflexivity|constructor]|].
  split; [simpl; auto|reflexivity].
Qed.
Print Assumptions late_registration_refuted.

(** Annotation and form lists: what is registered under one key, by objects which are not
    the same, is in the list of the one object kept, in order. *)
Lemma add_payload r h o r' h' k : wf r -> add r h o = Some (r', h') -> okey o = k ->
  (forall o', dget key_eqb k (types r) = Some o' -> omergeable o' = true) ->
  exists o1, dget key_eqb k (types r') = Some o1 /\
    h' (oident o1) = match dget key_eqb k (types r) with Some o0 => h (oident o0) | None => [] end ++ h (oident o) /\
    (forall i, i <> oident o1 -> h' i = h i) /\
    (dget key_eqb k (types r) = Some o1 \/ dget key_eqb k (types r) = None /\ o1 = o).
Proof.
  intros W A K M. unfold add in A. rewrite K in A. destruct (dget key_eqb k (types r)) as [o'|] eqn:D.
  - rewrite (M _ eq_refl) in A. destruct (Nat.eqb _ _ && _); [discriminate|]. inversion A; subst.
    exists o'. split; [auto|]. split; [unfold hset; now rewrite Nat.eqb_refl|]. split; [|auto].
    intros i N. unfold hset. destruct (Nat.eqb_spec i (oident o')); congruence.
  - inversion A; subst. exists o. simpl. rewrite (dget_dset_same key_eqb key_eqb_spec).
    split; [reflexivity|]. split; [reflexivity|]. split; [reflexivity|]. right. split; reflexivity.
Qed.
Lemma add_payload_other r h o r' h' k : wf r -> add r h o = Some (r', h') -> okey o <> k ->
  dget key_eqb k (types r') = dget key_eqb k (types r) /\
  (forall i, (forall o', dget key_eqb (okey o) (types r) = Some o' -> i <> oident o') -> h' i = h i).
Proof.
  intros W A K. unfold add in A. destruct (dget key_eqb (okey o) (types r)) as [o'|] eqn:D.
  - destruct (omergeable o'); [destruct (Nat.eqb _ _ && _); [discriminate|]|]; inversion A; subst; split; auto.
    intros i N. unfold hset. destruct (Nat.eqb_spec i (oident o')); auto. exfalso. eapply N; eauto.
  - inversion A; subst. simpl. rewrite (dget_dset_other key_eqb key_eqb_spec) by auto. auto.
Qed.
Theorem merged_lists : forall objs h r h' k,
  add_all new_registry h objs = Some (r, h') -> NoDup (map oident objs) ->
  (forall o, In o objs -> okey o = k -> omergeable o = true) -> In k (map okey objs) ->
  exists o, dget key_eqb k (types r) = Some o /\
    h' (oident o) = flat_map (fun o => if key_eqb (okey o) k then h (oident o) else []) objs.
Proof.
  intros objs h r h' k A N M I.
  assert (G : forall objs r0 h0 seen, wf r0 -> (forall o, In o (objects r0) -> In o seen) ->
    (forall o, In o seen -> okey o = k -> omergeable o = true) ->
    (forall o, In o objs -> okey o = k -> omergeable o = true) ->
    NoDup (map oident (seen ++ objs)) -> add_all r0 h0 objs = Some (r, h') ->
    match dget key_eqb k (types r) with
    | Some o => h' (oident o) = match dget key_eqb k (types r0) with Some o0 => h0 (oident o0) | None => [] end ++
                  flat_map (fun o => if key_eqb (okey o) k then h0 (oident o) else []) objs
    | None => ~ In k (map okey objs)
    end).
  { clear A N M I objs. induction objs as [|o objs IH]; intros r0 h0 seen W S MS MO ND A.
    - simpl in A. inversion A; subst. destruct (dget key_eqb k (types r)); simpl; [now rewrite app_nil_r|tauto].
    - simpl in A. destruct (add r0 h0 o) as [[r1 h1]|] eqn:A1; [|discriminate].
      destruct (add_spec _ _ _ _ _ W A1) as [W1 [_ [[l [L1 L2]] _]]].
      assert (ID : forall x y, In x (seen ++ o :: objs) -> In y (seen ++ o :: objs) -> oident x = oident y -> x = y).
      { clear -ND. induction (seen ++ o :: objs) as [|z zs IH]; [intros ? ? []|]. inversion ND; subst.
        intros x y [<-|Hx] [<-|Hy] E; auto.
        - exfalso. apply H1. rewrite E. now apply in_map.
        - exfalso. apply H1. rewrite <- E. now apply in_map. }
      assert (NK : NoDup (seen ++ o :: objs)) by (now apply NoDup_map_inv in ND).
      assert (SEEN : forall x, In x objs -> ~ In x seen /\ x <> o).
      { intros x Hx. clear -NK Hx. split.
        - intros Hs. induction seen; [destruct Hs|]. inversion NK; subst. destruct Hs as [<-|Hs]; auto.
          apply H1. apply in_or_app. right. now right.
        - intros ->. apply NoDup_remove_2 in NK. apply NK. apply in_or_app. now right. }
      specialize (IH r1 h1 (seen ++ [o]) W1).
      assert (IH' := fun a b c d => IH a b c d A). clear IH.
      rewrite <- app_assoc in IH'. simpl in IH'.
      assert (IH := IH' ltac:(intros x Hx; rewrite L1, in_app_iff in Hx; apply in_or_app; destruct Hx as [Hx|Hx];
                               [left; auto|right; apply L2; auto])
                       ltac:(intros x Hx; apply in_app_or in Hx; destruct Hx as [Hx|[<-|[]]]; [auto|apply MO; now left])
                       ltac:(intros x Hx; apply MO; now right) ND).
      clear IH'.
      assert (SAME : forall x, In x objs -> h1 (oident x) = h0 (oident x)).
      { intros x Hx. destruct (SEEN x Hx) as [N1 N2].
        assert (Q : forall o', dget key_eqb (okey o) (types r0) = Some o' -> oident x <> oident o').
        { intros o' D E. apply (proj1 (wf_dget r0 _ _ W)) in D. destruct D as [D _].
          apply N1. rewrite (ID x o'); auto; apply in_or_app; [right; now right|left; auto]. }
        unfold add in A1. destruct (dget key_eqb (okey o) (types r0)) as [o'|] eqn:D.
        - destruct (omergeable o'); [destruct (Nat.eqb _ _ && _); [discriminate|]|]; inversion A1; subst; auto.
          unfold hset. destruct (Nat.eqb_spec (oident x) (oident o')); auto. exfalso. eapply Q; eauto.
        - inversion A1; subst; auto. }
      assert (FM : forall f : obj -> bool, flat_map (fun x => if f x then h1 (oident x) else []) objs =
                   flat_map (fun x => if f x then h0 (oident x) else []) objs).
      { intros f. clear -SAME. induction objs as [|x xs IHx]; auto. simpl. rewrite IHx by (intros; apply SAME; now right).
        rewrite SAME by (now left). reflexivity. }
      simpl. destruct (key_eqb_spec (okey o) k) as [K|K].
      + destruct (add_payload _ _ _ _ _ k W A1 K) as [o1 [D1 [P1 [Q1 T1]]]].
        { intros o' D. apply (proj1 (wf_dget r0 _ _ W)) in D. destruct D. apply MS; auto. }
        rewrite D1, P1 in IH. rewrite <- app_assoc in IH. rewrite (FM (fun x => key_eqb (okey x) k)) in IH.
        destruct (dget key_eqb k (types r)) eqn:DR; [exact IH|].
        exfalso. clear -DR D1 A W1.
        destruct (add_all_spec _ _ _ _ _ W1 A) as [W2 [_ [[m [Om _]] _]]].
        apply (proj1 (wf_dget r1 _ _ W1)) in D1. destruct D1 as [D1 D2].
        apply (proj1 (wf_dget_None r _ W2)) in DR. apply DR. rewrite Om, map_app. apply in_or_app. left.
        rewrite <- D2. now apply in_map.
      + destruct (add_payload_other _ _ _ _ _ k W A1 K) as [D1 Q1]. rewrite D1 in IH.
        rewrite (FM (fun x => key_eqb (okey x) k)) in IH.
        destruct (dget key_eqb k (types r)) eqn:DR.
        * rewrite IH. f_equal. destruct (dget key_eqb k (types r0)) as [oz|] eqn:Dz; auto.
          apply Q1. intros o' D' E. apply (proj1 (wf_dget r0 _ _ W)) in D'. destruct D' as [D' E'].
          apply (proj1 (wf_dget r0 _ _ W)) in Dz. destruct Dz as [Dz Ez].
          assert (oz = o') by (apply ID; auto; apply in_or_app; left; auto). congruence.
        * simpl. tauto. }
  specialize (G objs new_registry h [] wf_new ltac:(intros ? []) ltac:(intros ? []) M N A).
  destruct (dget key_eqb k (types r)) as [o|]; [|contradiction].
  exists o. split; auto.
Qed.
Print Assumptions merged_lists.
Example merged_lists_ex : exists r h',
  add_all new_registry (fun i => nth i [[7]; [8; 9]; [10]] [])
    [mkobj (0, 0) 0 true; mkobj (1, 5) 1 true; mkobj (0, 0) 2 true] = Some (r, h')
  /\ map (fun o => (okey o, h' (oident o))) (objects r) = [((0, 0), [7; 10]); ((1, 5), [8; 9])].
Proof. eexists _, _. split; reflexivity. Qed.

(** ** C38: the cross-reference table *)

(** In a file of less than ten gigabytes: the number behind startxref is the position of
    the cross-reference table; the entry of object number i + 1 has 20 bytes and gives the
    position at which this object is written, with its number and its contents. *)
Theorem xref_table : forall header bodies root info,
  let f := write_file header bodies root info in
  Z.of_nat (length f) < 10 ^ 10 ->
  exists xrefpos before,
    f = before ++ T "startxref" ++ nl ++ str (Z.of_nat xrefpos) ++ nl ++ T "%%EOF" ++ nl /\
    let head := T "xref" ++ nl ++ T "0 " ++ str (Z.of_nat (S (length bodies))) ++ nl in
    slice f xrefpos (length head) = head /\
    slice f (xrefpos + length head) 20 = T "0000000000 65535 f " ++ nl /\
    slice f (xrefpos + length head + 20 * S (length bodies)) 7 = T "trailer" /\
    forall i body, nth_error bodies i = Some body ->
      exists pos digits,
        slice f (xrefpos + length head + 20 * S i) 20 = digits ++ T " 00000 n " ++ nl /\
        length digits = 10%nat /\ digits_value digits (Z.of_nat pos) /\
        let object := str (Z.of_nat (S i)) ++ T " 0 obj" ++ nl ++ body ++ T "endobj" ++ nl in
        slice f pos (length object) = object.
Proof.
  intros header bodies root info f Hf.
  set (out := header ++ concat (blocks 1 bodies)).
  set (poss := positions (length header) (blocks 1 bodies)).
  set (sz := str (Z.of_nat (S (length bodies)))).
  set (tail := T "startxref" ++ nl ++ str (Z.of_nat (length out)) ++ nl ++ T "%%EOF" ++ nl).
  set (mid := nl ++ T "<<" ++ nl ++ T "/Size " ++ sz ++ nl ++ T "/Root " ++ str root ++ T " 0 R" ++ nl ++
              T "/Info " ++ str info ++ T " 0 R" ++ nl ++ T ">>" ++ nl).
  set (head := T "xref" ++ nl ++ T "0 " ++ sz ++ nl).
  set (first := T "0000000000 65535 f " ++ nl).
  assert (Ef : f = out ++ head ++ first ++ concat (map entry poss) ++ T "trailer" ++ mid ++ tail).
  { unfold f, write_file. rewrite write_objects_spec.
    replace (Z.of_nat (length bodies) + 1) with (Z.of_nat (S (length bodies))) by lia.
    fold out. unfold head, first, mid, tail, sz, entry. rewrite <- !app_assoc. reflexivity. }
  assert (Bound : forall p, In p poss -> 0 <= p < 10 ^ 10).
  { intros p Hp. apply positions_bound in Hp. split; [lia|].
    eapply Z.le_lt_trans; [apply Hp|]. eapply Z.le_lt_trans; [|exact Hf].
    rewrite Ef. unfold out. rewrite !app_length. lia. }
  clearbody f. exists (length out), (out ++ head ++ first ++ concat (map entry poss) ++ T "trailer" ++ mid).
  split; [rewrite Ef; rewrite <- !app_assoc; reflexivity|]. cbv zeta. fold sz. fold head. fold first.
  split; [rewrite Ef; now apply slice_app|].
  split.
  { rewrite Ef. rewrite (app_assoc out head). apply slice_app; [now rewrite app_length|reflexivity]. }
  split.
  { rewrite Ef. rewrite (app_assoc out head), (app_assoc (out ++ head) first), (app_assoc _ (concat (map entry poss))).
    apply slice_app; [|reflexivity]. rewrite !app_length.
    rewrite (entries_length _ Bound). unfold poss. rewrite positions_length, blocks_length.
    change (length first) with 20%nat. lia. }
  intros i body Hi. destruct (blocks_nth bodies 1 i body Hi) as [l1 [l2 [E L]]].
  pose proof (positions_nth l1 (length header) (block (1 + Z.of_nat i) body) l2) as P. rewrite <- E, L in P. fold poss in P.
  destruct (nth_error_split _ _ P) as [p1 [p2 [Ep Lp]]].
  set (pos := (length header + length (concat l1))%nat) in *.
  assert (Bp : 0 <= Z.of_nat pos < 10 ^ 10) by (apply Bound, (nth_error_In _ _ P)).
  exists pos, (fmt010 (Z.of_nat pos)). split.
  { rewrite Ef, Ep, map_app, concat_app. cbn [map concat].
    rewrite <- !app_assoc.
    rewrite (app_assoc out head), (app_assoc (out ++ head) first), (app_assoc _ (concat (map entry p1))).
    change (fmt010 (Z.of_nat pos) ++ T " 00000 n " ++ nl) with (entry (Z.of_nat pos)).
    apply slice_app.
    - rewrite !app_length. rewrite entries_length.
      + change (length first) with 20%nat. lia.
      + intros p Hp. apply Bound. rewrite Ep. apply in_or_app. now left.
    - apply (entry_length (Z.of_nat pos) Bp). }
  split; [now apply fmt010_length|]. split; [apply fmt010_value; lia|].
  cbv zeta. replace (Z.of_nat (S i)) with (1 + Z.of_nat i) by lia. fold (block (1 + Z.of_nat i) body).
  rewrite Ef. unfold out. rewrite E, concat_app. cbn [concat]. rewrite <- !app_assoc.
  rewrite (app_assoc header). apply slice_app; [|reflexivity]. rewrite app_length. reflexivity.
Qed.
Print Assumptions xref_table.

Example xref_ex : write_file (T "%PDF-1.4" ++ nl) [T "<<>>" ++ nl; T "[ ]" ++ nl] 1 2 =
  T "%PDF-1.4" ++ nl ++ T "1 0 obj" ++ nl ++ T "<<>>" ++ nl ++ T "endobj" ++ nl ++
  T "2 0 obj" ++ nl ++ T "[ ]" ++ nl ++ T "endobj" ++ nl ++
  T "xref" ++ nl ++ T "0 3" ++ nl ++ T "0000000000 65535 f " ++ nl ++ T "0000000009 00000 n " ++ nl ++
  T "0000000029 00000 n " ++ nl ++ T "trailer" ++ nl ++ T "<<" ++ nl ++ T "/Size 3" ++ nl ++
  T "/Root 1 0 R" ++ nl ++ T "/Info 2 0 R" ++ nl ++ T ">>" ++ nl ++ T "startxref" ++ nl ++ T "48" ++ nl ++ T "%%EOF" ++ nl.
Proof. vm_compute. reflexivity. Qed.

(** ** C39: strings *)

(** A string of code points up to 255, written between parentheses, is read back as it is
    by the rules for literal strings, whatever follows. *)
Theorem pdfstring_reads_back_partial : forall s rest, Forall (fun c => 0 <= c <= 255) s ->
  literal 0 (pdfstring s ++ 41 :: rest) = Some (s, rest).
Proof.
  intros s rest H. induction H as [|c s Hc H IH]; [reflexivity|].
  unfold pdfstring in *. simpl flat_map. rewrite <- app_assoc, literal_pdfchar, IH by auto. reflexivity.
Qed.
Print Assumptions pdfstring_reads_back_partial.
Example pdfstring_ex : pdfstring [40; 97; 92; 10; 228; 93] = [92; 48; 53; 48; 97; 92; 49; 51; 52; 92; 48; 49; 50; 92; 51; 52; 52; 92; 49; 51; 53]
  /\ literal 0 (pdfstring [40; 97; 92; 10; 228; 93] ++ [41; 10]) = Some ([40; 97; 92; 10; 228; 93], [10]).
Proof. split; reflexivity. Qed.
(** The characters from 256 to 511 are read as the character 256 below, those from 512 to
    4095 as two characters. *)
Theorem pdfstring_wide_refuted : exists c d, c > 255 /\ literal 0 (pdfstring [c] ++ [41]) = Some ([0], []) /\
  d > 511 /\ literal 0 (pdfstring [d] ++ [41]) = Some ([64; 48], []).
Proof. exists 256, 512. repeat split; reflexivity. Qed.
Print Assumptions pdfstring_wide_refuted.

(** ** C40: annotations *)

(** A page's array contains the annotations of the page, in order; but it is the array of
    all annotations of the document. *)
Theorem page_annotations_partial : forall pages, exists w, document_world pages = Some w /\
  forall p annots, nth_error pages p = Some annots ->
    page_annots w p = concat pages /\ exists before behind, page_annots w p = before ++ annots ++ behind.
Proof.
  intros pages. destruct (document_annots pages) as [w [D A]]. exists w. split; auto.
  intros p annots H. split; auto. rewrite A. destruct (nth_error_split _ _ H) as [l1 [l2 [-> _]]].
  exists (concat l1), (concat l2). rewrite concat_app. reflexivity.
Qed.
Print Assumptions page_annotations_partial.
Theorem page_annotations_refuted : exists pages w annots,
  document_world pages = Some w /\ nth_error pages 0 = Some annots /\ page_annots w 0 <> annots.
Proof.
  exists [[7]; [8]]. destruct (document_annots [[7]; [8]]) as [w [D A]]. exists w, [7].
  split; auto. split; auto. rewrite A. discriminate.
Qed.
Print Assumptions page_annotations_refuted.
Example page_annotations_ex : option_map (fun w => map (page_annots w) [0; 1; 2]%nat) (document_world [[7; 8]; []; [9]])
  = Some [[7; 8; 9]; [7; 8; 9]; [7; 8; 9]].
Proof. reflexivity. Qed.

(** ** C41: PSregistry *)

Definition ps_wf (r : psregistry) : Prop :=
  resourceshash r = map (fun o => (okey o, o)) (resourceslist r) /\ NoDup (map okey (resourceslist r)).
Lemma ps_wf_iff r : ps_wf r <-> wf (mkreg (resourceshash r) (resourceslist r) None).
Proof. reflexivity. Qed.
Lemma ps_add_spec r h o : ps_wf r ->
  let '(r', h') := ps_add (r, h) o in
  ps_wf r' /\ (forall R, map okey (resourceslist r) = firsts R -> map okey (resourceslist r') = firsts (R ++ [okey o])).
Proof.
  intros W. unfold ps_add. destruct (dget key_eqb (okey o) (resourceshash r)) as [o'|] eqn:D.
  - split; auto. intros R E. rewrite firsts_snoc. destruct (in_dec key_dec (okey o) (firsts R)) as [|N]; auto.
    exfalso. apply N. rewrite <- E.
    apply (proj1 (wf_dget (mkreg (resourceshash r) (resourceslist r) None) _ _ W)) in D. simpl in D.
    destruct D as [D <-]. now apply in_map.
  - assert (A : add (mkreg (resourceshash r) (resourceslist r) None) h o =
        Some (mkreg (dset key_eqb (okey o) o (resourceshash r)) (resourceslist r ++ [o]) None, h))
      by (unfold add; simpl; now rewrite D).
    destruct (add_spec _ _ _ _ _ (proj1 (ps_wf_iff r) W) A) as [W' [_ [_ F]]]. split; [exact W'|exact F].
Qed.
(** the resources are written in the order of their first registration, each key once *)
Theorem ps_resources : forall objs h,
  map fst (ps_output (fold_left ps_add objs (mkpsreg [] [], h))) = firsts (map okey objs).
Proof.
  intros objs h.
  assert (G : forall objs R r h, ps_wf r -> map okey (resourceslist r) = firsts R ->
    map okey (resourceslist (fst (fold_left ps_add objs (r, h)))) = firsts (R ++ map okey objs)).
  { clear. induction objs as [|o objs IH]; intros R r h W E; [simpl; now rewrite app_nil_r|].
    cbn [fold_left]. pose proof (ps_add_spec r h o W) as S. destruct (ps_add (r, h) o) as [r' h']. destruct S as [W' F].
    rewrite (IH (R ++ [okey o])); auto. now rewrite <- app_assoc. }
  unfold ps_output. rewrite map_map. simpl. apply (G objs []); [apply wf_new|reflexivity].
Qed.
Print Assumptions ps_resources.
Example ps_resources_ex : ps_output (fold_left ps_add
   [mkobj (1, 2) 0 true; mkobj (1, 1) 1 false; mkobj (1, 2) 2 true; mkobj (1, 1) 3 false]
   (mkpsreg [] [], fun i => nth i [[65]; [1]; [66]; [2]] [])) = [((1, 2), [65; 66]); ((1, 1), [1])].
Proof. reflexivity. Qed.

(** a resource merged accumulates exactly what was registered under its key *)
Theorem ps_payload : forall objs h k x, NoDup (map oident objs) ->
  (forall o, In o objs -> okey o = k -> omergeable o = true) -> In k (map okey objs) ->
  exists payload, In (k, payload) (ps_output (fold_left ps_add objs (mkpsreg [] [], h))) /\
  (In x payload <-> exists o, In o objs /\ okey o = k /\ In x (h (oident o))).
Proof.
  intros objs h k x N M I.
  assert (G : forall objs r h0, NoDup (map oident objs) -> ps_wf r ->
     (forall o, In o (resourceslist r) -> ~ In (oident o) (map oident objs)) ->
     exists reg' h', add_all (mkreg (resourceshash r) (resourceslist r) None) h0 objs = Some (reg', h') /\
       fold_left ps_add objs (r, h0) = (mkpsreg (types reg') (objects reg'), h')).
  { clear. induction objs as [|o objs IH]; intros r h0 N W S.
    - eexists _, _. split; [reflexivity|]. destruct r; reflexivity.
    - inversion N as [|? ? N1 N2]; subst. cbn [add_all fold_left]. unfold add, ps_add. cbn [types objects merged].
      destruct (dget key_eqb (okey o) (resourceshash r)) as [o'|] eqn:D.
      + apply (proj1 (wf_dget (mkreg (resourceshash r) (resourceslist r) None) _ _ W)) in D. simpl in D. destruct D as [D1 D2].
        destruct (Nat.eqb_spec (oident o') (oident o)) as [E|E].
        * exfalso. apply (S o' D1). simpl. left. congruence.
        * cbn [andb]. assert (S' : forall o0, In o0 (resourceslist r) -> ~ In (oident o0) (map oident objs)).
          { intros y Hy Hn. apply (S y Hy). now right. }
          destruct (omergeable o'); apply IH; auto.
      + pose proof (ps_add_spec r h0 o W) as S1. unfold ps_add in S1. rewrite D in S1. destruct S1 as [W' _].
        apply (IH (mkpsreg (dset key_eqb (okey o) o (resourceshash r)) (resourceslist r ++ [o])) h0 N2 W').
        simpl. intros y Hy. apply in_app_or in Hy. destruct Hy as [Hy|[<-|[]]]; auto.
        intros Hn. apply (S y Hy). now right. }
  destruct (G objs (mkpsreg [] []) h N) as [reg' [h' [A F]]]; [apply wf_new|intros ? []|].
  destruct (merged_lists objs h reg' h' k A N M I) as [o [D P]].
  exists (h' (oident o)). rewrite F. unfold ps_output. simpl. split.
  - assert (W : wf reg') by apply (add_all_spec _ _ _ _ _ wf_new A).
    apply (proj1 (wf_dget reg' _ _ W)) in D. destruct D as [D1 D2]. apply in_map_iff. exists o. now rewrite D2.
  - rewrite P, in_flat_map. split.
    + intros [y [Hy Hx]]. exists y. destruct (key_eqb_spec (okey y) k); [auto|destruct Hx].
    + intros [y [Hy [K Hx]]]. exists y. split; auto. destruct (key_eqb_spec (okey y) k); [auto|congruence].
Qed.
Print Assumptions ps_payload.
