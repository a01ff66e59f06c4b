(** The locators for ls-R files and directories, and lists in the configuration. *)
From Coq Require Import Ascii String List Arith Bool Lia.
From Verif Require Import ConfigModel ConfigSpec ConfigProps.
Import ListNotations.
Open Scope string_scope.

(** ** ls-R files *)
Lemma rstrip_nl s : rstrip (s ++ nl) = rstrip s.
Proof. induction s as [|c s IH]; [reflexivity|]. cbn [append rstrip]. now rewrite IH. Qed.
Lemma rstrip_end s c : is_space c = false -> rstrip (s ++ String c "") = s ++ String c "".
Proof.
  intros H. induction s as [|x s IH]; [simpl; now rewrite H|]. cbn [append rstrip]. rewrite IH. destruct s; reflexivity.
Qed.
Lemma dir_line d : rstrip (d ++ ":" ++ nl) = d ++ ":" /\ but_last (d ++ ":") = d /\ ends_with (d ++ ":") ":" = true.
Proof.
  split; [|split].
  - rewrite <- app_assoc_s, rstrip_nl. now apply rstrip_end.
  - unfold but_last. rewrite length_app. simpl. rewrite Nat.add_sub. induction d as [|x d IH]; [reflexivity|]. simpl. now rewrite IH.
  - apply ends_iff. eauto.
Qed.
Lemma prefix_percent s : is_prefix "%" s = true <-> exists r, s = "%" ++ r.
Proof.
  unfold is_prefix. destruct s as [|c s]; [simpl; split; [discriminate|intros [r H]; discriminate]|]. cbn [prefix].
  destruct (ascii_dec "%" c) as [<-|N]; [split; [intros _; exists s; reflexivity|intros _; destruct s; auto]|]. split; [discriminate|]. intros [r H]. injection H as H _. congruence.
Qed.
Lemma lookup_app d1 d2 n : lookup (d1 ++ d2)%list n = match lookup d1 n with Some p => Some p | None => lookup d2 n end.
Proof. induction d1 as [|[k v] d1 IH]; simpl; auto. destruct (String.eqb n k); auto. Qed.
Lemma lookup_first l n p : lookup l n = Some p <-> first_entry l n p.
Proof.
  induction l as [|[k v] l IH]; simpl.
  - split; [discriminate|]. intros (l1 & l2 & E & _). destruct l1; discriminate.
  - destruct (String.eqb_spec n k) as [<-|N].
    + split.
      * intros [= ->]. exists [], l. split; auto.
      * intros ([|[k' v'] l1] & l2 & E & H); [simpl in E; congruence|]. simpl in E. injection E as <- <- E. exfalso. apply (H v). simpl. auto.
    + rewrite IH. split.
      * intros (l1 & l2 & -> & H). exists ((k, v) :: l1), l2. split; auto. intros p' [E|I]; [congruence|]. apply (H p' I).
      * intros ([|[k' v'] l1] & l2 & E & H); [simpl in E; injection E as -> _ _; congruence|]. simpl in E. injection E as <- <- E.
        exists l1, l2. split; auto. intros p' I. apply (H p'). simpl. auto.
Qed.
Lemma lookup_none l n : lookup l n = None <-> forall p, ~ In (n, p) l.
Proof.
  induction l as [|[k v] l IH]; simpl; [split; [intros _ p []|auto]|]. destruct (String.eqb_spec n k) as [<-|N].
  - split; [discriminate|]. intros H. exfalso. apply (H v). auto.
  - rewrite IH. split; intros H p; [intros [E|I]; [congruence|apply (H p I)]|]. intros I. apply (H p). auto.
Qed.

Lemma read_comments b cs : forall rest dir cache, read_lines b (map (fun c => "%" ++ c ++ nl)%string cs ++ rest)%list true dir cache = read_lines b rest true dir cache.
Proof.
  induction cs as [|c cs IH]; intros rest dir cache; auto. cbn [map app read_lines].
  assert (P : is_prefix "%" (rstrip ("%" ++ c ++ nl)) = true).
  { change ("%" ++ c ++ nl) with (("%" ++ c) ++ nl). rewrite rstrip_nl. cbn [append rstrip]. destruct (rstrip c); reflexivity. }
  rewrite P. cbn [andb]. apply IH.
Qed.
Lemma read_names b d names : Forall proper_name names -> forall rest cache,
  exists cache', read_lines b (map (fun n => n ++ nl)%string names ++ rest)%list false (Some d) cache = read_lines b rest false (Some d) cache' /\
    forall n, lookup cache' n = lookup (cache ++ map (fun n => (n, path_join d n)) names)%list n.
Proof.
  induction names as [|n names IH]; intros F rest cache.
  - exists cache. split; auto. intros m. simpl. now rewrite app_nil_r.
  - inversion F as [|? ? (N1 & N2 & N3) F2]; subst. cbn [map app read_lines]. rewrite rstrip_nl, N2. cbn [andb].
    assert (E : ends_with n ":" = false) by (destruct (ends_with n ":") eqn:X; auto; apply ends_iff in X as [p X]; exfalso; apply (N3 p X)).
    rewrite E. assert (E' : negb (String.eqb n "") = true) by (destruct (String.eqb_spec n ""); auto). rewrite E'. cbn [andb].
    destruct (lookup cache n) as [p|] eqn:L.
    + destruct (IH F2 rest cache) as (cache' & R1 & R2). exists cache'. split; auto. intros m. rewrite R2, !lookup_app. destruct (lookup cache m) eqn:Lm; auto.
      cbn [map lookup]. destruct (String.eqb_spec m n); auto. congruence.
    + destruct (IH F2 rest (cache ++ [(n, path_join d n)])%list) as (cache' & R1 & R2). exists cache'. split; auto. intros m. rewrite R2. now rewrite <- app_assoc.
Qed.
Lemma read_blocks b bs : Forall (fun '(d, names) => proper_dir d /\ Forall proper_name names) bs -> forall first dir cache,
  exists dir' cache', read_lines b (flat_map block_lines bs) first dir cache = Some (dir', cache') /\
    forall n, lookup cache' n = lookup (cache ++ flat_map (fun '(d, names) => map (fun n => (n, path_join (path_join b d) n)) names) bs)%list n.
Proof.
  induction bs as [|[d names] bs IH]; intros F first dir cache.
  - exists dir, cache. split; auto. intros n. simpl. now rewrite app_nil_r.
  - inversion F as [|? ? F0 F2]; subst. cbv beta iota in F0. destruct F0 as [P F1]. cbn [flat_map]. unfold block_lines at 1. cbn [fst snd]. rewrite <- app_comm_cons, <- app_assoc. cbn [read_lines].
    destruct (dir_line d) as (D1 & D2 & D3). rewrite D1, D2, D3.
    assert (Q : is_prefix "%" (d ++ ":") = false).
    { destruct (is_prefix "%" (d ++ ":")) eqn:X; auto. apply prefix_percent in X as [r X]. exfalso. destruct d as [|c d]; [discriminate|].
      injection X as -> X. apply (P d). reflexivity. }
    rewrite Q, andb_false_r.
    destruct (read_names b (path_join b d) names F1 ([nl] ++ flat_map block_lines bs)%list cache) as (c1 & R1 & R2). rewrite R1.
    change ([nl] ++ flat_map block_lines bs)%list with (nl :: flat_map block_lines bs). cbn [read_lines]. change (rstrip nl) with "".
    cbn [andb is_prefix prefix]. change (ends_with "" ":") with false. change (negb ("" =? "")) with false. cbn [andb].
    destruct (IH F2 false (Some (path_join b d)) c1) as (dir' & cache' & X1 & X2). exists dir', cache'. split; auto.
    intros n. rewrite X2, lookup_app, R2, !lookup_app. destruct (lookup cache n); auto.
Qed.
Lemma read_all ls : Forall proper ls -> forall dir cache, exists cache', read_lsr (map (fun l => (base l, listing_lines l)) ls) dir cache = Some cache' /\
  forall n, lookup cache' n = lookup (cache ++ flat_map listed ls)%list n.
Proof.
  induction ls as [|l ls IH]; intros F dir cache.
  - exists cache. split; auto. intros n. simpl. now rewrite app_nil_r.
  - inversion F as [|? ? P F2]; subst. cbn [map read_lsr]. unfold listing_lines at 1. rewrite read_comments.
    destruct (read_blocks (base l) (blocks l) P true dir cache) as (dir' & c1 & R1 & R2). rewrite R1.
    destruct (IH F2 dir' c1) as (cache' & X1 & X2). exists cache'. split; auto. intros n. rewrite X2, lookup_app, R2. cbn [flat_map]. unfold listed at 2.
    rewrite !lookup_app. destruct (lookup cache n); auto.
Qed.
Lemma first_cached_spec cache names : match first_cached cache names with
  | Some p => exists ns1 n ns2, names = (ns1 ++ n :: ns2)%list /\ lookup cache n = Some p /\ forall m, In m ns1 -> lookup cache m = None
  | None => forall m, In m names -> lookup cache m = None
  end.
Proof.
  induction names as [|n names IH]; simpl; [intros _ []|]. destruct (lookup cache n) as [p|] eqn:E.
  - exists [], n, names. split; auto. split; auto. intros _ [].
  - destruct (first_cached cache names).
    + destruct IH as (ns1 & m & ns2 & -> & H1 & H2). exists (n :: ns1), m, ns2. split; auto. split; auto. intros x [<-|I]; auto.
    + intros x [<-|I]; auto.
Qed.
(** C150: with any ls-R files, made of comments and directories with their names, the file
    opened is the one with the first of the names to be tried which is listed at all, where
    it is listed first; nothing is found if none of them is listed. *)
Theorem lsr_finds : forall ls filename formats, Forall proper ls ->
  exists r cache, lsr_openers (map (fun l => (base l, listing_lines l)) ls) [] filename formats = Some (r, cache) /\
    match r with
    | Some p => exists ns1 n ns2, full_filenames filename formats = (ns1 ++ n :: ns2)%list /\ first_entry (flat_map listed ls) n p /\
        forall m q, In m ns1 -> ~ In (m, q) (flat_map listed ls)
    | None => forall m q, In m (full_filenames filename formats) -> ~ In (m, q) (flat_map listed ls)
    end /\
    (** and it is found again from the cache *)
    (cache <> [] -> forall others, lsr_openers others cache filename formats = Some (r, cache)).
Proof.
  intros ls filename formats F. destruct (read_all ls F None []) as (cache & R1 & R2). unfold lsr_openers at 1. rewrite R1.
  exists (first_cached cache (full_filenames filename formats)), cache. split; auto. split.
  - pose proof (first_cached_spec cache (full_filenames filename formats)) as S. destruct (first_cached cache (full_filenames filename formats)) as [p|].
    + destruct S as (ns1 & n & ns2 & S1 & S2 & S3). exists ns1, n, ns2. split; auto. rewrite R2 in S2. split; [now apply lookup_first|].
      intros m q M. specialize (S3 m M). rewrite R2 in S3. apply lookup_none with (p := q) in S3. auto.
    + intros m q M. specialize (S m M). rewrite R2 in S. apply lookup_none with (p := q) in S. auto.
  - intros N others. unfold lsr_openers. destruct cache; [congruence|reflexivity].
Qed.
Print Assumptions lsr_finds.
Definition texmf : listing := mklisting "/texmf" [" ls-R -- maintained by mktexlsr"]
  [("./fonts/tfm", ["cmr10.tfm"; "cmr12.tfm"]); ("./fonts/type1", ["cmr10.pfb"; "%x"]); ("./old", ["cmr10.tfm"; "cmr10.pfa"])].
Example lsr_finds_ex : fst (match lsr_openers [(base texmf, listing_lines texmf)] [] "cmr10" [tfm] with Some x => x | None => (None, []) end) = Some "/texmf/./fonts/tfm/cmr10.tfm" /\
  fst (match lsr_openers [(base texmf, listing_lines texmf)] [] "cmr10" [type1] with Some x => x | None => (None, []) end) = Some "/texmf/./old/cmr10.pfa" /\
  proper texmf.
Proof.
  split; [reflexivity|]. split; [reflexivity|].
  repeat match goal with
  | |- proper _ => unfold proper; cbn [blocks texmf]
  | |- Forall _ _ => constructor
  | |- _ /\ _ => split
  end; try discriminate; try reflexivity.
  all: unfold proper_name, proper_dir; try (intros r H; discriminate).
  all: split; [discriminate|split; [reflexivity|]]; intros p H; assert (X : ends_with (p ++ ":") ":" = true) by (apply ends_iff; eauto); rewrite <- H in X; discriminate.
Qed.
(** C150: a name before the first directory is an error *)
Theorem lsr_no_directory_refuted : forall b n rest, proper_name n -> (forall r, n <> "%" ++ r) ->
  lsr_openers [(b, (n ++ nl) :: rest)] [] n [dvips_config] = None.
Proof.
  intros b n rest (N1 & N2 & N3) N4. unfold lsr_openers. cbn [read_lsr read_lines]. rewrite rstrip_nl, N2.
  assert (E : ends_with n ":" = false) by (destruct (ends_with n ":") eqn:X; auto; apply ends_iff in X as [p X]; exfalso; apply (N3 p X)).
  assert (E' : is_prefix "%" n = false) by (destruct (is_prefix "%" n) eqn:X; auto; apply prefix_percent in X as [p X]; exfalso; apply (N4 p X)).
  rewrite E, E'. cbn [andb lookup]. destruct (String.eqb_spec n ""); [congruence|]. reflexivity.
Qed.
Print Assumptions lsr_no_directory_refuted.
Example lsr_no_directory_ex : lsr_openers [("/texmf", ["a.tfm" ++ nl; "./tfm:" ++ nl])] [] "a.tfm" [dvips_config] = None.
Proof. reflexivity. Qed.

(** ** searching directories *)
Lemma dsize_cons path e es : dsize (Directory path (e :: es)) =
  (match snd e with None => 0 | Some d => dsize d end + dsize (Directory path es))%nat.
Proof. destruct e as [n [d|]]; simpl; lia. Qed.
Lemma dfiles_cons path e es : dfiles (Directory path (e :: es)) =
  (match snd e with None => [(fst e, path_join path (fst e))] | Some d => dfiles d end ++ dfiles (Directory path es))%list.
Proof. destruct e as [n [d|]]; reflexivity. Qed.
Lemma scan_spec path names es : forall dirs cache found dirs' cache' found', scan path es names dirs cache found = (dirs', cache', found') ->
  (S (dsizes dirs') = dsizes dirs + dsize (Directory path es))%nat /\
  (forall n p, In (n, p) (all_files dirs') -> In (n, p) (all_files dirs) \/ In (n, p) (dfiles (Directory path es))) /\
  (forall n p, In (n, p) (all_files dirs) -> In (n, p) (all_files dirs')) /\
  (forall n p, In (n, p) (dfiles (Directory path es)) -> In (n, p) (all_files dirs') \/ exists q, lookup cache' n = Some q) /\
  (forall n p, lookup cache n = Some p -> exists q, lookup cache' n = Some q) /\
  (forall n p, lookup cache' n = Some p -> lookup cache n = Some p \/ In (n, p) (dfiles (Directory path es))) /\
  (found' = None -> found = None /\ forall n p, lookup cache' n = Some p -> In n names -> lookup cache n = Some p) /\
  (forall n, found' = Some n -> found = Some n \/ (In n names /\ exists p, lookup cache' n = Some p)).
Proof.
  induction es as [|[n [d|]] es IH]; intros dirs cache found dirs' cache' found' H.
  - cbn in H. injection H as <- <- <-. split; [simpl; lia|]. split; [auto|]. split; [auto|]. split; [intros n p []|]. split; [eauto|]. split; [auto|]. split; auto.
  - cbn [scan] in H. destruct (IH _ _ _ _ _ _ H) as (I1 & I2 & I3 & I4 & I5 & I6 & I7 & I8). clear IH H. rewrite dsize_cons, dfiles_cons. cbn [fst snd].
    split; [cbn [dsizes fold_right] in I1; unfold dsizes in *; lia|].
    split; [intros m p H; apply I2 in H; cbn [all_files flat_map] in H; rewrite in_app_iff in H |- *; unfold all_files; tauto|].
    split; [intros m p H; apply I3; cbn [all_files flat_map]; apply in_or_app; auto|].
    split; [intros m p H; apply in_app_or in H as [H|H]; [left; apply I3; cbn [all_files flat_map]; apply in_or_app; auto|apply (I4 m p H)]|].
    split; [auto|]. split; [intros m p H; apply I6 in H; rewrite in_app_iff; tauto|]. auto.
  - cbn [scan] in H. destruct (IH _ _ _ _ _ _ H) as (I1 & I2 & I3 & I4 & I5 & I6 & I7 & I8). clear IH H. rewrite dsize_cons, dfiles_cons. cbn [fst snd].
    assert (La : forall m, lookup (assign cache n (path_join path n)) m = if String.eqb m n then Some (path_join path n) else lookup cache m) by reflexivity.
    split; [lia|]. split; [intros m p H; apply I2 in H; rewrite in_app_iff; tauto|]. split; [auto|].
    split; [intros m p H; apply in_app_or in H as [[H|[]]|H]; [|apply (I4 m p H)]; injection H as <- <-; right; apply (I5 n (path_join path n)); rewrite La, String.eqb_refl; auto|].
    split; [intros m p H; destruct (String.eqb_spec m n) as [->|N]; [apply (I5 n (path_join path n)); rewrite La, String.eqb_refl; auto|
      apply (I5 m p); rewrite La; destruct (String.eqb_spec m n); congruence]|].
    split.
    { intros m p H. apply I6 in H. rewrite La in H. rewrite in_app_iff. destruct (String.eqb_spec m n) as [->|N]; [|tauto]. destruct H as [H|H]; [|auto].
      injection H as <-. right. left. simpl. auto. }
    assert (Mm : mem n names = true <-> In n names).
    { unfold mem. rewrite existsb_exists. split; [intros (x & X1 & X2); apply String.eqb_eq in X2; congruence|intros X; exists n; split; auto; apply String.eqb_refl]. }
    split.
    + intros E. destruct (I7 E) as [E1 E2]. destruct (mem n names) eqn:M; [discriminate|]. split; auto. intros m p L I.
      specialize (E2 m p L I). rewrite La in E2. destruct (String.eqb_spec m n) as [->|N]; auto. apply Mm in I. discriminate.
    + intros m E. destruct (I8 m E) as [X|X]; auto. destruct (mem n names) eqn:M; auto. injection X as <-. right. split; [now apply Mm|].
      apply (I5 n (path_join path n)). rewrite La, String.eqb_refl. auto.
Qed.
Definition inv (start dirs : list directory) (cache : dict) : Prop :=
  (forall n p, lookup cache n = Some p -> In (n, p) (all_files start)) /\
  (forall n p, In (n, p) (all_files start) -> (exists q, lookup cache n = Some q) \/ In (n, p) (all_files dirs)) /\
  (forall n p, In (n, p) (all_files dirs) -> In (n, p) (all_files start)).
Lemma inv_scan start path es dirs cache names dirs' cache' found : inv start (Directory path es :: dirs) cache ->
  scan path es names dirs cache None = (dirs', cache', found) -> inv start dirs' cache'.
Proof.
  intros (J1 & J2 & J3) H. destruct (scan_spec _ _ _ _ _ _ _ _ _ H) as (I1 & I2 & I3 & I4 & I5 & I6 & I7 & I8).
  split; [|split].
  - intros n p L. apply I6 in L as [L|L]; auto. apply J3. cbn [all_files flat_map]. apply in_or_app. auto.
  - intros n p A. destruct (J2 n p A) as [[q L]|B]; [left; eauto|]. cbn [all_files flat_map] in B. apply in_app_or in B as [B|B].
    + destruct (I4 n p B); auto.
    + right. apply I3. exact B.
  - intros n p A. apply J3. cbn [all_files flat_map]. apply in_or_app. apply I2 in A as [A|A]; auto.
Qed.
Lemma search_spec start names fuel : forall dirs cache r dirs' cache', (dsizes dirs <= fuel)%nat -> inv start dirs cache ->
  (forall n, In n names -> lookup cache n = None) -> search fuel names dirs cache = (r, dirs', cache') ->
  inv start dirs' cache' /\
  match r with
  | Some n => In n names /\ exists p, lookup cache' n = Some p
  | None => dirs' = [] /\ forall n, In n names -> lookup cache' n = None
  end.
Proof.
  induction fuel as [|fuel IH]; intros dirs cache r dirs' cache' Hf J N H.
  - destruct dirs as [|[path es] dirs]; [|simpl in Hf; lia]. cbn in H. injection H as <- <- <-. auto.
  - destruct dirs as [|[path es] dirs]; [cbn in H; injection H as <- <- <-; auto|]. cbn [search] in H.
    destruct (scan path es names dirs cache None) as [[d2 c2] found] eqn:Sc.
    pose proof (inv_scan start path es dirs cache names d2 c2 found J Sc) as J'.
    destruct (scan_spec _ _ _ _ _ _ _ _ _ Sc) as (I1 & I2 & I3 & I4 & I5 & I6 & I7 & I8).
    destruct found as [n|].
    + injection H as <- <- <-. split; auto. destruct (I8 n eq_refl) as [X|X]; [discriminate|auto].
    + apply (IH d2 c2); auto.
      * change (dsizes (Directory path es :: dirs)) with (dsize (Directory path es) + dsizes dirs)%nat in Hf. lia.
      * intros n I. destruct (lookup c2 n) as [p|] eqn:L; auto. destruct (I7 eq_refl) as [_ X]. specialize (X n p L I). rewrite (N n I) in X. discriminate.
Qed.
Lemma reached_inv start dirs cache : reached start dirs cache -> inv start dirs cache.
Proof.
  induction 1 as [|dirs cache filename formats r dirs' cache' H IH E].
  - split; [discriminate|]. split; auto.
  - unfold rec_openers in E. destruct (cached_name cache (full_filenames filename formats)) as [n|] eqn:C; [injection E as <- <- <-; auto|].
    apply (search_spec start (full_filenames filename formats) _ _ _ _ _ _ (le_n _) IH) in E; [tauto|].
    intros n I. destruct (lookup cache n) eqn:L; auto. unfold cached_name in C. apply find_none with (x := n) in C; auto. rewrite L in C. discriminate.
Qed.
(** C150: the locator for directories finds a file exactly if one of the names to be tried is
    that of a file anywhere in the directories or below, whatever was searched for before, and
    it opens a file with this name. *)
Theorem recursivedir_finds : forall start dirs cache filename formats r dirs' cache', reached start dirs cache ->
  rec_openers dirs cache filename formats = (r, dirs', cache') ->
  match r with
  | Some n => In n (full_filenames filename formats) /\ exists p, lookup cache' n = Some p /\ In (n, p) (all_files start)
  | None => forall n p, In n (full_filenames filename formats) -> ~ In (n, p) (all_files start)
  end.
Proof.
  intros start dirs cache filename formats r dirs' cache' H E. apply reached_inv in H. unfold rec_openers in E.
  destruct (cached_name cache (full_filenames filename formats)) as [n|] eqn:C.
  - injection E as <- <- <-. unfold cached_name in C. apply find_some in C as [C1 C2]. split; auto. destruct (lookup cache n) as [p|] eqn:L; [|discriminate].
    exists p. split; auto. apply (proj1 H). exact L.
  - apply (search_spec start (full_filenames filename formats) _ _ _ _ _ _ (le_n _) H) in E.
    + destruct E as [(J1 & J2 & J3) E]. destruct r as [n|].
      * destruct E as [E1 [p E2]]. split; auto. exists p. split; auto.
      * destruct E as [-> E]. intros n p I A. destruct (J2 n p A) as [[q L]|[]]. rewrite (E n I) in L. discriminate.
    + intros n I. destruct (lookup cache n) eqn:L; auto. unfold cached_name in C. apply find_none with (x := n) in C; auto. rewrite L in C. discriminate.
Qed.
Print Assumptions recursivedir_finds.
Definition fonts : directory := Directory "fonts" [("readme", None); ("tfm", Some (Directory "fonts/tfm" [("a.tfm", None); ("b.tfm", None)]));
  ("old", Some (Directory "fonts/old" [("c.tfm", None)]))].
Example recursivedir_ex : (let '(r, _, cache) := rec_openers [fonts] [] "b" [tfm] in (r, lookup cache "b.tfm")) = (Some "b.tfm", Some "fonts/tfm/b.tfm") /\
  (let '(r, dirs, cache) := rec_openers [fonts] [] "c" [tfm] in (r, lookup cache "c.tfm", lookup cache "b.tfm", length dirs)) =
    (Some "c.tfm", Some "fonts/old/c.tfm", None, 1%nat) /\
  (let '(r, dirs, _) := rec_openers [fonts] [] "d" [tfm] in (r, dirs)) = (None, []).
Proof. repeat split. Qed.
(** C150: of several names in one directory the last one of the listing is taken, not the first
    one to be tried. *)
Theorem recursivedir_order_refuted : exists d, full_filenames "fig" [pict] = ["fig.eps"; "fig.epsi"] /\
  In ("fig.eps", "d/fig.eps") (dfiles d) /\ fst (fst (rec_openers [d] [] "fig" [pict])) = Some "fig.epsi".
Proof. exists (Directory "d" [("fig.eps", None); ("fig.epsi", None)]). split; [reflexivity|]. split; [simpl; auto|reflexivity]. Qed.
Print Assumptions recursivedir_order_refuted.
(** C150: an opener looks up the path when it is called: after the search for another file it
    opens a file with the same name in another directory. *)
Theorem recursivedir_moves_refuted : exists ds dirs cache dirs' cache',
  rec_openers ds [] "a" [tfm] = (Some "a.tfm", dirs, cache) /\ lookup cache "a.tfm" = Some "one/a.tfm" /\
  rec_openers dirs cache "b" [tfm] = (Some "b.tfm", dirs', cache') /\ lookup cache' "a.tfm" = Some "two/a.tfm".
Proof.
  exists [Directory "one" [("a.tfm", None)]; Directory "two" [("a.tfm", None); ("b.tfm", None)]].
  do 4 eexists. split; [reflexivity|]. split; [reflexivity|]. split; [reflexivity|]. reflexivity.
Qed.
Print Assumptions recursivedir_moves_refuted.
