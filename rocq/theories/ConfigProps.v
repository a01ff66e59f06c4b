(** Names of files, the local locator and the opening of files. *)
From Coq Require Import Ascii String List Arith Bool Lia.
From Verif Require Import ConfigModel ConfigSpec.
Import ListNotations.
Open Scope string_scope.

Lemma app_assoc_s (a b c : string) : (a ++ b) ++ c = a ++ b ++ c.
Proof. induction a as [|x a IH]; simpl; [auto|now rewrite IH]. Qed.
Lemma length_app (a b : string) : String.length (a ++ b) = (String.length a + String.length b)%nat.
Proof. induction a as [|x a IH]; simpl; auto. Qed.
Lemma app_nil_s (a : string) : a ++ "" = a.
Proof. induction a as [|x a IH]; simpl; [auto|now rewrite IH]. Qed.
Lemma substring_end (a b : string) : substring (String.length a) (String.length b) (a ++ b) = b.
Proof.
  induction a as [|x a IH]; simpl; auto. induction b as [|y b IHb]; simpl; [auto|now rewrite IHb].
Qed.
Lemma substring_split n : forall s, (n <= String.length s)%nat -> s = substring 0 n s ++ substring n (String.length s - n) s.
Proof.
  induction n as [|n IH]; intros s H.
  - simpl. rewrite Nat.sub_0_r. destruct s; simpl; auto. f_equal. clear. induction s as [|y s IH]; simpl; [auto|now rewrite <- IH].
  - destruct s as [|x s]; [simpl in H; lia|]. simpl in *. f_equal. apply IH. lia.
Qed.
Lemma ends_iff s e : ends_with s e = true <-> exists p, s = p ++ e.
Proof.
  unfold ends_with. rewrite andb_true_iff, Nat.leb_le, String.eqb_eq. split.
  - intros [L E]. exists (substring 0 (String.length s - String.length e) s).
    pose proof (substring_split (String.length s - String.length e) s ltac:(lia)) as H.
    replace (String.length s - (String.length s - String.length e))%nat with (String.length e) in H by lia. rewrite E in H. exact H.
  - intros [p ->]. rewrite length_app. split; [lia|]. replace (String.length p + String.length e - String.length e)%nat with (String.length p) by lia.
    apply substring_end.
Qed.
Lemma has_iff filename formats : existsb (fun f => existsb (ends_with filename) (extensions f)) formats = true <-> has_extension filename formats.
Proof.
  rewrite existsb_exists. split.
  - intros (f & F & E). apply existsb_exists in E as (e & I & E). apply ends_iff in E as [p E]. exists f, e, p. auto.
  - intros (f & e & p & F & I & E). exists f. split; auto. apply existsb_exists. exists e. split; auto. apply ends_iff. eauto.
Qed.
Lemma has_not filename formats : ~ has_extension filename formats -> existsb (fun f => existsb (ends_with filename) (extensions f)) formats = false.
Proof. intros H. destruct (existsb _ formats) eqn:E; auto. apply has_iff in E. tauto. Qed.

(** C149: a name which ends with an extension of one of the formats is taken as it is;
    otherwise the names are those with the extensions, format by format, and the name itself
    for formats without extension. *)
Theorem names_tried : forall filename formats,
  (has_extension filename formats -> full_filenames filename formats = [filename]) /\
  (~ has_extension filename formats ->
     (forall f1 f2, (formats = f1 ++ f2 -> full_filenames filename formats = full_filenames filename f1 ++ full_filenames filename f2)%list) /\
     (forall f, formats = [f] -> extensions f = [] -> full_filenames filename formats = [filename]) /\
     (forall f e es, formats = [f] -> extensions f = e :: es -> full_filenames filename formats = map (fun e => filename ++ e) (e :: es)) /\
     (forall n, In n (full_filenames filename formats) <->
        exists f, In f formats /\ ((extensions f = [] /\ n = filename) \/ exists e, In e (extensions f) /\ n = filename ++ e))).
Proof.
  intros filename formats. unfold full_filenames. split; [intros H; apply has_iff in H; now rewrite H|].
  intros H. rewrite (has_not _ _ H). split; [|split; [|split]].
  - intros f1 f2 ->. assert (H1 : ~ has_extension filename f1) by (intros (f & e & p & I & J); apply H; exists f, e, p; rewrite in_app_iff; tauto).
    assert (H2 : ~ has_extension filename f2) by (intros (f & e & p & I & J); apply H; exists f, e, p; rewrite in_app_iff; tauto).
    rewrite (has_not _ _ H1), (has_not _ _ H2). apply flat_map_app.
  - intros f -> E. simpl. now rewrite E.
  - intros f e es -> E. simpl. rewrite E. apply app_nil_r.
  - intros n. rewrite in_flat_map. split; intros (f & F & I); exists f; split; auto.
    + destruct (extensions f) as [|e es] eqn:E; [left; destruct I as [<-|[]]; auto|]. right. apply in_map_iff in I as (x & <- & I). eauto.
    + destruct I as [[-> ->]|(e & I & ->)]; [simpl; auto|]. destruct (extensions f) as [|e0 es]; [destruct I|]. apply in_map_iff. eauto.
Qed.
Print Assumptions names_tried.
Example names_ex : full_filenames "cmr10" [type1] = ["cmr10.pfa"; "cmr10.pfb"] /\ full_filenames "psfonts" [fontmap; dvips_config] = ["psfonts.map"; "psfonts"] /\
  full_filenames "psfonts.map" [fontmap; dvips_config] = ["psfonts.map"] /\ full_filenames "cmr10.afm" [type1] = ["cmr10.afm.pfa"; "cmr10.afm.pfb"].
Proof. repeat split. Qed.

(** C149: each name ends with the empty extension of the PostScript headers, so the other
    extension .pro, and those of all other formats, are never tried. *)
Theorem header_extension_refuted : forall filename formats, In tex_ps_header formats -> full_filenames filename formats = [filename].
Proof.
  intros filename formats I. apply names_tried. exists tex_ps_header, "", filename. split; auto. split; [simpl; auto|now rewrite app_nil_s].
Qed.
Print Assumptions header_extension_refuted.
Example header_extension_ex : full_filenames "texc" [tex_ps_header] = ["texc"].
Proof. reflexivity. Qed.

(** ** the local locator *)
(** C149: with a single name to be tried the local locator opens the file with this name *)
Theorem local_single : forall fs filename formats n, full_filenames filename formats = [n] ->
  fst (open fs [local_openers] [] filename formats) = fs n.
Proof.
  intros fs filename formats n E. unfold open. cbn [cached try_methods]. unfold local_openers. rewrite E. cbn [map last try_openers].
  destruct (fs n); reflexivity.
Qed.
Print Assumptions local_single.
Example local_single_ex : fst (open (fun p => if String.eqb p "cmr10.tfm" then Some "data" else None) [local_openers] [] "cmr10" [tfm]) = Some "data".
Proof. reflexivity. Qed.
(** C149: with several names all openers open the last one: a figure with the first of the
    extensions is not found. *)
Theorem local_late_binding_refuted : forall filename content, ~ has_extension filename [pict] ->
  let fs := fun p => if String.eqb p (filename ++ ".eps") then Some content else None in
  In (filename ++ ".eps") (full_filenames filename [pict]) /\ fs (filename ++ ".eps") = Some content /\
  open fs [local_openers] [] filename [pict] = (None, []).
Proof.
  intros filename content H fs.
  assert (E : full_filenames filename [pict] = [filename ++ ".eps"; filename ++ ".epsi"]) by (unfold full_filenames; rewrite (has_not _ _ H); reflexivity).
  split; [rewrite E; simpl; auto|]. split; [unfold fs; now rewrite String.eqb_refl|].
  unfold open, local_openers. cbn [cached try_methods]. rewrite E. cbn [map last try_openers].
  assert (N : fs (filename ++ ".epsi") = None).
  { unfold fs. destruct (String.eqb_spec (filename ++ ".epsi") (filename ++ ".eps")) as [X|]; auto. apply (f_equal String.length) in X. rewrite !length_app in X. simpl in X. lia. }
  rewrite N. reflexivity.
Qed.
Print Assumptions local_late_binding_refuted.
Theorem local_opens_last : forall filename formats o fs, In o (local_openers filename formats) -> o fs = fs (last (full_filenames filename formats) "").
Proof. intros filename formats o fs I. unfold local_openers in I. apply in_map_iff in I as (x & <- & _). reflexivity. Qed.
Print Assumptions local_opens_last.
Example local_late_binding_ex : fst (open (fun p => if String.eqb p "fig.eps" then Some "figure" else None) [local_openers] [] "fig" [pict]) = None /\
  fst (open (fun p => if String.eqb p "fig.eps" then Some "figure" else None) [local_openers] [] "fig.eps" [pict]) = Some "figure" /\
  fst (open (fun p => if String.eqb p "fig.epsi" then Some "figure" else None) [local_openers] [] "fig" [pict]) = Some "figure".
Proof. repeat split. Qed.

(** ** open *)
Lemma try_openers_spec fs os : match try_openers fs os with
  | Some (o, file) => exists os1 os2, os = (os1 ++ o :: os2)%list /\ o fs = Some file /\ forall o', In o' os1 -> o' fs = None
  | None => forall o, In o os -> o fs = None
  end.
Proof.
  induction os as [|o os IH]; simpl; [intros _ []|]. destruct (o fs) as [file|] eqn:E.
  - exists [], os. split; auto. split; auto. intros _ [].
  - destruct (try_openers fs os) as [[o' file]|].
    + destruct IH as (os1 & os2 & -> & H1 & H2). exists (o :: os1), os2. split; auto. split; auto. intros x [<-|I]; auto.
    + intros x [<-|I]; auto.
Qed.
Lemma try_methods_spec fs ms filename formats : match try_methods fs ms filename formats with
  | Some (o, file) => exists os1 os2, flat_map (fun m => m filename formats) ms = (os1 ++ o :: os2)%list /\ o fs = Some file /\ forall o', In o' os1 -> o' fs = None
  | None => forall o, In o (flat_map (fun m => m filename formats) ms) -> o fs = None
  end.
Proof.
  induction ms as [|m ms IH]; simpl; [intros _ []|]. pose proof (try_openers_spec fs (m filename formats)) as T.
  destruct (try_openers fs (m filename formats)) as [[o file]|].
  - destruct T as (os1 & os2 & -> & H1 & H2). exists os1, (os2 ++ flat_map (fun m => m filename formats) ms)%list. rewrite <- app_assoc. auto.
  - destruct (try_methods fs ms filename formats) as [[o file]|].
    + destruct IH as (os1 & os2 & -> & H1 & H2). exists (m filename formats ++ os1)%list, os2. rewrite <- app_assoc. split; auto. split; auto.
      intros x I. apply in_app_or in I as [I|I]; auto.
    + intros x I. apply in_app_or in I as [I|I]; auto.
Qed.
Lemma key_same k : key_eqb k k = true.
Proof. unfold key_eqb. rewrite String.eqb_refl. destruct (list_eq_dec string_dec (snd k) (snd k)); auto. Qed.
(** C149: a file which was not opened before is the one of the first opener, in the order of
    the locators, which succeeds; there is an error if none does.  Opening it again gives the
    same file again. *)
Theorem open_first : forall fs ms c filename formats r c', cached c (filename, map fname formats) = None -> open fs ms c filename formats = (r, c') ->
  match r with
  | Some file => exists os1 o os2, flat_map (fun m => m filename formats) ms = (os1 ++ o :: os2)%list /\ o fs = Some file /\ forall o', In o' os1 -> o' fs = None
  | None => forall m o, In m ms -> In o (m filename formats) -> o fs = None
  end /\ fst (open fs ms c' filename formats) = r.
Proof.
  intros fs ms c filename formats r c' N. unfold open at 1. rewrite N. pose proof (try_methods_spec fs ms filename formats) as T.
  destruct (try_methods fs ms filename formats) as [[o file]|] eqn:E; intros [= <- <-].
  - destruct T as (os1 & os2 & T1 & T2 & T3). split; [exists os1, o, os2; auto|]. unfold open. cbn [cached]. rewrite key_same. exact T2.
  - split; [intros m o M O; apply T, in_flat_map; eauto|]. unfold open. rewrite N, E. reflexivity.
Qed.
Print Assumptions open_first.
Definition store (name content : string) : method := fun filename _ => if String.eqb filename name then [fun _ => Some content] else [].
Example open_first_ex : fst (open (fun _ => None) [local_openers; store "a.tfm" "one"; store "a.tfm" "two"] [] "a.tfm" [tfm]) = Some "one".
Proof. reflexivity. Qed.
(** C149: other requests change nothing for a file already opened *)
Theorem open_kept : forall fs fs' ms c filename formats o filename' formats',
  cached c (filename, map fname formats) = Some o ->
  cached (snd (open fs ms c filename' formats')) (filename, map fname formats) = Some o /\ fst (open fs' ms c filename formats) = o fs'.
Proof.
  intros fs fs' ms c filename formats o filename' formats' H. split; [|unfold open; rewrite H; auto].
  unfold open. destruct (cached c (filename', map fname formats')) eqn:E; auto. destruct (try_methods fs ms filename' formats') as [[o' file]|]; auto.
  cbn [snd cached]. destruct (key_eqb _ _) eqn:K; auto. exfalso. unfold key_eqb in K. cbn [fst snd] in K.
  apply andb_prop in K as [K1 K2]. apply String.eqb_eq in K1. destruct (list_eq_dec string_dec (map fname formats) (map fname formats')) as [D|]; [|discriminate].
  rewrite K1, D in H. congruence.
Qed.
Print Assumptions open_kept.
(** C149: once opened, only the place where the file was is looked at: when it is gone there,
    the other locators are not asked. *)
Theorem open_stale_refuted : exists fs fs' ms c, fst (open fs ms [] "a.tfm" [tfm]) = Some "here" /\ c = snd (open fs ms [] "a.tfm" [tfm]) /\
  fst (open fs' ms [] "a.tfm" [tfm]) = Some "there" /\ fst (open fs' ms c "a.tfm" [tfm]) = None.
Proof.
  exists (fun p => if String.eqb p "a.tfm" then Some "here" else None), (fun _ => None), [local_openers; store "a.tfm" "there"]. eexists.
  repeat split.
Qed.
Print Assumptions open_stale_refuted.
