(** Which file kpsewhich and pykpathsea lead to *)
From Coq Require Import Ascii String List Bool.
From Verif Require Import ConfigModel KpseModel.
Import ListNotations.
Open Scope string_scope.

(** the program answers something blank for a format *)
Definition blank (run : program) (filename : string) (f : format) : Prop := exists line, run (fname f) filename = Some line /\ rstrip line = "".

Lemma kpse_find_iff run filename formats n : kpse_find run filename formats = Some n <->
  n <> "" /\ exists fs1 f fs2 line, formats = (fs1 ++ f :: fs2)%list /\ Forall (blank run filename) fs1 /\ run (fname f) filename = Some line /\ rstrip line = n.
Proof.
  induction formats as [|f formats IHf]; cbn [kpse_find].
  - split; [discriminate|]. intros (_ & [|g fs1] & f & fs2 & line & E & _); discriminate.
  - destruct (run (fname f) filename) as [line|] eqn:R.
    + cbv zeta. destruct (String.eqb_spec (rstrip line) "") as [B|B].
      * rewrite IHf. split; intros (N & fs1 & g & fs2 & l & E & F & A & L); (split; [exact N|]).
        -- exists (f :: fs1), g, fs2, l. subst. split; [reflexivity|]. split; [constructor; [now exists line|exact F]|]. now split.
        -- destruct fs1 as [|h fs1]; cbn in E; injection E as -> E; [exfalso; apply N; congruence|].
           inversion F; subst. exists fs1, g, fs2, l. now repeat split.
      * split.
        -- intro H. injection H as <-. split; [exact B|]. exists [], f, formats, line. now repeat split.
        -- intros (N & fs1 & g & fs2 & l & E & F & A & L). destruct fs1 as [|h fs1]; cbn in E; injection E as -> E; [congruence|].
           inversion F as [|? ? (l' & H & H') _]; subst. exfalso. apply B. congruence.
    + split; [discriminate|]. intros (N & fs1 & g & fs2 & l & E & F & A & L). destruct fs1 as [|h fs1]; cbn in E; injection E as -> E; [congruence|].
      inversion F as [|? ? (l' & H & H') _]; subst. congruence.
Qed.

(** C178: kpsewhich as the only method opens exactly the file named by the first answer that is not blank, asking for the formats in order, and stops
    at a program that cannot be run; without such an answer nothing is opened, whatever files there are *)
Theorem kpsewhich_opens : forall run fs filename formats content,
  fst (open fs [kpse_openers run] [] filename formats) = Some content <->
  exists fs1 f fs2 line, formats = (fs1 ++ f :: fs2)%list /\ Forall (blank run filename) fs1 /\
    run (fname f) filename = Some line /\ rstrip line <> "" /\ fs (rstrip line) = Some content.
Proof.
  intros run fs filename formats content. unfold open. cbn [cached try_methods]. unfold kpse_openers.
  destruct (kpse_find run filename formats) as [n|] eqn:K.
  - cbn [try_openers]. assert (K' := K). apply kpse_find_iff in K as (N & fs1 & f & fs2 & line & E & F & A & L).
    transitivity (fs n = Some content).
    { destruct (fs n); cbn; split; congruence. }
    split.
    + intro H. exists fs1, f, fs2, line. rewrite L. now repeat split.
    + intros (gs1 & g & gs2 & l & E' & F' & A' & N' & H).
      assert (kpse_find run filename formats = Some (rstrip l)) as K2 by (apply kpse_find_iff; split; [exact N'|]; now exists gs1, g, gs2, l).
      congruence.
  - cbn [try_openers]. split; [discriminate|]. intros (gs1 & g & gs2 & l & E' & F' & A' & N' & H).
    assert (kpse_find run filename formats = Some (rstrip l)) as K2 by (apply kpse_find_iff; split; [exact N'|]; now exists gs1, g, gs2, l).
    congruence.
Qed.
Print Assumptions kpsewhich_opens.

(** the library knows no file for a format *)
Definition unknown (find_file : program) (filename : string) (f : format) : Prop := find_file filename (fname f) = None \/ find_file filename (fname f) = Some "".

(** C178: pykpathsea leads to the file of the first format for which the library knows one, and never to any file without the extension module *)
Theorem pykpathsea_opens : forall has find_file fs filename formats content,
  fst (open fs [pykpse_openers has find_file] [] filename formats) = Some content <->
  has = true /\ exists fs1 f fs2 n, formats = (fs1 ++ f :: fs2)%list /\ Forall (unknown find_file filename) fs1 /\
    find_file filename (fname f) = Some n /\ n <> "" /\ fs n = Some content.
Proof.
  intros has find_file fs filename formats content.
  assert (K : forall n, pykpse_find find_file filename formats = Some n <->
    n <> "" /\ exists fs1 f fs2, formats = (fs1 ++ f :: fs2)%list /\ Forall (unknown find_file filename) fs1 /\ find_file filename (fname f) = Some n).
  { intro n. induction formats as [|f formats IHf]; cbn [pykpse_find].
    - split; [discriminate|]. intros (_ & [|g fs1] & f & fs2 & E & _); discriminate.
    - assert (U : unknown find_file filename f -> (pykpse_find find_file filename formats = Some n <->
        n <> "" /\ exists fs1 f0 fs2, (f :: formats)%list = (fs1 ++ f0 :: fs2)%list /\ Forall (unknown find_file filename) fs1 /\ find_file filename (fname f0) = Some n)).
      { intro U. rewrite IHf. split; intros (N & fs1 & g & fs2 & E & F & A); (split; [exact N|]).
        - exists (f :: fs1), g, fs2. subst. split; [reflexivity|]. split; [now constructor|exact A].
        - destruct fs1 as [|h fs1]; cbn in E; injection E as -> E; [exfalso; destruct U; congruence|].
          inversion F; subst. exists fs1, g, fs2. now repeat split. }
      destruct (find_file filename (fname f)) as [m|] eqn:R; [|apply U; now left].
      destruct (String.eqb_spec m "") as [->|B]; [apply U; now right|].
      split.
      + intro H. injection H as <-. split; [exact B|]. exists [], f, formats. now repeat split.
      + intros (N & fs1 & g & fs2 & E & F & A). destruct fs1 as [|h fs1]; cbn in E; injection E as -> E; [congruence|].
        inversion F as [|? ? [H|H] _]; subst; congruence. }
  unfold open. cbn [cached try_methods]. unfold pykpse_openers.
  destruct has; [|cbn [try_openers]; split; [discriminate|]; intros (H & _); discriminate].
  destruct (pykpse_find find_file filename formats) as [n|].
  - cbn [try_openers]. transitivity (fs n = Some content).
    { destruct (fs n); cbn; split; congruence. }
    split.
    + intro H. split; [reflexivity|]. destruct (proj1 (K n) eq_refl) as (N & fs1 & f & fs2 & E & F & A). exists fs1, f, fs2, n. now repeat split.
    + intros (_ & gs1 & g & gs2 & m & E & F & A & N & H).
      assert (Some n = Some m) as Q by (apply K; split; [exact N|]; now exists gs1, g, gs2). congruence.
  - cbn [try_openers]. split; [discriminate|]. intros (_ & gs1 & g & gs2 & m & E & F & A & N & H).
    assert (None = Some m) as Q by (apply K; split; [exact N|]; now exists gs1, g, gs2). discriminate.
Qed.
Print Assumptions pykpathsea_opens.

(** the font map psfonts.map is found with the second format; a program that cannot be run for the first format ends the search *)
Example kpse_second :
  let run := fun f n => Some (if String.eqb f "dvips config" then "/texmf/psfonts.map " else "") in
  let fs := fun p => if String.eqb p "/texmf/psfonts.map" then Some "content" else None in
  fst (open fs [kpse_openers run] [] "psfonts.map" [fontmap; dvips_config]) = Some "content".
Proof. reflexivity. Qed.
Example kpse_fails :
  let run := fun f n => if String.eqb f "map" then None else Some "/texmf/psfonts.map" in
  fst (open (fun _ => Some "content") [kpse_openers run] [] "psfonts.map" [fontmap; dvips_config]) = None.
Proof. reflexivity. Qed.
Example pykpse_second :
  fst (open (fun p => Some p) [pykpse_openers true (fun n f => if String.eqb f "dvips config" then Some ("/texmf/" ++ n) else None)] [] "a.map" [fontmap; dvips_config]) = Some "/texmf/a.map".
Proof. reflexivity. Qed.
