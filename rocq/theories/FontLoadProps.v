(** Fonts of a font map are loaded once, with the metric file that is found first *)
From Coq Require Import Ascii String List Arith Lia.
From Verif Require Import FontLoadModel.
Import ListNotations.

Section Props.
  Variable bytes t1 afm pfm vector : Type.
  Variable open : string -> fmt -> option bytes.
  Variable read_t1 : bytes -> option t1.
  Variable t1name : t1 -> string.
  Variable read_afm : bytes -> option afm.
  Variable read_pfm : bytes -> t1 -> option pfm.
  Variable read_enc : bytes -> option (string * vector).
  Variable root : string -> string.
  Notation load := (load_font bytes t1 afm pfm open read_t1 t1name read_afm read_pfm root).
  Notation loade := (load_enc bytes vector open read_enc).
  Notation run := (calls bytes t1 afm pfm vector open read_t1 t1name read_afm read_pfm read_enc root).
  Notation start := (fresh t1 afm pfm vector).
  Notation slog := (log t1 afm pfm vector).

  (** the calls of one kind: none, or at least one *)
  Definition font_calls (cs : list call) : nat := length (filter (fun c => match c with GetFont => true | GetEncoding => false end) cs).
  Definition enc_calls (cs : list call) : nat := length (filter (fun c => match c with GetFont => false | GetEncoding => true end) cs).
  Definition file_dec : forall a b : string * fmt, {a = b} + {a <> b}.
  Proof. decide equality; [decide equality|apply string_dec]. Defined.

  Lemma run_from e cs : forall s,
    (cfont t1 afm pfm vector s = None \/ cfont t1 afm pfm vector s = fst (load e)) ->
    (cenc t1 afm pfm vector s = None \/ cenc t1 afm pfm vector s = fst (loade e)) ->
    fst (run e cs s) = map (fun c => match c with GetFont => AFont t1 afm pfm vector (fst (load e)) | GetEncoding => AEnc t1 afm pfm vector (fst (loade e)) end) cs /\
    forall x, count_occ file_dec (slog (snd (run e cs s))) x =
      (count_occ file_dec (slog s) x +
       (match cfont t1 afm pfm vector s with Some _ => 0 | None => match fst (load e) with Some _ => Nat.min 1 (font_calls cs) | None => font_calls cs end end) * count_occ file_dec (snd (load e)) x +
       (match cenc t1 afm pfm vector s with Some _ => 0 | None => match fst (loade e) with Some _ => Nat.min 1 (enc_calls cs) | None => enc_calls cs end end) * count_occ file_dec (snd (loade e)) x)%nat.
  Proof.
    induction cs as [|[] cs IHc]; intros s Hf He.
    - split; [reflexivity|]. intro x. cbn [calls snd font_calls enc_calls filter length]. cbn [length].
      destruct (cfont _ _ _ _ s), (cenc _ _ _ _ s), (fst (load e)), (fst (loade e)); cbn; lia.
    - cbn [calls]. unfold getfont. destruct (cfont _ _ _ _ s) as [f|] eqn:F.
      + destruct (IHc s) as [A B]; [right; destruct Hf; congruence|exact He|]. rewrite F in B.
        destruct (run e cs s) as [r s']. cbn [fst snd] in *. split.
        * cbn [map]. rewrite A. destruct Hf as [Hf|Hf]; [discriminate|now rewrite Hf].
        * exact B.
      + destruct (load e) as [o files] eqn:L. cbn [fst snd] in *.
        destruct (IHc (mkstate t1 afm pfm vector o (cenc t1 afm pfm vector s) (slog s ++ files))) as [A B]; cbn [cfont cenc log] in *.
        { now right. } { exact He. }
        destruct (run e cs _) as [r s']. cbn [fst snd] in *. split; [cbn [map]; now rewrite A|].
        intro x. rewrite B, count_occ_app. change (enc_calls (GetFont :: cs)) with (enc_calls cs). change (font_calls (GetFont :: cs)) with (S (font_calls cs)).
        destruct o; [replace (Nat.min 1 (S (font_calls cs))) with 1%nat by lia|]; lia.
    - cbn [calls]. unfold getencoding. destruct (cenc _ _ _ _ s) as [f|] eqn:F.
      + destruct (IHc s) as [A B]; [exact Hf|right; destruct He; congruence|]. rewrite F in B.
        destruct (run e cs s) as [r s']. cbn [fst snd] in *. split.
        * cbn [map]. rewrite A. destruct He as [He|He]; [discriminate|now rewrite He].
        * exact B.
      + destruct (loade e) as [o files] eqn:L. cbn [fst snd] in *.
        destruct (IHc (mkstate t1 afm pfm vector (cfont t1 afm pfm vector s) o (slog s ++ files))) as [A B]; cbn [cfont cenc log] in *.
        { exact Hf. } { now right. }
        destruct (run e cs _) as [r s']. cbn [fst snd] in *. split; [cbn [map]; now rewrite A|].
        intro x. rewrite B, count_occ_app. change (font_calls (GetEncoding :: cs)) with (font_calls cs). change (enc_calls (GetEncoding :: cs)) with (S (enc_calls cs)).
        destruct o; [replace (Nat.min 1 (S (enc_calls cs))) with 1%nat by lia|]; lia.
  Qed.

  (** C177: in any sequence of calls each call gives the same font and the same encoding, and no file is searched again once the font and the encoding
      could be loaded: the files are searched as often as in a single call of each kind *)
  Theorem fonts_loaded_once : forall e f v, fst (load e) = Some f -> fst (loade e) = Some v ->
    forall cs, fst (run e cs start) = map (fun c => match c with GetFont => AFont t1 afm pfm vector (Some f) | GetEncoding => AEnc t1 afm pfm vector (Some v) end) cs /\
      forall x, (count_occ file_dec (slog (snd (run e cs start))) x <= count_occ file_dec (slog (snd (run e [GetFont; GetEncoding] start))) x)%nat.
  Proof.
    intros e f v F V cs.
    assert (H : forall cs', fst (run e cs' start) = map (fun c => match c with GetFont => AFont t1 afm pfm vector (Some f) | GetEncoding => AEnc t1 afm pfm vector (Some v) end) cs' /\
      forall x, count_occ file_dec (slog (snd (run e cs' start))) x =
        (Nat.min 1 (font_calls cs') * count_occ file_dec (snd (load e)) x + Nat.min 1 (enc_calls cs') * count_occ file_dec (snd (loade e)) x)%nat).
    { intro cs'. destruct (run_from e cs' start) as [A B]; [now left|now left|]. rewrite F, V in A. split; [exact A|].
      intro x. rewrite B, F, V. reflexivity. }
    split; [apply H|]. intro x. rewrite !(proj2 (H _)).
    apply Nat.add_le_mono; apply Nat.mul_le_mono_r; cbn [font_calls enc_calls filter length]; apply Nat.le_min_l.
  Qed.

  (** C177: which font an entry gives.  With a font file: the name has to be the one of the file, and the metric is the AFM file if there is one,
      otherwise the PFM file if there is one, otherwise there is none; without a font file it is the builtin font with its AFM file. *)
  Theorem fonts_chosen : forall e f, fst (load e) = Some f <->
    match fontfilename e with
    | Some name => exists b t, open name Type1 = Some b /\ read_t1 b = Some t /\ t1name t = basepsname e /\
        ((exists m a, open (root name) Afm = Some m /\ read_afm m = Some a /\ f = T1font t1 afm pfm t (MAfm afm pfm a)) \/
         (open (root name) Afm = None /\ exists m p, open (root name ++ ".pfm")%string Type1 = Some m /\ read_pfm m t = Some p /\ f = T1font t1 afm pfm t (MPfm afm pfm p)) \/
         (open (root name) Afm = None /\ open (root name ++ ".pfm")%string Type1 = None /\ f = T1font t1 afm pfm t (MNone afm pfm)))
    | None => exists m a, open (basepsname e) Afm = Some m /\ read_afm m = Some a /\ f = Builtin t1 afm pfm (basepsname e) a
    end.
  Proof.
    intros e f. unfold load_font. destruct (fontfilename e) as [name|].
    - destruct (open name Type1) as [b|]; [|split; [discriminate|intros (b & t & H & _); discriminate]].
      destruct (read_t1 b) as [t|] eqn:T; [|split; [discriminate|intros (b' & t & H & H' & _); congruence]].
      destruct (String.eqb_spec (basepsname e) (t1name t)) as [N|N].
      2:{ split; [discriminate|]. intros (b' & t' & H & H' & H'' & _). congruence. }
      split.
      + intro H. exists b, t. split; [reflexivity|]. split; [exact T|]. split; [now symmetry|].
        destruct (open (root name) Afm) as [m|].
        * left. destruct (read_afm m) as [a|] eqn:A; [|discriminate]. exists m, a. cbn in H. repeat split; congruence.
        * right. destruct (open _ Type1) as [m|].
          -- left. split; [reflexivity|]. destruct (read_pfm m t) as [p|] eqn:A; [|discriminate]. exists m, p. cbn in H. repeat split; congruence.
          -- right. cbn in H. repeat split; congruence.
      + intros (b' & t' & H & H' & _ & K). injection H as <-. assert (t' = t) as -> by congruence. clear H'.
        destruct K as [(m & a & -> & A & ->)|[(-> & m & p & -> & A & ->)|(-> & -> & ->)]]; try rewrite A; reflexivity.
    - destruct (open (basepsname e) Afm) as [m|]; [|split; [discriminate|intros (m & a & H & _); discriminate]].
      split.
      + intro H. destruct (read_afm m) as [a|] eqn:A; [|discriminate]. exists m, a. cbn in H. repeat split; congruence.
      + intros (m' & a & H & A & ->). injection H as <-. now rewrite A.
  Qed.

  (** C177: which encoding an entry gives *)
  Theorem encodings_chosen : forall e v, fst (loade e) = Some v <->
    match encodingfilename e with
    | None => v = None
    | Some name => exists b w, open name TexPsHeader = Some b /\ read_enc b = Some (("/" ++ reencodefont e)%string, w) /\ v = Some w
    end.
  Proof.
    intros e v. unfold load_enc. destruct (encodingfilename e) as [name|]; [|cbn; split; congruence].
    destruct (open name TexPsHeader) as [b|]; [|split; [discriminate|intros (b & w & H & _); discriminate]].
    split.
    - intro H. destruct (read_enc b) as [[n w]|] eqn:E; [|discriminate].
      destruct (String.eqb_spec n ("/" ++ reencodefont e)%string) as [->|]; [|discriminate]. exists b, w. cbn in H. repeat split; congruence.
    - intros (b' & w & H & E & ->). injection H as <-. now rewrite E, String.eqb_refl.
  Qed.
End Props.
Print Assumptions fonts_loaded_once.
Print Assumptions fonts_chosen.
Print Assumptions encodings_chosen.

(** a file system with a font, its PFM file and an encoding: the bytes are strings, the readers take them as they are *)
Definition files (n : string) (f : fmt) : option string :=
  match f with
  | Type1 => if String.eqb n "cmr10.pfb" then Some "CMR10"%string else if String.eqb n "cmr10.pfm" then Some "metric"%string else None
  | Afm => None
  | TexPsHeader => if String.eqb n "8r.enc" then Some "8r"%string else None
  end.
Example loads : calls string string string string string files Some (fun t => t) Some (fun b _ => Some b) (fun b => Some (("/" ++ b)%string, "vec"%string))
    (fun _ => "cmr10"%string) (mkentry "CMR10" (Some "cmr10.pfb"%string) (Some "8r.enc"%string) "8r") [GetFont; GetEncoding; GetFont; GetFont] (fresh string string string string) =
  let f := AFont string string string string (Some (T1font string string string "CMR10" (MPfm string string "metric"))) in
  ([f; AEnc string string string string (Some (Some "vec"%string)); f; f],
   mkstate string string string string (Some (T1font string string string "CMR10" (MPfm string string "metric"))) (Some (Some "vec"%string))
     [("cmr10.pfb"%string, Type1); ("cmr10"%string, Afm); ("cmr10.pfm"%string, Type1); ("8r.enc"%string, TexPsHeader)]).
Proof. reflexivity. Qed.
