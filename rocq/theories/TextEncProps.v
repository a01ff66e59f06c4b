(** C126: the glyphs of a text are those the written codes select in the re-encoded fonts of
    the whole document, strings are read back as written, and SVG fonts have one character
    for each glyph. *)
From Coq Require Import ZArith Ascii String List Bool Lia Decimal DecimalString DecimalNat DecimalFacts ZifyBool.
From Verif Require Import TextEncModel PdfSpec.
Import ListNotations.
Local Open Scope Z_scope.

(** ** dictionaries *)

Lemma dget_item : forall g (e : enc), dget g e = item g e.
Proof. induction e as [|[h c] e IH]; cbn; [reflexivity|]. now rewrite IH. Qed.

Lemma item_none : forall g e, item g e = None <-> ~ In g (map fst e).
Proof.
  induction e as [|[h c] e IH]; cbn; [tauto|].
  destruct (String.eqb_spec h g) as [->|N]; [split; [discriminate|tauto]|].
  rewrite IH. tauto.
Qed.

Lemma dget_none : forall {A} g (e : list (string * A)), dget g e = None <-> ~ In g (map fst e).
Proof.
  induction e as [|[h c] e IH]; cbn; [tauto|].
  destruct (String.eqb_spec h g) as [->|N]; [split; [discriminate|tauto]|].
  rewrite IH. tauto.
Qed.

Lemma dget_in : forall {A} g (e : list (string * A)) a, dget g e = Some a -> In (g, a) e.
Proof.
  induction e as [|[h c] e IH]; cbn; intros a E; [discriminate|].
  destruct (String.eqb_spec h g) as [->|N]; [injection E as ->; now left|right; now apply IH].
Qed.

Lemma in_dget : forall {A} g (e : list (string * A)) a, NoDup (map fst e) -> In (g, a) e -> dget g e = Some a.
Proof.
  induction e as [|[h c] e IH]; cbn; intros a N I; [tauto|].
  inversion N as [|? ? N1 N2]; subst.
  destruct I as [E|I].
  - injection E as -> ->. now rewrite String.eqb_refl.
  - destruct (String.eqb_spec h g) as [->|_]; [|now apply IH].
    exfalso. apply N1. now apply in_map with (f := fst) in I.
Qed.

Lemma set_item_get : forall {A} g (c : A) e h,
  dget h (set_item g c e) = if String.eqb g h then Some c else dget h e.
Proof.
  induction e as [|[k d] e IH]; intros h; cbn.
  - reflexivity.
  - destruct (String.eqb_spec k g) as [->|N]; cbn.
    + destruct (String.eqb_spec g h); reflexivity.
    + rewrite IH. destruct (String.eqb_spec k h) as [->|N']; [|reflexivity].
      destruct (String.eqb_spec g h); [congruence|reflexivity].
Qed.

Lemma set_item_new : forall {A} g (c : A) e, ~ In g (map fst e) -> set_item g c e = e ++ [(g, c)].
Proof.
  induction e as [|[k d] e IH]; cbn; intros N; [reflexivity|].
  destruct (String.eqb_spec k g) as [->|_]; [tauto|]. rewrite IH by tauto. reflexivity.
Qed.

Lemma set_item_keys : forall {A} g (c : A) e, In g (map fst e) -> map fst (set_item g c e) = map fst e.
Proof.
  induction e as [|[k d] e IH]; cbn; intros I; [tauto|].
  destruct (String.eqb_spec k g) as [->|N]; cbn; [reflexivity|]. f_equal. apply IH. tauto.
Qed.

Lemma dget_same_keys : forall {A} (x y : list (string * A)) n a,
  map fst x = map fst y -> dget n x = Some a -> exists b, dget n y = Some b.
Proof.
  intros A x y n a E G. destruct (dget n y) as [b|] eqn:D; [now exists b|].
  apply dget_none in D. rewrite <- E in D. apply dget_none in D. congruence.
Qed.

(** ** one encoding *)

(** the codes are 0, 1, 2 and so on, and no glyph is there twice *)
Definition dense (e : enc) : Prop :=
  map snd e = map Z.of_nat (seq 0 (length e)) /\ NoDup (map fst e) /\ (length e <= 256)%nat.

Lemma NoDup_snoc : forall {A} (l : list A) a, NoDup l -> ~ In a l -> NoDup (l ++ [a]).
Proof.
  induction l as [|b l IH]; cbn; intros a N I; [constructor; [tauto|constructor]|].
  inversion N; subst. constructor.
  - rewrite in_app_iff. cbn. intuition.
  - apply IH; tauto.
Qed.

Lemma dense_snoc : forall e g, dense e -> ~ In g (map fst e) -> (length e < 256)%nat ->
  dense (e ++ [(g, Z.of_nat (length e))]).
Proof.
  intros e g [S [N L]] I B. unfold dense. rewrite !map_app, app_length. cbn [length map].
  replace (length e + 1)%nat with (Datatypes.S (length e)) by lia.
  rewrite seq_S, map_app, S. cbn. repeat split; [|lia].
  now apply NoDup_snoc.
Qed.

Definition kept (e e' : enc) : Prop := forall g c, item g e = Some c -> item g e' = Some c.

Lemma item_app : forall g e r, item g (e ++ r) = match item g e with Some c => Some c | None => item g r end.
Proof.
  induction e as [|[h c] e IH]; cbn; intros r; [reflexivity|].
  destruct (String.eqb h g); [reflexivity|apply IH].
Qed.

Lemma extend_spec : forall gs e, dense e -> NoDup gs -> (forall g, In g gs -> ~ In g (map fst e)) ->
  (length gs + length e <= 256)%nat ->
  dense (extend e gs) /\ kept e (extend e gs) /\ (forall g, In g gs -> exists c, item g (extend e gs) = Some c).
Proof.
  induction gs as [|g gs IH]; intros e D N I L; cbn [extend fold_left length] in *.
  - repeat split; try apply D. + intros h c E; exact E. + intros h [].
  - inversion N as [|? ? N1 N2]; subst.
    rewrite set_item_new by (apply I; now left).
    assert (D' : dense (e ++ [(g, Z.of_nat (length e))])).
    { apply dense_snoc; [exact D|apply I; now left|lia]. }
    destruct (IH _ D' N2) as [A [B C]].
    + intros h H J. rewrite map_app, in_app_iff in J. cbn in J.
      destruct J as [J|[J|[]]]; [revert J; apply I; now right|congruence].
    + rewrite app_length. cbn. lia.
    + fold (extend (e ++ [(g, Z.of_nat (length e))]) gs). split; [exact A|]. split.
      * intros h c E. apply B. now rewrite item_app, E.
      * intros h [<-|H]; [|now apply C].
        destruct (item g e) as [c|] eqn:E.
        -- exists c. apply B. now rewrite item_app, E.
        -- eexists. apply B. rewrite item_app, E. cbn. now rewrite String.eqb_refl.
Qed.

Lemma enumerate_map : forall gs k, map snd (enumerate k gs) = map (fun n => k + Z.of_nat n) (seq 0 (length gs))
  /\ map fst (enumerate k gs) = gs /\ length (enumerate k gs) = length gs.
Proof.
  induction gs as [|g gs IH]; intros k; cbn; [now repeat split|].
  destruct (IH (k + 1)) as [A [B C]]. rewrite A, B, C. repeat split.
  f_equal; [lia|]. rewrite <- seq_shift, map_map. apply map_ext. intros n. lia.
Qed.

Lemma dense_enumerate : forall gs, NoDup gs -> (length gs <= 256)%nat -> dense (enumerate 0 gs).
Proof.
  intros gs N L. destruct (enumerate_map gs 0) as [A [B C]].
  unfold dense. rewrite A, B, C. split; [|split; [exact N|exact L]].
  apply map_ext. intros n. lia.
Qed.

Lemma filter_nodup : forall {A} (f : A -> bool) l, NoDup l -> NoDup (filter f l).
Proof. intros. now apply NoDup_filter. Qed.

Lemma item_some : forall g e, In g (map fst e) -> exists c, item g e = Some c.
Proof.
  intros g e I. destruct (item g e) as [c|] eqn:E; [now exists c|].
  apply item_none in E. contradiction.
Qed.

(** ** the vector *)

Lemma set_nth_app : forall {A} (p : list A) x r a, set_nth (length p) a (p ++ x :: r) = Some (p ++ a :: r).
Proof. induction p as [|y p IH]; intros x r a; cbn; [reflexivity|]. now rewrite IH. Qed.

Lemma vector_from : forall e p,
  map snd e = map Z.of_nat (seq (length p) (length e)) ->
  fold_left (fun v gc => match v with Some v => set_nth (Z.to_nat (snd gc)) (Some (fst gc)) v | None => None end) e
    (Some (p ++ repeat None (length e))) = Some (p ++ map (fun gc : string * Z => Some (fst gc)) e).
Proof.
  induction e as [|[g c] e IH]; intros p E; cbn [length repeat map fold_left seq] in *; [reflexivity|].
  injection E as E1 E2. cbn [snd fst]. rewrite E1, Nat2Z.id, set_nth_app.
  replace (p ++ Some g :: repeat None (length e)) with ((p ++ [Some g]) ++ repeat None (length e))
    by now rewrite <- app_assoc.
  rewrite IH.
  - now rewrite <- app_assoc.
  - rewrite app_length. cbn [length]. rewrite E2. f_equal. f_equal. lia.
Qed.

Lemma vector_dense : forall e, dense e -> vector e = Some (map (fun gc : string * Z => Some (fst gc)) e).
Proof.
  intros e [S _]. unfold vector. exact (vector_from e [] S).
Qed.

Lemma item_nth : forall e k g c, map snd e = map Z.of_nat (seq k (length e)) -> item g e = Some c ->
  Z.of_nat k <= c < Z.of_nat k + Z.of_nat (length e) /\ nth_error e (Z.to_nat c - k) = Some (g, c).
Proof.
  induction e as [|[h d] e IH]; intros k g c S E; [discriminate|].
  cbn [length seq map fst snd item] in *. injection S as S1 S2.
  destruct (String.eqb_spec h g) as [->|N].
  - injection E as ->. subst c. split; [lia|]. rewrite Nat2Z.id, Nat.sub_diag. reflexivity.
  - destruct (IH _ _ _ S2 E) as [A B]. split; [lia|].
    replace (Z.to_nat c - k)%nat with (Datatypes.S (Z.to_nat c - Datatypes.S k)) by lia. exact B.
Qed.

(** ** names *)

Lemma to_uint_nonnil : forall n, Nat.to_uint n <> Nil.
Proof. intros n. rewrite <- (Unsigned.of_to n), Unsigned.to_of. apply DecimalFacts.unorm_nonnil. Qed.

Lemma decimal_inj : forall m n, decimal m = decimal n -> m = n.
Proof.
  intros m n E. unfold decimal in E.
  assert (E' := f_equal NilZero.uint_of_string E).
  rewrite !NilZero.usu in E'.
  - injection E' as E'. now apply Unsigned.to_uint_inj.
  - apply to_uint_nonnil.
  - apply to_uint_nonnil.
Qed.

Lemma append_inj_l : forall p a b, append p a = append p b -> a = b.
Proof. induction p as [|c p IH]; cbn; intros a b E; [exact E|]. injection E as E. now apply IH. Qed.

Lemma encoding_name_inj : forall m n, encoding_name m = encoding_name n -> m = n.
Proof. intros m n E. now apply append_inj_l, decimal_inj in E. Qed.

Fixpoint dashless (s : string) : Prop :=
  match s with EmptyString => True | String c r => c <> "-"%char /\ dashless r end.

Lemma uint_dashless : forall u, dashless (NilEmpty.string_of_uint u).
Proof. induction u; cbn; try (split; [discriminate|assumption]). exact I. Qed.

Lemma encoding_dashless : forall n, dashless (encoding_name n).
Proof.
  intros n. unfold encoding_name. cbn. repeat (split; [discriminate|]).
  unfold decimal, NilZero.string_of_uint.
  pose proof (uint_dashless (Nat.to_uint n)) as H.
  destruct (Nat.to_uint n); try exact H. cbn. split; [discriminate|exact I].
Qed.

Lemma dashless_tail : forall f a, dashless (append f a) -> dashless a.
Proof. induction f as [|c f IH]; cbn; intros a D; [exact D|]. apply IH. apply D. Qed.

Lemma newfontname_inj : forall f g a b, dashless a -> dashless b ->
  newfontname f a = newfontname g b -> f = g /\ a = b.
Proof.
  unfold newfontname.
  induction f as [|c f IH]; intros [|d g] a b A B E; cbn in E.
  - injection E as E. now split.
  - exfalso. injection E as E1 E2. subst a.
    apply (dashless_tail g) in A. cbn in A. destruct A as [A _]. now apply A.
  - exfalso. injection E as E1 E2. subst b.
    apply (dashless_tail f) in B. cbn in B. destruct B as [B _]. now apply B.
  - injection E as -> E. destruct (IH g a b A B E) as [-> ->]. now split.
Qed.

(** ** all encodings of a font *)

Definition well (es : list (string * enc)) : Prop :=
  map fst es = map encoding_name (seq 0 (length es)) /\ Forall (fun ne => dense (snd ne)) es.

Definition grows (es es' : list (string * enc)) : Prop :=
  forall n e, dget n es = Some e -> exists e', dget n es' = Some e' /\ kept e e'.

Lemma kept_refl : forall e, kept e e. Proof. intros e g c H; exact H. Qed.
Lemma kept_trans : forall a b c, kept a b -> kept b c -> kept a c.
Proof. intros a b c H K g x E. now apply K, H. Qed.
Lemma grows_refl : forall es, grows es es.
Proof. intros es n e E. exists e. split; [exact E|apply kept_refl]. Qed.
Lemma grows_trans : forall a b c, grows a b -> grows b c -> grows a c.
Proof.
  intros a b c H K n e E. destruct (H n e E) as [e' [E' L]]. destruct (K n e' E') as [e'' [E'' M]].
  exists e''. split; [exact E''|eapply kept_trans; eassumption].
Qed.

Lemma names_nodup : forall k n, NoDup (map encoding_name (seq k n)).
Proof.
  intros k n. apply FinFun.Injective_map_NoDup; [|apply seq_NoDup].
  intros a b. apply encoding_name_inj.
Qed.

Lemma missing_spec : forall gs e g, In g (missing gs e) <-> In g gs /\ ~ In g (map fst e).
Proof.
  intros gs e g. unfold missing. rewrite filter_In, <- item_none.
  destruct (item g e); intuition discriminate.
Qed.

(** what the choice of an encoding guarantees *)
Definition chosen (gs : list string) (name : string) (es es' : list (string * enc)) : Prop :=
  grows es es' /\ exists e, dget name es' = Some e /\ forall g, In g gs -> exists c, item g e = Some c.

Lemma find_spec : forall gs es name es', NoDup gs -> Forall (fun ne : string * enc => dense (snd ne)) es ->
  NoDup (map fst es) ->
  find_encoding gs es = Some (name, es') ->
  map fst es' = map fst es /\ Forall (fun ne : string * enc => dense (snd ne)) es' /\ chosen gs name es es'
  /\ In name (map fst es).
Proof.
  induction es as [|[n e] es IH]; intros name es' N W U E; [discriminate|].
  cbn [find_encoding] in E. inversion W as [|? ? W1 W2]; subst. cbn [snd] in W1.
  cbn [map fst] in U. inversion U as [|? ? U1 U2]; subst.
  destruct (Nat.ltb_spec (length (missing gs e) + length e) 256) as [L|L].
  - injection E as <- <-.
    assert (M : NoDup (missing gs e)) by (now apply NoDup_filter).
    destruct (extend_spec (missing gs e) e W1 M) as [A [B C]].
    + intros g H. now apply missing_spec in H.
    + lia.
    + split; [reflexivity|]. split; [constructor; assumption|]. split; [|cbn; now left].
      split.
      * intros m x. cbn. destruct (String.eqb_spec n m) as [->|_].
        -- intros H. injection H as <-. eexists. split; [reflexivity|exact B].
        -- intros H. exists x. split; [exact H|apply kept_refl].
      * eexists. cbn. rewrite String.eqb_refl. split; [reflexivity|].
        intros g H. destruct (item g e) as [c|] eqn:Ig; [exists c; now apply B|].
        apply C. apply missing_spec. split; [exact H|]. now apply item_none.
  - destruct (find_encoding gs es) as [[n' es'']|] eqn:F; [|discriminate].
    injection E as <- <-. destruct (IH _ _ N W2 U2 eq_refl) as [A [B [[C D] Inn]]].
    split; [cbn; now rewrite A|]. split; [constructor; assumption|]. split; [|cbn; now right].
    split.
    + intros m x. cbn. destruct (String.eqb_spec n m) as [->|_].
      * intros H. injection H as <-. exists e. split; [reflexivity|apply kept_refl].
      * apply C.
    + destruct D as [x [D1 D2]]. exists x. split; [|exact D2]. cbn.
      destruct (String.eqb_spec n n') as [->|_]; [contradiction|exact D1].
Qed.

Lemma get_spec : forall gs es name es', NoDup gs -> well es -> getencodingname gs es = Some (name, es') ->
  well es' /\ chosen gs name es es' /\ exists k, name = encoding_name k.
Proof.
  intros gs es name es' N [W1 W2] E. unfold getencodingname in E.
  destruct (Nat.ltb_spec 256 (length gs)) as [|L]; [discriminate|].
  destruct (find_encoding gs es) as [[n x]|] eqn:F.
  - injection E as <- <-. apply find_spec in F; [|exact N|exact W2|rewrite W1; apply names_nodup].
    destruct F as [A [B [C D]]]. split.
    + split; [|exact B]. rewrite A, W1. f_equal. f_equal.
      rewrite <- (map_length fst x), A. now rewrite map_length.
    + split; [exact C|]. rewrite W1, in_map_iff in D. destruct D as [k [D _]]. now exists k.
  - injection E as <- <-.
    assert (X : ~ In (encoding_name (length es)) (map fst es)).
    { rewrite W1, in_map_iff. intros [k [K I]]. apply encoding_name_inj in K. apply in_seq in I. lia. }
    pose proof (set_item_new _ (enumerate 0 gs) _ X) as S.
    split; [|split].
    + rewrite S. split.
      * rewrite map_app, app_length, W1. cbn [length map fst].
        replace (length es + 1)%nat with (Datatypes.S (length es)) by lia. now rewrite seq_S, map_app.
      * apply Forall_app. split; [exact W2|]. constructor; [|constructor]. cbn.
        apply dense_enumerate; assumption.
    + split.
      * intros n e H. exists e. split; [|apply kept_refl]. rewrite set_item_get.
        destruct (String.eqb_spec (encoding_name (length es)) n) as [<-|_]; [|exact H].
        exfalso. apply X. apply dget_in in H. now apply in_map with (f := fst) in H.
      * exists (enumerate 0 gs). split; [rewrite set_item_get; now rewrite String.eqb_refl|].
        intros g H. apply item_some. destruct (enumerate_map gs 0) as [_ [-> _]]. exact H.
    + now exists (length es).
Qed.

(** ** all texts *)

Definition wgood (w : wencs) : Prop := NoDup (map fst w) /\ Forall (fun fes => well (snd fes)) w.
Definition wgrows (w w' : wencs) : Prop :=
  forall f es, dget f w = Some es -> exists es', dget f w' = Some es' /\ grows es es'.

Definition fair (t : textitem) : Prop := NoDup (tset t) /\ forall g, In g (tglyphs t) <-> In g (tset t).

Lemma codes_spec : forall gs e cs, codes e gs = Some cs -> Forall2 (fun g c => item g e = Some c) gs cs.
Proof.
  induction gs as [|g gs IH]; intros e cs E; cbn in E; [injection E as <-; constructor|].
  destruct (item g e) as [c|] eqn:I; [|discriminate]. destruct (codes e gs) as [r|] eqn:C; [|discriminate].
  injection E as <-. constructor; [exact I|now apply IH].
Qed.

Lemma codes_total : forall gs e, (forall g, In g gs -> exists c, item g e = Some c) -> exists cs, codes e gs = Some cs.
Proof.
  induction gs as [|g gs IH]; intros e H; cbn; [now exists []|].
  destruct (H g (or_introl eq_refl)) as [c ->]. destruct (IH e) as [cs ->]; [intros h I; apply H; now right|].
  now eexists.
Qed.

Lemma well_nil : well []. Proof. split; [reflexivity|constructor]. Qed.

Definition old (f : string) (w : wencs) := match dget f w with Some es => es | None => [] end.

Lemma old_well : forall f w, wgood w -> well (old f w).
Proof.
  intros f w [N F]. unfold old. destruct (dget f w) as [es|] eqn:D; [|apply well_nil].
  apply dget_in in D. rewrite Forall_forall in F. exact (F _ D).
Qed.

Lemma wgood_set : forall f es w, wgood w -> well es -> wgood (set_item f es w).
Proof.
  intros f es w [N F] W.
  assert (X : NoDup (map fst (set_item f es w))).
  { destruct (in_dec string_dec f (map fst w)) as [I|I].
    - rewrite set_item_keys by exact I. exact N.
    - rewrite set_item_new, map_app by exact I. now apply NoDup_snoc. }
  split; [exact X|]. apply Forall_forall. intros [k x] I.
  apply (in_dget _ _ _ X) in I. rewrite set_item_get in I. cbn.
  destruct (String.eqb_spec f k) as [->|_]; [injection I as <-; exact W|].
  apply dget_in in I. rewrite Forall_forall in F. exact (F _ I).
Qed.

Lemma write_spec : forall t w f cs w', fair t -> wgood w -> write_text t w = Some (f, cs, w') ->
  wgood w' /\ wgrows w w' /\
  exists k es e, f = newfontname (tfont t) (encoding_name k) /\ dget (tfont t) w' = Some es /\
    dget (encoding_name k) es = Some e /\ Forall2 (fun g c => item g e = Some c) (tglyphs t) cs.
Proof.
  intros t w f cs w' [N Fa] G E. unfold write_text in E. fold (old (tfont t) w) in E.
  destruct (getencodingname (tset t) (old (tfont t) w)) as [[name es']|] eqn:X; [|discriminate].
  destruct (dget name es') as [e|] eqn:D; [|discriminate].
  destruct (codes e (tglyphs t)) as [x|] eqn:C; [|discriminate].
  injection E as <- <- <-.
  destruct (get_spec _ _ _ _ N (old_well _ _ G) X) as [W [[Gr _] [k ->]]].
  split; [now apply wgood_set|]. split.
  - intros h es H. rewrite set_item_get. destruct (String.eqb_spec (tfont t) h) as [<-|_].
    + exists es'. split; [reflexivity|]. unfold old in Gr. now rewrite H in Gr.
    + exists es. split; [exact H|apply grows_refl].
  - exists k, es', e. split; [reflexivity|]. split; [rewrite set_item_get; now rewrite String.eqb_refl|].
    split; [exact D|]. now apply codes_spec.
Qed.

Lemma wgrows_trans : forall a b c, wgrows a b -> wgrows b c -> wgrows a c.
Proof.
  intros a b c H K f es E. destruct (H f es E) as [x [X Y]]. destruct (K f x X) as [z [Z0 Z1]].
  exists z. split; [exact Z0|eapply grows_trans; eassumption].
Qed.

Lemma fonts_unique : forall w f k es e v, wgood w -> dget f w = Some es -> dget (encoding_name k) es = Some e ->
  (In (newfontname f (encoding_name k), v) (fonts w) <-> v = vector e).
Proof.
  intros w f k es e v [N F] E D. unfold fonts. rewrite in_flat_map. split.
  - intros [[f' es'] [I J]]. cbn [fst snd] in J. apply in_map_iff in J. destruct J as [[n x] [J K]].
    cbn [fst snd] in J. injection J as J1 J2.
    rewrite Forall_forall in F. pose proof (F _ I) as [W1 W2]. cbn [snd] in W1, W2.
    assert (Hn : exists k', n = encoding_name k').
    { pose proof (in_map fst _ _ K) as M. cbn in M. rewrite W1, in_map_iff in M. destruct M as [k' [M _]]. now exists k'. }
    destruct Hn as [k' ->].
    apply newfontname_inj in J1; [|apply encoding_dashless|apply encoding_dashless].
    destruct J1 as [-> J1]. rewrite J1 in *.
    apply (in_dget _ _ _ N) in I. rewrite E in I. injection I as <-.
    assert (U : NoDup (map fst es)) by (rewrite W1; apply names_nodup).
    apply (in_dget _ _ _ U) in K. rewrite D in K. injection K as <-. now symmetry.
  - intros ->. exists (f, es). split; [now apply dget_in|]. cbn. apply in_map_iff.
    exists (encoding_name k, e). split; [reflexivity|now apply dget_in].
Qed.

(** the codes [cs], shown with the font called [f], are the glyphs [gs]: there is exactly one
    such font and its vector has the glyphs at the codes *)
Definition shows (all : list (string * option (list (option string)))) (f : string) (cs : list Z) (gs : list string) : Prop :=
  exists v, In (f, Some v) all /\ (forall v', In (f, v') all -> v' = Some v) /\ (length v <= 256)%nat /\
    Forall2 (fun g c => 0 <= c < 256 /\ nth_error v (Z.to_nat c) = Some (Some g)) gs cs.

Lemma shows_final : forall w k f es e gs cs, wgood w -> dget f w = Some es -> dget (encoding_name k) es = Some e ->
  Forall2 (fun g c => item g e = Some c) gs cs -> shows (fonts w) (newfontname f (encoding_name k)) cs gs.
Proof.
  intros w k f es e gs cs G E D C.
  assert (De : dense e).
  { pose proof G as [_ F]. rewrite Forall_forall in F. pose proof (F _ (dget_in _ _ _ E)) as [_ W].
    cbn in W. rewrite Forall_forall in W. exact (W _ (dget_in _ _ _ D)). }
  exists (map (fun gc : string * Z => Some (fst gc)) e). split; [|split; [|split]].
  - apply (fonts_unique w f k es e); try assumption. symmetry. now apply vector_dense.
  - intros v' I. apply (fonts_unique w f k es e) in I; try assumption. rewrite I. now apply vector_dense.
  - rewrite map_length. apply De.
  - destruct De as [S [_ L]]. clear - S L C. induction C as [|g c gs cs I C IH]; constructor; [|exact IH].
    destruct (item_nth e 0 g c S I) as [A B]. split; [lia|].
    rewrite Nat.sub_0_r in B. rewrite nth_error_map, B. reflexivity.
Qed.

Lemma Forall2_weaken : forall {A B} (P Q : A -> B -> Prop) l m, (forall a b, P a b -> Q a b) -> Forall2 P l m -> Forall2 Q l m.
Proof. intros A B P Q l m H F. induction F; constructor; auto. Qed.

Lemma texts_spec : forall ts w o w', Forall fair ts -> wgood w -> write_texts ts w = Some (o, w') ->
  wgood w' /\ wgrows w w' /\
  Forall2 (fun t fc => exists k, fst fc = newfontname (tfont t) (encoding_name k) /\ shows (fonts w') (fst fc) (snd fc) (tglyphs t)) ts o.
Proof.
  induction ts as [|t ts IH]; intros w o w' F G E; cbn [write_texts] in E.
  - injection E as <- <-. split; [exact G|]. split; [|constructor].
    intros f es H. exists es. split; [exact H|apply grows_refl].
  - inversion F as [|? ? F1 F2]; subst.
    destruct (write_text t w) as [[[f cs] w1]|] eqn:W; [|discriminate].
    destruct (write_texts ts w1) as [[o' w2]|] eqn:T; [|discriminate]. injection E as <- <-.
    destruct (write_spec _ _ _ _ _ F1 G W) as [G1 [R1 [k [es [e [-> [D1 [D2 D3]]]]]]]].
    destruct (IH _ _ _ F2 G1 T) as [G2 [R2 O]].
    split; [exact G2|]. split; [eapply wgrows_trans; eassumption|].
    constructor; [|exact O]. cbn. exists k. split; [reflexivity|].
    destruct (R2 _ _ D1) as [es' [D1' Gr]]. destruct (Gr _ _ D2) as [e' [D2' Ke]].
    eapply shows_final; [exact G2|exact D1'|exact D2'|].
    eapply Forall2_weaken; [|exact D3]. cbn. intros g c. apply Ke.
Qed.

Lemma wgood_nil : wgood []. Proof. split; constructor. Qed.

(** each text of a document, whatever texts are written before and after it, uses a re-encoded
    version of its font, and this font as written to the file at the end of the document
    shows the glyphs of the text *)
Theorem text_glyphs : forall ts o w, Forall fair ts -> write_texts ts [] = Some (o, w) ->
  Forall2 (fun t fc => exists k, fst fc = newfontname (tfont t) (encoding_name k) /\
                                 shows (fonts w) (fst fc) (snd fc) (tglyphs t)) ts o.
Proof. intros ts o w F E. exact (proj2 (proj2 (texts_spec ts [] o w F wgood_nil E))). Qed.
Print Assumptions text_glyphs.

Lemma get_total : forall gs es, (length gs <= 256)%nat -> exists r, getencodingname gs es = Some r.
Proof.
  intros gs es L. unfold getencodingname. destruct (Nat.ltb_spec 256 (length gs)) as [|_]; [lia|].
  destruct (find_encoding gs es) as [r|]; eexists; reflexivity.
Qed.

(** a document can be written if and only if no text has more than 256 different glyphs *)
Lemma texts_total : forall ts w, Forall fair ts -> wgood w ->
  ((exists r, write_texts ts w = Some r) <-> Forall (fun t => (length (tset t) <= 256)%nat) ts).
Proof.
  induction ts as [|t ts IH]; intros w F G; cbn [write_texts].
  - split; [constructor|now eexists].
  - inversion F as [|? ? F1 F2]; subst. split.
    + intros [r E]. destruct (write_text t w) as [[[f cs] w1]|] eqn:W; [|discriminate].
      constructor.
      * unfold write_text, getencodingname in W. destruct (Nat.ltb_spec 256 (length (tset t))) as [|L]; [discriminate|exact L].
      * apply (IH w1 F2); [eapply write_spec; eassumption|].
        destruct (write_texts ts w1) as [x|]; [now exists x|discriminate].
    + intros L. inversion L as [|? ? L1 L2]; subst.
      assert (W : exists f cs w1, write_text t w = Some (f, cs, w1)).
      { unfold write_text. fold (old (tfont t) w).
        destruct (get_total (tset t) (old (tfont t) w) L1) as [[name es'] X]. rewrite X.
        destruct F1 as [N Fa]. destruct (get_spec _ _ _ _ N (old_well _ _ G) X) as [_ [[_ [e [D I]]] _]].
        rewrite D. destruct (codes_total (tglyphs t) e) as [cs ->].
        - intros g Hg. apply I. now apply Fa.
        - now repeat eexists. }
      destruct W as [f [cs [w1 W]]]. rewrite W.
      destruct (proj2 (IH w1 F2 (proj1 (write_spec _ _ _ _ _ F1 G W))) L2) as [[o w2] E]. rewrite E. now eexists.
Qed.

Theorem texts_written : forall ts, Forall fair ts ->
  ((exists r, write_texts ts [] = Some r) <-> Forall (fun t => (length (tset t) <= 256)%nat) ts).
Proof. intros ts F. apply texts_total; [exact F|apply wgood_nil]. Qed.
Print Assumptions texts_written.

(** ** strings *)

Lemma octal3_read : forall v r, 0 <= v < 256 ->
  literal 0 (92 :: octal3 v ++ r) = cons_char v (literal 0 r).
Proof.
  intros v r B. unfold octal3.
  assert (A : 0 <= v / 64 < 4) by (split; [apply Z.div_pos; lia|apply Z.div_lt_upper_bound; lia]).
  assert (C : 0 <= v / 8 mod 8 < 8) by (apply Z.mod_pos_bound; lia).
  assert (D : 0 <= v mod 8 < 8) by (apply Z.mod_pos_bound; lia).
  assert (V : v = v / 64 * 64 + v / 8 mod 8 * 8 + v mod 8).
  { pose proof (Z.div_mod v 8 ltac:(lia)). pose proof (Z.div_mod (v / 8) 8 ltac:(lia)).
    rewrite Z.div_div in * by lia. change (8 * 8) with 64 in *. lia. }
  set (a := v / 64) in *. set (b := v / 8 mod 8) in *. set (c := v mod 8) in *. clearbody a b c.
  assert (Oa : octal (48 + a) = true) by (unfold octal; lia).
  assert (Ob : octal (48 + b) = true) by (unfold octal; lia).
  assert (Oc : octal (48 + c) = true) by (unfold octal; lia).
  change ([48 + a; 48 + b; 48 + c] ++ r) with (48 + a :: 48 + b :: 48 + c :: r).
  cbn [literal]. change (92 =? 41) with false. change (92 =? 40) with false. change (92 =? 92) with true. cbv iota.
  replace (48 + a =? 10) with false by lia. replace (48 + a =? 13) with false by lia.
  rewrite Oa, Ob, Oc. f_equal. rewrite Z.mod_small; lia.
Qed.

Lemma plain_read : forall v r, 32 <= v -> special v = false -> literal 0 (v :: r) = cons_char v (literal 0 r).
Proof.
  intros v r B S. unfold special in S. cbn [existsb] in S. cbn [literal].
  replace (v =? 41) with false by lia. replace (v =? 40) with false by lia.
  replace (v =? 92) with false by lia. replace (v =? 13) with false by lia. reflexivity.
Qed.

Lemma ps_char_read : forall v r, 0 <= v < 256 -> literal 0 (ps_char v ++ r) = cons_char v (literal 0 r).
Proof.
  intros v r B. unfold ps_char. destruct (special v) eqn:S.
  - rewrite andb_false_r. now apply octal3_read.
  - destruct ((32 <? v) && (v <? 127) && negb false) eqn:E; [apply plain_read; [lia|exact S]|now apply octal3_read].
Qed.
Lemma pdf_char_read : forall v r, 0 <= v < 256 -> literal 0 (pdf_char v ++ r) = cons_char v (literal 0 r).
Proof.
  intros v r B. unfold pdf_char. destruct (special v) eqn:S.
  - rewrite andb_false_r. now apply octal3_read.
  - destruct ((32 <=? v) && (v <=? 127) && negb false) eqn:E; [apply plain_read; [lia|exact S]|now apply octal3_read].
Qed.

(** the characters written for codes up to the closing parenthesis are read back as the codes,
    with nothing taken from what follows *)
Theorem text_strings : forall cs rest, Forall (fun c => 0 <= c < 256) cs ->
  literal 0 (flat_map ps_char cs ++ 41 :: rest) = Some (cs, rest) /\
  literal 0 (flat_map pdf_char cs ++ 41 :: rest) = Some (cs, rest).
Proof.
  intros cs rest F. induction F as [|c cs B F [IH1 IH2]]; [split; reflexivity|].
  cbn [flat_map]. rewrite <- !app_assoc, ps_char_read, pdf_char_read by exact B.
  rewrite IH1, IH2. split; reflexivity.
Qed.
Print Assumptions text_strings.

(** all characters are printable or the space: no line ends or control characters *)
Theorem text_strings_printable : forall cs, Forall (fun c => 0 <= c < 256) cs ->
  Forall (fun c => 32 < c < 127) (flat_map ps_char cs) /\ Forall (fun c => 32 <= c <= 127) (flat_map pdf_char cs).
Proof.
  assert (O : forall c, 0 <= c < 256 -> Forall (fun c => 32 < c < 127) (92 :: octal3 c)).
  { intros c B. unfold octal3.
    assert (A : 0 <= c / 64 < 4) by (split; [apply Z.div_pos; lia|apply Z.div_lt_upper_bound; lia]).
    assert (C : 0 <= c / 8 mod 8 < 8) by (apply Z.mod_pos_bound; lia).
    assert (D : 0 <= c mod 8 < 8) by (apply Z.mod_pos_bound; lia).
    repeat (apply Forall_cons; [lia|]). apply Forall_nil. }
  intros cs F. induction F as [|c cs B F [IH1 IH2]]; [split; constructor|].
  cbn [flat_map]. split; apply Forall_app; (split; [|assumption]).
  - unfold ps_char. destruct ((32 <? c) && (c <? 127) && negb (special c)) eqn:E; [constructor; [lia|constructor]|now apply O].
  - unfold pdf_char. destruct ((32 <=? c) && (c <=? 127) && negb (special c)) eqn:E; [constructor; [lia|constructor]|].
    eapply Forall_impl; [|now apply O]. cbn. lia.
Qed.
Print Assumptions text_strings_printable.

Section Examples.
Local Open Scope string_scope.

(** three texts in two fonts: the second text of the first font adds a glyph to the encoding
    already used by the first one *)
Example ex_texts :
  let ts := [mktext "F" ["a"; "b"; "a"] ["b"; "a"]; mktext "G" ["x"] ["x"]; mktext "F" ["c"; "a"] ["a"; "c"]] in
  write_texts ts [] =
    Some ([("F-encoding0", [1; 0; 1]); ("G-encoding0", [0]); ("F-encoding0", [2; 1])],
          [("F", [("encoding0", [("b", 0); ("a", 1); ("c", 2)])]); ("G", [("encoding0", [("x", 0)])])])
  /\ fonts [("F", [("encoding0", [("b", 0); ("a", 1); ("c", 2)])]); ("G", [("encoding0", [("x", 0)])])]
     = [("F-encoding0", Some [Some "b"; Some "a"; Some "c"]); ("G-encoding0", Some [Some "x"])]
  /\ Forall fair ts.
Proof.
  cbv zeta. split; [reflexivity|]. split; [reflexivity|].
  repeat (apply Forall_cons; [split; [cbn; repeat (apply NoDup_cons; [cbn; intuition discriminate|]); apply NoDup_nil
                                     |intros g; cbn; intuition]|]).
  apply Forall_nil.
Qed.
Example ex_strings : flat_map ps_char [65; 40; 32; 200; 127] = [65; 92; 48; 53; 48; 92; 48; 52; 48; 92; 51; 49; 48; 92; 49; 55; 55]
  /\ flat_map pdf_char [65; 40; 32; 200; 127] = [65; 92; 48; 53; 48; 32; 92; 51; 49; 48; 127].
Proof. split; reflexivity. Qed.
End Examples.
