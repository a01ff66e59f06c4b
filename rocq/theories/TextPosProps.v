(** C127: a text with kerning and additional space has its glyphs at the same places in all
    output formats and as path, and the bounding box ends at the end of the last glyph. *)
From Coq Require Import ZArith Ascii String List Bool Lia Reals.
From Verif Require Import PdfSpec TextEncModel TextEncProps TextPosModel TextPosSpec.
From Coq Require Import Lra.
Import ListNotations.
Local Open Scope R_scope.

Lemma Reqb_true : forall a, Reqb a a = true.
Proof. intros a. unfold Reqb. destruct (Req_EM_T a a); [reflexivity|contradiction]. Qed.
Lemma Reqb_false : forall a b, a <> b -> Reqb a b = false.
Proof. intros a b N. unfold Reqb. destruct (Req_EM_T a b); [contradiction|reflexivity]. Qed.
Lemma Reqb_eq : forall a b, Reqb a b = true -> a = b.
Proof. intros a b. unfold Reqb. destruct (Req_EM_T a b); [auto|discriminate]. Qed.

(** ** the data of a text as entries after the first glyph *)

(** kerning, value, code and glyph *)
Definition entry := (option R * value * Z * string)%type.

Definition flat (kerning : bool) (l : list entry) : list value :=
  flat_map (fun en => match en with (k, v, _, _) => if kerning then [Num k; v] else [v] end) l.

Definition entry_ok (kerning : bool) (e : enc) (glyph : Z -> option string) (en : entry) : Prop :=
  match en with (k, v, c, g) =>
    code_of e v = Some c /\ (0 <= c < 256)%Z /\ glyph c = Some g /\ (kerning = false -> k = None)
  end.

Definition dx (spaced : R) (k : option R) : R := match k with Some k => k + spaced | None => spaced end.

Fixpoint lay (width : string -> R) (spaced y x : R) (l : list entry) : list glyphat :=
  match l with
  | [] => []
  | (k, _, _, g) :: r => (x + dx spaced k, y, g) :: lay width spaced y (x + dx spaced k + width g) r
  end.

Definition parity (kerning : bool) (i : nat) : Prop := if kerning then Nat.odd i = true else (0 < i)%nat.

(** ** strings *)

Definition cgs := list (Z * string).
Definition cg_ok (glyph : Z -> option string) (p : Z * string) : Prop := (0 <= fst p < 256)%Z /\ glyph (fst p) = Some (snd p).

Fixpoint shown (width : string -> R) (x y : R) (p : cgs) : list glyphat :=
  match p with [] => [] | (_, g) :: r => (x, y, g) :: shown width (x + width g) y r end.
Fixpoint ends (width : string -> R) (x : R) (p : cgs) : R :=
  match p with [] => x | (_, g) :: r => ends width (x + width g) r end.

Lemma show_spec : forall glyph width p x y, Forall (cg_ok glyph) p ->
  show glyph width x y (map fst p) = Some (shown width x y p, ends width x p).
Proof.
  induction p as [|[c g] p IH]; intros x y F; cbn; [reflexivity|].
  inversion F as [|? ? [_ F1] F2]; subst. cbn in F1. rewrite F1, IH by exact F2. reflexivity.
Qed.

Lemma shown_app : forall width p q x y, shown width x y (p ++ q) = shown width x y p ++ shown width (ends width x p) y q.
Proof. induction p as [|[c g] p IH]; intros q x y; cbn; [reflexivity|]. now rewrite IH. Qed.
Lemma ends_app : forall width p q x, ends width x (p ++ q) = ends width (ends width x p) q.
Proof. induction p as [|[c g] p IH]; intros q x; cbn; [reflexivity|]. now rewrite IH. Qed.

Lemma read_ps : forall glyph p, Forall (cg_ok glyph) p -> readstring (flat_map ps_char (map fst p)) = Some (map fst p).
Proof.
  intros glyph p F. unfold readstring.
  destruct (text_strings (map fst p) []) as [-> _]; [|reflexivity].
  apply Forall_map. eapply Forall_impl; [|exact F]. intros a [H _]. exact H.
Qed.
Lemma read_pdf : forall glyph p, Forall (cg_ok glyph) p -> readstring (flat_map pdf_char (map fst p)) = Some (map fst p).
Proof.
  intros glyph p F. unfold readstring.
  destruct (text_strings (map fst p) []) as [_ ->]; [|reflexivity].
  apply Forall_map. eapply Forall_impl; [|exact F]. intros a [H _]. exact H.
Qed.

Lemma flat_map_snoc : forall {A B} (f : A -> list B) l a, flat_map f (l ++ [a]) = flat_map f l ++ f a.
Proof. intros. rewrite flat_map_app. cbn. now rewrite app_nil_r. Qed.

Lemma odd_SS : forall i, Nat.odd i = true -> Nat.odd (S i) = false.
Proof. intros i H. rewrite Nat.odd_succ, <- Nat.negb_odd, H. reflexivity. Qed.
Lemma odd_next : forall i, Nat.odd i = true -> Nat.odd (S (S i)) = true.
Proof. intros i H. exact H. Qed.

(** ** PostScript *)

Section PS.
Variables (glyph : Z -> option string) (width : string -> R) (kerning : bool) (spaced : R) (e : enc).

Lemma ps_end : forall p x y, Forall (cg_ok glyph) p ->
  ps_run glyph width (Some (x, y)) None [PSstring (flat_map ps_char (map fst p)); PSshow] = Some (shown width x y p).
Proof.
  intros p x y F. cbn [ps_run]. rewrite (read_ps glyph) by exact F. rewrite show_spec by exact F.
  now rewrite app_nil_r.
Qed.

Lemma ps_step : forall p x y d ops, Forall (cg_ok glyph) p ->
  ps_run glyph width (Some (x, y)) None ([PSstring (flat_map ps_char (map fst p)); PSshow; PSrmoveto d 0] ++ ops) =
  match ps_run glyph width (Some (ends width x p + d, y + 0)) None ops with
  | Some l => Some (shown width x y p ++ l) | None => None end.
Proof.
  intros p x y d ops F. cbn [app ps_run]. rewrite (read_ps glyph) by exact F. rewrite show_spec by exact F. reflexivity.
Qed.

Lemma ps_rest : forall l i p, Forall (entry_ok kerning e glyph) l -> parity kerning i -> Forall (cg_ok glyph) p ->
  exists ops, ps_loop kerning spaced e i (flat kerning l) (flat_map ps_char (map fst p)) = Some ops /\
    forall x y, ps_run glyph width (Some (x, y)) None ops = Some (shown width x y p ++ lay width spaced y (ends width x p) l).
Proof.
  induction l as [|[[[k v] c] g] l IH]; intros i p F P Q.
  - exists [PSstring (flat_map ps_char (map fst p)); PSshow]. split; [reflexivity|].
    intros x y. rewrite ps_end by exact Q. cbn. now rewrite app_nil_r.
  - pose proof (Forall_inv_tail F) as F2. destruct (Forall_inv F) as [E [B [G K]]].
    assert (C1 : cg_ok glyph (c, g)) by (split; assumption).
    assert (Nil : forall j, parity kerning j -> exists ops,
              ps_loop kerning spaced e j (flat kerning l) (ps_char c) = Some ops /\
              forall x y, ps_run glyph width (Some (x, y)) None ops = Some ((x, y, g) :: lay width spaced y (x + width g) l)).
    { intros j Pj. destruct (IH j [(c, g)] F2 Pj) as [ops [O R]]; [now constructor|].
      cbn in O. rewrite app_nil_r in O. exists ops. split; [exact O|]. intros x y. rewrite R. reflexivity. }
    assert (More : forall j, parity kerning j -> spaced = 0 -> k = None -> exists ops,
              ps_loop kerning spaced e j (flat kerning l) (flat_map ps_char (map fst p) ++ ps_char c) = Some ops /\
              forall x y, ps_run glyph width (Some (x, y)) None ops =
                Some (shown width x y p ++ (ends width x p + dx spaced k, y, g) :: lay width spaced y (ends width x p + dx spaced k + width g) l)).
    { intros j Pj S0 K0. subst k. destruct (IH j (p ++ [(c, g)]) F2 Pj) as [ops [O R]].
      - apply Forall_app. split; [exact Q|now constructor].
      - rewrite map_app in O. cbn [map fst] in O. rewrite flat_map_snoc in O. exists ops. split; [exact O|].
        intros x y. rewrite R, shown_app, ends_app, <- app_assoc. cbn [dx shown ends app]. rewrite S0, Rplus_0_r. reflexivity. }
    destruct kerning eqn:KE; cbn [parity] in P.
    + change (flat true ((k, v, c, g) :: l)) with (Num k :: v :: flat true l).
      assert (O1 := odd_SS i P). assert (O2 := odd_next i P).
      cbn [ps_loop]. rewrite P, O1, E. cbn [andb negb]. rewrite andb_false_r. cbn [andb].
      destruct k as [k|].
      * destruct (Nil (S (S i)) O2) as [ops [O R]]. cbn [app]. rewrite O. eexists. split; [reflexivity|].
        intros x y. cbn [ocons]. rewrite ps_step by exact Q. rewrite R. cbn [lay dx]. now rewrite Rplus_0_r.
      * destruct (Reqb spaced 0) eqn:Z0; cbn [negb].
        -- destruct (More (S (S i)) O2 (Reqb_eq _ _ Z0) eq_refl) as [ops [O R]].
           exists ops. split; [exact O|]. intros x y. rewrite R. reflexivity.
        -- destruct (Nil (S (S i)) O2) as [ops [O R]]. cbn [app]. rewrite O. eexists. split; [reflexivity|].
           intros x y. cbn [ocons]. rewrite ps_step by exact Q. rewrite R. cbn [lay dx]. now rewrite Rplus_0_r.
    + change (flat false ((k, v, c, g) :: l)) with (v :: flat false l). rewrite (K eq_refl) in *.
      cbn [ps_loop andb negb]. rewrite E. rewrite (proj2 (Nat.ltb_lt 0 i) P). cbn [andb].
      assert (O2 : parity false (S i)) by (cbn; lia).
      destruct (Reqb spaced 0) eqn:Z0; cbn [negb].
      * destruct (More (S i) O2 (Reqb_eq _ _ Z0) eq_refl) as [ops [O R]].
        exists ops. split; [exact O|]. intros x y. rewrite R. reflexivity.
      * destruct (Nil (S i) O2) as [ops [O R]]. rewrite O. eexists. split; [reflexivity|].
        intros x y. cbn [ocons]. rewrite ps_step by exact Q. rewrite R. cbn [lay dx]. now rewrite Rplus_0_r.
Qed.
End PS.

(** ** PDF *)

Section PDF.
Variables (glyph : Z -> option string) (width : string -> R) (size : R) (kerning : bool) (spaced : R) (e : enc).

Definition flatten (d : list glyphat) : list (R * string) := map (fun a => (fst (fst a), snd a)) d.
(** the entries with kernings and space in points *)
Definition inpt (l : list entry) : list entry :=
  map (fun en => match en with (k, v, c, g) => (match k with Some k => Some (k / 1000 * size) | None => None end, v, c, g) end) l.

Lemma tj_step : forall p t n ops, Forall (cg_ok glyph) p ->
  tj_run glyph width size t ([TJstring (flat_map pdf_char (map fst p)); TJnumber n] ++ ops) =
  match tj_run glyph width size (ends width t p - n / 1000 * size) ops with
  | Some l => Some (flatten (shown width t 0 p) ++ l) | None => None end.
Proof.
  intros p t n ops F. cbn [app tj_run]. rewrite (read_pdf glyph) by exact F. rewrite show_spec by exact F. reflexivity.
Qed.

Lemma pdf_rest : forall l i p, Forall (entry_ok kerning e glyph) l -> parity kerning i -> Forall (cg_ok glyph) p ->
  exists ops, pdf_loop kerning spaced e i (flat kerning l) (flat_map pdf_char (map fst p)) = Some ops /\
    forall t, tj_run glyph width size t ops =
      Some (flatten (shown width t 0 p ++ lay width (spaced / 1000 * size) 0 (ends width t p) (inpt l))).
Proof.
  induction l as [|[[[k v] c] g] l IH]; intros i p F P Q.
  - exists [TJstring (flat_map pdf_char (map fst p))]. split; [reflexivity|].
    intros t. cbn [tj_run]. rewrite (read_pdf glyph) by exact Q. rewrite show_spec by exact Q. cbn.
    now rewrite !app_nil_r.
  - pose proof (Forall_inv_tail F) as F2. destruct (Forall_inv F) as [E [B [G K]]].
    assert (C1 : cg_ok glyph (c, g)) by (split; assumption).
    assert (Nil : forall j, parity kerning j -> exists ops,
              pdf_loop kerning spaced e j (flat kerning l) (pdf_char c) = Some ops /\
              forall t, tj_run glyph width size t ops = Some ((t, g) :: flatten (lay width (spaced / 1000 * size) 0 (t + width g) (inpt l)))).
    { intros j Pj. destruct (IH j [(c, g)] F2 Pj) as [ops [O R]]; [now constructor|].
      cbn in O. rewrite app_nil_r in O. exists ops. split; [exact O|]. intros t. rewrite R. reflexivity. }
    assert (More : forall j, parity kerning j -> spaced = 0 -> k = None -> exists ops,
              pdf_loop kerning spaced e j (flat kerning l) (flat_map pdf_char (map fst p) ++ pdf_char c) = Some ops /\
              forall t, tj_run glyph width size t ops =
                Some (flatten (shown width t 0 p ++ lay width (spaced / 1000 * size) 0 (ends width t p) (inpt ((k, v, c, g) :: l))))).
    { intros j Pj S0 K0. subst k. destruct (IH j (p ++ [(c, g)]) F2 Pj) as [ops [O R]].
      - apply Forall_app. split; [exact Q|now constructor].
      - rewrite map_app in O. cbn [map fst] in O. rewrite flat_map_snoc in O. exists ops. split; [exact O|].
        intros t. rewrite R, shown_app, ends_app, <- app_assoc. cbn [dx shown ends app inpt map lay].
        replace (spaced / 1000 * size) with 0 by (rewrite S0; lra). rewrite Rplus_0_r. reflexivity. }
    destruct kerning eqn:KE; cbn [parity] in P.
    + change (flat true ((k, v, c, g) :: l)) with (Num k :: v :: flat true l).
      assert (O1 := odd_SS i P). assert (O2 := odd_next i P).
      cbn [pdf_loop]. rewrite P, O1, E. cbn [andb negb]. rewrite andb_false_r. cbn [andb].
      destruct k as [k|].
      * destruct (Nil (S (S i)) O2) as [ops [O R]]. cbn [app]. rewrite O. eexists. split; [reflexivity|].
        intros t. cbn [ocons]. rewrite tj_step by exact Q. rewrite R. unfold flatten. rewrite map_app. cbn [lay dx inpt map fst snd].
        replace (ends width t p - (- k - spaced) / 1000 * size) with (ends width t p + (k / 1000 * size + spaced / 1000 * size)) by lra.
        reflexivity.
      * destruct (Reqb spaced 0) eqn:Z0; cbn [negb].
        -- destruct (More (S (S i)) O2 (Reqb_eq _ _ Z0) eq_refl) as [ops [O R]].
           exists ops. split; [exact O|]. exact R.
        -- destruct (Nil (S (S i)) O2) as [ops [O R]]. cbn [app]. rewrite O. eexists. split; [reflexivity|].
           intros t. cbn [ocons]. rewrite tj_step by exact Q. rewrite R. unfold flatten. rewrite map_app. cbn [lay dx inpt map fst snd].
           replace (ends width t p - (- spaced) / 1000 * size) with (ends width t p + spaced / 1000 * size) by lra.
           reflexivity.
    + change (flat false ((k, v, c, g) :: l)) with (v :: flat false l). rewrite (K eq_refl) in *.
      cbn [pdf_loop andb negb]. rewrite E. rewrite (proj2 (Nat.ltb_lt 0 i) P). cbn [andb].
      assert (O2 : parity false (S i)) by (cbn; lia).
      destruct (Reqb spaced 0) eqn:Z0; cbn [negb].
      * destruct (More (S i) O2 (Reqb_eq _ _ Z0) eq_refl) as [ops [O R]].
        exists ops. split; [exact O|]. exact R.
      * destruct (Nil (S i) O2) as [ops [O R]]. rewrite O. eexists. split; [reflexivity|].
        intros t. cbn [ocons]. rewrite tj_step by exact Q. rewrite R. unfold flatten. rewrite map_app. cbn [lay dx inpt map fst snd].
        replace (ends width t p - (- spaced) / 1000 * size) with (ends width t p + spaced / 1000 * size) by lra.
        reflexivity.
Qed.
End PDF.

(** ** SVG *)

Section SVG.
Variables (glyph : Z -> option string) (width : string -> R) (kerning : bool) (spaced : R) (chars : value -> option Z).

Definition svg_ok (en : entry) : Prop :=
  match en with (k, v, c, g) => chars v = Some c /\ glyph c = Some g /\ (kerning = false -> k = None) end.

Definition dep (tspan : bool) : nat := if tspan then 2 else 1.

Lemma svg_rest : forall l i tspan, Forall svg_ok l -> parity kerning i ->
  exists evs, svg_loop kerning spaced chars tspan i (flat kerning l) = Some evs /\
    forall x y, svg_run glyph width (dep tspan) x y 0 evs = Some (lay width spaced (- y) x l).
Proof.
  induction l as [|[[[k v] c] g] l IH]; intros i tspan F P.
  - eexists. split; [reflexivity|]. intros x y. destruct tspan; reflexivity.
  - pose proof (Forall_inv_tail F) as F2. destruct (Forall_inv F) as [E [G K]].
    assert (Op : forall evs d, (forall x y, svg_run glyph width (dep true) x y 0 evs = Some (lay width spaced (- y) x l)) ->
              forall x y, svg_run glyph width (dep tspan) x y 0 (reopen tspan d ++ [SVGchar c] ++ evs) =
                          Some ((x + d, - y, g) :: lay width spaced (- y) (x + d + width g) l)).
    { intros evs d R x y. unfold reopen, dep. destruct tspan; cbn [app svg_run]; rewrite G;
        specialize (R (x + d + width g) y); cbn [dep] in R; rewrite R; reflexivity. }
    assert (No : forall evs, (forall x y, svg_run glyph width (dep tspan) x y 0 evs = Some (lay width spaced (- y) x l)) ->
              forall x y, svg_run glyph width (dep tspan) x y 0 ([SVGchar c] ++ evs) =
                          Some ((x + 0, - y, g) :: lay width spaced (- y) (x + 0 + width g) l)).
    { intros evs R x y. cbn [app svg_run]. rewrite G, R. unfold dep. destruct tspan; reflexivity. }
    destruct kerning eqn:KE; cbn [parity] in P.
    + change (flat true ((k, v, c, g) :: l)) with (Num k :: v :: flat true l).
      assert (O1 := odd_SS i P). assert (O2 := odd_next i P).
      cbn [svg_loop]. rewrite P, O1, E. cbn [andb negb]. rewrite andb_false_r. cbn [andb].
      destruct k as [k|].
      * destruct (IH (S (S i)) true F2 O2) as [evs [O R]]. rewrite O. eexists. split; [reflexivity|].
        cbn [lay dx]. apply Op. exact R.
      * destruct (Reqb spaced 0) eqn:Z0; cbn [negb].
        -- destruct (IH (S (S i)) tspan F2 O2) as [evs [O R]]. rewrite O. eexists. split; [reflexivity|].
           cbn [lay dx]. apply Reqb_eq in Z0. intros x y. replace (x + spaced) with (x + 0) by (rewrite Z0; reflexivity). exact (No _ R x y).
        -- destruct (IH (S (S i)) true F2 O2) as [evs [O R]]. rewrite O. eexists. split; [reflexivity|].
           cbn [lay dx]. apply Op. exact R.
    + change (flat false ((k, v, c, g) :: l)) with (v :: flat false l). rewrite (K eq_refl) in *.
      cbn [svg_loop andb negb]. rewrite E. rewrite (proj2 (Nat.ltb_lt 0 i) P). cbn [andb].
      assert (O2 : parity false (S i)) by (cbn; lia).
      destruct (Reqb spaced 0) eqn:Z0; cbn [negb].
      * destruct (IH (S i) tspan F2 O2) as [evs [O R]]. rewrite O. eexists. split; [reflexivity|].
        cbn [lay dx]. apply Reqb_eq in Z0. intros x y. replace (x + spaced) with (x + 0) by (rewrite Z0; reflexivity). exact (No _ R x y).
      * destruct (IH (S i) true F2 O2) as [evs [O R]]. rewrite O. cbn [ocons]. rewrite <- app_assoc.
        eexists. split; [reflexivity|]. cbn [lay dx]. apply Op. exact R.
Qed.
End SVG.

(** ** path *)

Section Path.
Variables (width : string -> R) (kerning : bool) (spaced : R) (name : value -> option string) (advance : value -> R * R).

Definition path_ok (en : entry) : Prop :=
  match en with (k, v, c, g) =>
    name v = Some g /\ advance v = (width g, 0) /\ (forall n, v <> Num n) /\ (kerning = false -> k = None) end.

Fixpoint named (l : list (R * R * value)) : option (list glyphat) :=
  match l with
  | [] => Some []
  | (x, y, v) :: r => match name v, named r with Some g, Some r' => Some ((x, y, g) :: r') | _, _ => None end
  end.

Lemma path_rest : forall l i x y, Forall path_ok l -> parity kerning i ->
  exists ps, path_loop kerning spaced advance x y i (flat kerning l) = Some ps /\ named ps = Some (lay width spaced y x l).
Proof.
  induction l as [|[[[k v] c] g] l IH]; intros i x y F P.
  - eexists. split; reflexivity.
  - pose proof (Forall_inv_tail F) as F2. destruct (Forall_inv F) as [E [A [N K]]].
    assert (St : forall j x' , (0 < j)%nat -> (kerning && Nat.odd j = false) -> parity kerning (S j) ->
       exists ps, path_loop kerning spaced advance x' y j (v :: flat kerning l) = Some ps /\
                  named ps = Some ((x' + spaced, y, g) :: lay width spaced y (x' + spaced + width g) l)).
    { intros j x' J O Pj. cbn [path_loop]. rewrite O, (proj2 (Nat.ltb_lt 0 j) J), A. cbn [fst snd].
      destruct (IH (S j) (x' + spaced + width g) (y + 0) F2 Pj) as [ps [S1 S2]]. rewrite S1.
      exists ((x' + spaced, y, v) :: ps). split.
      - destruct v as [s|z|n]; [reflexivity|reflexivity|exfalso; exact (N n eq_refl)].
      - cbn [named]. rewrite E, S2, Rplus_0_r. reflexivity. }
    destruct kerning eqn:KE; cbn [parity] in P.
    + change (flat true ((k, v, c, g) :: l)) with (Num k :: v :: flat true l).
      assert (O1 := odd_SS i P). assert (O2 := odd_next i P).
      destruct k as [k|].
      * destruct (St (S i) (x + k)) as [ps [S1 S2]]; [lia|now rewrite O1|exact O2|].
        exists ps. split; [cbn [path_loop]; rewrite P; cbn [andb]; exact S1|].
        rewrite S2. cbn [lay dx]. now rewrite !Rplus_assoc.
      * destruct (St (S i) x) as [ps [S1 S2]]; [lia|now rewrite O1|exact O2|].
        exists ps. split; [cbn [path_loop]; rewrite P; cbn [andb]; exact S1|]. rewrite S2. reflexivity.
    + change (flat false ((k, v, c, g) :: l)) with (v :: flat false l). rewrite (K eq_refl) in *.
      destruct (St i x) as [ps [S1 S2]]; [exact P|reflexivity|cbn; lia|].
      exists ps. split; [exact S1|]. rewrite S2. reflexivity.
Qed.
End Path.


(** ** entries of a text *)

(** the entries after the first glyph *)
Fixpoint kern_entries (kern : string -> string -> option R) (scale : R) (e : enc) (prev : string) (gs : list string) : list entry :=
  match gs with
  | [] => []
  | h :: r =>
      (match kern prev h with Some k => Some (k * scale) | None => None end, Name h,
       match item h e with Some c => c | None => 0%Z end, h) :: kern_entries kern scale e h r
  end.

Lemma kern_flat : forall kern scale e gs prev,
  resolvekernings kern scale (prev :: gs) = Name prev :: flat true (kern_entries kern scale e prev gs).
Proof.
  induction gs as [|h gs IH]; intros prev; [reflexivity|].
  change (resolvekernings kern scale (prev :: h :: gs)) with
    (Name prev :: Num (match kern prev h with Some k => Some (k * scale) | None => None end) :: resolvekernings kern scale (h :: gs)).
  rewrite IH. reflexivity.
Qed.

Definition plain_entries (vs : list (value * Z * string)) : list entry := map (fun p => (None, fst (fst p), snd (fst p), snd p)) vs.

(** the text as first entry and the others; [scale] is that of the kernings *)
Definition name_of (glyph : Z -> option string) (v : value) : option string :=
  match v with Name g => Some g | Code c => glyph c | Num _ => None end.

Lemma asks_entries : forall kern scale e glyph t gs g, asks e glyph t (g :: gs) ->
  exists v c l, data kern scale t = v :: flat (kerning t) l /\
    Forall (entry_ok (kerning t) e glyph) ((None, v, c, g) :: l) /\
    Forall (fun en => match en with (_, v, c, g) => (decode t = true -> v = Name g) /\ (decode t = false -> v = Code c) end) ((None, v, c, g) :: l) /\
    forall (width : string -> R) y x, laid width (fun a b => (if kerning t then match kern a b with Some k => k * scale | None => 0 end else 0) + spaced_pt t) y x
      (g :: gs) ((x, y, g) :: lay width (spaced_pt t) y (x + width g) l).
Proof.
  intros kern scale e glyph t gs g A. unfold asks in A. unfold data. destruct (decode t).
  - destruct A as [E F]. rewrite E. destruct (kerning t).
    + destruct (Forall_inv F) as [c [I [B G]]]. exists (Name g), c, (kern_entries kern scale e g gs).
      split; [apply kern_flat|]. split; [|split].
      * constructor; [split; [exact I|split; [exact B|split; [exact G|discriminate]]]|].
        apply Forall_inv_tail in F. clear - F. revert g. induction F as [|h gs [c [I [B G]]] F IH]; intros g; cbn; constructor.
        -- cbn. rewrite I. split; [reflexivity|split; [exact B|split; [exact G|discriminate]]].
        -- apply IH.
      * constructor; [split; [reflexivity|discriminate]|]. clear. revert g. induction gs as [|h gs IH]; intros g; cbn; constructor; [split; [reflexivity|discriminate]|apply IH].
      * clear. intros width y x. revert g x. induction gs as [|h gs IH]; intros g x; [apply laid_last|].
        cbn [kern_entries lay]. apply laid_next.
        replace (dx (spaced_pt t) match kern g h with Some k => Some (k * scale) | None => None end)
          with (match kern g h with Some k => k * scale | None => 0 end + spaced_pt t)
          by (destruct (kern g h); cbn; lra).
        apply IH.
    + set (q := fun h : string => (None, Name h, match item h e with Some c => c | None => 0%Z end, h) : entry).
      destruct (Forall_inv F) as [c [I [B G]]]. exists (Name g), c, (map q gs).
      split; [|split; [|split]].
      * cbn. f_equal. clear. induction gs as [|h gs IH]; cbn; [reflexivity|]. now rewrite IH.
      * constructor; [split; [exact I|split; [exact B|split; [exact G|reflexivity]]]|].
        apply Forall_inv_tail in F. clear - F. induction F as [|h gs [c [I [B G]]] F IH]; cbn; constructor; [|exact IH].
        unfold q. cbn. rewrite I. split; [reflexivity|split; [exact B|split; [exact G|reflexivity]]].
      * constructor; [split; [reflexivity|discriminate]|]. clear. induction gs as [|h gs IH]; cbn; constructor; [split; [reflexivity|discriminate]|apply IH].
      * clear. intros width y x. revert g x. induction gs as [|h gs IH]; intros g x; [apply laid_last|].
        cbn [map lay q dx]. replace (x + width g + spaced_pt t) with (x + width g + (0 + spaced_pt t)) by lra. apply laid_next. apply IH.
  - destruct A as [-> F]. destruct (charcodes t) as [|c cs]; [inversion F|].
    assert (B : (0 <= c < 256)%Z /\ glyph c = Some g) by now inversion F.
    assert (F2 : Forall2 (fun c g => (0 <= c < 256)%Z /\ glyph c = Some g) cs gs) by now inversion F.
    set (q := fun p : Z * string => (None, Code (fst p), fst p, snd p) : entry).
    exists (Code c), c, (map q (combine cs gs)). clear F. split; [|split; [|split]].
    + cbn. f_equal. clear B. induction F2 as [|d h cs gs _ F IH]; cbn; [reflexivity|]. now rewrite IH.
    + constructor; [split; [reflexivity|split; [apply B|split; [apply B|reflexivity]]]|].
      clear B. induction F2 as [|d h cs gs H F IH]; cbn; constructor; [|exact IH].
      split; [reflexivity|split; [apply H|split; [apply H|reflexivity]]].
    + constructor; [split; [discriminate|reflexivity]|]. clear. generalize (combine cs gs). intros l.
      induction l as [|p l IH]; cbn; constructor; [split; [discriminate|reflexivity]|exact IH].
    + clear B. intros width y x. revert g x. induction F2 as [|d h cs gs H F IH]; intros g x; [apply laid_last|].
      cbn [combine map lay q dx snd fst]. replace (x + width g + spaced_pt t) with (x + width g + (0 + spaced_pt t)) by lra. apply laid_next. apply IH.
Qed.

(** ** the theorems *)

(** PostScript: the operators draw the glyphs of the text, each at the distance of width,
    kerning and space from the one before; nothing is left on the stack *)
Theorem text_postscript : forall kern e glyph width t gs, asks e glyph t gs ->
  exists ops ds, processPS kern e t = Some ops /\ ps_run glyph (scaled width t) None None ops = Some ds /\
    laid (scaled width t) (gap kern t) (y_pt t) (x_pt t) gs ds.
Proof.
  intros kern e glyph width t [|g gs] A.
  - exists [PSmoveto (x_pt t) (y_pt t); PSstring []; PSshow], [].
    split; [|split; [reflexivity|constructor]]. unfold processPS, data, asks in *. destruct (decode t).
    + destruct A as [-> _]. destruct (kerning t); reflexivity.
    + destruct A as [_ A]. inversion A. reflexivity.
  - destruct (asks_entries kern (size_pt t / 1000) e glyph t gs g A) as [v [c [l [D [F [_ L]]]]]].
    pose proof (Forall_inv F) as [E [B [G _]]].
    assert (P : parity (kerning t) 1) by (destruct (kerning t); cbn; [reflexivity|lia]).
    destruct (ps_rest glyph (scaled width t) (kerning t) (spaced_pt t) e l 1 [(c, g)] (Forall_inv_tail F) P) as [ops [O R]].
    { constructor; [now split|constructor]. }
    cbn [map fst flat_map] in O. rewrite app_nil_r in O.
    exists (PSmoveto (x_pt t) (y_pt t) :: ops). eexists. split; [|split].
    + unfold processPS. rewrite D. cbn [ps_loop]. rewrite andb_false_r, E. cbn [Nat.ltb Nat.leb andb app]. rewrite O. reflexivity.
    + cbn [ps_run]. rewrite R. reflexivity.
    + exact (L (scaled width t) (y_pt t) (x_pt t)).
Qed.
Print Assumptions text_postscript.

(** PDF: the same places, each glyph slanted as asked for; [width] are the widths in the file *)
Theorem text_pdf : forall kern e glyph width t gs, asks e glyph t gs -> size_pt t <> 0 ->
  exists ops ds, processPDF kern e t = Some ops /\
    pdf_run glyph (scaled width t) (size_pt t) ops = Some (1, 0, match slant t with Some s => s | None => 0 end, 1, ds) /\
    laid (scaled width t) (gap kern t) (y_pt t) (x_pt t) gs ds.
Proof.
  intros kern e glyph width t [|g gs] A Z0.
  - exists [PDFTm 1 0 match slant t with Some s => s | None => 0 end 1 (x_pt t) (y_pt t);
            if kerning t || negb (Reqb (spaced_pt t * 1000 / size_pt t) 0) then PDFTJ [TJstring []] else PDFTj []], [].
    split; [|split; [destruct (kerning t || negb (Reqb (spaced_pt t * 1000 / size_pt t) 0)); reflexivity|constructor]].
    unfold processPDF, data, asks in *. destruct (decode t).
    + destruct A as [-> _]. destruct (kerning t); reflexivity.
    + destruct A as [K A]. inversion A. rewrite K. reflexivity.
  - destruct (asks_entries kern 1 e glyph t gs g A) as [v [c [l [D [F [_ _]]]]]].
    destruct (asks_entries kern (size_pt t / 1000) e glyph t gs g A) as [v' [c' [l' [D' [F' [_ L]]]]]].
    set (spaced := spaced_pt t * 1000 / size_pt t).
    pose proof (Forall_inv F) as [E [B [G _]]].
    assert (P : parity (kerning t) 1) by (destruct (kerning t); cbn; [reflexivity|lia]).
    destruct (pdf_rest glyph (scaled width t) (size_pt t) (kerning t) spaced e l 1 [(c, g)] (Forall_inv_tail F) P) as [ops [O R]].
    { constructor; [now split|constructor]. }
    cbn [map fst flat_map] in O. rewrite app_nil_r in O.
    assert (Sp : spaced / 1000 * size_pt t = spaced_pt t).
    { unfold spaced. field. exact Z0. }
    (* the entries in points are those of the kernings in points *)
    assert (Same : forall y x, lay (scaled width t) (spaced_pt t) y x (inpt (size_pt t) l) = lay (scaled width t) (spaced_pt t) y x l').
    { clear - D D' A F F'.
      assert (X : exists r r', flat (kerning t) l = r /\ flat (kerning t) l' = r' /\
                  Forall2 (fun a b => match a, b with
                                      | Num (Some k), Num (Some k') => k / 1000 * size_pt t = k'
                                      | Num None, Num None => True
                                      | Name g, Name h => g = h
                                      | Code c, Code d => c = d
                                      | _, _ => False end) r r').
      { exists (flat (kerning t) l), (flat (kerning t) l'). split; [reflexivity|]. split; [reflexivity|].
        assert (Y : Forall2 (fun a b => match a, b with
                                      | Num (Some k), Num (Some k') => k / 1000 * size_pt t = k'
                                      | Num None, Num None => True
                                      | Name g, Name h => g = h
                                      | Code c, Code d => c = d
                                      | _, _ => False end) (data kern 1 t) (data kern (size_pt t / 1000) t)).
        { clear. unfold data. destruct (decode t).
          - destruct (kerning t).
            + induction (glyphnames t) as [|a l IH]; [constructor|]. destruct l as [|b l]; [repeat constructor|].
              cbn [resolvekernings] in *. constructor; [reflexivity|]. constructor; [|exact IH].
              destruct (kern a b); [lra|exact I].
            + induction (glyphnames t); cbn; constructor; auto.
          - induction (charcodes t); cbn; constructor; auto. }
        rewrite D, D' in Y. now inversion Y. }
      destruct X as [r [r' [X1 [X2 X3]]]]. apply Forall_inv_tail in F. apply Forall_inv_tail in F'.
      clear A D D'. revert l' r r' F' X1 X2 X3. induction l as [|[[[k u] a] b] l IH]; intros [|[[[k' u'] a'] b'] l'] r r' F' X1 X2 X3 y x.
      - reflexivity.
      - exfalso. subst. cbn in X3. destruct (kerning t); inversion X3.
      - exfalso. subst. cbn in X3. destruct (kerning t); inversion X3.
      - pose proof (Forall_inv F) as [E1 [E2 [E3 E4]]]. pose proof (Forall_inv F') as [G1 [G2 [G3 G4]]].
        assert (Ku : match k with Some k => Some (k / 1000 * size_pt t) | None => None end = k' /\ u = u' /\
                     Forall2 (fun a b => match a, b with
                                      | Num (Some k), Num (Some k') => k / 1000 * size_pt t = k'
                                      | Num None, Num None => True
                                      | Name g, Name h => g = h
                                      | Code c, Code d => c = d
                                      | _, _ => False end) (flat (kerning t) l) (flat (kerning t) l')).
        { subst r r'. cbn [flat flat_map] in X3. destruct (kerning t); cbn [app] in X3.
          - inversion X3 as [|? ? ? ? Y1 Y2]; subst. inversion Y2 as [|? ? ? ? Y3 Y4]; subst. split; [|split; [|exact Y4]].
            + destruct k, k'; try contradiction; [now rewrite Y1|reflexivity].
            + destruct u as [|?|[]], u' as [|?|[]]; try contradiction; try (now rewrite Y3); cbn in E1; discriminate.
          - inversion X3 as [|? ? ? ? Y1 Y2]; subst. split; [|split; [|exact Y2]].
            + rewrite (E4 eq_refl), (G4 eq_refl). reflexivity.
            + destruct u as [|?|[]], u' as [|?|[]]; try contradiction; try (now rewrite Y1); cbn in E1; discriminate. }
        destruct Ku as [<- [-> X4]].
        assert (a = a') by congruence. subst a'. assert (b = b') by congruence. subst b'.
        cbn [inpt map lay]. f_equal. apply (IH (Forall_inv_tail F) l' _ _ (Forall_inv_tail F') eq_refl eq_refl X4). }
    assert (v' = v /\ c' = c /\ True) as [-> [-> _]].
    { pose proof (Forall_inv F') as [E' [B' [G' _]]].
      assert (v' = v).
      { unfold data in D, D'. destruct (decode t).
        - unfold asks in A. destruct (glyphnames t); [destruct (kerning t); discriminate|].
          destruct (kerning t); cbn in D, D'; congruence.
        - destruct (charcodes t); cbn in D, D'; congruence. }
      subst v'. split; [reflexivity|]. split; [congruence|exact I]. }
    exists (PDFTm 1 0 match slant t with Some s => s | None => 0 end 1 (x_pt t) (y_pt t) ::
            [if kerning t || negb (Reqb spaced 0) then PDFTJ ops
             else PDFTj (flat_map (fun i => match i with TJstring s => s | TJnumber _ => [] end) ops)]).
    exists ((x_pt t, y_pt t, g) :: lay (scaled width t) (spaced_pt t) (y_pt t) (x_pt t + scaled width t g) l').
    split; [|split].
    + unfold processPDF. fold spaced. rewrite D. cbn [pdf_loop]. rewrite andb_false_r, E. cbn [Nat.ltb Nat.leb andb app]. rewrite O. reflexivity.
    + assert (T : tj_run glyph (scaled width t) (size_pt t) 0
                    (if kerning t || negb (Reqb spaced 0) then ops
                     else [TJstring (flat_map (fun i => match i with TJstring s => s | TJnumber _ => [] end) ops)]) =
                  Some ((0, g) :: flatten (lay (scaled width t) (spaced_pt t) 0 (0 + scaled width t g) l'))).
      { rewrite <- Same, <- Sp. specialize (R 0). cbn [shown ends app] in R.
        destruct (kerning t || negb (Reqb spaced 0)) eqn:C; [exact R|].
        apply orb_false_elim in C. destruct C as [C1 C2]. apply negb_false_iff in C2.
        assert (One : exists s, ops = [TJstring s]).
        { rewrite C1 in *. clear - O C2. revert O. generalize (pdf_char c) as cur. generalize 1%nat as i.
          induction l as [|[[[k u] a] b] l IH]; intros i cur O; cbn in O.
          - injection O as <-. now eexists.
          - rewrite C2 in O. cbn [negb] in O. rewrite !andb_false_r in O.
            destruct (code_of e u); [|discriminate]. eapply IH. exact O. }
        destruct One as [s ->]. cbn [flat_map]. rewrite app_nil_r. exact R. }
      unfold pdf_run.
      replace (match (if kerning t || negb (Reqb spaced 0) then PDFTJ ops
                      else PDFTj (flat_map (fun i => match i with TJstring s => s | TJnumber _ => [] end) ops)) with
               | PDFTJ l => l | PDFTj s => [TJstring s] | _ => [] end)
        with (if kerning t || negb (Reqb spaced 0) then ops
              else [TJstring (flat_map (fun i => match i with TJstring s => s | TJnumber _ => [] end) ops)])
        by (destruct (kerning t || negb (Reqb spaced 0)); reflexivity).
      rewrite T. f_equal. f_equal. cbn [map fst snd flatten].
      f_equal; [f_equal; f_equal; lra|].
      clear. generalize (scaled width t g) as w. intros w.
      replace (x_pt t + w) with ((0 + w) + x_pt t) by lra. generalize (0 + w) as z.
      induction l' as [|[[[k u] a] b] l' IH]; intros z; [reflexivity|].
      cbn [lay flatten map fst snd]. f_equal; [f_equal; f_equal; lra|].
      replace (z + x_pt t + dx (spaced_pt t) k + scaled width t b) with ((z + dx (spaced_pt t) k + scaled width t b) + x_pt t) by lra.
      apply IH.
    + exact (L (scaled width t) (y_pt t) (x_pt t)).
Qed.
Print Assumptions text_pdf.
