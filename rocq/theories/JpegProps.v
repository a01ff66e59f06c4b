(** JPEG images: the size, the mode and the data which are found (pyx/bitmap.py, l.163-207). *)
From Coq Require Import ZArith List Bool Lia.
From Verif Require Import JpegModel.
Import ListNotations.
Open Scope Z_scope.

(** ** Specification: what is in a JPEG file

    The parts of an image between its begin and end markers: frame headers (markers C0 and C2), the JFIF header (E0), an image within the image (a
    preview), and anything else: other segments and the compressed data. *)
Inductive part :=
| Frame (progressive : bool) (height width components : Z) (rest : list Z)
| Jfif (id : list Z) (major minor kind x y : Z) (rest : list Z)
| Preview (parts : list part)
| Other (bytes : list Z).
(** two bytes, most significant first *)
Definition two (n : Z) : list Z := [n / 256; n mod 256].
Fixpoint bytes_of (p : part) : list Z :=
  match p with
  | Frame progressive h w c rest => [255; if progressive then 194 else 192] ++ two (8 + Z.of_nat (length rest)) ++ [8] ++ two h ++ two w ++ [c] ++ rest
  | Jfif id major minor kind x y rest =>
      [255; 224] ++ two (14 + Z.of_nat (length rest)) ++ id ++ [major; minor; kind] ++ two x ++ two y ++ rest
  | Preview ps => [255; 216] ++ flat_map bytes_of ps ++ [255; 217]
  | Other b => b
  end.
Definition image_bytes (ps : list part) : list Z := [255; 216] ++ flat_map bytes_of ps ++ [255; 217].

Definition marker (m : Z) : Prop := In m [192; 194; 216; 217; 224].
(** no marker of those which are looked for *)
Definition quiet (l : list Z) : Prop := forall p m r, l = p ++ 255 :: m :: r -> ~ marker m.
(** parts which are followed by some bytes *)
Inductive wf : list part -> list Z -> Prop :=
| wf_nil after : wf [] after
| wf_frame pr h w c rest ps after : 0 < h < 65536 -> 0 < w < 65536 -> In c [1; 3; 4] -> Z.of_nat (length rest) + 8 < 65536 -> wf ps after -> wf (Frame pr h w c rest :: ps) after
| wf_jfif id major minor kind x y rest ps after : length id = 5%nat -> 0 <= x < 65536 -> 0 <= y < 65536 -> Z.of_nat (length rest) + 14 < 65536 ->
    wf ps after -> wf (Jfif id major minor kind x y rest :: ps) after
| wf_preview qs ps after : wf qs [255; 217] -> wf ps after -> wf (Preview qs :: ps) after
| wf_other b ps after : quiet (b ++ firstn 1 (flat_map bytes_of ps ++ after)) -> wf ps after -> wf (Other b :: ps) after.

(** the last frame header and the last resolution *)
Definition mode_spec (c : Z) : jmode := if c =? 1 then ML else if c =? 3 then MRGB else MCMYK.
Fixpoint frames (p : part) : list frame :=
  match p with Frame _ h w c _ => [(w, h, mode_spec c)] | Preview ps => flat_map frames ps | _ => [] end.
Fixpoint dpis (p : part) : list dpi :=
  match p with
  | Jfif _ _ _ kind x y _ => if (kind =? 1) || (kind =? 2) then [(kind, x, y)] else []
  | Preview ps => flat_map dpis ps
  | _ => []
  end.
Definition last_of {A} (l : list A) (d : option A) : option A := fold_left (fun _ x => Some x) l d.

(** ** Proofs *)
Lemma be_two n : 0 <= n -> be (n / 256) (n mod 256) = n.
Proof. intros H. unfold be. rewrite (Z.div_mod n 256) at 3; lia. Qed.
Lemma last_app {A} (a b : list A) d : last_of (a ++ b) d = last_of b (last_of a d).
Proof. unfold last_of. apply fold_left_app. Qed.

Lemma skipn_pre {A} n (a b : list A) : length a = n -> skipn n (a ++ b) = b.
Proof. intros <-. rewrite skipn_app, Nat.sub_diag, skipn_all. reflexivity. Qed.

(** one pass of the loop over a byte of other parts *)
Lemma scan_other fuel a x l pos n begin fr info : (a <> 255 \/ ~ marker x) ->
  scan (S fuel) (a :: x :: l) pos (S n) begin fr info = scan fuel (x :: l) (S pos) (S n) begin fr info.
Proof.
  intros H. cbn [scan]. destruct (Z.eqb_spec a 255) as [->|]; [|reflexivity]. destruct H as [H|H]; [congruence|].
  unfold marker in H. cbn in H.
  destruct ((x =? 0) || (x =? 255)); [reflexivity|].
  destruct (Z.eqb_spec x 216); [subst; tauto|]. destruct (Z.eqb_spec x 217); [subst; tauto|].
  destruct (Z.eqb_spec x 192); [subst; tauto|]. destruct (Z.eqb_spec x 194); [subst; tauto|]. destruct (Z.eqb_spec x 224); [subst; tauto|]. reflexivity.
Qed.
Lemma quiet_tail a l : quiet (a :: l) -> quiet l.
Proof. intros H p m r E. apply (H (a :: p) m r). rewrite E. reflexivity. Qed.
Lemma scan_quiet : forall b fuel x l pos n begin fr info, quiet (b ++ [x]) ->
  scan (length b + fuel) (b ++ x :: l) pos (S n) begin fr info = scan fuel (x :: l) (pos + length b) (S n) begin fr info.
Proof.
  induction b as [|a b IH]; intros fuel x l pos n begin fr info H.
  - cbn [length app Nat.add]. rewrite Nat.add_0_r. reflexivity.
  - cbn [length app Nat.add]. destruct b as [|y b].
    + cbn [length app Nat.add]. rewrite scan_other.
      * f_equal. lia.
      * destruct (Z.eq_dec a 255) as [->|]; [right|left; auto]. apply (H [] x []). reflexivity.
    + cbn [app]. rewrite scan_other.
      * change (y :: b ++ x :: l) with ((y :: b) ++ x :: l). rewrite IH by (apply quiet_tail in H; exact H). f_equal. cbn [length]. lia.
      * destruct (Z.eq_dec a 255) as [->|]; [right|left; auto]. apply (H [] y (b ++ [x])). reflexivity.
Qed.

Lemma scan_parts ps after : wf ps after -> after <> [] ->
  forall fuel tail pos level begin fr info, exists fuel', (fuel' >= fuel)%nat /\
    scan (length (flat_map bytes_of ps) + fuel) (flat_map bytes_of ps ++ after ++ tail) pos (S level) begin fr info =
    scan fuel' (after ++ tail) (pos + length (flat_map bytes_of ps)) (S level) begin (last_of (flat_map frames ps) fr) (last_of (flat_map dpis ps) info).
Proof.
  intros W. induction W as [after|pr h w c rest ps after Hh Hw Hc Hl W IH|id major minor kind x y rest ps after Hi Hx Hy Hl W IH|qs ps after Q IHq W IH|b ps after Q W IH];
    intros N fuel tail pos level begin fr info.
  - exists fuel. split; [lia|]. cbn [flat_map length app Nat.add last_of fold_left]. rewrite Nat.add_0_r. reflexivity.
  - set (k := length rest) in *.
    assert (E : length (bytes_of (Frame pr h w c rest)) = (10 + k)%nat) by (cbn [bytes_of]; rewrite !app_length; cbn; lia).
    destruct (IH N (9 + k + fuel)%nat tail (pos + (10 + k))%nat level begin (Some (w, h, mode_spec c)) info) as (f' & F & S).
    exists f'. split; [lia|].
    change (last_of (flat_map frames (Frame pr h w c rest :: ps)) fr) with (last_of (flat_map frames ps) (Some (w, h, mode_spec c))).
    change (flat_map dpis (Frame pr h w c rest :: ps)) with (flat_map dpis ps).
    change (flat_map bytes_of (Frame pr h w c rest :: ps)) with (bytes_of (Frame pr h w c rest) ++ flat_map bytes_of ps).
    rewrite app_length, E. replace (pos + (10 + k + length (flat_map bytes_of ps)))%nat with (pos + (10 + k) + length (flat_map bytes_of ps))%nat by lia.
    rewrite <- S.
    replace (10 + k + length (flat_map bytes_of ps) + fuel)%nat with (Datatypes.S (length (flat_map bytes_of ps) + (9 + k + fuel)))%nat by lia.
    set (tl := flat_map bytes_of ps ++ after ++ tail).
    replace ((bytes_of (Frame pr h w c rest) ++ flat_map bytes_of ps) ++ after ++ tail) with (bytes_of (Frame pr h w c rest) ++ tl)
      by (unfold tl; rewrite <- !app_assoc; reflexivity).
    assert (Sk : skipn (Z.to_nat (be ((8 + Z.of_nat k) / 256) ((8 + Z.of_nat k) mod 256) + 2)) (bytes_of (Frame pr h w c rest) ++ tl) = tl).
    { rewrite be_two by lia. apply skipn_pre. rewrite E. lia. }
    assert (Nn : Z.to_nat (be ((8 + Z.of_nat k) / 256) ((8 + Z.of_nat k) mod 256) + 2) = (10 + k)%nat) by (rewrite be_two by lia; lia).
    assert (M : jmode_of c = Some (mode_spec c)).
    { unfold jmode_of, mode_spec. cbn in Hc. destruct Hc as [<-|[<-|[<-|[]]]]; reflexivity. }
    rewrite Nn in Sk. rewrite <- Sk at 2. clearbody tl. clear Sk. remember (flat_map bytes_of ps) as bp eqn:B. clear B S IH.
    remember (length bp + (9 + k + fuel))%nat as fu eqn:Fu. clear Fu.
    destruct pr; cbn [scan bytes_of app two Z.eqb Pos.eqb orb firstn skipn Nat.add]; fold k; rewrite Nn, M, !be_two by lia; reflexivity.
  - set (k := length rest) in *.
    destruct id as [|i1 [|i2 [|i3 [|i4 [|i5 [|i6 id]]]]]]; try discriminate Hi.
    set (J := Jfif [i1; i2; i3; i4; i5] major minor kind x y rest) in *.
    assert (E : length (bytes_of J) = (16 + k)%nat) by (unfold J; cbn [bytes_of]; rewrite !app_length; cbn; lia).
    destruct (IH N (15 + k + fuel)%nat tail (pos + (16 + k))%nat level begin fr (last_of (dpis J) info)) as (f' & F & S).
    exists f'. split; [lia|].
    change (flat_map frames (J :: ps)) with (flat_map frames ps).
    change (flat_map dpis (J :: ps)) with (dpis J ++ flat_map dpis ps). rewrite last_app.
    change (flat_map bytes_of (J :: ps)) with (bytes_of J ++ flat_map bytes_of ps).
    rewrite app_length, E. replace (pos + (16 + k + length (flat_map bytes_of ps)))%nat with (pos + (16 + k) + length (flat_map bytes_of ps))%nat by lia.
    rewrite <- S.
    replace (16 + k + length (flat_map bytes_of ps) + fuel)%nat with (Datatypes.S (length (flat_map bytes_of ps) + (15 + k + fuel)))%nat by lia.
    set (tl := flat_map bytes_of ps ++ after ++ tail).
    replace ((bytes_of J ++ flat_map bytes_of ps) ++ after ++ tail) with (bytes_of J ++ tl) by (unfold tl; rewrite <- !app_assoc; reflexivity).
    assert (Sk : skipn (Z.to_nat (be ((14 + Z.of_nat k) / 256) ((14 + Z.of_nat k) mod 256) + 2)) (bytes_of J ++ tl) = tl).
    { rewrite be_two by lia. apply skipn_pre. rewrite E. lia. }
    assert (Nn : Z.to_nat (be ((14 + Z.of_nat k) / 256) ((14 + Z.of_nat k) mod 256) + 2) = (16 + k)%nat) by (rewrite be_two by lia; lia).
    rewrite Nn in Sk. rewrite <- Sk at 2. clearbody tl. clear Sk. remember (flat_map bytes_of ps) as bp eqn:B. clear B S IH.
    remember (length bp + (15 + k + fuel))%nat as fu eqn:Fu. clear Fu. unfold J.
    cbn [scan bytes_of app two Z.eqb Pos.eqb orb firstn skipn dpis Nat.add]; fold k; rewrite Nn, !be_two by lia.
    destruct ((kind =? 1) || (kind =? 2)); reflexivity.
  - assert (Lq : length (flat_map bytes_of (Preview qs :: ps)) = (4 + length (flat_map bytes_of qs) + length (flat_map bytes_of ps))%nat)
      by (cbn [flat_map bytes_of]; rewrite !app_length; cbn; lia).
    rewrite Lq in *. set (a := length (flat_map bytes_of qs)) in *. set (b := length (flat_map bytes_of ps)) in *.
    set (tl := flat_map bytes_of ps ++ after ++ tail) in *.
    replace (flat_map bytes_of (Preview qs :: ps) ++ after ++ tail) with (255 :: 216 :: flat_map bytes_of qs ++ [255; 217] ++ tl)
      by (unfold tl; cbn [flat_map bytes_of app]; rewrite <- !app_assoc; reflexivity).
    replace (4 + a + b + fuel)%nat with (Datatypes.S (Datatypes.S (a + (2 + b + fuel))))%nat by lia.
    destruct (IHq ltac:(discriminate) (2 + b + fuel)%nat tl (Datatypes.S (Datatypes.S pos)) (Datatypes.S level) begin fr info) as (f1 & F1 & S1).
    fold a in S1. remember (a + (2 + b + fuel))%nat as fu eqn:Fu.
    remember (flat_map bytes_of qs ++ [255; 217] ++ tl) as bq eqn:Bq.
    cbn [scan Z.eqb Pos.eqb orb]. rewrite S1.
    destruct tl as [|t0 tl'] eqn:T.
    { exfalso. unfold tl in T. apply app_eq_nil in T as [_ T]. apply app_eq_nil in T as [T _]. contradiction. }
    destruct f1 as [|[|f1]]; [lia|lia|].
    destruct (IH N (f1 - b)%nat tail (Datatypes.S (Datatypes.S pos) + a + 2)%nat level begin (last_of (flat_map frames qs) fr) (last_of (flat_map dpis qs) info)) as (f2 & F2 & S2).
    exists f2. split; [lia|]. fold b in S2. fold tl in S2. rewrite T in S2. replace (b + (f1 - b))%nat with f1 in S2 by lia.
    change (flat_map frames (Preview qs :: ps)) with (flat_map frames qs ++ flat_map frames ps).
    change (flat_map dpis (Preview qs :: ps)) with (flat_map dpis qs ++ flat_map dpis ps). rewrite !last_app.
    replace (pos + (4 + a + b))%nat with (Datatypes.S (Datatypes.S pos) + a + 2 + b)%nat by lia. rewrite <- S2.
    cbn [app scan Z.eqb Pos.eqb orb]. f_equal. lia.
  - change (flat_map bytes_of (Other b :: ps)) with (b ++ flat_map bytes_of ps). change (flat_map frames (Other b :: ps)) with (flat_map frames ps).
    change (flat_map dpis (Other b :: ps)) with (flat_map dpis ps).
    rewrite <- app_assoc, app_length. destruct (IH N fuel tail (pos + length b)%nat level begin fr info) as (f' & F & S).
    exists f'. split; [lia|]. rewrite Nat.add_assoc, <- S.
    replace (flat_map bytes_of ps ++ after ++ tail) with ((flat_map bytes_of ps ++ after) ++ tail) by apply app_assoc_reverse.
    destruct (flat_map bytes_of ps ++ after) as [|x0 l] eqn:X; [apply app_eq_nil in X as [_ X]; contradiction|]. cbn [firstn] in Q.
    cbn [app]. rewrite <- Nat.add_assoc. apply scan_quiet. exact Q.
Qed.

Lemma scan_before : forall p fuel l pos begin fr info, Forall (fun b => b <> 255) p ->
  scan (length p + fuel) (p ++ l) pos 0 begin fr info = scan fuel l (pos + length p) 0 begin fr info.
Proof.
  induction p as [|a p IH]; intros fuel l pos begin fr info H; cbn [length app Nat.add].
  - rewrite Nat.add_0_r. reflexivity.
  - inversion H; subst. cbn [scan]. destruct (Z.eqb_spec a 255); [contradiction|]. rewrite IH by auto. f_equal. lia.
Qed.

Lemma last_some {A} : forall (l : list A) d x, last_of l d = Some x -> d = None -> In x l.
Proof.
  intros l d x E ->. destruct l as [|y l] using rev_ind; [discriminate|]. rewrite last_app in E. cbn in E. injection E as ->.
  apply in_or_app. right. left. reflexivity.
Qed.
Lemma frames_positive ps after : wf ps after -> Forall (fun f : frame => let '(w, h, _) := f in 0 < w /\ 0 < h) (flat_map frames ps).
Proof.
  intros W. induction W as [| | |qs ps after Q IHq W IH|]; cbn [flat_map frames app]; auto.
  - constructor; [split; lia|auto].
  - apply Forall_app. auto.
Qed.

(** The image is found between its own begin and end, however many previews it contains and whatever is before and behind it.  Its size and mode
    are those of its last frame header and its resolution is the last one which is given, provided that the other segments do not contain what
    looks like a marker: the other segments are searched for markers, too, instead of being skipped. *)
Theorem jpeg_read_partial : forall before ps after w h m, wf ps [255; 217] -> Forall (fun b => b <> 255) before ->
  last_of (flat_map frames ps) None = Some (w, h, m) ->
  jpegimage (before ++ image_bytes ps ++ after) = Some ((w, h, m), image_bytes ps, last_of (flat_map dpis ps) None).
Proof.
  intros before ps after w h m W B L. unfold jpegimage, image_bytes. set (k := length (flat_map bytes_of ps)).
  set (data := before ++ ([255; 216] ++ flat_map bytes_of ps ++ [255; 217]) ++ after).
  assert (Ld : length data = (length before + (4 + k + length after))%nat).
  { unfold data. rewrite !app_length. fold k. cbn. lia. }
  destruct (scan_parts ps [255; 217] W ltac:(discriminate) (3 + length after)%nat after (length before + 2)%nat 0 (length before) None None) as (f' & F & S).
  fold k in S.
  assert (E : scan (Datatypes.S (length data)) data 0 0 0 None None =
    Some (length before, (length before + 2 + k + 2)%nat, last_of (flat_map frames ps) None, last_of (flat_map dpis ps) None)).
  { rewrite Ld. unfold data. replace (Datatypes.S (length before + (4 + k + length after))) with (length before + (Datatypes.S (Datatypes.S (k + (3 + length after)))))%nat by lia.
    rewrite scan_before by auto. rewrite <- app_assoc. cbn [Nat.add app]. rewrite <- !app_assoc.
    replace (length before + 2)%nat with (Datatypes.S (Datatypes.S (length before))) in S by lia. cbn [Nat.add] in S.
    remember (flat_map bytes_of ps ++ [255; 217] ++ after) as q. remember (k + Datatypes.S (Datatypes.S (Datatypes.S (length after))))%nat as fu.
    cbn [scan Z.eqb Pos.eqb orb]. rewrite S. destruct f' as [|f']; [lia|]. cbn [scan app Z.eqb Pos.eqb orb]. do 4 f_equal. lia. }
  rewrite E, L.
  pose proof (frames_positive _ _ W) as P. rewrite Forall_forall in P. specialize (P _ (last_some _ _ _ L eq_refl)). cbn in P.
  destruct (Z.leb_spec w 0); [lia|]. destruct (Z.leb_spec h 0); [lia|]. cbn [orb].
  do 3 f_equal. unfold data. rewrite (skipn_pre (length before)) by reflexivity.
  replace (length before + 2 + k + 2 - length before)%nat with (length ([255; 216] ++ flat_map bytes_of ps ++ [255; 217])) by (rewrite !app_length; fold k; cbn; lia).
  rewrite firstn_app, Nat.sub_diag, firstn_all. cbn [firstn]. apply app_nil_r.
Qed.
Print Assumptions jpeg_read_partial.

(** Segments which are no frame header: a marker, the length and the content *)
Definition segment (m : Z) (content : list Z) : list Z := [255; m] ++ two (Z.of_nat (length content) + 2) ++ content.
(** A quantization table (marker DB: a byte and 64 numbers from 1 to 255) with the numbers 255 and 217 next to each other ends the image: all which
    follows is lost. *)
Theorem jpeg_cut_refuted : exists table scan_,
  length table = 64%nat /\ Forall (fun q => 1 <= q <= 255) table /\ scan_ <> [] /\
  jpegimage (image_bytes [Frame false 8 8 1 [1; 17; 0]; Other (segment 219 (0 :: table) ++ scan_)]) =
    Some ((8, 8, ML), image_bytes [Frame false 8 8 1 [1; 17; 0]; Other (firstn 5 (segment 219 (0 :: table)))], None).
Proof.
  exists ([255; 217] ++ repeat 1 62), (segment 218 [1; 1; 0; 0; 63; 0] ++ [18; 52]).
  split; [reflexivity|]. split; [|split; [discriminate|reflexivity]].
  apply Forall_app. split; [repeat constructor; lia|]. apply Forall_forall. intros x I. apply repeat_spec in I. lia.
Qed.
Print Assumptions jpeg_cut_refuted.

(** An image with a resolution, a preview of 2 x 1 pixels, and junk before and behind. *)
Example ex_jpeg_wf : wf [Jfif [74; 70; 73; 70; 0] 1 2 1 300 150 []; Other [255; 225; 0; 30]; Preview [Frame false 1 2 3 (repeat 0 9)];
  Frame true 300 400 3 (repeat 0 9); Other [255; 218; 255; 0; 7]] [255; 217].
Proof.
  assert (Q : forall b, forallb (fun p => negb ((fst p =? 255) && existsb (Z.eqb (snd p)) [192; 194; 216; 217; 224])) (combine b (tl b)) = true -> quiet b).
  { intros b H p m r -> M. revert H. unfold marker in M.
    assert (X : In (255, m) (combine (p ++ 255 :: m :: r) (tl (p ++ 255 :: m :: r)))).
    { clear. induction p as [|x p IH]; [left; reflexivity|]. destruct p as [|y p]; [right; left; reflexivity|]. right. exact IH. }
    intros H. rewrite forallb_forall in H. specialize (H _ X). cbn [fst snd] in H. rewrite Z.eqb_refl in H. cbn [andb] in H.
    apply negb_true_iff in H. rewrite <- not_true_iff_false in H. apply H. apply existsb_exists. exists m. split; [exact M|apply Z.eqb_refl]. }
  constructor; [reflexivity|lia|lia|cbn; lia|]. constructor; [apply Q; reflexivity|]. constructor.
  - constructor; [lia|lia|cbn; auto|cbn; lia|constructor].
  - constructor; [lia|lia|cbn; auto|cbn; lia|]. constructor; [apply Q; reflexivity|constructor].
Qed.
Example ex_jpeg : exists d, jpegimage ([1; 2] ++ image_bytes [Jfif [74; 70; 73; 70; 0] 1 2 1 300 150 []; Other [255; 225; 0; 30]; Preview [Frame false 1 2 3 (repeat 0 9)];
  Frame true 300 400 3 (repeat 0 9); Other [255; 218; 255; 0; 7]] ++ [3]) = Some ((400, 300, MRGB), d, Some (1, 300, 150)) /\ length d = 71%nat.
Proof. eexists. split; vm_compute; reflexivity. Qed.
