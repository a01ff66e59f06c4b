From Coq Require Import String Ascii ZArith QArith Qround Bool List Lia ZifyBool.
From Verif Require Import BitmapModel BitmapSpec.
Import ListNotations.
Open Scope Z_scope.
Ltac Zify.zify_post_hook ::= Z.div_mod_to_equations.

(** ** ASCII85 groups *)

Lemma digits85_spec a b c d : isbyte a -> isbyte b -> isbyte c -> isbyte d ->
  exists d1 d2 d3 d4 d5, digits85 a b c d = [d1; d2; d3; d4; d5] /\
    (0 <= d1 < 85 /\ 0 <= d2 < 85 /\ 0 <= d3 < 85 /\ 0 <= d4 < 85 /\ 0 <= d5 < 85) /\
    (((d1 * 85 + d2) * 85 + d3) * 85 + d4) * 85 + d5 = ((a * 256 + b) * 256 + c) * 256 + d.
Proof.
  unfold isbyte, digits85. intros Ha Hb Hc Hd.
  set (v3 := 256 * 256 * a + 256 * 256 * b + 256 * c + d).
  set (v2 := 256 * 256 * 3 * a + v3 / 85).
  pose proof (Z.div_mod v3 85 ltac:(lia)) as E3. pose proof (Z.mod_pos_bound v3 85 ltac:(lia)) as B3.
  pose proof (Z.div_mod v2 85 ltac:(lia)) as E2. pose proof (Z.mod_pos_bound v2 85 ltac:(lia)) as B2.
  set (w := v2 / 85) in *.
  pose proof (Z.div_mod w 85 ltac:(lia)) as E1. pose proof (Z.mod_pos_bound w 85 ltac:(lia)) as B1.
  pose proof (Z.div_mod (w / 85) 85 ltac:(lia)) as E0. pose proof (Z.mod_pos_bound (w / 85) 85 ltac:(lia)) as B0.
  do 5 eexists. split; [reflexivity|].
  set (q3 := v3 / 85) in *. set (q1 := w / 85) in *. set (q0 := q1 / 85) in *.
  set (m3 := v3 mod 85) in *. set (m2 := v2 mod 85) in *. set (m1 := w mod 85) in *. set (m0 := q1 mod 85) in *.
  clearbody q3 w q1 q0 m3 m2 m1 m0. subst v2 v3. lia.
Qed.

Lemma bytes4_val a b c d : isbyte a -> isbyte b -> isbyte c -> isbyte d ->
  bytes4 (((a * 256 + b) * 256 + c) * 256 + d) = [a; b; c; d].
Proof.
  unfold isbyte, bytes4. intros. repeat f_equal; lia.
Qed.

Lemma digit85_ok d : 0 <= d < 85 -> digit85 (d + 33) = true.
Proof. unfold digit85. lia. Qed.

Lemma not_ws d : 0 <= d < 85 -> whitespace (d + 33) = false.
Proof. unfold whitespace. simpl. lia. Qed.

Definition stripws (t : list Z) := filter (fun c => negb (whitespace c)) t.

Lemma stripws_app a b : stripws (a ++ b) = stripws a ++ stripws b.
Proof. unfold stripws. apply filter_app. Qed.

Lemma stripws_digits ds : Forall (fun d => 0 <= d < 85) ds ->
  stripws (map (fun c => c + 33) ds) = map (fun c => c + 33) ds.
Proof.
  induction 1; simpl; auto. rewrite not_ws by auto. simpl. now f_equal.
Qed.

Lemma group_full a b c d : isbyte a -> isbyte b -> isbyte c -> isbyte d ->
  forall rest, decode_groups (map (fun c => c + 33) (digits85 a b c d) ++ rest) =
    app_opt (Some [a; b; c; d]) (decode_groups rest).
Proof.
  intros Ha Hb Hc Hd rest.
  destruct (digits85_spec a b c d Ha Hb Hc Hd) as (d1 & d2 & d3 & d4 & d5 & E & (B1 & B2 & B3 & B4 & B5) & V).
  rewrite E. cbn [map app decode_groups].
  replace (d1 + 33 =? 122) with false by lia.
  unfold group. cbn [forallb]. rewrite !digit85_ok by auto. cbn [andb].
  unfold val85. cbn [fold_left].
  replace (((((0 * 85 + (d1 + 33 - 33)) * 85 + (d2 + 33 - 33)) * 85 + (d3 + 33 - 33)) * 85 + (d4 + 33 - 33)) * 85 + (d5 + 33 - 33))
    with (((a * 256 + b) * 256 + c) * 256 + d) by lia.
  replace (((a * 256 + b) * 256 + c) * 256 + d <? 4294967296) with true by (unfold isbyte in *; lia).
  rewrite bytes4_val by auto. reflexivity.
Qed.

Lemma bytes4_prefix1 a v : isbyte a -> a * 16777216 <= v < (a + 1) * 16777216 -> firstn 1 (bytes4 v) = [a].
Proof. unfold isbyte, bytes4. intros. simpl. f_equal. lia. Qed.

Lemma bytes4_prefix2 a b v : isbyte a -> isbyte b -> (a * 256 + b) * 65536 <= v < (a * 256 + b + 1) * 65536 ->
  firstn 2 (bytes4 v) = [a; b].
Proof. unfold isbyte, bytes4. intros. simpl. repeat f_equal; lia. Qed.

Lemma bytes4_prefix3 a b c v : isbyte a -> isbyte b -> isbyte c ->
  ((a * 256 + b) * 256 + c) * 256 <= v < ((a * 256 + b) * 256 + c + 1) * 256 ->
  firstn 3 (bytes4 v) = [a; b; c].
Proof. unfold isbyte, bytes4. intros. simpl. repeat f_equal; lia. Qed.

Ltac partial_group V :=
  cbn [map firstn decode_groups];
  replace (_ + 33 =? 122) with false by lia;
  unfold group; cbn [forallb]; rewrite !digit85_ok by auto;
  change (digit85 117) with true; cbn [andb]; unfold val85; cbn [fold_left];
  match goal with |- context [?v <? 4294967296] =>
    let v' := fresh "v" in set (v' := v);
    replace (v' <? 4294967296) with true by (unfold isbyte in *; subst v'; lia) end.

Lemma group_partial1 a : isbyte a ->
  decode_groups (firstn 2 (map (fun c => c + 33) (digits85 a 0 0 0))) = Some [a].
Proof.
  intros Ha. assert (isbyte 0) as H0 by (unfold isbyte; lia).
  destruct (digits85_spec a 0 0 0 Ha H0 H0 H0) as (d1 & d2 & d3 & d4 & d5 & E & (B1 & B2 & B3 & B4 & B5) & V).
  rewrite E. partial_group V. f_equal. apply bytes4_prefix1; auto. subst v. unfold isbyte in *. lia.
Qed.

Lemma group_partial2 a b : isbyte a -> isbyte b ->
  decode_groups (firstn 3 (map (fun c => c + 33) (digits85 a b 0 0))) = Some [a; b].
Proof.
  intros Ha Hb. assert (isbyte 0) as H0 by (unfold isbyte; lia).
  destruct (digits85_spec a b 0 0 Ha Hb H0 H0) as (d1 & d2 & d3 & d4 & d5 & E & (B1 & B2 & B3 & B4 & B5) & V).
  rewrite E. partial_group V. f_equal. apply bytes4_prefix2; auto. subst v. unfold isbyte in *. lia.
Qed.

Lemma group_partial3 a b c : isbyte a -> isbyte b -> isbyte c ->
  decode_groups (firstn 4 (map (fun c => c + 33) (digits85 a b c 0))) = Some [a; b; c].
Proof.
  intros Ha Hb Hc. assert (isbyte 0) as H0 by (unfold isbyte; lia).
  destruct (digits85_spec a b c 0 Ha Hb Hc H0) as (d1 & d2 & d3 & d4 & d5 & E & (B1 & B2 & B3 & B4 & B5) & V).
  rewrite E. partial_group V. f_equal. apply bytes4_prefix3; auto. subst v. unfold isbyte in *. lia.
Qed.

Definition nl_before (i : Z) : list Z := if (i mod 60 =? 0) && negb (i =? 0) then [newline] else [].

(** four steps of the loop *)
Lemma a85loop_group i l a b c d rest : 0 <= i -> i mod 4 = 0 ->
  a85loop i l (a :: b :: c :: d :: rest) =
    let (o, lend) := a85loop (i + 4) (lafter (a, b, c, d)) rest in
    (nl_before i ++ map (fun c => c + 33) (digits85 a b c d) ++ o, lend).
Proof.
  intros H0 Hi. destruct l as [[[l0 l1] l2] l3]. cbn [a85loop].
  replace (i mod 4 =? 3) with false by lia.
  replace ((i + 1) mod 4 =? 3) with false by lia.
  replace ((i + 1 + 1) mod 4 =? 3) with false by lia.
  replace ((i + 1 + 1 + 1) mod 4 =? 3) with true by lia.
  replace (i mod 4) with 0 by lia. replace ((i + 1) mod 4) with 1 by lia.
  replace ((i + 1 + 1) mod 4) with 2 by lia. replace ((i + 1 + 1 + 1) mod 4) with 3 by lia.
  replace (i + 1 + 1 + 1 + 1) with (i + 4) by lia.
  cbn [lset Z.eqb]. unfold lset. simpl (0 =? 0). cbv iota.
  simpl (1 =? 0). simpl (1 =? 1). simpl (2 =? 0). simpl (2 =? 1). simpl (2 =? 2).
  simpl (3 =? 0). simpl (3 =? 1). simpl (3 =? 2). cbv iota.
  unfold emit5, nl_before.
  replace ((i + 1 + 1 + 1) mod 60 =? 3) with (i mod 60 =? 0) by lia.
  replace (i + 1 + 1 + 1 =? 3) with (i =? 0) by lia.
  reflexivity.
Qed.

(** induction over groups of four *)
Lemma four_ind (P : list Z -> Prop) :
  P [] -> (forall a, P [a]) -> (forall a b, P [a; b]) -> (forall a b c, P [a; b; c]) ->
  (forall a b c d r, P r -> P (a :: b :: c :: d :: r)) -> forall l, P l.
Proof.
  intros H0 H1 H2 H3 H4 l.
  enough (forall n l, (length l <= n)%nat -> P l) by eauto.
  induction n as [|n IH]; intros l' Hl.
  - destruct l'; [auto|simpl in Hl; lia].
  - destruct l' as [|a [|b [|c [|d r]]]]; auto. apply H4, IH. simpl in Hl. lia.
Qed.

Definition tail_out (data : list Z) (l : quad) : list Z :=
  let k := Z.of_nat (length data) in
  if k mod 4 =? 0 then [] else firstn (Z.to_nat (k mod 4 + 1)) (firstn 4 (emit5 (zerofill l (k mod 4 - 1)))).

Definition whole (i : Z) (l : quad) (data : list Z) : list Z :=
  fst (a85loop i l data) ++ tail_out data (snd (a85loop i l data)).

Lemma ascii85stream_whole data : ascii85stream data = whole 0 (0, 0, 0, 0) data.
Proof.
  unfold ascii85stream, whole, tail_out. destruct (a85loop 0 (0, 0, 0, 0) data) as [o l]. cbn [fst snd].
  destruct data as [|x data]; [simpl; now rewrite app_nil_r|].
  replace (Z.of_nat (length (x :: data)) =? 0) with false by (cbn [length]; lia).
  set (n := Z.of_nat (length (x :: data))). assert (0 < n) by (subst n; cbn [length]; lia).
  destruct (Z.eqb_spec (n mod 4) 0) as [E|E].
  - replace ((n - 1) mod 4 =? 3) with true by lia. now rewrite app_nil_r.
  - replace ((n - 1) mod 4 =? 3) with false by lia.
    replace ((n - 1) mod 4 + 2) with (n mod 4 + 1) by lia.
    replace ((n - 1) mod 4) with (n mod 4 - 1) by lia. reflexivity.
Qed.

Lemma whole_group i l a b c d rest : 0 <= i -> i mod 4 = 0 ->
  whole i l (a :: b :: c :: d :: rest) =
    nl_before i ++ map (fun c => c + 33) (digits85 a b c d) ++ whole (i + 4) (lafter (a, b, c, d)) rest.
Proof.
  intros. unfold whole. rewrite a85loop_group by auto.
  destruct (a85loop (i + 4) _ rest) as [o l']. cbn [fst snd].
  rewrite <- !app_assoc. f_equal. f_equal. f_equal. unfold tail_out.
  replace (Z.of_nat (length (a :: b :: c :: d :: rest)) mod 4) with (Z.of_nat (length rest) mod 4)
    by (cbn [length]; lia).
  reflexivity.
Qed.

(** the output for a partial group; l3 is irrelevant *)
Lemma whole_1 i l a : 0 <= i -> i mod 4 = 0 -> whole i l [a] = firstn 2 (map (fun c => c + 33) (digits85 a 0 0 0)).
Proof.
  intros H0 Hi. destruct l as [[[l0 l1] l2] l3]. unfold whole. cbn [a85loop].
  replace (i mod 4 =? 3) with false by lia. replace (i mod 4) with 0 by lia. reflexivity.
Qed.

Lemma whole_2 i l a b : 0 <= i -> i mod 4 = 0 ->
  whole i l [a; b] = firstn 3 (map (fun c => c + 33) (digits85 a b 0 0)).
Proof.
  intros H0 Hi. destruct l as [[[l0 l1] l2] l3]. unfold whole. cbn [a85loop].
  replace (i mod 4 =? 3) with false by lia. replace ((i + 1) mod 4 =? 3) with false by lia.
  replace (i mod 4) with 0 by lia. replace ((i + 1) mod 4) with 1 by lia. reflexivity.
Qed.

Lemma whole_3 i l a b c : 0 <= i -> i mod 4 = 0 ->
  whole i l [a; b; c] = firstn 4 (map (fun c => c + 33) (digits85 a b c 0)).
Proof.
  intros H0 Hi. destruct l as [[[l0 l1] l2] l3]. unfold whole. cbn [a85loop].
  replace (i mod 4 =? 3) with false by lia. replace ((i + 1) mod 4 =? 3) with false by lia.
  replace ((i + 1 + 1) mod 4 =? 3) with false by lia.
  replace (i mod 4) with 0 by lia. replace ((i + 1) mod 4) with 1 by lia.
  replace ((i + 1 + 1) mod 4) with 2 by lia. reflexivity.
Qed.

Lemma stripws_nl i : stripws (nl_before i) = [].
Proof. unfold nl_before. destruct (_ && _); reflexivity. Qed.

Lemma digits_range a b c d : isbyte a -> isbyte b -> isbyte c -> isbyte d ->
  Forall (fun x => 0 <= x < 85) (digits85 a b c d).
Proof.
  intros Ha Hb Hc Hd. destruct (digits85_spec a b c d Ha Hb Hc Hd) as (d1 & d2 & d3 & d4 & d5 & E & B & _).
  rewrite E. repeat constructor; lia.
Qed.

Lemma Forall_firstn {A} (P : A -> Prop) n l : Forall P l -> Forall P (firstn n l).
Proof. intros H. revert n. induction H; intros [|n]; simpl; auto. Qed.

Lemma stripws_partial n ds : Forall (fun d => 0 <= d < 85) ds ->
  stripws (firstn n (map (fun c => c + 33) ds)) = firstn n (map (fun c => c + 33) ds).
Proof.
  intros H. rewrite firstn_map. apply stripws_digits. now apply Forall_firstn.
Qed.

Lemma byte0 : isbyte 0. Proof. unfold isbyte; lia. Qed.

Lemma whole_decodes : forall data, Forall isbyte data -> forall i l, 0 <= i -> i mod 4 = 0 ->
  decode_groups (stripws (whole i l data)) = Some data.
Proof.
  pose proof byte0 as H0.
  intros data. induction data as [|a|a b|a b c|a b c d r IH] using four_ind; intros HF i l Hi0 Hi.
  - reflexivity.
  - inversion HF; subst. rewrite whole_1, stripws_partial by (auto using digits_range). now apply group_partial1.
  - inversion HF as [|? ? ? HF1]; inversion HF1; subst.
    rewrite whole_2, stripws_partial by (auto using digits_range). now apply group_partial2.
  - inversion HF as [|? ? ? HF1]; inversion HF1 as [|? ? ? HF2]; inversion HF2; subst.
    rewrite whole_3, stripws_partial by (auto using digits_range). now apply group_partial3.
  - inversion HF as [|? ? ? HF1]; inversion HF1 as [|? ? ? HF2]; inversion HF2 as [|? ? ? HF3]; inversion HF3; subst.
    rewrite whole_group, !stripws_app, stripws_nl by auto. cbn [app].
    rewrite stripws_digits by (auto using digits_range). rewrite group_full by auto.
    rewrite IH; auto; try lia.
Qed.

Lemma ascii85_decodes data : Forall isbyte data -> ascii85decode (ascii85stream data) = Some data.
Proof.
  intros H. unfold ascii85decode. rewrite ascii85stream_whole. apply whole_decodes; auto; lia.
Qed.

(** characters of the stream *)
Lemma whole_chars : forall data, Forall isbyte data -> forall i l, 0 <= i -> i mod 4 = 0 ->
  Forall (fun c => c = 10 \/ 33 <= c <= 117) (whole i l data).
Proof.
  pose proof byte0 as H0.
  assert (forall ds, Forall (fun x => 0 <= x < 85) ds ->
    Forall (fun c => c = 10 \/ 33 <= c <= 117) (map (fun c => c + 33) ds)) as M.
  { induction 1; simpl; constructor; auto. lia. }
  intros data. induction data as [|a|a b|a b c|a b c d r IH] using four_ind; intros HF i l Hi0 Hi.
  - constructor.
  - inversion HF; subst. rewrite whole_1 by auto. apply Forall_firstn, M. auto using digits_range.
  - inversion HF as [|? ? ? HF1]; inversion HF1; subst.
    rewrite whole_2 by auto. apply Forall_firstn, M. auto using digits_range.
  - inversion HF as [|? ? ? HF1]; inversion HF1 as [|? ? ? HF2]; inversion HF2; subst.
    rewrite whole_3 by auto. apply Forall_firstn, M. auto using digits_range.
  - inversion HF as [|? ? ? HF1]; inversion HF1 as [|? ? ? HF2]; inversion HF2 as [|? ? ? HF3]; inversion HF3; subst.
    rewrite whole_group by auto. apply Forall_app. split.
    + unfold nl_before. destruct (_ && _); constructor; auto.
    + apply Forall_app. split; [apply M; auto using digits_range|]. apply IH; auto; lia.
Qed.

(** ** number of lines *)
Lemma lines_app a b : lines (a ++ b) = lines a + lines b.
Proof. unfold lines. rewrite filter_app, app_length. lia. Qed.

Lemma lines_digits ds : Forall (fun x => 0 <= x < 85) ds -> lines (map (fun c => c + 33) ds) = 0.
Proof.
  unfold lines. induction 1 as [|x l H HF IH]; auto.
  cbn [map filter]. replace (10 =? x + 33) with false by lia. exact IH.
Qed.

Lemma div_block i k : 0 <= i -> i mod 4 = 0 -> 0 <= k < 4 -> (i + k + 56) / 60 = (i + 59) / 60.
Proof. intros. lia. Qed.

Lemma whole_lines : forall data, Forall isbyte data -> forall i l, 0 <= i -> i mod 4 = 0 ->
  lines (whole i l data) =
    (i + Z.of_nat (length data) + 56) / 60 - (i + 59) / 60 + (if (i =? 0) && (4 <=? Z.of_nat (length data)) then -1 else 0).
Proof.
  pose proof byte0 as H0.
  assert (forall i k, 0 <= i -> i mod 4 = 0 -> 0 <= k < 4 ->
    0 = (i + k + 56) / 60 - (i + 59) / 60 + (if (i =? 0) && (4 <=? k) then -1 else 0)) as Short.
  { intros i k Hi Hm Hk. rewrite div_block by auto. replace (4 <=? k) with false by lia. rewrite andb_false_r. lia. }
  intros data. induction data as [|a|a b|a b c|a b c d r IH] using four_ind; intros HF i l Hi0 Hi.
  - change (lines (whole i l [])) with 0. now apply Short.
  - inversion HF; subst. rewrite whole_1, firstn_map, lines_digits by (auto; apply Forall_firstn; auto using digits_range).
    now apply Short.
  - inversion HF as [|? ? ? HF1]; inversion HF1; subst.
    rewrite whole_2, firstn_map, lines_digits by (auto; apply Forall_firstn; auto using digits_range). now apply Short.
  - inversion HF as [|? ? ? HF1]; inversion HF1 as [|? ? ? HF2]; inversion HF2; subst.
    rewrite whole_3, firstn_map, lines_digits by (auto; apply Forall_firstn; auto using digits_range). now apply Short.
  - inversion HF as [|? ? ? HF1]; inversion HF1 as [|? ? ? HF2]; inversion HF2 as [|? ? ? HF3]; inversion HF3; subst.
    rewrite whole_group, !lines_app, lines_digits by (auto using digits_range). rewrite IH by (auto; lia).
    assert (lines (nl_before i) = if (i mod 60 =? 0) && negb (i =? 0) then 1 else 0) as ->.
    { unfold nl_before. destruct (_ && _); reflexivity. }
    cbn [length]. set (n := Z.of_nat (length r)).
    replace (Z.of_nat (S (S (S (S (length r)))))) with (n + 4) by (subst n; lia).
    replace (i + 4 =? 0) with false by lia. cbn [andb].
    replace (4 <=? n + 4) with true by lia. rewrite andb_true_r.
    replace (i + (n + 4) + 56) with (i + 4 + n + 56) by lia.
    set (q := (i + 4 + n + 56) / 60).
    destruct (Z.eqb_spec i 0) as [->|Ni]; cbn [negb andb].
    + rewrite andb_false_r. cbn. lia.
    + rewrite andb_true_r. assert ((i + 4 + 59) / 60 = (i + 59) / 60 + (if i mod 60 =? 0 then 1 else 0)); [|lia].
      destruct (Z.eqb_spec (i mod 60) 0); lia.
Qed.

Lemma fmt_i_int z : fmt_i (inject_Z z) = z.
Proof.
  unfold fmt_i. cbn [Qnum inject_Z]. destruct (z <? 0).
  - rewrite <- inject_Z_opp, Qfloor_Z. lia.
  - apply Qfloor_Z.
Qed.

Lemma Qfloor_div a b : 0 < b -> Qfloor (inject_Z a / inject_Z b) = a / b.
Proof.
  intros H. destruct b as [|p|p]; try lia. unfold Qdiv, Qinv, inject_Z, Qmult, Qfloor. cbn.
  now rewrite Z.mul_1_r.
Qed.

Lemma fmt_i_nonneg q : (0 <= q)%Q -> fmt_i q = Qfloor q.
Proof.
  unfold fmt_i. destruct q as [n d]. unfold Qle. cbn [Qnum Qden]. intros H.
  replace (n <? 0) with false by lia. reflexivity.
Qed.

Lemma ascii85lines_nonneg n : (0 <= ascii85lines n)%Q.
Proof.
  unfold ascii85lines. destruct (Z.ltb_spec n 4); [discriminate|].
  apply Qle_shift_div_l; [reflexivity|]. change (0 * 60)%Q with (inject_Z 0). rewrite <- Zle_Qle. lia.
Qed.

Lemma fmt_ascii85lines n : 0 <= n -> fmt_i (ascii85lines n) = if n <? 4 then 1 else (n + 56) / 60.
Proof.
  intros H. rewrite fmt_i_nonneg by apply ascii85lines_nonneg.
  unfold ascii85lines. destruct (Z.ltb_spec n 4); [reflexivity|]. now rewrite (Qfloor_div _ 60).
Qed.

Lemma stream_lines data : Forall isbyte data ->
  lines (ascii85stream data) + 1 = fmt_i (ascii85lines (Z.of_nat (length data))).
Proof.
  intros H. rewrite fmt_ascii85lines by lia. rewrite ascii85stream_whole, whole_lines by (auto; lia).
  cbn [Z.eqb andb]. destruct (Z.ltb_spec (Z.of_nat (length data)) 4);
  destruct (Z.leb_spec 4 (Z.of_nat (length data))); lia.
Qed.

Lemma Qfloor_add_int z q : Qfloor (inject_Z z + q) = z + Qfloor q.
Proof.
  destruct q as [n d]. unfold inject_Z, Qplus, Qfloor. cbn [Qnum Qden].
  rewrite Z.mul_1_r, Pos.mul_1_l. rewrite Z.add_comm, Z.div_add by lia. lia.
Qed.

Lemma full_strings_lines m : (0 < m)%nat -> forall k data, (k * m <= length data)%nat -> Forall isbyte data ->
  lines (full_strings k m data) = Z.of_nat k * fmt_i (ascii85lines (Z.of_nat m)).
Proof.
  intros Hm. induction k as [|k IH]; intros data Hl HF; [reflexivity|].
  cbn [full_strings]. rewrite !lines_app, IH.
  - pose proof (stream_lines (firstn m data) (Forall_firstn _ _ _ HF)) as E.
    rewrite firstn_length, Nat.min_l in E by lia. rewrite <- E.
    change (lines (str "<~")) with 0. change (lines (str "~>")) with 0. change (lines [newline]) with 1. lia.
  - rewrite skipn_length. lia.
  - apply Forall_forall. intros x Hx. rewrite Forall_forall in HF. apply HF.
    rewrite <- (firstn_skipn m data). apply in_or_app. now right.
Qed.

(** number of lines really written for a string array *)
Lemma array_lines m data : (0 < m)%nat -> Forall isbyte data ->
  let n := Z.of_nat (length data) in
  lines (snd (psimagedata false m data)) =
    n / Z.of_nat m * fmt_i (ascii85lines (Z.of_nat m)) + fmt_i (ascii85lines (n mod Z.of_nat m)).
Proof.
  intros Hm HF n. unfold psimagedata. cbn [snd]. fold n.
  set (M := Z.of_nat m). assert (0 < M) by lia.
  assert (n - n mod M = M * (n / M)) as ET by (pose proof (Z.div_mod n M ltac:(lia)); lia).
  assert (0 <= n / M) as Hq by (apply Z.div_pos; lia).
  assert (0 <= n mod M < M) as Hr by (apply Z.mod_pos_bound; lia).
  rewrite ET. replace (M * (n / M) / M) with (n / M) by (rewrite Z.mul_comm, Z.div_mul by lia; reflexivity).
  rewrite !lines_app. change (lines (str "[ ")) with 0. change (lines (str "]")) with 0. change (lines [newline]) with 1.
  assert (M * (n / M) + n mod M = n) as En by lia.
  rewrite full_strings_lines by (auto; subst n M; nia). fold M. rewrite Z2Nat.id by auto.
  destruct (Z.eqb_spec n (M * (n / M))) as [E|E].
  - replace (n mod M) with 0 by lia. cbn. lia.
  - rewrite !lines_app. change (lines (str "<~")) with 0. change (lines (str "~>")) with 0.
    assert (Forall isbyte (skipn (Z.to_nat (M * (n / M))) data)) as HF'.
    { apply Forall_forall. intros x Hx. rewrite Forall_forall in HF. apply HF.
      rewrite <- (firstn_skipn (Z.to_nat (M * (n / M))) data). apply in_or_app. now right. }
    pose proof (stream_lines _ HF') as E'. rewrite skipn_length in E'.
    replace (Z.of_nat (length data - Z.to_nat (M * (n / M)))) with (n mod M) in E' by (subst n; nia).
    lia.
Qed.

Lemma announced_array m data : (0 < m)%nat ->
  let n := Z.of_nat (length data) in
  Z.of_nat m < 4 \/ Z.of_nat m mod 60 = 4 ->
  fst (psimagedata false m data) =
    n / Z.of_nat m * fmt_i (ascii85lines (Z.of_nat m)) + fmt_i (ascii85lines (n mod Z.of_nat m)).
Proof.
  intros Hm n Hcase. unfold psimagedata. cbn [fst]. fold n.
  set (M := Z.of_nat m) in *. assert (0 < M) by lia.
  assert (n - n mod M = M * (n / M)) as ET by (pose proof (Z.div_mod n M ltac:(lia)); lia).
  assert (0 <= n / M) as Hq by (apply Z.div_pos; lia).
  assert (0 <= n mod M < M) as Hr by (apply Z.mod_pos_bound; lia).
  rewrite ET. replace (n - M * (n / M)) with (n mod M) by lia.
  assert (inject_Z (M * (n / M)) / inject_Z M == inject_Z (n / M))%Q as EQ.
  { rewrite inject_Z_mult. field. intros E. change 0%Q with (inject_Z 0) in E.
    rewrite inject_Z_injective in E. lia. }
  assert (ascii85lines M == inject_Z (fmt_i (ascii85lines M)))%Q as EL.
  { rewrite fmt_ascii85lines by lia. unfold ascii85lines. destruct (Z.ltb_spec M 4); [reflexivity|].
    destruct Hcase as [|Hc]; [lia|].
    replace (M + 56) with (60 * ((M + 56) / 60)) at 1 by lia.
    rewrite inject_Z_mult. change 60%Q with (inject_Z 60). field. }
  assert (inject_Z (M * (n / M)) / inject_Z M * ascii85lines M + ascii85lines (n mod M)
          == inject_Z (n / M * fmt_i (ascii85lines M)) + ascii85lines (n mod M))%Q as E.
  { rewrite EQ, inject_Z_mult, <- EL. reflexivity. }
  assert (0 <= fmt_i (ascii85lines M)) as Hp.
  { rewrite fmt_ascii85lines by lia. destruct (Z.ltb_spec M 4); lia. }
  rewrite !fmt_i_nonneg; [|apply ascii85lines_nonneg|apply ascii85lines_nonneg|].
  - rewrite E, Qfloor_add_int, fmt_i_nonneg by apply ascii85lines_nonneg. reflexivity.
  - rewrite E. apply (Qle_trans _ (0 + 0)); [discriminate|]. apply Qplus_le_compat; [|apply ascii85lines_nonneg].
    change 0%Q with (inject_Z 0). rewrite <- Zle_Qle. apply Z.mul_nonneg_nonneg; auto.
Qed.

(** ** bands *)
Lemma slice_step_skip k step data : slice_step (length k) step (k ++ data) = slice_step 0 step data.
Proof. induction k; simpl; auto. Qed.

Lemma slice_step_app_short pre : forall start step data, (length pre <= start)%nat ->
  slice_step start step (pre ++ data) = slice_step (start - length pre) step data.
Proof.
  induction pre as [|x pre IH]; intros start step data H; simpl in *; [now rewrite Nat.sub_0_r|].
  destruct start as [|s]; [lia|]. apply IH. lia.
Qed.

Lemma slice_step_pixels b bands pixels : (b < bands)%nat -> Forall (fun p => length p = bands) pixels ->
  slice_step b bands (concat pixels) = map (fun p => nth b p 0) pixels.
Proof.
  intros Hb. induction 1 as [|p pixels Hp HF IH]; [reflexivity|]. cbn [concat map].
  rewrite <- (firstn_skipn b p) at 1. rewrite <- app_assoc.
  rewrite slice_step_app_short by (rewrite firstn_length; lia).
  rewrite firstn_length, Nat.min_l, Nat.sub_diag by lia.
  assert (nth b p 0 = hd 0 (skipn b p)) as ->.
  { clear - Hb Hp. revert b Hb. subst bands. induction p as [|x p IHp]; intros b Hb; simpl in *; [lia|].
    destruct b; simpl; auto. apply IHp. lia. }
  assert (length (skipn b p) = (bands - b)%nat) as HL by (rewrite skipn_length; lia).
  destruct (skipn b p) as [|x s] eqn:E; simpl in HL; [lia|]. simpl. f_equal.
  rewrite slice_step_app_short by lia. replace (bands - 1 - length s)%nat with b by lia. exact IH.
Qed.

Lemma bands_pixels bands pixels : Forall (fun p => length p = bands) pixels ->
  bands_of bands (concat pixels) = map (fun b => map (fun p => nth b p 0) pixels) (seq 0 bands).
Proof.
  intros H. unfold bands_of. apply map_ext_in. intros b Hb. apply in_seq in Hb.
  apply slice_step_pixels; auto. lia.
Qed.

Lemma map_nth_seq (p : list Z) : map (fun b => nth b p 0) (seq 0 (length p)) = p.
Proof.
  induction p as [|x p IH]; [reflexivity|]. cbn [length seq map nth]. f_equal.
  rewrite <- seq_shift, map_map. exact IH.
Qed.

(** zipping the bands given by a list of indices gives the tuples of these components *)
Lemma zip_map_nth (ix : list nat) pixels : 
  zip (length pixels) (map (fun b => map (fun p => nth b p 0) pixels) ix) = map (fun p => map (fun b => nth b p 0) ix) pixels.
Proof.
  induction pixels as [|p pixels IH]; [reflexivity|]. cbn [length zip].
  replace (forallb _ _) with true.
  - cbn [map]. f_equal.
    + rewrite map_map. reflexivity.
    + rewrite map_map. cbn [map tl]. exact IH.
  - symmetry. apply forallb_forall. intros x Hx. apply in_map_iff in Hx. destruct Hx as (b & <- & _). reflexivity.
Qed.

Lemma zipall_map_nth (ix : list nat) pixels : ix <> [] ->
  zipall (map (fun b => map (fun p => nth b p 0) pixels) ix) = map (fun p => map (fun b => nth b p 0) ix) pixels.
Proof.
  intros H. unfold zipall. destruct ix as [|i ix]; [congruence|]. cbn [map].
  rewrite map_length. apply (zip_map_nth (i :: ix)).
Qed.

Lemma concat_const_length (pixels : list (list Z)) n : Forall (fun p => length p = n) pixels ->
  length (concat pixels) = (n * length pixels)%nat.
Proof. induction 1; simpl; [lia|]. rewrite app_length. lia. Qed.

(** every data of the right length is made of pixels *)
Fixpoint chunks (n k : nat) (data : list Z) : list (list Z) :=
  match k with O => [] | S k' => firstn n data :: chunks n k' (skipn n data) end.

Lemma chunks_ok n : forall k data, length data = (n * k)%nat ->
  concat (chunks n k data) = data /\ Forall (fun p => length p = n) (chunks n k data) /\ length (chunks n k data) = k.
Proof.
  induction k as [|k IH]; intros data H; simpl.
  - destruct data; [auto|simpl in H; lia].
  - destruct (IH (skipn n data)) as (A & B & C); [rewrite skipn_length; lia|].
    rewrite A, firstn_skipn. repeat split; auto. constructor; auto. rewrite firstn_length. lia.
Qed.

(** ** PNG *)
Lemma skipn_add n m (l : list Z) : skipn (n + m) l = skipn n (skipn m l).
Proof.
  revert l. induction m as [|m IH]; intros l; [now rewrite Nat.add_0_r|].
  rewrite Nat.add_succ_r. destruct l; simpl; [now rewrite skipn_nil|apply IH].
Qed.

Lemma firstn_exact n (a b : list Z) : length a = n -> firstn n (a ++ b) = a.
Proof. intros <-. rewrite firstn_app, Nat.sub_diag, firstn_all. apply app_nil_r. Qed.

Lemma skipn_exact n (a b : list Z) : length a = n -> skipn n (a ++ b) = b.
Proof. intros <-. rewrite skipn_app, Nat.sub_diag, skipn_all. reflexivity. Qed.

Lemma png_roundtrip n : forall h data, length data = (n * h)%nat ->
  png_unfilter n h (png_scanlines n h data) = Some data.
Proof.
  assert (forall k h data, length data = (n * (k + h))%nat ->
    png_unfilter n h (flat_map (fun pos => 0 :: firstn n (skipn (n * pos) data)) (seq k h)) = Some (skipn (n * k) data)) as G.
  { intros k h. revert k. induction h as [|h IH]; intros k data H; cbn [seq flat_map png_unfilter].
    - rewrite skipn_all2 by lia. reflexivity.
    - cbn [app].
      assert (length (firstn n (skipn (n * k) data)) = n) as L by (rewrite firstn_length, skipn_length; nia).
      rewrite (firstn_exact n _ _ L), (skipn_exact n _ _ L).
      rewrite IH by (rewrite H; f_equal; lia). cbn [option_map]. f_equal.
      replace (n * S k)%nat with (n + n * k)%nat by lia.
      rewrite <- (firstn_skipn n (skipn (n * k) data)) at 2. f_equal.
      apply skipn_add. }
  intros h data H. unfold png_scanlines. rewrite (G 0%nat h data); auto. now rewrite Nat.mul_0_r.
Qed.

(** ** imagedata *)
Lemma new_image_inv w h mode data im : new_image w h mode data = Some im ->
  0 < w /\ 0 < h /\ In mode valid_modes /\ Z.of_nat (String.length mode) * w * h = Z.of_nat (length data) /\
  im = {| iwidth := w; iheight := h; imode := mode; idata := data |}.
Proof.
  unfold new_image. destruct (_ || _) eqn:E1; [discriminate|].
  destruct (existsb (String.eqb mode) valid_modes) eqn:E2; [|discriminate]. cbn [negb].
  destruct (_ =? _) eqn:E3; [|discriminate]. cbn [negb]. intros [= <-].
  apply existsb_exists in E2. destruct E2 as (x & Hx & Ex). apply String.eqb_eq in Ex. subst x.
  apply orb_false_iff in E1. repeat split; auto; lia.
Qed.

Lemma new_image_ok w h mode data : 0 < w -> 0 < h -> In mode valid_modes ->
  Z.of_nat (String.length mode) * w * h = Z.of_nat (length data) ->
  new_image w h mode data = Some {| iwidth := w; iheight := h; imode := mode; idata := data |}.
Proof.
  intros Hw Hh Hm HL. unfold new_image. replace (_ || _) with false by lia.
  replace (existsb (String.eqb mode) valid_modes) with true.
  - cbn [negb]. replace (_ =? _) with true by lia. reflexivity.
  - symmetry. apply existsb_exists. exists mode. split; auto. apply String.eqb_refl.
Qed.

Lemma nth_seq_tl (p : list Z) n : length p = S n -> map (fun b => nth b p 0) (seq 1 n) = tl p.
Proof.
  destruct p as [|x p]; [discriminate|]. intros [= <-]. cbn [tl].
  rewrite <- seq_shift, map_map. cbn [nth]. apply map_nth_seq.
Qed.

Lemma map_nth_seq_app (p : list Z) s : map (fun b => nth b (p ++ s) 0) (seq 0 (length p)) = p.
Proof.
  induction p as [|x p IH]; [reflexivity|]. cbn [length seq map app nth]. f_equal.
  rewrite <- seq_shift, map_map. exact IH.
Qed.

Lemma nth_seq_removelast (p : list Z) n : length p = S n -> map (fun b => nth b p 0) (seq 0 n) = removelast p.
Proof.
  intros H. assert (p <> []) as Np by (destruct p; discriminate).
  assert (length (removelast p) = n) as L.
  { pose proof (app_removelast_last 0 Np) as E. apply (f_equal (@length Z)) in E. rewrite app_length in E. simpl in E. lia. }
  pose proof (map_nth_seq_app (removelast p) [last p 0]) as M.
  rewrite <- (app_removelast_last 0 Np), L in M. exact M.
Qed.

Lemma nth_last (p : list Z) n : length p = S n -> nth n p 0 = last p 0.
Proof.
  revert n. induction p as [|x p IH]; intros n H; [discriminate|]. injection H as H.
  destruct p as [|y p]; [simpl in H; now subst|]. destruct n as [|n]; [discriminate|].
  change (nth n (y :: p) 0 = last (y :: p) 0). now apply IH.
Qed.

Lemma last_map_seq {A} (f : nat -> A) n d : last (map f (seq 0 (S n))) d = f n.
Proof.
  rewrite seq_S, map_app. simpl. rewrite last_last. reflexivity.
Qed.

Lemma removelast_map_seq {A} (f : nat -> A) n : removelast (map f (seq 0 (S n))) = map f (seq 0 n).
Proof. rewrite seq_S, map_app. simpl. apply removelast_last. Qed.

Lemma map_len_forall (f : list Z -> list Z) n m (pixels : list (list Z)) :
  (forall p, length p = n -> length (f p) = m) -> Forall (fun p => length p = n) pixels ->
  length (concat (map f pixels)) = (m * length pixels)%nat.
Proof.
  intros Hf. induction 1; simpl; [lia|]. rewrite app_length, Hf by auto. lia.
Qed.
