(** C147: specials of DVI files: groups with colors, rotations and scalings, markers *)
From Coq Require Import Ascii String ZArith List Bool Lia Reals.
From Verif Require Import UnitModel TrafoModel ColorModel DviModel SpecialModel MapModel MapSpec MapProps SpecialSpec.
From Coq Require Import Lra.
Import ListNotations.
Open Scope R_scope.
Ltac norm := change text with (list Z) in *; change chars with (list Z) in *.

(** ** texts of the specials *)
Lemma new_ok x c : unit_interval x -> check x c = c.
Proof. unfold unit_interval, check. intros [A B]. destruct (Rlt_dec x 0); [lra|]. destruct (Rgt_dec x 1); [lra|reflexivity]. Qed.
Lemma isdigit_iff c : isdigit c = true <-> digit c.
Proof. unfold isdigit, digit. rewrite andb_true_iff, !Z.leb_le. tauto. Qed.
Definition stops (r : list Z) : Prop := match r with [] => True | c :: _ => ~ digit c end.
Lemma span_digits d r : Forall digit d -> stops r -> span (d ++ r) = (d, r).
Proof.
  induction d as [|c d IH]; intros F S; cbn [app].
  - destruct r as [|c r]; [reflexivity|]. cbn [span]. cbn in S. destruct (isdigit c) eqn:E; [apply isdigit_iff in E; contradiction|reflexivity].
  - inversion F as [|? ? D F']; subst. cbn [span]. rewrite (proj2 (isdigit_iff c) D), (IH F' S). reflexivity.
Qed.
Definition sep (r : list Z) : Prop := match r with c :: _ => c = 44%Z \/ c = 41%Z | [] => False end.
Lemma sep_stops r : sep r -> stops r.
Proof. destruct r as [|c r]; cbn; [tauto|]. unfold digit. lia. Qed.
Lemma mantissa_numeral w r : numeral w -> sep r -> mantissa (w ++ r) = Some (w, r).
Proof.
  intros N S. unfold mantissa. pose proof (sep_stops r S) as ST. destruct N as [d D F|d e D F G].
  - rewrite (span_digits d r F ST). destruct d as [|c d]; [contradiction|]. destruct r as [|x r]; [destruct S|]. cbn in S. destruct S as [-> | ->]; reflexivity.
  - rewrite <- app_assoc. cbn [app]. rewrite (span_digits d (46%Z :: e ++ r) F); [|cbn; unfold digit; lia]. rewrite (span_digits e r G ST).
    destruct d as [|c d]; [|reflexivity]. destruct e as [|c e]; [destruct D; contradiction|reflexivity].
Qed.
Lemma numeral_head w : numeral w -> exists c v, w = c :: v /\ (digit c \/ c = 46%Z).
Proof. intros [d D F|d e D F G]; destruct d as [|c d]; try contradiction; [|eexists _, _; split; [reflexivity|right; reflexivity]|]; inversion F; subst; eexists _, _; (split; [reflexivity|left; assumption]). Qed.
Lemma unsign_numeral w r : numeral w -> unsign (w ++ r) = w ++ r.
Proof. intros N. destruct (numeral_head w N) as (c & v & -> & D). cbn [app unsign]. unfold digit in D. destruct (Z.eqb_spec c 43); [lia|]. destruct (Z.eqb_spec c 45); [lia|]. reflexivity. Qed.
Lemma exponent_sep r : sep r -> exponent r = r.
Proof. destruct r as [|c [|d r]]; [tauto|reflexivity|]. cbn [sep]. intros [-> | ->]; reflexivity. Qed.
Lemma findall_other f c r : (c = 44 \/ c = 41 \/ c = 40)%Z -> findall (S f) (c :: r) = findall f r.
Proof. intros [-> | [-> | ->]]; reflexivity. Qed.
Lemma findall_numeral f w r : numeral w -> sep r -> findall (S f) (w ++ r) = w :: findall f r.
Proof.
  intros N S. pose proof (mantissa_numeral w r N S) as M. pose proof (unsign_numeral w r N) as U. destruct (numeral_head w N) as (c & v & E & _). cbn [findall].
  destruct (w ++ r) as [|x y] eqn:X; [rewrite E in X; discriminate|]. rewrite U, M, (exponent_sep r S). reflexivity.
Qed.
Lemma findall_commas l : Forall numeral l -> forall f, (List.length (commas l ++ [41%Z]) <= f)%nat -> findall f (commas l ++ [41%Z]) = l.
Proof.
  induction l as [|w l IH]; intros F f L.
  - cbn in *. destruct f as [|[|f]]; [lia|reflexivity|reflexivity].
  - inversion F as [|? ? N F']; subst. destruct (numeral_head w N) as (c & v & E & _). destruct l as [|w' l'].
    + cbn [commas] in *. assert (exists f', f = S (S f')) as [f' ->] by (rewrite E in L; cbn in L; rewrite app_length in L; cbn in L; exists (f - 2)%nat; lia).
      rewrite findall_numeral; [|exact N|right; reflexivity]. rewrite findall_other by auto. destruct f'; reflexivity.
    + change (commas (w :: w' :: l')) with (w ++ 44%Z :: commas (w' :: l')) in *. rewrite <- app_assoc in *. cbn [app] in *.
      assert (exists f', f = S (S f')) as [f' ->] by (rewrite E in L; rewrite app_length in L; cbn in L; exists (f - 2)%nat; lia).
      rewrite findall_numeral; [|exact N|left; reflexivity]. rewrite findall_other by auto. f_equal. apply IH; [exact F'|]. rewrite app_length in L. cbn [List.length] in L. rewrite E in L. cbn [List.length] in L. lia.
Qed.
Lemma numpat_commas l : Forall numeral l -> numpat (40%Z :: commas l ++ [41%Z]) = l.
Proof. intros F. unfold numpat. cbn [List.length]. rewrite findall_other by auto. apply findall_commas; auto. Qed.

Section READ.
Variable fl : text -> option R.
Variable int : text -> option Z.
Variable named : text -> text -> option color.
Lemma sequence_map (l : list text) xs : Forall2 (fun t x => fl t = Some x) l xs -> sequence (map fl l) = Some xs.
Proof. induction 1 as [|t x l xs E F IH]; [reflexivity|]. cbn [map sequence]. rewrite E. cbn [bind]. rewrite IH. reflexivity. Qed.
Lemma rgb_255 x c : (0 <= x <= 255)%Z -> check (IZR x / 255) c = c.
Proof. intros [A B]. apply new_ok. apply IZR_le in A, B. unfold unit_interval. lra. Qed.
Lemma pyx_model (prefix : string) (m : string) r : In prefix ["pyx.color."; "color."; ""]%string -> In m ["gray"; "grey"; "rgb"; "hsb"; "cmyk"]%string ->
  pyxcolor fl named (key prefix ++ key m ++ r) = match drop "." r with [] => None | c :: s => if (c =? 40)%Z then bind (sequence (map fl (numpat (c :: s)))) (construct (key m)) else named (key m) (c :: s) end.
Proof.
  cbn [In]. intros P M.
  destruct P as [<- | [<- | [<- | []]]]; destruct M as [<- | [<- | [<- | [<- | [<- | []]]]]]; unfold pyxcolor; cbn; reflexivity.
Qed.
Lemma words_color l c : color_words fl int named l c -> getcolor fl int named l = Some c.
Proof.
  intros [a b c' d w x y z A B C D U|a x A U|a b c' x y z A B C U|a b c' x y z A B C U|a b c' x y z A B C U V W|n c' N|prefix m l' xs c' P N F U M|prefix m n c' P M N1 N2 N].
  - change (getcolor _ _ _ _) with (bind (fl a) (fun a => bind (fl b) (fun b => bind (fl c') (fun c => bind (fl d) (fun d => new_cmyk a b c d))))). rewrite A, B, C, D. cbn [bind].
    rewrite !Forall_forall in U. unfold new_cmyk. rewrite !new_ok; auto; apply U; cbn; auto.
  - change (getcolor _ _ _ _) with (bind (fl a) new_gray). rewrite A. apply new_ok. exact U.
  - change (getcolor _ _ _ _) with (bind (fl a) (fun a => bind (fl b) (fun b => bind (fl c') (fun c => new_hsb a b c)))). rewrite A, B, C. cbn [bind]. rewrite !Forall_forall in U. unfold new_hsb. rewrite !new_ok; auto; apply U; cbn; auto.
  - change (getcolor _ _ _ _) with (bind (fl a) (fun a => bind (fl b) (fun b => bind (fl c') (fun c => new_rgb a b c)))). rewrite A, B, C. cbn [bind]. rewrite !Forall_forall in U. unfold new_rgb. rewrite !new_ok; auto; apply U; cbn; auto.
  - change (getcolor _ _ _ _) with (bind (option_map (fun z => IZR z / 255) (int a)) (fun a => bind (option_map (fun z => IZR z / 255) (int b)) (fun b => bind (option_map (fun z => IZR z / 255) (int c')) (fun c => new_rgb a b c)))).
    rewrite A, B, C. cbn [bind option_map]. unfold new_rgb. rewrite !rgb_255; auto.
  - exact N.
  - change (getcolor _ _ _ _) with (pyxcolor fl named (key prefix ++ key m ++ 40%Z :: commas l' ++ [41%Z])).
    assert (In m ["gray"; "grey"; "rgb"; "hsb"; "cmyk"]%string /\ construct (key m) xs = Some c') as [M1 M2].
    { assert (K : forall x, In x xs -> unit_interval x) by (rewrite Forall_forall in U; exact U). clear - M K.
      destruct (string_dec m "gray") as [-> |]; [|destruct (string_dec m "grey") as [-> |]; [|destruct (string_dec m "rgb") as [-> |]; [|destruct (string_dec m "hsb") as [-> |]; [|destruct (string_dec m "cmyk") as [-> |]]]]].
      1-2: destruct xs as [|g [|]]; try contradiction; subst; split; [cbn; tauto|]; apply new_ok, K; cbn; auto.
      1: destruct xs as [|r [|g [|b [|]]]]; try contradiction; subst; split; [cbn; tauto|]; change (new_rgb r g b = Some (RGB r g b)); unfold new_rgb; rewrite !new_ok; auto; apply K; cbn; auto.
      1: destruct xs as [|r [|g [|b [|]]]]; try contradiction; subst; split; [cbn; tauto|]; change (new_hsb r g b = Some (HSB r g b)); unfold new_hsb; rewrite !new_ok; auto; apply K; cbn; auto.
      1: destruct xs as [|r [|g [|b [|k [|]]]]]; try contradiction; subst; split; [cbn; tauto|]; change (new_cmyk r g b k = Some (CMYK r g b k)); unfold new_cmyk; rewrite !new_ok; auto; apply K; cbn; auto 10.
      exfalso. revert M. repeat match goal with |- context [match ?x with _ => _ end] => is_var x; destruct x; try tauto end; congruence. }
    rewrite (pyx_model prefix m _ P M1). change (drop "." (40%Z :: commas l' ++ [41%Z])) with (40%Z :: commas l' ++ [41%Z]). cbn iota. change (40 =? 40)%Z with true. cbn iota.
    rewrite (numpat_commas l' N), (sequence_map l' xs F). exact M2.
  - change (getcolor _ _ _ _) with (pyxcolor fl named (key prefix ++ key m ++ 46%Z :: n)). rewrite (pyx_model prefix m _ P M). change (drop "." (46%Z :: n)) with n.
    destruct n as [|a n]; [destruct N1|]. destruct (Z.eqb_spec a 40); [contradiction|exact N].
Qed.
Lemma says_command t cmd : special_says fl int named t cmd -> getcommand fl int named (skipn 4 t) = Some cmd.
Proof.
  intros (ws & s & W & S & ->). change (skipn 4 (key "PyX:" ++ s)) with s. unfold getcommand. rewrite (split_spaced ws s S). destruct W as [l c C|a x A|a b x y A B|w I|f x1 y1 x2 y2 w h cl a b c d w' h' cl' N A B C D W H L|n N].
  - cbn iota. cbn -[getcolor]. rewrite (words_color l c C). reflexivity.
  - cbn. unfold arg. cbn. rewrite A. reflexivity.
  - cbn. unfold arg. cbn. rewrite A, B. reflexivity.
  - destruct I as [<- | [<- | [<- | []]]]; reflexivity.
  - change (option_map Include (getinclude fl int ([key "file=" ++ f; key "llx=" ++ x1; key "lly=" ++ y1; key "urx=" ++ x2; key "ury=" ++ y2] ++
      match w with Some t => [key "width=" ++ t] | None => [] end ++ match h with Some t => [key "height=" ++ t] | None => [] end ++ match cl with Some t => [key "clip=" ++ t] | None => [] end)) = Some (Include (mkeps f (a, b, c, d) w' h' cl'))).
    assert (V : forall t, ~ In 61%Z t -> existsb (Z.eqb 61) t = false). { intros t I. destruct (existsb (Z.eqb 61) t) eqn:E; [|reflexivity]. apply existsb_exists in E. destruct E as (z & I' & E). apply Z.eqb_eq in E. subst. contradiction. }
    pose proof (V f (N f ltac:(left; left; auto))) as N1. pose proof (V x1 (N x1 ltac:(left; right; left; auto))) as N2. pose proof (V y1 (N y1 ltac:(left; do 2 right; left; auto))) as N3.
    pose proof (V x2 (N x2 ltac:(left; do 3 right; left; auto))) as N4. pose proof (V y2 (N y2 ltac:(left; do 4 right; left; auto))) as N5.
    unfold getinclude. rewrite map_app. cbn [map].
    change (keyvalue (key "file=" ++ f)) with (if existsb (Z.eqb 61) f then None else Some (kw "file", f)). change (keyvalue (key "llx=" ++ x1)) with (if existsb (Z.eqb 61) x1 then None else Some (kw "llx", x1)).
    change (keyvalue (key "lly=" ++ y1)) with (if existsb (Z.eqb 61) y1 then None else Some (kw "lly", y1)). change (keyvalue (key "urx=" ++ x2)) with (if existsb (Z.eqb 61) x2 then None else Some (kw "urx", x2)).
    change (keyvalue (key "ury=" ++ y2)) with (if existsb (Z.eqb 61) y2 then None else Some (kw "ury", y2)). rewrite N1, N2, N3, N4, N5.
    destruct w as [w|], w' as [w'|]; try discriminate W; destruct h as [h|], h' as [h'|]; try discriminate H; destruct cl as [cl|], cl' as [cl'|]; try discriminate L; cbn [option_map] in W, H, L;
      repeat match goal with E : Some _ = Some _ |- _ => injection E as E end; cbn [map app];
      try change (keyvalue (key "width=" ++ w)) with (if existsb (Z.eqb 61) w then None else Some (kw "width", w)); try change (keyvalue (key "height=" ++ h)) with (if existsb (Z.eqb 61) h then None else Some (kw "height", h));
      try change (keyvalue (key "clip=" ++ cl)) with (if existsb (Z.eqb 61) cl then None else Some (kw "clip", cl));
      try rewrite (V w (N w ltac:(right; left; reflexivity))); try rewrite (V h (N h ltac:(right; right; left; reflexivity))); try rewrite (V cl (N cl ltac:(right; right; right; reflexivity)));
      cbn [sequence bind option_map app];
      match goal with |- context [value ?d "file"] => change (value d "file") with (Some f); change (value d "llx") with (Some x1); change (value d "lly") with (Some y1); change (value d "urx") with (Some x2); change (value d "ury") with (Some y2);
        first [change (value d "width") with (Some w) | change (value d "width") with (@None chars)]; first [change (value d "height") with (Some h) | change (value d "height") with (@None chars)];
        first [change (value d "clip") with (Some cl) | change (value d "clip") with (@None chars)] end;
      cbn [bind]; rewrite A, B, C, D; cbn [bind optional]; try rewrite W; cbn [bind option_map]; try rewrite H; cbn [bind option_map]; try rewrite L; reflexivity.
  - cbn -[forallb]. assert (forallb markerchar n = true) as ->; [|reflexivity]. apply forallb_forall. intros c I. rewrite Forall_forall in N. specialize (N c I). unfold alphanumeric in N. unfold markerchar, isdigit. lia.
Qed.

(** ** groups *)
Definition marks_ (moved_ : effect -> R * R -> R * R) := fix marks (p : part) : list (chars * (R * R)) :=
  match p with Drawn _ => [] | Mark n q => [(n, q)] | Group e l => map (fun nq => (fst nq, moved_ e (snd nq))) (flat_map marks l) end.
Definition marks := marks_ moved.
Lemma radians_eq a : radians a = a * PI / 180.
Proof. unfold radians. lra. Qed.
Lemma begins_execute t e x y s : begins (special_says fl int named) t e x y -> exists tr c, bind (getcommand fl int named (skipn 4 t)) (fun cmd => execute cmd x y s) = Some (beginsubpage tr c s) /\ realises e (tr, c).
Proof.
  intros B. inversion B as [t' c x' y' S|t' a x' y' S|t' sx sy x' y' S]; subst; rewrite (says_command _ _ S); cbn [bind execute].
  - exists id_trafo, (Some c). split; [reflexivity|]. split; [|reflexivity]. intros [p q]. unfold apply_pt. cbn. apply (f_equal2 pair); ring.
  - eexists _, None. split; [reflexivity|]. split; [|reflexivity]. intros [p q]. cbn [fst snd]. unfold apply_pt, moved, rvector. cbn [m00 m01 m10 m11 v0 v1 fst snd]. rewrite radians_eq. apply (f_equal2 pair); ring.
  - eexists _, None. split; [reflexivity|]. split; [|reflexivity]. intros [p q]. unfold apply_pt. cbn. apply (f_equal2 pair); ring.
Qed.
Lemma names_marks l items : written (special_says fl int named) l items -> map fst (flat_map marks l) = flat_map names l.
Proof.
  induction 1 as [|l r f x y s W IH|l r x y w h W IH|l r e t x y S W IH|l r n t x y S W IH|l r g i e t x y t' x' y' B W IH S W' IH']; cbn [flat_map map]; auto.
  - cbn. f_equal. exact IH.
  - rewrite map_app, IH'. f_equal. unfold marks at 1. cbn [marks_ names]. rewrite map_map. cbn [fst]. exact IH.
Qed.
Lemma setmarker_new m k v : ~ In k (map fst m) -> setmarker m k v = m ++ [(k, v)].
Proof.
  intros N. unfold setmarker. destruct (existsb _ m) eqn:E; [|reflexivity]. apply existsb_exists in E. destruct E as (p & I & Q). apply eqb_iff in Q. elim N. apply in_map_iff. exists p. auto.
Qed.
Lemma setmarkers_new tr e l : (forall p, apply_pt tr p = moved e p) -> forall m : list (chars * (R * R)), NoDup (map fst m ++ map fst l) ->
  fold_left (fun m kv => setmarker m (fst kv) (apply_pt tr (snd kv))) l m = m ++ map (fun nq => (fst nq, moved e (snd nq))) l.
Proof.
  intros H. induction l as [|[k v] l IH]; intros m D; cbn [fold_left map]; [symmetry; apply app_nil_r|].
  cbn [map fst] in D. pose proof (NoDup_remove_2 _ _ _ D) as N. rewrite setmarker_new by (intros C; apply N; apply in_or_app; now left).
  rewrite IH; [rewrite <- app_assoc; cbn; rewrite H; reflexivity|]. rewrite map_app. cbn [map fst]. rewrite <- app_assoc. exact D.
Qed.
Lemma places_app l1 l2 s : places fl int named (l1 ++ l2) s = bind (places fl int named l1 s) (places fl int named l2).
Proof. revert s. induction l1 as [|i l IH]; intros s; [reflexivity|]. cbn [app places]. destruct (place fl int named i s); [apply IH|reflexivity]. Qed.
Lemma nodup_front {A} (a b : list A) : NoDup (a ++ b) -> NoDup a.
Proof. induction a as [|x a IH]; intros N; [constructor|]. inversion N; subst. constructor; auto. intros C. match goal with H : ~ In _ _ |- _ => apply H end. apply in_or_app. now left. Qed.
Lemma nodup_back {A} (a b : list A) : NoDup (a ++ b) -> NoDup b.
Proof. induction a as [|x a IH]; intros N; [exact N|]. inversion N; auto. Qed.
Lemma written_places l items : written (special_says fl int named) l items -> forall c r, NoDup (map fst (c_markers c) ++ flat_map names l) ->
  exists g, draws l g /\ places fl int named items (c :: r) = Some (mkcanvas (c_trafo c) (c_color c) (c_items c ++ g) (c_markers c ++ flat_map marks l) :: r).
Proof.
  induction 1 as [|l r f x y s W IH|l r x y w h W IH|l r e t x y S W IH|l r n t x y S W IH|l r g i e t x y t' x' y' B W IH S W' IH']; intros c rest D.
  - exists []. split; [constructor|]. cbn. rewrite !app_nil_r. destruct c; reflexivity.
  - destruct (IH (add_item (Leaf (Text f x y s)) c) rest D) as (g & G & E). exists (Leaf (Text f x y s) :: g). split; [constructor; exact G|]. cbn [places place insert bind]. rewrite E. cbn. rewrite <- app_assoc. reflexivity.
  - destruct (IH (add_item (Leaf (Rect x y w h)) c) rest D) as (g & G & E). exists (Leaf (Rect x y w h) :: g). split; [constructor; exact G|]. cbn [places place insert bind]. rewrite E. cbn. rewrite <- app_assoc. reflexivity.
  - destruct (IH (add_item (Eps e x y) c) rest D) as (g & G & E). exists (Eps e x y :: g). split; [constructor; exact G|]. cbn [places place]. rewrite (says_command _ _ S). cbn [bind execute insert]. rewrite E. cbn. rewrite <- app_assoc. reflexivity.
  - cbn [flat_map names] in D. change ([n] ++ flat_map names l) with (n :: flat_map names l) in D.
    destruct (IH (set_markers (c_markers c ++ [(n, (x, y))]) c) rest) as (g & G & E). { cbn [c_markers set_markers]. rewrite map_app. cbn [map fst]. rewrite <- app_assoc. exact D. }
    exists g. split; [constructor; exact G|]. cbn [places place]. rewrite (says_command _ _ S). cbn [bind execute].
    destruct (existsb _ (c_markers c)) eqn:X. { apply existsb_exists in X. destruct X as (p & I & Q). apply eqb_iff in Q. exfalso. apply (NoDup_remove_2 _ _ _ D). apply in_or_app. left. apply in_map_iff. exists p. auto. }
    cbn [bind]. rewrite E. cbn. rewrite <- app_assoc. reflexivity.
  - cbn [flat_map names] in D. cbn [places place]. destruct (begins_execute t e x y (c :: rest) B) as (tr & col & -> & RE). cbn [bind]. unfold beginsubpage.
    destruct (IH (mkcanvas tr col [] []) (c :: rest)) as (g1 & G1 & E1). { cbn [c_markers map app]. apply nodup_front with (b := flat_map names l). apply nodup_back with (a := map fst (c_markers c)). exact D. }
    rewrite places_app, E1. cbn [bind places place]. rewrite (says_command _ _ S). cbn [bind execute endsubpage c_trafo c_color c_items c_markers app].
    rewrite (setmarkers_new tr e (flat_map marks g) (proj1 RE)). 2:{ pose proof (names_marks g i W) as NM. norm. rewrite NM. rewrite app_assoc in D. apply nodup_front in D. exact D. }
    set (c2 := add_item _ _). destruct (IH' c2 rest) as (g2 & G2 & E2).
    { assert (EQ : map fst (c_markers c2) = map fst (c_markers c) ++ flat_map names g).
      { unfold c2. cbn [c_markers add_item set_markers]. etransitivity; [apply map_app|]. apply f_equal. etransitivity; [apply map_map|]. exact (names_marks g i W). }
      unfold chars in *. unfold text in *. rewrite EQ, <- app_assoc. exact D. }
    exists (Sub tr col g1 :: g2). split; [constructor; assumption|]. rewrite E2. unfold c2. cbn. rewrite <- !app_assoc. reflexivity.
Qed.
Lemma within_marks l es n q : within l es (Mark n q) -> In (n, on_page es q) (flat_map marks l).
Proof.
  intros W. remember (Mark n q) as p eqn:E. revert E. induction W as [l p I|l e g es p I W IH]; intros E.
  - subst. apply in_flat_map. exists (Mark n q). split; [exact I|]. left. reflexivity.
  - apply in_flat_map. exists (Group e g). split; [exact I|]. unfold marks. cbn [marks_]. apply in_map_iff. exists (n, on_page es q). split; [reflexivity|]. exact (IH E).
Qed.
Lemma getmarker_in m n p : NoDup (map fst m) -> In (n, p) m -> getmarker m n = Some p.
Proof.
  induction m as [|[k v] m IH]; intros D I; [destruct I|]. inversion D as [|? ? N D']; subst. unfold getmarker. cbn [find fst]. destruct (chars_eqb k n) eqn:E.
  - apply eqb_iff in E. subst. destruct I as [I|I]; [injection I as ->; reflexivity|]. elim N. apply in_map_iff. exists (n, p). auto.
  - apply IH; [exact D'|]. destruct I as [I|I]; [|exact I]. injection I as -> ->. rewrite (proj2 (eqb_iff n n) eq_refl) in E. discriminate.
Qed.
Lemma getmarker_none m n : ~ In n (map fst m) -> getmarker m n = None.
Proof. intros N. unfold getmarker. destruct (find _ m) as [[k v]|] eqn:E; [|reflexivity]. apply find_some in E. destruct E as [I Q]. apply eqb_iff in Q. cbn in Q. subst. elim N. apply in_map_iff. exists (n, v). auto. Qed.
Lemma id_mul t : tmul id_trafo t = t.
Proof. destruct t. unfold tmul, id_trafo. cbn. f_equal; ring. Qed.
(** C147: a page is drawn as its groups say, and each marker is where its place on the page is *)
Theorem page_read : forall t l items, written (special_says fl int named) l items -> NoDup (flat_map names l) ->
  exists c, page fl int named t items = Some c /\ c_trafo c = t /\ c_color c = None /\ draws l (c_items c) /\
    (forall es n p, within l es (Mark n p) -> getmarker (c_markers c) n = Some (on_page es p)) /\ (forall n, ~ In n (flat_map names l) -> getmarker (c_markers c) n = None).
Proof.
  intros t l items W D. destruct (written_places l items W (mkcanvas (tmul id_trafo t) None [] []) []) as (g & G & E); [exact D|].
  eexists. split; [unfold page; rewrite E; reflexivity|]. cbn [c_trafo c_color c_items c_markers app]. split; [apply id_mul|]. split; [reflexivity|]. split; [exact G|].
  assert (N : NoDup (map fst (flat_map marks l))) by (pose proof (names_marks l items W) as NM; norm; rewrite NM; exact D).
  split; [intros es n p I; apply getmarker_in; [exact N|now apply within_marks]|]. intros n I. apply getmarker_none. pose proof (names_marks l items W) as NM; norm; rewrite NM. exact I.
Qed.
End READ.
Print Assumptions page_read.
