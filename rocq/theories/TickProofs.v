From Coq Require Import String Ascii ZArith QArith Qpower Bool List Lia ZifyBool Sorted Permutation.
From Verif Require Import TickModel TickSpec.
Import ListNotations.
Open Scope Z_scope.
Ltac Zify.zify_post_hook ::= Z.div_mod_to_equations.

(** value of numerator and denominator *)
Definition fracQ (n d : Z) : Q := (inject_Z n / inject_Z d)%Q.

(** ** characters *)
Lemma code_range c : 0 <= code c < 256.
Proof. unfold code. destruct c as [[] [] [] [] [] [] [] []]; cbv; split; congruence. Qed.

Lemma code_inj a b : code a = code b -> a = b.
Proof.
  unfold code. intros H. apply N2Z.inj in H.
  rewrite <- (ascii_N_embedding a), <- (ascii_N_embedding b). now rewrite H.
Qed.

Lemma digit_code c v : digit_value c v <-> is_digit c = true /\ v = code c - 48.
Proof.
  unfold digit_value, is_digit. split.
  - intros (n & Hn & -> & ->). unfold code.
    do 10 (destruct n as [|n]; [split; reflexivity|]). lia.
  - intros (H & ->). exists (Z.to_nat (code c - 48)). split; [lia|]. split; [|lia].
    destruct c as [[] [] [] [] [] [] [] []]; try discriminate H; reflexivity.
Qed.

Lemma int_of_snoc s c : int_of (s ++ [c]) = int_of s * 10 + (code c - 48).
Proof. unfold int_of. now rewrite fold_left_app. Qed.

Lemma forallb_snoc {A} (f : A -> bool) l x : forallb f (l ++ [x]) = forallb f l && f x.
Proof. rewrite forallb_app. simpl. now rewrite andb_true_r. Qed.

Lemma digits_int s v : digits_value s v <-> forallb is_digit s = true /\ v = int_of s.
Proof.
  split.
  - induction 1 as [|s v c d Hs (IH1 & IH2) Hc]; [split; reflexivity|].
    apply digit_code in Hc. destruct Hc as (H1 & ->). rewrite forallb_snoc, int_of_snoc, IH1, H1. split; auto. lia.
  - revert v. induction s as [|c s IH] using rev_ind; intros v (H & ->); [constructor|].
    rewrite forallb_snoc in H. apply andb_prop in H. destruct H as (H1 & H2).
    rewrite int_of_snoc. constructor; [apply IH; auto|]. apply digit_code. auto.
Qed.

Lemma int_of_app a b : int_of (a ++ b) = int_of a * 10 ^ Z.of_nat (length b) + int_of b.
Proof.
  induction b as [|c b IH] using rev_ind.
  - rewrite app_nil_r. change (int_of []) with 0. change (10 ^ Z.of_nat (length (@nil ascii))) with 1. lia.
  - rewrite app_assoc, !int_of_snoc, IH, app_length. cbn [length].
    replace (Z.of_nat (length b + 1)) with (Z.of_nat (length b) + 1) by lia.
    rewrite Z.pow_add_r by lia. change (10 ^ 1) with 10. ring.
Qed.

Lemma int_of_nonneg s : forallb is_digit s = true -> 0 <= int_of s.
Proof.
  induction s as [|c s IH] using rev_ind; [discriminate || (intros; cbv; discriminate)|].
  rewrite forallb_snoc, int_of_snoc. intros H. apply andb_prop in H. destruct H as (H1 & H2).
  apply IH in H1. unfold is_digit in H2. lia.
Qed.

(** ** splitting *)
Lemma split_on_notin sep s : ~ In sep s -> split_on sep s = [s].
Proof.
  induction s as [|c s IH]; simpl; auto. intros N. destruct (Ascii.eqb_spec c sep); [subst; tauto|].
  rewrite IH; tauto.
Qed.

Lemma split_on_cons sep a b : ~ In sep a -> split_on sep (a ++ sep :: b) = a :: split_on sep b.
Proof.
  induction a as [|c a IH]; simpl; intros N.
  - now rewrite Ascii.eqb_refl.
  - destruct (Ascii.eqb_spec c sep); [subst; tauto|]. rewrite IH; tauto.
Qed.

Lemma split_on_nonempty sep s : split_on sep s <> [].
Proof.
  destruct s as [|c s]; simpl; [discriminate|]. destruct (Ascii.eqb c sep); [discriminate|].
  destruct (split_on sep s); discriminate.
Qed.

Lemma split_on_head sep s a r : split_on sep s = a :: r ->
  ~ In sep a /\ match r with [] => s = a | _ => exists b, s = a ++ sep :: b /\ split_on sep b = r end.
Proof.
  revert a r. induction s as [|c s IH]; simpl; intros a r.
  - intros [= <- <-]. auto.
  - destruct (Ascii.eqb_spec c sep) as [->|N].
    + intros [= <- <-]. split; auto. destruct (split_on sep s) eqn:E; [now apply split_on_nonempty in E|].
      exists s. auto.
    + destruct (split_on sep s) as [|h t] eqn:E; [now apply split_on_nonempty in E|].
      intros [= <- <-]. destruct (IH h t eq_refl) as (H1 & H2). split.
      * simpl. intros [|]; [congruence|tauto].
      * destruct t; [now subst|]. destruct H2 as (b & -> & H2). exists b. auto.
Qed.

Lemma split_on_1 sep s a : split_on sep s = [a] -> s = a /\ ~ In sep a.
Proof. intros H. apply split_on_head in H. tauto. Qed.

Lemma split_on_2 sep s a b : split_on sep s = [a; b] -> s = a ++ sep :: b /\ ~ In sep a /\ ~ In sep b.
Proof.
  intros H. apply split_on_head in H. destruct H as (H1 & b' & -> & H2).
  apply split_on_1 in H2. destruct H2 as (-> & H2). auto.
Qed.

(** ** white space *)
Lemma is_space_spec c : is_space c = true <-> In (code c) [9; 10; 11; 12; 13; 28; 29; 30; 31; 32; 133; 160].
Proof. unfold is_space. cbn [In]. pose proof (code_range c). lia. Qed.

Lemma blank_space s : blank s <-> forallb is_space s = true.
Proof.
  unfold blank. rewrite forallb_forall, Forall_forall. split; intros H x Hx; apply is_space_spec; now apply H.
Qed.

Lemma lstrip_split s : exists w, forallb is_space w = true /\ s = w ++ lstrip s /\
  (lstrip s = [] \/ exists c t, lstrip s = c :: t /\ is_space c = false).
Proof.
  induction s as [|c s IH]; simpl.
  - exists []. auto.
  - destruct (is_space c) eqn:E.
    + destruct IH as (w & Hw & Es & Hh). exists (c :: w). simpl. rewrite E, Hw. split; auto. split; auto. now f_equal.
    + exists []. split; auto. split; auto. right. eauto.
Qed.

Lemma lstrip_app w t : forallb is_space w = true -> (t = [] \/ exists c t', t = c :: t' /\ is_space c = false) ->
  lstrip (w ++ t) = t.
Proof.
  intros Hw Ht. induction w as [|c w IH]; simpl in *.
  - destruct Ht as [->|(c & t' & -> & Hc)]; simpl; auto. now rewrite Hc.
  - apply andb_prop in Hw. destruct Hw as (-> & Hw). auto.
Qed.

Lemma forallb_rev {A} (f : A -> bool) l : forallb f (rev l) = forallb f l.
Proof. induction l; simpl; auto. rewrite forallb_snoc, IHl. apply andb_comm. Qed.

Lemma strip_split s : exists w1 w2, forallb is_space w1 = true /\ forallb is_space w2 = true /\ s = w1 ++ strip s ++ w2.
Proof.
  unfold strip. destruct (lstrip_split s) as (w1 & H1 & E1 & _).
  destruct (lstrip_split (rev (lstrip s))) as (w2 & H2 & E2 & _).
  exists w1, (rev w2). rewrite forallb_rev. repeat split; auto.
  rewrite E1 at 1. f_equal. apply (f_equal (@rev ascii)) in E2. rewrite rev_involutive, rev_app_distr in E2.
  exact E2.
Qed.

Lemma strip_app w1 t w2 : forallb is_space w1 = true -> forallb is_space w2 = true ->
  Forall (fun c => is_space c = false) t -> strip (w1 ++ t ++ w2) = t.
Proof.
  intros H1 H2 Ht. unfold strip. destruct t as [|c t].
  - simpl. assert (lstrip (w1 ++ w2) = []) as ->; auto.
    rewrite <- (app_nil_r (w1 ++ w2)). apply lstrip_app; auto. rewrite forallb_app, H1, H2. reflexivity.
  - rewrite lstrip_app; auto.
    + rewrite rev_app_distr. rewrite lstrip_app; [now rewrite rev_involutive|now rewrite forallb_rev|].
      right. destruct (rev (c :: t)) as [|x l] eqn:E.
      * apply (f_equal (@length ascii)) in E. rewrite rev_length in E. discriminate.
      * exists x, l. split; auto. rewrite Forall_forall in Ht. apply Ht. apply in_rev. rewrite E. now left.
    + right. exists c, (t ++ w2). inversion Ht; auto.
Qed.

(** ** E and e *)
Lemma replace_noe t : ~ In "e"%char (replace_E t) -> replace_E t = t.
Proof.
  unfold replace_E. induction t as [|c t IH]; simpl; auto. intros N.
  destruct (Ascii.eqb_spec c "E") as [->|]; [exfalso; apply N; now left|]. f_equal. apply IH. tauto.
Qed.

Lemma replace_split t a b : replace_E t = a ++ "e"%char :: b -> exists t1 c t2,
  t = t1 ++ c :: t2 /\ replace_E t1 = a /\ (c = "e"%char \/ c = "E"%char) /\ replace_E t2 = b.
Proof.
  unfold replace_E. intros H. apply map_eq_app in H. destruct H as (t1 & t2 & -> & H1 & H2).
  destruct t2 as [|c t2]; [discriminate|]. simpl in H2. injection H2 as Hc H2.
  exists t1, c, t2. repeat split; auto. destruct (Ascii.eqb_spec c "E"); auto.
Qed.

Lemma replace_id t : Forall (fun c => c <> "E"%char) t -> replace_E t = t.
Proof.
  unfold replace_E. induction 1; simpl; auto. destruct (Ascii.eqb_spec x "E"); [congruence|]. now f_equal.
Qed.

Lemma replace_app a b : replace_E (a ++ b) = replace_E a ++ replace_E b.
Proof. apply map_app. Qed.

(** ** parts *)
Lemma cut_sign_sound s neg t : cut_sign s = (neg, t) -> exists sg, sign_text sg neg /\ s = sg ++ t.
Proof.
  destruct s as [|c s]; simpl.
  - intros [= <- <-]. exists []. split; auto. constructor.
  - destruct (Ascii.eqb_spec c "-") as [->|]; [|destruct (Ascii.eqb_spec c "+") as [->|]]; intros [= <- <-].
    + exists ["-"%char]. split; auto. constructor.
    + exists ["+"%char]. split; auto. constructor.
    + exists []. split; auto. constructor.
Qed.

Lemma cut_sign_complete sg neg t : sign_text sg neg -> forallb is_digit t = true -> cut_sign (sg ++ t) = (neg, t).
Proof.
  intros H Ht. destruct H; simpl; auto. destruct t as [|c t]; auto. simpl in *.
  destruct (Ascii.eqb_spec c "-") as [->|]; [discriminate|].
  destruct (Ascii.eqb_spec c "+") as [->|]; [discriminate|]. auto.
Qed.

Lemma part_value_Some s v : part_value s = Some v <-> forallb is_digit s = true /\ v = int_of s.
Proof.
  unfold part_value. destruct s as [|c s].
  - simpl. split; [intros [= <-]; auto|intros (_ & ->); auto].
  - unfold isdigit. destruct (forallb is_digit (c :: s)); split; try discriminate.
    + intros [= <-]; auto.
    + intros (_ & ->); auto.
    + intros (H & _); discriminate.
Qed.

Lemma isdigit_spec s : isdigit s = true <-> s <> [] /\ forallb is_digit s = true.
Proof. unfold isdigit. destruct s; split; intros H; try discriminate; try tauto. split; [discriminate|auto]. Qed.

(** ** values *)
Lemma pow10_pos n : 0 <= n -> (pow10 n == inject_Z (10 ^ n))%Q.
Proof. intros H. unfold pow10. change 10%Q with (inject_Z 10). symmetry. now apply Zpower_Qpower. Qed.

Lemma pow10_neg n : 0 <= n -> (pow10 (- n) == / inject_Z (10 ^ n))%Q.
Proof.
  intros H. unfold pow10. rewrite Qpower_opp. fold (pow10 n). now rewrite pow10_pos.
Qed.

Lemma inject_nz z : z <> 0 -> ~ (inject_Z z == 0)%Q.
Proof. intros H E. change 0%Q with (inject_Z 0) in E. rewrite inject_Z_injective in E. lia. Qed.

Lemma fracQ_signed neg n d : (fracQ (if neg : bool then - n else n) d == signed neg (fracQ n d))%Q.
Proof.
  unfold fracQ, signed. destruct neg; [|reflexivity]. rewrite inject_Z_opp. unfold Qdiv. ring.
Qed.

Lemma value_pos (neg : bool) n k e : 0 <= k -> 0 <= e ->
  (fracQ ((if neg then - n else n) * 10 ^ e) (10 ^ k) == signed neg (inject_Z n * pow10 (- k) * pow10 e))%Q.
Proof.
  intros Hk He.
  replace ((if neg then - n else n) * 10 ^ e) with (if neg then - (n * 10 ^ e) else n * 10 ^ e) by (destruct neg; ring).
  rewrite fracQ_signed. unfold fracQ, signed. rewrite inject_Z_mult.
  destruct neg; rewrite (pow10_pos e He), (pow10_neg k Hk); unfold Qdiv; ring.
Qed.

Lemma value_neg (neg : bool) n k e : 0 <= k -> 0 <= e ->
  (fracQ (if neg then - n else n) (10 ^ k * 10 ^ e) == signed neg (inject_Z n * pow10 (- k) * pow10 (- e)))%Q.
Proof.
  intros Hk He.
  rewrite fracQ_signed. unfold fracQ, signed. rewrite inject_Z_mult.
  destruct neg; rewrite (pow10_neg e He), (pow10_neg k Hk); unfold Qdiv; rewrite Qinv_mult_distr; ring.
Qed.

(** ** the parser *)
Definition mant_text (m : text) (sg : text) (neg : bool) (i ft f : text) : Prop :=
  m = sg ++ i ++ ft /\ sign_text sg neg /\ frac_text ft f /\ forallb is_digit i = true /\ forallb is_digit f = true.

Definition parse_mant (m : text) : option (Z * Z) :=
  match two_parts (split_on "." m) with
  | None => None
  | Some (c0, c1) =>
      let d := 10 ^ Z.of_nat (length c1) in
      let '(neg, c0') := cut_sign c0 in
      match part_value c0', part_value c1 with
      | Some x, Some y => Some (if neg then - (x * d + y) else x * d + y, d)
      | _, _ => None
      end
  end.

Definition parse_exp (e : text) (n d : Z) : option rational :=
  match e with
  | [] => None
  | _ => let '(eneg, e') := cut_sign e in
         if isdigit e' then
           if eneg then Some (mkrat n (d * 10 ^ int_of e')) else Some (mkrat (n * 10 ^ int_of e') d)
         else None
  end.

Lemma initfromstring_alt s : initfromstring s =
  match split_on "e" (replace_E (strip s)) with
  | [m] => match parse_mant m with Some (n, d) => Some (mkrat n d) | None => None end
  | [m; e] => match parse_mant m with Some (n, d) => parse_exp e n d | None => None end
  | _ => None
  end.
Proof.
  unfold initfromstring, parse_mant, parse_exp.
  destruct (split_on "e" (replace_E (strip s))) as [|m [|e [|x r]]]; auto;
  destruct (two_parts (split_on "." m)) as [[c0 c1]|]; auto;
  destruct (cut_sign c0) as [neg c0']; destruct (part_value c0'); auto; destruct (part_value c1); auto.
Qed.

Lemma parse_mant_sound m n d : parse_mant m = Some (n, d) -> exists sg neg i ft f,
  mant_text m sg neg i ft f /\ d = 10 ^ Z.of_nat (length f) /\ n = if neg then - int_of (i ++ f) else int_of (i ++ f).
Proof.
  unfold parse_mant. destruct (two_parts _) as [[c0 c1]|] eqn:E; [|discriminate].
  destruct (cut_sign c0) as [neg i] eqn:C. destruct (part_value i) as [x|] eqn:P1; [|discriminate].
  destruct (part_value c1) as [y|] eqn:P2; [|discriminate]. intros [= <- <-].
  apply part_value_Some in P1. destruct P1 as (D1 & ->). apply part_value_Some in P2. destruct P2 as (D2 & ->).
  apply cut_sign_sound in C. destruct C as (sg & Hsg & ->).
  destruct (split_on "." m) as [|a [|b [|]]] eqn:S; try discriminate; simpl in E.
  - injection E as -> <-. apply split_on_1 in S. destruct S as (-> & _).
    exists sg, neg, i, [], []. split; [|split; auto].
    + repeat split; auto; [now rewrite app_nil_r|constructor].
    + rewrite app_nil_r. cbn. destruct neg; lia.
  - injection E as -> ->. apply split_on_2 in S. destruct S as (-> & _ & _).
    exists sg, neg, i, ("."%char :: c1), c1. split; [|split; auto].
    + repeat split; auto; [now rewrite <- app_assoc|constructor].
    + rewrite int_of_app. destruct neg; reflexivity.
Qed.

Lemma digit_not c x : is_digit x = false -> forallb is_digit c = true -> ~ In x c.
Proof. rewrite forallb_forall. intros Hx H Hin. apply H in Hin. congruence. Qed.

Lemma sign_not sg neg x : sign_text sg neg -> x <> "+"%char -> x <> "-"%char -> ~ In x sg.
Proof. intros H N1 N2. destruct H; simpl; intuition congruence. Qed.

Lemma parse_mant_complete m sg neg i ft f : mant_text m sg neg i ft f ->
  parse_mant m = Some (if neg then - int_of (i ++ f) else int_of (i ++ f), 10 ^ Z.of_nat (length f)).
Proof.
  intros (-> & Hsg & Hft & Di & Df). unfold parse_mant.
  assert (~ In "."%char (sg ++ i)) as N1.
  { rewrite in_app_iff. intros [H|H]; [revert H; eapply sign_not; eauto; discriminate|revert H; now apply digit_not]. }
  assert (part_value i = Some (int_of i)) as P1 by (apply part_value_Some; auto).
  assert (part_value f = Some (int_of f)) as P2 by (apply part_value_Some; auto).
  destruct Hft as [|f].
  - rewrite app_nil_r, split_on_notin by auto. simpl. rewrite (cut_sign_complete _ _ _ Hsg Di), P1.
    rewrite Z.mul_1_r, Z.add_0_r. reflexivity.
  - rewrite app_assoc, split_on_cons by auto.
    rewrite split_on_notin by (apply digit_not; auto). simpl. rewrite (cut_sign_complete _ _ _ Hsg Di), P1, P2.
    rewrite int_of_app. reflexivity.
Qed.

Lemma mant_chars m sg neg i ft f : mant_text m sg neg i ft f -> forall c, In c m ->
  is_digit c = true \/ c = "+"%char \/ c = "-"%char \/ c = "."%char.
Proof.
  intros (-> & Hsg & Hft & Di & Df) c Hin. rewrite forallb_forall in Di, Df. rewrite !in_app_iff in Hin.
  destruct Hin as [H|[H|H]]; auto.
  - destruct Hsg; simpl in H; intuition congruence.
  - destruct Hft; simpl in H; [tauto|]. destruct H as [<-|H]; auto.
Qed.

Lemma mant_values m sg neg i ft f : mant_text m sg neg i ft f ->
  (exists vi, digits_value i vi) /\ (exists vf, digits_value f vf) /\ digits_value (i ++ f) (int_of (i ++ f)).
Proof.
  intros (_ & _ & _ & Di & Df). repeat split; try (eexists; apply digits_int; split; [|reflexivity]; auto).
  apply digits_int. rewrite forallb_app, Di, Df. auto.
Qed.

Lemma initfromstring_sound s r : initfromstring s = Some r ->
  0 < denom r /\ exists q, decimal s q /\ (fracQ (num r) (denom r) == q)%Q.
Proof.
  rewrite initfromstring_alt. intros H.
  destruct (strip_split s) as (w1 & w2 & Hw1 & Hw2 & Es). set (t := strip s) in *. clearbody t. subst s.
  apply blank_space in Hw1. apply blank_space in Hw2.
  destruct (split_on "e" (replace_E t)) as [|m [|e [|]]] eqn:S; try discriminate.
  - destruct (parse_mant m) as [[n d]|] eqn:P; [|discriminate]. injection H as <-. cbn [num denom].
    apply split_on_1 in S. destruct S as (S & N). rewrite replace_noe in S by (now rewrite S). subst m.
    apply parse_mant_sound in P. destruct P as (sg & neg & i & ft & f & M & -> & ->).
    destruct (mant_values _ _ _ _ _ _ M) as (V1 & V2 & V3).
    destruct M as (-> & Hsg & Hft & Di & Df). split; [apply Z.pow_pos_nonneg; lia|].
    eexists. split.
    + replace (w1 ++ (sg ++ i ++ ft) ++ w2) with (w1 ++ sg ++ i ++ ft ++ [] ++ w2) by (simpl; now rewrite <- !app_assoc).
      econstructor; eauto. constructor.
    + pose proof (value_pos neg (int_of (i ++ f)) (Z.of_nat (length f)) 0 ltac:(lia) ltac:(lia)) as E.
      rewrite Z.pow_0_r, Z.mul_1_r in E. exact E.
  - destruct (parse_mant m) as [[n d]|] eqn:P; [|discriminate].
    apply split_on_2 in S. destruct S as (S & N1 & N2). apply replace_split in S.
    destruct S as (t1 & c & t2 & -> & R1 & Hc & R2).
    rewrite replace_noe in R1 by (now rewrite R1). rewrite replace_noe in R2 by (now rewrite R2). subst t1 t2.
    apply parse_mant_sound in P. destruct P as (sg & neg & i & ft & f & M & -> & ->).
    destruct (mant_values _ _ _ _ _ _ M) as (V1 & V2 & V3).
    destruct M as (-> & Hsg & Hft & Di & Df).
    unfold parse_exp in H. destruct e as [|e0 e]; [discriminate|].
    destruct (cut_sign (e0 :: e)) as [eneg e'] eqn:C. apply cut_sign_sound in C. destruct C as (esg & Hesg & Ee).
    rewrite Ee in *.
    destruct (isdigit e') eqn:D; [|discriminate]. apply isdigit_spec in D. destruct D as (Ne & De).
    pose proof (int_of_nonneg _ De) as Ge.
    assert (exp_text (c :: esg ++ e') (if eneg then - int_of e' else int_of e')) as ET.
    { econstructor; eauto. apply digits_int. auto. }
    assert (w1 ++ ((sg ++ i ++ ft) ++ c :: esg ++ e') ++ w2 = w1 ++ sg ++ i ++ ft ++ (c :: esg ++ e') ++ w2) as ->
      by (now rewrite <- !app_assoc).
    destruct eneg; injection H as <-; cbn [num denom].
    + split; [apply Z.mul_pos_pos; apply Z.pow_pos_nonneg; lia|]. eexists. split; [econstructor; eauto|].
      apply value_neg; lia.
    + split; [apply Z.pow_pos_nonneg; lia|]. eexists. split; [econstructor; eauto|].
      apply value_pos; lia.
Qed.

Lemma digit_nospace c : is_digit c = true -> is_space c = false /\ c <> "E"%char /\ c <> "e"%char /\ c <> "/"%char.
Proof.
  intros H. assert (forall d, is_digit d = false -> c <> d) as X by (intros d Hd ->; congruence).
  repeat split; try (now apply X). unfold is_digit, is_space in *. lia.
Qed.

Lemma mant_char_props m sg neg i ft f : mant_text m sg neg i ft f ->
  Forall (fun c => is_space c = false /\ c <> "E"%char /\ c <> "e"%char /\ c <> "/"%char) m.
Proof.
  intros M. apply Forall_forall. intros c Hc. destruct (mant_chars _ _ _ _ _ _ M c Hc) as [D|[-> |[-> | ->]]].
  - now apply digit_nospace.
  - repeat split; try reflexivity; discriminate.
  - repeat split; try reflexivity; discriminate.
  - repeat split; try reflexivity; discriminate.
Qed.

Lemma sign_char_props sg b : sign_text sg b -> Forall (fun c => is_space c = false /\ c <> "E"%char /\ c <> "e"%char /\ c <> "/"%char) sg.
Proof. intros []; repeat constructor; try discriminate. Qed.

Lemma digits_char_props ds : forallb is_digit ds = true -> Forall (fun c => is_space c = false /\ c <> "E"%char /\ c <> "e"%char /\ c <> "/"%char) ds.
Proof. intros H. apply Forall_forall. intros c Hc. rewrite forallb_forall in H. now apply digit_nospace, H. Qed.

Lemma Forall_proj {A} (P Q : A -> Prop) l : (forall x, P x -> Q x) -> Forall P l -> Forall Q l.
Proof. intros. eapply Forall_impl; eauto. Qed.

Lemma decimal_parts s q : decimal s q -> exists w1 w2 m sg neg i ft f et e,
  blank w1 /\ blank w2 /\ mant_text m sg neg i ft f /\ exp_text et e /\ s = w1 ++ (m ++ et) ++ w2 /\
  (q == signed neg (inject_Z (int_of (i ++ f)) * pow10 (- Z.of_nat (length f)) * pow10 e))%Q.
Proof.
  intros [w1 w2 sg neg i ft f et e v B1 B2 Hsg Hft Het [vi Vi] [vf Vf] V].
  apply digits_int in Vi. apply digits_int in Vf. apply digits_int in V. destruct V as (_ & ->).
  exists w1, w2, (sg ++ i ++ ft), sg, neg, i, ft, f, et, e. repeat split; auto; try tauto.
  now rewrite <- !app_assoc.
Qed.

Lemma initfromstring_complete s q : decimal s q -> exists r, initfromstring s = Some r /\ 0 < denom r /\
  (fracQ (num r) (denom r) == q)%Q.
Proof.
  intros D. destruct (decimal_parts _ _ D) as (w1 & w2 & m & sg & neg & i & ft & f & et & e & B1 & B2 & M & ET & -> & Eq).
  apply blank_space in B1. apply blank_space in B2.
  pose proof (mant_char_props _ _ _ _ _ _ M) as PM.
  destruct ET as [|c esg eneg ds v Hc Hesg Nds Vds].
  - exists (mkrat (if neg then - int_of (i ++ f) else int_of (i ++ f)) (10 ^ Z.of_nat (length f))).
    split; [|split].
    + rewrite initfromstring_alt, strip_app; auto.
      * rewrite app_nil_r. rewrite replace_id by (eapply Forall_proj; [|exact PM]; simpl; tauto).
        rewrite split_on_notin.
        -- rewrite (parse_mant_complete _ _ _ _ _ _ M). reflexivity.
        -- intros H. rewrite Forall_forall in PM. apply PM in H. tauto.
      * rewrite app_nil_r. eapply Forall_proj; [|exact PM]; simpl; tauto.
    + cbn. apply Z.pow_pos_nonneg; lia.
    + cbn [num denom]. rewrite Eq.
      pose proof (value_pos neg (int_of (i ++ f)) (Z.of_nat (length f)) 0 ltac:(lia) ltac:(lia)) as E.
      rewrite Z.pow_0_r, Z.mul_1_r in E. exact E.
  - apply digits_int in Vds. destruct Vds as (Dd & ->).
    pose proof (sign_char_props _ _ Hesg) as PS. pose proof (digits_char_props _ Dd) as PD.
    assert (strip (w1 ++ (m ++ c :: esg ++ ds) ++ w2) = m ++ c :: esg ++ ds) as ST.
    { apply strip_app; auto. apply Forall_app. split; [eapply Forall_proj; [|exact PM]; simpl; tauto|].
      constructor; [destruct Hc; subst; reflexivity|]. apply Forall_app.
      split; eapply Forall_proj; try eassumption; simpl; tauto. }
    assert (replace_E (m ++ c :: esg ++ ds) = m ++ "e"%char :: esg ++ ds) as RE.
    { rewrite replace_app. rewrite (replace_id m) by (eapply Forall_proj; [|exact PM]; simpl; tauto). f_equal.
      change (c :: esg ++ ds) with ([c] ++ esg ++ ds). rewrite !replace_app.
      rewrite (replace_id esg), (replace_id ds); try (eapply Forall_proj; try eassumption; simpl; tauto).
      destruct Hc; subst; reflexivity. }
    assert (split_on "e" (m ++ "e"%char :: esg ++ ds) = [m; esg ++ ds]) as SP.
    { rewrite split_on_cons.
      - rewrite split_on_notin; auto. rewrite in_app_iff. intros [H|H].
        + rewrite Forall_forall in PS. apply PS in H. tauto.
        + rewrite Forall_forall in PD. apply PD in H. tauto.
      - intros H. rewrite Forall_forall in PM. apply PM in H. tauto. }
    rewrite initfromstring_alt, ST, RE, SP, (parse_mant_complete _ _ _ _ _ _ M).
    unfold parse_exp. destruct (esg ++ ds) as [|e0 es] eqn:Ee.
    + destruct esg; [simpl in Ee; congruence|discriminate].
    + rewrite <- Ee. rewrite (cut_sign_complete _ _ _ Hesg Dd).
      assert (isdigit ds = true) as -> by (apply isdigit_spec; auto).
      pose proof (int_of_nonneg _ Dd) as Ge.
      destruct eneg; eexists; (split; [reflexivity|]); cbn [num denom]; (split; [|rewrite Eq]).
      * apply Z.mul_pos_pos; apply Z.pow_pos_nonneg; lia.
      * apply value_neg; lia.
      * apply Z.pow_pos_nonneg; lia.
      * apply value_pos; lia.
Qed.

Lemma space_not_slash c : is_space c = true -> c <> "/"%char.
Proof. intros H ->. discriminate. Qed.

Lemma decimal_noslash s q : decimal s q -> ~ In "/"%char s.
Proof.
  intros D. destruct (decimal_parts _ _ D) as (w1 & w2 & m & sg & neg & i & ft & f & et & e & B1 & B2 & M & ET & -> & Eq).
  apply blank_space in B1. apply blank_space in B2. rewrite forallb_forall in B1, B2.
  pose proof (mant_char_props _ _ _ _ _ _ M) as PM. rewrite Forall_forall in PM.
  rewrite !in_app_iff. intros [H|[[H|H]|H]].
  - apply B1 in H. now apply space_not_slash in H.
  - apply PM in H. tauto.
  - destruct ET as [|c esg eneg ds v Hc Hesg Nds Vds]; [destruct H|].
    destruct H as [H|H]; [destruct Hc; subst; discriminate|]. apply in_app_iff in H. destruct H as [H|H].
    + pose proof (sign_char_props _ _ Hesg) as PS. rewrite Forall_forall in PS. apply PS in H. tauto.
    + apply digits_int in Vds. destruct Vds as (Dd & _).
      pose proof (digits_char_props _ Dd) as PD. rewrite Forall_forall in PD. apply PD in H. tauto.
  - apply B2 in H. now apply space_not_slash in H.
Qed.

Lemma finish_1 r : finish r 1 = if denom r =? 0 then None else Some r.
Proof. reflexivity. Qed.

Lemma fracQ_zero n d : d <> 0 -> ((fracQ n d == 0)%Q <-> n = 0).
Proof.
  intros Hd. unfold fracQ. split; intros H.
  - destruct (Z.eq_dec n 0); auto. exfalso. apply inject_nz in Hd. apply inject_nz in n0.
    apply n0. rewrite <- (Qmult_inj_r _ _ (/ inject_Z d)).
    + rewrite Qmult_0_l. exact H.
    + intros E. apply Hd. rewrite <- (Qinv_involutive (inject_Z d)), E. reflexivity.
  - subst. unfold Qdiv. now rewrite Qmult_0_l.
Qed.

Lemma fracQ_idiv a b : denom a <> 0 -> denom b <> 0 -> num b <> 0 ->
  (fracQ (num (idiv a b)) (denom (idiv a b)) == fracQ (num a) (denom a) / fracQ (num b) (denom b))%Q.
Proof.
  intros Ha Hb Hn. unfold fracQ, idiv. cbn [num denom]. rewrite !inject_Z_mult.
  apply inject_nz in Ha. apply inject_nz in Hb. apply inject_nz in Hn. field. auto.
Qed.

Lemma fracQ_imul a b : denom a <> 0 -> denom b <> 0 ->
  (fracQ (num (imul a b)) (denom (imul a b)) == fracQ (num a) (denom a) * fracQ (num b) (denom b))%Q.
Proof.
  intros Ha Hb. unfold fracQ, imul. cbn [num denom]. rewrite !inject_Z_mult.
  apply inject_nz in Ha. apply inject_nz in Hb. field. auto.
Qed.

Lemma string_sound s r : new_rational (FromString s) 1 = Some r ->
  denom r <> 0 /\ exists q, number_text s q /\ (fracQ (num r) (denom r) == q)%Q.
Proof.
  unfold new_rational. cbn [Z.eqb].
  destruct (split_on "/" s) as [|a [|b [|]]] eqn:S; try discriminate.
  - apply split_on_1 in S. destruct S as (-> & _).
    destruct (initfromstring a) as [r0|] eqn:E; [|discriminate]. rewrite finish_1.
    destruct (initfromstring_sound _ _ E) as (Hd & q & D & Eq).
    replace (denom r0 =? 0) with false by lia. intros [= <-]. split; [lia|]. exists q. split; auto. now constructor.
  - apply split_on_2 in S. destruct S as (-> & _ & _).
    destruct (initfromstring a) as [r1|] eqn:E1; [|discriminate].
    destruct (initfromstring b) as [r2|] eqn:E2; [|discriminate]. rewrite finish_1.
    destruct (initfromstring_sound _ _ E1) as (Hd1 & q1 & D1 & Eq1).
    destruct (initfromstring_sound _ _ E2) as (Hd2 & q2 & D2 & Eq2).
    replace (denom r2 =? 0) with false by lia. rewrite finish_1. cbn [idiv denom].
    destruct (Z.eqb_spec (denom r1 * num r2) 0) as [|N]; [discriminate|]. intros [= <-].
    assert (num r2 <> 0) as N2 by nia. split; [exact N|].
    exists (q1 / q2)%Q. split.
    + apply nt_frac; auto. rewrite <- Eq2. rewrite fracQ_zero; lia.
    + rewrite fracQ_idiv by lia. now rewrite Eq1, Eq2.
Qed.

Lemma string_complete s q : number_text s q -> exists r, new_rational (FromString s) 1 = Some r /\
  (fracQ (num r) (denom r) == q)%Q.
Proof.
  intros [s' q' D|s1 q1 s2 q2 D1 D2 N]; unfold new_rational; cbn [Z.eqb].
  - destruct (initfromstring_complete _ _ D) as (r & E & Hd & Eq). exists r.
    rewrite split_on_notin by (eapply decimal_noslash; eauto). rewrite E, finish_1.
    replace (denom r =? 0) with false by lia. auto.
  - destruct (initfromstring_complete _ _ D1) as (r1 & E1 & Hd1 & Eq1).
    destruct (initfromstring_complete _ _ D2) as (r2 & E2 & Hd2 & Eq2).
    rewrite split_on_cons by (eapply decimal_noslash; eauto).
    rewrite split_on_notin by (eapply decimal_noslash; eauto). rewrite E1, E2, finish_1.
    replace (denom r2 =? 0) with false by lia. rewrite finish_1. cbn [idiv denom].
    assert (num r2 <> 0) as N2.
    { intros E. apply N. rewrite <- Eq2. apply fracQ_zero; lia. }
    destruct (Z.eqb_spec (denom r1 * num r2) 0); [nia|]. eexists. split; [reflexivity|].
    rewrite fracQ_idiv by lia. now rewrite Eq1, Eq2.
Qed.
