(** Removing strings and patterns, and escaping. *)
From Coq Require Import Arith Bool Ascii String List Lia.
From Verif Require Import TexMsgModel.
Import ListNotations.
Open Scope nat_scope.

Lemma str_eqb_spec a b : reflect (a = b) (str_eqb a b).
Proof.
  revert b. induction a as [|x a IH]; intros [|y b]; cbn; try (constructor; congruence).
  destruct (Ascii.eqb_spec x y); cbn; [|constructor; congruence]. destruct (IH b); constructor; congruence.
Qed.
Lemma prefixb_spec p x : prefixb p x = true <-> exists y, x = p ++ y.
Proof.
  revert x. induction p as [|a p IH]; intros x; [split; [intros _; exists x; reflexivity|reflexivity]|]. destruct x as [|b x]; [split; [discriminate|intros (y & H); discriminate]|]. cbn.
  destruct (Ascii.eqb_spec a b) as [->|N]; cbn; [|split; [discriminate|intros (y & H); congruence]]. rewrite IH. split; intros (y & H); exists y; congruence.
Qed.

(** ** C94: remove_string and remove_pattern *)
(** The first occurrence of a string is removed, and the result is the same string exactly if there is none. *)
Theorem remove_string_first p x : p <> [] ->
  (remove_string p x = (x, false) /\ forall a b, x <> a ++ p ++ b) \/
  (exists a b, x = a ++ p ++ b /\ remove_string p x = (a ++ b, true) /\ forall a' b', x = a' ++ p ++ b' -> length a <= length a').
Proof.
  intros Np.
  assert ((replace_first p x = x /\ forall a b, x <> a ++ p ++ b) \/ exists a b, x = a ++ p ++ b /\ replace_first p x = a ++ b /\ forall a' b', x = a' ++ p ++ b' -> length a <= length a') as H.
  { induction x as [|c x IH].
    - left. destruct p as [|q p]; [congruence|]. split; [reflexivity|]. intros [|? ?] b; discriminate.
    - cbn [replace_first]. destruct (prefixb p (c :: x)) eqn:E.
      + apply prefixb_spec in E as (y & E). right. exists [], y. split; [exact E|]. split; [rewrite E, skipn_app, skipn_all, Nat.sub_diag; reflexivity|]. intros; cbn; lia.
      + assert (forall b, c :: x <> p ++ b) as Nb by (intros b Q; assert (prefixb p (c :: x) = true) by (apply prefixb_spec; eauto); congruence).
        destruct IH as [[-> N]|(a & b & -> & R & M)].
        * left. split; [reflexivity|]. intros [|d a] b Q; [exact (Nb b Q)|]. injection Q as _ Q. exact (N a b Q).
        * right. exists (c :: a), b. split; [reflexivity|]. split; [rewrite R; reflexivity|]. intros [|d a'] b' Q; [exfalso; exact (Nb b' Q)|]. injection Q as _ Q. cbn. specialize (M a' b' Q). lia. }
  unfold remove_string. destruct H as [[-> N]|(a & b & -> & R & M)].
  - left. split; [|exact N]. destruct (str_eqb_spec x x); [reflexivity|congruence].
  - right. exists a, b. split; [reflexivity|]. split; [|exact M]. rewrite R. destruct (str_eqb_spec (a ++ b) (a ++ p ++ b)) as [Q|_]; [|reflexivity].
    apply (f_equal (@length _)) in Q. rewrite !app_length in Q. destruct p; [congruence|cbn in Q; lia].
Qed.
Print Assumptions remove_string_first.
Example remove_string_example : remove_string (s "XXX") (s "abcXXXdefXXXghi") = (s "abcdefXXXghi", true) /\ remove_string (s "XX") (s "aXbX") = (s "aXbX", false).
Proof. split; reflexivity. Qed.

Lemma strip_app a b : strip (a ++ b) = strip a ++ strip b. Proof. apply filter_app. Qed.
Lemma strip_length x : length (strip x) <= length x.
Proof. induction x as [|c x IH]; [cbn; lia|]. unfold strip in *. cbn. destruct (negb _); cbn; lia. Qed.

(** behind the end of the match nothing is counted *)
Lemma count_behind x : forall j rs re ss se, re <= j -> count_nl x j rs re ss se = (ss, se).
Proof.
  induction x as [|c x IH]; intros j rs re ss se H; [reflexivity|]. cbn [count_nl]. destruct (Ascii.eqb c nl); [|apply IH; lia].
  destruct (Nat.ltb_spec j re); [lia|apply IH; lia].
Qed.
(** within the match: m ends with the last character of the match *)
Lemma count_within x : forall j rs re ss se, rs < j -> j <= re -> re - j <= length (strip x) ->
  exists m b, x = m ++ b /\ length (strip m) = re - j /\ count_nl x j rs re ss se = (ss, se + (length m - length (strip m))) /\ (m <> [] -> last m nl <> nl).
Proof.
  induction x as [|c x IH]; intros j rs re ss se H1 H2 L.
  - exists [], []. cbn in *. repeat split; [lia|f_equal; lia|congruence].
  - destruct (Nat.eq_dec j re) as [->|Ne].
    + exists [], (c :: x). split; [reflexivity|]. split; [cbn; lia|]. split; [rewrite count_behind by lia; f_equal; cbn; lia|congruence].
    + cbn [count_nl]. unfold strip in L. cbn [filter] in L. destruct (Ascii.eqb_spec c nl) as [->|Nc]; cbn in L.
      * destruct (Nat.ltb_spec j re); [|lia]. destruct (Nat.leb_spec j rs); [lia|]. destruct (IH j rs re ss (S se) H1 H2 L) as (m & b & -> & Lm & E & La). exists (nl :: m), b. split; [reflexivity|].
        change (strip (nl :: m)) with (strip m). cbn [length]. split; [exact Lm|]. split; [rewrite E; pose proof (strip_length m); f_equal; lia|]. intros _. destruct m as [|d m]; [cbn in Lm; lia|]. apply La. discriminate.
      * destruct (IH (S j) rs re ss se) as (m & b & -> & Lm & E & La); [lia|lia|unfold strip; lia|]. exists (c :: m), b. split; [reflexivity|].
        assert (strip (c :: m) = c :: strip m) as Sm by (unfold strip; cbn; destruct (Ascii.eqb_spec c nl); [congruence|reflexivity]). rewrite Sm. cbn [length]. split; [lia|]. split; [rewrite E; f_equal|]. intros _. destruct m as [|d m]; [exact Nc|]. apply La. discriminate.
Qed.
(** before the match *)
Lemma count_before x : forall j rs re ss se, j <= rs -> rs < re -> re - j <= length (strip x) ->
  exists a m b, x = a ++ m ++ b /\ length (strip a) = rs - j /\ length (strip m) = re - rs /\ hd nl m <> nl /\ last m nl <> nl /\
    count_nl x j rs re ss se = (ss + (length a - length (strip a)), se + (length a - length (strip a)) + (length m - length (strip m))).
Proof.
  induction x as [|c x IH]; intros j rs re ss se H1 H2 L; [cbn in L; lia|].
  cbn [count_nl]. unfold strip in L. cbn [filter] in L. destruct (Ascii.eqb_spec c nl) as [->|Nc]; cbn in L.
  - destruct (Nat.ltb_spec j re); [|lia]. destruct (Nat.leb_spec j rs); [|lia]. destruct (IH j rs re (S ss) (S se) H1 H2 L) as (a & m & b & -> & La & Lm & Hm & Hl & E). exists (nl :: a), m, b. split; [reflexivity|].
    assert (strip (nl :: a) = strip a) as Sa by reflexivity. rewrite Sa. split; [exact La|]. split; [exact Lm|]. split; [exact Hm|]. split; [exact Hl|]. rewrite E. cbn [length]. pose proof (strip_length a). f_equal; lia.
  - assert (forall y, strip (c :: y) = c :: strip y) as Sc by (intros y; unfold strip; cbn; destruct (Ascii.eqb_spec c nl); [congruence|reflexivity]).
    destruct (Nat.eq_dec j rs) as [->|Ne].
    + destruct (count_within x (S rs) rs re ss se) as (m & b & -> & Lm & E & La); [lia|lia|unfold strip; lia|]. exists [], (c :: m), b. split; [reflexivity|]. split; [cbn; lia|]. rewrite Sc. cbn [length]. split; [lia|]. split; [exact Nc|]. split.
      * destruct m as [|d m]; [exact Nc|]. apply La. discriminate.
      * rewrite E. f_equal; cbn; lia.
    + destruct (IH (S j) rs re ss se) as (a & m & b & -> & La & Lm & Hm & Hl & E); [lia|lia|unfold strip; lia|]. exists (c :: a), m, b. split; [reflexivity|]. rewrite Sc. cbn [length]. split; [lia|]. split; [exact Lm|]. split; [exact Hm|]. split; [exact Hl|]. exact E.
Qed.

(** a match which is empty *)
Lemma count_empty x : forall j rs ss, j <= rs -> rs - j <= length (strip x) ->
  exists a b, x = a ++ b /\ length (strip a) = rs - j /\ count_nl x j rs rs ss ss = (ss + (length a - length (strip a)), ss + (length a - length (strip a))).
Proof.
  induction x as [|c x IH]; intros j rs ss H L.
  - exists [], []. cbn in *. repeat split; [lia|f_equal; lia].
  - destruct (Nat.eq_dec j rs) as [->|Ne].
    + exists [], (c :: x). split; [reflexivity|]. split; [cbn; lia|]. rewrite count_behind by lia. f_equal; cbn; lia.
    + cbn [count_nl]. unfold strip in L. cbn [filter] in L. destruct (Ascii.eqb_spec c nl) as [->|Nc]; cbn in L.
      * destruct (Nat.ltb_spec j rs); [|lia]. destruct (Nat.leb_spec j rs); [|lia]. destruct (IH j rs (S ss) H L) as (a & b & -> & La & E). exists (nl :: a), b. split; [reflexivity|]. change (strip (nl :: a)) with (strip a). split; [exact La|]. rewrite E. cbn [length]. pose proof (strip_length a). f_equal; lia.
      * assert (forall y, strip (c :: y) = c :: strip y) as Sc by (intros y; unfold strip; cbn; destruct (Ascii.eqb_spec c nl); [congruence|reflexivity]).
        destruct (IH (S j) rs ss) as (a & b & -> & La & E); [lia|unfold strip; lia|]. exists (c :: a), b. split; [reflexivity|]. rewrite Sc. cbn [length]. split; [lia|exact E].
Qed.

Lemma firstn_skipn_parts {A} (a m b : list A) : firstn (length a) (a ++ m ++ b) ++ skipn (length a + length m) (a ++ m ++ b) = a ++ b.
Proof.
  rewrite firstn_app, Nat.sub_diag, firstn_all, firstn_O, app_nil_r. f_equal. rewrite app_assoc, skipn_app, <- app_length, skipn_all, Nat.sub_diag. reflexivity.
Qed.
Lemma parts_unique {A} (a a' b b' : list A) : a ++ b = a' ++ b' -> length a = length a' -> a = a' /\ b = b'.
Proof. revert a'. induction a as [|x a IH]; intros [|y a'] H L; cbn in *; try lia; [auto|]. injection H as -> H. destruct (IH a' H ltac:(lia)) as [-> ->]. auto. Qed.

(** For every pattern (whose search finds some part of the string which it is given): if it is found in the string without its
    newlines, then the result is the string without that part; only newlines within that part are removed with it. *)
Theorem remove_pattern_ok {G} (search : str -> option (nat * nat * G)) (x : str) (ignore : bool) : (forall r i j g, search r = Some (i, j, g) -> i <= j <= length r) ->
  match search (if ignore then strip x else x) with
  | None => remove_pattern search x ignore = (x, None)
  | Some (i, j, g) => exists a m b, x = a ++ m ++ b /\ remove_pattern search x ignore = (a ++ b, Some g) /\
      (let y := if ignore then strip else fun x : str => x in y a = firstn i (y x) /\ y m = firstn (j - i) (skipn i (y x)) /\ y b = skipn j (y x)) /\
      (ignore = true -> i < j -> hd nl m <> nl /\ last m nl <> nl) /\ (i = j -> m = [])
  end.
Proof.
  intros Sp. unfold remove_pattern. destruct ignore.
  - destruct (search (strip x)) as [[[i j] g]|] eqn:Es; [|reflexivity]. destruct (Sp _ _ _ _ Es) as [Lij Lj]. cbv zeta.
    assert (exists a m b, x = a ++ m ++ b /\ length (strip a) = i /\ length (strip m) = j - i /\ (i < j -> hd nl m <> nl /\ last m nl <> nl) /\ (i = j -> m = []) /\
      (if negb (str_eqb (strip x) x) then count_nl x 0 i j i j else (i, j)) = (length a, length a + length m)) as (a & m & b & Ex & La & Lm & Bd & Em & Ec).
    { destruct (str_eqb_spec (strip x) x) as [Q|_]; cbn [negb].
      - exists (firstn i x), (firstn (j - i) (skipn i x)), (skipn j x).
        assert (Forall (fun c => c <> nl) x) as Fx.
        { apply Forall_forall. intros c Hc E. subst c. rewrite <- Q in Hc. apply filter_In in Hc as [_ Hc]. discriminate. }
        assert (forall y, Forall (fun c => c <> nl) y -> strip y = y) as Sy.
        { clear. induction 1 as [|c y H _ IH]; [reflexivity|]. unfold strip in *. cbn. destruct (Ascii.eqb_spec c nl); [contradiction|]. cbn. now rewrite IH. }
        rewrite Q in Lj. rewrite <- (firstn_skipn i x) in Fx. apply Forall_app in Fx as [F1 F2]. rewrite <- (firstn_skipn (j - i) (skipn i x)) in F2. apply Forall_app in F2 as [F2 F3].
        rewrite !Sy by assumption. rewrite !firstn_length, skipn_length.
        assert (forall n (y : str), skipn n (skipn i y) = skipn (i + n) y) as Ss by (intros n y; clear; revert y; induction i as [|i IH]; intros y; [reflexivity|]; destruct y; [now rewrite !skipn_nil|apply IH]).
        split.
        { rewrite <- (firstn_skipn i x) at 1. f_equal. rewrite <- (firstn_skipn (j - i) (skipn i x)) at 1. f_equal. rewrite Ss. f_equal. lia. }
        split; [lia|]. split; [lia|]. split.
        { intros Hij. assert (firstn (j - i) (skipn i x) <> []) as Ne by (intros Q1; apply (f_equal (@length _)) in Q1; rewrite firstn_length, skipn_length in Q1; cbn in Q1; lia).
          destruct (firstn (j - i) (skipn i x)) as [|c y] eqn:Ey; [congruence|]. split.
          - inversion F2; subst; assumption.
          - apply (proj1 (Forall_forall _ _) F2). apply exists_last in Ne as (z & d & ->). rewrite last_last. apply in_or_app. right. left. reflexivity. }
        split; [intros ->; now rewrite Nat.sub_diag|]. f_equal; lia.
      - destruct (Nat.eq_dec i j) as [->|Nij].
        + destruct (count_empty x 0 j j) as (a & b & Ex & La & E); [lia|lia|]. exists a, [], b. split; [exact Ex|]. split; [lia|]. split; [cbn; lia|]. split; [intros; lia|]. split; [reflexivity|]. rewrite E. pose proof (strip_length a). cbn. f_equal; lia.
        + destruct (count_before x 0 i j i j) as (a & m & b & Ex & La & Lm & Hm & Hl & E); [lia|lia|lia|]. exists a, m, b. split; [exact Ex|]. split; [lia|]. split; [exact Lm|]. split; [auto|]. split; [lia|]. rewrite E. pose proof (strip_length a). pose proof (strip_length m). f_equal; lia. }
    exists a, m, b. split; [exact Ex|]. split; [rewrite Ec, Ex, firstn_skipn_parts; reflexivity|]. split; [|split; [intros _; exact Bd|exact Em]].
    rewrite Ex, !strip_app, <- La. rewrite firstn_app, Nat.sub_diag, firstn_all, firstn_O, app_nil_r. split; [reflexivity|]. rewrite skipn_app, Nat.sub_diag, skipn_all. cbn [app skipn].
    rewrite La, <- Lm, firstn_app, Nat.sub_diag, firstn_all, firstn_O, app_nil_r. split; [reflexivity|]. replace j with (length (strip a ++ strip m)) by (rewrite app_length; lia). now rewrite app_assoc, skipn_app, skipn_all, Nat.sub_diag.
  - destruct (search x) as [[[i j] g]|] eqn:Es; [|reflexivity]. destruct (Sp _ _ _ _ Es) as [Lij Lj]. exists (firstn i x), (firstn (j - i) (skipn i x)), (skipn j x).
    assert (forall n (y : str), skipn n (skipn i y) = skipn (i + n) y) as Ss by (intros n y; clear; revert y; induction i as [|i IH]; intros y; [reflexivity|]; destruct y; [now rewrite !skipn_nil|apply IH]).
    split.
    { rewrite <- (firstn_skipn i x) at 1. f_equal. rewrite <- (firstn_skipn (j - i) (skipn i x)) at 1. f_equal. rewrite Ss. f_equal. lia. }
    split; [reflexivity|]. split; [auto|]. split; [discriminate|]. intros ->. now rewrite Nat.sub_diag.
Qed.
Print Assumptions remove_pattern_ok.
(** the example of the documentation *)
Definition xxx : matcher := fun x => if prefixb (s "XXX") x then Some (s "XXX", s "XXX") else None.
Example remove_pattern_example : remove_pattern (search xxx) (s "ab" ++ [nl] ++ s "cXX" ++ [nl] ++ s "XdefXX" ++ [nl] ++ s "X") true = (s "ab" ++ [nl] ++ s "cdefXX" ++ [nl] ++ s "X", Some (s "XXX")).
Proof. reflexivity. Qed.

(** ** C95: escaping *)
(** What TeX makes of a text, as far as it is needed here: characters (in fonts where the plain ones are typeset as such), ties,
    control symbols of special characters, and formulas in a group.  None for anything else, in particular for special characters
    which are not escaped. *)
Definition plain (c : ascii) : bool := printable c && negb (existsb (Ascii.eqb c) (s " $&#_%^~<>{}\|")).
Definition in_math (x : str) : option ascii :=
  if str_eqb x (s "<") then Some "<"%char else if str_eqb x (s ">") then Some ">"%char else if str_eqb x (s "\{") then Some "{"%char
  else if str_eqb x (s "\}") then Some "}"%char else if str_eqb x (s "\setminus") then Some "\"%char else if str_eqb x (s "\mid") then Some "|"%char else None.
(** a formula up to the next dollar sign (control symbols are skipped) *)
Fixpoint formula (x : str) : option (str * str) :=
  match x with
  | "\"%char :: c :: y => option_map (fun r => ("\"%char :: c :: fst r, snd r)) (formula y)
  | "$"%char :: y => Some ([], y)
  | c :: y => option_map (fun r => (c :: fst r, snd r)) (formula y)
  | [] => None
  end.
Fixpoint typeset (fuel : nat) (x : str) : option str :=
  match fuel with
  | O => None
  | S fuel =>
      match x with
      | [] => Some []
      | "~"%char :: y => option_map (cons " "%char) (typeset fuel y)
      | "{"%char :: "$"%char :: y =>
          match formula y with
          | Some (f, "}"%char :: z) => match in_math f with Some c => option_map (cons c) (typeset fuel z) | None => None end
          | _ => None
          end
      | "\"%char :: y =>
          if prefixb (s "string^") y || prefixb (s "string~") y then option_map (cons (nth 6 y nl)) (typeset fuel (skipn 7 y))
          else match y with c :: z => if existsb (Ascii.eqb c) (s "$&#_%") then option_map (cons c) (typeset fuel z) else None | [] => None end
      | c :: y => if plain c then option_map (cons c) (typeset fuel y) else None
      end
  end.

Definition escaped (c : ascii) : str := match replacement c with Some r => r | None => [c] end.
Lemma escape_loop_ok x : forall done fuel, length x < fuel -> escape_loop fuel (length done) (done ++ x) = if forallb printable x then Some (done ++ flat_map escaped x) else None.
Proof.
  induction x as [|c x IH]; intros done fuel L.
  - destruct fuel as [|f]; [lia|]. cbn. rewrite app_nil_r. replace (nth_error done (length done)) with (@None ascii) by (symmetry; apply nth_error_None; lia). reflexivity.
  - destruct fuel as [|f]; [lia|]. cbn [escape_loop]. rewrite nth_error_app2, Nat.sub_diag by lia. cbn [nth_error]. cbn [forallb]. destruct (printable c); [|reflexivity]. cbn [andb flat_map]. unfold escaped at 1. cbn in L.
    destruct (replacement c) as [r|].
    + rewrite firstn_app, Nat.sub_diag, firstn_all, firstn_O, app_nil_r. replace (S (length done)) with (length done + 1) by lia. rewrite skipn_app, skipn_all2 by lia. replace (length done + 1 - length done) with 1 by lia. cbn [app skipn].
      rewrite <- app_length, app_assoc, IH by lia. destruct (forallb printable x); [|reflexivity]. now rewrite <- app_assoc.
    + replace (S (length done)) with (length (done ++ [c])) by (rewrite app_length; cbn; lia). replace (done ++ c :: x) with ((done ++ [c]) ++ x) by (rewrite <- app_assoc; reflexivity). rewrite IH by lia. destruct (forallb printable x); [|reflexivity]. now rewrite <- app_assoc.
Qed.

(** every character is typeset from its replacement, whatever follows *)
Lemma typeset_char c rest f : printable c = true -> typeset (S f) (escaped c ++ rest) = option_map (cons c) (typeset f rest).
Proof.
  intros H. destruct c as [[] [] [] [] [] [] [] []]; try discriminate H; cbn [escaped replacement]; reflexivity.
Qed.
(** For every printable string the escaped one is typeset as that string; there is an error exactly for other strings. *)
Theorem escape_typeset x : if forallb printable x then exists y, escapestring x = Some y /\ forall f, length x < f -> typeset f y = Some x else escapestring x = None.
Proof.
  unfold escapestring. pose proof (escape_loop_ok x [] (S (length x)) ltac:(lia)) as E. cbn [app length] in E. rewrite E. clear E. destruct (forallb printable x) eqn:P; [|reflexivity]. eexists. split; [reflexivity|].
  clear - P. induction x as [|c x IH]; intros f L.
  - destruct f; [lia|reflexivity].
  - destruct f as [|f]; [lia|]. cbn in P. apply andb_prop in P as [P1 P2]. cbn [flat_map]. rewrite typeset_char by exact P1. rewrite IH by (trivial; cbn in L; lia). reflexivity.
Qed.
Print Assumptions escape_typeset.
Example escape_example : escapestring (s "a {b}\c_1 ~50%") = Some (s "a~{$\{$}b{$\}$}{$\setminus$}c\_1~\string~50\%") /\ typeset 99 (s "a~{$\{$}b{$\}$}{$\setminus$}c\_1~\string~50\%") = Some (s "a {b}\c_1 ~50%") /\ escapestring [nl] = None.
Proof. split; [|split]; reflexivity. Qed.
