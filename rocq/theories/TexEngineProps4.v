(** C165, C166: the texts which are written to TeX, and the number of pages it reports *)
From Coq Require Import ZArith QArith Arith Bool Ascii String List Lia DecimalString DecimalNat.
From Verif Require Import TexMsgModel TexEngineModel TexMsgProps TexLoadProps.
Import ListNotations.
Open Scope nat_scope.

(** the lines of a text *)
Fixpoint lines (x : str) : list str :=
  match x with
  | [] => [[]]
  | c :: y => if Ascii.eqb c nl then [] :: lines y else match lines y with l :: r => (c :: l) :: r | [] => [[c]] end
  end.
(** the number written by decimal digits *)
Definition isdigit (c : ascii) : Prop := 48 <= nat_of_ascii c <= 57.
Definition numeral (n : nat) (d : str) : Prop := d <> [] /\ Forall isdigit d /\ fold_left (fun v c => 10 * v + (nat_of_ascii c - 48)) d 0 = n.

Lemma uint_value : forall d acc, fold_left (fun v c => 10 * v + (nat_of_ascii c - 48)) (s (NilEmpty.string_of_uint d)) acc = Nat.of_uint_acc d acc.
Proof.
  induction d as [|d IH|d IH|d IH|d IH|d IH|d IH|d IH|d IH|d IH|d IH]; intros acc; [reflexivity|..]; cbn [NilEmpty.string_of_uint];
    unfold s in *; cbn [list_ascii_of_string fold_left Nat.of_uint_acc]; rewrite IH; f_equal; rewrite Nat.tail_mul_spec; 
    match goal with |- context [nat_of_ascii ?c] => let v := eval vm_compute in (nat_of_ascii c) in change (nat_of_ascii c) with v end; lia.
Qed.
Lemma uint_digits : forall d, Forall isdigit (s (NilEmpty.string_of_uint d)).
Proof. unfold s. induction d; cbn [NilEmpty.string_of_uint list_ascii_of_string]; constructor; auto; unfold isdigit; cbn; lia. Qed.
Lemma number_numeral n : numeral n (number n).
Proof.
  unfold number. assert (H : forall d, d <> Decimal.Nil -> NilZero.string_of_uint d = NilEmpty.string_of_uint d) by (destruct d; auto; congruence).
  pose proof (DecimalNat.Unsigned.of_to n) as O. assert (N : Nat.to_uint n <> Decimal.Nil).
  { intros E. pose proof E as E'. rewrite E in O. cbn in O. subst n. discriminate E'. }
  rewrite H by exact N. split; [|split; [apply uint_digits|]].
  - destruct (Nat.to_uint n); [congruence|discriminate..].
  - rewrite uint_value. exact O.
Qed.
Lemma lines_end a b : ~ In nl a -> lines (a ++ nl :: b) = a :: lines b.
Proof.
  induction a as [|c a IH]; intros N; cbn [app lines].
  - now rewrite Ascii.eqb_refl.
  - destruct (Ascii.eqb_spec c nl) as [E|_]; [elim N; now left|]. rewrite IH by (intros I; apply N; now right). reflexivity.
Qed.
Lemma digits_nonl d : Forall isdigit d -> ~ In nl d.
Proof. intros F I. rewrite Forall_forall in F. apply F in I. unfold isdigit in I. cbn in I. lia. Qed.
(** C165: the text of a command, for an expression without newlines, has the lines which define the box with the page and then read the marker *)
Theorem written_lines : forall expr page id rest, ~ In nl expr ->
  exists d, numeral id d /\
  match page with
  | None => lines (written (Run expr None id) ++ rest) = [expr ++ s "%"; s "\PyXInput{" ++ d ++ s "}%"] ++ lines rest
  | Some p => exists dp, numeral p dp /\
      lines (written (Run expr (Some p) id) ++ rest) = [s "\ProcessPyXBox{" ++ expr ++ s "%"; s "}{" ++ dp ++ s "}%"; s "\PyXInput{" ++ d ++ s "}%"] ++ lines rest
  end.
Proof.
  intros expr page id rest N. exists (number id). split; [apply number_numeral|].
  assert (Ni : forall n, ~ In nl (number n)) by (intros n; apply digits_nonl, number_numeral).
  assert (Nc : forall x, existsb (Ascii.eqb nl) x = false -> ~ In nl x). { intros x E I. assert (existsb (Ascii.eqb nl) x = true); [|congruence]. apply existsb_exists. exists nl. split; [exact I|reflexivity]. }
  assert (Na : forall a b, ~ In nl a -> ~ In nl b -> ~ In nl (a ++ b)) by (intros a b A B I; apply in_app_or in I; tauto).
  destruct page as [p|].
  - exists (number p). split; [apply number_numeral|]. unfold written. rewrite <- !app_assoc. cbn [app].
    replace (s "\ProcessPyXBox{" ++ expr ++ s "%" ++ nl :: s "}{" ++ number p ++ s "}" ++ s "%" ++ nl :: s "\PyXInput{" ++ number id ++ s "}%" ++ nl :: rest)
      with ((s "\ProcessPyXBox{" ++ expr ++ s "%") ++ nl :: (s "}{" ++ number p ++ s "}%") ++ nl :: (s "\PyXInput{" ++ number id ++ s "}%") ++ nl :: rest) by (rewrite <- !app_assoc; reflexivity).
    rewrite !lines_end; auto; repeat apply Na; auto.
  - unfold written. rewrite <- !app_assoc. cbn [app].
    replace (expr ++ s "%" ++ nl :: s "\PyXInput{" ++ number id ++ s "}%" ++ nl :: rest) with ((expr ++ s "%") ++ nl :: (s "\PyXInput{" ++ number id ++ s "}%") ++ nl :: rest) by (rewrite <- !app_assoc; reflexivity).
    rewrite !lines_end; auto; repeat apply Na; auto.
Qed.
Print Assumptions written_lines.
Example written_ex : lines (written (Run (s "$a^2$") (Some 12) 305)) = [s "\ProcessPyXBox{$a^2$%"; s "}{12}%"; s "\PyXInput{305}%"; []].
Proof. reflexivity. Qed.

(** ** the number of pages *)
Lemma literal_app p x : literal p (p ++ x) = Some x.
Proof. unfold literal. replace (prefixb p (p ++ x)) with true by (symmetry; apply prefixb_spec; eauto). now rewrite skipn_app, skipn_all, Nat.sub_diag. Qed.
Lemma literal_none p x : (forall y, x <> p ++ y) -> literal p x = None.
Proof. intros H. unfold literal. destruct (prefixb p x) eqn:E; auto. apply prefixb_spec in E. destruct E as [y E]. now elim (H y). Qed.
Lemma digit_is c : digit c = true <-> isdigit c.
Proof. unfold digit, isdigit. rewrite andb_true_iff, Nat.leb_le, Nat.ltb_lt. lia. Qed.
Lemma digits_span d x : Forall isdigit d -> match x with [] => True | c :: _ => ~ isdigit c end -> span digit (d ++ x) = (d, x).
Proof.
  intros F X. apply span_all; [eapply Forall_impl; [|exact F]; intros c; apply digit_is|]. destruct x as [|c x]; auto. destruct (digit c) eqn:E; auto. apply digit_is in E. contradiction.
Qed.
(** the message of TeX about the file it wrote; its name may have quotes around the whole path *)
Definition report (quoted plural : bool) (pages bytes : str) : str :=
  s "texput.dvi" ++ (if quoted then [quot] else []) ++ s " (" ++ pages ++ s " page" ++ (if plural then s "s" else []) ++ s ", " ++ bytes ++ s " bytes).".
Lemma report_read q p pages bytes rest : pages <> [] -> bytes <> [] -> Forall isdigit pages -> Forall isdigit bytes -> dvi_end (report q p pages bytes ++ rest) = Some (pages, rest).
Proof.
  intros Np Nb Fp Fb. unfold report, dvi_end. rewrite <- !app_assoc, literal_app. cbv beta iota zeta.
  set (T2 := s ", " ++ bytes ++ s " bytes)." ++ rest). set (T := s " (" ++ pages ++ s " page" ++ (if p then s "s" else []) ++ T2).
  match goal with |- match literal _ ?m with _ => _ end = _ => replace m with T by (destruct q; reflexivity) end.
  unfold T. rewrite literal_app, digits_span by (auto; cbn; unfold isdigit; cbn; lia).
  destruct (Nat.eqb_spec (length pages) 0) as [L|_]; [destruct pages; [congruence|discriminate]|]. rewrite literal_app.
  match goal with |- match literal _ ?m with _ => _ end = _ => replace m with T2 by (destruct p; reflexivity) end.
  unfold T2. rewrite literal_app, digits_span by (auto; cbn; unfold isdigit; cbn; lia).
  destruct (Nat.eqb_spec (length bytes) 0) as [L|_]; [destruct bytes; [congruence|discriminate]|]. now rewrite literal_app.
Qed.
Lemma last_end_none : forall x, (forall a b, x <> a ++ s "texput.dvi" ++ b) -> last_end x = None.
Proof.
  induction x as [|c x IH]; intros H; [reflexivity|]. cbn [last_end]. rewrite IH by (intros a b E; apply (H (c :: a) b); now rewrite E). unfold dvi_end. now rewrite literal_none by (intros y; apply (H [])).
Qed.
Lemma last_end_read a z r : dvi_end z = Some r -> (forall u v, tl z <> u ++ s "texput.dvi" ++ v) -> last_end (a ++ z) = Some r.
Proof.
  intros E N. induction a as [|c a IH]; cbn [app].
  - destruct z as [|c z]; [exact E|]. cbn [last_end]. rewrite last_end_none by exact N. exact E.
  - cbn [last_end]. now rewrite IH.
Qed.
(** C166: in an output which begins to tell what was written at one place, and names the file the last time in a report, the number of pages is that of this report *)
Theorem pages_reported : forall before middle quoted plural pages bytes rest,
  let x := before ++ s "Output written on " ++ middle ++ report quoted plural pages bytes ++ rest in
  pages <> [] -> bytes <> [] -> Forall isdigit pages -> Forall isdigit bytes ->
  (forall a b, x = a ++ s "Output written on " ++ b -> length before <= length a) ->
  (forall a b, x = a ++ s "texput.dvi" ++ b -> length a <= length (before ++ s "Output written on " ++ middle)) ->
  search_dvi x 0 = Some (length before, length x - length rest, pages).
Proof.
  intros before middle q p pages bytes rest x Np Nb Fp Fb First Last.
  set (y := s "Output written on " ++ middle ++ report q p pages bytes ++ rest) in *.
  assert (W : dvi_written y = Some (length y - length rest, pages)).
  { unfold dvi_written, y at 1. rewrite literal_app. rewrite (last_end_read middle (report q p pages bytes ++ rest) (pages, rest)); auto using report_read.
    intros u v E. specialize (Last ((before ++ s "Output written on " ++ middle) ++ "t"%char :: u) v).
    assert (x = ((before ++ s "Output written on " ++ middle) ++ "t"%char :: u) ++ s "texput.dvi" ++ v) as X.
    { unfold x, y. rewrite <- !app_assoc. cbn [app]. rewrite <- E. reflexivity. }
    specialize (Last X). rewrite (app_length _ ("t"%char :: u)) in Last. cbn [length] in Last. lia. }
  assert (G : forall b i, (exists a, before = a ++ b /\ length a = i) -> search_dvi (b ++ y) i = Some (length before, i + (length (b ++ y) - length rest), pages)).
  { induction b as [|c b IH]; intros i (a & E & L).
    - rewrite app_nil_r in E. subst a. cbn [app]. destruct y as [|c y'] eqn:Y; cbn [search_dvi]; rewrite W, L; reflexivity.
    - cbn [app search_dvi]. assert (dvi_written (c :: b ++ y) = None) as ->.
      { unfold dvi_written. rewrite literal_none; auto. intros z Z. specialize (First a z). assert (x = a ++ s "Output written on " ++ z) as X.
        { unfold x. rewrite E, <- app_assoc. cbn [app]. now rewrite Z. }
        specialize (First X). rewrite E, app_length in First. cbn [length] in First. lia. }
      rewrite (IH (S i)); [|exists (a ++ [c]); split; [now rewrite <- app_assoc|rewrite app_length; cbn; lia]].
      do 3 f_equal. assert (length rest <= length (b ++ y)). { unfold y. rewrite !app_length. lia. } cbn [length]. lia. }
  unfold x at 1. rewrite (G before 0) by (exists []; auto). reflexivity.
Qed.
Print Assumptions pages_reported.
(** a report about something else before the last one *)
Example pages_ex : search_dvi (s "[80.121.88.1] Output written on /tmp/texput.dvi (7 pages, 8 bytes). x texput.dvi (21 pages, 300 bytes). Transcript") 0 = Some (14, 103, s "21").
Proof. vm_compute. reflexivity. Qed.
