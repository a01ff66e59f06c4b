(** * The answers of the TeX interpreter *)
From Coq Require Import ZArith QArith Arith Bool Ascii String List Lia.
From Verif Require Import TexMsgModel TexMsgProps TexLoadProps TexEngineModel.
Import ListNotations.
Open Scope nat_scope.
Open Scope list_scope.

(** ** What TeX prints *)
(** the value of digits, the least significant one first *)
Fixpoint value (l : str) : Z := match l with [] => 0%Z | c :: l => (Z.of_nat (nat_of_ascii c) - 48 + 10 * value l)%Z end.
Definition digits (x : str) : Prop := Forall (fun c => 48 <= nat_of_ascii c <= 57) x.
(** a text such as -12.5, .5 or 3. which denotes a rational number *)
Definition denotes (x : str) (q : Q) : Prop :=
  exists (minus : bool) a b (dot : bool), x = (if minus then s "-" else []) ++ a ++ (if dot then s "." else []) ++ b /\ digits a /\ digits b /\ (dot = false -> b = []) /\ a ++ b <> [] /\
    (q == (if minus then -1 else 1) * inject_Z (value (rev (a ++ b))) / inject_Z (10 ^ Z.of_nat (length b)))%Q.
Definition box_message (page lt rt ht dp : str) : str := s "PyXBox:page=" ++ page ++ s ",lt=" ++ lt ++ s "pt,rt=" ++ rt ++ s "pt,ht=" ++ ht ++ s "pt,dp=" ++ dp ++ s "pt:".
(** characters which may be left: those of the prompt, spaces, stars and newlines *)
Definition harmless (c : ascii) : Prop := In c (s "(Please type a command or say `\end') *" ++ [nl]).


Lemma digit_range c : digit c = true <-> 48 <= nat_of_ascii c <= 57.
Proof. unfold digit. rewrite andb_true_iff, Nat.leb_le, Nat.ltb_lt. lia. Qed.
Lemma value_snoc x : digits x -> digits_value x = value (rev x).
Proof.
  intros D. unfold digits_value. rewrite <- fold_left_rev_right. apply Forall_rev in D. induction D as [|c l H _ IH]; [reflexivity|]. cbn [fold_right value]. rewrite IH, Nat2Z.inj_sub by lia. lia.
Qed.
Lemma span_digits x a b : span digit x = (a, b) -> x = a ++ b /\ digits a.
Proof. intros E. destruct (span_spec digit x a b E) as (-> & D & _). split; [reflexivity|]. eapply Forall_impl; [|exact D]. intros c. apply digit_range. Qed.
Lemma literal_some p x y : literal p x = Some y -> x = p ++ y.
Proof. unfold literal. destruct (prefixb p x) eqn:P; [|discriminate]. intros E. injection E as <-. apply prefixb_spec in P. destruct P as (y & ->). rewrite skipn_app, skipn_all, Nat.sub_diag. reflexivity. Qed.
Lemma dot_match (r : str) : (exists r', r = "."%char :: r') \/ (forall A (f : str -> A) (g : A), match r with "."%char :: r' => f r' | _ => g end = g).
Proof. destruct r as [|[[|] [|] [|] [|] [|] [|] [|] [|]] r]; eauto. Qed.
Lemma minus_match (r : str) : (exists r', r = "-"%char :: r') \/ (forall A (f : str -> A) (g : A), match r with "-"%char :: r' => f r' | _ => g end = g).
Proof. destruct r as [|[[|] [|] [|] [|] [|] [|] [|] [|]] r]; eauto. Qed.
Lemma decimal_some x t q r : decimal x = Some (t, q, r) -> x = t ++ r /\ denotes t q.
Proof.
  unfold decimal. intros E.
  assert (exists sign y, match x with "-"%char :: x => (true, x) | _ => (false, x) end = (sign, y) /\ x = (if sign : bool then s "-" else []) ++ y) as (sign & y & E1 & Ex).
  { destruct (minus_match x) as [(r' & ->)|M]; [exists true, r'; split; reflexivity|exists false, x; split; [apply M|reflexivity]]. }
  rewrite E1 in E. clear E1. destruct (span digit y) as [a r1] eqn:S1. destruct (span_digits _ _ _ S1) as (-> & Da).
  assert (exists (dot : bool) b r2, match r1 with "."%char :: r' => let '(b, r'') := span digit r' in (["."%char], b, r'') | _ => ([], [], r1) end = (if dot then s "." else [], b, r2) /\ r1 = (if dot then s "." else []) ++ b ++ r2 /\ digits b /\ (dot = false -> b = [])) as (dot & b & r2 & E2 & Er & Db & Nd).
  { destruct (dot_match r1) as [(r' & ->)|M].
    - destruct (span digit r') as [b r2] eqn:S2. destruct (span_digits _ _ _ S2) as (-> & Db). exists true, b, r2. split; [reflexivity|]. split; [reflexivity|]. split; [exact Db|discriminate].
    - exists false, [], r1. split; [apply M|]. split; [reflexivity|]. split; [constructor|reflexivity]. }
  rewrite E2 in E. destruct ((length a =? 0) && (length b =? 0)) eqn:L; [discriminate|]. injection E as <- <- <-. subst x r1. split.
  - destruct sign, dot; cbn [app s list_ascii_of_string]; rewrite <- ?app_assoc; cbn [app]; rewrite <- ?app_assoc; reflexivity.
  - exists sign, a, b, dot. split; [destruct sign, dot; reflexivity|]. split; [exact Da|]. split; [exact Db|]. split; [exact Nd|]. split.
    + intros Q. apply app_eq_nil in Q. destruct Q as [-> ->]. discriminate.
    + rewrite value_snoc by (apply Forall_app; auto). destruct sign; unfold Qdiv; ring.
Qed.

Lemma number_nil n : number n <> [].
Proof.
  unfold number. intros Q. apply (f_equal string_of_list_ascii) in Q. unfold s in Q. rewrite string_of_list_ascii_of_string in Q. destruct (Nat.to_uint n) eqn:E; try discriminate.
Qed.

Lemma pyxbox_some x n p l : pyxbox x = Some (n, (p, l)) -> exists lt rt ht dp q1 q2 q3 q4 y, x = box_message p lt rt ht dp ++ y /\ n = length (box_message p lt rt ht dp) /\ l = [q1; q2; q3; q4] /\ denotes lt q1 /\ denotes rt q2 /\ denotes ht q3 /\ denotes dp q4.
Proof.
  unfold pyxbox. destruct (literal _ x) as [x1|] eqn:L1; [|discriminate]. apply literal_some in L1. destruct (span digit x1) as [page x2] eqn:S1. destruct (span_digits _ _ _ S1) as (-> & _). destruct (length page =? 0); [discriminate|].
  destruct (literal _ x2) as [x3|] eqn:L2; [|discriminate]. apply literal_some in L2. destruct (decimal x3) as [[[t1 q1] x4]|] eqn:D1; [|discriminate]. destruct (decimal_some _ _ _ _ D1) as (-> & N1).
  destruct (literal _ x4) as [x5|] eqn:L3; [|discriminate]. apply literal_some in L3. destruct (decimal x5) as [[[t2 q2] x6]|] eqn:D2; [|discriminate]. destruct (decimal_some _ _ _ _ D2) as (-> & N2).
  destruct (literal _ x6) as [x7|] eqn:L4; [|discriminate]. apply literal_some in L4. destruct (decimal x7) as [[[t3 q3] x8]|] eqn:D3; [|discriminate]. destruct (decimal_some _ _ _ _ D3) as (-> & N3).
  destruct (literal _ x8) as [x9|] eqn:L5; [|discriminate]. apply literal_some in L5. destruct (decimal x9) as [[[t4 q4] x10]|] eqn:D4; [|discriminate]. destruct (decimal_some _ _ _ _ D4) as (-> & N4).
  destruct (literal _ x10) as [x11|] eqn:L6; [|discriminate]. apply literal_some in L6. intros E. injection E as <- <- <-. exists t1, t2, t3, t4, q1, q2, q3, q4, x11. subst x10 x8 x6 x4 x2.
  assert (x = box_message page t1 t2 t3 t4 ++ x11) as Ex by (rewrite L1; unfold box_message; rewrite <- !app_assoc; reflexivity).
  split; [exact Ex|]. split; [rewrite Ex, app_length; lia|]. auto.
Qed.
Lemma search_box_some x : forall i a b g, search_box x i = Some (a, b, g) -> exists u y n, x = u ++ y /\ a = i + length u /\ pyxbox y = Some (n, g) /\ b = a + n.
Proof.
  induction x as [|c x IH]; intros i a b g; cbn [search_box].
  - destruct (pyxbox []) as [[n g']|] eqn:E; [|discriminate]. intros Q. injection Q as <- <- <-. exists [], [], n. cbn. repeat split; auto; lia.
  - destruct (pyxbox (c :: x)) as [[n g']|] eqn:E.
    + intros Q. injection Q as <- <- <-. exists [], (c :: x), n. cbn. repeat split; auto; lia.
    + intros Q. destruct (IH _ _ _ _ Q) as (u & y & n & -> & -> & P & ->). exists (c :: u), y, n. cbn. repeat split; auto; lia.
Qed.
Lemma remove_some p x y : p <> [] -> expect (remove_string p x) = Some y -> exists a b, x = a ++ p ++ b /\ y = a ++ b.
Proof.
  intros Np. destruct (remove_string_first p x Np) as [(-> & _)|(a & b & -> & -> & _)]; [discriminate|]. cbn. intros E. injection E as <-. eauto.
Qed.

Lemma replace_all_keeps p x : p <> [] -> forall n c, In c x -> In c (replace_all_from p x n) \/ In c (firstn n x) \/ In c p.
Proof.
  intros Np. induction x as [|d x IH]; intros n c; [intros []|]. intros H. cbn [replace_all_from]. destruct n as [|n].
  - destruct (prefixb p (d :: x)) eqn:P.
    + apply prefixb_spec in P. destruct P as (y & P). destruct p as [|a p]; [congruence|]. cbn in P. injection P as <- ->. destruct H as [->|H]; [right; right; left; reflexivity|].
      cbn [length]. rewrite Nat.sub_succ, Nat.sub_0_r. destruct (IH (length p) c H) as [Q|[Q|Q]]; [left; exact Q| |auto]. rewrite firstn_app, firstn_all, Nat.sub_diag in Q. cbn in Q. rewrite app_nil_r in Q. right; right; right; exact Q.
    + destruct H as [->|H]; [left; left; reflexivity|]. destruct (IH 0 c H) as [Q|[Q|Q]]; [left; right; exact Q|destruct Q|auto].
  - destruct H as [->|H]; [right; left; left; reflexivity|]. destruct (IH n c H) as [Q|[Q|Q]]; [auto|right; left; right; exact Q|auto].
Qed.
Lemma kept_or p x c : p <> [] -> In c x -> In c (replace_all p x) \/ In c p.
Proof. intros Np H. destruct (replace_all_keeps p x Np 0 c H) as [Q|[[]|Q]]; auto. Qed.
Lemma left_harmless x : nothing_left x = true -> Forall harmless x.
Proof.
  unfold nothing_left. rewrite Nat.eqb_eq. intros L. apply Forall_forall. intros c H. unfold harmless.
  change (s "(Please type a command or say `\end') *" ++ [nl]) with ((s "(Please type a command or say `\end')" ++ [" "%char]) ++ ["*"%char; nl]).
  apply (kept_or (s "(Please type a command or say `\end')")) in H; [|discriminate]. destruct H as [H|H]; [|apply in_app_iff; left; apply in_app_iff; auto].
  apply (kept_or [" "%char]) in H; [|discriminate]. destruct H as [H|H]; [|apply in_app_iff; left; apply in_app_iff; auto].
  apply (kept_or ["*"%char; nl]) in H; [|discriminate]. destruct H as [H|H]; [|apply in_app_iff; auto].
  apply (kept_or [nl]) in H; [|discriminate]. destruct H as [H|[<-|[]]]; [|apply in_app_iff; right; right; left; reflexivity].
  apply length_zero_iff_nil in L. rewrite L in H. destruct H.
Qed.

(** A text is accepted only if the interpreter printed the marker, the sizes and the end of the page, all with the numbers
    expected, and the parsers leave nothing but prompts.  The sizes are those printed, in PostScript points. *)
Theorem answer_checked page id ps out sizes : inside page id true ps out = Some sizes ->
  exists a b c d f g lt rt ht dp q1 q2 q3 q4 rest,
    out = a ++ s "PyXInputMarker:executeid=" ++ number id ++ s ":" ++ b /\
    a ++ b = c ++ box_message (number page) lt rt ht dp ++ d /\ denotes lt q1 /\ denotes rt q2 /\ denotes ht q3 /\ denotes dp q4 /\
    c ++ d = f ++ s "[80.121.88." ++ number page ++ s "]" ++ g /\
    parse ps (f ++ g) = Some rest /\ Forall harmless rest /\
    Forall2 (fun z q => z * (7227 # 100) == q * 72)%Q sizes [q1; q2; q3; q4].
Proof.
  unfold inside. destruct (expect (remove_string (s "PyXInputMarker:executeid=" ++ number id ++ s ":") out)) as [x|] eqn:R1; [|discriminate]. apply remove_some in R1; [|discriminate]. destruct R1 as (a & b & -> & ->).
  unfold remove_pattern. cbv beta iota zeta. destruct (search_box (a ++ b) 0) as [[[i j] [p l]]|] eqn:S1; [|discriminate]. destruct (search_box_some _ _ _ _ _ S1) as (u & y & n & Ea & -> & Py & ->). cbn [plus] in *.
  destruct (pyxbox_some _ _ _ _ Py) as (lt & rt & ht & dp & q1 & q2 & q3 & q4 & z & -> & -> & -> & N1 & N2 & N3 & N4).
  destruct (str_eqb_spec p (number page)) as [->|]; [|discriminate]. rewrite Ea. rewrite firstn_app, firstn_all, Nat.sub_diag, firstn_O, app_nil_r. rewrite skipn_app, skipn_all2 by lia.
  replace (length u + length (box_message (number page) lt rt ht dp) - length u) with (length (box_message (number page) lt rt ht dp)) by lia. rewrite skipn_app, skipn_all, Nat.sub_diag. cbn [app skipn].
  destruct (expect _) as [x2|] eqn:R2; [|discriminate]. apply remove_some in R2; [|discriminate]. destruct R2 as (f & g & E2 & ->).
  destruct (parse ps (f ++ g)) as [rest|] eqn:P; [|discriminate]. destruct (nothing_left rest) eqn:L; [|discriminate]. intros E. injection E as <-.
  exists a, b, u, z, f, g, lt, rt, ht, dp, q1, q2, q3, q4, rest. split; [rewrite <- !app_assoc; reflexivity|]. split; [exact Ea|]. do 4 (split; [assumption|]). split; [rewrite E2, <- !app_assoc; reflexivity|]. split; [exact P|]. split; [apply left_harmless, L|].
  repeat (constructor; [unfold Qdiv; rewrite <- Qmult_assoc, (Qmult_comm (/ _)), Qmult_inv_r by discriminate; ring|]). constructor.
Qed.
Print Assumptions answer_checked.

Definition answer (rest : str) : str := s "PyXBox:page=7,lt=0.0pt,rt=72.27pt,ht=-.5pt,dp=3.pt:" ++ [nl] ++ s "[80.121.88.7]" ++ rest ++ [nl] ++ s "PyXInputMarker:executeid=12:" ++ [nl] ++ s "*" ++ [nl].
Example answer_checked_ex : option_map (map Qred) (inside 7 12 true [] (answer [])) = Some [0%Q; 72%Q; (-400 # 803)%Q; (2400 # 803)%Q] /\
  inside 8 12 true [] (answer []) = None /\ inside 7 11 true [] (answer []) = None /\ inside 7 12 true [] (answer (s " ! Missing $ inserted.")) = None.
Proof. vm_compute. repeat split. Qed.

(** At the end, the number of pages is checked. *)
Theorem end_checked : forall page ps out, at_end page ps out = true ->
  match page with
  | O => exists a b rest, out = a ++ s "No pages of output." ++ b /\ parse ps (a ++ b) = Some rest /\ Forall harmless rest
  | S _ => exists x rest, remove_pattern (fun x => search_dvi x 0) out true = (x, Some (number page)) /\ parse ps x = Some rest /\ Forall harmless rest
  end.
Proof.
  intros page ps out. unfold at_end. destruct page as [|page]; cbn [Nat.eqb].
  - destruct (expect _) as [x|] eqn:R1; [|discriminate]. apply remove_some in R1; [|discriminate]. destruct R1 as (a & b & -> & ->). destruct (parse ps (a ++ b)) as [rest|] eqn:P; [|discriminate]. intros L. exists a, b, rest. split; [reflexivity|]. split; [exact P|]. apply left_harmless, L.
  - destruct (remove_pattern _ out true) as [x [p|]]; [|discriminate]. destruct (str_eqb_spec p (number (S page))) as [->|]; [|discriminate]. destruct (parse ps x) as [rest|] eqn:P; [|discriminate]. intros L. exists x, rest. split; [reflexivity|]. split; [exact P|]. apply left_harmless, L.
Qed.
Print Assumptions end_checked.
Example end_checked_ex : at_end 2 [] (s "Output written on ""texput.dvi"" (2 pag" ++ [nl] ++ s "es, 300 bytes).") = true /\ at_end 3 [] (s "Output written on texput.dvi (2 pages, 300 bytes).") = false /\ at_end 0 [] (s " No pages of output.") = true.
Proof. vm_compute. repeat split. Qed.
