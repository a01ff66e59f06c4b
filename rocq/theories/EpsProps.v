(** Lines and bounding boxes of EPS files: which lines are read, whatever the size of the pieces in which the file is read, and which bounding
    box is found (pyx/epsfile.py, l.57-224). *)
From Coq Require Import ZArith Ascii String List Bool Lia.
From Verif Require Import EpsModel.
Import ListNotations.
Open Scope nat_scope.

(** ** Specification: the lines of a file *)
Definition no_break (l : bytes) : Prop := ~ In CR l /\ ~ In LF l.
(** a line, when it is followed by some bytes *)
Inductive is_line : bytes -> bytes -> Prop :=
| line_lf b rest : no_break b -> is_line (b ++ [LF]) rest
| line_crlf b rest : no_break b -> is_line (b ++ [CR; LF]) rest
| line_cr b rest : no_break b -> hd_error rest <> Some LF -> is_line (b ++ [CR]) rest
| line_last b : no_break b -> b <> [] -> is_line b [].
Inductive lines_of : bytes -> list bytes -> Prop :=
| no_lines : lines_of [] []
| more_lines l rest ls : is_line l rest -> lines_of rest ls -> lines_of (l ++ rest) (l :: ls).

(** ** Proofs *)
Lemma CRLF : CR <> LF. Proof. discriminate. Qed.

Lemma find_some c : forall l k, find c l = Some k -> exists p q, l = p ++ c :: q /\ length p = k /\ ~ In c p.
Proof.
  induction l as [|x l IH]; intros k E; [discriminate|]. cbn in E. destruct (Ascii.eqb x c) eqn:X.
  - apply Ascii.eqb_eq in X. injection E as <-. subst. exists [], l. repeat split; auto.
  - destruct (find c l) as [k'|]; [|discriminate]. injection E as <-.
    destruct (IH k' eq_refl) as (p & q & -> & <- & N). exists (x :: p), q. repeat split; auto.
    intros [E|E]; [|auto]. subst. rewrite Ascii.eqb_refl in X. discriminate.
Qed.
Lemma find_none c : forall l, find c l = None -> ~ In c l.
Proof.
  induction l as [|x l IH]; intros E; [auto|]. cbn in E. destruct (Ascii.eqb x c) eqn:X; [discriminate|].
  destruct (find c l); [discriminate|]. intros [H|H]; [|apply IH; auto]. subst. rewrite Ascii.eqb_refl in X. discriminate.
Qed.

Lemma firstn_len {A} (p q : list A) : firstn (length p) (p ++ q) = p.
Proof. rewrite firstn_app, Nat.sub_diag, firstn_all. cbn. apply app_nil_r. Qed.
Lemma skipn_len {A} (p q : list A) : skipn (length p) (p ++ q) = q.
Proof. rewrite skipn_app, Nat.sub_diag, skipn_all. reflexivity. Qed.
Lemma cut_app {A} (l p q : list A) n : l = p ++ q -> n = length p -> firstn n l = p /\ skipn n l = q.
Proof. intros -> ->. split; [apply firstn_len|apply skipn_len]. Qed.
Lemma app_two {A} : forall (p q p' q' : list A), p ++ q = p' ++ q' -> length p <= length p' -> exists m, p' = p ++ m /\ q = m ++ q'.
Proof.
  induction p as [|x p IH]; intros q p' q' E L.
  - exists p'. auto.
  - destruct p' as [|y p']; [cbn in L; lia|]. injection E as -> E. cbn in L. destruct (IH q p' q' E) as (m & -> & ->); [lia|].
    exists m. auto.
Qed.

Lemma cut_line b f : b <> [] -> (more b = true -> f = []) -> is_line (firstn (eol b) b) (skipn (eol b) b ++ f) /\ eol b <> 0.
Proof.
  intros B M. unfold eol. unfold more in M.
  destruct (find LF b) as [nl|] eqn:L.
  - destruct (find_some _ _ _ L) as (p & q & E & P & N).
    destruct (find CR b) as [cr|] eqn:C.
    + destruct (find_some _ _ _ C) as (p' & q' & E' & P' & N').
      destruct (Nat.ltb_spec (cr + 1) nl) as [Q|Q].
      * destruct (cut_app b (p' ++ [CR]) q' (cr + 1)) as [-> ->]; [rewrite <- app_assoc; exact E'|rewrite app_length; cbn; lia|].
        split; [|lia].
        destruct (app_two (p' ++ [CR]) q' p (LF :: q)) as (m & Em & Eq); [rewrite <- app_assoc, <- E; auto|rewrite app_length; cbn; lia|].
        apply line_cr.
        -- split; [auto|]. intros I. apply N. rewrite Em. apply in_or_app. left. apply in_or_app. auto.
        -- destruct m as [|x m]; [rewrite app_nil_r in Em; rewrite Em, app_length in P; cbn in P; lia|].
           rewrite Eq. cbn. intros [= ->]. apply N. rewrite Em. apply in_or_app. right. left. reflexivity.
      * destruct (cut_app b (p ++ [LF]) q (nl + 1)) as [-> ->]; [rewrite <- app_assoc; exact E|rewrite app_length; cbn; lia|].
        split; [|lia].
        destruct (Nat.le_gt_cases nl cr) as [H|H].
        -- destruct (app_two p (LF :: q) p' (CR :: q')) as (m & Em & Eq); [congruence|lia|].
           apply line_lf. split; [|auto]. intros I. apply N'. rewrite Em. apply in_or_app. auto.
        -- destruct (app_two p' (CR :: q') p (LF :: q)) as (m & Em & Eq); [congruence|lia|].
           destruct m as [|x m]; [rewrite app_nil_r in Em; subst p; lia|].
           injection Eq as <- Eq. rewrite Em, app_length in P. destruct m as [|y m]; [|cbn in P; lia].
           rewrite Em, <- app_assoc. apply line_crlf. split; [auto|]. intros I. apply N. rewrite Em. apply in_or_app. auto.
    + destruct (cut_app b (p ++ [LF]) q (nl + 1)) as [-> ->]; [rewrite <- app_assoc; exact E|rewrite app_length; cbn; lia|].
      split; [|lia]. apply line_lf. split; [|auto]. apply find_none in C. intros I. apply C. rewrite E. apply in_or_app. auto.
  - apply find_none in L. destruct (find CR b) as [cr|] eqn:C.
    + destruct (find_some _ _ _ C) as (p' & q' & E' & P' & N').
      destruct (cut_app b (p' ++ [CR]) q' (cr + 1)) as [-> ->]; [rewrite <- app_assoc; exact E'|rewrite app_length; cbn; lia|].
      split; [|lia]. apply line_cr.
      * split; [auto|]. intros I. apply L. rewrite E'. apply in_or_app. auto.
      * destruct q' as [|x q'].
        -- rewrite M; [discriminate|]. rewrite E', app_length. cbn. apply Nat.eqb_eq. lia.
        -- cbn. intros [= ->]. apply L. rewrite E'. apply in_or_app. right. right. left. reflexivity.
    + apply find_none in C. rewrite firstn_all, skipn_all, (M eq_refl). split; [apply line_last; [split|]; auto|].
      destruct b; [congruence|discriminate].
Qed.

Lemma eol_cut b : firstn (eol b) b ++ skipn (eol b) b = b.
Proof. apply firstn_skipn. Qed.

(** one call of readline *)
Lemma readline_loop_spec n : n > 0 -> forall fuel (EOF : bool) b f, (if EOF then f = [] /\ fuel > 0 else fuel > length f + 1) ->
  match readline_loop fuel n EOF b f with
  | Some (l, r) => is_line l (buffer r ++ file r) /\ l ++ buffer r ++ file r = b ++ f /\ l <> []
  | None => b ++ f = []
  end.
Proof.
  intros Hn. induction fuel as [|fuel IH]; intros EOF b f H.
  - destruct EOF; lia.
  - cbn [readline_loop]. destruct (more b && negb EOF) eqn:M.
    + apply andb_true_iff in M as [M E]. destruct EOF; [discriminate|].
      destruct (firstn n f) as [|x l] eqn:F.
      * assert (f = []) as -> by (destruct f; [auto|destruct n; [lia|discriminate]]).
        replace (skipn n (@nil ascii)) with (@nil ascii) by (destruct n; auto). rewrite app_nil_r.
        specialize (IH true b []). rewrite app_nil_r in IH. apply IH. split; [auto|cbn in H; lia].
      * specialize (IH false (b ++ x :: l) (skipn n f)).
        rewrite <- F in IH |- *. rewrite <- app_assoc, firstn_skipn in IH. rewrite F in *. apply IH.
        rewrite skipn_length. assert (length f > 0) by (destruct f; [destruct n; discriminate|cbn; lia]). lia.
    + destruct b as [|x b].
      * destruct EOF; [cbn; apply H|discriminate].
      * destruct (cut_line (x :: b) f) as [L Z]; [discriminate| |].
        -- intros E. rewrite E in M. destruct EOF; [apply H|discriminate].
        -- cbn [buffer file]. repeat split.
           ++ exact L.
           ++ rewrite app_assoc, eol_cut. reflexivity.
           ++ destruct (eol (x :: b)); [congruence|discriminate].
Qed.
Lemma readline_spec n r : n > 0 ->
  match readline n r with
  | Some (l, r') => is_line l (buffer r' ++ file r') /\ l ++ buffer r' ++ file r' = buffer r ++ file r /\ l <> []
  | None => buffer r ++ file r = []
  end.
Proof. intros H. unfold readline. apply readline_loop_spec; [exact H|lia]. Qed.

Lemma lines_loop_spec n : n > 0 -> forall fuel r, length (buffer r ++ file r) <= fuel -> lines_of (buffer r ++ file r) (lines_loop fuel n r).
Proof.
  intros Hn. induction fuel as [|fuel IH]; intros r H.
  - destruct (buffer r ++ file r); [constructor|cbn in H; lia].
  - cbn. pose proof (readline_spec n r Hn) as S. destruct (readline n r) as [[l r']|].
    + destruct S as (L & E & N). rewrite <- E. constructor; [exact L|]. apply IH.
      apply (f_equal (@length ascii)) in E. rewrite app_length in E. destruct l; [congruence|cbn in E; lia].
    + rewrite S. constructor.
Qed.

(** All lines of a file are read, each with its separator, whatever the size of the pieces in which the file is read: '\n', '\r' and '\r\n' end
    a line, and nothing is lost. *)
Theorem lines_read : forall n f, n > 0 -> lines_of f (all_lines n f) /\ List.concat (all_lines n f) = f.
Proof.
  intros n f H. pose proof (lines_loop_spec n H (length f) (mkr [] f)) as L. cbn [buffer file app] in L. specialize (L (le_n _)).
  split; [exact L|]. fold (all_lines n f) in L. induction L; cbn; congruence.
Qed.
Print Assumptions lines_read.

Lemma break_at : forall (b b' : bytes) c c' r r', no_break b -> no_break b' -> (c = CR \/ c = LF) -> (c' = CR \/ c' = LF) ->
  b ++ c :: r = b' ++ c' :: r' -> b = b' /\ c = c' /\ r = r'.
Proof.
  induction b as [|x b IH]; intros [|x' b'] c c' r r' N N' C C' E.
  - injection E as -> ->. auto.
  - injection E as -> _. destruct N' as [A B]. destruct C as [-> | ->]; [destruct A|destruct B]; left; auto.
  - injection E as -> _. destruct N as [A B]. destruct C' as [-> | ->]; [destruct A|destruct B]; left; auto.
  - injection E as -> E. destruct (IH b' c c' r r') as (-> & -> & ->); auto.
    + destruct N as [A B]. split; intros I; [apply A|apply B]; right; auto.
    + destruct N' as [A B]. split; intros I; [apply A|apply B]; right; auto.
Qed.
Lemma no_break_end : forall (b b' : bytes) c r, no_break b' -> (c = CR \/ c = LF) -> b ++ c :: r <> b'.
Proof.
  intros b b' c r [A B] C E. subst b'. destruct C as [-> | ->]; [apply A|apply B]; apply in_or_app; right; left; auto.
Qed.

Lemma line_unique l rest l' rest' : is_line l rest -> is_line l' rest' -> l ++ rest = l' ++ rest' -> l = l'.
Proof.
  intros H H' E.
  destruct H as [b r N|b r N|b r N P|b N P]; destruct H' as [b' r' N'|b' r' N'|b' r' N' P'|b' N' P'];
    rewrite <- ?app_assoc in E; cbn in E; rewrite ?app_nil_r in E;
    try (apply break_at in E as (-> & E1 & E2); auto; try (exfalso; revert E1; discriminate); subst; try reflexivity);
    try (exfalso; cbn in *; congruence);
    try (exfalso; revert E; apply no_break_end; auto; fail);
    try (exfalso; symmetry in E; revert E; apply no_break_end; auto; fail).
  exact E.
Qed.
(** The lines of a file are determined by the file, so they do not depend on the size of the pieces in which it is read. *)
Theorem lines_same : forall n n' f, n > 0 -> n' > 0 -> all_lines n f = all_lines n' f.
Proof.
  assert (Q : forall l r, is_line l r -> l <> []) by (intros l r [b ? ?|b ? ?|b ? ? ?|b ? ?]; auto; destruct b; discriminate).
  assert (U : forall f a, lines_of f a -> forall b, lines_of f b -> a = b).
  { intros f a H. induction H as [|l rest ls L H IH]; intros b K.
    - inversion K as [E|l rest ls L H E]; [reflexivity|]. exfalso.
      apply app_eq_nil in E as [E _]. apply (Q _ _ L E).
    - inversion K as [E|l' rest' ls' L' H' E]; subst.
      + exfalso. symmetry in E. apply app_eq_nil in E as [-> ->].
        apply (Q _ _ L). reflexivity.
      + pose proof (line_unique _ _ _ _ L L' (eq_sym E)) as ->. apply app_inv_head in E. subst. f_equal. apply IH. exact H'. }
  intros n n' f H H'. apply (U f); apply lines_read; assumption.
Qed.
Print Assumptions lines_same.

(** Reading a number of bytes takes them from where the lines ended, and the following lines begin after them. *)
Theorem bytes_read : forall count r, count <= length (buffer r ++ file r) ->
  exists b r', read count r = Some (b, r') /\ length b = count /\ b ++ buffer r' ++ file r' = buffer r ++ file r.
Proof.
  intros count [b f] H. cbn [buffer file] in *. rewrite app_length in H. unfold read. cbn [buffer file].
  destruct (Nat.ltb_spec (length b) count) as [L|L].
  - rewrite app_length, firstn_length_le by lia. replace (length b + (count - length b)) with count by lia. rewrite Nat.ltb_irrefl.
    do 2 eexists. split; [reflexivity|]. cbn [buffer file]. split.
    + apply firstn_length_le. rewrite app_length, firstn_length_le; lia.
    + rewrite app_assoc, firstn_skipn, <- app_assoc, firstn_skipn. reflexivity.
  - destruct (Nat.ltb_spec (length b) count) as [L'|L']; [lia|]. do 2 eexists. split; [reflexivity|]. cbn [buffer file]. split.
    + apply firstn_length_le. lia.
    + rewrite app_assoc, firstn_skipn. reflexivity.
Qed.
Print Assumptions bytes_read.

(** Four lines with the three separators, read in pieces of two bytes. *)
Definition br (s : string) : bytes := map (fun c => if Ascii.eqb c "r" then CR else if Ascii.eqb c "n" then LF else c) (lit s).
Example ex_lines : all_lines 2 (br "abrnnc1rd") = [br "abrn"; br "n"; br "c1r"; br "d"].
Proof. reflexivity. Qed.
Example ex_lines_one : all_lines 1 (br "abrnnc1rd") = [br "abrn"; br "n"; br "c1r"; br "d"].
Proof. reflexivity. Qed.
Example ex_bytes : option_map fst (read 3 (mkr (lit "ab") (lit "cde"))) = Some (lit "abc").
Proof. reflexivity. Qed.
