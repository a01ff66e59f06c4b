(** * The TeX engines: each text box shows its own text *)
From Coq Require Import ZArith QArith Arith Bool Ascii String List Lia.
From Verif Require Import TexMsgModel TexEngineModel.
Import ListNotations.
Open Scope nat_scope.
Open Scope list_scope.

(** ** What is asked of an engine *)
Inductive call := CPreamble (x : str) (ps : list parser) | CText (x : str) (ps : list parser) | CCanvas (i : nat) | CFinish.
Definition raised {A} (o : outcome A) : option exn := match o with Val _ => None | Raise r => Some r end.

(** the expressions which were typeset in boxes, with the numbers of their pages, and the numbers of the markers *)
Definition typeset_in (inp : list command) : list (nat * str) := flat_map (fun c => match c with Run x (Some p) _ => [(p, x)] | _ => [] end) inp.
Definition markers_in (inp : list command) : list nat := flat_map (fun c => match c with Run _ _ id => [id] | Quit _ => [] end) inp.
(** an interpreter which ships out each of these pages, whatever it says about them *)
Definition ships (pages : list command -> list nat) : Prop := forall inp, pages inp = map fst (typeset_in inp).

Section Calls.
  Variable tex : list command -> bool * str.
  Variable pages : list command -> list nat.
  Variable encodable : str -> bool.
  Variable k : kind.
  Variable texipc : bool.

  Definition ask (c : call) (e : engine) : engine * option exn :=
    match c with
    | CPreamble x ps => let '(e, r) := do_preamble tex encodable k x ps e in (e, raised r)
    | CText x ps => let '(e, r) := text_pt tex pages encodable k texipc x ps e in (e, raised r)
    | CCanvas i => let '(e, r) := dvicanvas tex pages encodable k texipc i e in (e, raised r)
    | CFinish => let '(e, r) := do_finish tex pages encodable k texipc e in (e, raised r)
    end.
  (** the engine after some calls, with the exceptions they raised *)
  Inductive reached : engine -> list (option exn) -> Prop :=
  | reached_new : reached new_engine []
  | reached_call e l c e' r : reached e l -> ask c e = (e', r) -> reached e' (l ++ [r]).

  Local Notation exec := (execute tex encodable).

  Lemma execute_inv x ps old new e e' r : exec x ps old new e = (e', r) ->
    (e' = e /\ (r = Raise Assertion \/ r = Raise Encode)) \/
    (encodable x = true /\ rank (st e) = rank old /\ rank old <= rank new /\ 1 <= rank old <= 2 /\ st e' = new /\ executeid e' = S (executeid e) /\ dvifile e' = dvifile e /\ boxes e' = boxes e /\
     (r = Raise TexResult \/ exists q, r = Val q) /\
     ((rank old = 2 /\ rank new = 2 /\ page e' = S (page e) /\ input e' = input e ++ [Run x (Some (S (page e))) (S (executeid e))]) \/
      (~ (rank old = 2 /\ rank new = 2) /\ page e' = page e /\ input e' = input e ++ [Run x None (S (executeid e))]))).
  Proof.
    unfold execute. destruct (negb _) eqn:A; [intros E; injection E as <- <-; auto|]. apply negb_false_iff in A. rewrite !andb_true_iff, !Nat.leb_le, Nat.eqb_eq in A. destruct A as (((A1 & A2) & A3) & A4).
    destruct (encodable x) eqn:En; [|intros E; injection E as <- <-; auto]. cbn [negb]. intros E. right. split; [reflexivity|]. split; [lia|]. split; [lia|]. split; [lia|].
    destruct (tex _) as [ok out] in E. set (tp := (rank old =? 2) && (rank new =? 2)) in *.
    assert (exists q, (e', r) = (mkengine new (S (executeid e)) (if tp then S (page e) else page e) (dvifile e) (boxes e) (input e ++ [Run x (if tp then Some (if tp then S (page e) else page e) else None) (S (executeid e))]), q) /\ (q = Raise TexResult \/ exists v, q = Val v)) as (q & Q & Hq).
    { destruct ok; [destruct (inside _ _ _ _ _)|]; injection E as <- <-; eauto. }
    injection Q as -> ->. cbn. do 4 (split; [reflexivity|]). split; [exact Hq|]. unfold tp. destruct (Nat.eqb_spec (rank old) 2), (Nat.eqb_spec (rank new) 2); cbn [andb]; [left|right..]; repeat split; auto; lia.
  Qed.

  (** only preambles, settings and the like *)
  Definition quiet (e e' : engine) : Prop :=
    page e' = page e /\ dvifile e' = dvifile e /\ boxes e' = boxes e /\
    exists l, input e' = input e ++ l /\ typeset_in l = [] /\ markers_in l = seq (S (executeid e)) (executeid e' - executeid e) /\ executeid e <= executeid e'.
  Lemma quiet_refl e : quiet e e.
  Proof. split; [reflexivity|]. split; [reflexivity|]. split; [reflexivity|]. exists []. rewrite app_nil_r, Nat.sub_diag. auto. Qed.
  Lemma typeset_app a b : typeset_in (a ++ b) = typeset_in a ++ typeset_in b. Proof. apply flat_map_app. Qed.
  Lemma markers_app a b : markers_in (a ++ b) = markers_in a ++ markers_in b. Proof. apply flat_map_app. Qed.
  Lemma quiet_trans a b c : quiet a b -> quiet b c -> quiet a c.
  Proof.
    intros (A1 & A2 & A3 & l & A4 & A5 & A6 & A7) (B1 & B2 & B3 & l' & B4 & B5 & B6 & B7). split; [congruence|]. split; [congruence|]. split; [congruence|].
    exists (l ++ l'). rewrite B4, A4, app_assoc. split; [reflexivity|]. rewrite typeset_app, markers_app, A5, B5, A6, B6. split; [reflexivity|]. split; [|lia].
    replace (executeid c - executeid a) with ((executeid b - executeid a) + (executeid c - executeid b)) by lia. rewrite seq_app. do 2 f_equal. lia.
  Qed.
  Lemma quiet_state t e : quiet e (set_state t e). Proof. exact (quiet_refl e). Qed.

  Lemma execute_quiet x ps old new e e' r : exec x ps old new e = (e', r) -> ~ (rank old = 2 /\ rank new = 2) -> quiet e e'.
  Proof.
    intros E N. destruct (execute_inv _ _ _ _ _ _ _ E) as [(-> & _)|(_ & _ & _ & _ & _ & I & D & B & _ & [(N1 & N2 & _)|(_ & P & J)])]; [apply quiet_refl|tauto|].
    split; [exact P|]. split; [exact D|]. split; [exact B|]. exists [Run x None (S (executeid e))]. rewrite I. replace (S (executeid e) - executeid e) with 1 by lia. repeat split; auto.
  Qed.
  Lemma executes_quiet l : forall e e' r, executes tex encodable l e = (e', r) -> quiet e e'.
  Proof.
    induction l as [|(x, ps) l IH]; intros e e' r; cbn; [intros E; injection E as <- <-; apply quiet_refl|]. destruct (exec x ps Preamble Preamble e) as [e1 [v|x1]] eqn:E1; intros E.
    - eapply quiet_trans; [eapply execute_quiet; [exact E1|cbn; lia]|eapply IH; exact E].
    - injection E as <- <-. eapply execute_quiet; [exact E1|cbn; lia].
  Qed.
  Lemma executes_state l : forall e e' r, executes tex encodable l e = (e', r) -> st e = Preamble -> st e' = Preamble.
  Proof.
    induction l as [|(x, ps) l IH]; intros e e' r; cbn; [intros E; injection E as <- <-; auto|]. destruct (exec x ps Preamble Preamble e) as [e1 [v|x1]] eqn:E1; intros E S0;
      (assert (st e1 = Preamble) as S1 by (destruct (execute_inv _ _ _ _ _ _ _ E1) as [(-> & _)|(_ & _ & _ & _ & S1 & _)]; assumption)); [exact (IH _ _ _ E S1)|injection E as <- <-; exact S1].
  Qed.
  Lemma started_quiet e e' r : started tex encodable k e = (e', r) -> quiet e e' /\ (st e' = st e \/ st e = Start /\ st e' = Preamble) /\ (r = Val tt -> st e' <> Start).
  Proof.
    unfold started, do_start. destruct (st e) eqn:S0; cbn; intros E.
    - pose proof (executes_state _ _ _ _ E eq_refl) as S1. split; [|split; [right; split; [reflexivity|exact S1]|rewrite S1; discriminate]]. eapply quiet_trans; [apply (quiet_state Preamble)|eapply executes_quiet; exact E].
    - injection E as <- <-. rewrite S0. split; [apply quiet_refl|split; [auto|discriminate]].
    - injection E as <- <-. rewrite S0. split; [apply quiet_refl|split; [auto|discriminate]].
    - injection E as <- <-. rewrite S0. split; [apply quiet_refl|split; [auto|discriminate]].
  Qed.
  Lemma go_typeset_quiet e e' r : go_typeset tex encodable k e = (e', r) -> quiet e e' /\ (st e' = st e \/ st e = Preamble /\ st e' = Typeset) /\ (r = Val tt -> st e' = Typeset).
  Proof.
    unfold go_typeset. destruct (begin k) as [(x, ps)|].
    - destruct (exec x ps Preamble Typeset e) as [e1 [v|x1]] eqn:E1; intros E; injection E as <- <-; (split; [eapply execute_quiet; [exact E1|cbn; lia]|]);
        (destruct (execute_inv _ _ _ _ _ _ _ E1) as [(-> & Q)|(_ & R & _ & _ & S1 & _)]; [split; [auto|destruct Q; discriminate]|split; [right; split; [destruct (st e); cbn in R; auto; lia|exact S1]|auto]]).
    - destruct (Nat.eqb_spec (rank (st e)) 1) as [R|R]; intros E; injection E as <- <-.
      + split; [apply quiet_state|]. split; [right; destruct (st e); cbn in R; auto; lia|reflexivity].
      + split; [apply quiet_refl|]. split; [auto|discriminate].
  Qed.

  (** ** The numbers *)
  Definition numbered (e : engine) : Prop := markers_in (input e) = seq 1 (executeid e) /\ map fst (typeset_in (input e)) = seq 1 (page e).
  Lemma quiet_numbered e e' : quiet e e' -> numbered e -> numbered e'.
  Proof.
    intros (P & _ & _ & l & I & T & M & L) (N1 & N2). unfold numbered. rewrite I, typeset_app, markers_app, T, app_nil_r, P, N1, M. split; [|exact N2].
    replace (executeid e') with (executeid e + (executeid e' - executeid e)) at 2 by lia. rewrite seq_app. reflexivity.
  Qed.
  Lemma typeset_numbered x ps e e' r : exec x ps Typeset Typeset e = (e', r) -> numbered e -> numbered e'.
  Proof.
    intros E N. destruct (execute_inv _ _ _ _ _ _ _ E) as [(-> & _)|(_ & _ & _ & _ & _ & I & D & B & _ & [(_ & _ & P & J)|(Q & _)])]; [exact N| |cbn in Q; tauto].
    destruct N as (N1 & N2). unfold numbered. rewrite J, typeset_app, markers_app, map_app, N1, N2, I, P, (seq_S (executeid e)), (seq_S (page e)). split; reflexivity.
  Qed.
  Lemma set_dvi_same e d : dvifile e = d -> set_dvi d e = e.
  Proof. destruct e; cbn. intros ->. reflexivity. Qed.
  Lemma readpage_inv p e e' r : readpage pages p e = (e', r) -> (exists d, e' = set_dvi d e) /\ (forall q, r = Val (Some q) -> p = None \/ p = Some q) /\ (r = Val None -> st e = Done) /\ (forall x, r = Raise x -> x <> TexResult).
  Proof.
    unfold readpage. destruct (dvifile e) as [[n|]|] eqn:D.
    - destruct (nth_error _ n) as [q|].
      + destruct p as [p|].
        * destruct (Nat.eqb_spec q p) as [->|]; intros E; injection E as <- <-.
          -- split; [eexists; reflexivity|]. split; [intros q Q; injection Q as <-; auto|]. split; discriminate.
          -- split; [exists (Some (At n)); symmetry; apply set_dvi_same, D|]. split; [discriminate|]. split; [discriminate|]. intros x Q. injection Q as <-. discriminate.
        * intros E; injection E as <- <-. split; [eexists; reflexivity|]. split; [auto|]. split; discriminate.
      + destruct (Nat.eqb_spec (rank (st e)) 3) as [R|]; intros E; injection E as <- <-.
        * split; [eexists; reflexivity|]. split; [discriminate|]. split; [|discriminate]. destruct (st e); cbn in R; auto; lia.
        * split; [exists (Some (At n)); symmetry; apply set_dvi_same, D|]. split; [discriminate|]. split; [discriminate|]. intros x Q. injection Q as <-. discriminate.
    - intros E; injection E as <- <-. split; [exists (Some Closed); symmetry; apply set_dvi_same, D|]. split; [discriminate|]. split; [discriminate|]. intros x Q. injection Q as <-. discriminate.
    - intros E; injection E as <- <-. split; [exists None; symmetry; apply set_dvi_same, D|]. split; [discriminate|]. split; [discriminate|]. intros x Q. injection Q as <-. discriminate.
  Qed.

  (** reading changes the boxes and the dvi file only *)
  Definition reads (e e' : engine) : Prop := st e' = st e /\ executeid e' = executeid e /\ page e' = page e /\ input e' = input e.
  Lemma reads_refl e : reads e e. Proof. repeat split. Qed.
  Lemma reads_trans a b c : reads a b -> reads b c -> reads a c. Proof. unfold reads. intuition congruence. Qed.
  Lemma readpage_reads p e e' r : readpage pages p e = (e', r) -> reads e e' /\ boxes e' = boxes e.
  Proof. intros E. destruct (readpage_inv _ _ _ _ E) as ((d & ->) & _). repeat split. Qed.
  Lemma readboxes_reads l : forall done p e e' r, readboxes pages l done p e = (e', r) -> reads e e' /\ (forall x, r = Raise x -> x <> TexResult).
  Proof.
    induction l as [|b l IH]; intros done p e e' r; cbn; [intros E; injection E as <- <-; split; [apply reads_refl|discriminate]|].
    destruct (readpage pages (Some p) e) as [e1 [q|x]] eqn:E1; destruct (readpage_reads _ _ _ _ E1) as [R1 _]; intros E.
    - destruct (IH _ _ _ _ _ E) as [R2 X2]. split; [eapply reads_trans; [exact R1|exact R2]|exact X2].
    - injection E as <- <-. split; [exact R1|]. intros x' Q. injection Q as <-. eapply readpage_inv; [exact E1|reflexivity].
  Qed.
  Lemma reads_numbered e e' : reads e e' -> numbered e -> numbered e'.
  Proof. intros (_ & I & P & J). unfold numbered. rewrite I, P, J. auto. Qed.

  (** the end *)
  Lemma execute_end_inv x ps e e' r : execute_end tex x ps e = (e', r) ->
    (e' = e /\ r = Raise Assertion) \/
    (st e = Typeset /\ e' = mkengine Done (executeid e) (page e) (dvifile e) (boxes e) (input e ++ [Quit x]) /\ (r = Val tt \/ r = Raise TexResult)).
  Proof.
    unfold execute_end. destruct (Nat.eqb_spec (rank (st e)) 2) as [R|]; cbn [negb]; [|intros E; injection E as <- <-; auto]. destruct (tex _) as [ok out]. intros E. right.
    split; [destruct (st e); cbn in R; auto; lia|]. destruct (ok && at_end _ _ _); injection E as <- <-; auto.
  Qed.
  Lemma quit_numbered e x : numbered e -> numbered (mkengine Done (executeid e) (page e) (dvifile e) (boxes e) (input e ++ [Quit x])).
  Proof. intros (N1 & N2). unfold numbered. cbn. rewrite typeset_app, markers_app. cbn. rewrite !app_nil_r. auto. Qed.

  Lemma finish_numbered e e' r : do_finish tex pages encodable k texipc e = (e', r) -> numbered e -> numbered e'.
  Proof.
    unfold do_finish. destruct (rank (st e) =? 3); [intros E; injection E as <- <-; auto|].
    destruct (if rank (st e) <? 2 then _ else _) as [e1 r1] eqn:E1. assert (quiet e e1) as Q1 by (destruct (rank (st e) <? 2); [exact (proj1 (go_typeset_quiet _ _ _ E1))|injection E1 as <- <-; apply quiet_refl]).
    destruct r1 as [u|x]; [|intros E N; injection E as <- <-; exact (quiet_numbered _ _ Q1 N)].
    destruct (execute_end _ _ _ e1) as [e2 r2] eqn:E2. assert (numbered e1 -> numbered e2) as Q2 by (destruct (execute_end_inv _ _ _ _ _ E2) as [(-> & _)|(_ & -> & _)]; [auto|apply quit_numbered]).
    destruct r2 as [u2|x]; [|intros E N; injection E as <- <-; exact (Q2 (quiet_numbered _ _ Q1 N))].
    destruct (if negb texipc && _ then _ else _) as [e3 r3] eqn:E3. assert (reads e2 e3) as Q3.
    { destruct (negb texipc && _); [exact (proj1 (readboxes_reads _ _ _ _ _ _ E3))|injection E3 as <- <-; apply reads_refl]. }
    intros E N. specialize (Q2 (quiet_numbered _ _ Q1 N)). apply (reads_numbered _ _ Q3) in Q2. destruct r3 as [u3|x]; [|injection E as <- <-; exact Q2].
    destruct (dvifile e3); [|injection E as <- <-; exact Q2]. destruct (readpage pages None e3) as [e4 [[q|]|x]] eqn:E4; injection E as <- <-; exact (reads_numbered _ _ (proj1 (readpage_reads _ _ _ _ E4)) Q2).
  Qed.
  Lemma typeset_step_numbered x ps e e' r : do_typeset tex encodable k x ps e = (e', r) -> numbered e -> numbered e'.
  Proof.
    unfold do_typeset. destruct (started tex encodable k e) as [e1 [u|y]] eqn:E1; destruct (started_quiet _ _ _ E1) as (Q1 & _); intros E N; apply (quiet_numbered _ _ Q1) in N; [|injection E as <- <-; exact N].
    destruct (if rank (st e1) <? 2 then _ else _) as [e2 r2] eqn:E2 in E. assert (quiet e1 e2) as Q2 by (destruct (rank (st e1) <? 2); [exact (proj1 (go_typeset_quiet _ _ _ E2))|injection E2 as <- <-; apply quiet_refl]).
    apply (quiet_numbered _ _ Q2) in N. destruct r2; [exact (typeset_numbered _ _ _ _ _ E N)|injection E as <- <-; exact N].
  Qed.

  (** Whatever the interpreter answers, the markers and the pages are numbered from 1 in the order of the input. *)
  Theorem engine_numbers e l : reached e l -> markers_in (input e) = seq 1 (executeid e) /\ map fst (typeset_in (input e)) = seq 1 (page e).
  Proof.
    intros R. change (numbered e). induction R as [|e l c e' r _ IH A]; [split; reflexivity|]. destruct c as [x ps|x ps|i|]; cbn [ask] in A.
    - destruct (do_preamble _ _ _ _ _ e) as [e1 r1] eqn:E. injection A as <- _. unfold do_preamble in E. destruct (started tex encodable k e) as [e2 [u|y]] eqn:E2; destruct (started_quiet _ _ _ E2) as (Q2 & _); apply (quiet_numbered _ _ Q2) in IH; [|injection E as <- <-; exact IH].
      destruct (exec x ps Preamble Preamble e2) as [e3 [v|y]] eqn:E3; injection E as <- <-; (eapply quiet_numbered; [eapply execute_quiet; [exact E3|cbn; lia]|exact IH]).
    - destruct (text_pt _ _ _ _ _ _ _ e) as [e1 r1] eqn:E. injection A as <- _. unfold text_pt in E. destruct (rank (st e) =? 3); [injection E as <- <-; exact IH|].
      destruct (do_typeset tex encodable k x ps e) as [e2 [v|y]] eqn:E2; apply (typeset_step_numbered _ _ _ _ _ E2) in IH; [|injection E as <- <-; exact IH].
      destruct texipc; [|injection E as <- <-; exact IH]. destruct (readpage pages _ _) as [e3 [q|y]] eqn:E3; destruct (readpage_reads _ _ _ _ E3) as (Q3 & _); injection E as <- <-;
        (apply (reads_numbered _ _ Q3); destruct (rank (st e) <? 2); exact IH).
    - destruct (dvicanvas _ _ _ _ _ i e) as [e1 r1] eqn:E. injection A as <- _. unfold dvicanvas in E. destruct (match nth_error (boxes e) i with Some b => b_page b | None => None end); [injection E as <- <-; exact IH|].
      destruct (do_finish _ _ _ _ _ e) as [e2 [v|y]] eqn:E2; apply (finish_numbered _ _ _ E2) in IH; injection E as <- <-; exact IH.
    - destruct (do_finish _ _ _ _ _ e) as [e2 r2] eqn:E2. injection A as <- _. exact (finish_numbered _ _ _ E2 IH).
  Qed.
End Calls.
Print Assumptions engine_numbers.
