(** * The TeX engines: texipc, preambles, restarts, the answers of the interpreter, and what goes wrong *)
From Coq Require Import ZArith QArith Arith Bool Ascii String List Lia.
From Verif Require Import TexMsgModel TexEngineModel TexEngineProps TexEngineProps2.
Import ListNotations.
Open Scope nat_scope.
Open Scope list_scope.

Section More.
  Variable tex : list command -> bool * str.
  Variable pages : list command -> list nat.
  Variable encodable : str -> bool.
  Variable k : kind.
  Local Notation exec := (execute tex encodable).

  (** ** texipc *)
  Definition own (e : engine) : Prop := forall b, In b (boxes e) -> exists p, b_page b = Some p /\ In (p, b_expr b) (typeset_in (input e)).
  Definition grows (e e' : engine) : Prop := boxes e' = boxes e /\ exists l, input e' = input e ++ l.
  Lemma grows_own e e' : grows e e' -> own e -> own e'.
  Proof. intros (B & l & I) O b H. rewrite B in H. destruct (O b H) as (p & P & J). exists p. split; [exact P|]. rewrite I, typeset_app. apply in_app_iff. auto. Qed.
  Lemma grows_refl e : grows e e. Proof. split; [reflexivity|]. exists []. symmetry. apply app_nil_r. Qed.
  Lemma grows_trans a b c : grows a b -> grows b c -> grows a c.
  Proof. intros (B & l & I) (B' & l' & I'). split; [congruence|]. exists (l ++ l'). rewrite I', I, app_assoc. reflexivity. Qed.
  Lemma quiet_grows e e' : quiet e e' -> grows e e'.
  Proof. intros (_ & _ & B & l & I & _). split; [exact B|]. exists l. exact I. Qed.
  Lemma finish_grows e e' r : do_finish tex pages encodable k true e = (e', r) -> grows e e'.
  Proof.
    unfold do_finish. destruct (rank (st e) =? 3); [intros E; injection E as <- <-; apply grows_refl|].
    destruct (if rank (st e) <? 2 then _ else _) as [e1 r1] eqn:E1. assert (grows e e1) as Q1 by (apply quiet_grows; destruct (rank (st e) <? 2); [exact (proj1 (go_typeset_quiet _ _ _ _ _ _ E1))|injection E1 as <- <-; apply quiet_refl]).
    destruct r1 as [u|x]; [|intros E; injection E as <- <-; exact Q1]. destruct (execute_end _ _ _ e1) as [e2 r2] eqn:E2.
    assert (grows e e2) as Q2. { apply (grows_trans _ _ _ Q1). destruct (execute_end_inv _ _ _ _ _ _ E2) as [(-> & _)|(_ & -> & _)]; [apply grows_refl|]. split; [reflexivity|]. eexists. reflexivity. }
    destruct r2 as [u2|x]; [|intros E; injection E as <- <-; exact Q2]. cbn [negb andb]. destruct (dvifile e2); [|intros E; injection E as <- <-; exact Q2].
    destruct (readpage pages None e2) as [e4 r4] eqn:E4. destruct (readpage_inv _ _ _ _ _ E4) as ((d' & ->) & _). destruct r4 as [[q|]|x]; intros E; injection E as <- <-; exact Q2.
  Qed.

  (** With texipc, whatever the interpreter does and whatever was raised before, each box shows the page typeset for it. *)
  Theorem ipc_texts_shown e l b : reached tex pages encodable k true e l -> In b (boxes e) -> exists p, b_page b = Some p /\ In (p, b_expr b) (typeset_in (input e)).
  Proof.
    intros R. revert b. change (own e). induction R as [|e l c e' r R IH A]; [intros b []|].
    destruct c as [x ps|x ps|i|]; cbn [ask] in A.
    - destruct (do_preamble _ _ _ _ _ e) as [e1 r1] eqn:E. injection A as <- _. apply (grows_own e); [|exact IH]. apply quiet_grows. unfold do_preamble in E. destruct (started tex encodable k e) as [e2 [u|y]] eqn:E2; destruct (started_quiet _ _ _ _ _ _ E2) as (Q2 & _); [|injection E as <- <-; exact Q2].
      destruct (exec x ps Preamble Preamble e2) as [e3 [v|y]] eqn:E3; injection E as <- <-; (eapply quiet_trans; [exact Q2|eapply execute_quiet; [exact E3|cbn; lia]]).
    - destruct (text_pt _ _ _ _ _ _ _ e) as [e1 r1] eqn:E. injection A as <- _. unfold text_pt in E. destruct (rank (st e) =? 3); [injection E as <- <-; exact IH|].
      unfold do_typeset in E. destruct (started tex encodable k e) as [e2 [u|y]] eqn:E2; destruct (started_quiet _ _ _ _ _ _ E2) as (Q2 & _); apply quiet_grows in Q2; [|injection E as <- <-; exact (grows_own _ _ Q2 IH)].
      destruct (if rank (st e2) <? 2 then _ else _) as [e3 r3] eqn:E3. assert (grows e e3) as Q3.
      { apply (grows_trans _ _ _ Q2). apply quiet_grows. destruct (rank (st e2) <? 2); [exact (proj1 (go_typeset_quiet _ _ _ _ _ _ E3))|injection E3 as <- <-; apply quiet_refl]. }
      destruct r3 as [u3|y]; [|injection E as <- <-; exact (grows_own _ _ Q3 IH)].
      destruct (exec x ps Typeset Typeset e3) as [e4 r4] eqn:E4. destruct (execute_inv _ _ _ _ _ _ _ _ _ E4) as [(-> & [-> | ->])|(_ & _ & _ & _ & S4 & _ & D4 & B4 & [-> |(q & ->)] & [(_ & _ & P & J)|(Q & _)])]; try (cbn in Q; tauto).
      + injection E as <- <-. exact (grows_own _ _ Q3 IH).
      + injection E as <- <-. exact (grows_own _ _ Q3 IH).
      + injection E as <- <-. apply (grows_own _ _ Q3) in IH. apply (grows_own e3); [|exact IH]. split; [exact B4|]. eexists. exact J.
      + set (e5 := if rank (st e) <? 2 then set_dvi (Some (At 0)) e4 else e4) in E. assert (boxes e5 = boxes e3 /\ input e5 = input e4 /\ page e5 = page e4 /\ st e5 = Typeset) as (B5 & I5 & P5 & S5) by (unfold e5; destruct (rank (st e) <? 2); cbn; auto).
        destruct (readpage pages (Some (page e5)) e5) as [e6 r6] eqn:E6. destruct (readpage_inv _ _ _ _ _ E6) as ((d & ->) & V6 & N6 & _).
        assert (grows e3 (set_dvi d e5)) as Q6. { split; [exact B5|]. cbn. rewrite I5, J. eexists. reflexivity. }
        apply (grows_own _ _ Q3) in IH. apply (grows_own _ _ Q6) in IH. destruct r6 as [[q6|]|y]; injection E as <- <-.
        * intros b Hb. cbn [boxes set_boxes] in Hb. apply in_app_iff in Hb. destruct Hb as [Hb|[<-|[]]]; [exact (IH b Hb)|]. exists q6. split; [reflexivity|]. destruct (V6 q6 eq_refl) as [Q|Q]; [discriminate|]. injection Q as <-. cbn. rewrite I5, J, P5, P, typeset_app. apply in_app_iff. right. left. reflexivity.
        * specialize (N6 eq_refl). congruence.
        * exact IH.
    - destruct (dvicanvas _ _ _ _ _ i e) as [e1 r1] eqn:E. injection A as <- _. unfold dvicanvas in E. destruct (match nth_error (boxes e) i with Some b => b_page b | None => None end); [injection E as <- <-; exact IH|].
      destruct (do_finish _ _ _ _ _ e) as [e2 [v|y]] eqn:E2; injection E as <- <-; exact (grows_own _ _ (finish_grows _ _ _ E2) IH).
    - destruct (do_finish _ _ _ _ _ e) as [e2 r2] eqn:E2. injection A as <- _. exact (grows_own _ _ (finish_grows _ _ _ E2) IH).
  Qed.

  (** ** Preambles *)
  (** After a text, preambles are refused, and nothing is written to the interpreter. *)
  Theorem late_preamble_refused e l x ps : ships pages -> reached tex pages encodable k false e l -> ~ In (Some TexResult) l -> boxes e <> [] -> do_preamble tex encodable k x ps e = (e, Raise Assertion).
  Proof.
    intros Sh R N B. destruct (reached_kept _ _ _ _ Sh _ _ R N) as (_ & K2 & _). specialize (K2 B). unfold do_preamble, started. destruct (Nat.ltb_spec (rank (st e)) 1); [lia|].
    unfold execute. cbn [rank]. destruct (Nat.eqb_spec 1 (rank (st e))); [lia|]. reflexivity.
  Qed.

  (** ** Restarts *)
  Definition expr_of (c : command) : str := match c with Run x _ _ => x | Quit x => x end.
  Definition exprs (e : engine) : list str := map expr_of (input e).
  Lemma execute_exprs x ps old new e e' q : exec x ps old new e = (e', Val q) -> exprs e' = exprs e ++ [x] /\ st e' = new /\ boxes e' = boxes e.
  Proof.
    intros E. destruct (execute_inv _ _ _ _ _ _ _ _ _ E) as [(_ & [Q|Q])|(_ & _ & _ & _ & S1 & _ & _ & B & _ & I)]; try discriminate. split; [|split; assumption].
    unfold exprs. destruct I as [(_ & _ & _ & ->)|(_ & _ & ->)]; apply map_app.
  Qed.
  Lemma executes_exprs l : forall e e' u, executes tex encodable l e = (e', Val u) -> st e = Preamble -> exprs e' = exprs e ++ map fst l /\ st e' = Preamble /\ boxes e' = boxes e.
  Proof.
    induction l as [|(x, ps) l IH]; intros e e' u; cbn; [intros E S0; injection E as <- <-; rewrite app_nil_r; auto|]. destruct (exec x ps Preamble Preamble e) as [e1 [v|x1]] eqn:E1; [|discriminate]. intros E S0.
    destruct (execute_exprs _ _ _ _ _ _ _ E1) as (X1 & S1 & B1). destruct (IH _ _ _ E S1) as (X2 & S2 & B2). split; [rewrite X2, X1, <- app_assoc; reflexivity|]. split; congruence.
  Qed.
  (** what is still to be done at the beginning *)
  Definition todo (e : engine) : list str := match st e with Start => map fst (setup k) | _ => [] end.
  Lemma started_exprs e e' u : started tex encodable k e = (e', Val u) -> exprs e' = exprs e ++ todo e /\ (st e = Start -> st e' = Preamble) /\ (st e <> Start -> st e' = st e) /\ boxes e' = boxes e.
  Proof.
    unfold started, do_start, todo. destruct (st e) eqn:S0; cbn; intros E.
    - destruct (executes_exprs _ _ _ _ E eq_refl) as (X & S1 & B). split; [exact X|]. split; [auto|]. split; [congruence|exact B].
    - injection E as <- <-. rewrite app_nil_r. split; [reflexivity|]. split; [congruence|]. split; [auto|reflexivity].
    - injection E as <- <-. rewrite app_nil_r. split; [reflexivity|]. split; [congruence|]. split; [auto|reflexivity].
    - injection E as <- <-. rewrite app_nil_r. split; [reflexivity|]. split; [congruence|]. split; [auto|reflexivity].
  Qed.
  Lemma replay_exprs l : forall e e' u, replay tex encodable k l e = (e', Val u) -> st e = Start \/ st e = Preamble -> boxes e' = boxes e /\ (st e' = Start \/ st e' = Preamble) /\ exprs e' ++ todo e' = exprs e ++ todo e ++ map fst l.
  Proof.
    induction l as [|(x, ps) l IH]; intros e e' u; cbn; [intros E S0; injection E as <- <-; rewrite app_nil_r; auto|]. unfold do_preamble. destruct (started tex encodable k e) as [e1 [v|x1]] eqn:E1; [|discriminate].
    destruct (started_exprs _ _ _ E1) as (X1 & P1 & P2 & B1). destruct (exec x ps Preamble Preamble e1) as [e2 [v2|x2]] eqn:E2; [|discriminate]. intros E S0.
    destruct (execute_exprs _ _ _ _ _ _ _ E2) as (X2 & S2 & B2). destruct (IH _ _ _ E (or_intror S2)) as (B3 & S3 & X3). split; [congruence|]. split; [exact S3|]. rewrite X3, X2, X1. unfold todo at 2. rewrite S2. cbn [app]. rewrite <- !app_assoc. reflexivity.
  Qed.

  (** A text after the end: a new interpreter gets the setup, all preambles in their order, and the text, on its first page. *)
  Theorem restarted x ps texipc m m' i : st (instance m) = Done -> multi_text tex pages encodable k texipc x ps m = (m', Val i) ->
    i = 0 /\ preambles m' = preambles m /\ map b_expr (boxes (instance m')) = [x] /\
    map expr_of (input (instance m')) = map fst (setup k) ++ map fst (preambles m) ++ match begin k with None => [] | Some (y, _) => [y] end ++ [x].
  Proof.
    intros D. unfold multi_text. replace (text_pt tex pages encodable k texipc x ps (instance m)) with (instance m, @Raise nat TexDone) by (unfold text_pt; rewrite D; reflexivity).
    destruct (replay tex encodable k (preambles m) new_engine) as [e1 [u|y]] eqn:E1; [|discriminate]. destruct (replay_exprs _ _ _ _ E1 (or_introl eq_refl)) as (B1 & S1 & X1).
    destruct (text_pt tex pages encodable k texipc x ps e1) as [e' r] eqn:E. intros Q. injection Q as <- ->. cbn [preambles instance].
    unfold text_pt in E. destruct (rank (st e1) =? 3) eqn:R3; [discriminate|]. unfold do_typeset in E. destruct (started tex encodable k e1) as [e2 [u2|y2]] eqn:E2; [|discriminate]. destruct (started_exprs _ _ _ E2) as (X2 & P1 & P2 & B2).
    assert (st e2 = Preamble) as S2 by (destruct S1 as [S1|S1]; [auto|rewrite P2; congruence]). rewrite S2 in E. change (rank Preamble <? 2) with true in E. cbv iota in E.
    destruct (go_typeset tex encodable k e2) as [e3 [u3|y3]] eqn:E3; [|discriminate]. assert (exprs e3 = exprs e2 ++ match begin k with None => [] | Some (y, _) => [y] end /\ boxes e3 = boxes e2) as (X3 & B3).
    { unfold go_typeset in E3. destruct (begin k) as [(y, psy)|].
      - destruct (exec y psy Preamble Typeset e2) as [e4 [v4|y4]] eqn:E4; [|discriminate]. injection E3 as <- _. destruct (execute_exprs _ _ _ _ _ _ _ E4) as (X4 & _ & B4). auto.
      - rewrite S2 in E3. cbn in E3. injection E3 as <- _. rewrite app_nil_r. split; reflexivity. }
    destruct (exec x ps Typeset Typeset e3) as [e4 [v4|y4]] eqn:E4; [|discriminate]. destruct (execute_exprs _ _ _ _ _ _ _ E4) as (X4 & _ & B4). assert (boxes e4 = []) as B5 by (rewrite B4, B3, B2, B1; reflexivity).
    assert (exprs e4 = map fst (setup k) ++ map fst (preambles m) ++ match begin k with None => [] | Some (y, _) => [y] end ++ [x]) as X5 by (rewrite X4, X3, X2, X1; cbn; rewrite <- !app_assoc; reflexivity).
    destruct texipc.
    - cbn zeta in E. set (e5 := if rank (st e1) <? 2 then set_dvi (Some (At 0)) e4 else e4) in E. assert (boxes e5 = [] /\ input e5 = input e4) as (B6 & I6) by (unfold e5; destruct (rank (st e1) <? 2); auto).
      destruct (readpage pages (Some (page e5)) e5) as [e6 [q|y]] eqn:E6; [|discriminate]. destruct (readpage_inv _ _ _ _ _ E6) as ((d & ->) & _). cbn [boxes set_dvi] in E. rewrite B6 in E. injection E as <- <-. split; [reflexivity|]. split; [reflexivity|]. split; [reflexivity|]. cbn [input set_boxes set_dvi]. rewrite I6. exact X5.
    - rewrite B5 in E. injection E as <- <-. split; [reflexivity|]. split; [reflexivity|]. split; [reflexivity|]. exact X5.
  Qed.
End More.
Print Assumptions ipc_texts_shown.
Print Assumptions late_preamble_refused.
Print Assumptions restarted.

(** ** An interpreter *)
(** it typesets everything, ships out the pages, and complains about \bad *)
Definition lines (l : list str) : str := flat_map (fun x => x ++ [nl]) l.
Definition nice (ending : str) (inp : list command) : bool * str :=
  match last inp (Quit []) with
  | Run x p id =>
      (true, lines ((if str_eqb x (s "\bad") then [s "! Undefined control sequence."] else []) ++
                    match p with Some p => [s "PyXBox:page=" ++ number p ++ s ",lt=0.0pt,rt=5.0pt,ht=6.5pt,dp=1.25pt:"; s "[80.121.88." ++ number p ++ s "]"] | None => [] end ++
                    [s "PyXInputMarker:executeid=" ++ number id ++ s ":"]))
  | Quit _ => (true, lines [ending])
  end.
Definition all_pages (inp : list command) : list nat := map fst (typeset_in inp).
Definition plain : kind := mkkind [(s "\setup", [])] None (s "\end", []).
Definition two_pages : str := s "Output written on texput.dvi (2 pages, 300 bytes).".
Definition any (x : str) : bool := true.
Lemma all_shipped : ships all_pages. Proof. intros inp. reflexivity. Qed.

Fixpoint asks (tex : list command -> bool * str) (texipc : bool) (cs : list call) (e : engine) : engine * list (option exn) :=
  match cs with
  | [] => (e, [])
  | c :: cs => let '(e, r) := ask tex all_pages any plain texipc c e in let '(e, l) := asks tex texipc cs e in (e, r :: l)
  end.
Lemma asks_reached tex texipc cs : forall e l, reached tex all_pages any plain texipc e l -> reached tex all_pages any plain texipc (fst (asks tex texipc cs e)) (l ++ snd (asks tex texipc cs e)).
Proof.
  induction cs as [|c cs IH]; intros e l R; cbn; [rewrite app_nil_r; exact R|]. destruct (ask tex all_pages any plain texipc c e) as [e1 r] eqn:E. specialize (IH _ _ (reached_call _ _ _ _ _ _ _ _ _ _ R E)).
  destruct (asks tex texipc cs e1) as [e2 l2]. cbn in *. rewrite <- app_assoc in IH. exact IH.
Qed.

Example texts_shown_ex : let '(e, l) := asks (nice two_pages) false [CPreamble (s "\def\a{A}") []; CText (s "\a") []; CText (s "b") []; CCanvas 1] new_engine in
  l = [None; None; None; None] /\ map b_page (boxes e) = [Some 1; Some 2] /\ typeset_in (input e) = [(1, s "\a"); (2, s "b")] /\ st e = Done.
Proof. vm_compute. repeat split. Qed.
Example ipc_texts_shown_ex : let '(e, l) := asks (nice two_pages) true [CText (s "a") []; CText (s "\bad") []; CText (s "b") []; CFinish] new_engine in
  l = [None; Some TexResult; Some InvalidPage; Some TexResult] /\ map b_page (boxes e) = [Some 1] /\ map b_expr (boxes e) = [s "a"].
Proof. vm_compute. repeat split. Qed.
Example late_preamble_refused_ex : let '(e, l) := asks (nice two_pages) false [CText (s "a") []; CPreamble (s "\def\b{B}") []] new_engine in l = [None; Some Assertion] /\ length (input e) = 2.
Proof. vm_compute. repeat split. Qed.
Example engine_numbers_ex : let '(e, l) := asks (nice two_pages) false [CPreamble (s "x") []; CText (s "\bad") []; CText (s "b") []] new_engine in
  l = [None; Some TexResult; None] /\ markers_in (input e) = [1; 2; 3; 4] /\ typeset_in (input e) = [(1, s "\bad"); (2, s "b")].
Proof. vm_compute. repeat split. Qed.

(** ** What goes wrong *)
(** After a text with an error, which the user may well catch, the next boxes show the wrong texts: the pages of the boxes are
    counted from 1 in do_finish (l.1244-1247), but the page of the failed text is in the dvi file too. *)
Theorem wrong_text_refuted : exists tex cs e l b, reached tex all_pages any plain false e l /\ asks tex false cs new_engine = (e, l) /\
  l = [Some TexResult; None; Some FurtherPages; None] /\ boxes e = [b] /\ b_expr b = s "good" /\ b_page b = Some 1 /\ typeset_in (input e) = [(1, s "\bad"); (2, s "good")].
Proof.
  pose (cs := [CText (s "\bad") []; CText (s "good") []; CCanvas 0; CCanvas 0]). exists (nice two_pages), cs. exists (fst (asks (nice two_pages) false cs new_engine)), (snd (asks (nice two_pages) false cs new_engine)).
  eexists. split; [exact (asks_reached (nice two_pages) false cs _ _ (reached_new _ _ _ _ _))|]. split; [apply surjective_pairing|]. vm_compute. repeat split.
Qed.
Print Assumptions wrong_text_refuted.

(** With texipc and an error in the very first text, no text can be typeset any more: the dvi file is opened only after a text
    which was the first one (l.1304-1307). *)
Theorem ipc_first_error_refuted : let '(e, l) := asks (nice two_pages) true [CText (s "\bad") []; CText (s "a") []; CText (s "b") []] new_engine in
  l = [Some TexResult; Some NoFile; Some NoFile] /\ boxes e = [].
Proof. vm_compute. repeat split. Qed.
Print Assumptions ipc_first_error_refuted.

(** If the interpreter ends with an unexpected message, the engine is done, but the boxes are not read: asking for a canvas
    again gives None, and the text is lost. *)
Theorem lost_text_refuted : let '(e, l) := asks (nice (s "Output written on texput.dvi (1 page, 200 bytes). Be careful!")) false [CText (s "a") []; CCanvas 0; CCanvas 0] new_engine in
  l = [None; Some TexResult; None] /\ map b_page (boxes e) = [None] /\ st e = Done.
Proof. vm_compute. repeat split. Qed.
Print Assumptions lost_text_refuted.

(** A preamble which is refused is executed after a restart, since MultiEngine notes it before it tries (l.1480). *)
Theorem refused_preamble_refuted :
  let mt := multi_text (nice (s "Output written on texput.dvi (1 page, 200 bytes).")) all_pages any plain false in
  let mp := multi_preamble (nice two_pages) any plain in
  let m1 := fst (mt (s "a") [] new_multi) in
  let (m2, r2) := mp (s "\def\a{A}") [] m1 in
  let m3 := mkmulti (fst (do_finish (nice (s "Output written on texput.dvi (1 page, 200 bytes).")) all_pages any plain false (instance m2))) (preambles m2) in
  let (m4, r4) := mt (s "b") [] m3 in
  r2 = Raise Assertion /\ st (instance m3) = Done /\ r4 = Val 0 /\ map expr_of (input (instance m4)) = [s "\setup"; s "\def\a{A}"; s "b"].
Proof. vm_compute. repeat split. Qed.
Print Assumptions refused_preamble_refuted.
(** (this is also an example of restarted) *)
