(** * The TeX engines: pages and restarts *)
From Coq Require Import ZArith QArith Arith Bool Ascii String List Lia.
From Verif Require Import TexMsgModel TexEngineModel TexEngineProps.
Import ListNotations.
Open Scope nat_scope.
Open Scope list_scope.

Lemma nth_seq_none a n : nth_error (seq a n) n = None.
Proof. apply nth_error_None. rewrite seq_length. lia. Qed.
Lemma nth_seq a n i : i < n -> nth_error (seq a n) i = Some (a + i).
Proof. intros H. rewrite (nth_error_nth' _ 0) by (rewrite seq_length; exact H). rewrite seq_nth by exact H. reflexivity. Qed.

Section Own.
  Variable tex : list command -> bool * str.
  Variable pages : list command -> list nat.
  Variable encodable : str -> bool.
  Variable k : kind.
  Hypothesis shipped : ships pages.
  Local Notation exec := (execute tex encodable).

  Lemma set_boxes_same e l : boxes e = l -> set_boxes l e = e.
  Proof. destruct e; cbn. intros ->. reflexivity. Qed.

  Lemma readboxes_ok l : forall done p e, p = S (length done) -> boxes e = done ++ l -> dvifile e = Some (At (length done)) -> pages (input e) = seq 1 (length done + length l) ->
    exists bs, readboxes pages l done p e = (set_dvi (Some (At (length done + length l))) (set_boxes (done ++ bs) e), Val tt) /\ map b_expr bs = map b_expr l /\
      forall i b, nth_error bs i = Some b -> b_page b = Some (S (length done) + i).
  Proof.
    induction l as [|a l IH]; intros done p e -> B D P; cbn [readboxes].
    - exists []. rewrite Nat.add_0_r. split; [rewrite set_boxes_same by exact B; rewrite set_dvi_same by exact D; reflexivity|]. split; [reflexivity|]. intros [|i] b Q; discriminate.
    - unfold readpage. rewrite D, P, nth_seq by (cbn; lia). replace (1 + length done) with (S (length done)) by lia. rewrite Nat.eqb_refl.
      set (a' := mkbox (b_expr a) (b_sizes a) (Some (S (length done)))). set (e1 := set_boxes ((done ++ [a']) ++ l) (set_dvi (Some (At (S (length done)))) e)).
      destruct (IH (done ++ [a']) (S (S (length done))) e1) as (bs & E & M & G).
      + rewrite app_length. cbn. lia.
      + reflexivity.
      + rewrite app_length, Nat.add_1_r. reflexivity.
      + change (input e1) with (input e). rewrite P, app_length. f_equal. cbn. lia.
      + exists (a' :: bs). split; [|split].
        * rewrite E. rewrite app_length. cbn [length]. replace (length done + 1 + length l) with (length done + S (length l)) by lia. rewrite <- app_assoc. reflexivity.
        * cbn. rewrite M. reflexivity.
        * intros [|i] b Q; [injection Q as <-; cbn; f_equal; lia|]. rewrite (G i b Q), app_length. cbn. f_equal. lia.
  Qed.

  Definition kept (e : engine) : Prop :=
    map snd (typeset_in (input e)) = map b_expr (boxes e) /\ (boxes e <> [] -> 2 <= rank (st e)) /\
    (st e <> Done -> dvifile e = None /\ forall b, In b (boxes e) -> b_page b = None) /\
    (st e = Done -> forall i b, nth_error (boxes e) i = Some b -> b_page b = Some (S i)).

  Lemma quiet_kept e e' : quiet e e' -> st e <> Done -> st e' <> Done -> rank (st e) <= rank (st e') -> kept e -> kept e'.
  Proof.
    intros (P & D & B & l & I & T & _) N N' R (K1 & K2 & K3 & _). unfold kept. rewrite I, typeset_app, T, app_nil_r, B, D. split; [exact K1|]. split; [intros Q; specialize (K2 Q); lia|]. split; [auto|contradiction].
  Qed.

  Lemma finish_kept e e' r : numbered e -> kept e -> st e <> Done -> do_finish tex pages encodable k false e = (e', r) ->
    (r = Val tt /\ st e' = Done /\ kept e' /\ map b_expr (boxes e') = map b_expr (boxes e)) \/ r = Raise TexResult \/ (kept e' /\ st e <> Typeset /\ r <> Val tt).
  Proof.
    intros Nu Ke ND. unfold do_finish. destruct (Nat.eqb_spec (rank (st e)) 3) as [Q|_]; [destruct (st e); cbn in Q; try lia; contradiction|].
    destruct (if rank (st e) <? 2 then _ else _) as [e1 r1] eqn:E1.
    assert (quiet e e1 /\ kept e1 /\ st e1 <> Done /\ (r1 = Val tt -> st e1 = Typeset) /\ (st e = Typeset -> r1 = Val tt)) as (Q1 & K1 & N1 & T1 & T2).
    { destruct (Nat.ltb_spec (rank (st e)) 2) as [L|L].
      - destruct (go_typeset_quiet _ _ _ _ _ _ E1) as (Q1 & [S1|(S0 & S1)] & T1).
        + split; [exact Q1|]. split; [apply (quiet_kept _ _ Q1 ND); [congruence|rewrite S1; lia|exact Ke]|]. split; [congruence|]. split; [exact T1|]. intros Q. rewrite Q in L. cbn in L. lia.
        + split; [exact Q1|]. split; [apply (quiet_kept _ _ Q1 ND); [congruence|rewrite S0, S1; cbn; lia|exact Ke]|]. split; [congruence|]. split; [exact T1|]. congruence.
      - injection E1 as <- <-. split; [apply quiet_refl|]. split; [exact Ke|]. split; [exact ND|]. split; [intros _; destruct (st e); cbn in L; auto; try lia; contradiction|reflexivity]. }
    destruct r1 as [u|x]; [|intros E; injection E as <- <-; right; right; split; [exact K1|]; split; [intros Q; specialize (T2 Q); discriminate|discriminate]].
    destruct u. specialize (T1 eq_refl). pose proof (quiet_numbered _ _ Q1 Nu) as Nu1.
    destruct (execute_end tex (fst (finish k)) (snd (finish k)) e1) as [e2 r2] eqn:E2. destruct (execute_end_inv _ _ _ _ _ _ E2) as [(-> & ->)|(_ & Ee & [-> | ->])].
    - exfalso. unfold execute_end in E2. rewrite T1 in E2. cbn in E2. destruct (tex _) as [ok out]. destruct (ok && _); discriminate.
    - pose proof (quit_numbered _ (fst (finish k)) Nu1) as Nu2. rewrite <- Ee in Nu2. assert (boxes e2 = boxes e1 /\ dvifile e2 = None /\ st e2 = Done /\ typeset_in (input e2) = typeset_in (input e1)) as (B2 & D2 & S2 & I2).
      { rewrite Ee. cbn. destruct K1 as (_ & _ & K1 & _). split; [reflexivity|]. split; [apply K1, N1|]. split; [reflexivity|]. rewrite typeset_app. cbn. apply app_nil_r. }
      destruct K1 as (K1a & K1b & K1c & _). destruct Q1 as (_ & _ & B1 & _).
      assert (page e2 = length (boxes e1)) as Pg. { destruct Nu2 as (_ & Nu2). apply (f_equal (@length nat)) in Nu2. rewrite seq_length, map_length in Nu2. rewrite <- Nu2, I2. rewrite <- (map_length snd), K1a. apply map_length. }
      cbn [negb andb]. destruct (Nat.eqb_spec (length (boxes e2)) 0) as [L0|L0]; cbn [negb].
      + rewrite D2. intros E. injection E as <- <-. left. split; [reflexivity|]. split; [exact S2|]. destruct (boxes e2) as [|b bs] eqn:Eb; [|discriminate]. rewrite <- B1, <- B2. split; [|reflexivity].
        unfold kept. rewrite I2, Eb, K1a, <- B2. split; [reflexivity|]. split; [congruence|]. split; [congruence|]. intros _ [|i] b Q; discriminate.
      + destruct (readboxes_ok (boxes e2) [] 1 (set_dvi (Some (At 0)) e2)) as (bs & R & M & G); [reflexivity..| |].
        { change (input (set_dvi (Some (At 0)) e2)) with (input e2). rewrite shipped. destruct Nu2 as (_ & ->). rewrite Pg, B2. reflexivity. }
        rewrite R. cbn [app length plus]. cbn [dvifile set_dvi]. unfold readpage. cbn [dvifile set_dvi set_boxes input st].
        rewrite shipped. destruct Nu2 as (_ & ->). rewrite Pg, B2, nth_seq_none, S2. cbn [rank Nat.eqb]. intros E. injection E as <- <-. left. unfold kept. cbn [st boxes input dvifile set_dvi set_boxes]. split; [reflexivity|]. split; [exact S2|].
        split; [|rewrite M, B2, B1; reflexivity]. rewrite I2, K1a, M, B2, S2. split; [reflexivity|]. split; [cbn; lia|]. split; [congruence|]. intros _ i b Q. exact (G i b Q).
    - intros E. injection E as <- <-. auto.
  Qed.

  Lemma map_snoc {A B} (f : A -> B) l x y : map f l = y -> map f (l ++ [x]) = y ++ [f x].
  Proof. intros <-. apply map_app. Qed.

  Lemma text_kept x ps e e' r : kept e -> text_pt tex pages encodable k false x ps e = (e', r) -> r <> Raise TexResult -> kept e'.
  Proof.
    intros Ke. unfold text_pt. destruct (Nat.eqb_spec (rank (st e)) 3) as [|ND]; [intros E _; injection E as <- <-; exact Ke|]. assert (st e <> Done) as N0 by (intros Q; rewrite Q in ND; cbn in ND; lia).
    unfold do_typeset. destruct (started tex encodable k e) as [e1 r1] eqn:E1. destruct (started_quiet _ _ _ _ _ _ E1) as (Q1 & S1 & T1). assert (kept e1 /\ st e1 <> Done) as (K1 & N1).
    { destruct S1 as [S1|(S0 & S1)]; (split; [|congruence]); apply (quiet_kept _ _ Q1 N0); try congruence; [rewrite S1; lia|rewrite S0; cbn; lia]. }
    destruct r1 as [u|y]; [|intros E _; injection E as <- <-; exact K1].
    destruct (if rank (st e1) <? 2 then _ else _) as [e2 r2] eqn:E2. assert (kept e2 /\ (r2 = Val tt -> st e2 = Typeset)) as (K2 & T2).
    { destruct (Nat.ltb_spec (rank (st e1)) 2) as [L|L].
      - destruct (go_typeset_quiet _ _ _ _ _ _ E2) as (Q2 & [S2|(S0 & S2)] & T2); (split; [|exact T2]); apply (quiet_kept _ _ Q2 N1); try congruence; [rewrite S2; lia|rewrite S0, S2; cbn; lia].
      - injection E2 as <- <-. split; [exact K1|]. intros _. destruct (st e1); cbn in L; try lia; [reflexivity|contradiction]. }
    destruct r2 as [u2|y]; [|intros E _; injection E as <- <-; exact K2]. destruct u2. specialize (T2 eq_refl).
    destruct (exec x ps Typeset Typeset e2) as [e3 r3] eqn:E3. destruct (execute_inv _ _ _ _ _ _ _ _ _ E3) as [(-> & Q)|(_ & _ & _ & _ & S3 & _ & D3 & B3 & [-> |(q & ->)] & [(_ & _ & P & J)|(Q & _)])]; try (cbn in Q; tauto).
    - destruct Q as [-> | ->]; intros E _; injection E as <- <-; exact K2.
    - intros E N. injection E as <- <-. congruence.
    - intros E _. injection E as <- <-. destruct K2 as (K2a & _ & K2c & _). destruct K2c as (K2d & K2e); [congruence|]. unfold kept. cbn [input boxes st dvifile set_boxes]. rewrite J, typeset_app, map_app, K2a, map_app, B3, S3, D3. cbn. split; [reflexivity|].
      split; [lia|]. split; [|discriminate]. intros _. split; [exact K2d|]. intros b Hb. apply in_app_iff in Hb. destruct Hb as [Hb|[<-|[]]]; [exact (K2e b Hb)|reflexivity].
  Qed.

  Lemma preamble_kept x ps e e' r : kept e -> do_preamble tex encodable k x ps e = (e', r) -> kept e'.
  Proof.
    intros Ke. unfold do_preamble. destruct (st e) eqn:S0.
    4: { unfold started. rewrite S0. cbn [rank Nat.ltb Nat.leb]. destruct (exec x ps Preamble Preamble e) as [e1 r1] eqn:E1. destruct (execute_inv _ _ _ _ _ _ _ _ _ E1) as [(-> & _)|(_ & R & _)]; [|rewrite S0 in R; cbn in R; lia]. destruct r1; intros E; injection E as <- <-; exact Ke. }
    all: assert (st e <> Done) as N0 by congruence; destruct (started tex encodable k e) as [e1 r1] eqn:E1; destruct (started_quiet _ _ _ _ _ _ E1) as (Q1 & S1 & T1);
      (assert (kept e1 /\ st e1 <> Done) as (K1 & N1) by (destruct S1 as [S1|(S2 & S1)]; (split; [|congruence]); apply (quiet_kept _ _ Q1 N0); try congruence; rewrite S1; first [lia|rewrite S2; cbn; lia]));
      (destruct r1 as [u|y]; [|intros E; injection E as <- <-; exact K1]); destruct (exec x ps Preamble Preamble e1) as [e2 r2] eqn:E2;
      (assert (kept e2) as K2 by (destruct (execute_inv _ _ _ _ _ _ _ _ _ E2) as [(-> & _)|(_ & R & _ & _ & S2 & _)]; [exact K1|apply (quiet_kept e1 e2); [eapply execute_quiet; [exact E2|cbn; lia]|exact N1|congruence|rewrite S2, R; cbn; lia|exact K1]]));
      destruct r2; intros E; injection E as <- <-; exact K2.
  Qed.

  Lemma reached_kept e l : reached tex pages encodable k false e l -> ~ In (Some TexResult) l -> kept e.
  Proof.
    intros R. induction R as [|e l c e' r R IH A]; intros N.
    - split; [reflexivity|]. split; [cbn; congruence|]. split; [|discriminate]. split; [reflexivity|intros b []].
    - assert (~ In (Some TexResult) l) as Nl by (intros Q; apply N, in_app_iff; auto). assert (r <> Some TexResult) as Nr by (intros ->; apply N, in_app_iff; cbn; auto). specialize (IH Nl). pose proof (engine_numbers _ _ _ _ _ _ _ R) as Nu. change (numbered e) in Nu.
      assert (forall e' r', do_finish tex pages encodable k false e = (e', r') -> raised r' <> Some TexResult -> kept e') as Fi.
      { intros e1 r1 E Q. destruct (st e) eqn:S0.
        4: { unfold do_finish in E. rewrite S0 in E. cbn in E. injection E as <- <-. exact IH. }
        all: destruct (finish_kept e e1 r1 Nu IH ltac:(congruence) E) as [(_ & _ & K1 & _)|[-> |(K1 & _)]]; [exact K1|cbn in Q; congruence|exact K1]. }
      destruct c as [x ps|x ps|i|]; cbn [ask] in A.
      + destruct (do_preamble _ _ _ _ _ e) as [e1 r1] eqn:E. injection A as <- _. exact (preamble_kept _ _ _ _ _ IH E).
      + destruct (text_pt _ _ _ _ _ _ _ e) as [e1 r1] eqn:E. injection A as <- <-. apply (text_kept _ _ _ _ _ IH E). intros ->. apply Nr. reflexivity.
      + destruct (dvicanvas _ _ _ _ _ i e) as [e1 r1] eqn:E. injection A as <- <-. unfold dvicanvas in E. destruct (match nth_error (boxes e) i with Some b => b_page b | None => None end); [injection E as <- <-; exact IH|].
        destruct (do_finish _ _ _ _ _ e) as [e2 [v|y]] eqn:E2; injection E as <- <-; apply (Fi _ _ eq_refl); [discriminate|exact Nr].
      + destruct (do_finish _ _ _ _ _ e) as [e2 r2] eqn:E2. injection A as <- <-. exact (Fi _ _ eq_refl Nr).
  Qed.

  (** Without texipc: as long as no call ended with a TexResultError, the i-th text box belongs to the page which was typeset for
      it, and asking for its contents gives that page, unless the interpreter does not end as expected. *)
  Theorem texts_shown e l i b : reached tex pages encodable k false e l -> ~ In (Some TexResult) l -> nth_error (boxes e) i = Some b ->
    nth_error (typeset_in (input e)) i = Some (S i, b_expr b) /\
    forall e' r, dvicanvas tex pages encodable k false i e = (e', r) -> r = Val (Some (S i)) \/ r = Raise TexResult.
  Proof.
    intros R N B. pose proof (reached_kept e l R N) as Ke. pose proof (engine_numbers _ _ _ _ _ _ _ R) as Nu. change (numbered e) in Nu. split.
    - destruct Ke as (K1 & _). destruct Nu as (_ & Nu). assert (i < page e) as H.
      { assert (length (boxes e) = page e) as <-. { apply (f_equal (@length _)) in K1, Nu. rewrite !map_length in *. rewrite seq_length in Nu. congruence. } apply nth_error_Some. congruence. }
      assert (nth_error (map snd (typeset_in (input e))) i = Some (b_expr b)) as E1 by (rewrite K1; apply map_nth_error, B).
      assert (nth_error (map fst (typeset_in (input e))) i = Some (S i)) as E2 by (rewrite Nu; apply nth_seq, H).
      destruct (nth_error (typeset_in (input e)) i) as [[p x]|] eqn:E.
      + rewrite (map_nth_error snd _ _ E) in E1. rewrite (map_nth_error fst _ _ E) in E2. cbn in E1, E2. congruence.
      + apply nth_error_None in E. assert (nth_error (map snd (typeset_in (input e))) i = None) as Q by (apply nth_error_None; rewrite map_length; exact E). congruence.
    - intros e' r. unfold dvicanvas. rewrite B. destruct (st e) eqn:S0.
      4: { destruct Ke as (_ & _ & _ & K4). rewrite (K4 S0 i b B). intros E. injection E as <- <-. auto. }
      1, 2: exfalso; destruct Ke as (_ & K2 & _); rewrite S0 in K2; cbn in K2; assert (2 <= 1) by (etransitivity; [apply K2; intros Q; rewrite Q in B; destruct i; discriminate|lia]); lia.
      assert (b_page b = None) as ->. { destruct Ke as (_ & _ & K3 & _). apply K3; [congruence|]. eapply nth_error_In; exact B. }
      destruct (do_finish tex pages encodable k false e) as [e1 r1] eqn:E1. destruct (finish_kept e e1 r1 Nu Ke ltac:(congruence) E1) as [(-> & S1 & (_ & _ & _ & K4) & M)|[-> |(_ & Q & _)]].
      + intros E. injection E as <- <-. left. destruct (nth_error (boxes e1) i) as [b1|] eqn:B1; [rewrite (K4 S1 i b1 B1); reflexivity|]. exfalso. apply nth_error_None in B1. apply (f_equal (@length _)) in M. rewrite !map_length in M. rewrite M in B1. apply nth_error_None in B1. congruence.
      + intros E. injection E as <- <-. auto.
      + congruence.
  Qed.
End Own.
Print Assumptions texts_shown.
