(** * Styles which are added to plot items, and the selection of styles (C109) *)

From Coq Require Import Bool Arith Ascii String List Lia.
From Verif Require Import PlotModel.
Import ListNotations.
Open Scope list_scope.

Lemma mem_in n l : mem n l = true <-> In n l.
Proof.
  unfold mem. rewrite existsb_exists. split.
  - intros [x [I E]]. apply String.eqb_eq in E. now subst.
  - intros I. exists n. split; [exact I|]. apply String.eqb_refl.
Qed.
Lemma mem_not n l : mem n l = false <-> ~ In n l.
Proof. rewrite <- mem_in. destruct (mem n l); split; congruence || (intros; exfalso; auto). Qed.

(** Every need is provided by an earlier style. *)
Definition satisfied (l : list style) : Prop :=
  forall i s n, nth_error l i = Some s -> In n (needs s) -> exists j p, j < i /\ nth_error l j = Some p /\ In n (provides p).

Definition all_provided (l : list style) : list string := flat_map provides l.
Lemma in_provided n l : In n (all_provided l) <-> exists p, In p l /\ In n (provides p).
Proof. unfold all_provided. rewrite in_flat_map. reflexivity. Qed.

Section Loop.
Variable provider : string -> option style.
Hypothesis provider_ok : forall n p, provider n = Some p -> In n (provides p).

(** what a run over the needs of a style does *)
Lemma needs_run ns : forall prov add prov' add', fold_left (need provider) ns (Some (prov, add)) = Some (prov', add') ->
  exists new, add' = add ++ new /\ prov' = prov ++ all_provided new /\ (forall n, In n ns -> In n prov') /\
    (forall p, In p new -> exists n, In n ns /\ provider n = Some p).
Proof.
  induction ns as [|n ns IH]; intros prov add prov' add' E.
  - cbn in E. injection E as <- <-. exists []. cbn. rewrite !app_nil_r. repeat split; auto; intros ? [].
  - cbn [fold_left need] in E. destruct (mem n prov) eqn:M.
    + destruct (IH _ _ _ _ E) as (new & A & P & Q & R). exists new. refine (conj A (conj P (conj _ _))).
      * intros m [<-|I]; [|auto]. subst prov'. apply in_app_iff. left. apply mem_in. exact M.
      * intros p I. destruct (R p I) as [m [I1 I2]]. exists m. split; [now right|exact I2].
    + destruct (provider n) as [p|] eqn:P.
      * destruct (IH _ _ _ _ E) as (new & A & P' & Q & R). exists (p :: new). refine (conj _ (conj _ (conj _ _))).
        -- rewrite A, <- app_assoc. reflexivity.
        -- rewrite P', <- app_assoc. reflexivity.
        -- intros m [<-|I]; [|auto]. subst prov'. apply in_app_iff. left. apply in_app_iff. right. apply provider_ok. exact P.
        -- intros q [<-|I]; [exists n; split; [now left|exact P]|]. destruct (R q I) as [m [I1 I2]]. exists m. split; [now right|exact I2].
      * exfalso. clear -E. induction ns; cbn in E; [discriminate|auto].
Qed.
Lemma none_run ns : fold_left (need provider) ns None = None.
Proof. induction ns; cbn; auto. Qed.
Lemma none_visit l : fold_left (visit provider) l None = None.
Proof. induction l as [|s l IH]; cbn; auto. unfold visit. rewrite none_run. exact IH. Qed.

Lemma visit_run l : forall prov add prov' add', fold_left (visit provider) l (Some (prov, add)) = Some (prov', add') ->
  exists new, add' = add ++ new /\ (forall n, In n prov' <-> In n prov \/ In n (all_provided new) \/ In n (all_provided l)) /\
    (forall i s n, nth_error l i = Some s -> In n (needs s) -> In n prov \/ In n (all_provided new) \/ In n (all_provided (firstn i l))) /\
    (forall p, In p new -> exists s n, In s l /\ In n (needs s) /\ provider n = Some p).
Proof.
  induction l as [|s l IH]; intros prov add prov' add' E.
  - cbn in E. injection E as <- <-. exists []. cbn. rewrite app_nil_r. refine (conj eq_refl (conj _ (conj _ _))); [tauto|intros [|j] s n N; discriminate|intros ? []].
  - cbn [fold_left] in E. unfold visit at 2 in E. destruct (fold_left (need provider) (needs s) (Some (prov, add))) as [[prov1 add1]|] eqn:N; [|rewrite none_visit in E; discriminate].
    destruct (needs_run _ _ _ _ _ N) as (new1 & A1 & P1 & Q1 & R1). destruct (IH _ _ _ _ E) as (new2 & A2 & P2 & Q2 & R2).
    assert (AP : forall a b n, In n (all_provided (a ++ b)) <-> In n (all_provided a) \/ In n (all_provided b)).
    { intros a b n. unfold all_provided. rewrite flat_map_app. apply in_app_iff. }
    exists (new1 ++ new2). refine (conj _ (conj _ (conj _ _))).
    + rewrite A2, A1, app_assoc. reflexivity.
    + intros n. rewrite P2, P1. rewrite !in_app_iff, AP. change (all_provided (s :: l)) with (provides s ++ all_provided l). rewrite in_app_iff. tauto.
    + intros [|i] s' n; cbn [nth_error].
      * intros E1 I. injection E1 as <-. specialize (Q1 n I). rewrite P1, in_app_iff in Q1. rewrite AP. tauto.
      * intros E1 I. destruct (Q2 i s' n E1 I) as [H|[H|H]].
        -- rewrite P1 in H. rewrite !in_app_iff in H. rewrite AP. cbn [firstn]. change (all_provided (s :: firstn i l)) with (provides s ++ all_provided (firstn i l)). rewrite in_app_iff. tauto.
        -- rewrite AP. tauto.
        -- cbn [firstn]. change (all_provided (s :: firstn i l)) with (provides s ++ all_provided (firstn i l)). rewrite in_app_iff. tauto.
    + intros p I. apply in_app_iff in I. destruct I as [I|I].
      * destruct (R1 p I) as [n [I1 I2]]. exists s, n. split; [now left|auto].
      * destruct (R2 p I) as (s' & n & I1 & I2 & I3). exists s', n. split; [now right|auto].
Qed.

Lemma pass_spec l add : pass provider l = Some add ->
  (forall i s n, nth_error l i = Some s -> In n (needs s) -> In n (all_provided add) \/ In n (all_provided (firstn i l))) /\
  (forall p, In p add -> exists s n, In s l /\ In n (needs s) /\ provider n = Some p).
Proof.
  unfold pass. intros E. destruct (fold_left _ _ _) as [[prov add']|] eqn:F; [|discriminate]. cbn in E. injection E as ->.
  destruct (visit_run _ _ _ _ _ F) as (new & A & _ & Q & R). cbn in A. subst new. split; [|exact R].
  intros i s n N I. destruct (Q i s n N I) as [[]|H]; exact H.
Qed.

Lemma nothing_added l : pass provider l = Some [] <-> satisfied l.
Proof.
  split.
  - intros P i s n N I. destruct (pass_spec _ _ P) as [Q _]. destruct (Q i s n N I) as [[]|H]. apply in_provided in H. destruct H as [p [H1 H2]].
    apply In_nth_error in H1. destruct H1 as [j J]. exists j, p.
    assert (L : j < length (firstn i l)) by (apply nth_error_Some; congruence). rewrite firstn_length in L.
    split; [lia|]. split; [|exact H2]. rewrite <- (firstn_skipn i l), nth_error_app1; [exact J|rewrite firstn_length; lia].
  - intros S. unfold pass.
    assert (G : forall m done prov, l = done ++ m -> (forall n, In n (all_provided done) -> In n prov) -> exists prov', fold_left (visit provider) m (Some (prov, [])) = Some (prov', [])).
    { induction m as [|s m IH]; intros done prov E H; [eexists; reflexivity|]. cbn [fold_left]. unfold visit at 2.
      assert (N : fold_left (need provider) (needs s) (Some (prov, [])) = Some (prov, [])).
      { assert (A : forall n, In n (needs s) -> In n prov).
        { intros n I. destruct (S (length done) s n) as (j & p & J & P1 & P2); [rewrite E, nth_error_app2, Nat.sub_diag by lia; reflexivity|exact I|].
          apply H. apply in_provided. exists p. split; [|exact P2]. apply nth_error_In with j. rewrite E, nth_error_app1 in P1 by exact J. exact P1. }
        revert A. induction (needs s) as [|n ns IHn]; intros A; [reflexivity|]. cbn [fold_left need]. rewrite (proj2 (mem_in n prov)) by (apply A; now left).
        apply IHn. intros k I. apply A. now right. }
      rewrite N. apply (IH (done ++ [s])); [rewrite <- app_assoc; exact E|]. intros n I. unfold all_provided in I. rewrite flat_map_app in I. apply in_app_iff in I.
      apply in_app_iff. destruct I as [I|I]; [left; apply H; exact I|]. cbn in I. rewrite app_nil_r in I. right. exact I. }
    destruct (G l [] []) as [prov ->]; [reflexivity|intros n []|reflexivity].
Qed.

(** The result: styles are only added in front, all of them default providers of something needed, and all needs are satisfied by an
    earlier style; nothing is added when this is so from the beginning. *)
Lemma resolve_sound fuel : forall l r, resolve provider fuel l = Some (Some r) ->
  satisfied r /\ (exists added, r = added ++ l /\ forall p, In p added -> exists s n, In s r /\ In n (needs s) /\ provider n = Some p) /\
  (satisfied l -> r = l).
Proof.
  induction fuel as [|f IH]; intros l r E; [discriminate|]. cbn [resolve] in E. destruct (pass provider l) as [[|a add]|] eqn:P; [| |discriminate].
  - injection E as ->. split; [apply nothing_added; exact P|]. split; [|reflexivity]. exists []. split; [reflexivity|intros p []].
  - destruct (IH _ _ E) as (S & (added & A & B) & _). split; [exact S|]. split.
    + exists (added ++ a :: add). split; [rewrite <- app_assoc; exact A|]. intros p I. apply in_app_iff in I. destruct I as [I|I]; [apply B; exact I|].
      destruct (pass_spec _ _ P) as [_ R]. destruct (R p I) as (s & n & I1 & I2 & I3). exists s, n. split; [|auto]. subst r. apply in_app_iff. right. apply in_app_iff. now right.
    + intros S'. apply nothing_added in S'. congruence.
Qed.

(** Termination: the second pass over the old styles adds nothing *)
Variable rank : style -> nat.
Hypothesis ranked : forall s n p, In n (needs s) -> provider n = Some p -> rank p < rank s.

Definition known (l : list style) : Prop := forall s n, In s l -> In n (needs s) -> provider n <> None.
Hypothesis closed : forall n p m, provider n = Some p -> In m (needs p) -> provider m <> None.

Lemma known_run ns : (forall n, In n ns -> provider n <> None) -> forall prov add, fold_left (need provider) ns (Some (prov, add)) <> None.
Proof.
  induction ns as [|n ns IH]; intros K prov add; [discriminate|]. cbn [fold_left need]. destruct (mem n prov); [apply IH; intros; apply K; now right|].
  destruct (provider n) eqn:P; [apply IH; intros; apply K; now right|]. exfalso. apply (K n); [now left|exact P].
Qed.
Lemma known_pass l : known l -> pass provider l <> None.
Proof.
  intros K. unfold pass. enough (forall prov add, fold_left (visit provider) l (Some (prov, add)) <> None) as H.
  { specialize (H [] []). destruct (fold_left _ _ _); [discriminate|congruence]. }
  induction l as [|s l IH]; intros prov add; [discriminate|]. cbn [fold_left]. unfold visit at 2.
  pose proof (known_run (needs s) (fun n I => K s n (or_introl eq_refl) I) prov add) as N.
  destruct (fold_left (need provider) (needs s) _) as [[p a]|]; [|congruence]. apply IH. intros t n I. apply K. now right.
Qed.

(** satisfied needs add nothing *)
Lemma visit_none l : forall prov add, (forall i s n, nth_error l i = Some s -> In n (needs s) -> In n prov \/ In n (all_provided (firstn i l))) ->
  fold_left (visit provider) l (Some (prov, add)) = Some (prov ++ all_provided l, add).
Proof.
  induction l as [|s l IH]; intros prov add H; [cbn; now rewrite app_nil_r|]. cbn [fold_left]. unfold visit at 2.
  assert (N : fold_left (need provider) (needs s) (Some (prov, add)) = Some (prov, add)).
  { assert (A : forall n, In n (needs s) -> In n prov) by (intros n I; destruct (H 0 s n eq_refl I) as [X|[]]; exact X).
    revert A. induction (needs s) as [|n ns IHn]; intros A; [reflexivity|]. cbn [fold_left need]. rewrite (proj2 (mem_in n prov)) by (apply A; now left).
    apply IHn. intros k I. apply A. now right. }
  rewrite N, IH.
  - f_equal. f_equal. rewrite <- app_assoc. reflexivity.
  - intros i s' n E I. destruct (H (S i) s' n E I) as [X|X]; [left; apply in_app_iff; now left|].
    cbn [firstn] in X. change (all_provided (s :: firstn i l)) with (provides s ++ all_provided (firstn i l)) in X. rewrite in_app_iff in *. tauto.
Qed.

Lemma second_pass l add add2 : pass provider l = Some add -> pass provider (add ++ l) = Some add2 ->
  forall p, In p add2 -> exists s n, In s add /\ In n (needs s) /\ provider n = Some p.
Proof.
  intros P1 P2. destruct (pass_spec _ _ P1) as [Q _]. unfold pass in P2. rewrite fold_left_app in P2.
  destruct (fold_left (visit provider) add (Some ([], []))) as [[prov a]|] eqn:F; [|rewrite none_visit in P2; discriminate].
  destruct (visit_run _ _ _ _ _ F) as (new & A & B & _ & R). cbn in A. subst a.
  rewrite visit_none in P2.
  - cbn in P2. injection P2 as <-. exact R.
  - intros i s n E I. destruct (Q i s n E I) as [X|X]; [left; apply B; tauto|right; exact X].
Qed.

Lemma resolve_S f l : resolve provider (S f) l =
  match pass provider l with None => Some None | Some [] => Some (Some l) | Some add => resolve provider f (add ++ l) end.
Proof. reflexivity. Qed.
Lemma resolve_terminates : forall k l add, known l -> pass provider l = Some add -> (forall p, In p add -> rank p < k) ->
  exists r, resolve provider (S k) l = Some (Some r).
Proof.
  induction k as [|k IH]; intros l add K P R.
  - cbn [resolve]. rewrite P. destruct add as [|a add]; [eexists; reflexivity|]. specialize (R a (or_introl eq_refl)). lia.
  - rewrite resolve_S, P. destruct add as [|a add']; [eexists; reflexivity|]. set (add := a :: add') in *.
    assert (K' : known (add ++ l)).
    { intros s n I1 I2. apply in_app_iff in I1. destruct I1 as [I1|I1]; [|apply K with s; assumption].
      destruct (pass_spec _ _ P) as [_ X]. destruct (X s I1) as (t & m & _ & _ & Y). apply (closed m s n Y I2). }
    destruct (pass provider (add ++ l)) as [add2|] eqn:P2; [|exfalso; apply (known_pass _ K' P2)].
    apply (IH (add ++ l) add2 K' P2). intros p I. destruct (second_pass _ _ _ P P2 p I) as (s & n & I1 & I2 & I3).
    pose proof (ranked s n p I2 I3). pose proof (R s I1). lia.
Qed.

Lemma rank_bound l : exists k, forall p : style, In p l -> rank p < k.
Proof.
  induction l as [|s l [k IH]]; [exists 0; intros p []|]. exists (Nat.max (S (rank s)) k). intros p [<-|I]; [lia|]. specialize (IH p I). lia.
Qed.
Lemma resolve_total l : known l -> exists fuel r, resolve provider fuel l = Some (Some r).
Proof.
  intros K. destruct (pass provider l) as [add|] eqn:P; [|exfalso; apply (known_pass _ K P)].
  destruct (rank_bound add) as [k R]. destruct (resolve_terminates k l add K P R) as [r E]. exists (S k), r. exact E.
Qed.
End Loop.

(** Whatever the styles and the default providers, the styles of a plot item are the given ones with default providers in front, and each
    style finds what it needs provided by an earlier style; nothing is added without need. *)
Theorem styles_resolved : forall provider fuel l r, (forall n p, provider n = Some p -> In n (provides p)) ->
  resolve provider fuel l = Some (Some r) ->
  satisfied r /\ (exists added, r = added ++ l /\ forall p, In p added -> exists s n, In s r /\ In n (needs s) /\ provider n = Some p) /\
  (satisfied l -> r = l).
Proof. intros provider fuel l r H. apply resolve_sound. exact H. Qed.
Print Assumptions styles_resolved.
Example styles_resolved_ex : resolve defaultprovider 3 [new 10 Csurface] = Some (Some [new 0 Cpos; new 3 Cgridpos; new 10 Csurface]) /\
  resolve defaultprovider 1 [new 0 Cpos; new 3 Cgridpos; new 10 Csurface] = Some (Some [new 0 Cpos; new 3 Cgridpos; new 10 Csurface]).
Proof. split; vm_compute; reflexivity. Qed.

(** The loop ends without an error if the default providers do not depend on each other in a circle and all needs have providers. *)
Theorem styles_terminate : forall provider rank l, (forall n p, provider n = Some p -> In n (provides p)) ->
  (forall s n p, In n (needs s) -> provider n = Some p -> rank p < rank s) ->
  (forall n p m, provider n = Some p -> In m (needs p) -> provider m <> None) ->
  (forall s n, In s l -> In n (needs s) -> provider n <> None) ->
  exists fuel r, resolve provider fuel l = Some (Some r).
Proof. intros provider rank l H1 H2 H3 H4. apply (resolve_total provider H1 rank H2 H3). exact H4. Qed.
Print Assumptions styles_terminate.

(** All lists of styles of style.py are resolved, with at most three passes. *)
Lemma default_ok n p : defaultprovider n = Some p -> In n (provides p).
Proof.
  unfold defaultprovider. destruct (mem n (class_provides Cpos)) eqn:A; [intros E; injection E as <-; apply mem_in; exact A|].
  destruct (mem n (class_provides Crange)) eqn:B; [intros E; injection E as <-; apply mem_in; exact B|].
  match goal with |- context [if ?b then _ else _] => destruct b eqn:C end; [intros E; injection E as <-; apply mem_in in C; cbn in C |- *; tauto|].
  destruct (mem n (class_provides Cgridpos)) eqn:D; [intros E; injection E as <-; apply mem_in; exact D|discriminate].
Qed.
Lemma default_which n p : defaultprovider n = Some p -> p = new 0 Cpos \/ p = new 1 Crange \/ p = new 2 Cbarpos \/ p = new 3 Cgridpos.
Proof.
  unfold defaultprovider. destruct (mem n (class_provides Cpos)); [intros [= <-]; auto|]. destruct (mem n (class_provides Crange)); [intros [= <-]; auto|].
  match goal with |- context [if ?b then _ else _] => destruct b end; [intros [= <-]; auto|]. destruct (mem n (class_provides Cgridpos)); [intros [= <-]; auto|discriminate].
Qed.

Theorem styles_known : forall l, (forall s, In s l -> exists id c, s = new id c) -> exists r, resolve defaultprovider 3 l = Some (Some r).
Proof.
  intros l H. assert (K : known defaultprovider l).
  { intros s n I N. destruct (H s I) as (id & c & ->). destruct c; cbn in N; repeat (destruct N as [<-|N]; [cbv; discriminate|]); destruct N. }
  destruct (pass defaultprovider l) as [add|] eqn:P; [|exfalso; apply (known_pass _ l K P)].
  cbn [resolve]. rewrite P. destruct add as [|a add']; [eexists; reflexivity|]. set (add := a :: add') in *.
  assert (W : forall p, In p add -> p = new 0 Cpos \/ p = new 1 Crange \/ p = new 2 Cbarpos \/ p = new 3 Cgridpos).
  { intros p I. destruct (pass_spec _ default_ok _ _ P) as [_ R]. destruct (R p I) as (s & n & _ & _ & E). apply (default_which n p E). }
  assert (K' : known defaultprovider (add ++ l)).
  { intros s n I N. apply in_app_iff in I. destruct I as [I|I]; [|apply (K s n I N)].
    destruct (W s I) as [->|[->|[->| ->]]]; cbn in N; repeat (destruct N as [<-|N]; [cbv; discriminate|]); destruct N. }
  destruct (pass defaultprovider (add ++ l)) as [add2|] eqn:P2; [|exfalso; apply (known_pass _ _ K' P2)].
  destruct add2 as [|b add2']; [eexists; reflexivity|]. set (add2 := b :: add2') in *.
  assert (W2 : forall p, In p add2 -> p = new 0 Cpos).
  { intros p I. destruct (second_pass _ default_ok _ _ _ P P2 p I) as (s & n & I1 & I2 & I3).
    destruct (W s I1) as [->|[->|[->| ->]]]; cbn in I2; repeat (destruct I2 as [<-|I2]; [cbv in I3; injection I3 as <-; reflexivity|]); destruct I2. }
  assert (K2 : known defaultprovider (add2 ++ add ++ l)).
  { intros s n I N. apply in_app_iff in I. destruct I as [I|I]; [|apply (K' s n I N)]. rewrite (W2 s I) in N. destruct N. }
  destruct (pass defaultprovider (add2 ++ add ++ l)) as [add3|] eqn:P3; [|exfalso; apply (known_pass _ _ K2 P3)].
  destruct add3 as [|d add3']; [eexists; reflexivity|]. exfalso.
  destruct (second_pass _ default_ok _ _ _ P2 P3 d (or_introl eq_refl)) as (s & n & I1 & I2 & _). rewrite (W2 s I1) in I2. destruct I2.
Qed.
Print Assumptions styles_known.
Definition default_rank (s : style) : nat :=
  if existsb (fun n => mem n (class_provides Cgridpos)) (needs s) then 2
  else if existsb (fun n => match defaultprovider n with Some _ => true | None => false end) (needs s) then 1 else 0.
Example styles_terminate_ex : exists fuel r, resolve defaultprovider fuel [new 10 Csurface; new 11 Csymbol] = Some (Some r).
Proof.
  apply (styles_terminate defaultprovider default_rank).
  - exact default_ok.
  - intros s n p I E. assert (B : existsb (fun n => match defaultprovider n with Some _ => true | None => false end) (needs s) = true)
      by (apply existsb_exists; exists n; rewrite E; auto).
    assert (C : 0 < default_rank s) by (unfold default_rank; rewrite B; match goal with |- context [if ?b then _ else _] => destruct b end; lia).
    destruct (default_which n p E) as [->|[->|[->| ->]]]; try exact C.
    assert (M : mem n (class_provides Cgridpos) = true) by (apply mem_in; exact (default_ok _ _ E)).
    change (1 < default_rank s). unfold default_rank. rewrite (proj2 (existsb_exists _ (needs s))); [lia|]. exists n. auto.
  - intros n p m E I. destruct (default_which n p E) as [->|[->|[->| ->]]]; cbn in I; repeat (destruct I as [<-|I]; [cbv; discriminate|]); destruct I.
  - intros s n [<-|[<-|[]]] I; cbn in I; repeat (destruct I as [<-|I]; [cbv; discriminate|]); destruct I.
Qed.
Example styles_known_ex : resolve defaultprovider 3 [new 10 Csymbol; new 11 Cerrorbar; new 12 Cbar] =
  Some (Some [new 0 Cpos; new 1 Crange; new 2 Cbarpos; new 10 Csymbol; new 11 Cerrorbar; new 12 Cbar]).
Proof. vm_compute. reflexivity. Qed.

(** A default provider can be added twice, depending on the order of the styles. *)
Theorem styles_added_twice_refuted : exists l r, resolve defaultprovider 3 l = Some (Some r) /\ (forall s, In s l -> exists id c, s = new id c) /\
  NoDup (map sid l) /\ ~ NoDup (map sid r).
Proof.
  exists [new 10 Csurface; new 11 Csymbol], [new 0 Cpos; new 3 Cgridpos; new 0 Cpos; new 10 Csurface; new 11 Csymbol].
  split; [vm_compute; reflexivity|]. split; [intros s [<-|[<-|[]]]; eexists; eexists; reflexivity|].
  split; [repeat constructor; cbn; intuition congruence|]. intros N. inversion N as [|? ? X]. apply X. cbn. auto.
Qed.
Print Assumptions styles_added_twice_refuted.

(** ** Selection *)
Lemma ideqb_eq a : forall b, ideqb a b = true <-> a = b.
Proof.
  induction a as [|x a IH]; intros [|y b]; cbn; split; intros E; try discriminate; try reflexivity.
  - apply andb_true_iff in E. destruct E as [E1 E2]. apply Nat.eqb_eq in E1. apply IH in E2. now subst.
  - injection E as -> ->. rewrite Nat.eqb_refl. apply IH. reflexivity.
Qed.
Lemma get_put d k v : forall k', get (put d k v) k' = if ideqb k' k then Some v else get d k'.
Proof.
  induction d as [|[k0 v0] d IH]; intros k'; cbn; [reflexivity|]. destruct (ideqb k k0) eqn:E.
  - apply ideqb_eq in E. subst k0. cbn. destruct (ideqb k' k); reflexivity.
  - cbn. rewrite IH. destruct (ideqb k' k0) eqn:E1; [|reflexivity]. destruct (ideqb k' k) eqn:E2; [|reflexivity].
    apply ideqb_eq in E1, E2. assert (K : k = k0) by congruence. apply ideqb_eq in K. congruence.
Qed.
(** the number of items with the same styles *)
Definition same (k : idlist) (l : list idlist) : nat := count_occ (list_eq_dec Nat.eq_dec) l k.

Lemma same_cons k x l : same k (x :: l) = (if ideqb k x then 1 else 0) + same k l.
Proof.
  unfold same. cbn. destruct (list_eq_dec Nat.eq_dec x k) as [->|N].
  - rewrite (proj2 (ideqb_eq k k) eq_refl). reflexivity.
  - destruct (ideqb k x) eqn:E; [apply ideqb_eq in E; congruence|reflexivity].
Qed.
Lemma totals l : forall d k, get (fold_left total_step l d) k = match get d k with Some v => Some (v + same k l) | None => if same k l =? 0 then None else Some (same k l) end.
Proof.
  induction l as [|x l IH]; intros d k; cbn [fold_left].
  - cbn. destruct (get d k); [now rewrite Nat.add_0_r|reflexivity].
  - rewrite IH, same_cons. unfold total_step. destruct (ideqb k x) eqn:E.
    + apply ideqb_eq in E. subst x. destruct (get d k) as [v|]; rewrite get_put, (proj2 (ideqb_eq k k) eq_refl); [f_equal; lia|]. cbn. reflexivity.
    + destruct (get d x) as [v|]; rewrite get_put, E; cbn; reflexivity.
Qed.
Lemma select_run tot : forall l done ix, (forall k, get ix k = match same k done with 0 => None | S m => Some m end) ->
  select_loop tot ix l = map (fun i => (Some (same (nth i l []) (done ++ firstn i l)), get tot (nth i l []))) (seq 0 (length l)).
Proof.
  induction l as [|x l IH]; intros done ix H; [reflexivity|]. cbn [select_loop length seq map]. f_equal.
  - cbn [nth firstn]. rewrite app_nil_r. f_equal. unfold index_step. pose proof (H x) as Hx.
    destruct (get ix x) as [v|] eqn:G; rewrite get_put, (proj2 (ideqb_eq x x) eq_refl); destruct (same x done); try discriminate; [|reflexivity].
    injection Hx as ->. f_equal. lia.
  - rewrite (IH (done ++ [x])).
    + rewrite <- seq_shift, map_map. apply map_ext. intros i. cbn [nth firstn]. rewrite <- app_assoc. reflexivity.
    + intros k. assert (E : same k (done ++ [x]) = same k done + (if ideqb k x then 1 else 0)).
      { transitivity (same k done + same k [x]); [apply count_occ_app|]. rewrite same_cons. cbn. destruct (ideqb k x); reflexivity. }
      rewrite E. unfold index_step. pose proof (H x) as Hx. pose proof (H k) as Hk.
      destruct (ideqb k x) eqn:EQ.
      * apply ideqb_eq in EQ. subst x. destruct (get ix k) as [v|]; rewrite get_put, (proj2 (ideqb_eq k k) eq_refl); destruct (same k done); try discriminate; [|reflexivity].
        injection Hx as ->. rewrite !Nat.add_1_r. reflexivity.
      * rewrite Nat.add_0_r. destruct (get ix x) as [v|]; rewrite get_put, EQ; exact Hk.
Qed.

(** An item gets the number of items with the same styles before it, and the number of all those. *)
Theorem styles_selected : forall items i, i < length items ->
  nth i (select_styles items) (None, None) = (Some (same (nth i items []) (firstn i items)), Some (same (nth i items []) items)) /\
  same (nth i items []) (firstn i items) < same (nth i items []) items.
Proof.
  intros items i L. assert (IN : 0 < same (nth i items []) items) by (apply count_occ_In, nth_In; exact L).
  split.
  - unfold select_styles. rewrite (select_run _ items [] []) by reflexivity.
    set (f := fun j => _). rewrite (nth_indep _ (None, None) (f 0)) by (rewrite map_length, seq_length; exact L). rewrite map_nth, seq_nth by exact L. unfold f. cbn [Nat.add app].
    rewrite totals. cbn [get]. destruct (Nat.eqb_spec (same (nth i items []) items) 0) as [E|E]; [lia|reflexivity].
  - set (x := nth i items []) in *.
    assert (E : same x items = same x (firstn i items) + same x (skipn i items)) by (rewrite <- (firstn_skipn i items) at 1; apply count_occ_app).
    assert (P : 0 < same x (skipn i items)); [|lia]. apply count_occ_In. unfold x. rewrite <- (firstn_skipn i items) at 1.
    rewrite app_nth2; rewrite firstn_length; [|lia]. apply nth_In. rewrite skipn_length. lia.
Qed.
Print Assumptions styles_selected.
Example styles_selected_ex : select_styles [[1; 2]; [3]; [1; 2]; [1; 2]; [3]] =
  [(Some 0, Some 3); (Some 0, Some 2); (Some 1, Some 3); (Some 2, Some 3); (Some 1, Some 2)].
Proof. vm_compute. reflexivity. Qed.
