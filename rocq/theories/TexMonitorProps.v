(** The main thread reads exactly the output of what it executes, in every interleaving with the interpreter and the reading thread. *)
From Coq Require Import Arith Bool Ascii String List Lia.
From Verif Require Import TexMsgModel TexMonitorModel.
Import ListNotations.
Open Scope nat_scope.

Section Monitor.
  Variables bye greeting : list str.
  Variable jobs : list (str * list str).

  (** the marker is in the last line which is printed, and not in one before *)
  Definition marked (j : str * list str) : Prop := exists p l, snd j = p ++ [l] /\ find (fst j) l = true /\ Forall (fun l => find (fst j) l = false) p.
  (** what should be read: the output of each job, the first one together with the greeting, and the end *)
  Definition outputs (early : list str) (l : list (str * list str)) : list (list str) :=
    match l with [] => [early ++ bye] | (_, ls) :: r => (early ++ ls) :: map snd r ++ [bye] end.
  Notation ALL := (outputs greeting jobs).

  Definition carried (a : place) : list str := match a with Have (Some l) | Got (Some l) => [l] | _ => [] end.
  Definition handled (a : place) : list str := match a with Have (Some l) | Got (Some l) | Put l => [l] | _ => [] end.
  Definition alive (a : place) : Prop := match a with Have None | Got None | Finished | Raised => False | _ => True end.
  Definition quiet (a : place) (e : option str) : Prop := e = None \/ a = Noticed.
  Definition passed (a : place) : bool := match a with Got _ | Put _ => true | _ => false end.
  Definition avoids (l : list (str * list str)) (p : list str) : Prop := match l with (m, _) :: _ => Forall (fun l => find m l = false) p | [] => True end.
  Definition flow x := acc x ++ output x ++ carried (at_ x) ++ pipe x ++ todo x.
  Definition pending x := handled (at_ x) ++ pipe x ++ todo x.
  Definition waiting x : Prop := received x = false /\ exists m p l, pending x = p ++ [l] /\ find m l = true /\ Forall (fun l => find m l = false) p /\
    ((expectq x = Some (Some m) /\ quiet (at_ x) (expect x) /\ (passed (at_ x) = true -> p <> [])) \/ (expectq x = None /\ expect x = Some m /\ at_ x <> Noticed)).
  Definition done x : Prop := pending x = [] /\ expectq x = None /\ quiet (at_ x) (expect x).
  Definition open_ x : Prop := closing x = false /\ closed x = false /\ alive (at_ x).

  Definition inv (x : state) : Prop :=
    match main x with
    | MExpect => open_ x /\ received x = false /\ acc x = [] /\ quiet (at_ x) (expect x) /\ expectq x = None /\ Forall marked (left x) /\ avoids (left x) (pending x) /\ results x ++ outputs (flow x) (left x) = ALL
    | MWrite => open_ x /\ received x = false /\ acc x = [] /\ Forall marked (left x) /\ avoids (left x) (pending x) /\ results x ++ outputs (flow x) (left x) = ALL /\
        match left x with
        | (m, _) :: _ => (expectq x = Some (Some m) /\ quiet (at_ x) (expect x)) \/ (expectq x = None /\ expect x = Some m /\ at_ x <> Noticed)
        | [] => False
        end
    | MWait => open_ x /\ acc x = [] /\ Forall marked (left x) /\ results x ++ flow x :: outputs [] (left x) = ALL /\ (waiting x \/ (received x = true /\ done x))
    | MClear => open_ x /\ acc x = [] /\ Forall marked (left x) /\ results x ++ flow x :: outputs [] (left x) = ALL /\ received x = true /\ done x
    | MRead => open_ x /\ Forall marked (left x) /\ results x ++ flow x :: outputs [] (left x) = ALL /\ received x = false /\ done x
    | MWriteEnd => open_ x /\ acc x = [] /\ quiet (at_ x) (expect x) /\ (expectq x = Some None \/ expectq x = None) /\ results x ++ [flow x ++ bye] = ALL
    | MJoin => closing x = true /\ acc x = [] /\ quiet (at_ x) (expect x) /\ (expectq x = Some None \/ expectq x = None) /\ (closed x = true -> todo x = []) /\ (~ alive (at_ x) -> closed x = true /\ pipe x = [] /\ at_ x <> Raised) /\ results x ++ [flow x] = ALL
    | MReadEnd => at_ x = Finished /\ pipe x = [] /\ todo x = [] /\ closed x = true /\ results x ++ [acc x ++ output x] = ALL
    | MEnd => results x = ALL
    | MTimeout => exists r, results x ++ r = ALL
    | MFull => False
    end.

  Lemma start_inv : Forall marked jobs -> avoids jobs greeting -> inv (start greeting jobs).
  Proof. intros J G. unfold inv, start, open_, quiet, flow, pending. cbn. tauto. Qed.

  Lemma tex_inv x y : tex_step x = Some y -> inv x -> inv y.
  Proof.
    unfold tex_step. destruct x as [td cg pp cd eq rc ou a e mn lf ac rs]. cbn. destruct td as [|l td].
    - destruct (cg && negb cd) eqn:E; [|discriminate]. apply andb_true_iff in E as [-> Cd]. apply negb_true_iff in Cd as ->. intros H. injection H as <-. unfold inv, open_, waiting, done, flow, pending. cbn.
      destruct mn; cbn; try tauto; try (intros; intuition congruence). 
    - intros H. injection H as <-. unfold inv, open_, waiting, done, flow, pending. cbn. assert ((pp ++ [l]) ++ td = pp ++ l :: td) as -> by (rewrite <- app_assoc; reflexivity).
      destruct mn; cbn; try tauto.
      + intros (Hc & Ha & Hq & He & Ht & Hn & Hr). refine (conj Hc (conj Ha (conj Hq (conj He (conj _ (conj _ Hr)))))); [intros C; apply Ht in C; discriminate|].
        intros N. destruct (Hn N) as (C & _). apply Ht in C. discriminate.
      + intros (_ & _ & C & _). discriminate.
  Qed.

  (** the thread does not change what is still to be read; when nothing is expected it does not notice anything *)
  Lemma thread_quiet x y : thread_step x = Some y -> quiet (at_ x) (expect x) -> (expectq x = None \/ expectq x = Some None) ->
    quiet (at_ y) (expect y) /\ received y = received x /\ flow y = flow x /\ (expectq y = expectq x \/ expectq y = None) /\
    (exists p, pending x = p ++ pending y) /\ (alive (at_ x) -> alive (at_ y) \/ (closed x = true /\ pipe y = [] /\ at_ y <> Raised)) /\ (~ alive (at_ x) -> pipe x = [] -> at_ x <> Raised -> ~ alive (at_ y) /\ pipe y = [] /\ at_ y <> Raised).
  Proof.
    unfold thread_step, flow, pending, quiet. destruct x as [td cg pp cd eq rc ou a e mn lf ac rs]. cbn. destruct a as [|l|[l|]|l| | |].
    - intros H Q E. assert (e = None) as -> by (destruct Q; congruence). destruct pp as [|l pp]; [destruct cd; [|discriminate]|]; injection H as <-; cbn.
      + repeat split; auto; try (now exists []); try tauto; try discriminate. right. repeat split; auto. discriminate.
      + repeat split; auto; try (now exists []); try tauto; try discriminate.
    - intros H Q E. assert (e = None) as -> by (destruct Q; congruence). destruct eq as [e'|].
      + destruct E as [E|E]; [discriminate|]. injection E as ->. injection H as <-. cbn. destruct l; cbn; repeat split; auto; try (now exists []); try tauto; try discriminate.
      + injection H as <-. cbn. destruct l; cbn; repeat split; auto; try (now exists []); try tauto; try discriminate.
    - intros H Q E. assert (e = None) as -> by (destruct Q; congruence). injection H as <-. cbn. rewrite <- !app_assoc. repeat split; auto; try (now exists []); try tauto.
    - intros H Q E. assert (e = None) as -> by (destruct Q; congruence). injection H as <-. cbn. repeat split; auto; try (now exists []); try tauto; discriminate.
    - intros H Q E. assert (e = None) as -> by (destruct Q; congruence). injection H as <-. cbn. repeat split; auto; try (now exists [l]); try tauto.
    - intros H Q E. injection H as <-. cbn. repeat split; auto; try (now exists []); try tauto.
    - discriminate.
    - discriminate.
  Qed.
  Lemma thread_kept x y : thread_step x = Some y -> todo y = todo x /\ closing y = closing x /\ closed y = closed x /\ main y = main x /\ left y = left x /\ acc y = acc x /\ results y = results x.
  Proof.
    unfold thread_step. destruct x as [td cg pp cd eq rc ou a e mn lf ac rs]. cbn. destruct a as [|l|[l|]|l| | |]; try discriminate.
    - destruct pp; [destruct cd; [|discriminate]|]; intros H; injection H as <-; cbn; auto 10.
    - destruct e; [|destruct eq]; intros H; injection H as <-; cbn; auto 10.
    - intros H; injection H as <-; cbn; auto 10.
    - intros H; injection H as <-; cbn; auto 10.
    - destruct e; [destruct (find _ _)|]; intros H; injection H as <-; cbn; auto 10.
    - intros H; injection H as <-; cbn; auto 10.
  Qed.
  (** when something is expected *)
  Lemma thread_expects m x y : thread_step x = Some y -> alive (at_ x) -> closed x = false -> received x = false ->
    (expectq x = Some (Some m) /\ quiet (at_ x) (expect x)) \/ (expectq x = None /\ expect x = Some m /\ at_ x <> Noticed) ->
    alive (at_ y) /\ flow y = flow x /\
    ((received y = false /\ ((expectq y = Some (Some m) /\ quiet (at_ y) (expect y) /\ (passed (at_ y) = true -> passed (at_ x) = true)) \/ (expectq y = None /\ expect y = Some m /\ at_ y <> Noticed)) /\
      (pending y = pending x \/ exists l, pending x = l :: pending y /\ passed (at_ x) = true /\ passed (at_ y) = false /\ (expectq x = None -> find m l = false)))
     \/ (received y = true /\ expectq y = None /\ at_ y = Noticed /\ exists l, pending x = l :: pending y /\ find m l = true)).
  Proof.
    unfold thread_step, flow, pending, quiet. destruct x as [td cg pp cd eq rc ou a e mn lf ac rs]. cbn. intros H Al -> ->. destruct a as [|[l|]|[l|]|l| | |]; try contradiction.
    - destruct pp as [|l pp]; [discriminate|]. injection H as <-. cbn. intros [(-> & Q)|(-> & -> & N)].
      + assert (e = None) as -> by (destruct Q; congruence). repeat split; auto; left; repeat split; auto; left; repeat split; auto.
      + repeat split; auto; left; repeat split; auto; right; repeat split; auto; discriminate.
    - intros [(-> & Q)|(-> & -> & N)].
      + assert (e = None) as -> by (destruct Q; congruence). injection H as <-. cbn. repeat split; auto; left; repeat split; auto; right; repeat split; auto; discriminate.
      + injection H as <-. cbn. repeat split; auto; left; repeat split; auto; right; repeat split; auto; discriminate.
    - injection H as <-. cbn. rewrite <- !app_assoc. intros [(-> & Q)|(-> & -> & N)].
      + assert (e = None) as -> by (destruct Q; congruence). repeat split; auto. left. repeat split; auto. 
      + repeat split; auto; left; repeat split; auto; right; repeat split; auto; discriminate.
    - intros [(-> & Q)|(-> & -> & N)].
      + assert (e = None) as -> by (destruct Q; congruence). injection H as <-. cbn. refine (conj I (conj eq_refl (or_introl (conj eq_refl (conj (or_introl _) (or_intror _)))))).
        * auto.
        * exists l. repeat split; auto. discriminate.
      + destruct (find m l) eqn:F; injection H as <-; cbn.
        * refine (conj I (conj eq_refl (or_intror (conj eq_refl (conj eq_refl (conj eq_refl _)))))). now exists l.
        * refine (conj I (conj eq_refl (or_introl (conj eq_refl (conj (or_intror _) (or_intror _)))))).
          -- repeat split; auto. discriminate.
          -- exists l. auto.
    - injection H as <-. cbn. intros [(-> & Q)|(-> & -> & N)]; [|congruence]. repeat split; auto; left; repeat split; auto; left; repeat split; auto.
  Qed.

  Lemma thread_inv x y : thread_step x = Some y -> inv x -> inv y.
  Proof.
    intros H. destruct (thread_kept x y H) as (Et & Ecg & Ecd & Em & El & Ea & Er). unfold inv, open_. rewrite Em, El, Ea, Er, Ecg, Ecd. destruct (main x) eqn:M; trivial.
    - intros ((Cg & Cd & Al) & R & A & Q & E & J & Av & Rs). destruct (thread_quiet x y H Q (or_introl E)) as (Q' & R' & F & E' & (p & P) & Al' & _). rewrite R', F. repeat split; trivial.
      + destruct (Al' Al) as [?|(?&_)]; [assumption|congruence].
      + destruct E'; congruence.
      + unfold avoids in *. destruct (left x) as [|[m ls] r]; [exact I|]. rewrite P in Av. now apply Forall_app in Av.
    - intros ((Cg & Cd & Al) & R & A & J & Av & Rs & X). destruct (left x) as [|[m ls] r] eqn:Lf; [contradiction|]. destruct (thread_expects m x y H Al Cd R X) as (Al' & F & [(R' & X' & P)|(R' & _ & _ & l & P & Fl)]).
      + rewrite F. repeat split; trivial.
        * unfold avoids in *. destruct P as [->|(l & P & _)]; [exact Av|]. rewrite P in Av. now inversion Av.
        * destruct X' as [(?&?&_)|?]; [left; now split|now right].
      + exfalso. unfold avoids in Av. rewrite P in Av. inversion Av. congruence.
    - intros ((Cg & Cd & Al) & A & J & Rs & X). destruct X as [(R & m & p & l & P & Fl & Fp & X)|(R & P & E & Q)].
      + assert ((expectq x = Some (Some m) /\ quiet (at_ x) (expect x)) \/ (expectq x = None /\ expect x = Some m /\ at_ x <> Noticed)) as X0 by tauto.
        destruct (thread_expects m x y H Al Cd R X0) as (Al' & F & [(R' & X' & P')|(R' & E' & N' & l' & P' & Fl')]).
        * rewrite F. repeat split; trivial. left. split; [exact R'|]. destruct P' as [P'|(l' & P' & Px & Pa & Nf)].
          -- rewrite P'. exists m, p, l. repeat split; trivial. destruct X' as [(E' & Q' & Pa)|X']; [|now right]. left. repeat split; trivial. intros Py. destruct X as [(_ & _ & X)|(E & _)]; [apply X, Pa, Py|].
             exfalso. unfold thread_step in H. clear - H E E'. destruct x as [td cg pp cd eq rc ou a e mn lf ac rs]. cbn in *. subst eq. destruct a as [|z|[z|]|z| | |]; try discriminate; [destruct pp; [destruct cd; [|discriminate]|]|destruct e| | |destruct e; [destruct (find _ _)|]|]; injection H as <-; discriminate E'.
          -- destruct p as [|p0 p].
             ++ exfalso. rewrite P' in P. cbn in P. injection P as -> Pn. destruct X as [(_ & _ & X)|(E & _)]; [now apply X|]. rewrite (Nf E) in Fl. discriminate.
             ++ rewrite P' in P. cbn in P. injection P as -> P. exists m, p, l. inversion Fp; subst. repeat split; trivial. destruct X' as [(E' & Q' & Pa')|X']; [|now right]. left. repeat split; trivial.
                intros Py. congruence.
        * rewrite F. repeat split; trivial. right. split; [exact R'|]. rewrite P' in P. destruct p as [|p0 p].
          -- cbn in P. injection P as -> P. repeat split; trivial. now right.
          -- exfalso. cbn in P. injection P as -> P. inversion Fp. congruence.
      + destruct (thread_quiet x y H Q (or_introl E)) as (Q' & R' & F & E' & (p & P') & Al' & _). rewrite F, R'. repeat split; trivial.
        * destruct (Al' Al) as [?|(?&_)]; [assumption|congruence].
        * right. split; [exact R|]. rewrite P in P'. symmetry in P'. apply app_eq_nil in P' as [_ P']. repeat split; trivial. destruct E'; congruence.
    - intros ((Cg & Cd & Al) & A & J & Rs & R & P & E & Q). destruct (thread_quiet x y H Q (or_introl E)) as (Q' & R' & F & E' & (p & P') & Al' & _). rewrite F, R'. repeat split; trivial.
      + destruct (Al' Al) as [?|(?&_)]; [assumption|congruence].
      + rewrite P in P'. symmetry in P'. now apply app_eq_nil in P' as [_ P'].
      + destruct E'; congruence.
    - intros ((Cg & Cd & Al) & J & Rs & R & P & E & Q). destruct (thread_quiet x y H Q (or_introl E)) as (Q' & R' & F & E' & (p & P') & Al' & _). rewrite F, R'. repeat split; trivial.
      + destruct (Al' Al) as [?|(?&_)]; [assumption|congruence].
      + rewrite P in P'. symmetry in P'. now apply app_eq_nil in P' as [_ P'].
      + destruct E'; congruence.
    - intros ((Cg & Cd & Al) & A & Q & E & Rs). destruct (thread_quiet x y H Q ltac:(tauto)) as (Q' & R' & F & E' & (p & P') & Al' & _). rewrite F. repeat split; trivial.
      + destruct (Al' Al) as [?|(?&_)]; [assumption|congruence].
      + destruct E' as [->| ->]; tauto.
    - intros (Cg & A & Q & E & Ct & N & Rs). destruct (thread_quiet x y H Q ltac:(tauto)) as (Q' & R' & F & E' & (p & P') & Al' & Nal'). rewrite F, Et.
      assert (expectq y = Some None \/ expectq y = None) as E2 by (destruct E' as [->| ->]; tauto).
      refine (conj Cg (conj A (conj Q' (conj E2 (conj Ct (conj _ Rs)))))). intros Ny. destruct (at_ x) as [|[l|]|[l|]|l| | |] eqn:Ax; cbn in Al', Nal', N; try (destruct (Al' I) as [?|?]; [contradiction|assumption]);
        destruct (N (fun f => f)) as (C & Px & Nr); destruct (Nal' (fun f => f) Px Nr) as (_ & Py & Ry); auto.
    - intros (A & _). unfold thread_step in H. rewrite A in H. discriminate.
  Qed.

  Lemma main_inv x y : main_step bye x = Some y -> inv x -> inv y.
  Proof.
    unfold main_step, inv, open_, waiting, done, flow, pending. destruct x as [td cg pp cd eq rc ou a e mn lf ac rs]. cbn. destruct mn; cbn; try discriminate.
    - destruct eq as [q|]; [intros _ H; exfalso; destruct H as (_ & _ & _ & _ & H & _); discriminate|]. destruct lf as [|[m ls] r]; intros H; injection H as <-; cbn; intros ((Cg & Cd & Al) & R & A & Q & E & J & Av & Rs).
      + auto 10.
      + refine (conj (conj Cg (conj Cd Al)) (conj R (conj A (conj J (conj Av (conj Rs _)))))). left. auto.
    - destruct lf as [|[m ls] r]; [discriminate|]. intros H; injection H as <-; cbn. intros ((Cg & Cd & Al) & R & A & J & Av & Rs & X). subst ac. cbn [app]. destruct (Forall_inv J) as (p & l & E & F & N). pose proof (Forall_inv_tail J) as J'. cbn [fst snd] in *. subst ls.
      refine (conj (conj Cg (conj Cd Al)) (conj eq_refl (conj J' (conj _ (or_introl (conj R _)))))).
      + cbn [app] in Rs. rewrite <- !app_assoc in Rs. rewrite <- Rs. f_equal. destruct r as [|[m' ls'] r]; reflexivity.
      + exists m, ((handled a ++ pp ++ td) ++ p), l. rewrite <- !app_assoc. split; [reflexivity|]. split; [exact F|]. split; [rewrite !app_assoc; apply Forall_app; split; [rewrite <- app_assoc; exact Av|exact N]|].
        destruct X as [(-> & Q)|X]; [left|now right]. repeat split; auto. intros Pa. destruct a as [|l'|[l'|]|l'| | |]; try discriminate Pa; try contradiction Al; discriminate.
    - destruct rc; [|discriminate]. intros H; injection H as <-; cbn. intros (O & A & J & Rs & [(R & _)|(_ & D)]); [discriminate|]. auto 10.
    - intros H; injection H as <-; cbn. tauto.
    - destruct ou as [|l ou]; intros H; injection H as <-; cbn.
      + intros (O & J & Rs & R & P & E & Q). assert (carried a ++ pp ++ td = []) as C by (apply app_eq_nil in P as [P1 P2]; rewrite P2, app_nil_r; destruct a as [|[l|]|[l|]|l| | |]; cbn in P1 |- *; trivial; discriminate).
        rewrite C, app_nil_r in Rs. rewrite C, P. refine (conj O (conj R (conj eq_refl (conj Q (conj E (conj J (conj _ _))))))); [destruct lf as [|[m ls] r]; [exact I|constructor]|]. rewrite <- app_assoc. exact Rs.
      + rewrite <- app_assoc. tauto.
    - intros H; injection H as <-; cbn. intros ((Cg & Cd & Al) & A & Q & E & Rs). subst. refine (conj eq_refl (conj eq_refl (conj Q (conj E (conj _ (conj _ _)))))).
      + congruence.
      + intros N. contradiction.
      + cbn [app] in *. rewrite <- !app_assoc in Rs. exact Rs.
    - intros H (Cg & A & Q & E & Ct & N & Rs). assert (~ alive a /\ a = Finished) as [Na ->].
      { destruct a; try discriminate; [split; [intros []|reflexivity]|]. exfalso. destruct (N (fun f => f)) as (_ & _ & K). congruence. }
      injection H as <-. cbn. destruct (N Na) as (Cd & Pp & _). subst. rewrite (Ct eq_refl) in *. cbn in *. rewrite app_nil_r in Rs. auto.
    - destruct ou as [|l ou]; intros H; injection H as <-; cbn.
      + intros (_ & _ & _ & _ & Rs). rewrite app_nil_r in Rs. exact Rs.
      + rewrite <- app_assoc. tauto.
  Qed.
  Lemma timeout_inv x y : timeout_step x = Some y -> inv x -> inv y.
  Proof.
    unfold timeout_step, inv. destruct x as [td cg pp cd eq rc ou a e mn lf ac rs]. cbn. destruct mn; try discriminate; intros H; injection H as <-; cbn.
    - intros (_ & _ & _ & Rs & _). eexists. exact Rs.
    - intros (_ & _ & _ & _ & _ & _ & Rs). eexists. exact Rs.
  Qed.

  (** ** Progress *)
  Lemma progress x : inv x -> main x <> MEnd -> main x <> MTimeout -> exists a y, a <> Timeout /\ step bye a x = Some y.
  Proof.
    intros H N1 N2.
    assert (forall z, tex_step x = Some z \/ thread_step x = Some z \/ main_step bye x = Some z -> exists a y, a <> Timeout /\ step bye a x = Some y) as K.
    { intros z [E|[E|E]]; [exists Tex|exists Thread|exists Main]; exists z; (split; [discriminate|exact E]). }
    unfold inv, open_, waiting, done, flow, pending in H. unfold tex_step, thread_step, main_step in K. destruct x as [td cg pp cd eq rc ou a e mn lf ac rs]. cbn in *. destruct mn; try congruence.
    - destruct eq; [eapply K; right; right; reflexivity|]. destruct lf as [|[m ls] r]; eapply K; right; right; reflexivity.
    - destruct lf as [|[m ls] r]; [tauto|]. eapply K; right; right; reflexivity.
    - destruct rc; [eapply K; right; right; reflexivity|]. destruct H as ((_ & _ & Al) & _ & _ & _ & [(_ & m & p & l & P & _)|(C & _)]); [|discriminate].
      destruct td as [|t td]; [|eapply K; left; reflexivity]. destruct a as [|l'|[l'|]|l'| | |]; try contradiction Al.
      + destruct pp as [|p0 pp]; [cbn in P; exfalso; destruct p; discriminate|]. eapply K; right; left; reflexivity.
      + destruct e; [|destruct eq]; eapply K; right; left; reflexivity.
      + eapply K; right; left; reflexivity.
      + destruct e as [e|]; [destruct (find e l')|]; eapply K; right; left; reflexivity.
      + eapply K; right; left; reflexivity.
    - eapply K; right; right; reflexivity.
    - destruct ou; eapply K; right; right; reflexivity.
    - eapply K; right; right; reflexivity.
    - destruct H as (Cg & A & Q & E & Ct & N & Rs). subst cg. destruct td as [|t td]; [|eapply K; left; reflexivity]. destruct cd; [|eapply K; left; reflexivity].
      destruct a as [|l'|[l'|]|l'| | |].
      + destruct pp as [|p0 pp]; eapply K; right; left; reflexivity.
      + destruct e; [|destruct eq]; eapply K; right; left; reflexivity.
      + eapply K; right; left; reflexivity.
      + eapply K; right; left; reflexivity.
      + destruct e as [e|]; [destruct (find e l')|]; eapply K; right; left; reflexivity.
      + eapply K; right; left; reflexivity.
      + eapply K; right; right; reflexivity.
      + eapply K; right; right; reflexivity.
    - destruct ou; eapply K; right; right; reflexivity.
    - contradiction.
  Qed.

  (** ** Termination *)
  Definition place_measure (a : place) : nat :=
    match a with Reading => 3 | Have (Some _) => 10 | Got (Some _) => 9 | Put _ => 7 | Noticed => 4 | Have None => 2 | Got None => 1 | Finished | Raised => 0 end.
  Definition main_measure (m : mplace) : nat :=
    match m with MExpect => 5 + length bye * 10 | MWrite => 4 + length bye * 10 | MWait => 9 + length bye * 10 | MClear => 8 + length bye * 10 | MRead => 7 + length bye * 10 | MWriteEnd => 4 + length bye * 10 | MJoin => 3 | MReadEnd => 2 | MEnd | MTimeout | MFull => 0 end.
  Definition measure x : nat :=
    9 * length (todo x) + (if closed x then 0 else 1) + 8 * length (pipe x) + length (output x) + place_measure (at_ x) + main_measure (main x) + fold_right (fun j n => 10 + 10 * length (snd j) + n) 0 (left x).
  Lemma decreases a x y : step bye a x = Some y -> measure y < measure x.
  Proof.
    unfold measure. destruct x as [td cg pp cd eq rc ou p e mn lf ac rs]. destruct a; cbn [step]; unfold tex_step, thread_step, main_step, timeout_step; cbn [todo closing pipe closed expectq received output at_ expect main left acc results].
    - destruct td as [|l td]; [destruct (cg && negb cd) eqn:E; [|discriminate]; apply andb_true_iff in E as [_ E]; destruct cd; [discriminate|]|]; intros H; injection H as <-; cbn [todo closed pipe output at_ main left]; rewrite ?app_length; cbn [length]; lia.
    - destruct p as [|[l|]|[l|]|l| | |]; try discriminate.
      + destruct pp as [|l pp]; [destruct cd; [|discriminate]|]; intros H; injection H as <-; cbn; lia.
      + destruct e; [|destruct eq]; intros H; injection H as <-; cbn; lia.
      + destruct e; [|destruct eq]; intros H; injection H as <-; cbn; lia.
      + intros H; injection H as <-; cbn [todo closed pipe output at_ main left set_thread place_measure]; rewrite app_length; cbn [length]; lia.
      + intros H; injection H as <-; destruct e; cbn; lia.
      + destruct e; [destruct (find _ _)|]; intros H; injection H as <-; cbn; lia.
      + intros H; injection H as <-; cbn; lia.
    - destruct mn; try discriminate.
      + destruct eq; [|destruct lf as [|[m ls] r]]; intros H; injection H as <-; cbn [set_main todo closed pipe output at_ main left main_measure]; lia.
      + destruct lf as [|[m ls] r]; [discriminate|]; intros H; injection H as <-; cbn [set_main todo closed pipe output at_ main left main_measure fold_right snd]; rewrite app_length; lia.
      + destruct rc; [|discriminate]; intros H; injection H as <-; cbn [set_main todo closed pipe output at_ main left main_measure]; lia.
      + intros H; injection H as <-; cbn [set_main todo closed pipe output at_ main left main_measure]; lia.
      + destruct ou; intros H; injection H as <-; cbn [set_main todo closed pipe output at_ main left main_measure length]; lia.
      + intros H; injection H as <-; cbn [set_main todo closed pipe output at_ main left main_measure]; rewrite app_length; lia.
      + destruct p; try discriminate; intros H; injection H as <-; cbn [set_main todo closed pipe output at_ main left main_measure]; lia.
      + destruct ou; intros H; injection H as <-; cbn [set_main todo closed pipe output at_ main left main_measure length]; lia.
    - destruct mn; try discriminate; intros H; injection H as <-; cbn [set_main todo closed pipe output at_ main left main_measure]; lia.
  Qed.
End Monitor.

(** ** C98 *)
Inductive reach (bye : list str) (x : state) : state -> Prop :=
| here : reach bye x x
| go a y z : reach bye x y -> step bye a y = Some z -> reach bye x z.
Lemma reach_inv bye greeting jobs x : Forall marked jobs -> avoids jobs greeting -> reach bye (start greeting jobs) x -> inv bye greeting jobs x.
Proof.
  intros J G. induction 1 as [|a y z R IH E]; [now apply start_inv|]. destruct a; cbn [step] in E.
  - eapply tex_inv; eassumption.
  - eapply thread_inv; eassumption.
  - eapply main_inv; eassumption.
  - eapply timeout_inv; eassumption.
Qed.
(** Whatever the order of the steps: what has been read are the outputs of the jobs, in their order, and nothing else; the queue of
    expected strings is never full. *)
Theorem monitor_reads_outputs bye greeting jobs x : Forall marked jobs -> avoids jobs greeting -> reach bye (start greeting jobs) x ->
  (exists r, results x ++ r = outputs bye greeting jobs) /\ main x <> MFull /\ (main x = MEnd -> results x = outputs bye greeting jobs).
Proof.
  intros J G R. apply (reach_inv _ _ _ _ J G) in R. unfold inv in R. destruct (main x); repeat split; try discriminate; try congruence; try contradiction; trivial; try (eexists; apply R).
  - exists []. rewrite app_nil_r. exact R.
Qed.
Print Assumptions monitor_reads_outputs.
(** As long as the main thread is not at its end (and its waiting has not timed out) some process can go on, and all of them end
    after finitely many steps. *)
Theorem monitor_ends bye greeting jobs : Forall marked jobs -> avoids jobs greeting ->
  (forall x, reach bye (start greeting jobs) x -> main x = MEnd \/ main x = MTimeout \/ exists a y, a <> Timeout /\ step bye a x = Some y) /\
  ~ (exists f : nat -> state, f 0 = start greeting jobs /\ forall n, exists a, step bye a (f n) = Some (f (S n))).
Proof.
  intros J G. split.
  - intros x R. apply (reach_inv _ _ _ _ J G) in R. destruct (main x) eqn:M; auto; right; right; (eapply progress; [exact R|rewrite M; discriminate|rewrite M; discriminate]).
  - intros (f & _ & F). assert (forall n, measure bye (f n) + n <= measure bye (f 0)) as K.
    { induction n as [|n IH]; [lia|]. destruct (F n) as (a & E). apply decreases in E. lia. }
    specialize (K (S (measure bye (f 0)))). lia.
Qed.
Print Assumptions monitor_ends.
(** The thread does not end with a ValueError before the main thread has read everything. *)
Theorem monitor_not_raised bye greeting jobs x : Forall marked jobs -> avoids jobs greeting -> reach bye (start greeting jobs) x -> main x <> MTimeout -> main x <> MEnd -> at_ x <> Raised.
Proof.
  intros J G R NT NE. apply (reach_inv _ _ _ _ J G) in R. unfold inv, open_ in R. intros C. rewrite C in R. destruct (main x); try congruence; try contradiction; try (destruct R as ((_ & _ & []) & _)); try (destruct R as [R _]; discriminate R).
  destruct R as (_ & _ & _ & _ & _ & N & _). destruct (N (fun f => f)) as (_ & _ & K). congruence.
Qed.
Print Assumptions monitor_not_raised.

(** a greeting, two jobs, and the end, with two different schedules *)
Definition job1 : str * list str := (s "id=1:", [s "text"; s "id=1:"]).
Definition job2 : str * list str := (s "id=2:", [s "id=11:"; s "xid=2:"]).
Definition rounds (n : nat) (l : list actor) : list actor := List.concat (repeat l n).
Example monitor_example : Forall marked [job1; job2] /\ avoids [job1; job2] [s "This is TeX"] /\
  results (run [s "Bye"] (rounds 80 [Main; Tex; Thread]) (start [s "This is TeX"] [job1; job2])) = [[s "This is TeX"; s "text"; s "id=1:"]; [s "id=11:"; s "xid=2:"]; [s "Bye"]] /\
  results (run [s "Bye"] (rounds 30 (repeat Tex 3 ++ repeat Thread 7 ++ repeat Main 5)) (start [s "This is TeX"] [job1; job2])) = [[s "This is TeX"; s "text"; s "id=1:"]; [s "id=11:"; s "xid=2:"]; [s "Bye"]].
Proof.
  split; [|split; [|split; vm_compute; reflexivity]].
  - constructor; [exists [s "text"], (s "id=1:"); repeat split; repeat constructor|]. constructor; [exists [s "id=11:"], (s "xid=2:"); repeat split; repeat constructor|constructor].
  - repeat constructor.
Qed.
(** without the condition on the markers: a job whose marker is in an earlier line is read too early *)
Example monitor_early : results (run [] (rounds 30 [Main; Main; Main; Main; Main; Main; Tex; Thread; Thread; Thread; Thread; Thread; Thread]) (start [] [(s "1", [s "1"; s "1"]); job2])) <> outputs [] [] [(s "1", [s "1"; s "1"]); job2].
Proof. vm_compute. discriminate. Qed.
