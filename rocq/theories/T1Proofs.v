(** The code draws what charstrings mean. *)
From Coq Require Import ZArith Bool String List Lia.
From Verif Require Import T1Model T1Spec.
Import ListNotations.
Open Scope Z_scope.

Lemma pop_app s v : pop (s ++ [v]) = Some (v, s).
Proof. unfold pop. rewrite rev_app_distr. cbn. now rewrite rev_involutive. Qed.

Lemma some_pair (a b c d : Z) : a = c -> b = d -> Some (a, b) = Some (c, d).
Proof. now intros -> ->. Qed.

(** after the end nothing happens *)
Lemma exec_ended flex F l st st' : exec flex F l st st' -> ended st = true -> st' = st.
Proof. intros H E. destruct H; trivial; congruence. Qed.
Definition clean (st : state) : Prop := (ended st = true -> stack st = [] /\ flexing st = None) /\ (composite st = true -> ended st = true).
Lemma simple_ended c st st1 : simple c st st1 -> ended st1 = ended st /\ composite st1 = composite st.
Proof.
  intros H. destruct H; try (split; reflexivity); unfold moves; destruct (flexing st) as [[[? ?] ?]|]; split; reflexivity.
Qed.
Lemma exec_clean flex F l st st' : exec flex F l st st' -> clean st -> clean st'.
Proof.
  induction 1; intros C; trivial.
  - apply IHexec. split; cbn; intros Q; [congruence|apply C, Q].
  - apply IHexec. destruct (simple_ended _ _ _ H0) as [E1 E2]. split; rewrite E1; [congruence|rewrite E2; apply C].
  - split; cbn; [intros _; split; reflexivity|reflexivity].
  - apply IHexec2, IHexec1. split; cbn; intros Q; [congruence|apply C, Q].
  - apply IHexec. split; cbn; intros Q; [congruence|apply C, Q].
  - apply IHexec. split; cbn; intros Q; [congruence|apply C, Q].
  - split; cbn; [intros _; split; reflexivity|reflexivity].
Qed.
Lemma clean_initial : clean initial. Proof. split; discriminate. Qed.

Section Sim.
  Variables T P : Type.
  Variable apply : T -> Z -> Z -> P.
  Variable shift : T -> Z -> Z -> T.
  Hypothesis shift_apply : forall t dx dy x y, apply (shift t dx dy) x y = apply t (x + dx) (y + dy).
  Variable flex : bool.
  Variable F : font.

  Definition at_ (t : T) (p : pos) : P := apply t (fst p) (snd p).
  Definition flat (l : list pos) : list Z := flat_map (fun p => [fst p; snd p]) l.

  (** what the items draw: o after what was drawn before; m is the point and whether it was moved to *)
  Definition pictured (t : T) (pre : list (op P)) (o : list (op pos)) (m : option (pos * bool)) (its : list (item P)) : Prop :=
    exists pend, painted (rev its) = (pre ++ map (op_map (at_ t)) o, pend) /\
      match m with Some (p, b) => pend = if b then Some (at_ t p) else None | None => True end.
  Definition related (t : T) (pre : list (op P)) (st : state) (c : context P) : Prop :=
    t1stack P c = stack st /\ (forall p, cur st = Some p -> point P c = Some p) /\
    (composite st = false -> forall w, wid st = Some w -> width P c = Some w) /\
    match flexing st with
    | None => psstack P c = [] /\ pictured t pre (drawn st) (option_map (fun p => (p, moved st)) (cur st)) (items P c)
    | Some (s, l, d) => psstack P c = flat l /\ exists its, (if d then exists i, items P c = i :: its else items P c = its) /\ pictured t pre (drawn st) (Some (s, moved st)) its
    end.

  Notation upd := (update T P apply shift flex F).
  Definition runs_to (l : list tok) (t : T) (c c' : context P) : Prop := exists n, forall f, (n <= f)%nat -> upd f l t c = Some c'.

  Lemma painted_cons (l : list (item P)) (i : item P) : painted (rev (i :: l)) = paint (painted (rev l)) i.
  Proof. unfold painted. cbn [rev]. now rewrite fold_left_app. Qed.

  Lemma pictured_move t pre o m its q : pictured t pre o m its -> pictured t pre o (Some (q, true)) (IMoveto P (at_ t q) :: its).
  Proof. intros (pend & E & _). exists (Some (at_ t q)). rewrite painted_cons, E. split; reflexivity. Qed.
  Lemma pictured_draw t pre o s b its i oi q : pictured t pre o (Some (s, b)) its ->
    (forall l m, paint (l, m) i = (l ++ match m with Some p => [Begin p] | None => [] end ++ [op_map (at_ t) oi], None)) ->
    pictured t pre (o ++ (if b then [Begin s] else []) ++ [oi]) (Some (q, false)) (i :: its).
  Proof.
    intros (pend & E & M) Hi. exists None. rewrite painted_cons, E, Hi. split; [|reflexivity]. f_equal. rewrite M, !map_app. destruct b; cbn; now rewrite <- !app_assoc.
  Qed.
  Lemma pictured_more t pre o s its i oi q : pictured t pre o (Some (s, false)) its ->
    (forall l m, paint (l, m) i = (l ++ match m with Some p => [Begin p] | None => [] end ++ [op_map (at_ t) oi], None)) ->
    pictured t pre (o ++ [oi]) (Some (q, false)) (i :: its).
  Proof. intros H Hi. exact (pictured_draw t pre o s false its i oi q H Hi). Qed.

  Lemma run_nil t c : runs_to [] t c c.
  Proof. exists 1%nat. intros [|f] H; [lia|reflexivity]. Qed.
  Lemma run_num v l t c c' : runs_to l t (set_stack P (t1stack P c ++ [v]) c) c' -> runs_to (Num v :: l) t c c'.
  Proof. intros (n & H). exists (S n). intros [|f] L; [lia|]. cbn. apply H. lia. Qed.

  (** more fuel does not matter *)
  Lemma update_S f : forall l t c c', upd f l t c = Some c' -> upd (S f) l t c = Some c'.
  Proof.
    induction f as [|f IH]; [discriminate|]. intros l t c c' H. destruct l as [|k l]; [exact H|].
    cbn [update] in H. match type of H with bind ?a _ = _ => destruct a as [c1|] eqn:E1; [|discriminate]; cbn [bind] in H end.
    assert (forall g, (forall l t c c', upd f l t c = Some c' -> upd g l t c = Some c') -> upd (S g) (k :: l) t c = Some c') as K; [|apply K, IH].
    clear IH. intros g IH. cbn [update].
    match goal with |- bind ?a _ = _ => assert (a = Some c1) as -> end; [|cbn [bind]; apply IH, H].
    destruct k as [v|k]; [exact E1|]. destruct k; try exact E1.
    - destruct (args P 5 c) as [[a c2]|]; [|discriminate]. cbn [bind] in E1 |- *. destruct a as [|a1 [|a2 [|a3 [|a4 [|a5 [|]]]]]]; try discriminate.
      destruct (standard a5) as [n1|]; [|discriminate]. cbn [bind] in E1 |- *. destruct (standard a4) as [n2|]; [|discriminate]. cbn [bind] in E1 |- *. destruct (getglyph F n2) as [b|]; [|discriminate]. cbn [bind] in E1 |- *.
      destruct (upd f b t c2) as [c3|] eqn:E3; [|discriminate]. rewrite (IH _ _ _ _ E3). cbn [bind] in E1 |- *. destruct (getglyph F n1) as [a|]; [|discriminate]. cbn [bind] in E1 |- *. apply IH, E1.
    - destruct (pop (t1stack P c)) as [[i s]|]; [|discriminate]. cbn [bind] in E1 |- *. destruct (getsubr F i) as [b|]; [|discriminate]. cbn [bind] in E1 |- *. apply IH, E1.
  Qed.

  (** one command without calls *)
  Lemma run_one k l t c c1 c' : (forall f l, upd (S f) (Cmd k :: l) t c = upd f l t c1) -> runs_to l t c1 c' -> runs_to (Cmd k :: l) t c c'.
  Proof. intros E (n & H). exists (S n). intros [|f] L; [lia|]. rewrite E. apply H. lia. Qed.

  Lemma simple_ok c st st1 : simple c st st1 -> forall t pre cx, related t pre st cx ->
    exists cx1, (forall f l, upd (S f) (Cmd c :: l) t cx = upd f l t cx1) /\ related t pre st1 cx1.
  Proof.
    intros H t pre cx (S1 & C1 & W1 & Pc). destruct cx as [pt w s ps its]. cbn [t1stack point width psstack items] in *.
    destruct H as [st sbx wx E Cu Fl|st sbx sby wx wy E Cu Fl|st p E Cu Fl|st x y dx E Cu Fl|st x y dy E Cu Fl|st x y dx dy E Cu Fl|st x y dx E Cu Fl|st x y dy E Cu Fl|st x y dx dy E Cu Fl
      |st x y dx1 dy1 dx2 dy2 dx3 dy3 E Cu Fl|st x y dx1 dx2 dy2 dy3 E Cu Fl|st x y dy1 dx2 dy2 dx3 E Cu Fl|st E|st a b E|st a b E|st a b c d e f E|st a b c d e f E|st s0 q b E B|st p E Cu Fl|st p s0 l0 E Cu Fl];
      rewrite E in S1; subst s; try (pose proof (C1 _ Cu) as Cp; subst pt).
    - rewrite Fl in Pc. destruct Pc as [-> Pc]. eexists. split; [reflexivity|]. unfold related, starts. cbn. split; [reflexivity|]. split; [auto|]. split; [auto|]. split; [reflexivity|]. exact (pictured_move _ _ _ _ _ (sbx, 0) Pc).
    - rewrite Fl in Pc. destruct Pc as [-> Pc]. eexists. split; [reflexivity|]. unfold related, starts. cbn. split; [reflexivity|]. split; [auto|]. split; [auto|]. split; [reflexivity|]. exact (pictured_move _ _ _ _ _ (sbx, sby) Pc).
    - rewrite Fl, Cu in Pc. destruct Pc as [-> Pc]. destruct p as [x y]. eexists. split; [reflexivity|]. unfold related, draw. cbn. split; [reflexivity|]. split; [auto|]. split; [auto|]. split; [reflexivity|].
      apply (pictured_move _ _ _ (Some ((x, y), false)) _ (x, y)). apply (pictured_draw _ _ _ _ _ _ _ Close (x, y) Pc). reflexivity.
    - rewrite Fl, Cu in Pc. destruct Pc as [-> Pc]. eexists. split; [reflexivity|]. unfold related, draw. cbn. split; [reflexivity|]. split; [rewrite Z.add_0_r; auto|]. split; [auto|]. split; [reflexivity|].
      apply (pictured_draw _ _ _ _ _ _ _ (Line (x + dx, y)) (x + dx, y) Pc). intros. cbn. now rewrite Z.add_0_r.
    - rewrite Fl, Cu in Pc. destruct Pc as [-> Pc]. eexists. split; [reflexivity|]. unfold related, draw. cbn. split; [reflexivity|]. split; [rewrite Z.add_0_r; auto|]. split; [auto|]. split; [reflexivity|].
      apply (pictured_draw _ _ _ _ _ _ _ (Line (x, y + dy)) (x, y + dy) Pc). intros. cbn. now rewrite Z.add_0_r.
    - rewrite Fl, Cu in Pc. destruct Pc as [-> Pc]. eexists. split; [reflexivity|]. unfold related, draw. cbn. split; [reflexivity|]. split; [auto|]. split; [auto|]. split; [reflexivity|].
      apply (pictured_draw _ _ _ _ _ _ _ (Line (x + dx, y + dy)) (x + dx, y + dy) Pc). reflexivity.
    - eexists. split; [reflexivity|]. unfold related, moves. destruct (flexing st) as [[[s0 l0] d]|]; cbn; rewrite ?Z.add_0_r.
      + destruct d; [exfalso; apply (Fl s0 l0); reflexivity|]. destruct Pc as (-> & its0 & Ei & Pc). split; [reflexivity|]. split; [auto|]. split; [auto|]. split; [reflexivity|]. exists its0. subst its0. split; [eexists; reflexivity|exact Pc].
      + destruct Pc as [-> Pc]. split; [reflexivity|]. split; [auto|]. split; [auto|]. split; [reflexivity|]. exact (pictured_move _ _ _ _ _ (x + dx, y) Pc).
    - eexists. split; [reflexivity|]. unfold related, moves. destruct (flexing st) as [[[s0 l0] d]|]; cbn; rewrite ?Z.add_0_r.
      + destruct d; [exfalso; apply (Fl s0 l0); reflexivity|]. destruct Pc as (-> & its0 & Ei & Pc). split; [reflexivity|]. split; [auto|]. split; [auto|]. split; [reflexivity|]. exists its0. subst its0. split; [eexists; reflexivity|exact Pc].
      + destruct Pc as [-> Pc]. split; [reflexivity|]. split; [auto|]. split; [auto|]. split; [reflexivity|]. exact (pictured_move _ _ _ _ _ (x, y + dy) Pc).
    - eexists. split; [reflexivity|]. unfold related, moves. destruct (flexing st) as [[[s0 l0] d]|]; cbn.
      + destruct d; [exfalso; apply (Fl s0 l0); reflexivity|]. destruct Pc as (-> & its0 & Ei & Pc). split; [reflexivity|]. split; [auto|]. split; [auto|]. split; [reflexivity|]. exists its0. subst its0. split; [eexists; reflexivity|exact Pc].
      + destruct Pc as [-> Pc]. split; [reflexivity|]. split; [auto|]. split; [auto|]. split; [reflexivity|]. exact (pictured_move _ _ _ _ _ (x + dx, y + dy) Pc).
    - rewrite Fl, Cu in Pc. destruct Pc as [-> Pc]. eexists. split; [reflexivity|]. unfold related, draw. cbn. split; [reflexivity|]. split; [intros p <-; apply some_pair; lia|]. split; [auto|]. split; [reflexivity|].
      apply (pictured_draw _ _ _ _ _ _ _ (Curve (x + dx1, y + dy1) (x + dx1 + dx2, y + dy1 + dy2) (x + dx1 + dx2 + dx3, y + dy1 + dy2 + dy3)) (x + dx1 + dx2 + dx3, y + dy1 + dy2 + dy3) Pc). reflexivity.
    - rewrite Fl, Cu in Pc. destruct Pc as [-> Pc]. eexists. split; [reflexivity|]. unfold related, draw. cbn. split; [reflexivity|]. split; [intros p <-; apply some_pair; lia|]. split; [auto|]. split; [reflexivity|].
      apply (pictured_draw _ _ _ _ _ _ _ (Curve (x + dx1, y) (x + dx1 + dx2, y + dy2) (x + dx1 + dx2, y + dy2 + dy3)) (x + dx1 + dx2, y + dy2 + dy3) Pc). intros. cbn. now rewrite !Z.add_0_r.
    - rewrite Fl, Cu in Pc. destruct Pc as [-> Pc]. eexists. split; [reflexivity|]. unfold related, draw. cbn. split; [reflexivity|]. split; [intros p <-; apply some_pair; lia|]. split; [auto|]. split; [reflexivity|].
      apply (pictured_draw _ _ _ _ _ _ _ (Curve (x, y + dy1) (x + dx2, y + dy1 + dy2) (x + dx2 + dx3, y + dy1 + dy2)) (x + dx2 + dx3, y + dy1 + dy2) Pc). intros. cbn. now rewrite !Z.add_0_r.
    - eexists. split; [reflexivity|]. unfold related. cbn. auto.
    - eexists. split; [reflexivity|]. unfold related, with_stack. cbn. auto.
    - eexists. split; [reflexivity|]. unfold related, with_stack. cbn. auto.
    - eexists. split; [reflexivity|]. unfold related, with_stack. cbn. auto.
    - eexists. split; [reflexivity|]. unfold related, with_stack. cbn. auto.
    - exists (mkcontext P pt w (s0 ++ [q]) ps its). split.
      + intros f l. cbn [update]. cbn [t1stack]. replace (s0 ++ [q * b; b]) with ((s0 ++ [q * b]) ++ [b]) by (rewrite <- app_assoc; reflexivity). rewrite pop_app. cbn [bind]. rewrite pop_app. cbn [bind]. unfold floordiv.
        destruct (Z.eqb_spec b 0); [contradiction|]. rewrite Z.div_mul by assumption. reflexivity.
      + unfold related, with_stack. cbn. auto.
    - rewrite Fl, Cu in Pc. destruct Pc as [-> Pc]. destruct p as [x y]. eexists. split; [reflexivity|]. unfold related, with_flex. cbn. split; [reflexivity|]. split; [rewrite Cu; auto|]. split; [auto|]. split; [reflexivity|]. exists its. split; [reflexivity|exact Pc].
    - rewrite Fl in Pc. destruct Pc as (-> & its0 & (i & ->) & Pc). destruct p as [x y]. eexists. split; [reflexivity|]. unfold related, with_flex. cbn. split; [reflexivity|]. split; [rewrite Cu; auto|]. split; [auto|]. split; [|exists its0; split; [reflexivity|exact Pc]].
      unfold flat. rewrite flat_map_app. cbn. now rewrite app_nil_r.
  Qed.

  Theorem exec_ok l st st' : exec flex F l st st' -> clean st -> (composite st' = true -> bearing st' = 0) ->
    forall t pre c, related t pre st c -> exists c', runs_to l t c c' /\ related t pre st' c'.
  Proof.
    induction 1 as [st|v l st st' E H IH|k l st st1 st' E Si H IH|st E|st E Es Fl|i s b l st st1 st' E Es Nb Hb IHb H IH
      |size x y s r p1 p2 p3 p4 p5 l st st' E Es Cu Fl H IH|i l st st' E Es H IH|asb adx ady bchar achar bglyph aglyph bl al b a st E Es Cn Fl Dr Hb Ha Nb Na Gb Ga Eb IHb Ea IHa Ndb Nda Cb Ca];
      intros Cl Bz t pre c R.
    - exists c. split; [apply run_nil|exact R].
    - destruct (IH) with (t := t) (pre := pre) (c := set_stack P (t1stack P c ++ [v]) c) as (c' & Ru & R').
      + split; cbn; [congruence|apply Cl].
      + exact Bz.
      + destruct R as (S1 & R). unfold related, with_stack. cbn. split; [now rewrite S1|exact R].
      + exists c'. split; [apply run_num, Ru|exact R'].
    - destruct (simple_ok k st st1 Si t pre c R) as (c1 & Ru & R1). destruct (simple_ended _ _ _ Si) as [E1 E2].
      destruct (IH) with (t := t) (pre := pre) (c := c1) as (c' & Ru' & R').
      + split; rewrite E1; [congruence|rewrite E2; apply Cl].
      + exact Bz.
      + exact R1.
      + exists c'. split; [exact (run_one k l t c c1 c' Ru Ru')|exact R'].
    - exists c. split; [|exact R]. apply (run_one Return [] t c c c); [reflexivity|apply run_nil].
    - exists c. split; [apply (run_one Endchar [] t c c c); [reflexivity|apply run_nil]|]. unfold related in *. cbn. rewrite Fl, Es in R. exact R.
    - assert (clean (with_stack s st)) as Cl1 by (split; cbn; [congruence|apply Cl]).
      assert (clean st1) as Cl2 by exact (exec_clean _ _ _ _ _ Hb Cl1).
      destruct (IHb Cl1) with (t := t) (pre := pre) (c := set_stack P s c) as (c1 & (n1 & Ru1) & R1).
      + intros Q. assert (st' = st1) as -> by (apply (exec_ended _ _ _ _ _ H), Cl2, Q). auto.
      + destruct R as (S1 & R). unfold related, with_stack. cbn. split; [reflexivity|exact R].
      + destruct (IH Cl2 Bz t pre c1 R1) as (c' & (n2 & Ru2) & R'). exists c'. split; [|exact R'].
        exists (S (n1 + n2)). intros [|f] L; [lia|]. cbn [update]. destruct R as (S1 & R). rewrite S1, Es, pop_app. cbn [bind]. unfold getsubr. destruct (Z.leb_spec 0 (Z.of_nat i)); [|lia]. rewrite Nat2Z.id, Nb. cbn [bind].
        rewrite Ru1 by lia. cbn [bind]. apply Ru2. lia.
    - destruct c as [pt w st0 ps its]. destruct R as (S1 & C1 & W1 & Pc). cbn [t1stack point width psstack items] in *. rewrite Es in S1. subst st0. rewrite (C1 _ Cu) in *. rewrite Fl in Pc. destruct Pc as (-> & its0 & -> & Pc).
      set (fi := if flex then [ICurveto P (at_ t p4) (at_ t p5) (at_ t (x, y)); ICurveto P (at_ t p1) (at_ t p2) (at_ t p3)] else [ILineto P (at_ t (x, y))]).
      destruct (IH) with (t := t) (pre := pre) (c := mkcontext P (Some (x, y)) w [] [] (fi ++ its0)) as (c' & (n & Ru) & R').
      + split; cbn; [congruence|apply Cl].
      + exact Bz.
      + unfold related, draw. cbn. split; [reflexivity|]. split; [auto|]. split; [auto|]. split; [reflexivity|]. unfold fi, flex_ops. destruct flex.
        * cbn [app]. pose proof (pictured_draw t pre (drawn st) s (moved st) its0 (ICurveto P (at_ t p1) (at_ t p2) (at_ t p3)) (Curve p1 p2 p3) p3 Pc ltac:(reflexivity)) as Q1.
          pose proof (pictured_more t pre _ p3 _ (ICurveto P (at_ t p4) (at_ t p5) (at_ t (x, y))) (Curve p4 p5 (x, y)) (x, y) Q1 ltac:(reflexivity)) as Q2.
          rewrite <- !app_assoc in Q2. exact Q2.
        * apply (pictured_draw _ _ _ _ _ _ _ (Line (x, y)) (x, y) Pc). reflexivity.
      + exists c'. split; [|exact R']. exists (S (S (S (S n)))). intros [|[|[|[|f]]]] L; try lia.
        destruct r as [rx ry], p1 as [x1 y1], p2 as [x2 y2], p3 as [x3 y3], p4 as [x4 y4], p5 as [x5 y5]. rewrite <- (Ru f) by lia. unfold fi. destruct flex; reflexivity.
    - destruct c as [pt w st0 ps its]. destruct R as (S1 & C1 & W1 & Pc). cbn [t1stack point width psstack items] in *. rewrite Es in S1. subst st0.
      destruct (IH) with (t := t) (pre := pre) (c := mkcontext P pt w [i] ps its) as (c' & (n & Ru) & R').
      + split; cbn; [congruence|apply Cl].
      + exact Bz.
      + unfold related, with_stack. cbn. auto.
      + exists c'. split; [|exact R']. exists (S (S n)). intros [|[|f]] L; try lia. rewrite <- (Ru f) by lia. cbn [update t1stack]. unfold othersubr. cbn [t1stack]. change [i; 1; 3] with (([i] ++ [1]) ++ [3]). rewrite pop_app. cbn [bind]. rewrite pop_app. cbn [bind]. change (pops0 (Z.to_nat 1) [i]) with (Some ([i], @nil Z)). cbn [bind]. change (3 =? 0) with false. change (3 =? 2) with false. cbn iota. cbn [bind psstack]. rewrite pop_app. reflexivity.
    - destruct c as [pt w st0 ps its]. destruct R as (S1 & C1 & W1 & Pc). cbn [t1stack point width psstack items] in *. rewrite Es in S1. subst st0. rewrite Fl in Pc. destruct Pc as (-> & pend & Pp & _). rewrite Dr, app_nil_r in Pp.
      destruct (IHb clean_initial) with (t := t) (pre := pre) (c := mkcontext P pt w [] [] its) as (cb & (n1 & Ru1) & Rb); [congruence| |].
      { unfold related. cbn. split; [reflexivity|]. split; [discriminate|]. split; [discriminate|]. split; [reflexivity|]. exists pend. rewrite app_nil_r. split; [exact Pp|exact I]. }
      destruct (proj1 (exec_clean _ _ _ _ _ Eb clean_initial) Ndb) as [Sb Fb]. destruct Rb as (Sb' & _ & _ & Pb). rewrite Fb in Pb. destruct Pb as (Psb & pendb & Pb & _). rewrite Sb in Sb'.
      destruct (IHa clean_initial) with (t := shift t (adx - asb) ady) (pre := pre ++ map (op_map (at_ t)) (drawn b)) (c := cb) as (ca & (n2 & Ru2) & Ra); [congruence| |].
      { unfold related. cbn. split; [exact Sb'|]. split; [discriminate|]. split; [discriminate|]. split; [exact Psb|]. exists pendb. rewrite app_nil_r. split; [exact Pb|exact I]. }
      destruct (proj1 (exec_clean _ _ _ _ _ Ea clean_initial) Nda) as [Sa Fa]. destruct Ra as (Sa' & _ & _ & Pa). rewrite Fa in Pa. destruct Pa as (Psa & penda & Pa & _). rewrite Sa in Sa'.
      exists ca. split.
      + exists (S (S (n1 + n2))). intros [|f] L; [lia|]. cbn [update]. unfold args. cbn [t1stack pops0 pop0 bind]. unfold set_stack. cbn [point width psstack items].
        unfold standard. destruct (Z.leb_spec 0 achar); [|lia]. destruct (Z.ltb_spec achar 256); [|lia]. destruct (Z.leb_spec 0 bchar); [|lia]. destruct (Z.ltb_spec bchar 256); [|lia]. cbn [andb].
        rewrite Na, Nb. cbn [bind]. rewrite Gb. cbn [bind]. rewrite Ru1 by lia. cbn [bind]. rewrite Ga. cbn [bind]. rewrite Ru2 by lia. cbn [bind]. destruct f; [lia|reflexivity].
      + unfold related, composed. cbn. split; [exact Sa'|]. split; [discriminate|]. split; [discriminate|]. split; [exact Psa|]. exists penda. split; [|exact I]. rewrite Pa. f_equal. rewrite Dr. cbn [app]. rewrite map_app, <- app_assoc. f_equal. f_equal.
        specialize (Bz eq_refl). cbn in Bz. rewrite Bz, map_map. apply map_ext. intros o.
        assert (forall p, at_ (shift t (adx - asb) ady) p = at_ t (fst p + (0 + adx - asb), snd p + ady)) as Q by (intros p; unfold at_; cbn; rewrite shift_apply; f_equal; lia).
        destruct o; cbn; rewrite ?Q; reflexivity.
  Qed.
End Sim.
