(** The interpreter of DviModel.v follows the standard of DviSpec.v. *)
From Coq Require Import Reals ZArith List Bool Lra Lia ZifyBool.
From Verif Require Import ReaderModel ReaderSpec ReaderProps DviModel DviSpec.
Import ListNotations.
Open Scope R_scope.

Lemma unit_known p : num p <> 0 -> den p <> 0 -> pyxconv p = unit_pt p.
Proof. intros N D. unfold pyxconv, conv, unit_pt, resolution. replace 0.0254 with (254 / 10000) by lra. field. auto. Qed.
(** the size in DVI units *)
Lemma size_units p f : 0 < num p -> 0 < den p -> mag p = 1000 -> getsize_pt f / 1048576 / pyxconv p = size_q f * tfmconv p / 1048576.
Proof. intros N D M. unfold getsize_pt, pyxconv, conv, resolution, tfmconv. rewrite M. replace 72.27 with (7227 / 100) by lra. field. repeat split; lra. Qed.

Fixpoint sum_widths (f : font) (codes : list Z) : R :=
  match codes with [] => 0 | c :: r => match width_dvi f c with Some d => IZR d | None => 0 end + sum_widths f r end.
Lemma sum_widths_app f a b : sum_widths f (a ++ b) = sum_widths f a + sum_widths f b.
Proof. induction a as [|c a IH]; cbn [app sum_widths]; [lra|]. rewrite IH. lra. Qed.
Lemma side_by_side_app u f a : forall X Y b, side_by_side u f X Y (a ++ b) = side_by_side u f X Y a ++ side_by_side u f (X + sum_widths f a * u) Y b.
Proof.
  induction a as [|c a IH]; intros X Y b; cbn [app side_by_side sum_widths].
  - replace (X + 0 * u) with X by ring. reflexivity.
  - rewrite IH. do 3 f_equal. destruct (width_dvi f c); ring.
Qed.
Lemma getfont_in fs k f : getfont fs k = Some f -> exists j, In (j, f) fs.
Proof. induction fs as [|[j g] fs IH]; cbn [getfont]; [discriminate|]. destruct (j =? k)%Z; [intros [= ->]; exists j; now left|]. intros H. destruct (IH H) as (i & I). exists i. now right. Qed.
Lemma putfont_in fs k f j g : In (j, g) (putfont fs k f) -> g = f \/ In (j, g) fs.
Proof.
  induction fs as [|[i e] fs IH]; cbn [putfont].
  - intros [[= _ ->]|[]]. now left.
  - destruct (i =? k)%Z; intros [E|H].
    + injection E as _ <-. now left.
    + right. now right.
    + right. left. exact E.
    + destruct (IH H) as [->|I]; [now left|]. right. now right.
Qed.
Lemma starts_iff t : starts pyx_prefix t = true <-> firstn 4 t = [80; 121; 88; 58]%Z.
Proof.
  destruct t as [|a [|b [|c [|d t]]]]; cbn [starts pyx_prefix firstn]; try (split; [lia|discriminate]).
  split.
  - intros H. assert (a = 80 /\ b = 121 /\ c = 88 /\ d = 58)%Z as (-> & -> & -> & ->) by lia. reflexivity.
  - intros [= -> -> -> ->]. reflexivity.
Qed.

Section Sim.
  Variable pre : preamble.
  Variable single : bool.
  Variable load : list Z -> Z -> R -> R -> option font.
  Hypothesis num_pos : 0 < num pre.
  Hypothesis den_pos : 0 < den pre.
  Hypothesis load_good : forall name c q d f, load name c q d = Some f -> good pre f.
  Notation u := (pyxconv pre).
  Notation tfm := (tfmconv pre).
  Notation step := (DviModel.step pre single load).
  Notation flush := (DviModel.flush pre).
  Notation putchar := (DviModel.putchar pre single).

  Definition pending (st : state) : list seen :=
    match text st, active st with Some (a, b, codes), Some f => side_by_side u f (a * u) (- b * u) codes | _, _ => [] end.
  Definition drawn (st : state) : list seen := flat_map (look u) (page st) ++ pending st.

  Definition flushable (st : state) : Prop :=
    match text st with
    | None => True
    | Some (a, b, codes) => exists n q wd, active st = Some (TeXfont n q wd) /\ forallb (fun c => known (wd c)) codes = true
    end.
  Definition run_ok (st : state) : Prop :=
    flushable st /\
    match text st, active st with
    | Some (a, b, codes), Some f => b = pv (pos st) /\ ph (pos st) = a + sum_widths f codes
    | _, _ => True
    end.

  Lemma flush_ok st : flushable st -> exists pg, flush st = Some (mkst (file st) (fonts st) (active st) (pos st) (stack st) (scale st) None (frames st) pg) /\
    flat_map (look u) pg = drawn st.
  Proof.
    unfold flushable, drawn, pending, DviModel.flush. destruct st as [fl fo ac po sk sc tx fr pg]. cbn [text active page file fonts pos stack scale frames set_page set_text].
    destruct tx as [[[a b] codes]|].
    - intros (n & q & wd & -> & K). rewrite K. eexists. split; [reflexivity|]. rewrite flat_map_app. cbn [flat_map look]. now rewrite app_nil_r.
    - intros _. exists pg. split; [reflexivity|]. now rewrite app_nil_r.
  Qed.
  Lemma run_flushable st : run_ok st -> flushable st. Proof. now intros [H _]. Qed.

  Fixpoint iter (n : nat) (st : state) : option state :=
    match n with O => Some st | S k => match step st with Running s => iter k s | _ => None end end.
  Lemma iter_app n m a b c : iter n a = Some b -> iter m b = Some c -> iter (n + m) a = Some c.
  Proof. revert a. induction n as [|n IH]; intros a; cbn [iter Nat.add]; [now intros [= ->]|]. destruct (step a); try discriminate. apply IH. Qed.
  Lemma iter_one a b : step a = Running b -> iter 1 a = Some b. Proof. cbn [iter]. now intros ->. Qed.
  Lemma iter_loop n a b k : iter n a = Some b -> loop pre single load (n + k) a = loop pre single load k b.
  Proof. revert a. induction n as [|n IH]; intros a; cbn [iter Nat.add]; [now intros [= ->]|]. cbn [loop]. destruct (step a); try discriminate. apply IH. Qed.

  Definition reg_ok (g : flags) (r : regs) (p : position) : Prop :=
    h r = ph p /\ v r = pv p /\ (fw g = true -> w r = pw p) /\ (fx g = true -> x r = px p) /\ (fy g = true -> y r = py p) /\ (fz g = true -> z r = pz p).
  Inductive stacks (extra : list position) : list flags -> list regs -> list position -> Prop :=
  | st_nil : stacks extra [] [] extra
  | st_cons g r p gs rs ps : reg_ok g r p -> stacks extra gs rs ps -> stacks extra (g :: gs) (r :: rs) (p :: ps).
  Record sim (vf : bool) (g : flags) (gs : list flags) (sc : R) (s : dvi) (st : state) (extra : list position) : Prop := {
    s_reg : reg_ok g (now s) (pos st);
    s_stack : stacks extra gs (saved s) (stack st);
    s_cur : forall f, cur s = Some f -> active st = Some f /\ good pre f;
    s_defs : defs s = fonts st;
    s_good : forall k f, In (k, f) (defs s) -> good pre f;
    s_scale : scale st = sc;
    s_vf : vf = false -> sc = 1;
    s_run : run_ok st }.

  Definition Pshows (f : font) (c : Z) (a b : R) (m : list mark) : Prop := forall st adv d,
    active st = Some f -> good pre f -> width_dvi f c = Some d -> ph (pos st) = a -> pv (pos st) = b -> run_ok st ->
    exists st1 n st2, putchar c adv st = Running st1 /\ iter n st1 = Some st2 /\
      file st2 = file st /\ fonts st2 = fonts st /\ active st2 = active st /\ stack st2 = stack st /\ scale st2 = scale st /\ frames st2 = frames st /\
      pos st2 = move_h (pos st) (IZR (if adv then d else 0)) /\ run_ok st2 /\ drawn st2 = drawn st ++ map (on_paper u) m.
  Definition Pperform (sc : R) (s : dvi) (c : command) (s' : dvi) (m : list mark) : Prop := forall vf g gs extra st cs b rest,
    sim vf g gs sc s st extra -> encodes c b -> file st = b ++ rest -> allowed vf g gs (c :: cs) ->
    exists n st' g' gs', iter n st = Some st' /\ sim vf g' gs' sc s' st' extra /\ allowed vf g' gs' cs /\ file st' = rest /\ frames st' = frames st /\
      drawn st' = drawn st ++ map (on_paper u) m.
  Definition Pexec (sc : R) (s : dvi) (cs : list command) (s' : dvi) (m : list mark) : Prop := forall vf g gs extra st bs rest,
    sim vf g gs sc s st extra -> encoded cs bs -> file st = bs ++ rest -> allowed vf g gs cs ->
    exists n st' g' gs', iter n st = Some st' /\ sim vf g' gs' sc s' st' extra /\ file st' = rest /\ frames st' = frames st /\
      drawn st' = drawn st ++ map (on_paper u) m.

  (** *** characters *)
  Lemma shows_tex n q wd c a b : Pshows (TeXfont n q wd) c a b [Glyph (TeXfont n q wd) c a b].
  Proof.
    intros st adv d A _ Wd <- <- Run. set (f := TeXfont n q wd) in *. unfold DviModel.putchar. rewrite A.
    assert ((if adv then width_dvi f c else Some 0%Z) = Some (if adv then d else 0%Z)) as E by (destruct adv; auto). rewrite E. cbn [f]. fold f.
    set (t := match text st with None => (ph (pos st), pv (pos st), []) | Some t => t end).
    assert (exists x0 y0 codes, t = (x0, y0, codes) /\ forallb (fun c => known (wd c)) codes = true /\ y0 = pv (pos st) /\ ph (pos st) = x0 + sum_widths f codes /\
      pending st = side_by_side u f (x0 * u) (- y0 * u) codes) as (x0 & y0 & codes & Et & K & Ey & Ex & Ep).
    { unfold t, pending. destruct Run as [Fl Rn]. unfold flushable in Fl. destruct (text st) as [[[x1 y1] codes]|].
      - destruct Fl as (n1 & q1 & wd1 & A1 & K1). rewrite A in A1. injection A1 as <- <- <-. rewrite A in *. destruct Rn as [Ry Rx]. exists x1, y1, codes. repeat split; auto.
      - exists (ph (pos st)), (pv (pos st)), []. cbn [forallb sum_widths side_by_side]. repeat split; auto. lra. }
    rewrite Et. set (s1 := set_pos (set_text st (Some (x0, y0, codes ++ [c]))) (move_h (pos st) (IZR (if adv then d else 0)))).
    assert (forallb (fun c => known (wd c)) (codes ++ [c]) = true) as K1.
    { rewrite forallb_app, K. cbn [forallb]. change (wd c) with (width_dvi f c). rewrite Wd. reflexivity. }
    assert (flushable s1) as F1 by (unfold flushable, s1; cbn; exists n, q, wd; auto).
    assert (drawn s1 = drawn st ++ map (on_paper u) [Glyph f c (ph (pos st)) (pv (pos st))]) as D1.
    { unfold drawn. cbn [page s1 set_pos set_text]. rewrite <- app_assoc. f_equal. rewrite Ep. unfold pending. cbn [text active s1 set_pos set_text]. rewrite A.
      rewrite side_by_side_app. f_equal. cbn [side_by_side map on_paper]. f_equal. f_equal; [rewrite Ex; ring|now rewrite Ey]. }
    destruct (negb adv || single) eqn:Fs.
    - destruct (flush_ok s1 F1) as (pg & -> & Epg). cbn [after]. eexists. exists O. eexists. split; [reflexivity|]. split; [reflexivity|]. cbn. repeat split; auto.
      unfold drawn, pending. cbn [page text]. rewrite app_nil_r, Epg. exact D1.
    - assert (run_ok s1) as R1.
      { split; [exact F1|]. cbn [text active s1 set_pos set_text pos move_h ph pv]. rewrite A. split; [exact Ey|]. rewrite sum_widths_app. cbn [sum_widths]. rewrite Wd.
        destruct adv; [|discriminate]. lra. }
      exists s1, O, s1. split; [reflexivity|]. split; [reflexivity|]. repeat (split; [first [reflexivity|exact A]|]). split; [exact R1|exact D1].
  Qed.

  Lemma shows_virtual n q wd chars k f fs c a b chunk cs s m : chars c = Some chunk -> encoded cs chunk ->
    Pexec (q * tfm / 1048576) (mkdvi (mkregs a b 0 0 0 0) [] (Some f) ((k, f) :: fs)) cs s m -> Pshows (Virtual n q wd chars ((k, f) :: fs)) c a b m.
  Proof.
    intros Ch En IH st adv d A G Wd <- <- Run. set (vf := Virtual n q wd chars ((k, f) :: fs)) in *.
    assert (text st = None) as Tx.
    { destruct Run as [Fl _]. unfold flushable in Fl. destruct (text st) as [[[x1 y1] codes]|]; auto. destruct Fl as (? & ? & ? & A1 & _). rewrite A in A1. discriminate. }
    inversion G as [|n1 q1 wd1 chars1 f1 fs1 mag_1000 Gf Al E1]. subst n1 q1 wd1 chars1. subst k f1 fs1.
    unfold DviModel.putchar. rewrite A. assert ((if adv then width_dvi vf c else Some 0%Z) = Some (if adv then d else 0%Z)) as E by (destruct adv; auto). rewrite E. cbn [vf]. fold vf. rewrite Ch.
    unfold push_dvistring, usefont, DviModel.flush. cbn [text]. rewrite Tx. cbn [after fonts getfont Z.eqb].
    set (fr := mkframe (file st) (fonts st) (active st) (move_h (pos st) (IZR (if adv then d else 0))) (stack st) (scale st)).
    set (s1 := set_active _ (Some f)).
    assert (run_ok s1) as R1 by (split; cbn; auto).
    assert (exists n2 st2 g' gs', iter n2 s1 = Some st2 /\ sim true g' gs' (q * tfm / 1048576) s st2 [] /\ file st2 = [] /\ frames st2 = fr :: frames st /\
      drawn st2 = drawn s1 ++ map (on_paper u) m) as (n2 & st2 & g' & gs' & I2 & S2 & F2 & Fr2 & D2).
    { destruct (IH true (mkflags false false false false) [] [] s1 chunk []) as (n2 & st2 & g' & gs' & I2 & S2 & F2 & Fr2 & D2).
      - constructor; cbn; auto; try (intros; congruence).
        + repeat split; cbn; intros; discriminate.
        + constructor.
        + intros f2 [= <-]. split; auto. apply (Gf 0%Z). now left.
        + exact (size_units pre vf num_pos den_pos mag_1000).
      - exact En.
      - cbn. now rewrite app_nil_r.
      - exact (Al c chunk cs Ch En).
      - exists n2, st2, g', gs'. auto 10. }
    assert (exists st3, step st2 = Running st3 /\ file st3 = file st /\ fonts st3 = fonts st /\ active st3 = active st /\ stack st3 = stack st /\ scale st3 = scale st /\ frames st3 = frames st /\
      pos st3 = move_h (pos st) (IZR (if adv then d else 0)) /\ run_ok st3 /\ drawn st3 = drawn st2) as (st3 & I3 & X).
    { unfold DviModel.step. rewrite F2. unfold pop_dvistring. destruct (flush_ok st2 (run_flushable _ (s_run _ _ _ _ _ _ _ S2))) as (pg & -> & Epg). cbn [after frames]. rewrite Fr2.
      cbn [fr f_file f_fonts f_active f_pos f_stack f_scale text page]. eexists. split; [reflexivity|]. cbn. repeat split; auto. unfold drawn at 1, pending. cbn [page text]. now rewrite app_nil_r. }
    assert (drawn s1 = drawn st) as D1 by (unfold drawn, pending; cbn; now rewrite Tx).
    assert (iter (n2 + 1) s1 = Some st3) as I4 by (eapply iter_app; [exact I2|now apply iter_one]).
    exists s1, (n2 + 1)%nat, st3. split.
    - destruct (negb adv || single); [|reflexivity]. unfold DviModel.flush. cbn [text s1 set_active]. reflexivity.
    - split; [exact I4|]. destruct X as (X1 & X2 & X3 & X4 & X5 & X6 & X7 & X8 & X9). repeat (split; [first [assumption|congruence]|]). rewrite X9, D2, D1. reflexivity.
  Qed.

  (** *** the other commands *)
  Ltac forms n F := let D := fresh in assert (n = 1 \/ n = 2 \/ n = 3 \/ n = 4)%nat as D by (unfold form in F; lia); destruct D as [-> | [-> | [-> | ->]]].
  Lemma step_set n st r : form n -> file st = (127 + Z.of_nat n)%Z :: r -> step st = arg n false (set_file st r) (fun c s => putchar c true s).
  Proof. intros F E. unfold DviModel.step. rewrite E. forms n F; reflexivity. Qed.
  Lemma step_put n st r : form n -> file st = (132 + Z.of_nat n)%Z :: r -> step st = arg n false (set_file st r) (fun c s => putchar c false s).
  Proof. intros F E. unfold DviModel.step. rewrite E. forms n F; reflexivity. Qed.
  Lemma step_setrule st r : file st = 132%Z :: r -> step st = arg 4 true (set_file st r) (fun a s => arg 4 true s (fun b s => putrule pre (IZR a * scale s) (IZR b * scale s) true s)).
  Proof. intros E. unfold DviModel.step. rewrite E. reflexivity. Qed.
  Lemma step_putrule st r : file st = 137%Z :: r -> step st = arg 4 true (set_file st r) (fun a s => arg 4 true s (fun b s => putrule pre (IZR a * scale s) (IZR b * scale s) false s)).
  Proof. intros E. unfold DviModel.step. rewrite E. reflexivity. Qed.
  Lemma step_push st r : file st = 141%Z :: r -> step st = Running (set_stack (set_file st r) (pos st :: stack st)).
  Proof. intros E. unfold DviModel.step. rewrite E. reflexivity. Qed.
  Lemma step_pop st r : file st = 142%Z :: r -> step st = after (flush (set_file st r)) (fun s => match stack s with [] => Failed | p :: r => Running (set_stack (set_pos s p) r) end).
  Proof. intros E. unfold DviModel.step. rewrite E. reflexivity. Qed.
  Lemma step_right n st r : form n -> file st = (142 + Z.of_nat n)%Z :: r -> step st = after (flush (set_file st r)) (fun s => arg n true s (fun b s => Running (set_pos s (move_h (pos s) (IZR b * scale s))))).
  Proof. intros F E. unfold DviModel.step. rewrite E. forms n F; reflexivity. Qed.
  Lemma step_down n st r : form n -> file st = (156 + Z.of_nat n)%Z :: r -> step st = after (flush (set_file st r)) (fun s => arg n true s (fun b s => Running (set_pos s (move_v (pos s) (IZR b * scale s))))).
  Proof. intros F E. unfold DviModel.step. rewrite E. forms n F; reflexivity. Qed.
  Lemma step_w0 st r : file st = 147%Z :: r -> step st = after (flush (set_file st r)) (fun s => Running (set_pos s (move_h (pos s) (pw (pos s))))).
  Proof. intros E. unfold DviModel.step. rewrite E. reflexivity. Qed.
  Lemma step_w n st r : form n -> file st = (147 + Z.of_nat n)%Z :: r -> step st = after (flush (set_file st r)) (fun s => arg n true s (fun b s => let p := pos s in let b := IZR b * scale s in Running (set_pos s (move_h (mkpos (ph p) (pv p) b (px p) (py p) (pz p)) b)))).
  Proof. intros F E. unfold DviModel.step. rewrite E. forms n F; reflexivity. Qed.
  Lemma step_x0 st r : file st = 152%Z :: r -> step st = after (flush (set_file st r)) (fun s => Running (set_pos s (move_h (pos s) (px (pos s))))).
  Proof. intros E. unfold DviModel.step. rewrite E. reflexivity. Qed.
  Lemma step_x n st r : form n -> file st = (152 + Z.of_nat n)%Z :: r -> step st = after (flush (set_file st r)) (fun s => arg n true s (fun b s => let p := pos s in let b := IZR b * scale s in Running (set_pos s (move_h (mkpos (ph p) (pv p) (pw p) b (py p) (pz p)) b)))).
  Proof. intros F E. unfold DviModel.step. rewrite E. forms n F; reflexivity. Qed.
  Lemma step_y0 st r : file st = 161%Z :: r -> step st = after (flush (set_file st r)) (fun s => Running (set_pos s (move_v (pos s) (py (pos s))))).
  Proof. intros E. unfold DviModel.step. rewrite E. reflexivity. Qed.
  Lemma step_y n st r : form n -> file st = (161 + Z.of_nat n)%Z :: r -> step st = after (flush (set_file st r)) (fun s => arg n true s (fun b s => let p := pos s in let b := IZR b * scale s in Running (set_pos s (move_v (mkpos (ph p) (pv p) (pw p) (px p) b (pz p)) b)))).
  Proof. intros F E. unfold DviModel.step. rewrite E. forms n F; reflexivity. Qed.
  Lemma step_z0 st r : file st = 166%Z :: r -> step st = after (flush (set_file st r)) (fun s => Running (set_pos s (move_v (pos s) (pz (pos s))))).
  Proof. intros E. unfold DviModel.step. rewrite E. reflexivity. Qed.
  Lemma step_z n st r : form n -> file st = (166 + Z.of_nat n)%Z :: r -> step st = after (flush (set_file st r)) (fun s => arg n true s (fun b s => let p := pos s in let b := IZR b * scale s in Running (set_pos s (move_v (mkpos (ph p) (pv p) (pw p) (px p) (py p) b) b)))).
  Proof. intros F E. unfold DviModel.step. rewrite E. forms n F; reflexivity. Qed.
  Lemma step_char c st r : (0 <= c <= 127)%Z -> file st = c :: r -> step st = putchar c true (set_file st r).
  Proof. intros C E. unfold DviModel.step. rewrite E. destruct (_ && _)%bool eqn:B; [reflexivity|lia]. Qed.
  Lemma step_fntnum k st r : (0 <= k <= 63)%Z -> file st = (171 + k)%Z :: r -> step st = usefont pre k (set_file st r).
  Proof.
    intros K E. unfold DviModel.step, among. rewrite E.
    repeat match goal with |- (if ?b then _ else _) = _ => let B := fresh in destruct b eqn:B; [try (exfalso; lia)|try (exfalso; lia)] end.
    f_equal. lia.
  Qed.
  Lemma step_fnt n st r : form n -> file st = (234 + Z.of_nat n)%Z :: r -> step st = arg n (n =? 4)%nat (set_file st r) (fun k s => usefont pre k s).
  Proof. intros F E. unfold DviModel.step. rewrite E. forms n F; reflexivity. Qed.
  Lemma step_xxx n st r : form n -> file st = (238 + Z.of_nat n)%Z :: r -> step st = arg n false (set_file st r) (fun m s => let '(t, rest) := fread (Z.to_nat m) (file s) in special pre t (set_file s rest)).
  Proof. intros F E. unfold DviModel.step. rewrite E. forms n F; reflexivity. Qed.
  Lemma step_fntdef n st r : form n -> file st = (242 + Z.of_nat n)%Z :: r -> step st = definefont pre load n (set_file st r).
  Proof. intros F E. unfold DviModel.step. rewrite E. forms n F; reflexivity. Qed.

  Lemma arg_known n signed b rest s k : inrange signed n b -> file s = bigendian n b ++ rest -> arg n signed s k = k b (set_file s rest).
  Proof. intros R E. unfold arg. rewrite E, readint_decodes by exact R. reflexivity. Qed.

  Lemma arg_byte b rest s k : file s = b :: rest -> arg 1 false s k = k b (set_file s rest).
  Proof. intros E. unfold arg. rewrite E. unfold readint. cbn [readint_loop andb]. replace (256 * 0 + b)%Z with b by lia. reflexivity. Qed.

  Lemma moved vf g gs sc s st extra rest p' g' r' pg : sim vf g gs sc s st extra -> reg_ok g' r' p' -> flat_map (look u) pg = drawn st ->
    sim vf g' gs sc (go s r') (mkst rest (fonts st) (active st) p' (stack st) (scale st) None (frames st) pg) extra /\
    drawn (mkst rest (fonts st) (active st) p' (stack st) (scale st) None (frames st) pg) = drawn st.
  Proof.
    intros S R E. split.
    - destruct S. constructor; cbn; auto. split; cbn; auto.
    - unfold drawn at 1, pending. cbn. now rewrite app_nil_r.
  Qed.
  Ltac start := intros vf g gs extra st cs bytes rest Sm E F A; inversion E; subst; clear E; cbn [app] in F; cbn [allowed] in A.
  (** commands that flush, read an argument of n bytes and move *)
  Ltac move_arg S F lem g' r' p' :=
    match goal with Fm : form ?n, In : inrange true ?n ?b |- _ =>
      match type of S with sim ?vf ?g ?gs ?sc ?s ?st ?extra =>
        match type of F with file st = _ :: _ ++ ?rest =>
          destruct (flush_ok (set_file st (bigendian n b ++ rest)) (run_flushable _ (s_run _ _ _ _ _ _ _ S))) as (pg & Ef & Epg);
          destruct (moved vf g gs sc s st extra rest p' g' r' pg S) as [S' D']; [ |exact Epg|
          exists 1%nat; eexists; exists g', gs; split;
            [apply iter_one; rewrite (lem n st _ Fm F), Ef; cbn [after]; rewrite (arg_known n true b rest) by (exact In || reflexivity); reflexivity|];
          split; [exact S'|]; split; [|split; [reflexivity|split; [reflexivity|cbn [map]; rewrite app_nil_r; exact D']]]]
        end
      end
    end.
  Ltac move_plain S F lem g' r' p' :=
      match type of S with sim ?vf ?g ?gs ?sc ?s ?st ?extra =>
        match type of F with file st = _ :: ?rest =>
          destruct (flush_ok (set_file st rest) (run_flushable _ (s_run _ _ _ _ _ _ _ S))) as (pg & Ef & Epg);
          destruct (moved vf g gs sc s st extra rest p' g' r' pg S) as [S' D']; [ |exact Epg|
          exists 1%nat; eexists; exists g', gs; split;
            [apply iter_one; rewrite (lem st _ F), Ef; cbn [after]; reflexivity|];
          split; [exact S'|]; split; [|split; [reflexivity|split; [reflexivity|cbn [map]; rewrite app_nil_r; exact D']]]]
        end
      end.
  Ltac regs_go S := let X := fresh in let Y := fresh in pose proof (s_reg _ _ _ _ _ _ _ S) as X; pose proof (s_scale _ _ _ _ _ _ _ S) as Y;
    destruct X as (? & ? & ? & ? & ? & ?); unfold reg_ok; cbn; repeat split; try (intros; now auto); try (intros; rewrite ?Y); try (intros; (reflexivity || lra || (rewrite Rmult_comm; (reflexivity || lra)))).

  Lemma perf_right sc s b : Pperform sc s (Right b) (go s (right (now s) (sc * IZR b))) [].
  Proof.
    start. move_arg Sm F step_right g (right (now s) (sc * IZR b)) (move_h (pos st) (IZR b * scale st)); [|exact A]. regs_go Sm.
  Qed.
  Lemma perf_down sc s b : Pperform sc s (Down b) (go s (down (now s) (sc * IZR b))) [].
  Proof.
    start. move_arg Sm F step_down g (down (now s) (sc * IZR b)) (move_v (pos st) (IZR b * scale st)); [|exact A]. regs_go Sm.
  Qed.
  Lemma perf_w sc s b : Pperform sc s (W b) (go s (right (mkregs (h (now s)) (v (now s)) (sc * IZR b) (x (now s)) (y (now s)) (z (now s))) (sc * IZR b))) [].
  Proof.
    start. move_arg Sm F step_w (mkflags true (fx g) (fy g) (fz g)) (right (mkregs (h (now s)) (v (now s)) (sc * IZR b) (x (now s)) (y (now s)) (z (now s))) (sc * IZR b)) (move_h (mkpos (ph (pos st)) (pv (pos st)) (IZR b * scale st) (px (pos st)) (py (pos st)) (pz (pos st))) (IZR b * scale st)); [|exact A]. regs_go Sm.
  Qed.
  Lemma perf_w0 sc s : Pperform sc s W0 (go s (right (now s) (w (now s)))) [].
  Proof.
    start. destruct A as [Fg A]. move_plain Sm F step_w0 g (right (now s) (w (now s))) (move_h (pos st) (pw (pos st))); [|exact A].
    regs_go Sm. match goal with K : fw g = true -> _ |- _ => rewrite (K Fg); lra end.
  Qed.
  Lemma perf_x sc s b : Pperform sc s (X b) (go s (right (mkregs (h (now s)) (v (now s)) (w (now s)) (sc * IZR b) (y (now s)) (z (now s))) (sc * IZR b))) [].
  Proof.
    start. move_arg Sm F step_x (mkflags (fw g) true (fy g) (fz g)) (right (mkregs (h (now s)) (v (now s)) (w (now s)) (sc * IZR b) (y (now s)) (z (now s))) (sc * IZR b)) (move_h (mkpos (ph (pos st)) (pv (pos st)) (pw (pos st)) (IZR b * scale st) (py (pos st)) (pz (pos st))) (IZR b * scale st)); [|exact A]. regs_go Sm.
  Qed.
  Lemma perf_x0 sc s : Pperform sc s X0 (go s (right (now s) (x (now s)))) [].
  Proof.
    start. destruct A as [Fg A]. move_plain Sm F step_x0 g (right (now s) (x (now s))) (move_h (pos st) (px (pos st))); [|exact A].
    regs_go Sm. match goal with K : fx g = true -> _ |- _ => rewrite (K Fg); lra end.
  Qed.
  Lemma perf_y sc s b : Pperform sc s (Y b) (go s (down (mkregs (h (now s)) (v (now s)) (w (now s)) (x (now s)) (sc * IZR b) (z (now s))) (sc * IZR b))) [].
  Proof.
    start. move_arg Sm F step_y (mkflags (fw g) (fx g) true (fz g)) (down (mkregs (h (now s)) (v (now s)) (w (now s)) (x (now s)) (sc * IZR b) (z (now s))) (sc * IZR b)) (move_v (mkpos (ph (pos st)) (pv (pos st)) (pw (pos st)) (px (pos st)) (IZR b * scale st) (pz (pos st))) (IZR b * scale st)); [|exact A]. regs_go Sm.
  Qed.
  Lemma perf_y0 sc s : Pperform sc s Y0 (go s (down (now s) (y (now s)))) [].
  Proof.
    start. destruct A as [Fg A]. move_plain Sm F step_y0 g (down (now s) (y (now s))) (move_v (pos st) (py (pos st))); [|exact A].
    regs_go Sm. match goal with K : fy g = true -> _ |- _ => rewrite (K Fg); lra end.
  Qed.
  Lemma perf_z sc s b : Pperform sc s (Zz b) (go s (down (mkregs (h (now s)) (v (now s)) (w (now s)) (x (now s)) (y (now s)) (sc * IZR b)) (sc * IZR b))) [].
  Proof.
    start. move_arg Sm F step_z (mkflags (fw g) (fx g) (fy g) true) (down (mkregs (h (now s)) (v (now s)) (w (now s)) (x (now s)) (y (now s)) (sc * IZR b)) (sc * IZR b)) (move_v (mkpos (ph (pos st)) (pv (pos st)) (pw (pos st)) (px (pos st)) (py (pos st)) (IZR b * scale st)) (IZR b * scale st)); [|exact A]. regs_go Sm.
  Qed.
  Lemma perf_z0 sc s : Pperform sc s Z0 (go s (down (now s) (z (now s)))) [].
  Proof.
    start. destruct A as [Fg A]. move_plain Sm F step_z0 g (down (now s) (z (now s))) (move_v (pos st) (pz (pos st))); [|exact A].
    regs_go Sm. match goal with K : fz g = true -> _ |- _ => rewrite (K Fg); lra end.
  Qed.

  Lemma drawn_plain a b c d e f g pg : drawn (mkst a b c d e f None g pg) = flat_map (look u) pg.
  Proof. unfold drawn, pending. cbn. apply app_nil_r. Qed.
  (** the rule itself *)
  Lemma putrule_ok st r a b sc adv : flushable st -> reg_ok (mkflags false false false false) r (pos st) -> scale st = sc ->
    exists pg, putrule pre (IZR a * scale st) (IZR b * scale st) adv st =
      Running (mkst (file st) (fonts st) (active st) (if adv then move_h (pos st) (IZR b * scale st * scale st) else pos st) (stack st) (scale st) None (frames st) pg) /\
    flat_map (look u) pg = drawn st ++ map (on_paper u) (rule r (sc * IZR a) (sc * IZR b)).
  Proof.
    intros Fl (Eh & Ev & _) <-. unfold putrule. destruct (flush_ok st Fl) as (pg & -> & Epg). cbn [after pos scale page].
    rewrite (Rmult_comm (scale st) (IZR a)), (Rmult_comm (scale st) (IZR b)). unfold rpos, rule.
    destruct (Rlt_dec 0 (IZR a * scale st)) as [Ha|Ha]; [destruct (Rlt_dec 0 (IZR b * scale st)) as [Hb|Hb]|]; cbn [andb].
    - exists (pg ++ [Rect (ph (pos st) * u) (- pv (pos st) * u) (IZR b * scale st * u) (IZR a * scale st * u)]). split; [destruct adv; reflexivity|].
      rewrite flat_map_app, Epg. cbn [flat_map look map on_paper]. rewrite Eh, Ev. reflexivity.
    - exists pg. split; [destruct adv; reflexivity|]. now rewrite Epg, app_nil_r.
    - exists pg. split; [destruct adv; reflexivity|]. now rewrite Epg, app_nil_r.
  Qed.
  Lemma reg_none g r p : reg_ok g r p -> reg_ok (mkflags false false false false) r p.
  Proof. intros (A & B & _). repeat split; auto; discriminate. Qed.

  Lemma perf_setrule sc s a b : Pperform sc s (SetRule a b) (go s (right (now s) (sc * IZR b))) (rule (now s) (sc * IZR a) (sc * IZR b)).
  Proof.
    start. destruct A as [Vf A]. pose proof (s_vf _ _ _ _ _ _ _ Sm Vf) as ->. pose proof (s_scale _ _ _ _ _ _ _ Sm) as Sc. rewrite <- app_assoc in F.
    destruct (putrule_ok (set_file (set_file (set_file st (bigendian 4 a ++ bigendian 4 b ++ rest)) (bigendian 4 b ++ rest)) rest) (now s) a b 1 true) as (pg & Ep & Dp).
    - exact (run_flushable _ (s_run _ _ _ _ _ _ _ Sm)).
    - exact (reg_none _ _ _ (s_reg _ _ _ _ _ _ _ Sm)).
    - exact Sc.
    - exists 1%nat. eexists. exists g, gs. split.
      + apply iter_one. rewrite (step_setrule st _ F). rewrite (arg_known 4 true a (bigendian 4 b ++ rest)) by (assumption || reflexivity).
        rewrite (arg_known 4 true b rest) by (assumption || reflexivity). exact Ep.
      + cbn [file fonts active pos stack scale frames set_file]. split; [|split; [exact A|split; [reflexivity|split; [reflexivity|]]]].
        * destruct Sm. constructor; cbn; auto; [|split; cbn; auto]. rewrite Sc. destruct s_reg0 as (R1 & R2 & R3 & R4 & R5 & R6). repeat split; cbn; auto. lra.
        * rewrite drawn_plain. exact Dp.
  Qed.
  Lemma perf_putrule sc s a b : Pperform sc s (PutRule a b) s (rule (now s) (sc * IZR a) (sc * IZR b)).
  Proof.
    start. pose proof (s_scale _ _ _ _ _ _ _ Sm) as Sc. rewrite <- app_assoc in F.
    destruct (putrule_ok (set_file (set_file (set_file st (bigendian 4 a ++ bigendian 4 b ++ rest)) (bigendian 4 b ++ rest)) rest) (now s) a b sc false) as (pg & Ep & Dp).
    - exact (run_flushable _ (s_run _ _ _ _ _ _ _ Sm)).
    - exact (reg_none _ _ _ (s_reg _ _ _ _ _ _ _ Sm)).
    - exact Sc.
    - exists 1%nat. eexists. exists g, gs. split.
      + apply iter_one. rewrite (step_putrule st _ F). rewrite (arg_known 4 true a (bigendian 4 b ++ rest)) by (assumption || reflexivity).
        rewrite (arg_known 4 true b rest) by (assumption || reflexivity). exact Ep.
      + cbn [file fonts active pos stack scale frames set_file]. split; [|split; [exact A|split; [reflexivity|split; [reflexivity|]]]].
        * destruct Sm. constructor; cbn; auto. split; cbn; auto.
        * rewrite drawn_plain. exact Dp.
  Qed.

  Lemma perf_push sc s : Pperform sc s Push (mkdvi (now s) (now s :: saved s) (cur s) (defs s)) [].
  Proof.
    start. exists 1%nat. eexists. exists g, (g :: gs). split; [apply iter_one; exact (step_push st _ F)|].
    split; [|split; [exact A|split; [reflexivity|split; [reflexivity|cbn [map]; now rewrite app_nil_r]]]]. destruct Sm. constructor; cbn; auto. constructor; auto.
  Qed.
  Lemma perf_pop sc s r st' : saved s = r :: st' -> Pperform sc s Pop (mkdvi r st' (cur s) (defs s)) [].
  Proof.
    intros Sv. start. pose proof (s_stack _ _ _ _ _ _ _ Sm) as K. rewrite Sv in K. inversion K as [|g1 r1 p1 gs1 rs1 ps1 Rk Sk Eg Er Ep]. subst.
    destruct (flush_ok (set_file st rest) (run_flushable _ (s_run _ _ _ _ _ _ _ Sm))) as (pg & Ef & Epg).
    exists 1%nat. eexists. exists g1, gs1. split.
    { apply iter_one. rewrite (step_pop st _ F), Ef. cbn [after stack set_file]. rewrite <- Ep. reflexivity. }
    cbn [set_stack set_pos file fonts active pos stack scale frames text page set_file]. split; [|split; [exact A|split; [reflexivity|split; [reflexivity|]]]].
    - destruct Sm. constructor; cbn; auto. split; cbn; auto.
    - cbn [map]. rewrite app_nil_r. etransitivity; [apply drawn_plain|exact Epg].
  Qed.

  Lemma usefont_ok st k f : flushable st -> getfont (fonts st) k = Some f -> exists pg, usefont pre k st =
    Running (mkst (file st) (fonts st) (Some f) (pos st) (stack st) (scale st) None (frames st) pg) /\ flat_map (look u) pg = drawn st.
  Proof. intros Fl G. unfold usefont. destruct (flush_ok st Fl) as (pg & -> & Epg). cbn [after fonts]. rewrite G. exists pg. split; [reflexivity|exact Epg]. Qed.
  Lemma perf_fnt sc s k f : getfont (defs s) k = Some f -> Pperform sc s (Fnt k) (mkdvi (now s) (saved s) (Some f) (defs s)) [].
  Proof.
    intros G vf g gs extra st cs bytes rest Sm E F A. cbn [allowed] in A. pose proof G as G0. rewrite (s_defs _ _ _ _ _ _ _ Sm) in G.
    assert (exists pg, step st = Running (mkst rest (fonts st) (Some f) (pos st) (stack st) (scale st) None (frames st) pg) /\ flat_map (look u) pg = drawn st) as (pg & Es & Epg).
    { inversion E; subst; clear E; cbn [app] in F.
      - destruct (usefont_ok (set_file st rest) k f (run_flushable _ (s_run _ _ _ _ _ _ _ Sm)) G) as (pg & Eu & Epg). exists pg. split; [|exact Epg].
        rewrite (step_fntnum k st rest) by assumption. exact Eu.
      - destruct (usefont_ok (set_file (set_file st (bigendian n k ++ rest)) rest) k f (run_flushable _ (s_run _ _ _ _ _ _ _ Sm)) G) as (pg & Eu & Epg). exists pg. split; [|exact Epg].
        rewrite (step_fnt n st _ H0 F). rewrite (arg_known n (n =? 4)%nat k rest) by (assumption || reflexivity). exact Eu. }
    exists 1%nat. eexists. exists g, gs. split; [apply iter_one; exact Es|]. split; [|split; [exact A|split; [reflexivity|split; [reflexivity|]]]].
    - destruct (getfont_in _ _ _ G0) as (j & J). destruct Sm. constructor; cbn; auto.
      + intros f0 [= <-]. split; auto. eapply s_good0. exact J.
      + split; cbn; auto.
    - cbn [map]. rewrite app_nil_r. etransitivity; [apply drawn_plain|exact Epg].
  Qed.

  Lemma perf_xxx sc s t : Pperform sc s (Xxx t) s (notes t (now s)).
  Proof.
    start. rewrite <- app_assoc in F. rename H0 into Fm. rename H1 into In. rename H2 into As.
    set (s2 := set_file (set_file (set_file st (bigendian n (Z.of_nat (length t)) ++ t ++ rest)) (t ++ rest)) rest).
    assert (step st = special pre t s2) as Es.
    { rewrite (step_xxx n st _ Fm F). rewrite (arg_known n false (Z.of_nat (length t)) (t ++ rest)) by (assumption || reflexivity).
      unfold fread. cbn [file set_file]. rewrite Nat2Z.id, firstn_exact, skipn_exact. reflexivity. }
    assert (forallb (fun c => c <? 128)%Z t = true) as Ab. { apply forallb_forall. intros c Hc. unfold ascii in As. rewrite Forall_forall in As. specialize (As c Hc). cbn in As. lia. }
    unfold special in Es. rewrite Ab in Es. unfold notes. destruct (list_eq_dec _ _ _) as [Pf|Pf].
    - apply starts_iff in Pf. rewrite Pf in Es. destruct (flush_ok s2 (run_flushable _ (s_run _ _ _ _ _ _ _ Sm))) as (pg & Ef & Epg). rewrite Ef in Es. cbn [after] in Es.
      exists 1%nat. eexists. exists g, gs. split; [apply iter_one; exact Es|]. cbn [set_page s2 set_file file fonts active pos stack scale frames text page].
      split; [|split; [exact A|split; [reflexivity|split; [reflexivity|]]]].
      + destruct Sm. constructor; cbn; auto. split; cbn; auto.
      + etransitivity; [apply drawn_plain|]. rewrite flat_map_app, Epg. cbn [flat_map look map on_paper]. rewrite app_nil_r. change (drawn s2) with (drawn st). f_equal.
        destruct (s_reg _ _ _ _ _ _ _ Sm) as (Eh & Ev & _). rewrite Eh, Ev. reflexivity.
    - destruct (starts pyx_prefix t) eqn:B; [apply starts_iff in B; contradiction|].
      exists 1%nat. exists s2, g, gs. split; [apply iter_one; exact Es|]. split; [|split; [exact A|split; [reflexivity|split; [reflexivity|]]]].
      + destruct Sm. constructor; cbn; auto.
      + cbn [map]. now rewrite app_nil_r.
  Qed.

  Lemma perf_fntdef sc s k c q d name f : load name c (IZR q / tfm) (IZR d / tfm) = Some f ->
    Pperform sc s (FntDef k c q d name) (mkdvi (now s) (saved s) (cur s) (putfont (defs s) k f)) [].
  Proof.
    intros Ld. start. destruct A as [Vf A]. repeat (rewrite <- app_assoc in F; cbn [app] in F).
    assert (step st = Running (mkst rest (putfont (fonts st) k f) (active st) (pos st) (stack st) (scale st) (text st) (frames st) (page st))) as Es.
    { rewrite (step_fntdef n st _ H4 F). unfold definefont.
      erewrite (arg_known n (n =? 4)%nat k) by (eassumption || reflexivity). erewrite (arg_known 4 true c) by (eassumption || reflexivity).
      erewrite (arg_known 4 true q) by (eassumption || reflexivity). erewrite (arg_known 4 true d) by (eassumption || reflexivity).
      erewrite arg_byte by reflexivity. erewrite arg_byte by reflexivity.
      cbn [file set_file]. unfold fread.
      replace (Z.to_nat (Z.of_nat (length area) + Z.of_nat (length name0))) with (length (area ++ name0)) by (rewrite app_length; lia).
      rewrite (app_assoc area name0), firstn_exact, skipn_exact, Ld. reflexivity. }
    exists 1%nat. eexists. exists g, gs. split; [apply iter_one; exact Es|]. split; [|split; [exact A|split; [reflexivity|split; [reflexivity|]]]].
    - destruct Sm. constructor; cbn; auto.
      + now rewrite s_defs0.
      + intros j e He. destruct (putfont_in _ _ _ _ _ He) as [->|I]; eauto.
    - cbn [map]. now rewrite app_nil_r.
  Qed.

  Lemma char_ok vf g gs sc s st extra c f d m adv rest st0 : sim vf g gs sc s st extra -> cur s = Some f -> width_dvi f c = Some d -> Pshows f c (h (now s)) (v (now s)) m ->
    st0 = set_file st rest -> step st = putchar c adv st0 ->
    exists n st', iter n st = Some st' /\ sim vf g gs sc (if adv then go s (right (now s) (IZR d)) else s) st' extra /\ file st' = rest /\ frames st' = frames st /\
      drawn st' = drawn st ++ map (on_paper u) m.
  Proof.
    intros Sm Cu Wd Sh -> Es. pose proof (s_reg _ _ _ _ _ _ _ Sm) as (R1 & R2 & R3 & R4 & R5 & R6). destruct (s_cur _ _ _ _ _ _ _ Sm f Cu) as [Ac Gf].
    destruct (Sh (set_file st rest) adv d Ac Gf Wd ltac:(cbn; congruence) ltac:(cbn; congruence) (s_run _ _ _ _ _ _ _ Sm)) as (st1 & n & st2 & Ep & Ei & X1 & X2 & X3 & X4 & X5 & X6 & X7 & X8 & X9).
    exists (S n), st2. split; [cbn [iter]; rewrite Es, Ep; exact Ei|]. cbn [set_file file fonts active stack scale frames pos] in *.
    split; [|split; [exact X1|split; [exact X6|exact X9]]]. destruct Sm. destruct adv; constructor; cbn; auto; try congruence; try (now rewrite X2); try (now rewrite X4);
      try (intros f0 Hf; destruct (s_cur0 f0 Hf); split; congruence || assumption); rewrite X7; repeat split; cbn; auto; try lra.
  Qed.
  Lemma perf_set sc s c f d m : cur s = Some f -> width_dvi f c = Some d -> Pshows f c (h (now s)) (v (now s)) m ->
    Pperform sc s (SetChar c) (go s (right (now s) (IZR d))) m.
  Proof.
    intros Cu Wd Sh vf g gs extra st cs bytes rest Sm E F A. cbn [allowed] in A. inversion E; subst; clear E; cbn [app] in F.
    - destruct (char_ok vf g gs sc s st extra c f d m true rest (set_file st rest) Sm Cu Wd Sh eq_refl) as (n & st' & X & Y & Z1); [now apply step_char|]. exists n, st', g, gs. tauto.
    - destruct (char_ok vf g gs sc s st extra c f d m true rest (set_file (set_file st (bigendian n c ++ rest)) rest) Sm Cu Wd Sh eq_refl) as (n' & st' & X & Y & Z1).
      + rewrite (step_set n st _ H0 F). rewrite (arg_known n false c rest) by (assumption || reflexivity). reflexivity.
      + exists n', st', g, gs. tauto.
  Qed.
  Lemma perf_put sc s c f d m : cur s = Some f -> width_dvi f c = Some d -> Pshows f c (h (now s)) (v (now s)) m -> Pperform sc s (PutChar c) s m.
  Proof.
    intros Cu Wd Sh vf g gs extra st cs bytes rest Sm E F A. cbn [allowed] in A. inversion E; subst; clear E; cbn [app] in F.
    destruct (char_ok vf g gs sc s st extra c f d m false rest (set_file (set_file st (bigendian n c ++ rest)) rest) Sm Cu Wd Sh eq_refl) as (n' & st' & X & Y & Z1).
    - rewrite (step_put n st _ H0 F). rewrite (arg_known n false c rest) by (assumption || reflexivity). reflexivity.
    - exists n', st', g, gs. tauto.
  Qed.
  Lemma perf_nop sc s : Pperform sc s Nop s [].
  Proof. intros vf g gs extra st cs bytes rest Sm E F A. destruct A. Qed.

  Lemma exec_ok_nil sc s : Pexec sc s [] s [].
  Proof.
    intros vf g gs extra st bs rest Sm E F A. inversion E. subst. exists O, st, g, gs. cbn [iter map app] in *. rewrite app_nil_r. auto.
  Qed.
  Lemma exec_ok_cons sc s c s1 m1 cs s2 m2 : Pperform sc s c s1 m1 -> Pexec sc s1 cs s2 m2 -> Pexec sc s (c :: cs) s2 (m1 ++ m2).
  Proof.
    intros P1 P2 vf g gs extra st bs rest Sm E F A. inversion E as [|c0 cs0 b bs0 Ec Ecs]. subst. rewrite <- app_assoc in F.
    destruct (P1 vf g gs extra st cs b (bs0 ++ rest) Sm Ec F A) as (n1 & st1 & g1 & gs1 & I1 & S1 & A1 & F1 & Fr1 & D1).
    destruct (P2 vf g1 gs1 extra st1 bs0 rest S1 Ecs F1 A1) as (n2 & st2 & g2 & gs2 & I2 & S2 & F2 & Fr2 & D2).
    exists (n1 + n2)%nat, st2, g2, gs2. split; [eapply iter_app; eauto|]. split; [exact S2|]. split; [exact F2|]. split; [congruence|].
    rewrite D2, D1, map_app. now rewrite app_assoc.
  Qed.

  Scheme exec_mut := Minimality for exec Sort Prop
    with perform_mut := Minimality for perform Sort Prop
    with shows_mut := Minimality for shows Sort Prop.
  Theorem exec_simulated sc s cs s' m : exec tfm load sc s cs s' m -> Pexec sc s cs s' m.
  Proof.
    revert sc s cs s' m. apply (exec_mut tfm load Pexec Pperform Pshows).
    - apply exec_ok_nil.
    - intros; eapply exec_ok_cons; eauto.
    - intros; eapply perf_set; eauto.
    - intros; eapply perf_put; eauto.
    - apply perf_setrule.
    - apply perf_putrule.
    - apply perf_nop.
    - apply perf_push.
    - apply perf_pop.
    - apply perf_right.
    - apply perf_w0.
    - apply perf_w.
    - apply perf_x0.
    - apply perf_x.
    - apply perf_down.
    - apply perf_y0.
    - apply perf_y.
    - apply perf_z0.
    - apply perf_z.
    - apply perf_fnt.
    - apply perf_xxx.
    - apply perf_fntdef.
    - apply shows_tex.
    - intros; eapply shows_virtual; eauto.
  Qed.
End Sim.
