(** Properties of DviModel.v: C71. *)
From Coq Require Import Reals ZArith List Bool Lra Lia ZifyBool.
From Verif Require Import ReaderModel ReaderSpec ReaderProps DviModel DviSpec DviProofs.
Import ListNotations.
Open Scope R_scope.

Definition all_set := mkflags true true true true.
Lemma allowed_main cs : forall st, (forall g, In g st -> g = all_set) -> ~ In Nop cs -> allowed false all_set st cs.
Proof.
  induction cs as [|c cs IH]; intros st S N; cbn [allowed]; auto.
  assert (~ In Nop cs) as N' by (intros H; apply N; now right).
  destruct c; auto; try (split; [reflexivity|]; apply IH; assumption); try (apply (IH st); assumption).
  - apply N. now left.
  - apply IH; auto. intros g [<-|H]; auto.
  - destruct st as [|g st]; auto. rewrite (S g) by now left. apply IH; auto. intros e He. apply S. now right.
Qed.

(** the registers at the beginning of a page *)
Definition start_page (fs : list (Z * font)) : dvi := mkdvi (mkregs 0 0 0 0 0 0) [] None fs.

Lemma skip_nops_known k header r : length header = 44%nat -> forall fuel, (k < fuel)%nat -> skip_nops fuel (repeat 138%Z k ++ 139%Z :: header ++ r) = Some (Some r).
Proof.
  intros L. induction k as [|k IH]; intros fuel F; destruct fuel as [|fuel]; try lia; cbn [repeat app skip_nops].
  - cbn [Z.eqb Pos.eqb]. rewrite app_length, L. destruct (44 <=? _)%Z eqn:E; [|lia]. rewrite <- L, skipn_exact. reflexivity.
  - cbn [Z.eqb Pos.eqb]. apply IH. lia.
Qed.
Lemma loop_more pre single load n : forall a r, loop pre single load n a = Ended r -> forall k, (n <= k)%nat -> loop pre single load k a = Ended r.
Proof.
  induction n as [|n IH]; intros a r E k K; cbn [loop] in E; [discriminate|]. destruct k as [|k]; [lia|]. cbn [loop].
  destruct (step pre single load a); auto. apply IH; auto. lia.
Qed.

(** A page is what the standard says: every glyph, rule and special is at the right place, in the right order, however
    characters are collected to texts. *)
Theorem dvi_page : forall pre single load s nops header cs bs rest s' m,
  0 < num pre -> 0 < den pre -> (forall name c q d f, load name c q d = Some f -> good pre f) ->
  file s = repeat 138%Z nops ++ 139%Z :: header ++ bs ++ 140%Z :: rest -> length header = 44%nat -> scale s = 1 ->
  (forall k f, In (k, f) (fonts s) -> good pre f) ->
  encoded cs bs -> ~ In Nop cs -> exec (tfmconv pre) load 1 (start_page (fonts s)) cs s' m ->
  exists n st, (forall fuel, (n <= fuel)%nat -> readpage pre single load fuel s = Page (page st) st) /\
    flat_map (look (unit_pt pre)) (page st) = map (on_paper (unit_pt pre)) m /\
    file st = rest /\ fonts st = defs s' /\ scale st = 1 /\ frames st = frames s.
Proof.
  intros pre single load s nops header cs bs rest s' m Np Dp Lg F L Sc Gd En Nn Ex. rewrite <- unit_known by lra.
  set (st0 := mkst (bs ++ 140%Z :: rest) (fonts s) (active s) (mkpos 0 0 0 0 0 0) (stack s) (scale s) None (frames s) []).
  destruct (exec_simulated pre single load Np Dp Lg 1 (start_page (fonts s)) cs s' m Ex false all_set [] (stack s) st0 bs (140%Z :: rest)) as (n & st1 & g & gs & I & S & F1 & Fr & D).
  - constructor; cbn; auto.
    + repeat split; reflexivity.
    + constructor.
    + discriminate.
    + split; cbn; auto.
  - exact En.
  - reflexivity.
  - apply allowed_main; auto. intros g [].
  - destruct (flush_ok pre (set_file st1 rest) (run_flushable _ (s_run _ _ _ _ _ _ _ _ S))) as (pg & Ef & Epg).
    set (st2 := mkst rest (fonts st1) (active st1) (pos st1) (stack st1) (scale st1) None (frames st1) pg).
    assert (step pre single load st1 = Ended st2) as E2.
    { unfold step. rewrite F1. cbn [among andb Z.leb Z.compare Pos.compare Pos.compare_cont Z.eqb Pos.eqb Z.ltb Z.add Pos.add Pos.succ].
      change (DviModel.after (flush pre (set_file st1 rest)) Ended = Ended st2). rewrite Ef. reflexivity. }
    exists (n + 1)%nat, st2. split.
    + intros fuel Fu. unfold readpage. rewrite F. rewrite skip_nops_known; [|exact L|rewrite app_length, repeat_length; simpl; lia].
      assert (loop pre single load fuel st0 = Ended st2) as E3.
      { apply (loop_more _ _ _ (n + 1)); [|exact Fu]. rewrite (iter_loop _ _ _ n st0 st1) by exact I. cbn [loop]. now rewrite E2. }
      change (mkst (bs ++ 140%Z :: rest) (fonts s) (active s) (mkpos 0 0 0 0 0 0) (stack s) (scale s) None (frames s) []) with st0. rewrite E3. reflexivity.
    + cbn [page file fonts scale frames st2]. split; [|split; [reflexivity|split; [symmetry; exact (s_defs _ _ _ _ _ _ _ _ S)|split; [exact (s_scale _ _ _ _ _ _ _ _ S)|exact Fr]]]].
      rewrite Epg. change (drawn pre (set_file st1 rest)) with (drawn pre st1). rewrite D. unfold drawn, pending. reflexivity.
Qed.
Print Assumptions dvi_page.

(** *** An example: two characters, the second one moved by w twice and put in between, and a rule *)
Definition usual : preamble := mkpre 25400000 473628672 1000.
Definition some_font : font := TeXfont [] 10485760 (fun c => if (c =? 65)%Z then Some 100%Z else if (c =? 66)%Z then Some 20%Z else None).
Definition nothing : list Z -> Z -> R -> R -> option font := fun _ _ _ _ => None.
Definition ex_commands := [Fnt 0; SetChar 65; Push; SetChar 66; W 5; PutChar 65; Pop; SetRule 3 7; W0; SetChar 66].
Definition ex_bytes : list Z := [171; 65; 141; 66; 149; 0; 5; 133; 65; 142; 132; 0; 0; 0; 3; 0; 0; 0; 7; 147; 128; 66]%Z.
Definition before_page (fs : list (Z * font)) (bs : list Z) : state := mkst (139%Z :: repeat 0%Z 44 ++ bs ++ [140%Z; 248%Z]) fs None (mkpos 0 0 0 0 0 0) [] 1 None [] [].
Lemma ex_encoded : encoded ex_commands ex_bytes.
Proof.
  apply (enc_cons _ _ [171]%Z); [apply (e_fntnum 0); lia|]. apply (enc_cons _ _ [65]%Z); [apply e_char; lia|]. apply (enc_cons _ _ [141]%Z); [apply e_push|].
  apply (enc_cons _ _ [66]%Z); [apply e_char; lia|]. apply (enc_cons _ _ [149; 0; 5]%Z); [apply (e_w 2 5); [unfold form; lia|unfold inrange; change (256 ^ Z.of_nat 2)%Z with 65536%Z; lia]|].
  apply (enc_cons _ _ [133; 65]%Z); [apply (e_put 1 65); [unfold form; lia|unfold inrange; change (256 ^ Z.of_nat 1)%Z with 256%Z; lia]|].
  apply (enc_cons _ _ [142]%Z); [apply e_pop|]. apply (enc_cons _ _ [132; 0; 0; 0; 3; 0; 0; 0; 7]%Z); [apply (e_setrule 3 7); unfold inrange; change (256 ^ Z.of_nat 4)%Z with 4294967296%Z; lia|].
  apply (enc_cons _ _ [147]%Z); [apply e_w0|]. apply (enc_cons _ _ [128; 66]%Z); [apply (e_set 1 66); [unfold form; lia|unfold inrange; change (256 ^ Z.of_nat 1)%Z with 256%Z; lia]|]. apply enc_nil.
Qed.
Example dvi_page_ex : exists n st, readpage usual false nothing n (before_page [(0%Z, some_font)] ex_bytes) = Page (page st) st /\
  let u := unit_pt usual in
  flat_map (look u) (page st) =
    [SeenGlyph some_font 65 (0 * u) (- 0 * u); SeenGlyph some_font 66 (100 * u) (- 0 * u); SeenGlyph some_font 65 (125 * u) (- 0 * u);
     SeenRule (100 * u) (- 0 * u) (7 * u) (3 * u); SeenGlyph some_font 66 (107 * u) (- 0 * u)].
Proof.
  assert (exists s' m, exec (tfmconv usual) nothing 1 (start_page [(0%Z, some_font)]) ex_commands s' m /\
    map (on_paper (unit_pt usual)) m = let u := unit_pt usual in
    [SeenGlyph some_font 65 (0 * u) (- 0 * u); SeenGlyph some_font 66 (100 * u) (- 0 * u); SeenGlyph some_font 65 (125 * u) (- 0 * u);
     SeenRule (100 * u) (- 0 * u) (7 * u) (3 * u); SeenGlyph some_font 66 (107 * u) (- 0 * u)]) as (s' & m & Ex & Em).
  { eexists. eexists. split.
    - unfold ex_commands, start_page. repeat eapply exec_cons; try eapply exec_nil; try (econstructor; try reflexivity); try apply show_tex.
    - cbn [app now go right h v saved cur defs map on_paper]. unfold rule. cbn [h v now right go].
      destruct (Rlt_dec 0 (1 * 3)); [|lra]. destruct (Rlt_dec 0 (1 * 7)); [|lra]. cbn. repeat (f_equal; try lra). }
  destruct (dvi_page usual false nothing (before_page [(0%Z, some_font)] ex_bytes) 0 (repeat 0%Z 44) ex_commands ex_bytes [248%Z] s' m) as (n & st & E & D & _).
  - cbn. lra.
  - cbn. lra.
  - discriminate.
  - reflexivity.
  - reflexivity.
  - reflexivity.
  - intros k f [[= <- <-]|[]]. constructor.
  - exact ex_encoded.
  - cbn. intuition discriminate.
  - exact Ex.
  - exists n, st. split; [apply E; lia|]. cbv zeta. rewrite D. exact Em.
Qed.

(** *** Sizes *)
(** Without magnification the size of a font in points is its size in DVI units times the size of a unit. *)
Theorem font_size_consistent : forall pre f, 0 < num pre -> 0 < den pre -> mag pre = 1000 -> getsize_pt f = size_q f * tfmconv pre * unit_pt pre.
Proof.
  intros pre f N D M. rewrite <- unit_known by lra. unfold getsize_pt, pyxconv, conv, resolution, tfmconv. rewrite M. replace 72.27 with (7227 / 100) by lra. field. split; lra.
Qed.
Print Assumptions font_size_consistent.
Example font_size_ex : getsize_pt some_font = 72 / 72.27 * 10 /\ size_q some_font * tfmconv usual = 655360.
Proof. unfold getsize_pt, tfmconv. cbn. split; lra. Qed.
(** With magnification the characters are too small: positions and widths are magnified, but not the font. *)
Theorem magnification_refuted : ~ (forall pre f, 0 < num pre -> 0 < den pre -> 0 < mag pre -> getsize_pt f = size_q f * tfmconv pre * unit_pt pre).
Proof.
  intros H. specialize (H (mkpre 25400000 473628672 2000) some_font ltac:(cbn; lra) ltac:(cbn; lra) ltac:(cbn; lra)).
  unfold getsize_pt, tfmconv, unit_pt in H. cbn in H. lra.
Qed.
Print Assumptions magnification_refuted.

(** *** No operation *)
(** The standard allows no operation commands everywhere, but within a page they are an error. *)
Theorem dvi_nop_refuted : forall fuel single, encoded [Nop] [138%Z] /\ exec (tfmconv usual) nothing 1 (start_page []) [Nop] (start_page []) [] /\
  readpage usual single nothing fuel (before_page [] [138%Z]) = Error.
Proof.
  intros fuel single. split; [apply (enc_cons _ _ [138%Z] []); constructor|]. split; [change (@nil mark) with (@nil mark ++ []); eapply exec_cons; constructor|].
  destruct fuel; reflexivity.
Qed.
Print Assumptions dvi_nop_refuted.

(** *** Virtual fonts *)
Definition plain_font : font := TeXfont [] 10485760 (fun _ => Some 0%Z).
Definition vfont (number : Z) (chunk : list Z) : font := Virtual [] 10485760 (fun _ => Some 0%Z) (fun _ => Some chunk) [(number, plain_font)].
Lemma usual_pos : 0 < pyxconv usual. Proof. unfold pyxconv, conv, resolution. cbn. lra. Qed.
Lemma vscale number chunk : getsize_pt (vfont number chunk) / 1048576 / pyxconv usual = 5 / 8.
Proof. rewrite size_units; try (cbn; lra). unfold tfmconv. cbn. lra. Qed.
(** what is read from a page which shows character 0 of such a font *)
Definition shown_by (number : Z) (chunk commands : list Z) (fuel : nat) : option (list seen) :=
  match readpage usual false nothing fuel (before_page [(0%Z, vfont number chunk)] (171%Z :: commands ++ [0%Z])) with
  | Page items _ => Some (flat_map (look (pyxconv usual)) items)
  | _ => None
  end.

Lemma head_145 c b bs r : encodes c b -> b ++ bs = 145%Z :: r -> exists v, c = Right v /\ b = 145%Z :: bigendian 3 v.
Proof.
  intros E X. inversion E; subst; apply (f_equal (hd 0%Z)) in X; cbn [hd app] in X; unfold form in *; try lia.
  assert (n = 3)%nat as -> by lia. exists b0. split; reflexivity.
Qed.
Lemma head_0 c b bs r : encodes c b -> b ++ bs = 0%Z :: r -> c = SetChar 0 /\ b = [0%Z].
Proof. intros E X. inversion E; subst; apply (f_equal (hd 0%Z)) in X; cbn [hd app] in X; unfold form in *; try lia. subst. split; reflexivity. Qed.
(** an ordinary virtual font works: move right by 0.1 of the size and set a character *)
Example virtual_ex : exists n, shown_by 0 [145; 1; 153; 154; 0]%Z [] n = Some [SeenGlyph plain_font 0 (65536.25 * pyxconv usual) (- 0 * pyxconv usual)].
Proof.
  set (cmds := [Fnt 0; SetChar 0]).
  assert (good usual (vfont 0 [145; 1; 153; 154; 0]%Z)) as G.
  { constructor; [reflexivity| |].
    - intros k g [[= <- <-]|[]]. constructor.
    - intros c chunk cs [= <-] En. inversion En as [|c1 cs1 b1 bs1 E1 E2 X1 X2]. subst. destruct (head_145 _ _ _ _ E1 X2) as (b & -> & Eb).
      rewrite Eb in X2. cbn [app bigendian] in X2. assert (bs1 = [0%Z]) as -> by congruence. inversion E2 as [|c2 cs2 b2 bs2 E3 E4 X4 X5]. subst. destruct (head_0 _ _ _ _ E3 X5) as [-> Eb2].
      rewrite Eb2 in X5. cbn [app] in X5. assert (bs2 = []) as -> by congruence. inversion E4 as [|c3 cs3 b3 bs3 Ec Ecs X6 Ee]; [exact I|]. subst. exfalso. apply app_eq_nil in Ee as [-> _]. inversion Ec. }
  assert (exists s' m, exec (tfmconv usual) nothing 1 (start_page [(0%Z, vfont 0 [145; 1; 153; 154; 0]%Z)]) cmds s' m /\
    map (on_paper (unit_pt usual)) m = [SeenGlyph plain_font 0 (65536.25 * unit_pt usual) (- 0 * unit_pt usual)]) as (s' & m & Ex & Em).
  { eexists. eexists. split.
    - unfold cmds, start_page. eapply exec_cons; [econstructor; reflexivity|]. eapply exec_cons; [|eapply exec_nil]. eapply p_set; try reflexivity.
      eapply (show_virtual _ _ _ _ _ _ _ _ _ _ _ _ _ [Right 104858; SetChar 0]); [reflexivity| |].
      + apply (enc_cons _ _ [145; 1; 153; 154]%Z); [apply (e_right 3 104858); [unfold form; lia|unfold inrange; change (256 ^ Z.of_nat 3)%Z with 16777216%Z; lia]|].
        apply (enc_cons _ _ [0]%Z); [apply e_char; lia|]. apply enc_nil.
      + eapply exec_cons; [econstructor|]. eapply exec_cons; [|eapply exec_nil]. eapply p_set; try reflexivity. apply show_tex.
    - cbn [map app on_paper]. unfold start_page, go, right, tfmconv. cbn. repeat (f_equal; try lra). }
  destruct (dvi_page usual false nothing (before_page [(0%Z, vfont 0 [145; 1; 153; 154; 0]%Z)] [171; 0]%Z) 0 (repeat 0%Z 44) cmds [171; 0]%Z [248%Z] s' m) as (n & st & E & D & _).
  - cbn. lra.
  - cbn. lra.
  - discriminate.
  - reflexivity.
  - reflexivity.
  - reflexivity.
  - intros k f [[= <- <-]|[]]. exact G.
  - apply (enc_cons _ _ [171]%Z); [apply (e_fntnum 0); lia|]. apply (enc_cons _ _ [0]%Z); [apply e_char; lia|]. apply enc_nil.
  - cbn. intuition discriminate.
  - exact Ex.
  - exists n. unfold shown_by. cbn [app]. rewrite (E n (Nat.le_refl n)). rewrite (unit_known usual) by (cbn; lra). rewrite D. f_equal. exact Em.
Qed.

(** The standard for the three following pages: a virtual character shown at (a, 0) *)
Lemma virtual_standard k chunk cs pre_cs s0 s1 m0 m1 : encoded cs chunk ->
  exec (tfmconv usual) nothing 1 (start_page [(0%Z, vfont k chunk)]) (Fnt 0 :: pre_cs) s0 m0 -> cur s0 = Some (vfont k chunk) ->
  exec (tfmconv usual) nothing (5 / 8) (mkdvi (mkregs (h (now s0)) (v (now s0)) 0 0 0 0) [] (Some plain_font) [(k, plain_font)]) cs s1 m1 ->
  exec (tfmconv usual) nothing 1 (start_page [(0%Z, vfont k chunk)]) ((Fnt 0 :: pre_cs) ++ [SetChar 0]) (go s0 (right (now s0) 0)) (m0 ++ m1).
Proof.
  intros En E0 Cu E1. revert E0. generalize (start_page [(0%Z, vfont k chunk)]). generalize (Fnt 0 :: pre_cs). intros l s2 E0.
  assert (perform (tfmconv usual) nothing 1 s0 (SetChar 0) (go s0 (right (now s0) (IZR 0))) m1) as P.
  { eapply p_set; [exact Cu|reflexivity|]. eapply show_virtual; [reflexivity|exact En|].
    replace (10485760 * tfmconv usual / 1048576) with (5 / 8) by (unfold tfmconv; cbn; lra). exact E1. }
  revert s2 m0 E0. induction l as [|c l IH]; intros s2 m0 E0; inversion E0; subst; cbn [app].
  - rewrite <- (app_nil_r m1). eapply exec_cons; [exact P|apply exec_nil].
  - rewrite <- app_assoc. eapply exec_cons; [eassumption|]. now apply IH.
Qed.

(** w, x, y and z are not set to zero for the chunks of virtual fonts: a w0 there moves by w of the page. *)
Theorem virtual_registers_refuted : exists cs chunk, encoded cs chunk /\
  (exists s m, exec (tfmconv usual) nothing 1 (start_page [(0%Z, vfont 0 chunk)]) [Fnt 0; W 5; SetChar 0] s m /\ m = [Glyph plain_font 0 (0 + 1 * 5 + 0) 0]) /\
  forall fuel, (10 <= fuel)%nat -> exists l, shown_by 0 chunk [148; 5]%Z fuel = Some l /\ l = [SeenGlyph plain_font 0 (10 * pyxconv usual) (- 0 * pyxconv usual)].
Proof.
  exists [W0; SetChar 0], [147; 0]%Z. split; [apply (enc_cons _ _ [147]%Z); [constructor|]; apply (enc_cons _ _ [0]%Z); [constructor; lia|constructor]|]. split.
  - eexists. eexists. split.
    + eapply (virtual_standard 0 [147; 0]%Z [W0; SetChar 0] [W 5]).
      * apply (enc_cons _ _ [147]%Z); [constructor|]; apply (enc_cons _ _ [0]%Z); [constructor; lia|constructor].
      * eapply exec_cons; [econstructor; reflexivity|]. eapply exec_cons; [econstructor|apply exec_nil].
      * reflexivity.
      * eapply exec_cons; [econstructor|]. eapply exec_cons; [|apply exec_nil]. eapply p_set; try reflexivity. apply show_tex.
    + cbn. reflexivity.
  - intros fuel F. do 10 (destruct fuel as [|fuel]; [lia|]). eexists. split; [unfold shown_by; cbv -[IZR Rplus Rmult Rdiv Rinv Ropp pyxconv look flat_map]; reflexivity|].
    cbn [flat_map look side_by_side app]. fold plain_font.
    replace (0 + 5 * 1 + 5 * 1) with 10 by ring. reflexivity.
Qed.
Print Assumptions virtual_registers_refuted.

(** If the first font of a virtual font has not the number 0, its characters cannot be shown. *)
Theorem virtual_first_font_refuted : exists cs chunk, encoded cs chunk /\
  (exists s m, exec (tfmconv usual) nothing 1 (start_page [(0%Z, vfont 1 chunk)]) [Fnt 0; SetChar 0] s m /\ m = [Glyph plain_font 0 0 0]) /\
  forall fuel, shown_by 1 chunk [] fuel = None.
Proof.
  exists [SetChar 0], [0]%Z. split; [apply (enc_cons _ _ [0]%Z); [constructor; lia|constructor]|]. split.
  - eexists. eexists. split.
    + eapply (virtual_standard 1 [0]%Z [SetChar 0] []).
      * apply (enc_cons _ _ [0]%Z); [constructor; lia|constructor].
      * eapply exec_cons; [econstructor; reflexivity|]. apply exec_nil.
      * reflexivity.
      * eapply exec_cons; [|apply exec_nil]. eapply p_set; try reflexivity. apply show_tex.
    + reflexivity.
  - intros fuel. do 2 (destruct fuel as [|fuel]; [reflexivity|]). unfold shown_by. cbv -[IZR Rplus Rmult Rdiv Rinv Ropp pyxconv look flat_map]. reflexivity.
Qed.
Print Assumptions virtual_first_font_refuted.

Lemma loop_S p b load n s : loop p b load (S n) s = match step p b load s with Running s => loop p b load n s | r => r end. Proof. reflexivity. Qed.
Lemma rpos_0 x : rpos (0 * x) = false. Proof. unfold rpos. destruct (Rlt_dec 0 (0 * x)); [lra|reflexivity]. Qed.
(** set_rule in a chunk moves by its width times the scale twice. *)
Theorem virtual_setrule_refuted : exists cs chunk, encoded cs chunk /\
  (exists s m, exec (tfmconv usual) nothing 1 (start_page [(0%Z, vfont 0 chunk)]) [Fnt 0; SetChar 0] s m /\ m = [Glyph plain_font 0 (0 + 5 / 8 * 64) 0]) /\
  forall fuel, (10 <= fuel)%nat -> exists l, shown_by 0 chunk [] fuel = Some l /\ l = [SeenGlyph plain_font 0 (25 * pyxconv usual) (- 0 * pyxconv usual)].
Proof.
  assert (encoded [SetRule 0 64; SetChar 0] [132; 0; 0; 0; 0; 0; 0; 0; 64; 0]%Z) as En.
  { apply (enc_cons _ _ [132; 0; 0; 0; 0; 0; 0; 0; 64]%Z); [apply (e_setrule 0 64); unfold inrange; change (256 ^ Z.of_nat 4)%Z with 4294967296%Z; lia|].
    apply (enc_cons _ _ [0]%Z); [constructor; lia|constructor]. }
  exists [SetRule 0 64; SetChar 0], [132; 0; 0; 0; 0; 0; 0; 0; 64; 0]%Z. split; [exact En|]. split.
  - eexists. eexists. split.
    + eapply (virtual_standard 0 _ [SetRule 0 64; SetChar 0] []).
      * exact En.
      * eapply exec_cons; [econstructor; reflexivity|]. apply exec_nil.
      * reflexivity.
      * eapply exec_cons; [econstructor|]. eapply exec_cons; [|apply exec_nil]. eapply p_set; try reflexivity. apply show_tex.
    + cbn. unfold rule. destruct (Rlt_dec 0 (5 / 8 * 0)); [lra|]. reflexivity.
  - intros fuel F. do 10 (destruct fuel as [|fuel]; [lia|]). pose proof (vscale 0 [132; 0; 0; 0; 0; 0; 0; 0; 64; 0]%Z) as Sc. eexists. split.
    + unfold shown_by. unfold readpage.
      cbv -[IZR Rplus Rmult Rdiv Rinv Ropp pyxconv look flat_map rpos getsize_pt usual nothing loop].
      repeat (rewrite loop_S; cbv -[IZR Rplus Rmult Rdiv Rinv Ropp pyxconv look flat_map rpos getsize_pt usual nothing loop]; rewrite ?rpos_0).
      reflexivity.
    + cbn [flat_map look side_by_side app]. unfold vfont, plain_font in Sc. rewrite Sc.
      replace (0 + 64 * (5 / 8) * (5 / 8)) with 25 by lra. reflexivity.
Qed.
Print Assumptions virtual_setrule_refuted.
