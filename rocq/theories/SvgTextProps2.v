(** C158: path data of SVG files; C159: lists of transformations *)
From Coq Require Import Ascii String ZArith QArith Qpower List Bool Lia Lqa ZifyBool Arith.
From Verif Require Import SvgTextModel SvgTextSpec SvgTextProps.
Import ListNotations.
Open Scope Z_scope.

(** the characters of numbers, flags and separators *)
Definition argchar (c : Z) : Prop := isdigit c \/ In c [43; 45; 46; 101; 69; 44; 32; 9; 10; 12; 13].
Lemma digits_args ds : Forall isdigit ds -> Forall argchar ds. Proof. apply Forall_impl. intros c C. now left. Qed.
Lemma sign_args s : Forall argchar (sign_text s). Proof. destruct s as [[|]|]; repeat constructor; right; cbn; tauto. Qed.
Lemma num_args n : is_num n -> Forall argchar (num_text n).
Proof.
  intros (W & F & E). unfold num_text. rewrite !Forall_app. split; [apply sign_args|]. split; [now apply digits_args|]. split.
  - destruct (frac n); [|constructor]. constructor; [right; cbn; tauto|]. apply digits_args. apply F.
  - destruct (ex n) as [[[u s] ds]|]; [|constructor]. constructor; [right; destruct u; cbn; tauto|]. apply Forall_app. split; [apply sign_args|]. apply digits_args. apply E.
Qed.
Lemma wsp_args s : Forall wsp s -> Forall argchar s. Proof. apply Forall_impl. intros c C. right. unfold wsp in C. cbn in *. tauto. Qed.
Lemma sep_args s : is_sep s -> Forall argchar s.
Proof.
  intros (a & b & A & B & [-> | ->]); apply Forall_app; split; try now apply wsp_args. constructor; [right; cbn; tauto|now apply wsp_args].
Qed.
Lemma tokens_args l t : tokens l t -> Forall argchar t.
Proof.
  induction 1 as [|n s l r N S C T IH|b s l r S T IH]; [constructor| |].
  - rewrite !Forall_app. split; [now apply num_args|]. split; [now apply sep_args|auto].
  - constructor; [left; destruct b; unfold isdigit; lia|]. apply Forall_app. split; [now apply sep_args|auto].
Qed.
Lemma digit_cases c : isdigit c -> In c [48; 49; 50; 51; 52; 53; 54; 55; 56; 57]. Proof. unfold isdigit. cbn. lia. Qed.
Lemma argchar_cases (P : Z -> Prop) : Forall P [48; 49; 50; 51; 52; 53; 54; 55; 56; 57; 43; 45; 46; 101; 69; 44; 32; 9; 10; 12; 13] -> forall c, argchar c -> P c.
Proof. intros F c A. rewrite Forall_forall in F. apply F. destruct A as [A|A]; [apply digit_cases in A|]; cbn in *; tauto. Qed.
Lemma args_nocmd c : argchar c -> is_cmd c = false.
Proof. revert c. apply argchar_cases. repeat constructor. Qed.
Lemma take_read a r : Forall argchar a -> take_args r = ([], r) -> take_args (a ++ r) = (a, r).
Proof.
  intros A R. induction A as [|c a C A IH]; [exact R|]. cbn [app take_args]. rewrite (args_nocmd c C). cbn [negb]. now rewrite IH.
Qed.
Lemma cmd_letters c : In c [109; 108; 104; 118; 99; 115; 113; 116; 77; 76; 72; 86; 67; 83; 81; 84; 122; 90; 97; 65] -> is_cmd c = true /\ isspace c = false.
Proof. intros I. cbn in I. repeat destruct I as [<-|I]; try (split; reflexivity). destruct I. Qed.
Lemma stop_args c d r : is_cmd c = true -> argchar d -> take_args (c :: d :: r) = ([], c :: d :: r).
Proof.
  intros C D. cbn [take_args]. rewrite C. cbn [negb]. assert ((lower d =? 109) = false) as ->; [|now rewrite andb_false_r].
  revert d D. apply argchar_cases. repeat constructor.
Qed.
Lemma tokens_first x l t : tokens (x :: l) t -> exists c r, t = c :: r /\ argchar c /\ isspace c = false.
Proof.
  intros T. destruct (tokens_nonempty _ _ _ T) as (c & r & ->). exists c, r. split; auto. split; [now apply tokens_args, Forall_inv in T|].
  apply start_plain in T. apply T.
Qed.
Lemma data_stop l t : path_data l t -> take_args t = ([], t) /\ match t with [] => True | c :: _ => isspace c = false end.
Proof.
  intros [|c w l' r C W D|c w n ns a l' r C W N D|c w n ns a l' r C W N D]; auto.
  - split; [|cbn in C; destruct C as [<-|[<-|[]]]; reflexivity]. cbn in C. cbn [take_args]. destruct C as [<-|[<-|[]]]; destruct (w ++ r); reflexivity.
  - destruct (cmd_letters c) as [C1 C2]; [cbn in *; tauto|]. split; auto. destruct (tokens_first _ _ _ N) as (d & a' & -> & Ad & _).
    destruct W as [|x w X W]; cbn [app]; apply stop_args; auto. apply (Forall_inv (wsp_args [x] ltac:(auto))).
  - destruct (cmd_letters c) as [C1 C2]; [cbn in *; tauto|]. split; auto. destruct (tokens_first _ _ _ N) as (d & a' & -> & Ad & _).
    destruct W as [|x w X W]; cbn [app]; apply stop_args; auto. apply (Forall_inv (wsp_args [x] ltac:(auto))).
Qed.
(** the match of a command *)
Definition found (s : segment) (m : Z * text) : Prop := match s with Seg c l => fst m = c /\ lower c <> 97 /\ numbers l (snd m) | SegA c l => fst m = c /\ lower c = 97 /\ tokens (flat_map arc_tokens l) (snd m) end.
Lemma commands_found l t : path_data l t -> forall fuel, (List.length t <= fuel)%nat -> Forall2 found l (commands fuel t).
Proof.
  induction 1 as [|c w l r C W D IH|c w n ns a l r C W N D IH|c w n ns a l r C W N D IH]; intros fuel L.
  - destruct fuel; constructor.
  - destruct fuel as [|fuel]; [cbn in L; lia|]. cbn [commands]. destruct (cmd_letters c) as [C1 _]; [cbn in *; tauto|]. rewrite C1.
    destruct (data_stop _ _ D) as [S1 S2]. rewrite (skip_wsp w r W S2), S1. constructor.
    + cbn. split; auto. split; [|constructor]. cbn in C. destruct C as [<-|[<-|[]]]; discriminate.
    + apply IH. cbn in L. rewrite app_length in L. lia.
  - destruct fuel as [|fuel]; [cbn in L; lia|]. cbn [commands]. destruct (cmd_letters c) as [C1 _]; [cbn in *; tauto|]. rewrite C1.
    destruct (data_stop _ _ D) as [S1 S2]. destruct (tokens_first _ _ _ N) as (d & a' & E & Ad & Sd).
    rewrite (skip_wsp w (a ++ r) W) by (subst a; exact Sd). rewrite (take_read a r (tokens_args _ _ N) S1). constructor.
    + cbn. split; auto. split; auto. cbn in C. repeat destruct C as [<-|C]; try discriminate. destruct C.
    + apply IH. cbn in L. rewrite !app_length in L. lia.
  - destruct fuel as [|fuel]; [cbn in L; lia|]. cbn [commands]. destruct (cmd_letters c) as [C1 _]; [cbn in *; tauto|]. rewrite C1.
    destruct (data_stop _ _ D) as [S1 S2]. destruct (tokens_first _ _ _ N) as (d & a' & E & Ad & Sd).
    rewrite (skip_wsp w (a ++ r) W) by (subst a; exact Sd). rewrite (take_read a r (tokens_args _ _ N) S1). constructor.
    + cbn. split; auto. split; auto. cbn in C. destruct C as [<-|[<-|[]]]; reflexivity.
    + apply IH. cbn in L. rewrite !app_length in L. lia.
Qed.
Definition arc_means (res : Q) (n : arcnum) (a : arc) : Prop :=
  let '(rx, ry, phi, large, sweep, (x, y)) := a in
  (rx == num_value (a_rx n) * (72 / res))%Q /\ (ry == num_value (a_ry n) * (72 / res))%Q /\ (phi == num_value (a_phi n) * (72 / res))%Q /\ large = a_large n /\ sweep = a_sweep n /\
  (x == num_value (a_x n) * (72 / res))%Q /\ (y == num_value (a_y n) * (72 / res))%Q.
Lemma arcs_read res : forall l fuel t, tokens (flat_map arc_tokens l) t -> (List.length l <= fuel)%nat ->
  let '(as_, bad) := arcs_loop res fuel t in Forall2 (arc_means res) l as_ /\ bad = false.
Proof.
  induction l as [|n l IH]; intros fuel t T L; cbn [flat_map] in T.
  - apply tokens_none in T. subst. destruct fuel; split; auto; constructor.
  - destruct fuel as [|fuel]; [cbn in L; lia|]. cbn [arc_tokens app] in T. destruct (tokens_nonempty _ _ _ T) as (c & r & E). rewrite E. cbn [arcs_loop]. rewrite <- E.
    destruct (float_read res true _ _ _ T) as (rx & t1 & -> & V1 & T1). cbn [bind].
    destruct (float_read res true _ _ _ T1) as (ry & t2 & -> & V2 & T2). cbn [bind].
    destruct (float_read res true _ _ _ T2) as (phi & t3 & -> & V3 & T3). cbn [bind].
    destruct (flag_read _ _ _ T3) as (t4 & -> & T4). cbn [bind]. destruct (flag_read _ _ _ T4) as (t5 & -> & T5). cbn [bind].
    destruct (float_read res true _ _ _ T5) as (x & t6 & -> & V6 & T6). cbn [bind].
    destruct (float_read res true _ _ _ T6) as (y & t7 & -> & V7 & T7). cbn [bind].
    specialize (IH fuel t7 T7 ltac:(cbn in L; lia)). destruct (arcs_loop res fuel t7) as [as_ bad]. destruct IH as [I1 I2]. split; auto. constructor; auto. repeat split; auto.
Qed.
(** what a command means: its letter and its numbers, in points if the resolution is that of the file *)
Definition means (res : Q) (s : segment) (c : command) : Prop :=
  match s, c with
  | Seg l ns, Cmd l' vs bad => l' = l /\ bad = false /\ Forall2 (fun n v => (v == num_value n * (72 / res))%Q) ns vs
  | SegA l ns, CmdA l' as_ bad => l' = l /\ bad = false /\ Forall2 (arc_means res) ns as_
  | _, _ => False
  end.
Lemma flat_length l : (List.length l <= List.length (flat_map arc_tokens l))%nat.
Proof. induction l as [|n l IH]; cbn; lia. Qed.
(** C158: path data are read into their commands with the numbers and flags in them; numbers need no separator before a sign, nor before a point if they have one already,
    flags need none at all; the angle of an arc is scaled like a length *)
Theorem path_read : forall res w l t, Forall wsp w -> path_data l t -> Forall2 (means res) l (path_commands res (w ++ t)).
Proof.
  intros res w l t W D. unfold path_commands.
  assert (C : Forall2 found l (commands (List.length (w ++ t)) (w ++ t))).
  { induction W as [|x w X W IH]; [apply commands_found; auto|]. cbn [app List.length commands].
    rewrite (args_nocmd x) by (apply (Forall_inv (wsp_args [x] ltac:(auto)))). exact IH. }
  clear D. induction C as [|s m l' ms S C IH]; cbn [map]; constructor; auto.
  destruct m as [c a]. destruct s as [c' ns|c' ns]; cbn [found fst snd] in S; destruct S as (-> & Lc & T).
  - destruct (lower c' =? 97) eqn:E; [lia|]. pose proof (floats_read res true ns a T) as F. destruct (to_floats res true a) as [vs bad]. destruct F as [F ->]. repeat split; auto.
  - rewrite Lc. cbn [Z.eqb]. change (Pos.eqb 97 97) with true. cbv iota.
      assert (Le : (List.length ns <= List.length a)%nat) by (pose proof (flat_length ns); apply tokens_length in T; lia).
      pose proof (arcs_read res ns (List.length a) a T Le) as F. destruct (arcs_loop res (List.length a) a) as [vs bad]. destruct F as [F ->]. repeat split; auto.
Qed.
Print Assumptions path_read.
Definition n_ (z : Z) : num := mknum None [z + 48] None None.
Lemma n_num z : 0 <= z <= 9 -> is_num (n_ z).
Proof. intros H. split; [repeat constructor; unfold isdigit; lia|]. split; [discriminate|exact I]. Qed.
(** the texts that may be behind each other without a separator *)
Example path_read_ex :
  path_data [Seg 77 [n_ 1; mknum (Some true) [] (Some [53]) None; mknum None [] (Some [50]) None; n_ 3]; SegA 97 [mkarc (n_ 5) (n_ 5) (n_ 0) false true (n_ 8) (n_ 9)]; Seg 122 []] (codes "M1-.5.2 3a5,5 0 018 9z") /\
  exists p q r, path_commands 72 (codes "M1-.5.2 3a5,5 0 018 9z") = [Cmd 77 [p; q; r; (3 * 1 * (72 / 72))%Q] false; CmdA 97 [((5 * 1 * (72 / 72))%Q, (5 * 1 * (72 / 72))%Q, (0 * 1 * (72 / 72))%Q, false, true, ((8 * 1 * (72 / 72))%Q, (9 * 1 * (72 / 72))%Q))] false; Cmd 122 [] false] /\
  (p == 1)%Q /\ (q == -1 # 2)%Q /\ (r == 1 # 5)%Q.
Proof.
  assert (N : forall z, 0 <= z <= 9 -> is_num (n_ z)) by exact n_num.
  assert (E0 : is_sep []) by (exists [], []; repeat split; auto).
  assert (E1 : is_sep [32]) by (exists [32], []; repeat split; auto; repeat constructor).
  assert (E2 : is_sep [44]) by (exists [], []; repeat split; auto).
  assert (F : forall sgn d, 0 <= d <= 9 -> is_num (mknum sgn [] (Some [d + 48]) None)) by (intros; split; [constructor|split; [split; [discriminate|repeat constructor; unfold isdigit; cbn; lia]|exact I]]).
  split.
  - apply (data_seg 77 [] _ _ (codes "1-.5.2 3") _ (codes "a5,5 0 018 9z")); [cbn; tauto|constructor| |].
    + apply (tokens_num (n_ 1) [] _ (codes "-.5.2 3")); auto; [apply N; lia|intros _; right; eexists _, _; split; [reflexivity|right; left; reflexivity]|].
      apply (tokens_num (mknum (Some true) [] (Some [53]) None) [] _ (codes ".2 3")); auto; [apply (F (Some true) 5); lia|intros _; right; eexists _, _; split; [reflexivity|right; right; split; [reflexivity|left; discriminate]]|].
      apply (tokens_num (mknum None [] (Some [50]) None) [32] _ (codes "3")); auto; [apply (F None 2); lia|discriminate|].
      apply (tokens_num (n_ 3) [] _ []); auto; [apply N; lia|left; reflexivity|constructor].
    + apply (data_arc 97 [] _ _ (codes "5,5 0 018 9") _ (codes "z")); [cbn; tauto|constructor| |].
      * apply (tokens_num (n_ 5) [44] _ (codes "5 0 018 9")); auto; [apply N; lia|discriminate|].
        apply (tokens_num (n_ 5) [32] _ (codes "0 018 9")); auto; [apply N; lia|discriminate|].
        apply (tokens_num (n_ 0) [32] _ (codes "018 9")); auto; [apply N; lia|discriminate|].
        apply (tokens_flag false [] _ (codes "18 9")); auto. apply (tokens_flag true [] _ (codes "8 9")); auto.
        apply (tokens_num (n_ 8) [32] _ (codes "9")); auto; [apply N; lia|discriminate|].
        apply (tokens_num (n_ 9) [] _ []); auto; [apply N; lia|left; reflexivity|constructor].
      * apply (data_close 122 [] _ []); [cbn; tauto|constructor|constructor].
  - eexists _, _, _. split; [vm_compute; reflexivity|]. repeat split.
Qed.
(** false: the rotation of an arc is scaled with the resolution; at the usual 96 pixels per inch 30 degrees are read as 22.5 *)
Theorem arc_angle_refuted : exists rx ry phi x y, path_commands 96 (codes "a10 5 30 0 1 20 20") = [CmdA 97 [(rx, ry, phi, false, true, (x, y))] false] /\ (phi == 45 # 2)%Q.
Proof. eexists _, _, _, _, _. split; [vm_compute; reflexivity|reflexivity]. Qed.
Print Assumptions arc_angle_refuted.
(** false: a number which ends with a point is not read to its end, so that the list ends there with an error *)
Theorem point_refuted : forall res u, exists q, to_floats res u (codes "1. 2") = ([q], true).
Proof. intros res u. destruct u; eexists; reflexivity. Qed.
Print Assumptions point_refuted.
(** false: lengths in pt and pc are cut within their unit, although the pattern of path data lists them; those in mm and cm are not *)
Theorem path_units_refuted : exists x y z, path_commands 72 (codes "M10pt 20pt") = [Cmd 77 [x] true; Cmd 116 [y] true; Cmd 116 [] false] /\
  path_commands 72 (codes "M10pc") = [Cmd 77 [x] true; Cmd 99 [] false] /\ path_commands 72 (codes "M10mm") = [Cmd 77 [z] false] /\ (x == 10)%Q /\ (y == 20)%Q /\ (z == 7200 # 254)%Q.
Proof. eexists _, _, _. split; [vm_compute; reflexivity|]. split; [vm_compute; reflexivity|]. split; [vm_compute; reflexivity|]. repeat split. Qed.
Print Assumptions path_units_refuted.
(** false: a list of numbers must not begin with white space *)
Theorem leading_space_refuted : forall res u c t, wsp c -> to_floats res u (c :: t) = ([], true).
Proof. intros res u c t W. unfold wsp in W. cbn in W. unfold to_floats. cbn [List.length floats_loop]. assert (to_float res u (c :: t) = None) as ->; [|reflexivity]. repeat destruct W as [<-|W]; try reflexivity. destruct W. Qed.
Print Assumptions leading_space_refuted.

(** ** C159: lists of transformations *)
Definition word_text (w : word) : list Z := codes (match w with WMatrix => "matrix" | WTranslate => "translate" | WScale => "scale" | WRotate => "rotate" | WSkewX => "skewX" | WSkewY => "skewY" end).
(** words with numbers in parentheses, white space and commas between *)
Inductive transform_list : list (word * list num) -> list Z -> Prop :=
| list_nil s : Forall (fun c => wsp c \/ c = 44) s -> transform_list [] s
| list_cons s w l a ts r : Forall (fun c => wsp c \/ c = 44) s -> numbers l a -> transform_list ts r -> transform_list ((w, l) :: ts) (s ++ word_text w ++ 40 :: a ++ 41 :: r).
(** the numbers: lengths are scaled with the resolution, the rest is not *)
Definition transform_means (res : Q) (e : word * list num) (t : transform) : Prop :=
  let v n := num_value n in let p n := (num_value n * (72 / res))%Q in
  match e, t with
  | (WMatrix, [a; b; c; d; e; f]), Matrix a' b' c' d' e' f' => (a' == v a /\ b' == v b /\ c' == v c /\ d' == v d /\ e' == p e /\ f' == p f)%Q
  | (WTranslate, [x]), Translate x' None => (x' == p x)%Q
  | (WTranslate, [x; y]), Translate x' (Some y') => (x' == p x /\ y' == p y)%Q
  | (WScale, [x]), Scale x' None => (x' == v x)%Q
  | (WScale, [x; y]), Scale x' (Some y') => (x' == v x /\ y' == v y)%Q
  | (WRotate, [a]), Rotate a' None => (a' == v a)%Q
  | (WRotate, [a; x; y]), Rotate a' (Some (x', y')) => (a' == v a /\ x' == p x /\ y' == p y)%Q
  | (WSkewX, [a]), SkewX a' => (a' == v a)%Q
  | (WSkewY, [a]), SkewY a' => (a' == v a)%Q
  | _, _ => False
  end.
(** the numbers of arguments *)
Definition good_count (e : word * list num) : Prop :=
  In (List.length (snd e)) (match fst e with WMatrix => [6] | WTranslate | WScale => [1; 2] | WRotate => [1; 3] | WSkewX | WSkewY => [1] end)%nat.
Lemma times_one q : (q * 1 == q)%Q. Proof. ring. Qed.
Lemma single_read res u n t : numbers [n] t -> exists q, to_single res u t = Some q /\ (q == num_value n * (if u then 72 / res else 1))%Q.
Proof. intros T. destruct (float_read res u n [] t T) as (q & r & E & V & T'). apply tokens_none in T'. subst r. unfold to_single. rewrite E. cbn. eauto. Qed.
Lemma transform_read res w l a : numbers l a -> good_count (w, l) -> exists t, read_transform res w a = Some t /\ transform_means res (w, l) t.
Proof.
  intros N G. unfold good_count in G. cbn [fst snd] in G. unfold read_transform.
  assert (Fl : forall u, exists vs, to_floats res u a = (vs, false) /\ Forall2 (fun n v => (v == num_value n * (if u then 72 / res else 1))%Q) l vs).
  { intros u. pose proof (floats_read res u l a N) as F. destruct (to_floats res u a) as [vs bad]. destruct F as [F ->]. eauto. }
  destruct w.
  - do 6 (destruct l as [|? l]; [cbn in G; lia|]). destruct l as [|? l]; [|cbn in G; lia].
    destruct (float_read res false _ _ _ N) as (q1 & t1 & -> & V1 & T1). cbn [bind]. destruct (float_read res false _ _ _ T1) as (q2 & t2 & -> & V2 & T2). cbn [bind].
    destruct (float_read res false _ _ _ T2) as (q3 & t3 & -> & V3 & T3). cbn [bind]. destruct (float_read res false _ _ _ T3) as (q4 & t4 & -> & V4 & T4). cbn [bind].
    destruct (float_read res true _ _ _ T4) as (q5 & t5 & -> & V5 & T5). cbn [bind]. destruct (single_read res true _ _ T5) as (q6 & -> & V6). cbn [bind].
    eexists. split; [reflexivity|]. cbn. rewrite times_one in V1, V2, V3, V4. tauto.
  - destruct (Fl true) as (vs & -> & F). destruct F as [|n v l vs Fn F]; [cbn in G; lia|]. destruct F as [|n' v' l vs Fn' F]; [eexists; split; [reflexivity|exact Fn]|].
    destruct F; [|cbn in G; lia]. eexists. split; [reflexivity|]. split; assumption.
  - destruct (Fl false) as (vs & -> & F). destruct F as [|n v l vs Fn F]; [cbn in G; lia|]. rewrite times_one in Fn.
    destruct F as [|n' v' l vs Fn' F]; [eexists; split; [reflexivity|exact Fn]|]. rewrite times_one in Fn'.
    destruct F; [|cbn in G; lia]. eexists. split; [reflexivity|]. split; assumption.
  - destruct l as [|n [|n1 [|n2 [|? ?]]]]; try (cbn in G; lia).
    + destruct (float_read res false _ _ _ N) as (q & t & -> & V & T). apply tokens_none in T. subst t. cbn [bind]. eexists. split; [reflexivity|]. cbn. now rewrite times_one in V.
    + destruct (float_read res false _ _ _ N) as (q & t & -> & V & T). cbn [bind]. destruct (tokens_nonempty _ _ _ T) as (c & r & E). rewrite E. rewrite <- E.
      destruct (float_read res true _ _ _ T) as (q1 & t1 & -> & V1 & T1). cbn [bind]. destruct (single_read res true _ _ T1) as (q2 & -> & V2). cbn [bind].
      eexists. split; [reflexivity|]. cbn. rewrite times_one in V. tauto.
  - destruct l as [|n [|? ?]]; try (cbn in G; lia). destruct (single_read res false _ _ N) as (q & -> & V). eexists. split; [reflexivity|]. cbn. now rewrite times_one in V.
  - destruct l as [|n [|? ?]]; try (cbn in G; lia). destruct (single_read res false _ _ N) as (q & -> & V). eexists. split; [reflexivity|]. cbn. now rewrite times_one in V.
Qed.
Lemma parens_read a r : Forall argchar a -> in_parens (40 :: a ++ 41 :: r) = Some (a, r).
Proof. intros A. cbn [in_parens]. rewrite span_app; [reflexivity| |reflexivity]. eapply Forall_impl; [|exact A]. apply argchar_cases. repeat constructor. Qed.
Lemma word_found w s a r : in_parens s = Some (a, r) -> match_word words (word_text w ++ s) = Some (w, a, r).
Proof.
  intros P. unfold word_text, words. cbn [match_word].
  change (codes "matrix") with [109; 97; 116; 114; 105; 120].
  change (codes "translate") with [116; 114; 97; 110; 115; 108; 97; 116; 101].
  change (codes "scale") with [115; 99; 97; 108; 101].
  change (codes "rotate") with [114; 111; 116; 97; 116; 101].
  change (codes "skewX") with [115; 107; 101; 119; 88].
  change (codes "skewY") with [115; 107; 101; 119; 89].
  destruct w.
  - change (codes "matrix") with [109; 97; 116; 114; 105; 120]. cbn [app behind Z.eqb Pos.eqb bind]. rewrite P. reflexivity.
  - change (codes "translate") with [116; 114; 97; 110; 115; 108; 97; 116; 101]. cbn [app behind Z.eqb Pos.eqb bind]. rewrite P. reflexivity.
  - change (codes "scale") with [115; 99; 97; 108; 101]. cbn [app behind Z.eqb Pos.eqb bind]. rewrite P. reflexivity.
  - change (codes "rotate") with [114; 111; 116; 97; 116; 101]. cbn [app behind Z.eqb Pos.eqb bind]. rewrite P. reflexivity.
  - change (codes "skewX") with [115; 107; 101; 119; 88]. cbn [app behind Z.eqb Pos.eqb bind]. rewrite P. reflexivity.
  - change (codes "skewY") with [115; 107; 101; 119; 89]. cbn [app behind Z.eqb Pos.eqb bind]. rewrite P. reflexivity.
Qed.
Lemma gap_skipped c s : wsp c \/ c = 44 -> match_word words (c :: s) = None.
Proof. intros W. unfold wsp in W. cbn in W. repeat destruct W as [W|W]; try subst c; try reflexivity; destruct W. Qed.
Lemma word_matches_step w a r fuel : Forall argchar a -> word_matches (S fuel) (word_text w ++ 40 :: a ++ 41 :: r) = (w, a) :: word_matches fuel r.
Proof.
  intros A. pose proof (word_found w _ _ _ (parens_read a r A)) as F. assert (exists c t, word_text w ++ 40 :: a ++ 41 :: r = c :: t) as (c & t & E) by (destruct w; cbn; eauto).
  rewrite E in *. cbn [word_matches]. now rewrite F.
Qed.
Lemma gaps_skipped s r fuel : Forall (fun c => wsp c \/ c = 44) s -> word_matches (List.length s + fuel) (s ++ r) = word_matches fuel r.
Proof. induction 1 as [|c s C F IH]; [reflexivity|]. cbn [app List.length plus word_matches]. now rewrite gap_skipped. Qed.
Lemma words_read ts s : transform_list ts s -> forall fuel, (List.length s <= fuel)%nat -> Forall2 (fun e m => fst m = fst e /\ numbers (snd e) (snd m)) ts (word_matches fuel s).
Proof.
  induction 1 as [s G|s w l a ts r G N T IH]; intros fuel L.
  - rewrite <- (app_nil_r s). replace fuel with (List.length s + (fuel - List.length s))%nat by lia. rewrite gaps_skipped by auto. destruct (fuel - List.length s)%nat; constructor.
  - replace fuel with (List.length s + (fuel - List.length s))%nat by (rewrite app_length in L; lia). rewrite gaps_skipped by auto.
    destruct (fuel - List.length s)%nat as [|f] eqn:E; [rewrite !app_length in L; cbn in L; rewrite app_length in L; cbn in L; lia|].
    rewrite word_matches_step by (eapply tokens_args; eauto). constructor; [split; auto|]. apply IH. rewrite !app_length in L. cbn in L. rewrite app_length in L. cbn in L. lia.
Qed.
(** C159: a list of transformations is read into its transformations with their numbers, in order *)
Theorem transforms_read : forall res ts s, transform_list ts s -> Forall good_count ts -> exists l, transforms res s = Some l /\ Forall2 (transform_means res) ts l.
Proof.
  intros res ts s T G. unfold transforms. pose proof (words_read ts s T (List.length s) (le_n _)) as F. clear T. induction F as [|[w l] [w' a] ts' ms [E N] F IH]; [exists []; split; [reflexivity|constructor]|].
  cbn [fst snd] in E, N. subst w'. inversion G as [|? ? G1 G2]; subst. destruct (IH G2) as (l' & E' & F'). destruct (transform_read res w l a N G1) as (t & Et & M).
  exists (t :: l'). cbn [map sequence]. rewrite Et. cbn [bind]. rewrite E'. split; [reflexivity|]. constructor; auto.
Qed.
Print Assumptions transforms_read.
Example transforms_ex : exists a x y z, transforms 96 (codes "translate(10,20) rotate(30), scale(2)") = Some [Translate x (Some y); Rotate a None; Scale z None] /\
  (x == 15 # 2)%Q /\ (y == 15)%Q /\ (a == 30)%Q /\ (z == 2)%Q.
Proof. eexists _, _, _, _. split; [vm_compute; reflexivity|]. repeat split. Qed.
(** false: white space before the parenthesis makes the transformation be ignored, white space behind it is an error *)
Theorem transform_space_refuted : forall res, transforms res (codes "translate (10 20)") = Some [] /\ transforms res (codes "translate( 10 20)") = None.
Proof. intros res. split; reflexivity. Qed.
Print Assumptions transform_space_refuted.
