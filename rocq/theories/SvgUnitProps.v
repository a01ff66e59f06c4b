(** C158: lengths with units in the texts of SVG files *)
From Coq Require Import Ascii String ZArith QArith Qpower List Bool Lia Lqa ZifyBool Arith.
From Verif Require Import SvgTextModel SvgTextSpec SvgTextProps.
Import ListNotations.
Open Scope Z_scope.

(** the units of SVG by their letters and their sizes in points (72 to the inch), with res pixels to the inch: px, pt, pc (1/6 inch), mm, cm, in *)
Inductive length_unit (res : Q) : list Z -> Q -> Prop :=
| u_none : length_unit res [] (72 / res)
| u_px : length_unit res [112; 120] (72 / res)
| u_pt : length_unit res [112; 116] 1
| u_pc : length_unit res [112; 99] (72 / 6)
| u_mm : length_unit res [109; 109] (72 / (254 # 10))
| u_cm : length_unit res [99; 109] (72 / (254 # 100))
| u_in : length_unit res [105; 110] 72.
(** a list of lengths: each a number, perhaps a unit and a separator.  Without unit and separator the next number has to be recognizable. *)
Inductive lengths (res : Q) : list (num * list Z * Q) -> list Z -> Prop :=
| lengths_nil : lengths res [] []
| lengths_cons n u k s l r : is_num n -> length_unit res u k -> is_sep s -> (u = [] -> s = [] -> continues n r) -> lengths res l r ->
    lengths res ((n, u, k) :: l) (num_text n ++ u ++ s ++ r).

Lemma lengths_start res l t : lengths res l t -> t = [] \/ exists c r, t = c :: r /\ start c.
Proof. intros [|n u k s l' r N U S C T]; auto; right. apply num_start; auto. Qed.
Lemma lengths_plain res l t : lengths res l t -> plain t.
Proof. intros T. destruct (lengths_start res l t T) as [-> | (c & r & -> & S)]; cbn; auto. unfold start, isdigit in S. unfold isspace. cbn [existsb]. lia. Qed.
Definition tag (u : list Z) : sunit :=
  match u with [112; 120] => Px | [112; 116] => Pt | [112; 99] => Pc | [109; 109] => Mm | [99; 109] => Cm | [105; 110] => Inch | _ => NoUnit end.
Lemma length_head res n u k s l r : is_num n -> length_unit res u k -> is_sep s -> (u = [] -> s = [] -> continues n r) -> lengths res l r ->
  stops n (u ++ s ++ r) /\ unit_of (u ++ s ++ r) = (tag u, s ++ r) /\ (unit_pt res (tag u) == k)%Q.
Proof.
  intros N U S C T. destruct U; try (split; [cbn; unfold isdigit; lia|]; split; reflexivity).
  cbn [app tag unit_pt]. assert (G : stops n (s ++ r) /\ unit_of (s ++ r) = (NoUnit, s ++ r)); [|destruct G; split; auto; split; auto; reflexivity].
  specialize (C eq_refl). destruct (s ++ r) as [|c t'] eqn:E; [split; [exact I|reflexivity]|]. destruct s as [|s0 s'].
  - cbn [app] in E. subst r. destruct (C eq_refl) as [D|(c' & r' & E & K)]; [discriminate|]. injection E as <- <-. split.
    + unfold stops, isdigit. split; [lia|]. split; [lia|]. intros F G. destruct K as [K|[K|[_ [K|K]]]]; try lia; congruence.
    + apply unit_none. cbn. lia.
  - assert (W : wsp c \/ c = 44) by (eapply sep_first; eauto; discriminate). unfold wsp in W. cbn in W. split.
    + unfold stops, isdigit. split; [lia|]. split; intros; lia.
    + apply unit_none. cbn. lia.
Qed.
Lemma length_read res n u k s l r : is_num n -> length_unit res u k -> is_sep s -> (u = [] -> s = [] -> continues n r) -> lengths res l r ->
  (exists q, to_float res true (num_text n ++ u ++ s ++ r) = Some (q, r) /\ (q == num_value n * k)%Q) /\
  (u <> [] -> to_float res false (num_text n ++ u ++ s ++ r) = None).
Proof.
  intros N U S C T. destruct (length_head res n u k s l r N U S C T) as (St & E & V). destruct (number_read n _ N St) as (q & Eq & Vq).
  unfold to_float. rewrite Eq. cbn [bind]. rewrite E, sep_read by (auto; eapply lengths_plain; eauto). split.
  - exists (q * unit_pt res (tag u))%Q. split; [destruct U; reflexivity|]. rewrite Vq, V. reflexivity.
  - intros Nu. destruct U; try reflexivity. congruence.
Qed.
Lemma length_nonempty res n u k s l r : is_num n -> length_unit res u k -> is_sep s -> lengths res l r -> exists c t, num_text n ++ u ++ s ++ r = c :: t /\ (List.length r <= List.length t)%nat.
Proof.
  intros N U S T. destruct (num_start n [] N) as (c & t & E & _). rewrite app_nil_r in E. rewrite E. exists c, (t ++ u ++ s ++ r). split; auto.
  rewrite !app_length. lia.
Qed.
(** C158: the lengths of a list are read in points; where units are not allowed, a list whose first length has one is an error *)
Theorem lengths_read : forall res l t, lengths res l t ->
  (let '(vs, bad) := to_floats res true t in Forall2 (fun '(n, _, k) v => (v == num_value n * k)%Q) l vs /\ bad = false) /\
  (match l with (_, u, _) :: _ => u <> [] -> to_floats res false t = ([], true) | [] => True end).
Proof.
  intros res l t T. split.
  - unfold to_floats. assert (G : forall fuel, (List.length t <= fuel)%nat -> let '(vs, bad) := floats_loop res true fuel t in
      Forall2 (fun '(n, _, k) v => (v == num_value n * k)%Q) l vs /\ bad = false); [|apply G; lia].
    induction T as [|n u k s l r N U S C T IH]; intros fuel L.
    + destruct fuel; split; auto.
    + destruct (length_nonempty res n u k s l r N U S T) as (c & t & E & Lt). destruct (length_read res n u k s l r N U S C T) as [(q & F & V) _].
      rewrite E in *. destruct fuel as [|fuel]; [cbn in L; lia|]. cbn [floats_loop]. rewrite F. specialize (IH fuel ltac:(cbn in L; lia)).
      destruct (floats_loop res true fuel r) as [vs bad]. destruct IH. split; auto.
  - destruct T as [|n u k s l r N U S C T]; auto. intros Nu. destruct (length_nonempty res n u k s l r N U S T) as (c & t & E & Lt).
    destruct (length_read res n u k s l r N U S C T) as [_ F]. specialize (F Nu). unfold to_floats. rewrite E in *. cbn [List.length floats_loop]. now rewrite F.
Qed.
Print Assumptions lengths_read.
(** C158: percentages need something they relate to, so they are an error *)
Theorem percent_error : forall res u n r, is_num n -> to_float res u (num_text n ++ 37 :: r) = None.
Proof.
  intros res u n r N. destruct (number_read n (37 :: r) N) as (q & E & _); [cbn; unfold isdigit; lia|]. unfold to_float. rewrite E. reflexivity.
Qed.
Print Assumptions percent_error.

(** 1.5in,2pc 3px4mm with 96 pixels to the inch *)
Example lengths_ex :
  Forall2 Qeq (fst (to_floats 96 true (codes "1.5in,2pc 3px4mm5cm-8"%string))) [108; 24; 9 # 4; 1440 # 127; 18000 # 127; -6]%Q /\
  to_floats 96 false (codes "1.5in"%string) = ([], true).
Proof. split; [|vm_compute; reflexivity]. vm_compute. repeat constructor. Qed.
Example lengths_ex2 : exists l, lengths 96 l (codes "1.5in,2pc"%string) /\ List.length l = 2%nat.
Proof.
  exists [(mknum None [49] (Some [53]) None, [105; 110], 72%Q); (mknum None [50] None None, [112; 99], (72 / 6)%Q)]. split; [|reflexivity].
  apply (lengths_cons 96 (mknum None [49] (Some [53]) None) [105; 110] 72 [44] _ [50; 112; 99]).
  - repeat split; cbn; repeat constructor; unfold isdigit; try lia; discriminate.
  - constructor.
  - exists [], []. repeat split; auto.
  - discriminate.
  - apply (lengths_cons 96 (mknum None [50] None None) [112; 99] (72 / 6) [] [] []).
    + repeat split; cbn; repeat constructor; unfold isdigit; try lia; discriminate.
    + constructor.
    + exists [], []. repeat split; auto.
    + discriminate.
    + constructor.
Qed.
