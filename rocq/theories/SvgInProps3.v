(** Whatever SVG path is read without an exception is read right. *)
From Coq Require Import Reals Bool List Lra Lia.
From Verif Require Import TrafoModel BboxModel CurveModel CurveSpec ArcModel NormsubModel NormsubSpec NormsubProofs NormsubProps NormpathModel PathModel PathSpec PathNormModel PathNormSpec PathNormProofs PathNormProps PathEndProps SvgInModel SvgInSpec SvgInProofs SvgInProps SvgInProofs2.
Import ListNotations.
Open Scope R_scope.

Local Notation pt := (R * R)%type.

Section Loops.
  Variables (fuel : nat) (e : R).
  Hypothesis He : 0 < e.

  Lemma loop2 {A} (fn : st -> A -> option st) (nums : A -> list R) reader (d' : degree) (okd : degree -> Prop) :
    (forall a, nums a <> []) -> okd d' ->
    (forall p s d a s' rest r, Inv2 p s d -> okd d -> fn s a = Some s' -> reader (nums a ++ rest) p = Some r ->
      exists p', Inv2 p' s' d' /\ match rest with [] => Some p' | _ => reader rest p' end = Some r) ->
    forall l a p s d s' r, Inv2 p s d -> okd d -> each fn s (a :: l) = Some s' -> reader (flat_map nums (a :: l)) p = Some r -> Inv2 r s' d'.
  Proof.
    intros NE OK ST. induction l as [|b l IH]; intros a p s d s' r V D E R.
    - cbn [each] in E. destruct (fn s a) as [s1|] eqn:E1; [|discriminate]. injection E as ->.
      destruct (ST p s d a s' [] r V D E1 R) as (p' & V' & R'). now injection R' as <-.
    - cbn [each] in E. destruct (fn s a) as [s1|] eqn:E1; [|discriminate].
      change (flat_map nums (a :: b :: l)) with (nums a ++ flat_map nums (b :: l)) in R.
      destruct (ST p s d a s1 (flat_map nums (b :: l)) r V D E1 R) as (p1 & V1 & R').
      apply (IH b p1 s1 d' s' r V1 OK E).
      cbn [flat_map] in *. specialize (NE b). destruct (nums b); [congruence|]. exact R'.
  Qed.
  Lemma loop_line2 up l a p s d s' r : Inv2 p s d -> each (do_line up) s (a :: l) = Some s' ->
    read_lines up false (nums1 (a :: l)) p = Some r -> Inv2 r s' Other.
  Proof.
    intros V. apply (loop2 (do_line up) (fun p => [fst p; snd p]) (read_lines up false) Other (fun _ => True)) with (d := d); auto.
    - discriminate.
    - clear. intros p s d [x y] s' rest r V _ E R. assert (V' := step_line2 up p s d (x, y) s' V E). eexists. split; [exact V'|]. exact R.
  Qed.
  Lemma loop_curve2 up l a p s d s' r : Inv2 p s d -> each (do_curve up) s (a :: l) = Some s' ->
    read_curves up (nums3 (a :: l)) p = Some r -> Inv2 r s' Three.
  Proof.
    intros V. apply (loop2 (do_curve up) (fun '(p, q, r) => [fst p; snd p; fst q; snd q; fst r; snd r]) (read_curves up) Three (fun _ => True)) with (d := d); auto.
    - intros [[? ?] ?]. discriminate.
    - clear. intros p s d [[[x1 y1] [x2 y2]] [x3 y3]] s' rest r V _ E R. assert (V' := step_curve2 up p s d _ s' V E).
      eexists. split; [exact V'|]. exact R.
  Qed.
  Lemma loop_smooth2 up l a p s d s' r : Inv2 p s d -> d <> Two -> each (do_smooth up) s (a :: l) = Some s' ->
    read_smooth fuel e up (nums2 (a :: l)) p = Some r -> Inv2 r s' Three.
  Proof.
    intros V D. apply (loop2 (do_smooth up) (fun '(p, q) => [fst p; snd p; fst q; snd q]) (read_smooth fuel e up) Three (fun d => d <> Two)) with (d := d); auto.
    - intros [? ?]. discriminate.
    - discriminate.
    - clear -He. intros p s d [[x2 y2] [x3 y3]] s' rest r V D E R. cbn [app fst snd read_smooth] in R.
      destruct (last_delta p) as [dl|] eqn:L; [|discriminate]. destruct (if up then option_map (plus_pt dl) (atend fuel e p) else Some dl) as [p1|] eqn:A; [|discriminate].
      assert (V' := step_smooth2 fuel e He up p s d _ s' V D E dl p1 L A). eexists. split; [exact V'|]. exact R.
  Qed.
  Lemma loop_quad2 up l a p s d s' r : Inv2 p s d -> each (do_quad up) s (a :: l) = Some s' ->
    read_quadratic fuel e up (nums2 (a :: l)) p = Some r -> Inv2 r s' Two.
  Proof.
    intros V. apply (loop2 (do_quad up) (fun '(p, q) => [fst p; snd p; fst q; snd q]) (read_quadratic fuel e up) Two (fun _ => True)) with (d := d); auto.
    - intros [? ?]. discriminate.
    - clear -He. intros p s d [[x2 y2] [x3 y3]] s' rest r V _ E R. cbn [app fst snd read_quadratic] in R.
      destruct (atend fuel e p) as [q|] eqn:A; [|discriminate].
      assert (V' := step_quad2 fuel e He up p s d _ s' V E q A). eexists. split; [exact V'|]. exact R.
  Qed.
  Lemma loop_smoothquad2 up l a p s d s' r : Inv2 p s d -> d <> Three -> each (do_smoothquad up) s (a :: l) = Some s' ->
    read_smooth_quadratic fuel e up (nums1 (a :: l)) p = Some r -> Inv2 r s' Two.
  Proof.
    intros V D. apply (loop2 (do_smoothquad up) (fun p => [fst p; snd p]) (read_smooth_quadratic fuel e up) Two (fun d => d <> Three)) with (d := d); auto.
    - discriminate.
    - discriminate.
    - clear -He. intros p s d [x3 y3] s' rest r V D E R. cbn [app fst snd read_smooth_quadratic] in R.
      destruct (atend fuel e p) as [q|] eqn:A; [|discriminate]. destruct (last_delta p) as [dl|] eqn:L; [|discriminate].
      assert (V' := step_smoothquad2 fuel e He up p s d _ s' V D E q dl A L). eexists. split; [exact V'|]. exact R.
  Qed.
  Lemma loop_hor2 (up : bool) l : forall p s d s' q z, Inv2 p s d -> (l = [] -> d = Other) -> here s = Some q -> each (do_hor up) s l = Some s' ->
    (if up then snd z = snd q else snd z = 0) -> Inv2 (read_straight up true z l p) s' Other.
  Proof.
    induction l as [|a l IH]; intros p s d s' q z V D H E Z.
    - cbn [each] in E. injection E as <-. rewrite (D eq_refl) in V. exact V.
    - cbn [each] in E. destruct (do_hor up s a) as [s1|] eqn:E1; [|discriminate].
      destruct (step_hor2 up p s d a s1 q V H E1) as (V1 & H1).
      cbn [read_straight].
      replace (if up then Lineto (a, snd z) else Rlineto (a, snd z)) with (if up then Lineto (a, snd q) else Rlineto (a, 0)) by (destruct up; now rewrite Z).
      apply (IH _ s1 Other s' _ (a, snd z) V1 (fun _ => eq_refl) H1 E). destruct up; exact Z.
  Qed.
  Lemma loop_vert2 (up : bool) l : forall p s d s' q z, Inv2 p s d -> (l = [] -> d = Other) -> here s = Some q -> each (do_vert up) s l = Some s' ->
    (if up then fst z = fst q else fst z = 0) -> Inv2 (read_straight up false z l p) s' Other.
  Proof.
    induction l as [|a l IH]; intros p s d s' q z V D H E Z.
    - cbn [each] in E. injection E as <-. rewrite (D eq_refl) in V. exact V.
    - cbn [each] in E. destruct (do_vert up s a) as [s1|] eqn:E1; [|discriminate].
      destruct (step_vert2 up p s d a s1 q V H E1) as (V1 & H1).
      cbn [read_straight].
      replace (if up then Lineto (fst z, a) else Rlineto (fst z, a)) with (if up then Lineto (fst q, a) else Rlineto (0, a)) by (destruct up; now rewrite Z).
      apply (IH _ s1 Other s' _ (fst z, a) V1 (fun _ => eq_refl) H1 E). destruct up; exact Z.
  Qed.

  Lemma step_command2 p s d c s' r : Inv2 p s d -> matching d [c] = true -> perform s c = Some s' ->
    read_command fuel e p (written c) = Some r -> Inv2 r s' (degree_of c).
  Proof.
    intros V M P R.
    assert (V0 := V). destruct V0 as (_ & _ & _ & _ & _ & q & _ & H & _).
    destruct c as [up a l|up a l|up x l|up y l|up c l|up c l|up c l|up a l|up]; cbn [written read_command perform degree_of matching] in *.
    - assert (V1 := step_move2 up p s d a V).
      destruct (Inv2_nonempty _ _ _ V) as (i0 & p1 & Ep).
      assert (E0 : forall rest, read_lines up true (fst a :: snd a :: rest) p =
        let p' := p ++ [if up then Moveto a else Rmoveto a] in match rest with [] => Some p' | _ => read_lines up false rest p' end).
      { intros rest. cbn [read_lines]. rewrite Ep. destruct a, up; reflexivity. }
      change (nums1 (a :: l)) with (fst a :: snd a :: nums1 l) in R. rewrite E0 in R. cbv zeta in R.
      destruct l as [|b l].
      + cbn [nums1 flat_map] in R. injection R as <-. cbn [each] in P. injection P as <-. exact V1.
      + exact (loop_line2 up l b _ _ _ s' r V1 P R).
    - exact (loop_line2 up l a p s d s' r V P R).
    - assert (r = read_straight up true (if up then q else (0, 0)) (x :: l) p) as ->.
      { destruct up; [|congruence]. destruct (atend fuel e p) as [q'|] eqn:A; [|discriminate]. assert (X := atend_right fuel e He _ _ _ _ V A). cbn [option_map] in R. congruence. }
      apply (loop_hor2 up (x :: l) p s d s' q _ V ltac:(discriminate) H P). now destruct up.
    - assert (r = read_straight up false (if up then q else (0, 0)) (y :: l) p) as ->.
      { destruct up; [|congruence]. destruct (atend fuel e p) as [q'|] eqn:A; [|discriminate]. assert (X := atend_right fuel e He _ _ _ _ V A). cbn [option_map] in R. congruence. }
      apply (loop_vert2 up (y :: l) p s d s' q _ V ltac:(discriminate) H P). now destruct up.
    - exact (loop_curve2 up l c p s d s' r V P R).
    - assert (D : d <> Two) by (destruct d; discriminate || congruence). exact (loop_smooth2 up l c p s d s' r V D P R).
    - exact (loop_quad2 up l c p s d s' r V P R).
    - assert (D : d <> Three) by (destruct d; discriminate || congruence). exact (loop_smoothquad2 up l a p s d s' r V D P R).
    - injection R as <-. eapply step_close2; eauto.
  Qed.
  Lemma first_command2 c s' r : perform blank c = Some s' -> read_command fuel e [] (written c) = Some r -> Inv2 r s' (degree_of c).
  Proof.
    destruct c as [up a l|up a l|up x l|up y l|up c l|up c l|up c l|up a l|up]; try discriminate.
    - intros P R. assert (V1 := first_move2 up a). cbn [written read_command perform] in *.
      assert (E0 : forall rest, read_lines up true (fst a :: snd a :: rest) [] =
        match rest with [] => Some [Moveto a] | _ => read_lines up false rest [Moveto a] end).
      { intros rest. cbn [read_lines]. rewrite orb_true_r. destruct a; reflexivity. }
      change (nums1 (a :: l)) with (fst a :: snd a :: nums1 l) in R. rewrite E0 in R.
      destruct l as [|b l].
      + cbn [nums1 flat_map] in R. injection R as <-. cbn [each] in P. injection P as <-. exact V1.
      + exact (loop_line2 up l b _ _ _ s' r V1 P R).
    - destruct c as [[? ?] ?]. discriminate.
    - destruct c as [? ?]. discriminate.
    - destruct c as [? ?]. discriminate.
  Qed.
  Lemma steps_commands2 l : forall p s d s' r, Inv2 p s d -> matching d l = true -> perform_all s l = Some s' ->
    read_commands fuel e p (map written l) = Some r -> exists d', Inv2 r s' d'.
  Proof.
    induction l as [|c l IH]; intros p s d s' r V M P R.
    - injection P as <-. injection R as <-. eauto.
    - unfold perform_all in P. cbn [each] in P. destruct (perform s c) as [s1|] eqn:P1; [|discriminate].
      cbn [map read_commands] in R. destruct (read_command fuel e p (written c)) as [p1|] eqn:R1; [|discriminate].
      assert (M1 : matching d [c] = true /\ matching (degree_of c) l = true) by (destruct c, d; cbn [matching degree_of] in *; auto; discriminate).
      exact (IH p1 s1 _ s' r (step_command2 p s d c s1 p1 V (proj1 M1) P1 R1) (proj2 M1) P R).
  Qed.
End Loops.

(** If a path is read, it draws what the SVG path draws, even after closing subpaths and for short or slow
    pieces. *)
Theorem svg_path_read_right : forall fuel e l g c items, 0 < e -> matching Other l = true ->
  perform_all blank l = Some (g, c) -> toPath fuel e (map written l) = Some items ->
  interpret (outputPS items) = Some (filter visible (ended g)).
Proof.
  intros fuel e l g c items He M P R. unfold toPath in R. destruct l as [|c0 l].
  - injection P as <- <-. injection R as <-. reflexivity.
  - unfold perform_all in P. cbn [each] in P. destruct (perform blank c0) as [s1|] eqn:P1; [|discriminate].
    cbn [map read_commands] in R. destruct (read_command fuel e [] (written c0)) as [p1|] eqn:R1; [|discriminate].
    assert (M1 : matching (degree_of c0) l = true) by (destruct c0; cbn [matching degree_of] in *; auto; discriminate).
    destruct (steps_commands2 fuel e He l p1 s1 _ _ items (first_command2 fuel e c0 s1 p1 P1 R1) M1 P R) as (d' & V').
    destruct V' as (_ & _ & _ & _ & O & _). unfold interpret. cbn [fst] in O. rewrite O. reflexivity.
Qed.
Print Assumptions svg_path_read_right.

(** lines after closing, and a very short one *)
Example svg_path_read_right_ex :
  let l := [SMove true (0, 0) [(10, 0)]; SClose true; SLine false (0, 1 / 1000) [(0, 5)]; SSmooth false ((1, 0), (1, 1)) []] in
  matching Other l = true /\ exists g c items, perform_all blank l = Some (g, c) /\ toPath 5 1 (map written l) = Some items /\
    length items = 6%nat /\ length (ended g) = 2%nat.
Proof.
  cbv zeta. split; [reflexivity|]. eexists. eexists. eexists. split; [cbv -[IZR Rplus Rmult Rminus Rdiv Rinv Ropp]; reflexivity|].
  split; [cbv -[IZR Rplus Rmult Rminus Rdiv Rinv Ropp]; reflexivity|]. split; reflexivity.
Qed.
