(** Properties of reading SVG paths. *)
From Coq Require Import Reals Bool List Lra Lia.
From Verif Require Import TrafoModel BboxModel CurveModel CurveSpec ArcModel NormsubModel NormsubSpec NormsubProofs3 NormsubProps NormpathModel PathModel PathSpec PathNormModel PathNormSpec PathNormProofs PathNormProps SvgInModel SvgInSpec SvgInProofs.
Import ListNotations.
Open Scope R_scope.

Local Notation pt := (R * R)%type.

Section Loops.
  Variables (f : nat) (e : R).
  Hypothesis He : 0 < e.
  Local Notation fuel := (S (S f)).

  Lemma drawing_fine s fn s' : drawing s fn = Some s' -> fine e s' -> fine e s.
  Proof.
    unfold drawing, fine. destruct (here s) as [q|]; [|discriminate]. destruct (add_seg (fst s) (fst (fn q))) as [g|] eqn:A; [|discriminate].
    intros [=<-] F. cbn [fst] in F. destruct (fst (fn q)) as [a|a b c].
    - apply (fastd_before e (fst s) (Oline a) g A F).
    - apply (fastd_before e (fst s) (Ocurve a b c) g A F).
  Qed.
  Lemma each_fine {A} (fn : st -> A -> option st) : (forall s a s', fn s a = Some s' -> fine e s' -> fine e s) ->
    forall l s s', each fn s l = Some s' -> fine e s' -> fine e s.
  Proof.
    intros H. induction l as [|a l IH]; simpl; intros s s' E F; [now injection E as <-|].
    destruct (fn s a) as [s1|] eqn:E1; [|discriminate]. eauto.
  Qed.
  Lemma loop {A} (fn : st -> A -> option st) (nums : A -> list R) reader (d' : degree) (okd : degree -> Prop) :
    (forall a, nums a <> []) -> okd d' -> (forall s a s', fn s a = Some s' -> fine e s' -> fine e s) ->
    (forall p s k d a s' rest, Inv p s k d -> k <> Closes -> okd d -> fine e s -> fn s a = Some s' ->
      exists p', Inv p' s' Draws d' /\ reader (nums a ++ rest) p = match rest with [] => Some p' | _ => reader rest p' end) ->
    forall l a p s k d s', Inv p s k d -> k <> Closes -> okd d -> each fn s (a :: l) = Some s' -> fine e s' ->
      exists p', reader (flat_map nums (a :: l)) p = Some p' /\ Inv p' s' Draws d'.
  Proof.
    intros NE OK FB ST. induction l as [|b l IH]; intros a p s k d s' V NC D E F.
    - cbn [each] in E. destruct (fn s a) as [s1|] eqn:E1; [|discriminate]. injection E as ->.
      destruct (ST p s k d a s' [] V NC D (FB _ _ _ E1 F) E1) as (p' & V' & R). exists p'. split; auto.
    - cbn [each] in E. destruct (fn s a) as [s1|] eqn:E1; [|discriminate].
      assert (F1 : fine e s1) by (apply (each_fine fn FB (b :: l) s1 s' E F)).
      destruct (ST p s k d a s1 (flat_map nums (b :: l)) V NC D (FB _ _ _ E1 F1) E1) as (p1 & V1 & R).
      destruct (IH b p1 s1 Draws d' s' V1 ltac:(discriminate) OK E F) as (p' & R' & V').
      exists p'. split; auto. change (flat_map nums (a :: b :: l)) with (nums a ++ flat_map nums (b :: l)). rewrite R.
      cbn [flat_map] in *. specialize (NE b). destruct (nums b); [congruence|]. exact R'.
  Qed.
  Lemma do_fine {A} (fn : st -> A -> option st) (g : A -> st -> pt -> seg * control) : (forall s a, fn s a = drawing s (g a s)) ->
    forall s a s', fn s a = Some s' -> fine e s' -> fine e s.
  Proof. intros H s a s'. rewrite H. apply drawing_fine. Qed.

  Lemma loop_line up l a p s k d s' : Inv p s k d -> k <> Closes -> each (do_line up) s (a :: l) = Some s' -> fine e s' ->
    exists p', read_lines up false (nums1 (a :: l)) p = Some p' /\ Inv p' s' Draws Other.
  Proof.
    intros V NC. apply (loop (do_line up) (fun p => [fst p; snd p]) (read_lines up false) Other (fun _ => True)) with (k := k) (d := d); auto.
    - discriminate.
    - intros s0 a0 s0'. apply drawing_fine.
    - clear. intros p s k d [x y] s' rest V NC _ F E. destruct (step_line e up p s k d (x, y) s' V NC E) as [V' _].
      eexists. split; [exact V'|]. reflexivity.
  Qed.
  Lemma loop_curve up l a p s k d s' : Inv p s k d -> k <> Closes -> each (do_curve up) s (a :: l) = Some s' -> fine e s' ->
    exists p', read_curves up (nums3 (a :: l)) p = Some p' /\ Inv p' s' Draws Three.
  Proof.
    intros V NC. apply (loop (do_curve up) (fun '(p, q, r) => [fst p; snd p; fst q; snd q; fst r; snd r]) (read_curves up) Three (fun _ => True)) with (k := k) (d := d); auto.
    - intros [[? ?] ?]. discriminate.
    - intros s0 [[? ?] ?] s0'. apply drawing_fine.
    - clear. intros p s k d [[[x1 y1] [x2 y2]] [x3 y3]] s' rest V NC _ F E. destruct (step_curve e up p s k d _ s' V NC E) as [V' _].
      eexists. split; [exact V'|]. reflexivity.
  Qed.
  Lemma loop_smooth up l a p s k d s' : Inv p s k d -> k <> Closes -> d <> Two -> each (do_smooth up) s (a :: l) = Some s' -> fine e s' ->
    exists p', read_smooth fuel e up (nums2 (a :: l)) p = Some p' /\ Inv p' s' Draws Three.
  Proof.
    intros V NC D. apply (loop (do_smooth up) (fun '(p, q) => [fst p; snd p; fst q; snd q]) (read_smooth fuel e up) Three (fun d => d <> Two)) with (k := k) (d := d); auto.
    - intros [? ?]. discriminate.
    - discriminate.
    - intros s0 [? ?] s0'. apply drawing_fine.
    - clear -He. intros p s k d [[x2 y2] [x3 y3]] s' rest V NC D F E.
      destruct (step_smooth f e He up p s k d _ s' V NC D F E) as (dl & L & p1 & A & V').
      eexists. split; [exact V'|]. cbn [app fst snd read_smooth]. rewrite L, A. reflexivity.
  Qed.
  Lemma read_quadratic_eq up xq yq x3 y3 rest p p0 : atend fuel e p = Some p0 ->
    read_quadratic fuel e up (xq :: yq :: x3 :: y3 :: rest) p =
    let p' := p ++ [from_quadratic p0 (if up then (xq, yq) else (xq + fst p0, yq + snd p0)) (if up then (x3, y3) else (x3 + fst p0, y3 + snd p0))] in
    match rest with [] => Some p' | _ => read_quadratic fuel e up rest p' end.
  Proof. intros E. cbn [read_quadratic]. rewrite E. reflexivity. Qed.
  Lemma loop_quad up l a p s k d s' : Inv p s k d -> k <> Closes -> each (do_quad up) s (a :: l) = Some s' -> fine e s' ->
    exists p', read_quadratic fuel e up (nums2 (a :: l)) p = Some p' /\ Inv p' s' Draws Two.
  Proof.
    intros V NC. apply (loop (do_quad up) (fun '(p, q) => [fst p; snd p; fst q; snd q]) (read_quadratic fuel e up) Two (fun _ => True)) with (k := k) (d := d); auto.
    - intros [? ?]. discriminate.
    - intros s0 [? ?] s0'. apply drawing_fine.
    - clear -He. intros p s k d [[x2 y2] [x3 y3]] s' rest V NC _ F E.
      destruct (step_quad f e He up p s k d _ s' V NC F E) as (q & A & V').
      eexists. split; [exact V'|]. cbn [app fst snd]. rewrite (read_quadratic_eq up _ _ _ _ rest p q A). reflexivity.
  Qed.
  Lemma read_smooth_quadratic_eq up x3 y3 rest p p0 d : atend fuel e p = Some p0 -> last_delta p = Some d ->
    read_smooth_quadratic fuel e up (x3 :: y3 :: rest) p =
    let p' := p ++ [from_quadratic p0 (fst p0 + 3 / 2 * fst d, snd p0 + 3 / 2 * snd d) (if up then (x3, y3) else (x3 + fst p0, y3 + snd p0))] in
    match rest with [] => Some p' | _ => read_smooth_quadratic fuel e up rest p' end.
  Proof. intros E D. cbn [read_smooth_quadratic]. rewrite E, D. reflexivity. Qed.
  Lemma loop_smoothquad up l a p s k d s' : Inv p s k d -> k <> Closes -> d <> Three -> each (do_smoothquad up) s (a :: l) = Some s' -> fine e s' ->
    exists p', read_smooth_quadratic fuel e up (nums1 (a :: l)) p = Some p' /\ Inv p' s' Draws Two.
  Proof.
    intros V NC D. apply (loop (do_smoothquad up) (fun p => [fst p; snd p]) (read_smooth_quadratic fuel e up) Two (fun d => d <> Three)) with (k := k) (d := d); auto.
    - discriminate.
    - discriminate.
    - intros s0 ? s0'. apply drawing_fine.
    - clear -He. intros p s k d [x3 y3] s' rest V NC D F E.
      destruct (step_smoothquad f e He up p s k d _ s' V NC D F E) as (q & dl & A & L & V').
      eexists. split; [exact V'|]. cbn [app fst snd]. rewrite (read_smooth_quadratic_eq up _ _ rest p q dl A L). reflexivity.
  Qed.
  Lemma loop_hor (up : bool) l : forall p s k d s' q z, Inv p s k d -> k <> Closes -> here s = Some q -> each (do_hor up) s l = Some s' ->
    (if up then snd z = snd q else snd z = 0) ->
    exists k' d', Inv (read_straight up true z l p) s' k' d' /\ (l <> [] -> k' = Draws /\ d' = Other).
  Proof.
    induction l as [|a l IH]; intros p s k d s' q z V NC H E Z.
    - cbn [each] in E. injection E as <-. exists k, d. split; auto. congruence.
    - cbn [each] in E. destruct (do_hor up s a) as [s1|] eqn:E1; [|discriminate].
      destruct (step_hor e up p s k d a s1 q V NC H E1) as (V1 & _ & H1).
      cbn [read_straight].
      replace (if up then Lineto (a, snd z) else Rlineto (a, snd z)) with (if up then Lineto (a, snd q) else Rlineto (a, 0)) by (destruct up; now rewrite Z).
      destruct (IH _ s1 Draws Other s' _ (a, snd z) V1 ltac:(discriminate) H1 E) as (k' & d' & V' & K).
      + destruct up; exact Z.
      + exists k', d'. split; auto. intros _. destruct l as [|b l]; [|apply K; discriminate].
        cbn [each] in E. injection E as <-. cbn [read_straight] in V'.
        destruct V' as (p0 & r & E0 & _ & _ & E2 & _ & DD'). destruct V1 as (p0' & r' & E0' & _ & _ & E2' & _ & DD).
        rewrite E0 in E0'. injection E0' as -> ->. split; [congruence|].
        destruct DD as (? & ? & _ & _ & C). destruct DD' as (? & ? & _ & _ & C').
        destruct d'; auto; [destruct C' as (? & C' & _)|destruct C' as (? & C' & _)]; destruct C as [C _]; congruence.
  Qed.
  Lemma loop_vert (up : bool) l : forall p s k d s' q z, Inv p s k d -> k <> Closes -> here s = Some q -> each (do_vert up) s l = Some s' ->
    (if up then fst z = fst q else fst z = 0) ->
    exists k' d', Inv (read_straight up false z l p) s' k' d' /\ (l <> [] -> k' = Draws /\ d' = Other).
  Proof.
    induction l as [|a l IH]; intros p s k d s' q z V NC H E Z.
    - cbn [each] in E. injection E as <-. exists k, d. split; auto. congruence.
    - cbn [each] in E. destruct (do_vert up s a) as [s1|] eqn:E1; [|discriminate].
      destruct (step_vert e up p s k d a s1 q V NC H E1) as (V1 & _ & H1).
      cbn [read_straight].
      replace (if up then Lineto (fst z, a) else Rlineto (fst z, a)) with (if up then Lineto (fst q, a) else Rlineto (0, a)) by (destruct up; now rewrite Z).
      destruct (IH _ s1 Draws Other s' _ (fst z, a) V1 ltac:(discriminate) H1 E) as (k' & d' & V' & K).
      + destruct up; exact Z.
      + exists k', d'. split; auto. intros _. destruct l as [|b l]; [|apply K; discriminate].
        cbn [each] in E. injection E as <-. cbn [read_straight] in V'.
        destruct V' as (p0 & r & E0 & _ & _ & E2 & _ & DD'). destruct V1 as (p0' & r' & E0' & _ & _ & E2' & _ & DD).
        rewrite E0 in E0'. injection E0' as -> ->. split; [congruence|].
        destruct DD as (? & ? & _ & _ & C). destruct DD' as (? & ? & _ & _ & C').
        destruct d'; auto; [destruct C' as (? & C' & _)|destruct C' as (? & C' & _)]; destruct C as [C _]; congruence.
  Qed.

  Lemma perform_fine c s s' : perform s c = Some s' -> fine e s' -> fine e s.
  Proof.
    destruct c as [up p l|up p l|up x l|up y l|up c l|up c l|up c l|up p l|up]; unfold perform; try (apply each_fine; clear).
    - intros E F. assert (F1 : fine e (do_move up s p)).
      { eapply each_fine; eauto. intros s0 a0 s0'. apply drawing_fine. }
      unfold do_move, fine in F1. cbn [fst] in F1. eapply (fastd_before e (fst s) (Omove _)); [reflexivity|exact F1].
    - intros s a s'. apply drawing_fine.
    - intros s a s'. apply drawing_fine.
    - intros s a s'. apply drawing_fine.
    - intros s [[? ?] ?] s'. apply drawing_fine.
    - intros s [? ?] s'. apply drawing_fine.
    - intros s [? ?] s'. apply drawing_fine.
    - intros s a s'. apply drawing_fine.
    - unfold do_close. destruct (here s); [|discriminate]. destruct (obey (fst s) Oclose) as [g|] eqn:O; [|discriminate]. intros [=<-] F.
      unfold fine in *. eapply fastd_before; eauto.
  Qed.

  (** one command *)
  Lemma step_command p s k d c s' : Inv p s k d -> neat k [c] = true -> matching d [c] = true -> perform s c = Some s' -> fine e s' ->
    exists p', read_command fuel e p (written c) = Some p' /\ Inv p' s' (sends c) (degree_of c).
  Proof.
    intros V N M P F. assert (F0 := perform_fine _ _ _ P F).
    assert (AE := atend_known f e He _ _ _ _ V F0). assert (V0 := V). destruct V0 as (_ & _ & _ & _ & _ & _ & _ & q & _ & H & _).
    destruct c as [up a l|up a l|up x l|up y l|up c l|up c l|up c l|up a l|up]; cbn [written read_command perform sends degree_of neat matching] in *.
    - assert (V1 := step_move up p s k d a V).
      destruct (Inv_nonempty _ _ _ _ V) as (i0 & p1 & Ep).
      assert (E0 : forall rest, read_lines up true (fst a :: snd a :: rest) p =
        let p' := p ++ [if up then Moveto a else Rmoveto a] in match rest with [] => Some p' | _ => read_lines up false rest p' end).
      { intros rest. cbn [read_lines]. rewrite Ep. destruct a, up; reflexivity. }
      change (nums1 (a :: l)) with (fst a :: snd a :: nums1 l). rewrite E0. cbv zeta.
      destruct l as [|b l].
      + cbn [nums1 flat_map]. eexists. split; [reflexivity|]. cbn [each] in P. injection P as <-. exact V1.
      + destruct (loop_line up l b _ _ _ _ s' V1 ltac:(discriminate) P F) as (p' & R & V'). exists p'. split; [|exact V']. exact R.
    - assert (NC : k <> Closes) by (destruct k; discriminate || congruence).
      apply (loop_line up l a p s k d s' V NC P F).
    - assert (NC : k <> Closes) by (destruct k; discriminate || congruence). rewrite AE, H. cbn [option_map].
      destruct (loop_hor up (x :: l) p s k d s' q (if up then q else (0, 0)) V NC H P) as (k' & d' & V' & K); [now destruct up|].
      destruct K as [-> ->]; [discriminate|]. exists (read_straight up true (if up then q else (0, 0)) (x :: l) p). split; [now destruct up|exact V'].
    - assert (NC : k <> Closes) by (destruct k; discriminate || congruence). rewrite AE, H. cbn [option_map].
      destruct (loop_vert up (y :: l) p s k d s' q (if up then q else (0, 0)) V NC H P) as (k' & d' & V' & K); [now destruct up|].
      destruct K as [-> ->]; [discriminate|]. exists (read_straight up false (if up then q else (0, 0)) (y :: l) p). split; [now destruct up|exact V'].
    - assert (NC : k <> Closes) by (destruct k; discriminate || congruence).
      apply (loop_curve up l c p s k d s' V NC P F).
    - assert (NC : k <> Closes) by (destruct k; discriminate || congruence).
      assert (D : d <> Two) by (destruct d; discriminate || congruence).
      apply (loop_smooth up l c p s k d s' V NC D P F).
    - assert (NC : k <> Closes) by (destruct k; discriminate || congruence).
      apply (loop_quad up l c p s k d s' V NC P F).
    - assert (NC : k <> Closes) by (destruct k; discriminate || congruence).
      assert (D : d <> Three) by (destruct d; discriminate || congruence).
      apply (loop_smoothquad up l a p s k d s' V NC D P F).
    - assert (k = Draws) as -> by (destruct k; discriminate || congruence).
      eexists. split; [reflexivity|]. eapply step_close; eauto.
  Qed.
  Lemma first_command c s' : perform blank c = Some s' -> fine e s' ->
    exists p', read_command fuel e [] (written c) = Some p' /\ Inv p' s' (sends c) (degree_of c).
  Proof.
    destruct c as [up a l|up a l|up x l|up y l|up c l|up c l|up c l|up a l|up]; try discriminate.
    - intros P F. assert (V1 := first_move up a). cbn [written read_command perform] in *.
      assert (E0 : forall rest, read_lines up true (fst a :: snd a :: rest) [] =
        match rest with [] => Some [Moveto a] | _ => read_lines up false rest [Moveto a] end).
      { intros rest. cbn [read_lines]. rewrite orb_true_r. destruct a; reflexivity. }
      change (nums1 (a :: l)) with (fst a :: snd a :: nums1 l). rewrite E0.
      destruct l as [|b l].
      + cbn [nums1 flat_map]. eexists. split; [reflexivity|]. cbn [each] in P. injection P as <-. exact V1.
      + destruct (loop_line up l b _ _ _ _ s' V1 ltac:(discriminate) P F) as (p' & R & V'). exists p'. split; [|exact V']. exact R.
    - destruct c as [[? ?] ?]. discriminate.
    - destruct c as [? ?]. discriminate.
    - destruct c as [? ?]. discriminate.
  Qed.
  Lemma perform_all_fine l s s' : perform_all s l = Some s' -> fine e s' -> fine e s.
  Proof. apply each_fine. intros ? ? ?. apply perform_fine. Qed.
  Lemma steps_commands l : forall p s k d s', Inv p s k d -> neat k l = true -> matching d l = true -> perform_all s l = Some s' -> fine e s' ->
    exists p' k' d', read_commands fuel e p (map written l) = Some p' /\ Inv p' s' k' d'.
  Proof.
    induction l as [|c l IH]; intros p s k d s' V N M P F.
    - injection P as <-. exists p, k, d. split; auto.
    - unfold perform_all in P. cbn [each] in P. destruct (perform s c) as [s1|] eqn:P1; [|discriminate].
      assert (F1 := perform_all_fine _ _ _ P F).
      assert (N1 : neat k [c] = true /\ neat (sends c) l = true).
      { destruct c; cbn [neat sends] in *; auto; destruct k; auto; try discriminate; destruct l0; auto. }
      assert (M1 : matching d [c] = true /\ matching (degree_of c) l = true) by (destruct c, d; cbn [matching degree_of] in *; auto; discriminate).
      destruct (step_command p s k d c s1 V (proj1 N1) (proj1 M1) P1 F1) as (p1 & R1 & V1).
      destruct (IH p1 s1 _ _ s' V1 (proj2 N1) (proj2 M1) P F) as (p' & k' & d' & R & V').
      exists p', k', d'. split; auto. cbn [map read_commands]. rewrite R1. exact R.
  Qed.
End Loops.

(** What is drawn by the path read is what the SVG path draws. *)
Theorem svg_path_drawn : forall f e l g c, 0 < e -> neat Moves l = true -> matching Other l = true ->
  perform_all blank l = Some (g, c) -> Forall (regular e) (ended g) ->
  exists items, toPath (S (S f)) e (map written l) = Some items /\
    interpret (outputPS items) = Some (filter visible (ended g)).
Proof.
  intros f e l g c He N M P F.
  assert (F' : fine e (g, c)).
  { unfold fine. cbn [fst]. eapply Forall_impl; [|exact F]. intros d D its I. specialize (D its I).
    apply (Forall_impl _ (fun i => proj2 (fast_speed e i (Rlt_le _ _ He))) D). }
  unfold toPath. destruct l as [|c0 l].
  - injection P as <- <-. exists []. split; reflexivity.
  - unfold perform_all in P. cbn [each] in P. destruct (perform blank c0) as [s1|] eqn:P1; [|discriminate].
    assert (F1 := perform_all_fine e _ _ _ P F').
    destruct (first_command f e c0 s1 P1 F1) as (p1 & R1 & V1).
    assert (N1 : neat (sends c0) l = true) by (destruct c0; cbn [neat sends] in *; auto; try discriminate; destruct l0; auto).
    assert (M1 : matching (degree_of c0) l = true) by (destruct c0; cbn [matching degree_of] in *; auto; discriminate).
    destruct (steps_commands f e He l p1 s1 _ _ _ V1 N1 M1 P F') as (p' & k' & d' & R & V').
    exists p'. split; [cbn [map read_commands]; rewrite R1; exact R|].
    destruct V' as (_ & _ & _ & _ & _ & _ & O & _). unfold interpret. cbn [fst] in O. rewrite O. reflexivity.
Qed.
Print Assumptions svg_path_drawn.

