(** What is in SVG files. *)
From Coq Require Import Ascii String List Arith Bool Lia.
From Verif Require Import SvgWriterModel SvgWriterSpec.
Import ListNotations.
Open Scope string_scope.
Open Scope list_scope.

Definition xl (s : string) : bool := match index 0 ":" s with None => false | Some _ => true end.
Lemma substring_all s : forall n, (String.length s <= n)%nat -> substring 0 n s = s.
Proof. induction s as [|c s IH]; intros [|n] H; simpl in *; auto; try lia. rewrite IH; auto. lia. Qed.
Lemma xlinked_iff s : named s -> (xl s = true <-> xlinked s).
Proof.
  intros [H|H]; unfold xl.
  - unfold simple in H. rewrite H. split; [discriminate|]. intros (r & -> & _).
    assert (Q : index 0 ":" ("xlink:" ++ r)%string = Some 5%nat) by (destruct r; reflexivity). congruence.
  - split; auto. intros _. destruct H as (r & -> & _). destruct r; reflexivity.
Qed.
Lemma convert_named en s : named s -> (en = true \/ simple s) -> convert_name en s = Some (xl s).
Proof.
  intros H D. unfold convert_name, xl. destruct H as [H|(r & -> & H)].
  - unfold simple in H. now rewrite H.
  - assert (E : index 0 ":" ("xlink:" ++ r)%string = Some 5%nat) by (destruct r; reflexivity). unfold simple in D. destruct D as [-> |D]; [|congruence].
    rewrite E.
    change (substring 6 (String.length ("xlink:" ++ r)) ("xlink:" ++ r)) with (substring 0 (6 + String.length r) r).
    rewrite substring_all by lia. unfold simple in H. rewrite H. assert (P : substring 0 5 ("xlink:" ++ r)%string = "xlink") by (destruct r; reflexivity).
    rewrite P. reflexivity.
Qed.
Lemma convert_attrs_named en attrs : Forall (fun s => named s /\ (en = true \/ simple s)) (map fst attrs) ->
  convert_attrs en attrs = Some (existsb xl (map fst attrs)).
Proof.
  induction attrs as [|[s v] attrs IH]; intros H; auto. simpl in *. inversion H as [|? ? [H1 H2] H3]; subst.
  rewrite (convert_named en s H1 H2), (IH H3). reflexivity.
Qed.

Section Ind.
  Variable P : node -> Prop.
  Hypothesis HE : forall name attrs children, Forall P children -> P (Elem name attrs children).
  Hypothesis HT : forall attrs parts, P (Text attrs parts).
  Fixpoint node_induction (n : node) : P n :=
    match n with
    | Elem name attrs children => HE name attrs children ((fix go (l : list node) : Forall P l :=
        match l with [] => Forall_nil P | n :: l' => Forall_cons n (node_induction n) (go l') end) children)
    | Text attrs parts => HT attrs parts
    end.
End Ind.

Lemma go_nodes l : forall g, (fix go (g : gen) (l : list node) : option gen :=
  match l with [] => Some g | n :: l' => bind (write_node g n) (fun g => go g l') end) g l = write_nodes g l.
Proof. induction l as [|n l IH]; intros g; [reflexivity|]. cbn [write_nodes]. destruct (write_node g n); [exact (IH g0)|reflexivity]. Qed.
Lemma lines_some d n : node_lines d n <> [].
Proof. destruct n as [name attrs [|n l]|]; discriminate. Qed.
Lemma joined_app a b : a <> [] -> b <> [] -> joined (a ++ b) = joined a ++ Nl :: joined b.
Proof.
  intros Ha Hb. induction a as [|x a IH]; [congruence|]. destruct a as [|y a].
  - simpl. destruct b; [congruence|]. reflexivity.
  - change ((x :: y :: a) ++ b) with (x :: (y :: a) ++ b). change (joined (x :: y :: a)) with (x ++ Nl :: joined (y :: a)).
    change (joined (x :: (y :: a) ++ b)) with (x ++ Nl :: joined ((y :: a) ++ b)). rewrite IH by discriminate. now rewrite <- app_assoc.
Qed.
Definition before (g : gen) : list tok := if newline g then [] else [Nl].
Definition allowed (g : gen) (names : list string) : Prop := Forall (fun s => named s /\ (xlink_enabled g = true \/ simple s)) names.
Definition after_nodes (g : gen) (l : list node) : gen :=
  match l with
  | [] => g
  | _ => mkgen (out g ++ before g ++ joined (flat_map (node_lines (indent g)) l)) (xlink_enabled g) (indent g) false (Some true)
           (xlink_used g || existsb xl (flat_map node_names l))
  end.
Lemma after_some g l : l <> [] -> after_nodes g l = mkgen (out g ++ before g ++ joined (flat_map (node_lines (indent g)) l)) (xlink_enabled g) (indent g) false (Some true)
  (xlink_used g || existsb xl (flat_map node_names l)).
Proof. destruct l; [congruence|reflexivity]. Qed.
Lemma start_named g name attrs : simple name -> name <> "tspan" -> allowed g (map fst attrs) ->
  start_element g name attrs = Some (mkgen (out g ++ before g ++ margin (indent g) ++ [St name attrs]) (xlink_enabled g) (S (indent g)) false (Some false)
    (xlink_used g || existsb xl (map fst attrs))).
Proof.
  intros N T A. unfold start_element. destruct (String.eqb_spec name "tspan"); [congruence|]. cbn [emit xlink_enabled xlink_used out indent].
  rewrite (convert_named (xlink_enabled g) name (or_introl N) (or_intror N)), (convert_attrs_named _ _ A).
  unfold xl at 1. unfold simple in N. rewrite N, orb_false_r. unfold before, blanks, margin. now rewrite <- !app_assoc.
Qed.
Lemma write_parts_spec ps : forall g, allowed g (flat_map (fun p => match p with Plain _ => [] | Tspan a _ => map fst a end) ps) ->
  write_parts g ps = Some (mkgen (out g ++ flat_map part_toks ps) (xlink_enabled g) (indent g) (newline g) (last_was_end g)
    (xlink_used g || existsb xl (flat_map (fun p => match p with Plain _ => [] | Tspan a _ => map fst a end) ps))).
Proof.
  induction ps as [|p ps IH]; intros g A.
  - simpl. rewrite app_nil_r, orb_false_r. destruct g; reflexivity.
  - cbn [write_parts]. cbn [flat_map] in *. unfold allowed in A. apply Forall_app in A as [A1 A2]. destruct p as [s|attrs s].
    + cbn [write_part bind]. unfold characters, emit. rewrite IH by exact A2. cbn [out xlink_enabled indent newline last_was_end xlink_used part_toks].
      rewrite <- app_assoc. reflexivity.
    + cbn [write_part]. unfold start_element. change (String.eqb "tspan" "tspan") with true. cbv iota.
      change (convert_name (xlink_enabled g) "tspan") with (Some false). rewrite (convert_attrs_named _ _ A1). cbn [bind].
      unfold end_element, characters, emit. change (String.eqb "tspan" "tspan") with true. cbv iota. cbn [xlink_enabled out indent newline last_was_end xlink_used].
      change (convert_name (xlink_enabled g) "tspan") with (Some false). cbv iota. cbn [bind]. rewrite IH by exact A2.
      cbn [out xlink_enabled indent newline last_was_end xlink_used part_toks]. rewrite <- !app_assoc. cbn [app]. rewrite existsb_app, orb_assoc, orb_false_r.
      reflexivity.
Qed.
Lemma write_node_spec n : forall g, elements_ok n -> allowed g (node_names n) -> write_node g n = Some (after_nodes g [n]).
Proof.
  induction n as [name attrs children IH|attrs parts] using node_induction; intros g W A.
  - cbn [elements_ok] in W. destruct W as (W1 & W2 & W3). cbn [node_names] in A. unfold allowed in A. apply Forall_app in A as [A1 A2].
    assert (Q : forall l g, Forall (fun n => forall g, elements_ok n -> allowed g (node_names n) -> write_node g n = Some (after_nodes g [n])) l ->
      fold_right (fun n P => elements_ok n /\ P) True l -> allowed g (flat_map node_names l) -> write_nodes g l = Some (after_nodes g l)).
    { clear. induction l as [|n l IH]; intros g F W A; [reflexivity|]. inversion F as [|? ? F1 F2]; subst. destruct W as [W1 W2].
      cbn [flat_map] in A. unfold allowed in A. apply Forall_app in A as [A1 A2]. cbn [write_nodes]. rewrite F1 by auto. cbn [bind].
      rewrite IH; auto. f_equal. unfold after_nodes. destruct l as [|m l]; [reflexivity|]. unfold before at 1. cbn [newline out xlink_enabled indent xlink_used].
      f_equal.
      - change (flat_map (node_lines (indent g)) (n :: m :: l)) with (node_lines (indent g) n ++ flat_map (node_lines (indent g)) (m :: l)).
        rewrite joined_app; [|apply lines_some|cbn [flat_map]; pose proof (lines_some (indent g) m); destruct (node_lines (indent g) m); [congruence|discriminate]].
        cbn [flat_map]. rewrite app_nil_r. rewrite <- !app_assoc. reflexivity.
      - change (flat_map node_names (n :: m :: l)) with (node_names n ++ flat_map node_names (m :: l)). rewrite existsb_app, orb_assoc.
        f_equal. f_equal. cbn [flat_map]. now rewrite app_nil_r. }
    cbn [write_node]. rewrite start_named by auto. cbn [bind].
    rewrite go_nodes, Q by (auto; exact A2). cbn [bind].
    unfold after_nodes at 2. cbn [flat_map node_names]. rewrite !app_nil_r. destruct children as [|c cs].
    + cbn [after_nodes]. unfold end_element. destruct (String.eqb_spec name "tspan"); [congruence|]. cbn [last_was_end xlink_enabled].
      rewrite (convert_named (xlink_enabled g) name (or_introl W1) (or_intror W1)). cbn [indent out xlink_used newline flat_map node_lines joined]. rewrite app_nil_r. f_equal. f_equal; [|lia].
      rewrite <- !app_assoc. reflexivity.
    + cbn [after_nodes]. unfold end_element. destruct (String.eqb_spec name "tspan"); [congruence|]. cbn [last_was_end xlink_enabled].
      rewrite (convert_named (xlink_enabled g) name (or_introl W1) (or_intror W1)). cbn [indent out xlink_used newline]. f_equal. f_equal; [|lia|rewrite existsb_app, orb_assoc; reflexivity].
      unfold before at 2. cbn [newline]. change (node_lines (indent g) (Elem name attrs (c :: cs))) with
        ((margin (indent g) ++ [St name attrs]) :: flat_map (node_lines (S (indent g))) (c :: cs) ++ [margin (indent g) ++ [En name]]).
      assert (Nf : flat_map (node_lines (S (indent g))) (c :: cs) <> []).
      { cbn [flat_map]. pose proof (lines_some (S (indent g)) c). destruct (node_lines (S (indent g)) c); [congruence|discriminate]. }
      set (F := flat_map (node_lines (S (indent g))) (c :: cs)) in *.
      change ((margin (indent g) ++ [St name attrs]) :: F ++ [margin (indent g) ++ [En name]]) with ([margin (indent g) ++ [St name attrs]] ++ F ++ [margin (indent g) ++ [En name]]).
      rewrite joined_app; [|discriminate|destruct F; discriminate]. rewrite joined_app; [|auto|discriminate]. cbn [joined].
      replace (S (indent g) - 1)%nat with (indent g) by lia. unfold blanks, margin. rewrite <- !app_assoc. cbn [app]. reflexivity.
  - cbn [node_names] in A. unfold allowed in A. apply Forall_app in A as [A1 A2]. cbn [write_node]. rewrite start_named; [|reflexivity|discriminate|exact A1]. cbn [bind].
    rewrite write_parts_spec by exact A2. cbn [bind]. unfold end_element. change (String.eqb "text" "tspan") with false. cbv iota. cbn [last_was_end xlink_enabled].
    change (convert_name (xlink_enabled g) "text") with (Some false). cbv iota. cbn [indent out xlink_used newline].
    unfold after_nodes. cbn [flat_map node_names node_lines joined]. rewrite !app_nil_r. f_equal. f_equal; [|lia|rewrite existsb_app, orb_assoc; reflexivity].
    rewrite <- !app_assoc. reflexivity.
Qed.
Lemma write_nodes_spec l : forall g, Forall elements_ok l -> allowed g (flat_map node_names l) -> write_nodes g l = Some (after_nodes g l).
Proof.
  induction l as [|n l IH]; intros g W A; [reflexivity|]. inversion W as [|? ? W1 W2]; subst.
  cbn [flat_map] in A. unfold allowed in A. apply Forall_app in A as [A1 A2]. cbn [write_nodes]. rewrite write_node_spec by auto. cbn [bind].
  rewrite IH; auto. f_equal. unfold after_nodes. destruct l as [|m l]; [reflexivity|]. unfold before at 1. cbn [newline out xlink_enabled indent xlink_used].
  f_equal.
  - change (flat_map (node_lines (indent g)) (n :: m :: l)) with (node_lines (indent g) n ++ flat_map (node_lines (indent g)) (m :: l)).
    rewrite joined_app; [|apply lines_some|cbn [flat_map]; pose proof (lines_some (indent g) m); destruct (node_lines (indent g) m); [congruence|discriminate]].
    cbn [flat_map]. rewrite app_nil_r. rewrite <- !app_assoc. reflexivity.
  - change (flat_map node_names (n :: m :: l)) with (node_names n ++ flat_map node_names (m :: l)). rewrite existsb_app, orb_assoc.
    f_equal. f_equal. cbn [flat_map]. now rewrite app_nil_r.
Qed.
Lemma flat_lines d l : l <> [] -> flat_map (node_lines d) l <> [].
Proof. destruct l as [|n l]; [congruence|]. intros _. cbn [flat_map]. pose proof (lines_some d n). destruct (node_lines d n); [congruence|discriminate]. Qed.
Lemma slice_middle {A} (a b c : list A) : slice (length a) (length (a ++ b)) (a ++ b ++ c) = b.
Proof.
  unfold slice. rewrite skipn_app, skipn_all, Nat.sub_diag, app_length. replace (length a + length b - length a)%nat with (length b) by lia.
  cbn [app skipn]. rewrite firstn_app, Nat.sub_diag, firstn_all. cbn [firstn]. apply app_nil_r.
Qed.

(** the element svg as a tree *)
Definition defs_of (resources : list node) : list node := match resources with [] => [] | _ => [Elem "defs" [] resources] end.
(** C152: the file consists of the declaration and of one element svg with the given attributes,
    which contains the resources, in an element defs, and what the page has written; each
    element is on a line of its own, indented by its depth, with no white space in texts.  The
    xlink name space is declared exactly if the page uses it. *)
Theorem svg_file_tree : forall attrs page resources, page <> [] ->
  Forall elements_ok page -> Forall elements_ok resources -> Forall simple (map fst attrs) ->
  Forall named (flat_map node_names page) -> Forall named (flat_map node_names resources) ->
  ((exists s, In s (flat_map node_names page) /\ xlinked s) \/ Forall simple (flat_map node_names resources)) ->
  exists xlink, svg_file attrs page resources =
    Some (Doc xlink :: joined (node_lines 0 (Elem "svg" attrs (defs_of resources ++ page))) ++ [Nl]) /\
    (xlink = true <-> exists s, In s (flat_map node_names page) /\ xlinked s).
Proof.
  intros attrs page resources Np Wp Wr Sa Mp Mr X.
  set (u := existsb xl (flat_map node_names page)).
  assert (U : u = true <-> exists s, In s (flat_map node_names page) /\ xlinked s).
  { unfold u. rewrite existsb_exists. rewrite Forall_forall in Mp. split; intros (s & I & E); exists s; split; auto; apply (xlinked_iff s (Mp s I)); auto. }
  exists u. split; [|exact U]. unfold svg_file.
  rewrite start_named; [|reflexivity|discriminate|constructor]. cbn [bind]. unfold newline_and_tell at 1.
  cbn [out xlink_enabled indent newline last_was_end xlink_used].
  rewrite write_nodes_spec; [|auto|].
  2:{ unfold allowed. cbn [xlink_enabled]. revert Mp. apply Forall_impl. intros s H. split; auto. }
  cbn [bind]. rewrite (after_some _ page Np). cbn [out xlink_enabled indent newline last_was_end xlink_used start_document before margin app].
  cbn [map existsb orb]. fold u. unfold newline_and_tell at 1. cbn [out xlink_enabled indent newline last_was_end xlink_used].
  set (J := joined (flat_map (node_lines 1) page)).
  unfold end_element at 1. change (String.eqb "svg" "tspan") with false. cbv iota. cbn [last_was_end xlink_enabled].
  change (convert_name true "svg") with (Some false). cbv iota. cbn [bind indent out xlink_used newline]. unfold end_document at 1. cbn [indent Nat.sub]. cbn [bind emit xlink_used out].
  rewrite start_named; [|reflexivity|discriminate|].
  2:{ unfold allowed. revert Sa. apply Forall_impl. intros s H. split; [left; auto|auto]. }
  cbn [bind out xlink_enabled indent newline last_was_end xlink_used start_document].
  assert (Zs : existsb xl (map fst attrs) = false).
  { clear -Sa. induction Sa as [|s l H _ IH]; auto. simpl. rewrite IH. unfold xl. unfold simple in H. now rewrite H. }
  rewrite Zs. cbn [orb]. change (before _) with (@nil tok) at 1. cbn [app margin].
  set (x0 := mkgen [Doc u; St "svg" attrs] u 1 false (Some false) false).
  change (mkgen _ u 1 false (Some false) false) with x0.
  assert (R : exists lw us, output_registry x0 resources =
    Some (mkgen ([Doc u; St "svg" attrs] ++ match resources with [] => [] | _ => Nl :: joined (flat_map (node_lines 1) (defs_of resources)) end) u 1 false (Some lw) us)).
  { unfold output_registry. destruct resources as [|r rs] eqn:Er; [exists false, false; rewrite app_nil_r; reflexivity|]. rewrite <- Er in *.
    rewrite start_named; [|reflexivity|discriminate|constructor]. cbn [bind].
    rewrite write_nodes_spec; [|auto|].
    2:{ unfold allowed. cbn [xlink_enabled x0]. rewrite Forall_forall in *. intros s I. split; [auto|]. destruct X as [X|X]; [left; now apply U|right; auto]. }
    assert (Nr : resources <> []) by (rewrite Er; discriminate). cbn [bind]. rewrite (after_some _ resources Nr). cbn [out xlink_enabled indent newline last_was_end xlink_used x0 map existsb orb].
    unfold before. cbn [newline]. unfold end_element. change (String.eqb "defs" "tspan") with false. cbv iota. cbn [last_was_end xlink_enabled].
    change (convert_name u "defs") with (Some false). cbv iota. cbn [bind indent out xlink_used newline]. eexists true, _. f_equal. f_equal.
    assert (Dr : defs_of resources = [Elem "defs" [] resources]) by (rewrite Er; reflexivity). rewrite Dr. cbn [flat_map]. rewrite app_nil_r.
    assert (E : node_lines 1 (Elem "defs" [] resources) = (margin 1 ++ [St "defs" []]) :: flat_map (node_lines 2) resources ++ [margin 1 ++ [En "defs"]]) by (rewrite Er; reflexivity).
    rewrite E. set (F := flat_map (node_lines 2) resources) in *.
    assert (NF : F <> []) by (unfold F; apply flat_lines; rewrite Er; discriminate).
    change ((margin 1 ++ [St "defs" []]) :: F ++ [margin 1 ++ [En "defs"]]) with ([margin 1 ++ [St "defs" []]] ++ F ++ [margin 1 ++ [En "defs"]]).
    rewrite joined_app; [|discriminate|destruct F; discriminate]. rewrite joined_app; [|auto|discriminate]. cbn [joined Nat.sub blanks].
    rewrite <- !app_assoc. reflexivity. }
  destruct R as (lw & us & ->). cbn [bind]. unfold newline_and_tell. cbn [out xlink_enabled indent newline last_was_end xlink_used emit].
  set (D := match resources with [] => [] | _ => Nl :: joined (flat_map (node_lines 1) (defs_of resources)) end).
  unfold end_element, emit at 1. change (String.eqb "svg" "tspan") with false. cbv iota. unfold emit. cbn [last_was_end xlink_enabled].
  change (convert_name u "svg") with (Some false). cbv iota. cbn [bind indent out xlink_used newline Nat.sub blanks app].
  unfold end_document. cbn [indent bind emit out]. f_equal.
  match goal with |- context [slice ?a ?b ?c] => assert (Sl : slice a b c = J ++ [Nl]) end.
  { match goal with |- slice ?a ?b ?c = _ => replace c with ([Doc true; St "svg" []; Nl] ++ (J ++ [Nl]) ++ [En "svg"; Nl]) by (cbn [app]; rewrite <- !app_assoc; reflexivity) end.
    apply (slice_middle [Doc true; St "svg" []; Nl] (J ++ [Nl]) [En "svg"; Nl]). }
  rewrite Sl.
  assert (Nall : defs_of resources ++ page <> []) by (destruct (defs_of resources); [exact Np|discriminate]).
  assert (E : node_lines 0 (Elem "svg" attrs (defs_of resources ++ page)) = [St "svg" attrs] :: flat_map (node_lines 1) (defs_of resources ++ page) ++ [[En "svg"]]).
  { destruct (defs_of resources ++ page); [congruence|reflexivity]. }
  rewrite E. change ([St "svg" attrs] :: ?l ++ [[En "svg"]]) with ([[St "svg" attrs]] ++ l ++ [[En "svg"]]).
  pose proof (flat_lines 1 _ Nall) as NF. rewrite joined_app; [|discriminate|destruct (flat_map (node_lines 1) (defs_of resources ++ page)); discriminate].
  rewrite joined_app; [|auto|discriminate]. cbn [joined]. rewrite flat_map_app.
  assert (Lw : (if lw then [] else []) = @nil tok) by (destruct lw; auto).
  assert (Fin : D ++ [Nl] ++ J = Nl :: joined (flat_map (node_lines 1) (defs_of resources) ++ flat_map (node_lines 1) page)).
  { unfold D, J. destruct resources as [|r rs]; [reflexivity|]. rewrite joined_app; [reflexivity|apply flat_lines; discriminate|apply flat_lines; exact Np]. }
  cbn [app]. f_equal. f_equal. rewrite Lw. rewrite <- !app_assoc. cbn [app].
  change (Nl :: J ++ ?l) with ([Nl] ++ J ++ l). rewrite (app_assoc [Nl] J), (app_assoc D), Fin. cbn [app]. f_equal.
Qed.
Print Assumptions svg_file_tree.
Example svg_file_ex : svg_file [("fill", "none")] [Elem "g" [] [Elem "path" [("d", "M 0 0")] []; Text [] [Plain "A"; Tspan [("dx", "-1")] "V"]]] [] =
  Some [Doc false; St "svg" [("fill", "none")]; Nl; Sp 1; St "g" []; Nl; Sp 2; St "path" [("d", "M 0 0")]; En "path"; Nl;
    Sp 2; St "text" []; Ch "A"; St "tspan" [("dx", "-1")]; Ch "V"; En "tspan"; En "text"; Nl; Sp 1; En "g"; Nl; En "svg"; Nl].
Proof. reflexivity. Qed.

(** C152: what a page without the xlink name space writes, with a resource which uses it, as the
    pattern of a bitmap, is no file but an error. *)
Theorem svg_xlink_refuted : forall href, svg_file [] [Elem "path" [("d", "M 0 0"); ("fill", "url(#pattern1)")] []]
  [Elem "pattern" [("id", "pattern1")] [Elem "image" [("xlink:href", href)] []]] = None.
Proof. reflexivity. Qed.
Print Assumptions svg_xlink_refuted.
Example svg_xlink_ex : match svg_file [] [Elem "image" [("xlink:href", "data")] []] [Elem "pattern" [] [Elem "image" [("xlink:href", "data")] []]] with
  | Some (Doc xlink :: _) => xlink | _ => false end = true.
Proof. reflexivity. Qed.
(** an empty page *)
Theorem svg_empty_page : forall attrs, Forall simple (map fst attrs) -> svg_file attrs [] [] = Some [Doc false; St "svg" attrs; Nl; Nl; En "svg"; Nl].
Proof.
  intros attrs Sa. unfold svg_file.
  change (start_element (start_document true) "svg" []) with (Some (mkgen [Doc true; St "svg" []] true 1 false (Some false) false)).
  cbn [bind newline_and_tell write_nodes out xlink_enabled indent newline last_was_end xlink_used].
  match goal with |- bind (end_element ?g "svg") _ = _ =>
    change (end_element g "svg") with (Some (mkgen [Doc true; St "svg" []; Nl; Nl; En "svg"] true 0 false (Some true) false)) end.
  cbn [bind]. unfold end_document at 1. cbn [indent bind emit xlink_used out].
  rewrite start_named; [|reflexivity|discriminate|].
  2:{ unfold allowed. revert Sa. apply Forall_impl. intros s H. split; [left; auto|auto]. }
  assert (Zs : existsb xl (map fst attrs) = false).
  { clear -Sa. induction Sa as [|s l H _ IH]; auto. simpl. rewrite IH. unfold xl. unfold simple in H. now rewrite H. }
  rewrite Zs. reflexivity.
Qed.
Print Assumptions svg_empty_page.
(** C152: resources of the same type and id are written once, in the order of their first
    registration *)
Theorem svg_resources_once : forall l, let rs := fold_left add_resource l [] in
  NoDup rs /\ (forall r, In r rs <-> In r l) /\ (forall a b, l = a ++ b -> exists c, rs = fold_left add_resource a [] ++ c).
Proof.
  assert (A : forall l r, (In r l -> add_resource l r = l) /\ (~ In r l -> add_resource l r = l ++ [r])).
  { intros l [t i]. unfold add_resource. set (same := fun r' : string * string => (String.eqb (fst (t, i)) (fst r') && String.eqb (snd (t, i)) (snd r'))%bool).
    destruct (existsb same l) eqn:E.
    - split; [intros _; reflexivity|]. intros N. exfalso. apply N. apply existsb_exists in E as ([t' i'] & I & E). apply andb_prop in E as [E1 E2].
      apply String.eqb_eq in E1, E2. simpl in *. subst. auto.
    - split; [|intros _; reflexivity]. intros I. exfalso. assert (X : existsb same l = true) by
        (apply existsb_exists; exists (t, i); split; auto; unfold same; now rewrite !String.eqb_refl). congruence. }
  assert (B : forall (l : list resource) (r : resource), {In r l} + {~ In r l}) by (intros l r; apply in_dec; intros x y; unfold resource in x, y; decide equality; apply string_dec).
  assert (G : forall l acc, NoDup acc -> NoDup (fold_left add_resource l acc) /\ (forall r, In r (fold_left add_resource l acc) <-> In r acc \/ In r l) /\
    exists c, fold_left add_resource l acc = acc ++ c).
  { induction l as [|r l IH]; intros acc N; simpl.
    - split; auto. split; [tauto|]. exists []. now rewrite app_nil_r.
    - destruct (A acc r) as [A1 A2]. destruct (B acc r) as [D|D].
      + rewrite (A1 D). destruct (IH acc N) as (H1 & H2 & H3). split; auto. split; auto. intros x. rewrite H2. split; [tauto|]. intros [H|[<-|H]]; auto.
      + rewrite (A2 D). assert (N' : NoDup (acc ++ [r])).
        { rewrite <- rev_involutive, rev_app_distr. apply NoDup_rev. simpl. constructor; [rewrite <- in_rev; auto|now apply NoDup_rev]. }
        destruct (IH (acc ++ [r]) N') as (H1 & H2 & c & H3). split; auto. split.
        * intros x. rewrite H2, in_app_iff. simpl. tauto.
        * exists ([r] ++ c). rewrite H3. now rewrite <- app_assoc. }
  intros l rs. destruct (G l [] (NoDup_nil _)) as (H1 & H2 & _). split; auto. split; [intros r; unfold rs; rewrite H2; simpl; tauto|].
  intros a b ->. unfold rs. rewrite fold_left_app. destruct (G a [] (NoDup_nil _)) as (H1' & _). destruct (G b (fold_left add_resource a []) H1') as (_ & _ & c & H3). eauto.
Qed.
Print Assumptions svg_resources_once.
Example svg_resources_ex : fold_left add_resource [("clippath", "1"); ("pattern", "1"); ("clippath", "1")] [] = [("clippath", "1"); ("pattern", "1")].
Proof. reflexivity. Qed.
