(** Where documents are written to. *)
From Coq Require Import ZArith List Bool Lia ZifyBool.
From Verif Require Import MapModel MapSpec MapProps OutputModel.
Import ListNotations.
Open Scope Z_scope.

Definition ends_with (s e : text) : Prop := exists p, s = p ++ e.
Lemma endswith_iff : forall p s, endswith p s = true <-> ends_with s p.
Proof.
  intros p s. unfold endswith, ends_with. rewrite startswith_iff. split; intros (r & H).
  - exists (rev r). apply (f_equal (@rev Z)) in H. rewrite rev_involutive, rev_app_distr, rev_involutive in H. exact H.
  - exists (rev r). rewrite H, rev_app_distr. reflexivity.
Qed.
Lemma suffixes_differ : forall f g s, ends_with s (46 :: suffix_of f) -> ends_with s (46 :: suffix_of g) -> f = g.
Proof.
  intros f g s (p & A) (q & B). rewrite A in B. apply (f_equal (@rev Z)) in B. rewrite !rev_app_distr in B.
  destruct f, g; try reflexivity; cbn in B; discriminate.
Qed.

(** C125: the name of the file ends with the suffix of the format, and it is the given name, with the suffix added just if it is missing; without a name it is
    that of the script.  Only what has been opened here is closed. *)
Theorem output_name : forall argv0 file f,
  match outputstream argv0 file (suffix_of f) with
  | Opened name => ends_with name (46 :: suffix_of f) /\
      match file with
      | NoFile => exists script, argv0 = script ++ [46; 112; 121] /\ name = script ++ 46 :: suffix_of f
      | FileName s => s <> [45] /\ (name = s \/ (~ ends_with s (46 :: suffix_of f) /\ name = s ++ 46 :: suffix_of f))
      | _ => False
      end
  | Stdout => file = FileName [45]
  | Given => file = Stream
  | NameError => file = NoFile /\ ~ ends_with argv0 [46; 112; 121]
  | ArgumentError => file = OtherObject
  end.
Proof.
  intros argv0 [|s| |] f; unfold outputstream; try reflexivity.
  - destruct (endswith dot_py argv0) eqn:E.
    + apply endswith_iff in E as (p & ->). assert (F : firstn (length (p ++ dot_py) - 3) (p ++ dot_py) = p).
      { rewrite app_length. cbn [length dot_py]. replace (length p + 3 - 3)%nat with (length p) by lia. rewrite firstn_app, Nat.sub_diag, firstn_all. apply app_nil_r. }
      rewrite F. split; [exists p; reflexivity|]. exists p. split; reflexivity.
    + split; [reflexivity|]. intros H. apply endswith_iff in H. unfold dot_py in E. congruence.
  - destruct (chars_eqb s [45]) eqn:M; [apply eqb_iff in M; subst; reflexivity|].
    assert (N : s <> [45]) by (intros ->; discriminate).
    destruct (endswith (46 :: suffix_of f) s) eqn:E.
    + apply endswith_iff in E. auto.
    + split; [exists s; reflexivity|]. split; [exact N|]. right. split; [|reflexivity]. intros H. apply endswith_iff in H. congruence.
Qed.
Print Assumptions output_name.

(** C125: writetofile writes the format of the extension, as the method for this format does with the same name, and fails for other extensions. *)
Theorem writetofile_format : forall argv0 name,
  match writetofile name with
  | Some (t, f) => ends_with name (46 :: suffix_of f) /\ (forall g, ends_with name (46 :: suffix_of g) -> g = f) /\ write_format f argv0 (FileName name) = (t, f) /\ t = Opened name
  | None => forall g, ~ ends_with name (46 :: suffix_of g)
  end.
Proof.
  intros argv0 name. unfold writetofile.
  assert (G : forall f, ends_with name (46 :: suffix_of f) -> ends_with name (46 :: suffix_of f) /\ (forall g, ends_with name (46 :: suffix_of g) -> g = f) /\
    write_format f argv0 (FileName name) = (Opened name, f) /\ Opened name = Opened name).
  { intros f H. split; [exact H|]. split; [intros g Hg; exact (suffixes_differ g f name Hg H)|]. split; [|reflexivity]. unfold write_format, outputstream.
    rewrite (proj2 (endswith_iff _ _) H). destruct (chars_eqb name [45]) eqn:M; [|reflexivity]. apply eqb_iff in M. subst. destruct H as (p & H). apply (f_equal (@rev Z)) in H.
    rewrite rev_app_distr in H. destruct f; discriminate. }
  cbn [first_format]. destruct (endswith (46 :: suffix_of EPS) name) eqn:E1; [apply G, endswith_iff; exact E1|].
  destruct (endswith (46 :: suffix_of PS) name) eqn:E2; [apply G, endswith_iff; exact E2|]. destruct (endswith (46 :: suffix_of PDF) name) eqn:E3; [apply G, endswith_iff; exact E3|].
  destruct (endswith (46 :: suffix_of SVG) name) eqn:E4; [apply G, endswith_iff; exact E4|].
  intros g H. apply endswith_iff in H. destruct g; congruence.
Qed.
Print Assumptions writetofile_format.

(** fig.eps is an EPS file and not a PS file; fig.eps written as PDF is fig.eps.pdf; the script a.py writes a.svg *)
Example output_ex : writetofile [102; 46; 101; 112; 115] = Some (Opened [102; 46; 101; 112; 115], EPS) /\
  write_format PDF [] (FileName [102; 46; 101; 112; 115]) = (Opened [102; 46; 101; 112; 115; 46; 112; 100; 102], PDF) /\
  write_format SVG [97; 46; 112; 121] NoFile = (Opened [97; 46; 115; 118; 103], SVG) /\ writetofile [102; 101; 112; 115] = None.
Proof. repeat split. Qed.
