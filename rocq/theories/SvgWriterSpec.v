(** Notions for SVG files. *)
From Coq Require Import Ascii String List Arith Bool.
From Verif Require Import SvgWriterModel.
Import ListNotations.
Open Scope string_scope.

(** the lines of an element at a depth: an element with others in it has a line for its start
    tag and one for its end tag, everything else a single line *)
Definition part_toks (p : part) : list tok :=
  match p with Plain s => [Ch s] | Tspan attrs s => [St "tspan" attrs; Ch s; En "tspan"] end.
Definition margin (d : nat) : list tok := match d with O => [] | _ => [Sp d] end.
Fixpoint node_lines (d : nat) (n : node) : list (list tok) :=
  match n with
  | Elem name attrs [] => [(margin d ++ [St name attrs; En name])%list]
  | Elem name attrs children => ((margin d ++ [St name attrs]) :: flat_map (node_lines (S d)) children ++ [margin d ++ [En name]])%list
  | Text attrs parts => [(margin d ++ [St "text" attrs] ++ flat_map part_toks parts ++ [En "text"])%list]
  end.
(** lines with line ends between them *)
Fixpoint joined (ls : list (list tok)) : list tok :=
  match ls with
  | [] => []
  | [l] => l
  | l :: ls' => (l ++ Nl :: joined ls')%list
  end.
(** the names of attributes and elements *)
Definition simple (s : string) : Prop := index 0 ":" s = None.
Definition xlinked (s : string) : Prop := exists r, s = "xlink:" ++ r /\ simple r.
Definition named (s : string) : Prop := simple s \/ xlinked s.
Fixpoint node_names (n : node) : list string :=
  match n with
  | Elem name attrs children => (map fst attrs ++ flat_map node_names children)%list
  | Text attrs parts => (map fst attrs ++ flat_map (fun p => match p with Plain _ => [] | Tspan a _ => map fst a end) parts)%list
  end.
Fixpoint elements_ok (n : node) : Prop :=
  match n with
  | Elem name attrs children => simple name /\ name <> "tspan" /\ fold_right (fun n P => elements_ok n /\ P) True children
  | Text _ _ => True
  end.
