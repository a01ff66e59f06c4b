(** The writing of SVG files, pyx/svgwriter.py. *)
From Coq Require Import Ascii String List Arith Bool.
Import ListNotations.
Open Scope string_scope.

(** What is written: the declaration of the document, with the xlink name space or without,
    line ends and blanks, start and end tags and other characters.  XMLGenerator writes a
    start tag directly followed by its end tag as one tag; the escapes in attributes and
    characters are not modelled. *)
Inductive tok :=
  | Doc (xlink : bool)
  | Nl
  | Sp (n : nat)
  | St (name : string) (attrs : list (string * string))
  | En (name : string)
  | Ch (s : string).

(** SVGGenerator, l.83-163: what is written so far and the attributes.  The attribute
    last_was_end is not bound before the first element. *)
Record gen := mkgen { out : list tok; xlink_enabled : bool; indent : nat; newline : bool; last_was_end : option bool; xlink_used : bool }.

(** convertName, l.91-103: Some true for names in the xlink name space, None for an exception;
    [enabled] is the attribute xlink_enabled *)
Definition convert_name (enabled : bool) (name : string) : option bool :=
  match index 0 ":" name with
  | None => Some false
  | Some k =>
      let rest := substring (S k) (String.length name) name in
      match index 0 ":" rest with
      | Some _ => None
      | None => if (String.eqb (substring 0 k name) "xlink" && enabled)%bool then Some true else None
      end
  end.
(** convertAttrs, l.105-106: whether an xlink name is among them *)
Fixpoint convert_attrs (enabled : bool) (attrs : list (string * string)) : option bool :=
  match attrs with
  | [] => Some false
  | (name, _) :: attrs' =>
      match convert_name enabled name, convert_attrs enabled attrs' with
      | Some a, Some b => Some (a || b)%bool
      | _, _ => None
      end
  end.
Definition emit (g : gen) (l : list tok) : gen :=
  mkgen (out g ++ l) (xlink_enabled g) (indent g) (newline g) (last_was_end g) (xlink_used g).
(** self.characters for blanks, where nothing is written for the empty string *)
Definition blanks (n : nat) : list tok := match n with O => [] | _ => [Sp n] end.

(** startSVGDocument, l.126-133 *)
Definition start_document (xlink : bool) : gen := mkgen [Doc xlink] xlink 0 true None false.
(** startSVGElement, l.135-144 *)
Definition start_element (g : gen) (name : string) (attrs : list (string * string)) : option gen :=
  let g := if String.eqb name "tspan" then g else emit g ((if newline g then [] else [Nl]) ++ blanks (indent g)) in
  match convert_name (xlink_enabled g) name, convert_attrs (xlink_enabled g) attrs with
  | Some a, Some b =>
      let used := (xlink_used g || a || b)%bool in
      if String.eqb name "tspan" then Some (mkgen (out g ++ [St name attrs]) (xlink_enabled g) (indent g) (newline g) (last_was_end g) used)
      else Some (mkgen (out g ++ [St name attrs]) (xlink_enabled g) (S (indent g)) false (Some false) used)
  | _, _ => None
  end.
(** newline_and_tell, l.146-149; what is told is the number of tokens *)
Definition newline_and_tell (g : gen) : gen * nat :=
  let g := mkgen (out g ++ [Nl]) (xlink_enabled g) (indent g) true (last_was_end g) (xlink_used g) in (g, length (out g)).
(** endSVGElement, l.151-162 *)
Definition end_element (g : gen) (name : string) : option gen :=
  if String.eqb name "tspan" then
    match convert_name (xlink_enabled g) name with Some _ => Some (emit g [En name]) | None => None end
  else
    let depth := (indent g - 1)%nat in
    match last_was_end g, convert_name (xlink_enabled g) name with
    | Some last, Some _ =>
        Some (mkgen (out g ++ (if last then (if newline g then [] else [Nl]) ++ blanks depth else []) ++ [En name])
                    (xlink_enabled g) depth false (Some true) (xlink_used g))
    | _, _ => None
    end.
(** characters of a text *)
Definition characters (g : gen) (s : string) : gen := emit g [Ch s].
(** endSVGDocument, l.164-170 *)
Definition end_document (g : gen) : option gen := match indent g with O => Some (emit g [Nl]) | S _ => None end.

(** What pages and resources write: elements with the elements in them, and texts with their
    characters, where some are in a tspan (font.py l.735-761). *)
Inductive part := Plain (s : string) | Tspan (attrs : list (string * string)) (s : string).
Inductive node :=
  | Elem (name : string) (attrs : list (string * string)) (children : list node)
  | Text (attrs : list (string * string)) (parts : list part).
Definition bind {A B} (x : option A) (f : A -> option B) : option B := match x with Some a => f a | None => None end.
Definition write_part (g : gen) (p : part) : option gen :=
  match p with
  | Plain s => Some (characters g s)
  | Tspan attrs s => bind (start_element g "tspan" attrs) (fun g => end_element (characters g s) "tspan")
  end.
Fixpoint write_parts (g : gen) (ps : list part) : option gen :=
  match ps with [] => Some g | p :: ps' => bind (write_part g p) (fun g => write_parts g ps') end.
Fixpoint write_node (g : gen) (n : node) : option gen :=
  match n with
  | Elem name attrs children =>
      bind (start_element g name attrs) (fun g =>
      bind ((fix go (g : gen) (l : list node) : option gen :=
        match l with [] => Some g | n :: l' => bind (write_node g n) (fun g => go g l') end) g children) (fun g =>
      end_element g name))
  | Text attrs parts =>
      bind (start_element g "text" attrs) (fun g => bind (write_parts g parts) (fun g => end_element g "text"))
  end.
Fixpoint write_nodes (g : gen) (l : list node) : option gen :=
  match l with [] => Some g | n :: l' => bind (write_node g n) (fun g => write_nodes g l') end.

(** SVGwriter.__init__, l.178-233: the page is written to a separate document, from which the
    inner part is taken.  [page] is what the page writes, [resources] what the registered
    resources write within the element defs (SVGregistry.output, l.50-55), [attrs] the
    attributes of the element svg (with the view box, l.210-222). *)
Definition output_registry (g : gen) (resources : list node) : option gen :=
  match resources with
  | [] => Some g
  | _ => bind (start_element g "defs" []) (fun g => bind (write_nodes g resources) (fun g => end_element g "defs"))
  end.
Definition slice {A} (a b : nat) (l : list A) : list A := firstn (b - a) (skipn a l).
Definition svg_file (attrs : list (string * string)) (page resources : list node) : option (list tok) :=
  bind (start_element (start_document true) "svg" []) (fun g =>
  let '(g, pagexml_start) := newline_and_tell g in
  bind (write_nodes g page) (fun g =>
  let '(g, pagexml_end) := newline_and_tell g in
  bind (end_element g "svg") (fun g =>
  bind (end_document g) (fun pagesvg =>
  bind (start_element (start_document (xlink_used pagesvg)) "svg" attrs) (fun x =>
  bind (output_registry x resources) (fun x =>
  let '(x, _) := newline_and_tell x in
  let x := emit x (slice pagexml_start pagexml_end (out pagesvg)) in
  bind (end_element x "svg") (fun x =>
  bind (end_document x) (fun x => Some (out x))))))))).

(** SVGregistry.add, l.39-45: resources are merged with the first of the same type and id,
    which changes nothing (l.70-73) *)
Definition resource := (string * string)%type.
Definition add_resource (l : list resource) (r : resource) : list resource :=
  if existsb (fun r' => String.eqb (fst r) (fst r') && String.eqb (snd r) (snd r')) l then l else l ++ [r].
