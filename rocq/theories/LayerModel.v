(** Model of layers of a canvas: canvas.layer, canvas.insert and canvas.clear, pyx/canvas.py l.157-160,
    287-351.

    Names are numbers; a dotted name is the list of its components.  A canvas has its items, of
    which only the drawings (numbered) and the layers are told apart, and the dictionary of its
    layers.  An item that is the canvas self.layers[n] is written [Layer n].  A call gives the canvas
    afterwards, also if an exception was raised (second component false). *)
From Coq Require Import List Bool Arith.
Import ListNotations.

Inductive entry := Drawing (k : nat) | Layer (n : nat).
Inductive lcanvas := LC (items : list entry) (layers : list (nat * lcanvas)).
Definition fresh : lcanvas := LC [] [].
Definition items_of (c : lcanvas) : list entry := match c with LC i _ => i end.
Definition layers_of (c : lcanvas) : list (nat * lcanvas) := match c with LC _ d => d end.
(** dictionary lookup and update *)
Fixpoint assoc {A} (n : nat) (d : list (nat * A)) : option A :=
  match d with [] => None | (m, a) :: r => if Nat.eqb n m then Some a else assoc n r end.
Fixpoint update {A} (n : nat) (a : A) (d : list (nat * A)) : list (nat * A) :=
  match d with [] => [] | (m, b) :: r => if Nat.eqb n m then (m, a) :: r else (m, b) :: update n a r end.
Definition is_layer (n : nat) (e : entry) : bool := match e with Layer m => Nat.eqb n m | Drawing _ => false end.
(** list.remove; None is the ValueError *)
Fixpoint remove (n : nat) (l : list entry) : option (list entry) :=
  match l with
  | [] => None
  | e :: r => if is_layer n e then Some r else match remove n r with Some r' => Some (e :: r') | None => None end
  end.
(** items.insert(items.index(layer a) + 1, e) and items.insert(items.index(layer a), e) *)
Fixpoint insert_above (a : nat) (e : entry) (l : list entry) : option (list entry) :=
  match l with
  | [] => None
  | x :: r => if is_layer a x then Some (x :: e :: r) else match insert_above a e r with Some r' => Some (x :: r') | None => None end
  end.
Fixpoint insert_below (a : nat) (e : entry) (l : list entry) : option (list entry) :=
  match l with
  | [] => None
  | x :: r => if is_layer a x then Some (e :: x :: r) else match insert_below a e r with Some r' => Some (x :: r') | None => None end
  end.
(** self.layers[above] for a name without dots; a name with dots is no key *)
Definition key (d : list (nat * lcanvas)) (name : list nat) : option nat :=
  match name with [a] => match assoc a d with Some _ => Some a | None => None end | _ => None end.
Definition is_some {A} (o : option A) : bool := match o with Some _ => true | None => false end.
(** layer for a name without dots, l.302-319 *)
Definition simple_layer (n : nat) (above below : option (list nat)) (c : lcanvas) : lcanvas * bool :=
  let (items, layers) := (items_of c, layers_of c) in
  let step1 := match assoc n layers with
    | Some _ => if is_some above || is_some below
                then match remove n items with Some i => (i, layers, true) | None => (items, layers, false) end
                else (items, layers, true)
    | None => ((if is_some above || is_some below then items else items ++ [Layer n]), layers ++ [(n, fresh)], true)
    end in
  let '(items, layers, ok) := step1 in
  let failed := (LC items layers, false) in
  if negb ok then failed
  else match above, below with
       | Some a, _ => match key layers a with
                      | Some k => match insert_above k (Layer n) items with Some i => (LC i layers, true) | None => failed end
                      | None => failed
                      end
       | None, Some b => match key layers b with
                         | Some k => match insert_below k (Layer n) items with Some i => (LC i layers, true) | None => failed end
                         | None => failed
                         end
       | None, None => (LC items layers, true)
       end.
(** above.split(".", 1) with the assertion that the group is the same, l.323-328 *)
Definition in_group (g : nat) (name : option (list nat)) : option (option (list nat)) :=
  match name with
  | None => Some None
  | Some (h :: x :: l) => if Nat.eqb h g then Some (Some (x :: l)) else None
  | Some _ => None
  end.
(** layer, l.287-329; the name is not empty *)
Fixpoint layer (name : list nat) (above below : option (list nat)) (c : lcanvas) : lcanvas * bool :=
  if is_some above && is_some below then (c, false)
  else match name with
       | [] => (c, false)
       | [n] => simple_layer n above below c
       | g :: rest =>
         let c1 := match assoc g (layers_of c) with
                   | Some _ => c
                   | None => LC (items_of c ++ [Layer g]) (layers_of c ++ [(g, fresh)])
                   end in
         match in_group g above, in_group g below, assoc g (layers_of c1) with
         | Some a, Some b, Some sub => let (sub', ok) := layer rest a b sub in (LC (items_of c1) (update g sub' (layers_of c1)), ok)
         | _, _, _ => (c1, false)
         end
       end.
(** insert of a drawing into a canvas or one of its layers (l.331-351), and clear, l.157-160 *)
Fixpoint insert (name : list nat) (k : nat) (c : lcanvas) : lcanvas :=
  match name with
  | [] => LC (items_of c ++ [Drawing k]) (layers_of c)
  | g :: rest => match assoc g (layers_of c) with
                 | Some sub => LC (items_of c) (update g (insert rest k sub) (layers_of c))
                 | None => c
                 end
  end.
Definition clear (c : lcanvas) : lcanvas := fresh.
