(** * Model of how graphs handle their plot items: pyx/graph/graph.py l.37-50 (default providers), l.71-84 (which styles are added),
    l.112-138 (which points are drawn), l.174-181 (did), l.196-308 (the steps), l.609-613 (the key items), and the needsdata and
    providesdata of the styles in pyx/graph/style.py *)

From Coq Require Import Bool Arith Ascii String List.
Import ListNotations.
Open Scope list_scope.

(** ** Styles *)
(** A style: its identity, needsdata and providesdata *)
Record style := mkstyle { sid : nat; needs : list string; provides : list string }.
Definition mem (n : string) (l : list string) : bool := existsb (String.eqb n) l.

(** One pass of the while loop, l.75-83: the state is provided and addstyles; None is a KeyError of getdefaultprovider (l.47-50) *)
Definition need (provider : string -> option style) (st : option (list string * list style)) (n : string) : option (list string * list style) :=
  match st with
  | None => None
  | Some (provided, add) =>
      if mem n provided then st
      else match provider n with
           | None => None
           | Some p => Some (provided ++ provides p, add ++ [p])
           end
  end.
Definition visit (provider : string -> option style) (st : option (list string * list style)) (s : style) : option (list string * list style) :=
  match fold_left (need provider) (needs s) st with
  | None => None
  | Some (provided, add) => Some (provided ++ provides s, add)
  end.
Definition pass (provider : string -> option style) (styles : list style) : option (list style) :=
  option_map snd (fold_left (visit provider) styles (Some ([], []))).
(** The loop, l.71-84: the outer None is an endless loop (not finished after fuel passes), the inner one the KeyError *)
Fixpoint resolve (provider : string -> option style) (fuel : nat) (styles : list style) : option (option (list style)) :=
  match fuel with
  | 0 => None
  | S f => match pass provider styles with
           | None => Some None
           | Some [] => Some (Some styles)
           | Some add => resolve provider f (add ++ styles)
           end
  end.

(** The classes in style.py which are not abstract, with l.174, 237, 242, 394, 446, 634, 671, 731, 808, 878, 946, 985, 1329, 1432, 1438, 1485, 1596
    (changebar inherits from bar), 1624, 1662, 1667, 1720, 1917, 2056 (gradient needs nothing).  Two styles of a class have different
    identities; here sid is given for each. *)
Inductive class := Cpos | Crange | Csymbol | Cline | Cimpulses | Cerrorbar | Ctext | Carrow | Crect | Chistogram | Cbarpos | Cstackedbarpos | Cbar | Cchangebar
  | Cgridpos | Cgrid | Csurface | Cdensity | Cgradient.
Definition class_needs (c : class) : list string :=
  (match c with
  | Cpos | Crange | Cbarpos | Cgradient => []
  | Csymbol | Ctext | Carrow => ["vpos"; "vposmissing"; "vposvalid"]
  | Cline | Cgridpos => ["vpos"; "vposmissing"; "vposavailable"; "vposvalid"]
  | Cimpulses => ["vpos"; "vposmissing"; "vposavailable"; "vposvalid"; "poscolumnnames"]
  | Cerrorbar => ["vpos"; "vposmissing"; "vposavailable"; "vposvalid"; "vrange"; "vrangeminmissing"; "vrangemaxmissing"]
  | Crect => ["vrange"; "vrangeminmissing"; "vrangemaxmissing"]
  | Chistogram => ["vpos"; "vposmissing"; "vrange"; "vrangeminmissing"; "vrangemaxmissing"]
  | Cstackedbarpos => ["vbarrange"; "barposcolumnnames"; "barvalueindex"; "lastbarvalue"; "stackedbar"; "stackedbardraw"]
  | Cbar | Cchangebar => ["vbarrange"]
  | Cgrid | Csurface | Cdensity => ["values1"; "values2"; "data12"; "data21"]
  end)%string.
Definition class_provides (c : class) : list string :=
  (match c with
  | Cpos => ["vpos"; "vposmissing"; "vposavailable"; "vposvalid"; "poscolumnnames"]
  | Crange => ["vrange"; "vrangemissing"; "vrangeminmissing"; "vrangemaxmissing"]
  | Cbarpos => ["vpos"; "vposmissing"; "vposavailable"; "vposvalid"; "vbarrange"; "barposcolumnnames"; "barvalueindex"; "lastbarvalue"; "stackedbar"; "stackedbardraw"]
  | Cgridpos => ["values1"; "values2"; "data12"; "data21"; "index1"; "index2"]
  | _ => []
  end)%string.
Definition new (id : nat) (c : class) : style := mkstyle id (class_needs c) (class_provides c).
(** registerdefaultprovider for pos, range, barpos and gridpos, here with the identities 0 to 3 *)
Definition defaultprovider (n : string) : option style :=
  if mem n (class_provides Cpos) then Some (new 0 Cpos)
  else if mem n (class_provides Crange) then Some (new 1 Crange)
  else if mem n ["vbarrange"; "barposcolumnnames"; "barvalueindex"; "lastbarvalue"; "stackedbar"; "stackedbardraw"]%string then Some (new 2 Cbarpos)
  else if mem n (class_provides Cgridpos) then Some (new 3 Cgridpos)
  else None.

(** ** Selection of styles, l.260-276: keys are the identities of the styles of an item (joined by colons as a string in the code) *)
Definition idlist := list nat.
Fixpoint ideqb (a b : idlist) : bool :=
  match a, b with [], [] => true | x :: a, y :: b => (x =? y) && ideqb a b | _, _ => false end.
(** a dictionary with counters *)
Fixpoint get (d : list (idlist * nat)) (k : idlist) : option nat :=
  match d with [] => None | (k', v) :: r => if ideqb k k' then Some v else get r k end.
Fixpoint put (d : list (idlist * nat)) (k : idlist) (v : nat) : list (idlist * nat) :=
  match d with [] => [(k, v)] | (k', v') :: r => if ideqb k k' then (k', v) :: r else (k', v') :: put r k v end.
Definition total_step (d : list (idlist * nat)) (k : idlist) := match get d k with Some v => put d k (v + 1) | None => put d k 1 end.
Definition index_step (d : list (idlist * nat)) (k : idlist) := match get d k with Some v => put d k (v + 1) | None => put d k 0 end.
Fixpoint select_loop (total : list (idlist * nat)) (index : list (idlist * nat)) (items : list idlist) : list (option nat * option nat) :=
  match items with
  | [] => []
  | k :: r => let index := index_step index k in (get index k, get total k) :: select_loop total index r
  end.
Definition select_styles (items : list idlist) : list (option nat * option nat) := select_loop (fold_left total_step items []) [] items.

(** ** Points, l.116-136 *)
Section Points.
Variable value : Type.
(** a dictionary of columns *)
Definition columns := list (string * list value).
Definition point := list (string * option value).
Fixpoint setp (p : point) (n : string) (v : option value) : point :=
  match p with [] => [(n, v)] | (m, w) :: r => if String.eqb n m then (m, v) :: r else (m, w) :: setp r n v end.
Fixpoint getp (p : point) (n : string) : option (option value) :=
  match p with [] => None | (m, w) :: r => if String.eqb n m then Some w else getp r n end.
(** zip of the columns: the rows *)
Definition heads (c : columns) : option (list (string * value)) :=
  fold_right (fun nc r => match snd nc, r with v :: _, Some r => Some ((fst nc, v) :: r) | _, _ => None end) (Some []) c.
Definition tails (c : columns) : columns := map (fun nc => (fst nc, tl (snd nc))) c.
Fixpoint rows (fuel : nat) (c : columns) : list (list (string * value)) :=
  match fuel with
  | 0 => []
  | S f => match c with
           | [] => []
           | _ => match heads c with None => [] | Some r => r :: rows f (tails c) end
           end
  end.
Definition zip (c : columns) : list (list (string * value)) := match c with [] => [] | nc :: _ => rows (length (snd nc)) c end.
(** the points given to drawpoint: the dictionary is changed for each row and not created anew *)
Fixpoint draw_rows (p : point) (rs : list (list (string * value))) : list point :=
  match rs with
  | [] => []
  | r :: rest => let p' := fold_left (fun p nv => setp p (fst nv) (Some (snd nv))) r p in p' :: draw_rows p' rest
  end.
Definition empty_point (used : list string) : point := map (fun n => (n, None)) used.
Definition drawn_points (used : list string) (static dynamic : columns) : list point :=
  draw_rows (empty_point used) (zip static) ++
  (match static, dynamic with _ :: _, _ :: _ => [empty_point used] | _, _ => [] end) ++
  draw_rows (empty_point used) (zip dynamic).
End Points.

(** ** The steps.  Items are numbered by their position in self.plotitems; an item has a title or not. *)
Inductive event := AdjustStatic (i : nat) | Dynamic (i : nat) | AdjustDynamic (i : nat) | Axes | Select (i : nat) | Background | DrawAxes | Draw (i : nat) | PaintKey (items : list nat).
Inductive call := CDoranges | CDolayout | CDostyles | CDobackground | CDoaxes | CDokey | CDoplotitem (i : nat) | CDokeyitem (i : nat).
Definition call_eqb (a b : call) : bool :=
  match a, b with
  | CDoranges, CDoranges | CDolayout, CDolayout | CDostyles, CDostyles | CDobackground, CDobackground | CDoaxes, CDoaxes | CDokey, CDokey => true
  | CDoplotitem i, CDoplotitem j | CDokeyitem i, CDokeyitem j => i =? j
  | _, _ => false
  end.
Record state := mkstate { titles : list bool; calls : list call; keyitems : list nat; didranges : bool; didstyles : bool; log : list event }.
Definition initial : state := mkstate [] [] [] false false [].
Definition add_log (es : list event) (s : state) : state := mkstate (titles s) (calls s) (keyitems s) (didranges s) (didstyles s) (log s ++ es).
(** did, l.174-181, around the rest of a method *)
Definition once (c : call) (f : state -> state) (s : state) : state :=
  if existsb (call_eqb c) (calls s) then s
  else f (mkstate (titles s) (calls s ++ [c]) (keyitems s) (didranges s) (didstyles s) (log s)).
Definition numbers (s : state) : list nat := seq 0 (length (titles s)).
(** plot, l.196-226, for one item with or without a title; None is the RuntimeError *)
Definition plot (title : bool) (s : state) : option state :=
  if didstyles s then None
  else let s' := mkstate (titles s ++ [title]) (calls s) (keyitems s) (didranges s) (didstyles s) (log s) in
       Some (if didranges s then add_log [Dynamic (length (titles s))] s' else s').
(** doranges, l.228-237 *)
Definition doranges : state -> state := once CDoranges (fun s =>
  let s := add_log (map AdjustStatic (numbers s) ++ map Dynamic (numbers s) ++ map AdjustDynamic (numbers s)) s in
  mkstate (titles s) (calls s) (keyitems s) true (didstyles s) (log s)).
(** dolayout, l.582-591 (with doaxiscreate and doaxispositioner for all axes, of which there is at least one) *)
Definition dolayout : state -> state := once CDolayout (fun s => add_log [Axes] (doranges s)).
(** dobackground, l.592-597 *)
Definition dobackground : state -> state := once CDobackground (add_log [Background]).
(** dostyles, l.254-278 *)
Definition dostyles : state -> state := once CDostyles (fun s =>
  let s := dobackground (dolayout s) in let s := add_log (map Select (numbers s)) s in
  mkstate (titles s) (calls s) (keyitems s) (didranges s) true (log s)).
(** doaxes, l.599-607 *)
Definition doaxes : state -> state := once CDoaxes (fun s => add_log [DrawAxes] (dobackground (dolayout s))).
(** doplotitem and doplot, l.280-288 *)
Definition doplotitem (i : nat) : state -> state := once (CDoplotitem i) (fun s => add_log [Draw i] (dostyles s)).
Definition doplot (s : state) : state := fold_left (fun s i => doplotitem i s) (numbers s) s.
(** dokeyitem, l.294-299 *)
Definition dokeyitem (i : nat) : state -> state := once (CDokeyitem i) (fun s =>
  let s := dostyles s in
  if nth i (titles s) false then mkstate (titles s) (calls s) (keyitems s ++ [i]) (didranges s) (didstyles s) (log s) else s).
(** dokey, l.609-616, in a graph with a key *)
Definition dokey : state -> state := once CDokey (fun s =>
  let s := dobackground s in let s := fold_left (fun s i => dokeyitem i s) (numbers s) s in add_log [PaintKey (keyitems s)] s).
(** finish, l.304-308 *)
Definition finish (s : state) : state := dokey (doplot (doaxes (dobackground s))).

(** What a user can call; doplotitem and dokeyitem with an item of the graph *)
Inductive op := Plot (title : bool) | Doranges | Dolayout | Dobackground | Dostyles | Doaxes | Doplotitem (i : nat) | Doplot | Dokeyitem (i : nat) | Dokey | Finish.
Definition run_op (o : op) (s : state) : option state :=
  match o with
  | Plot t => plot t s
  | Doranges => Some (doranges s) | Dolayout => Some (dolayout s) | Dobackground => Some (dobackground s) | Dostyles => Some (dostyles s)
  | Doaxes => Some (doaxes s)
  | Doplotitem i => if i <? length (titles s) then Some (doplotitem i s) else None
  | Doplot => Some (doplot s)
  | Dokeyitem i => if i <? length (titles s) then Some (dokeyitem i s) else None
  | Dokey => Some (dokey s)
  | Finish => Some (finish s)
  end.
Definition run (ops : list op) : option state :=
  fold_left (fun s o => match s with None => None | Some s => run_op o s end) ops (Some initial).
