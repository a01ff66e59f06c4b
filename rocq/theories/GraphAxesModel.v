(** * The axes of graphs: which there are, and when they are created

    pyx/graph/graph.py l.342-376 (the axes of a graphxy), l.174-181 (did), l.228-243 (doranges, doaxiscreate), l.556-569 and l.582-586
    (doaxispositioner and dolayout); pyx/graph/axis/axis.py l.580-613, 661-665 (anchoredaxis) and l.668-703 (linkedaxis).

    Axes are named by a letter and a number, where "x" is number 1; numbers are at least 1.  Several graphs are numbered, and an axis
    is named by its graph and its name: an axis belongs to one graph only.  Linear axes with rational numbers; the choice of the
    partition and painting is any function of the range (AxisModel.v).  Positions are left out (Graph2dModel.v). *)
From Coq Require Import ZArith QArith Arith Bool List Lia.
Import ListNotations.
Open Scope nat_scope.

Inductive letter := X | Y.
Definition name := (letter * nat)%type.
Definition letter_eqb (a b : letter) : bool := match a, b with X, X | Y, Y => true | _, _ => false end.
Definition name_eqb (a b : name) : bool := letter_eqb (fst a) (fst b) && (snd a =? snd b).

(** ** The axes of a graphxy, l.342-376 *)
Section Table.
  (** an axis given by the caller, and what a keyword like x_min gives: a changed axis, or an exception *)
  Variables A K : Type.
  Variable default : A. (* axis.linear() *)
  Variable change : K -> A -> option A.
  Variable change_linked : K -> option K. (* a linkedaxis takes arguments for the painter only, axis.py l.671-673 *)
  (** the axes in self.axes: an anchored axis (or a linkedaxis the caller gave), or one linked to another axis of the graph, with the changed painter *)
  Inductive entry := Own (a : A) | LinkedTo (n : name) (k : option K).
  Definition dict (B : Type) := list (name * B).
  Definition lookup {B} (n : name) (d : dict B) : option B := match find (fun p => name_eqb n (fst p)) d with Some p => Some (snd p) | None => None end.
  (** d[n] = b: the place of a key which is there stays *)
  Fixpoint store {B} (n : name) (b : B) (d : dict B) : dict B :=
    match d with [] => [(n, b)] | p :: d' => if name_eqb n (fst p) then (n, b) :: d' else p :: store n b d' end.
  (** l.345-349: None is the None of the caller *)
  Definition default_axis (l : letter) (axes : dict (option A)) : dict (option A) :=
    match lookup (l, 1) axes with
    | Some _ => axes
    | None => match lookup (l, 2) axes with Some (Some _) => axes | _ => store (l, 1) (Some default) axes end
    end.
  (** l.352-357: None is an exception *)
  Fixpoint apply_split (split : dict K) (axes : dict (option A)) (later : dict K) : option (dict (option A) * dict K) :=
    match split with
    | [] => Some (axes, later)
    | (n, k) :: split' =>
        match lookup n axes with
        | Some (Some a) => match change k a with Some a' => apply_split split' (store n (Some a') axes) later | None => None end
        | Some None => None
        | None => apply_split split' axes (later ++ [(n, k)])
        end
    end.
  (** l.360-365 *)
  Fixpoint anchored (axes : dict (option A)) : dict entry :=
    match axes with [] => [] | (n, Some a) :: axes' => (n, Own a) :: anchored axes' | (_, None) :: axes' => anchored axes' end.
  (** l.368-373; at_ tells whether xaxisat or yaxisat is None *)
  Definition add_linked (l : letter) (at_ : bool) (axes : dict (option A)) (selfaxes : dict entry) : option (dict entry) :=
    match lookup (l, 1) axes with
    | None => match lookup (l, 2) axes with Some (Some _) => Some (store (l, 1) (LinkedTo (l, 2) None) selfaxes) | _ => None end
    | Some _ => match lookup (l, 2) axes with
                | None => if at_ then match lookup (l, 1) selfaxes with Some _ => Some (store (l, 2) (LinkedTo (l, 1) None) selfaxes) | None => None end
                          else Some selfaxes
                | Some _ => Some selfaxes
                end
    end.
  (** l.375-376 *)
  Fixpoint apply_later (later : dict K) (selfaxes : dict entry) : option (dict entry) :=
    match later with
    | [] => Some selfaxes
    | (n, k) :: later' =>
        match lookup n selfaxes with
        | Some (Own a) => match change k a with Some a' => apply_later later' (store n (Own a') selfaxes) | None => None end
        | Some (LinkedTo t _) => match change_linked k with Some k' => apply_later later' (store n (LinkedTo t (Some k')) selfaxes) | None => None end
        | None => None
        end
    end.
  (** axes are the arguments without an underscore, split those with one *)
  Definition graphxy_axes (axes : dict (option A)) (split : dict K) (xat yat : bool) : option (dict entry) :=
    let axes := default_axis Y (default_axis X axes) in
    match apply_split split axes [] with
    | None => None
    | Some (axes, later) =>
        match add_linked X xat axes (anchored axes) with
        | None => None
        | Some s => match add_linked Y yat axes s with None => None | Some s => apply_later later s end
        end
    end.
End Table.
Arguments Own {A K}. Arguments LinkedTo {A K}.

(** ** Creating axes *)
Definition key := (nat * name)%type.
Definition key_eqb (a b : key) : bool := (fst a =? fst b) && name_eqb (snd a) (snd b).
(** an anchoredaxis, or a linkedaxis; a linkedaxis which is linked to nothing yet has no target *)
Inductive kind := Anchored | Linked (target : option key).
(** paint tells whether the linkpainter is not None; shown is the range when the canvas was made, None without canvas *)
Record axis := mkaxis { a_kind : kind; a_data : nat; a_paint : bool; a_pos : bool; a_shown : option (option Q * option Q) }.
(** the axisdata: the limits of the axis, the range, and whether there are ticks *)
Record data := mkdata { fixmin : option Q; fixmax : option Q; dmin : option Q; dmax : option Q; ticks : bool }.
(** the calls registered by did *)
Inductive call := DidRanges (g : nat) | DidPositioner (k : key) | DidCreate (k : key) | DidLayout (g : nat).
Definition call_eqb (a b : call) : bool :=
  match a, b with
  | DidRanges g, DidRanges h | DidLayout g, DidLayout h => g =? h
  | DidPositioner k, DidPositioner l | DidCreate k, DidCreate l => key_eqb k l
  | _, _ => false
  end.
(** what happens: the ranges of a graph are complete, an anchored axis finds its partition for a range, an axis gets its canvas *)
Inductive event := Ranged (g : nat) | Parted (k : key) (lo hi : Q) | Created (k : key).
Record state := mkstate { axes : list (key * axis); datas : list data; calls : list call; events : list event }.

Definition get (k : key) (s : state) : option axis := match find (fun p => key_eqb k (fst p)) (axes s) with Some p => Some (snd p) | None => None end.
Definition set_axis (k : key) (a : axis) (s : state) : state :=
  mkstate (map (fun p => if key_eqb k (fst p) then (fst p, a) else p) (axes s)) (datas s) (calls s) (events s).
Definition get_data (d : nat) (s : state) : data := nth d (datas s) (mkdata None None None None false).
Fixpoint replace {B} (i : nat) (b : B) (l : list B) : list B := match l, i with [], _ => [] | _ :: l', O => b :: l' | x :: l', S i' => x :: replace i' b l' end.
Definition set_data (d : nat) (x : data) (s : state) : state := mkstate (axes s) (replace d x (datas s)) (calls s) (events s).
Definition did (c : call) (s : state) : bool := existsb (call_eqb c) (calls s).
Definition mark (c : call) (s : state) : state := mkstate (axes s) (datas s) (c :: calls s) (events s).
Definition log (e : event) (s : state) : state := mkstate (axes s) (datas s) (calls s) (events s ++ [e]).

(** axis.py l.96-107 *)
Definition adjust_value (d : data) (v : Q) : data :=
  let lo := match fixmin d with None => match dmin d with None => Some v | Some m => if Qlt_le_dec v m then Some v else Some m end | Some _ => dmin d end in
  let hi := match fixmax d with None => match dmax d with None => Some v | Some m => if Qlt_le_dec m v then Some v else Some m end | Some _ => dmax d end in
  mkdata (fixmin d) (fixmax d) lo hi (ticks d).
(** axis.py l.609-613, for both kinds of axes *)
Definition adjust (k : key) (vs : list Q) (s : state) : option state :=
  match get k s with
  | None => None
  | Some a => Some (match a_shown a with None => set_data (a_data a) (fold_left adjust_value vs (get_data (a_data a) s)) s | Some _ => s end)
  end.
Fixpoint adjusts (l : list (key * list Q)) (s : state) : option state :=
  match l with [] => Some s | (k, vs) :: l' => match adjust k vs s with Some s' => adjusts l' s' | None => None end end.

Inductive outcome := Ok (s : state) | Exn (s : state).
Definition out (o : outcome) : state := match o with Ok s | Exn s => s end.

Section Create.
  (** _create, axis.py l.121-239: the range behind it, None is an exception *)
  Variable partition : data -> Q * Q -> option (Q * Q).
  (** the values which adjust the axes of a graph; those of functions depend on the ranges (graph/data.py l.527-544) *)
  Variable static : nat -> list (key * list Q).
  Variable dynamic : nat -> list data -> list (key * list Q).

  (** l.228-237; an axis which is not there leaves the ranges as they were *)
  Definition doranges (g : nat) (s : state) : outcome :=
    if did (DidRanges g) s then Ok s
    else let s := mark (DidRanges g) s in
         match adjusts (static g) s with
         | None => Exn s
         | Some s => match adjusts (dynamic g (datas s)) s with None => Exn s | Some s => Ok (log (Ranged g) s) end
         end.
  (** axis.py l.600-603 *)
  Definition setpositioner (k : key) (s : state) : outcome :=
    match get k s with
    | None => Exn s
    | Some a => if a_pos a then Exn s else Ok (set_axis k (mkaxis (a_kind a) (a_data a) (a_paint a) true (a_shown a)) s)
    end.
  Definition show (k : key) (a : axis) (s : state) : state :=
    let d := get_data (a_data a) s in log (Created k) (set_axis k (mkaxis (a_kind a) (a_data a) (a_paint a) (a_pos a) (Some (dmin d, dmax d))) s).
  (** axis.py l.661-665 of an anchored axis without canvas *)
  Definition create_anchored (k : key) (a : axis) (s : state) : outcome :=
    if negb (a_pos a) then Exn s
    else let d := get_data (a_data a) s in
         match dmin d, dmax d with
         | Some lo, Some hi =>
             let s := log (Parted k lo hi) s in
             match partition d (lo, hi) with
             | Some (lo', hi') => Ok (show k a (set_data (a_data a) (mkdata (fixmin d) (fixmax d) (Some lo') (Some hi') true) s))
             | None => Exn s
             end
         | _, _ => Exn s
         end.
  (** the end of l.702: a painter needs the ticks *)
  Definition create_linked (k : key) (a : axis) (s : state) : outcome :=
    if a_paint a && negb (ticks (get_data (a_data a) s)) then Exn s else Ok (show k a s).

  (** l.567-569: the axis in front of which another one is placed *)
  Definition dependson (k : key) : key := let '(g, (l, n)) := k in (g, (l, n - 2)).
  Definition bind (o : option outcome) (f : state -> option outcome) : option outcome := match o with Some (Ok s) => f s | _ => o end.
  (** doaxiscreate, l.239-243, with doaxispositioner, l.556-580, and create, axis.py l.661-665, 697-703.  n bounds the depth of the calls;
      None is a call which goes deeper *)
  Fixpoint doaxiscreate (n : nat) (k : key) (s : state) : option outcome :=
    if did (DidCreate k) s then Some (Ok s)
    else match n with
    | O => None
    | S n =>
        let s := mark (DidCreate k) s in
        (* doaxispositioner *)
        bind (if did (DidPositioner k) s then Some (Ok s)
              else bind (Some (doranges (fst k) (mark (DidPositioner k) s))) (fun s =>
                if snd (snd k) <=? 2 then Some (setpositioner k s)
                else bind (doaxiscreate n (dependson k) s) (fun s =>
                  match get (dependson k) s with
                  | Some a => if a_pos a then match a_shown a with Some _ => Some (setpositioner k s) | None => Some (Exn s) end else Some (Exn s)
                  | None => Some (Exn s)
                  end))) (fun s =>
        match get k s with
        | None => Some (Exn s)
        | Some a =>
            match a_shown a with
            | Some _ => Some (Ok s)
            | None =>
                match a_kind a with
                | Anchored => Some (create_anchored k a s)
                | Linked None => Some (Exn s)
                | Linked (Some t) =>
                    if negb (a_pos a) then Some (Exn s)
                    else
                      (* docreate of the target, axis.py l.596-598 *)
                      bind (match get t s with
                            | None => Some (Exn s)
                            | Some b => match a_shown b with Some _ => Some (Ok s) | None => doaxiscreate n t s end
                            end) (fun s => match get k s with Some a => Some (create_linked k a s) | None => Some (Exn s) end)
                end
            end
        end)
    end.

  (** l.582-586 *)
  Fixpoint creates (n : nat) (ks : list key) (s : state) : option outcome :=
    match ks with [] => Some (Ok s) | k :: ks => bind (doaxiscreate n k s) (creates n ks) end.
  Definition dolayout (n : nat) (g : nat) (s : state) : option outcome :=
    if did (DidLayout g) s then Some (Ok s)
    else creates n (filter (fun k => fst k =? g) (map fst (axes s))) (mark (DidLayout g) s).

  (** what a caller does: doranges, doaxiscreate, convert (axis.py l.605-607, up to docreate; l.618-659 begin in the same way) and dolayout *)
  Inductive op := Ranges (g : nat) | Create (k : key) | Convert (k : key) | Layout (g : nat).
  Definition step (n : nat) (o : op) (s : state) : option outcome :=
    match o with
    | Ranges g => Some (doranges g s)
    | Create k => doaxiscreate n k s
    | Convert k => match get k s with
                   | None => Some (Exn s)
                   | Some a => match a_shown a with Some _ => Some (Ok s) | None => doaxiscreate n k s end
                   end
    | Layout g => dolayout n g s
    end.
  (** the caller goes on behind exceptions *)
  Fixpoint run (n : nat) (l : list op) (s : state) : option state :=
    match l with [] => Some s | o :: l => match step n o s with Some r => run n l (out r) | None => None end end.
End Create.
