(** Model of MonitorOutput of pyx/text.py (l.623-795) together with the calls which SingleEngine._execute makes (l.1060-1101):
    three processes run at the same time, the TeX interpreter, the thread which reads its output, and the main thread.

    A schedule is a sequence of actors; each actor makes one atomic step at a time.  The operations of queue.Queue and of
    threading.Event are atomic.  Simplifications: lines are strings of one kind of newlines (the replacement of carriage returns in
    read, l.676, is left out), readline is not interrupted (l.764-769), the pipe holds any number of lines, and the interpreter
    prints what it is asked for: its output is a parameter. *)
From Coq Require Import Arith Bool Ascii String List Lia.
From Verif Require Import TexMsgModel.
Import ListNotations.
Open Scope nat_scope.

(** line.find(expect) != -1, l.789-790 *)
Fixpoint find (m x : str) : bool := prefixb m x || match x with [] => false | _ :: x => find m x end.

(** where the thread is in run, l.777-795; None stands for the empty line at the end of the output *)
Inductive place :=
| Reading                         (* l.779, and the end of the loop *)
| Have (l : option str)           (* l.780-784 *)
| Got (l : option str)            (* l.785-787 *)
| Put (l : str)                   (* l.788-791 *)
| Noticed                         (* l.792 *)
| Finished                        (* the thread is not alive *)
| Raised.                         (* l.795 *)
(** where the main thread is in _execute, l.1076-1101 *)
Inductive mplace :=
| MExpect                         (* expect of the marker, l.1091, or, after everything is typeset, expect of None, l.1078 *)
| MWrite                          (* texinput.write and flush, l.1093-1094 *)
| MWait                           (* wait, l.1099 and l.731-732 *)
| MClear                          (* l.733 *)
| MRead                           (* read, l.670-676 *)
| MWriteEnd                       (* texinput.write, l.1079 *)
| MJoin                           (* done, l.1097 and l.751 *)
| MReadEnd
| MEnd
| MTimeout                        (* TexResultError, l.1103 *)
| MFull.                          (* queue.Full in expect, l.658 *)

Record state := {
  todo : list str;                (* lines which the interpreter is going to print *)
  closing : bool;                 (* it ends after that *)
  pipe : list str;                (* lines which it has printed, and which are not yet read *)
  closed : bool;
  expectq : option (option str);  (* self._expect, queue.Queue(1), l.640 *)
  received : bool;                (* self._received, l.641 *)
  output : list str;              (* self._output, l.642 *)
  at_ : place;
  expect : option str;            (* the local variable of run *)
  main : mplace;
  left : list (str * list str);   (* what is still to be executed: the marker and the lines which will be printed *)
  acc : list str;                 (* l in read, l.670 *)
  results : list (list str)       (* what the calls of read have returned *)
}.

Section Run.
  Variable bye : list str. (* what the interpreter prints when it ends *)

  (** the interpreter prints a line, or closes its output *)
  Definition tex_step (x : state) : option state :=
    match todo x with
    | l :: r => Some {| todo := r; closing := closing x; pipe := pipe x ++ [l]; closed := closed x; expectq := expectq x; received := received x; output := output x; at_ := at_ x; expect := expect x; main := main x; left := left x; acc := acc x; results := results x |}
    | [] => if closing x && negb (closed x) then Some {| todo := []; closing := true; pipe := pipe x; closed := true; expectq := expectq x; received := received x; output := output x; at_ := at_ x; expect := expect x; main := main x; left := left x; acc := acc x; results := results x |} else None
    end.
  Definition set_thread (x : state) (p : list str) (q : option (option str)) (r : bool) (o : list str) (a : place) (e : option str) : state :=
    {| todo := todo x; closing := closing x; pipe := p; closed := closed x; expectq := q; received := r; output := o; at_ := a; expect := e; main := main x; left := left x; acc := acc x; results := results x |}.
  (** run, l.777-795 *)
  Definition thread_step (x : state) : option state :=
    match at_ x with
    | Reading =>
        match pipe x with
        | l :: p => Some (set_thread x p (expectq x) (received x) (output x) (Have (Some l)) (expect x))
        | [] => if closed x then Some (set_thread x [] (expectq x) (received x) (output x) (Have None) (expect x)) else None
        end
    | Have l =>
        match expect x, expectq x with
        | None, Some e => Some (set_thread x (pipe x) None (received x) (output x) (Got l) e)
        | _, _ => Some (set_thread x (pipe x) (expectq x) (received x) (output x) (Got l) (expect x))
        end
    | Got None => Some (set_thread x (pipe x) (expectq x) (received x) (output x) (match expect x with None => Finished | Some _ => Raised end) (expect x))
    | Got (Some l) => Some (set_thread x (pipe x) (expectq x) (received x) (output x ++ [l]) (Put l) (expect x))
    | Put l =>
        match expect x with
        | Some e => if find e l then Some (set_thread x (pipe x) (expectq x) true (output x) Noticed (expect x)) else Some (set_thread x (pipe x) (expectq x) (received x) (output x) Reading (expect x))
        | None => Some (set_thread x (pipe x) (expectq x) (received x) (output x) Reading None)
        end
    | Noticed => Some (set_thread x (pipe x) (expectq x) (received x) (output x) Reading None)
    | Finished | Raised => None
    end.
  Definition set_main (x : state) (t : list str) (c : bool) (q : option (option str)) (r : bool) (o : list str) (m : mplace) (l : list (str * list str)) (a : list str) (res : list (list str)) : state :=
    {| todo := t; closing := c; pipe := pipe x; closed := closed x; expectq := q; received := r; output := o; at_ := at_ x; expect := expect x; main := m; left := l; acc := a; results := res |}.
  (** _execute, for everything which is left to be executed, and at last with newstate == STATE_DONE *)
  Definition main_step (x : state) : option state :=
    let go := set_main x (todo x) (closing x) in
    match main x with
    | MExpect =>
        match expectq x with
        | Some _ => Some (go (expectq x) (received x) (output x) MFull (left x) (acc x) (results x))
        | None =>
            match left x with
            | (m, _) :: _ => Some (go (Some (Some m)) (received x) (output x) MWrite (left x) (acc x) (results x))
            | [] => Some (go (Some None) (received x) (output x) MWriteEnd [] (acc x) (results x))
            end
        end
    | MWrite =>
        match left x with
        | (_, ls) :: r => Some (set_main x (todo x ++ ls) (closing x) (expectq x) (received x) (output x) MWait r (acc x) (results x))
        | [] => None
        end
    | MWait => if received x then Some (go (expectq x) (received x) (output x) MClear (left x) (acc x) (results x)) else None
    | MClear => Some (go (expectq x) false (output x) MRead (left x) (acc x) (results x))
    | MRead =>
        match output x with
        | l :: o => Some (go (expectq x) (received x) o MRead (left x) (acc x ++ [l]) (results x))
        | [] => Some (go (expectq x) (received x) [] MExpect (left x) [] (results x ++ [acc x]))
        end
    | MWriteEnd => Some (set_main x (todo x ++ bye) true (expectq x) (received x) (output x) MJoin (left x) (acc x) (results x))
    | MJoin => match at_ x with Finished | Raised => Some (go (expectq x) (received x) (output x) MReadEnd (left x) (acc x) (results x)) | _ => None end
    | MReadEnd =>
        match output x with
        | l :: o => Some (go (expectq x) (received x) o MReadEnd (left x) (acc x ++ [l]) (results x))
        | [] => Some (go (expectq x) (received x) [] MEnd (left x) [] (results x ++ [acc x]))
        end
    | MEnd | MTimeout | MFull => None
    end.
  (** the waiting may end at any time without a result, l.678-719 *)
  Definition timeout_step (x : state) : option state :=
    match main x with
    | MWait | MJoin => Some (set_main x (todo x) (closing x) (expectq x) (received x) (output x) MTimeout (left x) (acc x) (results x))
    | _ => None
    end.
  Inductive actor := Tex | Thread | Main | Timeout.
  Definition step (a : actor) (x : state) : option state :=
    match a with Tex => tex_step x | Thread => thread_step x | Main => main_step x | Timeout => timeout_step x end.
  (** when the thread is started, l.638-645, the interpreter prints its greeting *)
  Definition start (greeting : list str) (jobs : list (str * list str)) : state :=
    {| todo := greeting; closing := false; pipe := []; closed := false; expectq := None; received := false; output := []; at_ := Reading; expect := None; main := MExpect; left := jobs; acc := []; results := [] |}.
  (** a schedule; actors which have to wait are skipped *)
  Definition run (l : list actor) (x : state) : state := fold_left (fun x a => match step a x with Some y => y | None => x end) l x.
End Run.
