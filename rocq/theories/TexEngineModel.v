(** * The TeX engines

    pyx/text.py, l.920-1503: SingleEngine with _execute, do_start, do_preamble, do_typeset, do_finish, preamble and text_pt, the
    two kinds of engines, MultiEngine, and the part of textextbox_pt which gets the page of a text (l.857-865).

    The interpreter is any function of what was written to it so far: it gives what texoutput.wait() (or done()) returns, what
    can be read from it, and the pages in the dvi file.  How wait and read come to their results is in TexMonitorModel.v.
    Exceptions leave the engine changed, so each function gives the engine together with the outcome.  Simplifications: the
    temporary directory, usefiles, copyinput, the texts of the exceptions (l.1135-1145) and the clean-up at exit are left out;
    the text attributes are already applied to the expression; transformations and the positions of the boxes are left out
    (TextPosModel.v, BoxModel.v); numbers are rational. *)
From Coq Require Import ZArith QArith Arith Bool Ascii String List Lia DecimalString.
From Verif Require Import TexMsgModel.
Import ListNotations.
Open Scope nat_scope.

(** "%i" *)
Definition number (n : nat) : str := s (NilZero.string_of_uint (Nat.to_uint n)).

(** what is written to the interpreter, l.1077-1093: an expression, the page if it is typeset in a box (l.1087-1089), and the number
    of the marker; the end has no marker (l.1079) *)
Inductive command := Run (expr : str) (page : option nat) (executeid : nat) | Quit (expr : str).
(** the text of a command, l.1079, 1087-1093 *)
Definition written (c : command) : str :=
  match c with
  | Run expr page id =>
      match page with None => expr | Some p => s "\ProcessPyXBox{" ++ expr ++ s "%" ++ [nl] ++ s "}{" ++ number p ++ s "}" end ++
      s "%" ++ [nl] ++ s "\PyXInput{" ++ number id ++ s "}%" ++ [nl]
  | Quit expr => expr
  end%list.

Inductive exn := TexResult | TexDone | Assertion | Encode | InvalidPage | NoFile | EndOfFile | ClosedFile | FurtherPages.
Inductive outcome (A : Type) := Val (a : A) | Raise (x : exn).
Arguments Val {A}. Arguments Raise {A}.

(** a message parser; None is a TexResultError *)
Definition parser := str -> option str.

(** ** The answers *)
(** the decimals of PyXBoxPattern, l.940: -?\d*((\d\.?)|(\.?\d))\d*; at least one digit and at most one point *)
Definition digit (c : ascii) : bool := (48 <=? nat_of_ascii c) && (nat_of_ascii c <? 58).
Definition digits_value (x : str) : Z := fold_left (fun v c => (10 * v + Z.of_nat (nat_of_ascii c - 48))%Z) x 0%Z.
Definition decimal (x : str) : option (str * Q * str) :=
  let '(sign, x) := match x with "-"%char :: x => (true, x) | _ => (false, x) end in
  let '(a, r) := span digit x in
  let '(dot, b, r) := match r with "."%char :: r' => let '(b, r'') := span digit r' in (["."%char], b, r'') | _ => ([], [], r) end in
  if (length a =? 0) && (length b =? 0) then None
  else let q := (inject_Z (digits_value (a ++ b)) / inject_Z (10 ^ Z.of_nat (length b)))%Q in
       Some ((if sign then ["-"%char] else []) ++ a ++ dot ++ b, (if sign then - q else q)%Q, r)%list.
(** a fixed text of a pattern *)
Definition literal (p x : str) : option str := if prefixb p x then Some (skipn (length p) x) else None.
Local Notation "'let*' p := a 'in' b" := (match a with Some p => b | None => None end) (at level 200, p pattern, b at level 200).
(** PyXBoxPattern at the beginning of a text, l.940: the length of the match, the page and the four sizes *)
Definition pyxbox (x : str) : option (nat * (str * list Q)) :=
  let* x1 := literal (s "PyXBox:page=") x in
  let '(page, x2) := span digit x1 in
  if length page =? 0 then None else
  let* x3 := literal (s ",lt=") x2 in let* (_, lt, x4) := decimal x3 in
  let* x5 := literal (s "pt,rt=") x4 in let* (_, rt, x6) := decimal x5 in
  let* x7 := literal (s "pt,ht=") x6 in let* (_, ht, x8) := decimal x7 in
  let* x9 := literal (s "pt,dp=") x8 in let* (_, dp, x10) := decimal x9 in
  let* x11 := literal (s "pt:") x10 in
  Some (length x - length x11, (page, [lt; rt; ht; dp])).
Fixpoint search_box (x : str) (i : nat) : option (nat * nat * (str * list Q)) :=
  match pyxbox x with
  | Some (n, g) => Some (i, i + n, g)
  | None => match x with [] => None | _ :: y => search_box y (S i) end
  end.
(** dvi_pattern, l.941: Output written on .*texput\.dvi, an optional quote, \((\d+) pages?, \d+ bytes\)\. with a dot for newlines too; the beginning is
    the first one, the end the last one which fits *)
Definition dvi_end (x : str) : option (str * str) :=
  let* x := literal (s "texput.dvi") x in
  let x := match x with c :: y => if Ascii.eqb c quot then y else x | [] => x end in
  let* x := literal (s " (") x in
  let '(page, x) := span digit x in
  if length page =? 0 then None else
  let* x := literal (s " page") x in
  let x := match x with "s"%char :: y => y | _ => x end in
  let* x := literal (s ", ") x in
  let '(bytes, x) := span digit x in
  if length bytes =? 0 then None else
  let* x := literal (s " bytes).") x in Some (page, x).
Fixpoint last_end (x : str) : option (str * str) :=
  match x with
  | [] => dvi_end []
  | _ :: y => match last_end y with Some r => Some r | None => dvi_end x end
  end.
Definition dvi_written (x : str) : option (nat * str) :=
  let* y := literal (s "Output written on ") x in let* (page, r) := last_end y in Some (length x - length r, page).
Fixpoint search_dvi (x : str) (i : nat) : option (nat * nat * str) :=
  match dvi_written x with
  | Some (n, g) => Some (i, i + n, g)
  | None => match x with [] => None | _ :: y => search_dvi y (S i) end
  end.

(** str.replace(p, "") of all occurrences of a text which is not empty; skip is the rest of the occurrence being left out *)
Fixpoint replace_all_from (p x : str) (skip : nat) : str :=
  match x with
  | [] => []
  | c :: y => match skip with
              | S k => replace_all_from p y k
              | O => if prefixb p x then replace_all_from p y (length p - 1) else c :: replace_all_from p y 0
              end
  end.
Definition replace_all (p x : str) : str := replace_all_from p x 0.
(** l.1133: what may be left *)
Definition nothing_left (x : str) : bool :=
  length (replace_all [nl] (replace_all ("*"%char :: [nl]) (replace_all [" "%char] (replace_all (s "(Please type a command or say `\end')") x)))) =? 0.

(** l.1131-1132 *)
Fixpoint parse (ps : list parser) (x : str) : option str :=
  match ps with [] => Some x | p :: ps => let* x := p x in parse ps x end.

(** l.1100-1134: the sizes in points if something was typeset; None is a TexResultError *)
Definition expect (x : str * bool) : option str := if snd x then Some (fst x) else None.
Definition inside (page id : nat) (typeset : bool) (ps : list parser) (out : str) : option (list Q) :=
  let* x := expect (remove_string (s "PyXInputMarker:executeid=" ++ number id ++ s ":")%list out) in
  let* (x, sizes) :=
    (if typeset then
       match remove_pattern (fun x => search_box x 0) x false with
       | (x, Some (p, sizes)) =>
           if str_eqb p (number page) then
             let* x := expect (remove_string (s "[80.121.88." ++ number page ++ s "]")%list x) in Some (x, map (fun q => (q * 72 / (7227 # 100))%Q) sizes)
           else None
       | (_, None) => None
       end
     else Some (x, [])) in
  let* x := parse ps x in if nothing_left x then Some sizes else None.
Definition at_end (page : nat) (ps : list parser) (out : str) : bool :=
  let r :=
    if page =? 0 then expect (remove_string (s "No pages of output.") out)
    else match remove_pattern (fun x => search_dvi x 0) out true with
         | (x, Some p) => if str_eqb p (number page) then Some x else None
         | (_, None) => None
         end in
  match r with None => false | Some x => match parse ps x with None => false | Some x => nothing_left x end end.

(** ** The engine *)
(** l.939 *)
Inductive state := Start | Preamble | Typeset | Done.
Definition rank (t : state) : nat := match t with Start => 0 | Preamble => 1 | Typeset => 2 | Done => 3 end.
(** a kind of engine: what do_start executes after the interpreter is started (l.1186-1211, 1370-1379, 1430-1448), what
    go_typeset executes (nothing for TeX, l.1360-1362, 1421-1422), and what go_finish does (l.1364-1365, 1424-1425) *)
Record kind := mkkind { setup : list (str * list parser); begin : option (str * list parser); finish : str * list parser }.
(** a text box: the expression, its sizes, and the number of the page which was read for it, _dvicanvas *)
Record textbox := mkbox { b_expr : str; b_sizes : list Q; b_page : option nat }.
(** where the dvi file is: the number of pages read, or closed at the end of the pages (dvifile.py, l.425-427) *)
Inductive dvi := At (n : nat) | Closed.
(** l.1001-1023; boxes is needdvitextboxes without texipc; with texipc it lists the boxes which have been read *)
Record engine := mkengine { st : state; executeid : nat; page : nat; dvifile : option dvi; boxes : list textbox; input : list command }.
Definition new_engine : engine := mkengine Start 0 0 None [] [].
Definition set_state (t : state) (e : engine) := mkengine t (executeid e) (page e) (dvifile e) (boxes e) (input e).
Definition set_dvi (d : option dvi) (e : engine) := mkengine (st e) (executeid e) (page e) d (boxes e) (input e).
Definition set_boxes (b : list textbox) (e : engine) := mkengine (st e) (executeid e) (page e) (dvifile e) b (input e).

Section Engine.
  Variable tex : list command -> bool * str. (* wait() or done(), and read() *)
  Variable pages : list command -> list nat. (* the pages in the dvi file: the fourth counters of those with the counters 80, 121, 88 *)
  Variable encodable : str -> bool. (* expr.encode(self.texenc) does not fail *)
  Variable k : kind.
  Variable texipc : bool.

  (** l.1061-1147 without the end of the interpreter *)
  Definition execute (expr : str) (ps : list parser) (oldstate newstate : state) (e : engine) : engine * outcome (list Q) :=
    if negb ((1 <=? rank oldstate) && (rank oldstate <=? 2) && (rank oldstate =? rank (st e)) && (rank oldstate <=? rank newstate)) then (e, Raise Assertion)
    else if negb (encodable expr) then (e, Raise Encode)
    else
      let typeset := (rank oldstate =? 2) && (rank newstate =? 2) in
      let p := if typeset then S (page e) else page e in
      let id := S (executeid e) in
      let inp := (input e ++ [Run expr (if typeset then Some p else None) id])%list in
      let e := mkengine newstate id p (dvifile e) (boxes e) inp in
      let '(ok, out) := tex inp in
      if ok then match inside p id typeset ps out with Some sizes => (e, Val sizes) | None => (e, Raise TexResult) end
      else (e, Raise TexResult).
  (** l.1061-1147 with newstate == STATE_DONE *)
  Definition execute_end (expr : str) (ps : list parser) (e : engine) : engine * outcome unit :=
    if negb (rank (st e) =? 2) then (e, Raise Assertion)
    else
      let inp := (input e ++ [Quit expr])%list in
      let e := mkengine Done (executeid e) (page e) (dvifile e) (boxes e) inp in
      let '(ok, out) := tex inp in
      if ok && at_end (page e) ps out then (e, Val tt) else (e, Raise TexResult).

  (** l.1149-1211, 1370-1379, 1430-1448: the loop over the expressions of the setup *)
  Fixpoint executes (l : list (str * list parser)) (e : engine) : engine * outcome unit :=
    match l with
    | [] => (e, Val tt)
    | (x, ps) :: l => match execute x ps Preamble Preamble e with (e, Val _) => executes l e | (e, Raise r) => (e, Raise r) end
    end.
  Definition do_start (e : engine) : engine * outcome unit :=
    if negb (rank (st e) =? 0) then (e, Raise Assertion) else executes (setup k) (set_state Preamble e).
  (** l.1360-1362, 1421-1422 *)
  Definition go_typeset (e : engine) : engine * outcome unit :=
    match begin k with
    | None => if rank (st e) =? 1 then (set_state Typeset e, Val tt) else (e, Raise Assertion)
    | Some (x, ps) => match execute x ps Preamble Typeset e with (e, Val _) => (e, Val tt) | (e, Raise r) => (e, Raise r) end
    end.
  Definition started (e : engine) : engine * outcome unit := if rank (st e) <? 1 then do_start e else (e, Val tt).
  (** l.1213-1217, and preamble, l.1254-1269 *)
  Definition do_preamble (expr : str) (ps : list parser) (e : engine) : engine * outcome unit :=
    match started e with
    | (e, Val _) => match execute expr ps Preamble Preamble e with (e, Val _) => (e, Val tt) | (e, Raise r) => (e, Raise r) end
    | (e, Raise r) => (e, Raise r)
    end.
  (** l.1219-1225 *)
  Definition do_typeset (expr : str) (ps : list parser) (e : engine) : engine * outcome (list Q) :=
    match started e with
    | (e, Val _) =>
        match (if rank (st e) <? 2 then go_typeset e else (e, Val tt)) with
        | (e, Val _) => execute expr ps Typeset Typeset e
        | (e, Raise r) => (e, Raise r)
        end
    | (e, Raise r) => (e, Raise r)
    end.

  (** dvifile.readpage, dvifile.py l.403-430: the page; a page number of None is not checked.  The position behind an invalid page
      is left where it was; the end of the file of a running interpreter is a struct.error *)
  Definition readpage (expected : option nat) (e : engine) : engine * outcome (option nat) :=
    match dvifile e with
    | None => (e, Raise NoFile)
    | Some Closed => (e, Raise ClosedFile)
    | Some (At n) =>
        match nth_error (pages (input e)) n with
        | Some p => if match expected with Some q => p =? q | None => true end then (set_dvi (Some (At (S n))) e, Val (Some p)) else (e, Raise InvalidPage)
        | None => if rank (st e) =? 3 then (set_dvi (Some Closed) e, Val None) else (e, Raise EndOfFile)
        end
    end.
  (** l.1244-1247: the loop over needdvitextboxes; done are those read already *)
  Fixpoint readboxes (l done : list textbox) (p : nat) (e : engine) : engine * outcome unit :=
    match l with
    | [] => (e, Val tt)
    | b :: l =>
        match readpage (Some p) e with
        | (e, Val q) => let done := (done ++ [mkbox (b_expr b) (b_sizes b) q])%list in readboxes l done (S p) (set_boxes (done ++ l)%list e)
        | (e, Raise r) => (e, Raise r)
        end
    end.
  (** l.1227-1252 *)
  Definition do_finish (e : engine) : engine * outcome unit :=
    if rank (st e) =? 3 then (e, Val tt)
    else
      match (if rank (st e) <? 2 then go_typeset e else (e, Val tt)) with
      | (e, Raise r) => (e, Raise r)
      | (e, Val _) =>
          match execute_end (fst (finish k)) (snd (finish k)) e with
          | (e, Raise r) => (e, Raise r)
          | (e, Val _) =>
              match (if negb texipc && negb (length (boxes e) =? 0) then readboxes (boxes e) [] 1 (set_dvi (Some (At 0)) e) else (e, Val tt)) with
              | (e, Raise r) => (e, Raise r)
              | (e, Val _) =>
                  match dvifile e with
                  | None => (e, Val tt)
                  | Some _ => match readpage None e with
                              | (e, Val (Some _)) => (e, Raise FurtherPages)
                              | (e, Val None) => (e, Val tt)
                              | (e, Raise r) => (e, Raise r)
                              end
                  end
              end
          end
      end.

  (** l.1271-1317: the number of the new box among the boxes *)
  Definition text_pt (expr : str) (ps : list parser) (e : engine) : engine * outcome nat :=
    if rank (st e) =? 3 then (e, Raise TexDone)
    else
      let first := rank (st e) <? 2 in
      match do_typeset expr ps e with
      | (e, Raise r) => (e, Raise r)
      | (e, Val sizes) =>
          if texipc then
            let e := if first then set_dvi (Some (At 0)) e else e in
            match readpage (Some (page e)) e with
            | (e, Val q) => (set_boxes (boxes e ++ [mkbox expr sizes q])%list e, Val (length (boxes e)))
            | (e, Raise r) => (e, Raise r)
            end
          else (set_boxes (boxes e ++ [mkbox expr sizes None])%list e, Val (length (boxes e)))
      end.

  (** textextbox_pt.dvicanvas, l.861-865, of box i *)
  Definition dvicanvas (i : nat) (e : engine) : engine * outcome (option nat) :=
    let get e := match nth_error (boxes e) i with Some b => b_page b | None => None end in
    match get e with
    | Some p => (e, Val (Some p))
    | None => match do_finish e with (e, Val _) => (e, Val (get e)) | (e, Raise r) => (e, Raise r) end
    end.

  (** ** MultiEngine, l.1451-1503 *)
  Record multi := mkmulti { instance : engine; preambles : list (str * list parser) }.
  Definition new_multi : multi := mkmulti new_engine [].
  (** l.1478-1481 *)
  Definition multi_preamble (expr : str) (ps : list parser) (m : multi) : multi * outcome unit :=
    let '(e, r) := do_preamble expr ps (instance m) in (mkmulti e (preambles m ++ [(expr, ps)])%list, r).
  (** l.1498-1500 *)
  Fixpoint replay (l : list (str * list parser)) (e : engine) : engine * outcome unit :=
    match l with
    | [] => (e, Val tt)
    | (x, ps) :: l => match do_preamble x ps e with (e, Val _) => replay l e | (e, Raise r) => (e, Raise r) end
    end.
  (** l.1451-1459, 1483-1491 *)
  Definition multi_text (expr : str) (ps : list parser) (m : multi) : multi * outcome nat :=
    match text_pt expr ps (instance m) with
    | (_, Raise TexDone) =>
        match replay (preambles m) new_engine with
        | (e, Val _) => let '(e, r) := text_pt expr ps e in (mkmulti e (preambles m), r)
        | (e, Raise r) => (mkmulti e (preambles m), Raise r)
        end
    | (e, r) => (mkmulti e (preambles m), r)
    end.
End Engine.
