(** The searches by kpsewhich and by pykpathsea, pyx/config.py, l.172-193 and l.233-264, on POSIX systems, where fix_cygwin (l.225-230) changes nothing.
    The warning of an opener for a file that is not available is not modelled; the opener then gives None (ConfigModel.v, opener). *)
From Coq Require Import Ascii String List.
From Verif Require Import ConfigModel.
Import ListNotations.
Open Scope string_scope.

(** the first line of the output of kpsewhich for a format and a file name, None is the OSError when it cannot be run *)
Definition program := string -> string -> option string.

(** the loop of kpsewhich.openers, l.240-251: the name of the file, None is the empty list of openers *)
Fixpoint kpse_find (run : program) (filename : string) (formats : list format) : option string :=
  match formats with
  | [] => None
  | f :: formats' =>
      match run (fname f) filename with
      | None => None
      | Some line => let n := rstrip line in if String.eqb n "" then kpse_find run filename formats' else Some n
      end
  end.
(** kpsewhich.openers, l.239-262 *)
Definition kpse_openers (run : program) (filename : string) (formats : list format) : list opener :=
  match kpse_find run filename formats with None => [] | Some n => [fun fs => fs n] end.

(** the loop of pykpathsea.openers, l.178-183; find_file gives None or the name of the file *)
Fixpoint pykpse_find (find_file : program) (filename : string) (formats : list format) : option string :=
  match formats with
  | [] => None
  | f :: formats' =>
      match find_file filename (fname f) with
      | None => pykpse_find find_file filename formats'
      | Some n => if String.eqb n "" then pykpse_find find_file filename formats' else Some n
      end
  end.
(** pykpathsea.openers, l.175-191; has_pykpathsea is whether the extension module could be imported *)
Definition pykpse_openers (has_pykpathsea : bool) (find_file : program) (filename : string) (formats : list format) : list opener :=
  if has_pykpathsea then match pykpse_find find_file filename formats with None => [] | Some n => [fun fs => fs n] end else [].
