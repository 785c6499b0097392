(** Reporting a compile error: amanda/compiler/error.py. *)
From Verif Require Import Lexer Base Syntax Parser Sym Check Front.
Local Open Scope Z_scope.

Section Report.
Variable U : uni.

(** Iterating over a file opened in text mode, as [for line in f] does: each line
    with its line end, nothing after a final line end.  The text is what [read]
    gives, after Python's translation of line ends. *)
Fixpoint file_lines (t : text) : list text :=
  match t with
  | [] => []
  | c :: r =>
      if N.eqb c NL then [c] :: file_lines r
      else match file_lines r with
           | [] => [[c]]
           | l :: ls => (c :: l) :: ls
           end
  end.

(** [str.strip]. *)
Definition strip (s : text) : text := rev (lstrip U (rev (lstrip U s))).

(** [throw_error]: error.py:88-103.  [None] is the failing assertion "Context
    should always be a line from the file"; otherwise the line quoted in the
    message.  The file is [src], the error is at [line]. *)
Definition throw_error (src : text) (line : Z) : option text :=
  if line <? 1 then None else option_map strip (nth_error (file_lines src) (Z.to_nat (line - 1))).

(** What the user of [amanda main] reads when the front end rejects the program
    (__main__.py:22-30, [fmt_error]: error.py:61-85): the file, the line number
    and the line quoted.  The message itself is not modelled. *)
Inductive report := Quotes (path : text) (line : Z) (context : text) | Assertion | NoReport.
Definition report_of (F : front_env) (fuel : nat) (p : text) : report :=
  match front F U fuel p with
  | FError q l =>
      match f_text F q with
      | Some src => match throw_error src l with Some c => Quotes q l c | None => Assertion end
      | None => Assertion
      end
  | _ => NoReport
  end.
End Report.
