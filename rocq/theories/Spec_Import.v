(** Imports, as the text of the files says. *)
From Coq Require Import Relations.
From Verif Require Import Lexer Base Syntax Parser Check Front ImportFacts.

Section Spec.
Variable F : front_env.
Variable U : uni.

(** The file that [usa w] names: [w] without its quotes, with [.ama] at its end,
    in the working directory or else in the library. *)
Definition import_file (w : text) : option text :=
  let p := filter (fun c => negb ((c =? 34) || (c =? 39))%N) w in
  let '(head, tail) := path_split p in
  match tail with
  | [] => None
  | _ => resolve_import F (path_join head (if text_eqb (last_part tail) (txt "ama") then tail else tail ++ txt ".ama"))
  end.

(** The text of [q] has a statement [usa] that names [r]. *)
Definition uses (q r : text) : Prop :=
  exists src m st t mode w,
    f_text F q = Some src /\ Parser.parse U src = POk m st /\ In (XUsa t mode w) (sm_children m) /\ import_file (lex_text w) = Some r.

(** The module of built-ins, which every module gets, imports nothing itself. *)
Definition library_imports_nothing : Prop :=
  forall src m st, f_text F (builtins_path F) = Some src -> Parser.parse U src = POk m st -> forallb usa_free (sm_children m) = true.

(** Every file there is, is one of these. *)
Definition only_files (files : list text) : Prop := forall q, f_isfile F q = true -> In (f_abs F q) files.
End Spec.
