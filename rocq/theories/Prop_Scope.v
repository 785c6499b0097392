(** C15: names and storage of accepted programs.

    [Prop_Front.v] shows two variables alive together in one slot when blocks are
    nested ten deep.  Here: with at most nine open blocks, in every text of the
    core language that the analyser accepts, each use of a name stands for the
    innermost declaration before it, no name is declared twice on one level, and
    each new local variable is stored under another name than all the local
    variables alive ([Spec_Scope.scoped]). *)
From Verif Require Import Base BaseFacts Bson Value VM Ast CodeGen Compile Types Syntax Parser Sym Check Front Spec_Accept Spec_Scope AcceptFrame ScopeInv ScopeTop Ex_Front Lexer.
From Coq Require Import String.

(** C15 (partial).  [m] is what the parser reads in the file [p], [s1] the state in
    which the analyser starts with the library loaded, [body] the analysed text and
    [s2] the final tables.
    Missing: texts outside the core language (unions, [iguala], [escolha], methods,
    imports, generic records); names of functions in calls, which the code
    generator looks up again in the final tables; more than nine open blocks,
    where the claim is false. *)
Theorem C15_scoped_partial : forall F U fuel p m s0 s1 body s2,
  f_order F [] = [] ->
  parse_file F U p (start_sst F) = COk m s0 ->
  start_analyzer F U (visit_usa F U fuel) p s0 = COk tt s1 -> begins p s1 = true ->
  forallb (fun x => is_t (core x)) (sm_children m) = true ->
  Forall (fun x => nest x <= 9)%nat (sm_children m) ->
  visit_all F (visit_usa F U fuel) (sm_children m) s1 = COk body s2 ->
  in_order (sst_st s2) (scoped (sst_st s2)) [library_level s1] body.
Proof.
  intros F U fuel p m s0 s1 body s2 OR _ _ B C N V. unfold begins in B. rewrite !andb_true_iff in B. destruct B as [[[[[B1 B2] B3] B4] B5] B6].
  apply text_eqb_eq in B1. apply Nat.eqb_eq in B2. apply Nat.eqb_eq in B3. apply negb_true_iff in B4.
  destruct (cx_yield (sst_cx s1)) eqn:Y; [discriminate B5|]. destruct (nth_error _ _) as [g|] eqn:G in B6; [|discriminate B6]. destruct (sc_up g) eqn:UP; [discriminate B6|].
  eapply (items_sc F (visit_usa F U fuel) (cx_global (sst_cx s1)) p OR); [exact C|exact N|exact V| |exact B3|apply ext_refl].
  constructor; [exact B1|exact Y|exact B4|exact B3|]. rewrite B2. unfold library_level. rewrite G. eapply sch_top; [exact G|exact UP|reflexivity].
Qed.
Print Assumptions C15_scoped_partial.

Local Open Scope string_scope.
Definition meets (F : front_env) (p : text) : bool :=
  match parse_file F alphabet p (start_sst F) with
  | COk m s0 =>
      match start_analyzer F alphabet (visit_usa F alphabet 20) p s0 with
      | COk _ s1 =>
          begins p s1 && forallb (fun x => is_t (core x)) (sm_children m) && forallb (fun x => nest x <=? 9)%nat (sm_children m) &&
          match visit_all F (visit_usa F alphabet 20) (sm_children m) s1 with COk _ _ => true | _ => false end
      | _ => false
      end
  | _ => false
  end.
(** Shadowing in nested blocks, in a loop and by a parameter. *)
Definition shadows : list string :=
  ["x: int = 1";
   "func f(x: int): int"; " y: int = x"; " se y > 2 entao"; "  x: int = y * 10"; "  y: int = x + 1"; "  mostra y"; " fim"; " mostra y"; " retorna x"; "fim";
   "mostra f(3)";
   "para x de 0..2 faca"; " z: int = x"; " mostra z"; "fim";
   "se x == 1 entao"; " x: texto = ""dentro"""; " mostra x"; "fim"; "mostra x"].
Example C15_scoped_case : meets (env_of [(txt "/repo/main.ama", lines shadows)]) main_file = true /\
  see1 shadows = Prints (says ["31"; "3"; "3"; "0"; "1"; "dentro"; "1"]).
Proof. split; vm_compute; reflexivity. Qed.
(** A second declaration on the same level is rejected; one in an inner block is not. *)
Example C15_twice : see1 ["x: int = 1"; "x: int = 2"] = Rejected main_file 2 /\
  see1 ["se verdadeiro entao"; " x: int = 1"; " x: int = 2"; "fim"] = Rejected main_file 3.
Proof. split; vm_compute; reflexivity. Qed.
