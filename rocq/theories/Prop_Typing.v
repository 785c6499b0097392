(** What well-typed programs cannot do (C13): the type system is that of
    [Spec_Typing.v], the reference meaning that of [Sem.v], the machine that of
    [VM.v].  [Prop_Accept.v] links the type system to the analyser. *)
From Verif Require Import Base Bson Float Opcode Types Value VM Ast CodeGen Compile Sem SemWf SemProg Spec_Sem SimProg Ex_Prog Spec_Typing TypeSound Prop_Sem.

(** The only import is the native standard library. *)
Definition library_only (main : amodule) (imports : list amodule) : Prop :=
  mo_builtin main = false /\ exists lib, imports = [lib] /\ mo_builtin lib = true /\ mo_name lib = txt "embutidos".
Definition nothing : genv := mkGE [] [] [].
(** The program is well typed, its records have the fields [R] and its global
    variables the types [g] records. *)
Definition typed (R : text -> option (list (text * ty))) (main : amodule) (imports : list amodule) (g : genv) : Prop :=
  library_only main imports /\ prog_ty (senv_of main imports) None R nothing (mo_body main) g.

Lemma typed_run E R main imports g fuel stdin : debug_build E = false -> typed R main imports g ->
  match exec_program E fuel main imports stdin with
  | Done _ c => exists H, heap_ok R H (w_heap (k_w c)) /\
      forall n t, assoc n (ge_var g) = Some t -> exists v, k_g c None n = Some v /\ vt H v t
  | Fail _ _ | Fuel => True
  | Stuck => False
  end.
Proof.
  intros REL [(MB & lib & -> & LB & LN) PT]. unfold exec_program. cbn [run_modules]. unfold run_module at 1. rewrite LB, LN.
  unfold native_module. rewrite (eq_refl : text_eqb (txt "embutidos") (txt "embutidos") = true). cbn [bind].
  unfold run_module. rewrite MB.
  set (c0 := start_globals (start_globals _ _ _) None []).
  change (during (senv_of main [lib]) None) with (senv_of main [lib]).
  assert (CK : cok E None R nothing [] [] c0).
  { constructor.
    - constructor.
    - constructor.
    - intros n t; discriminate.
    - intros n [].
    - intros n v A. subst c0. unfold start_globals. cbn [k_g omod_eqb]. rewrite N.eqb_refl. exact A. }
  assert (WK : wok (senv_of main [lib]) None R nothing).
  { constructor; [intros n t; discriminate|intros n []|intros f ts t; discriminate]. }
  pose proof (module_sound E (senv_of main [lib]) None R ltac:(discriminate) REL fuel (mo_body main) nothing g [] c0 PT WK CK) as MS.
  destruct (exec_module _ _ _ _ _ _) as [o c|e w| |]; auto. destruct MS as (H' & _ & CK'). exists H'. split; [exact (ck_heap _ _ _ _ _ _ _ CK')|].
  exact (ck_glob _ _ _ _ _ _ _ CK').
Qed.

(** A well-typed program never makes the machine panic, whatever it reads and
    however long it runs; when it ends, every global variable holds a value of
    its static type, and so do the vectors and records reachable from it.
    Missing: pattern matching, unions, methods and generic records, and
    programs with modules of their own. *)
Theorem C13_typed_partial : forall E builtins main imports P R g stdin k,
  ready builtins main imports P -> debug_build E = false -> typed R main imports g ->
  match run E P k stdin with
  | Crashed => False
  | Finished s => exists H, heap_ok R H (w_heap (s_world s)) /\
      forall n t, assoc n (ge_var g) = Some t -> exists v, assoc n (get_globs s None) = Some v /\ vt H v t
  | Failed _ _ _ | OutOfFuel => True
  end.
Proof.
  intros E b main imports P R g stdin k RD REL T.
  pose proof (C05_program_partial E b main imports P k stdin RD) as A. pose proof (typed_run E R main imports g k stdin REL T) as N.
  destruct (exec_program E k main imports stdin) as [o c|e w| |]; unfold agrees in A; cbn beta iota in A, N.
  - destruct A as (n0 & s & (SW & SG) & F). rewrite F. destruct (k <? n0)%nat; cbn beta iota; auto. destruct N as (H & HH). destruct HH as [HO HG]. exists H. rewrite SW. split; auto.
    intros n t Hn. destruct (HG n t Hn) as (v & Kv & V). exists v. split; [exact (SG _ _ _ Kv)|exact V].
  - destruct A as (n0 & tr & s & _ & F). rewrite F. destruct (k <? n0)%nat; auto.
  - destruct N.
  - rewrite (A k (Nat.le_refl k)). auto.
Qed.
Print Assumptions C13_typed_partial.
(** A program with a function, an optional, both loops and an f-string
    ([Ex_Prog.prog2], shown there). *)
Definition prog2_names : genv :=
  mkGE [(txt "i", tint); (txt "x", TyOpc tint)] [(txt "soma", ([tint; tint], tint))] [].
Ltac var := eexists; split; reflexivity.
Ltac lit := split; [discriminate|reflexivity].
Ltac sum := do 3 eexists; split; [|split; [|split; [|reflexivity]]].
Example C13_typed_case : typed (fun _ => None) prog2 [emb] prog2_names /\ exists P, ready emb_path prog2 [emb] P.
Proof.
  split; [|exact prog2_ready]. split; [split; [reflexivity|exists emb; auto]|].
  eexists. split. { apply tt_fun with (ts := [tint; tint]) (t := tint); [repeat split; try reflexivity; intros []|reflexivity|].
    split; [reflexivity|split; [|right; reflexivity]].
    eexists. split. { do 3 eexists. split; [reflexivity|split; [reflexivity|]]. exists tint. split; [|apply sub_refl]. sum; [var|var|constructor; auto]. }
    eexists. split; [|exact I]. split; [reflexivity|]. exists tint. split; [var|apply sub_refl]. }
  eexists. split. { apply tt_var with (t := TyOpc tint); [repeat split; try reflexivity; intros []|]. exists tnulo. split; [lit|constructor]. }
  eexists. split. { apply tt_stmt; [discriminate|]. split; [reflexivity|]. exists tbool. split; [|constructor; discriminate]. sum; [var|lit|reflexivity]. }
  eexists. split. { apply tt_stmt; [discriminate|]. split; [reflexivity|]. exists ttexto. split; [|constructor; discriminate]. split; [|reflexivity].
    split; [exists ttexto; split; [lit|constructor; discriminate]|]. split; [|split; [exists ttexto; split; [lit|constructor; discriminate]|exact I]].
    exists tint. split; [|constructor; discriminate]. sum; [lit| |constructor; auto].
    exists tint. split; [|reflexivity]. left. exists [tint; tint]. split; [reflexivity|split; [reflexivity|]].
    split; [exists tint; split; [lit|apply sub_refl]|]. split; [exists tint; split; [lit|apply sub_refl]|exact I]. }
  eexists. split. { apply tt_stmt; [discriminate|]. split; [reflexivity|]. split; [lit|split; [lit|split; [exact I|]]].
    eexists. split; [|exact I]. split; [reflexivity|]. exists tint. split; [var|constructor; discriminate]. }
  eexists. split. { apply tt_var with (t := tint); [repeat split; try reflexivity; intros []|]. exists tint. split; [lit|constructor]. }
  eexists. split. { apply tt_stmt; [discriminate|]. split; [reflexivity|]. split; [lit|].
    eexists. split. { split; [reflexivity|]. split; [sum; [var|lit|apply bt_order; auto; left; reflexivity]|]. split; [|split; exact I].
      eexists. split; [|exact I]. split; reflexivity. }
    eexists. split; [|exact I]. split; [reflexivity|]. exists tint, tint. split; [reflexivity|split; [|apply sub_refl]]. sum; [var|lit|constructor; auto]. }
  eexists. split. { apply tt_stmt; [discriminate|]. split; [reflexivity|]. exists tint. split; [var|constructor; discriminate]. }
  reflexivity.
Qed.
