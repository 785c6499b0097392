(** C13, C14: what acceptance by the compiler guarantees.

    [Prop_Typing.v] shows that well-typed programs never stop the machine;
    [Prop_Front.v] shows programs that the compiler accepts although they do.
    Here: the texts that avoid those uses ([Spec_AcceptProg.in_fragment], which
    can be computed) and are accepted are well typed, from the characters of the
    text to the run. *)
From Verif Require Import Base Bson Value VM Ast CodeGen Compile Types Sym Check Front Sem SemWf SemProg Spec_Sem Spec_Typing Prop_Typing Spec_AcceptProg AcceptProg Ex_Front Lexer.
From Coq Require Import String.

Lemma front_trees F U fuel p P : front F U fuel p = FProgram P -> exists main imports, trees F U fuel p = Some (main, imports) /\ build (builtins_path F) main imports = PyOk (Some P).
Proof.
  unfold front, trees. destruct (analyse F U fuel p) as [m s| | |]; try discriminate. destruct (lmap _ _) as [imports| |]; [|destruct (lower_module _ _ _); discriminate|discriminate].
  destruct (lower_module _ _ _) as [main| |]; try discriminate. destruct (build _ _ _) as [[prog|]|] eqn:B; try discriminate. intros H. injection H as <-. exists main, imports. auto.
Qed.

(** C13 (partial).  A text that the front end turns into a program and that lies
    in the fragment runs without ever stopping the machine, and if it ends, every
    global variable of the module holds a value of the type that the analyser
    recorded for it; so do the elements of the vectors and the fields of the
    records reachable from there.
    Missing: unions, [iguala], methods, generic records, [escolha], unwrapping
    of optionals and modules of the program's own; [SemProg.program_ok] and
    [sizes_ok] are computed, not derived from acceptance. *)
Theorem C13_accepted_partial : forall E F U fuel p P stdin k,
  front F U fuel p = FProgram P -> in_fragment F U fuel p = true -> debug_build E = false ->
  match run E P k stdin with
  | Crashed => False
  | Finished s => exists g st H, final F U fuel p = Some (g, st) /\ heap_ok (records g st) H (w_heap (s_world s)) /\
      forall n i x t, scope_get st g n = Some i -> nth_error (so_syms st) i = Some x -> s_kind x = SVar t -> s_mod x = p ->
        exists v, assoc n (get_globs s None) = Some v /\ vt H v (strip st t)
  | Failed _ _ _ | OutOfFuel => True
  end.
Proof.
  intros E F U fuel p P stdin k FP FR REL. destruct (front_trees _ _ _ _ _ FP) as (main & imports & TR & B).
  destruct (accepted_typed _ _ _ _ _ _ FR TR) as (gl & st & g & FN & TY & GV).
  assert (RD : ready (builtins_path F) main imports P).
  { unfold in_fragment in FR. rewrite TR, !andb_true_iff in FR. destruct FR as [_ [PO SZ]]. split; [exact B|]. auto. }
  pose proof (C13_typed_partial E _ main imports P (records gl st) g stdin k RD REL TY) as W. destruct (run E P k stdin) as [s| | |]; auto.
  destruct W as (H & HO & HG). exists gl, st, H. split; [exact FN|]. split; [exact HO|]. intros n i x t SG EX KX MX. apply HG. eapply GV; eassumption.
Qed.
Print Assumptions C13_accepted_partial.

Local Open Scope string_scope.
Definition sample : list string :=
  ["registo P"; " x: int"; " y: real"; "fim";
   "func f(p: P, n: int): real"; " s: real = 0.0"; " para i de 0..n faca"; "  s = s + p.y * i"; " fim";
   " se s > 3.0 entao"; "  retorna s"; " senao"; "  retorna 1.5"; " fim"; "fim";
   "p: P = P(x: 1, y: 2.5)"; "mostra f(p, 4)";
   "v: [int] = [int: 1, 2, 3]"; "anexa(v, 4)";
   "enquanto tam(v) > 2 faca"; " mostra v[tam(v) - 1]"; " remova(v, 0)"; "fim";
   "p.x = v[0] + 10"; "o: int? = nulo"; "se o == nulo entao"; " o = p.x"; "fim";
   "escrevaln(f""{p.x} e {p.y}"")"].
Definition sample_env : front_env := env_of [(txt "/repo/main.ama", lines sample)].
(** A text with a record, a function, both loops, a vector, an optional and an
    f-string meets the hypotheses. *)
Example C13_accepted_case :
  (exists P, front sample_env alphabet 20 main_file = FProgram P) /\ in_fragment sample_env alphabet 20 main_file = true /\
  see1 sample = Prints (says ["15.0"; "4"; "4"; "13 e 2.5"]).
Proof. split; [|split]; [|vm_compute; reflexivity|vm_compute; reflexivity]. eexists. vm_compute. reflexivity. Qed.
