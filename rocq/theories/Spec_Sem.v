(** What it means that the machine does what the interpreter of [Sem.v] says,
    and the words used by the theorems in [Prop_Sem.v]. *)
From Verif Require Import Base Bson Opcode Spec_Opcode Value VM Ast CodeGen Compile Sem SemWf SemProg.

(** The program is compiled and loaded as [P], lies in the fragment of
    [SemWf.v] (see there) and is small enough for the instruction format. *)
Definition ready (builtins : text) (main : amodule) (imports : list amodule) (P : program) : Prop :=
  build builtins main imports = PyOk (Some P) /\ program_ok builtins main imports = true /\ sizes_ok builtins main imports = true.
(** ** Whole runs *)
(** The machine ends in [s] as the interpreter ends in [c]: same output, same
    remaining input and heap, and each global variable has the same value. *)
Definition same_end (c : cfg) (s : state) : Prop :=
  s_world s = k_w c /\ forall m n v, k_g c m n = Some v -> assoc n (get_globs s m) = Some v.
(** [f k] is what the machine has done after at most [k] instructions in the
    module it is running.  A finite run of the interpreter is a finite run of
    the machine with the same end, or the same run-time error at the same
    point (same output before it); if the interpreter is still running after
    spending its fuel, so is the machine. *)
Definition agrees (fuel : nat) (r : res) (f : nat -> outcome) : Prop :=
  match r with
  | Done _ c => exists n0 s, same_end c s /\ forall k, f k = if (k <? n0)%nat then OutOfFuel else Finished s
  | Fail e w => exists n0 tr s, s_world s = w /\ forall k, f k = if (k <? n0)%nat then OutOfFuel else Failed e tr s
  | Fuel => forall k, (k <= fuel)%nat -> f k = OutOfFuel
  | Stuck => True
  end.

(** ** Pieces of a program *)
(** Expressions that call no function. *)
Fixpoint pure (x : node) : bool :=
  let opt (o : option node) := match o with Some y => pure y | None => true end in
  match x with
  | NConst _ _ _ _ | NVar _ _ _ _ | NAlvo _ _ | NPath _ _ _ => true
  | NUn _ _ e _ | NNamed _ _ e | NConv _ e _ | NGet _ e _ | NField _ e _ => pure e
  | NBin _ _ _ _ l r _ => pure l && pure r
  | NIndex _ t i => pure t && pure i
  | NFmt _ ps | NList _ ps => forallb pure ps
  | NCall _ CFunction _ _ _ => false
  | NCall _ _ _ args _ => forallb pure args
  | NUnwrap _ o d => pure o && opt d
  | _ => false
  end.
(** Nothing a program can observe has changed: variables, output, input and
    the contents of existing vectors and objects (new ones may exist). *)
Definition unchanged (c c' : cfg) : Prop :=
  k_l c' = k_l c /\ k_g c' = k_g c /\ w_out (k_w c') = w_out (k_w c) /\ w_in (k_w c') = w_in (k_w c) /\
  exists new, w_heap (k_w c') = w_heap (k_w c) ++ new.

(** ** A point of a run *)
(** Where code runs: the module, the function's name and frame base, the frames
    of the callers, the part of the stack that belongs to them, the number of
    slots the frame has for variables and which variable has which slot. *)
Record place := mkPlace {
  pl_m : option N; pl_name : text; pl_bp : Z; pl_callers : list frame;
  pl_below : list value; pl_size : nat; pl_slots : list (text * N)
}.
(** The place makes sense: the frame's base points to its first slot and the
    slots are numbered 0, 1, 2, ... for different variables. *)
Definition place_ok (A : place) : Prop :=
  (pl_slots A = [] \/ pl_bp A = zlen (pl_below A) /\ (List.length (pl_slots A) <= pl_size A)%nat) /\
  map snd (pl_slots A) = map N.of_nat (seq 0 (List.length (pl_slots A))) /\ NoDup (map fst (pl_slots A)).

(** A local variable of the interpreter has its value in its slot. *)
Definition in_slot (slots : list (text * N)) (loc : list value) (v : text * sym) (b : text * value) : Prop :=
  fst v = fst b /\ exists k, assoc (sy_out (snd v)) slots = Some k /\ nth_error loc (N.to_nat k) = Some (snd b).

(** The machine's state [s] is about to execute the instruction at [ip], with
    the operands [st] on its stack, and holds the interpreter's [c]; [g] says
    which variables are visible. *)
Record holds (P : program) (S : senv) (A : place) (g : gam) (ip : N) (st : list value) (c : cfg) (s : state) : Prop := mkHolds {
  ho_ctx : s_ctx s = pl_m A;
  ho_frame : exists la, s_frames s = mkFrame (pl_name A) ip la (pl_bp A) (pl_m A) :: pl_callers A;
  ho_stack : exists loc rest, List.length loc = pl_size A /\
    s_vals s = pl_below A ++ loc ++ st ++ rest /\ s_sp s = (zlen (pl_below A ++ loc ++ st) - 1)%Z /\
    Forall2 (Forall2 (in_slot (pl_slots A) loc)) g (k_l c) /\ NoDup (gouts g);
  ho_world : s_world s = k_w c;
  ho_globals : forall i n v, k_g c i n = Some v -> assoc n (get_globs s i) = Some v;
  ho_funcs : forall i n fd vm f, se_fun S i n = Some fd -> get_module P i = Some vm ->
    find (fun f => text_eqb n (fn_name f)) (m_funcs vm) = Some f -> assoc n (get_globs s i) = Some (VFunc f);
  ho_types : forall n ty, type_named n = Some ty -> assoc n (get_globs s (Some 0%N)) = Some (VType ty);
  ho_len : List.length (s_iglobs s) = List.length (p_imports P)
}.

(** The code of the statements (or the expression) [l] in the program: while
    module [pl_m A] was compiled, the generator went from [a] to [b] on [l], and
    everything it had then is in the final module. *)
Definition initial {T} (a b : list T) : Prop := exists t, b = a ++ t.
Record placed (bpath : text) (main : amodule) (imports : list amodule) (A : place) (lp : bool) (g : gam) (l : list node) (a b : gst) : Prop := mkPlaced {
  pc_mod : exists md F, module_at main imports (pl_m A) = Some md /\ mo_builtin md = false /\
    let C := ctx_of imports bpath md in
    gen_module C md = PyOk F /\ seqm (gen C) l a = PyOk b /\
    wf_seq (fun g x => wf (senv_of main imports) C (pl_m A) true lp g (g_scopes a) x) (decls (g_scopes a)) g l = true /\
    initial (g_ops b) (g_ops F) /\ initial (g_consts b) (g_consts F) /\ initial (g_names b) (g_names F) /\
    initial (g_regs b) (g_regs F) /\ initial (g_variants b) (g_variants F) /\
    (forall i, (List.length (g_labels a) <= i < List.length (g_labels b))%nat -> nth_error (g_labels F) i = nth_error (g_labels b) i);
  pc_ip : g_ip a = ops_size (g_ops a);
  pc_slots : initial (g_locals b) (pl_slots A)
}.
(** The variables visible after statements. *)
Definition vars_after (scs : list scope) (g : gam) (l : list node) : gam := fold_left (decls scs) l g.
(** Some number of machine steps. *)
Inductive many (E : ext) (P : program) : nat -> state -> state -> Prop :=
| many_0 s : many E P 0 s s
| many_S n s s1 s2 : step E P s = SNext s1 -> many E P n s1 s2 -> many E P (Datatypes.S n) s s2.
(** The state in which the machine starts the main module. *)
Definition main_start (E : ext) (P : program) (stdin : text) (s0 : state) : Prop :=
  exists k s, run_imports E P k (initial_state P stdin) 0 (p_imports P) = Finished s /\ start_module E s None (p_main P) = Some s0.
(** What the interpreter says about [x], run on the machine from [s]: [Q] for
    the way it ends. *)
Definition runs (E : ext) (P : program) (k : nat) (r : res) (s : state) (Q : out -> cfg -> state -> Prop) : Prop :=
  match r with
  | Done o c => exists n s', many E P n s s' /\ Q o c s'
  | Fail e w => exists n s' tr s2, many E P n s s' /\ step E P s' = SErr e tr s2 /\ s_world s2 = w
  | Fuel => exists n s', (k <= n)%nat /\ many E P n s s'
  | Stuck => True
  end.

(** What the interpreter says about code running at a place, with calls and
    loops of at most [fuel] rounds. *)
Definition means (E : ext) (main : amodule) (imports : list amodule) (A : place) (fuel : nat) : node -> cfg -> res :=
  ev E (senv_of main imports) (exec E (senv_of main imports) fuel) (pl_m A) (Datatypes.S (List.length (pl_callers A))).

(** ** Words for particular constructs *)
(** Expressions evaluated from left to right, each one after the other. *)
Inductive evals (f : node -> cfg -> res) : list node -> cfg -> list value -> cfg -> Prop :=
| evals_nil c : evals f [] c [] c
| evals_cons x l c v c1 vs c2 : f x c = Done (OVal v) c1 -> evals f l c1 vs c2 -> evals f (x :: l) c (v :: vs) c2.

(** The rounds of a counting loop: [zs] are the values of the counter for which
    the body ran.  The bound and the step are evaluated in every round. *)
Inductive rounds (S : senv) (f : node -> cfg -> res) (m : option N) (n : text) (stop : node) (inc : option node) (blk : node) :
  cfg -> list Z -> cfg -> Prop :=
| rounds_end c i s c1 : var_value S c m n = Some (VInt i) -> f stop c = Done (OVal (VInt s)) c1 -> (s <= i)%Z ->
    rounds S f m n stop inc blk c [] c1
| rounds_go c i s c1 c2 k c3 i' c4 zs c' : var_value S c m n = Some (VInt i) -> f stop c = Done (OVal (VInt s)) c1 -> (i < s)%Z ->
    (run_block f blk c1 = Done ONorm c2) ->
    match inc with Some e => f e c2 = Done (OVal (VInt k)) c3 | None => k = 1%Z /\ c3 = c2 end ->
    var_value S c3 m n = Some (VInt i') -> (- 2 ^ 63 <= i' + k < 2 ^ 63)%Z ->
    write_var c3 m n (VInt (i' + k)) = Done ONorm c4 ->
    rounds S f m n stop inc blk c4 zs c' ->
    rounds S f m n stop inc blk c (i :: zs) c'.
(** From [a], in steps of [k], below [b]. *)
Definition range (a b k : Z) : list Z := map (fun j => (a + k * Z.of_nat j)%Z) (seq 0 (Z.to_nat ((b - a + k - 1) / k))).
