(** Properties of accepted programs that the compiler as a whole (lexer, parser,
    analyser, transformation, code generator) and the machine break.  Each theorem
    gives a whole source text, read by the model from its characters on, and what
    running it does: [see1] (Ex_Front.v) is the front end followed by [VM.run]. *)
From Verif Require Import Base Bson Types Sym Exhaust Spec_Match Ex_Front.
From Coq Require Import String.
Local Open Scope string_scope.

(** ** C13: a well-typed expression that the machine cannot evaluate *)

(** [1 + iguala r ...] is an int for the checker; testing a variant without
    parameters leaves the value under test on the stack and the addition meets it. *)
Theorem C13_expression_refuted :
  see1 ["uniao R"; " Sim,"; " Num(int)"; "fim";
        "r: R = R::Sim";
        "mostra 1 + iguala r"; " R::Sim => 2,"; " R::Num(k) => k"; "fim"] = Panics.
Proof. vm_compute. reflexivity. Qed.
Print Assumptions C13_expression_refuted.
Example C13_operands_swapped :
  see1 ["uniao R"; " Sim,"; " Num(int)"; "fim";
        "r: R = R::Sim";
        "mostra (iguala r"; " R::Sim => 2,"; " R::Num(k) => k"; "fim) + 1"] = Prints (says ["3"]).
Proof. vm_compute. reflexivity. Qed.

(** Assigning one field to another is accepted and stops the machine. *)
Theorem C13_field_to_field_refuted :
  see1 ["registo A"; " x: int"; "fim"; "a: A = A(x: 1)"; "b: A = A(x: 2)"; "a.x = b.x"; "mostra a.x"] = Panics.
Proof. vm_compute. reflexivity. Qed.
Print Assumptions C13_field_to_field_refuted.

(** An integer put into a vector of reals, or given to a real field by an
    initialiser, stays an integer: a real variable then holds an int. *)
Theorem C13_vector_element_refuted :
  see1 ["v: [real] = vec(real, 2)"; "v[0] = 7"; "x: real = v[0]"; "mostra x"; "y: real = 7"; "mostra y"]
  = Prints (says ["7"; "7.0"]).
Proof. vm_compute. reflexivity. Qed.
Print Assumptions C13_vector_element_refuted.
Theorem C13_initialiser_refuted :
  see1 ["registo P"; " x: real"; "fim"; "p: P = P(x: 1)"; "mostra p.x"; "p.x = 1"; "mostra p.x"] = Prints (says ["1"; "1.0"]).
Proof. vm_compute. reflexivity. Qed.
Print Assumptions C13_initialiser_refuted.

(** ** C14: a function of type int whose end is reached *)

(** [retorna] in the body of a loop counts as returning, also when the loop does
    not run: the call of an int function yields falso. *)
Theorem C14_loop_refuted :
  see1 ["func f(n: int): int"; " enquanto n > 10 faca"; "  retorna 1"; " fim"; "fim"; "mostra f(3)"] = Prints (says ["falso"]).
Proof. vm_compute. reflexivity. Qed.
Print Assumptions C14_loop_refuted.

(** A [senaose] branch without [retorna] is not looked at. *)
Theorem C14_elif_refuted :
  see1 ["func f(a: int): int"; " se a > 1 entao"; "  retorna 1"; " senaose a > 0 entao"; "  mostra 5"; " senao"; "  retorna 2"; " fim"; "fim";
        "mostra f(1)"] = Prints (says ["5"; "falso"]).
Proof. vm_compute. reflexivity. Qed.
Print Assumptions C14_elif_refuted.

(** ** C15: two variables of one function in one slot *)

(** The twelfth variable of a function and the second variable of a block nested
    ten deep have the same internal name, so setting the second changes the first. *)
Theorem C15_separate_storage_refuted :
  see1 (["func f(): int"] ++
        [" v0: int = 0"; " v1: int = 1"; " v2: int = 2"; " v3: int = 3"; " v4: int = 4"; " v5: int = 5"; " v6: int = 6";
         " v7: int = 7"; " v8: int = 8"; " v9: int = 9"; " v10: int = 10"; " v11: int = 11"] ++
        List.repeat " se verdadeiro entao" 10 ++ ["a: int = 50"; "b: int = 99"] ++ List.repeat " fim" 10 ++
        [" retorna v11"; "fim"; "mostra f()"])%list = Prints (says ["99"]).
Proof. vm_compute. reflexivity. Qed.
Print Assumptions C15_separate_storage_refuted.
Example C15_one_block_less :
  see1 (["func f(): int"] ++
        [" v0: int = 0"; " v1: int = 1"; " v2: int = 2"; " v3: int = 3"; " v4: int = 4"; " v5: int = 5"; " v6: int = 6";
         " v7: int = 7"; " v8: int = 8"; " v9: int = 9"; " v10: int = 10"; " v11: int = 11"] ++
        List.repeat " se verdadeiro entao" 9 ++ ["a: int = 50"; "b: int = 99"] ++ List.repeat " fim" 9 ++
        [" retorna v11"; "fim"; "mostra f()"])%list = Prints (says ["11"]).
Proof. vm_compute. reflexivity. Qed.

(** ** C21: the examined expression of an [escolha] is evaluated for each case *)

(** The first call yields 1, so no case matches and the default block is due. *)
Theorem C21_examined_once_refuted :
  see1 ["k: int = 0"; "func f(): int"; " k = k + 1"; " retorna k"; "fim";
        "escolha f() :"; "caso 5: mostra 1"; "caso 2: mostra 2"; "senao: mostra 9"; "fim"; "mostra k"] = Prints (says ["2"; "2"]).
Proof. vm_compute. reflexivity. Qed.
Print Assumptions C21_examined_once_refuted.

(** ** C22: an accepted [iguala] that runs no arm, or the wrong one *)

(** The default arm of an [iguala] over literals is never run: the value of the
    expression is what was on the stack. *)
Theorem C22_literals_refuted :
  see1 ["func f(n: int): int"; "retorna iguala n"; " 1 => 10,"; " 2 => 20,"; " _ => 99"; "fim"; "fim"; "mostra f(3)"] = Prints (says ["3"]).
Proof. vm_compute. reflexivity. Qed.
Print Assumptions C22_literals_refuted.
Theorem C22_nested_literal_refuted :
  see1 ["uniao R"; " Sim,"; " Num(int)"; "fim"; "r: R = R::Num(7)";
        "mostra iguala r"; " R::Num(1) => 10,"; " R::Num(2) => 20,"; " _ => 99"; "fim"] = Prints (says ["nulo"]).
Proof. vm_compute. reflexivity. Qed.
Print Assumptions C22_nested_literal_refuted.

(** The tree itself can be wrong: an arm is shared by the cases of a test, and
    compiling one case takes its later tests away for the next.  [P(Y, X)] should
    reach the fourth arm and reaches the third. *)
Definition pair_types (t : cty) : option (list (dcons * list cty)) :=
  match t with
  | CUni 0 => Some [(KVariant 0 0, []); (KVariant 0 1, [])]
  | CUni 1 => Some [(KVariant 1 0, [CUni 0; CUni 0])]
  | _ => None
  end.
Definition same_union (a b : cty) : bool := match a, b with CUni i, CUni j => Nat.eqb i j | _, _ => false end.
Definition wrong_arms : list xpat :=
  let X := QAdt 0 [] in let Y := QAdt 1 [] in
  [QAdt 0 [X; X]; QAdt 0 [X; QBind (txt "b")]; QAdt 0 [QBind (txt "c"); Y]; QAdt 0 [Y; QBind (txt "d")]].
Definition wrong_value : mval := MVariant 0 [MVariant 1 []; MVariant 0 []].
Theorem C22_first_arm_refuted :
  exists t s,
    compile_iguala same_union pair_types (fun _ => false) (mkXvar 0 (txt "t") (CUni 1)) wrong_arms [] 1 = XOk t s /\
    x_missing s = false /\
    first_match wrong_arms wrong_value 3 [(txt "d", MVariant 0 [])] /\
    tree_run (only 0 wrong_value) t = Some (2%nat, [(txt "c", MVariant 1 [])]).
Proof.
  eexists. eexists. split; [vm_compute; reflexivity |]. split; [reflexivity |]. split; [| vm_compute; reflexivity].
  split.
  - eexists. split; [reflexivity |]. apply MAdt. apply (AMCons _ _ _ _ [] _); [repeat constructor |].
    apply (AMCons _ _ _ _ [_] []); constructor.
  - intros j p L E b H. destruct j as [| [| [| j]]]; [| | | do 3 apply Nat.succ_lt_mono in L; inversion L]; cbn in E; injection E as <-;
      repeat match goal with
             | H : matches _ _ _ |- _ => inversion H; clear H; subst
             | H : all_match _ _ _ |- _ => inversion H; clear H; subst
             end.
Qed.
Print Assumptions C22_first_arm_refuted.
(** The arm that is never reached is not checked, and generating code for the
    program fails. *)
Theorem C22_accepted_refuted :
  see1 ["uniao A"; " X,"; " Y"; "fim"; "uniao T"; " P(A, A)"; "fim"; "func f(t: T): int"; "retorna iguala t";
        " T::P(A::X, A::X) => 1,"; " T::P(A::X, b) => 2,"; " T::P(c, A::Y) => 3,"; " T::P(A::Y, d) => 4"; "fim"; "fim";
        "mostra f(T::P(A::Y, A::X))"] = Exception.
Proof. vm_compute. reflexivity. Qed.
Print Assumptions C22_accepted_refuted.

(** ** C28: a module runs before the module it imports *)

Theorem C28_order_refuted :
  see [(txt "/repo/b.ama", lines ["mostra 2"]); (txt "/repo/a.ama", lines ["usa ""b.ama"""; "mostra 3"]);
       (txt "/repo/main.ama", lines ["usa ""a.ama"""; "mostra 1"])] (txt "/repo/main.ama") [] 4000 = Prints (says ["3"; "2"; "1"]).
Proof. vm_compute. reflexivity. Qed.
Print Assumptions C28_order_refuted.
(** So using what was imported stops the machine. *)
Theorem C28_use_refuted :
  see [(txt "/repo/b.ama", lines ["func g(): int"; " retorna 2"; "fim"]);
       (txt "/repo/a.ama", lines ["usa ""b.ama"""; "mostra g()"]);
       (txt "/repo/main.ama", lines ["usa ""a.ama"""; "mostra 1"])] (txt "/repo/main.ama") [] 4000 = Panics.
Proof. vm_compute. reflexivity. Qed.
Print Assumptions C28_use_refuted.

(** ** C36: two types with a method of the same name *)

Definition two_types : list String.string :=
  ["registo A"; " x: int"; "fim"; "registo B"; " x: int"; "fim";
   "met A::nome(alvo): int"; " retorna 1"; "fim"; "met B::nome(alvo): int"; " retorna 2"; "fim";
   "a: A = A(x: 1)"; "b: B = B(x: 2)"].
Theorem C36_same_name_refuted : see1 (two_types ++ ["mostra a.nome()"]) = Panics.
Proof. vm_compute. reflexivity. Qed.
Print Assumptions C36_same_name_refuted.
Example C36_last_declared : see1 (two_types ++ ["mostra b.nome()"]) = Prints (says ["2"]).
Proof. vm_compute. reflexivity. Qed.

(** ** C37: the argument of a generic record does not reach inside a vector type *)

(** [c.v] has the declared type [[T]] with [T] = int, and returning it as [[int]]
    is rejected; the field of type [T] itself is an int. *)
Theorem C37_field_type_refuted :
  see1 ["registo C[T]"; " x: T"; " v: [T]"; "fim"; "func f(c: C[int]): [int]"; "retorna c.v"; "fim"; "mostra 1"]
  = Rejected (txt "main.ama") 6.
Proof. vm_compute. reflexivity. Qed.
Print Assumptions C37_field_type_refuted.
Example C37_direct_field :
  see1 ["registo C[T]"; " x: T"; " v: [T]"; "fim"; "func f(c: C[int]): int"; "retorna c.x"; "fim"; "mostra 1"] = Prints (says ["1"]).
Proof. vm_compute. reflexivity. Qed.

(** ** C13, C15, C33, C38, C43: further accepted programs *)

(** The unwrapping [o.valor] becomes an instruction in a later pass, which does
    not look inside [escolha]: there it is left as a field of the number. *)
Theorem C13_unwrap_in_escolha_refuted :
  see1 ["o: int? = 3"; "escolha 1:"; " caso 1:"; "  mostra o.valor"; "fim"] = Panics.
Proof. vm_compute. reflexivity. Qed.
Print Assumptions C13_unwrap_in_escolha_refuted.
Example C13_unwrap_outside :
  see1 ["o: int? = 3"; "se 1 == 1 entao"; " mostra o.valor"; "fim"] = Prints (says ["3"]).
Proof. vm_compute. reflexivity. Qed.

(** A method that is named but not called is taken for its result. *)
Theorem C13_uncalled_method_refuted :
  see1 ["registo P"; " x: int"; "fim"; "met P::cheio(alvo): bool"; " retorna verdadeiro"; "fim";
        "p: P = P(x: 1)"; "se p.cheio entao"; " mostra 1"; "fim"] = Panics.
Proof. vm_compute. reflexivity. Qed.
Print Assumptions C13_uncalled_method_refuted.
Example C13_called_method :
  see1 ["registo P"; " x: int"; "fim"; "met P::cheio(alvo): bool"; " retorna verdadeiro"; "fim";
        "p: P = P(x: 1)"; "se p.cheio() entao"; " mostra 1"; "fim"] = Prints (says ["1"]).
Proof. vm_compute. reflexivity. Qed.

(** The functions that the compiler knows by name are recognised by their name
    alone, also where the name is a parameter: the call is accepted and calls
    the number. *)
Theorem C15_hidden_builtin_refuted :
  see1 ["func f(tam: int): int"; " retorna tam(""abc"")"; "fim"; "mostra f(2)"] = Panics.
Proof. vm_compute. reflexivity. Qed.
Print Assumptions C15_hidden_builtin_refuted.
Example C15_hidden_function :
  see1 ["func g(s: texto): int"; " retorna 1"; "fim"; "func f(g: int): int"; " retorna g(""abc"")"; "fim"; "mostra f(2)"]
  = Rejected main_file 5.
Proof. vm_compute. reflexivity. Qed.

(** [quebra] in a [para] is rejected, as if [para] were no loop. *)
Theorem C33_para_program_refuted :
  see1 ["para i de 0..5 faca"; " se i == 2 entao"; "  quebra"; " fim"; " mostra i"; "fim"] = Rejected main_file 3.
Proof. vm_compute. reflexivity. Qed.
Print Assumptions C33_para_program_refuted.
Example C33_para_in_enquanto :
  see1 ["enquanto verdadeiro faca"; " para i de 0..5 faca"; "  se i == 2 entao"; "   quebra"; "  fim"; "  mostra i"; " fim"; " quebra"; "fim"]
  = Prints (says ["0"; "1"]).
Proof. vm_compute. reflexivity. Qed.

(** A global variable may be used in its own initialiser, before it has a value. *)
Theorem C38_own_initialiser_refuted : see1 ["x: int = 1 + x"; "mostra x"] = Panics.
Proof. vm_compute. reflexivity. Qed.
Print Assumptions C38_own_initialiser_refuted.

(** The same in a function stops the compiler with an exception of its own, even
    when there is a global variable that the initialiser could mean. *)
Theorem C43_own_initialiser_refuted :
  see1 ["x: int = 5"; "func g(): int"; " x: int = x + 1"; " retorna x"; "fim"; "mostra g()"] = Exception.
Proof. vm_compute. reflexivity. Qed.
Print Assumptions C43_own_initialiser_refuted.
Example C43_other_name :
  see1 ["x: int = 5"; "func g(): int"; " y: int = x + 1"; " retorna y"; "fim"; "mostra g()"] = Prints (says ["6"]).
Proof. vm_compute. reflexivity. Qed.
