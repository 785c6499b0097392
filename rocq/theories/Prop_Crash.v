(** C43: the compiler answers every program.

    Texts for which it fails with an exception of Python instead, one for each
    place where that happens ([Prop_Front.v] has another).  Beside each stands the
    nearest text that is answered. *)
From Verif Require Import Base Ex_Front.
From Coq Require Import String.
Local Open Scope string_scope.

(** A condition that is not of a primitive type has no tag: check/core.py:1098,
    1136. *)
Theorem C43_condition_refuted :
  see1 ["v: [int] = vec(int, 1)"; "se v entao"; " mostra 1"; "fim"] = Exception /\
  see1 ["v: [int] = vec(int, 1)"; "enquanto v faca"; " mostra 1"; "fim"] = Exception.
Proof. split; vm_compute; reflexivity. Qed.
Print Assumptions C43_condition_refuted.
Example C43_condition_near : see1 ["v: int = 1"; "se v entao"; " mostra 1"; "fim"] = Rejected (txt "main.ama") 2.
Proof. vm_compute. reflexivity. Qed.

(** A method that uses [alvo] and is nowhere called on a target: its parameters
    get [alvo] when a call is rewritten (transform.py:151-155), so codegen.py:494
    finds no local variable of that name. *)
Theorem C43_uncalled_method_refuted :
  see1 ["registo A"; " x: int"; "fim"; "met A::nome(alvo): int"; " retorna alvo.x"; "fim"; "mostra 1"] = Exception.
Proof. vm_compute. reflexivity. Qed.
Print Assumptions C43_uncalled_method_refuted.
Example C43_called_method :
  see1 ["registo A"; " x: int"; "fim"; "met A::nome(alvo): int"; " retorna alvo.x"; "fim"; "mostra A(x: 1).nome()"] = Prints (says ["1"]).
Proof. vm_compute. reflexivity. Qed.

(** [anexa] and [remova] read two arguments before they count them, and [vec]
    takes its first one to be a name: check/core.py:1238-1309. *)
Theorem C43_builtin_arguments_refuted :
  see1 ["v: [int] = vec(int, 1)"; "anexa(v)"] = Exception /\
  see1 ["mostra remova()"] = Exception /\
  see1 ["v: [int] = vec(1, 2)"] = Exception.
Proof. repeat split; vm_compute; reflexivity. Qed.
Print Assumptions C43_builtin_arguments_refuted.
Example C43_builtin_near : see1 ["v: [int] = vec(int, 1)"; "anexa(v, 1, 2)"] = Rejected (txt "main.ama") 2.
Proof. vm_compute. reflexivity. Qed.

(** Assigning to an element of a vector of records: check/core.py:948-966 asks the
    type of the element for its tag. *)
Theorem C43_element_refuted :
  see1 ["registo P"; " x: int"; "fim"; "v: [P] = vec(P, 1)"; "v[0] = P(x: 1)"] = Exception.
Proof. vm_compute. reflexivity. Qed.
Print Assumptions C43_element_refuted.
Example C43_element_near : see1 ["v: [int] = vec(int, 1)"; "v[0] = 5"; "mostra v[0]"] = Prints (says ["5"]).
Proof. vm_compute. reflexivity. Qed.

(** The type of a literal is looked up by its name: check/core.py:775; a variable has no [binop]. *)
Theorem C43_local_int_refuted :
  see1 ["func f()"; " int: texto = 'a'"; " mostra 1 + 1"; "fim"] = Exception.
Proof. vm_compute. reflexivity. Qed.
Print Assumptions C43_local_int_refuted.
Example C43_local_near : see1 ["func f()"; " inteiro: texto = 'a'"; " mostra 1"; "fim"; "f()"] = Prints (says ["1"]).
Proof. vm_compute. reflexivity. Qed.

(** [escolha] in a case of [escolha]: transform.py:66-107 rewrites the outer one
    and does not go into what it is made of, and there is no code for the inner one. *)
Theorem C43_nested_escolha_refuted :
  see1 ["x: int = 1"; "escolha x:"; " caso 1:"; "  escolha x:"; "   caso 1:"; "    mostra 1"; "  fim"; "fim"] = Exception.
Proof. vm_compute. reflexivity. Qed.
Print Assumptions C43_nested_escolha_refuted.
Example C43_nested_near :
  see1 ["x: int = 1"; "escolha x:"; " caso 1:"; "  se x == 1 entao"; "    mostra 1"; "  fim"; "fim"] = Prints (says ["1"]).
Proof. vm_compute. reflexivity. Qed.

(** A variant of a union of another module: the table of variants belongs to the
    module being compiled (codegen.py:187, 519). *)
Theorem C43_imported_union_refuted :
  see [(txt "/repo/m.ama", lines ["uniao L"; " A,"; " B(int)"; "fim"]);
       (txt "/repo/main.ama", lines ["usa ""m.ama"""; "l: L = L::B(3)"; "mostra 1"])] main_file [] 4000 = Exception.
Proof. vm_compute. reflexivity. Qed.
Print Assumptions C43_imported_union_refuted.
Example C43_own_union_near : see1 ["uniao L"; " A,"; " B(int)"; "fim"; "l: L = L::B(3)"; "mostra 1"] = Prints (says ["1"]).
Proof. vm_compute. reflexivity. Qed.

(** A call of a function, and later in the same block a variable of its name: the
    generator finds the variable at the place of the call (codegen.py:494). *)
Theorem C43_later_local_refuted :
  see1 ["func f(): int"; " retorna 1"; "fim"; "func g(): int"; " x: int = f()"; " f: int = 2"; " retorna x + f"; "fim"; "mostra g()"] = Exception.
Proof. vm_compute. reflexivity. Qed.
Print Assumptions C43_later_local_refuted.
Example C43_later_near :
  see1 ["func f(): int"; " retorna 1"; "fim"; "func g(): int"; " x: int = f()"; " h: int = 2"; " retorna x + h"; "fim"; "mostra g()"] = Prints (says ["3"]).
Proof. vm_compute. reflexivity. Qed.
