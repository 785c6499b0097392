(** GENERATED by /verif/tools/gentests.py: the project's own end-to-end tests
    (/repo/tests/test_cases, the suites listed in /repo/tests/test.py), run on the
    model.  Each compares what the whole model -- reader, parser, analyser,
    transformation, generator, loader, VM -- does with a source text to the output
    recorded in it.  These are tests of the model, not proofs about it.  For an
    expected error the model's error has to come after the same output; its message
    is not modelled.  math/math_builtins.ama is left out (it uses libm). *)
From Verif Require Import Base Ex_Front.
From Coq Require Import String.
Local Open Scope string_scope.

Definition same_output (o : seen) (expected : text) : Prop := match o with Prints t => flat t = expected | _ => False end.
Definition same_error (o : seen) (before : text) : Prop :=
  match o with Rejected _ _ => before = [] | Stops t _ => flat t = before | _ => False end.
Definition same_stop (line : N) (o : seen) (before : text) : Prop :=
  match o with Stops t ls => last ls 0%N = line /\ flat t = before | _ => False end.

Example t_assignment_associativity : same_output (see [(txt "/repo/tests/test_cases/assignment/associativity.ama", utf "#associativity

a:int = 1
b:int = 1
c:int = 40

a=b=c

mostra a # expect 40
mostra b # expect 40
mostra c # expect 40

#[output]:40 40 40")] (txt "/repo/tests/test_cases/assignment/associativity.ama") [] 4000) (utf "40 40 40").
Proof. vm_compute. repeat split. Qed.
Example t_assignment_bool_float : same_error (see [(txt "/repo/tests/test_cases/assignment/bool_float.ama", utf "#Incompatible types

pi : real = verdadeiro

#[output]:Erro: atribuição inválida. incompatibilidade entre os operandos da atribuição: 'real' e 'bool'.")] (txt "/repo/tests/test_cases/assignment/bool_float.ama") [] 4000) (utf "").
Proof. vm_compute. repeat split. Qed.
Example t_assignment_bool_int_assign : same_error (see [(txt "/repo/tests/test_cases/assignment/bool_int_assign.ama", utf "# Incompatible types

logico : bool = 5 #expect error

#[output]:Erro: atribuição inválida. incompatibilidade entre os operandos da atribuição: 'bool' e 'int'.")] (txt "/repo/tests/test_cases/assignment/bool_int_assign.ama") [] 4000) (utf "").
Proof. vm_compute. repeat split. Qed.
Example t_assignment_bool_obj : same_error (see [(txt "/repo/tests/test_cases/assignment/bool_obj.ama", utf "# Incompatible types

teste : texto = ""texto""
temp : bool = teste #expect error

#[output]:Erro: atribuição inválida. incompatibilidade entre os operandos da atribuição: 'bool' e 'texto'.")] (txt "/repo/tests/test_cases/assignment/bool_obj.ama") [] 4000) (utf "").
Proof. vm_compute. repeat split. Qed.
Example t_assignment_compound_assign : same_output (see [(txt "/repo/tests/test_cases/assignment/compound_assign.ama", utf "#Testing compound assignment


a : int = 1;

a += 1;
mostra a; # expect 2

a -= 1;
mostra a; # expect 1


b : int = 2;

a *= b;
mostra a;  # expect 2


a = a//b;
mostra a; # expect 1


#[output]:2 1 2 1")] (txt "/repo/tests/test_cases/assignment/compound_assign.ama") [] 4000) (utf "2 1 2 1").
Proof. vm_compute. repeat split. Qed.
Example t_assignment_float_obj : same_error (see [(txt "/repo/tests/test_cases/assignment/float_obj.ama", utf "# Incompatible types


teste : texto = ""texto""
temp : real = teste #expect error

#[output]:Erro: atribuição inválida. incompatibilidade entre os operandos da atribuição: 'real' e 'texto'.")] (txt "/repo/tests/test_cases/assignment/float_obj.ama") [] 4000) (utf "").
Proof. vm_compute. repeat split. Qed.
Example t_assignment_int_obj : same_error (see [(txt "/repo/tests/test_cases/assignment/int_obj.ama", utf "# Incompatible types


teste : texto = ""texto""
temp : int = teste #expect error

#[output]:Erro: atribuição inválida. incompatibilidade entre os operandos da atribuição: 'int' e 'texto'.")] (txt "/repo/tests/test_cases/assignment/int_obj.ama") [] 4000) (utf "").
Proof. vm_compute. repeat split. Qed.
Example t_assignment_shadowing : same_output (see [(txt "/repo/tests/test_cases/assignment/shadowing.ama", utf "# shadowing is allowed


a : int = 2

func change_global():int
    a += 1
    retorna a
fim

change_global()
mostra a # expect 3 

#[output]:3")] (txt "/repo/tests/test_cases/assignment/shadowing.ama") [] 4000) (utf "3").
Proof. vm_compute. repeat split. Qed.
Example t_assignment_simple : same_output (see [(txt "/repo/tests/test_cases/assignment/simple.ama", utf "# Testing simple assignments


a : int = 2;

mostra a; #expect 2

c : real= 1.0;
mostra c; # expect 1.0

d : bool = 1 > 2;
mostra d; # expect falso

b : texto = ""a"";
mostra b; # expect a

#[output]:2 1.0 falso a")] (txt "/repo/tests/test_cases/assignment/simple.ama") [] 4000) (utf "2 1.0 falso a").
Proof. vm_compute. repeat split. Qed.
Example t_assignment_target_error : same_error (see [(txt "/repo/tests/test_cases/assignment/target_error.ama", utf "# Wrong assignment target

25+26 = 5; $ expect error

#[output]:Erro sintático: alvo inválido para atribuição.")] (txt "/repo/tests/test_cases/assignment/target_error.ama") [] 4000) (utf "").
Proof. vm_compute. repeat split. Qed.
Example t_assignment_type_inc_error : same_error (see [(txt "/repo/tests/test_cases/assignment/type_inc_error.ama", utf "# type incompatibility error

a : int = ""string""; # expect ERROR

#[output]:Erro: atribuição inválida. incompatibilidade entre os operandos da atribuição: 'int' e 'texto'.")] (txt "/repo/tests/test_cases/assignment/type_inc_error.ama") [] 4000) (utf "").
Proof. vm_compute. repeat split. Qed.
Example t_statement_mostra_output : same_output (see [(txt "/repo/tests/test_cases/statement/mostra/output.ama", utf "# Test mostra statement output



mostra 1+2; # expect 3

mostra ""hello world""; # expect hello world

mostra 2.45 + 1.0; # expect 3.45


mostra verdadeiro; # expect verdadeiro

mostra falso; # expect falso

#[output]:3 hello world 3.45 verdadeiro falso
")] (txt "/repo/tests/test_cases/statement/mostra/output.ama") [] 4000) (utf "3 hello world 3.45 verdadeiro falso").
Proof. vm_compute. repeat split. Qed.
Example t_operator_arithmetic : same_output (see [(txt "/repo/tests/test_cases/operator/arithmetic.ama", utf "#Test aritmethic ops


mostra 1 + 2 # expect 3

mostra 4 - 2 # expect 2

mostra 4 * 2 # expect 8

mostra 5//2 # expect 2

mostra 2 % 2 # expect 0

mostra 1.0 + 2.1 # expect 3.1

mostra 1.0 - 2.1 # expect -1.1

mostra 2.1 * 2.3 # expect 4.83

mostra 2.4 / 2.1 # expect 1.142

mostra 2.0 % 2.4 # expect 2.0 % 2.4

mostra -5 # expect -5

mostra -5.1 # expect -5.1

#[output]:3 2 8 2 0 3.1 -1.1 4.83 1.1428571428571428 2.0 -5 -5.1
")] (txt "/repo/tests/test_cases/operator/arithmetic.ama") [] 4000) (utf "3 2 8 2 0 3.1 -1.1 4.83 1.1428571428571428 2.0 -5 -5.1").
Proof. vm_compute. repeat split. Qed.
Example t_operator_bad_div_assign : same_error (see [(txt "/repo/tests/test_cases/operator/bad_div_assign.ama", utf "
a : int = 5
b : int = 2
c : int = 5/2 # expect error

#[output]:Erro: atribuição inválida. incompatibilidade entre os operandos da atribuição: 'int' e 'real'.
")] (txt "/repo/tests/test_cases/operator/bad_div_assign.ama") [] 4000) (utf "").
Proof. vm_compute. repeat split. Qed.
Example t_operator_bool_bool_add : same_error (see [(txt "/repo/tests/test_cases/operator/bool_bool_add.ama", utf "
verdadeiro + verdadeiro #expect error

#[output]:Erro: os tipos 'bool' e 'bool' não suportam operações com o operador '+'.
")] (txt "/repo/tests/test_cases/operator/bool_bool_add.ama") [] 4000) (utf "").
Proof. vm_compute. repeat split. Qed.
Example t_operator_bool_bool_cmp : same_output (see [(txt "/repo/tests/test_cases/operator/bool_bool_cmp.ama", utf "
mostra verdadeiro == verdadeiro #expect verdadeiro
mostra verdadeiro != falso # expect verdadeiro

#[output]:verdadeiro verdadeiro
")] (txt "/repo/tests/test_cases/operator/bool_bool_cmp.ama") [] 4000) (utf "verdadeiro verdadeiro").
Proof. vm_compute. repeat split. Qed.
Example t_operator_bool_real_add : same_error (see [(txt "/repo/tests/test_cases/operator/bool_real_add.ama", utf "
2.4 + falso #expect error

#[output]:Erro: os tipos 'real' e 'bool' não suportam operações com o operador '+'.
")] (txt "/repo/tests/test_cases/operator/bool_real_add.ama") [] 4000) (utf "").
Proof. vm_compute. repeat split. Qed.
Example t_operator_floor_div_assign : same_output (see [(txt "/repo/tests/test_cases/operator/floor_div_assign.ama", utf "a : int = 5
b : int = 2
c : int = 5//2
mostra c

#[output]:2
")] (txt "/repo/tests/test_cases/operator/floor_div_assign.ama") [] 4000) (utf "2").
Proof. vm_compute. repeat split. Qed.
Example t_operator_int_bool_add : same_error (see [(txt "/repo/tests/test_cases/operator/int_bool_add.ama", utf "

2 + verdadeiro #expect error

#[output]:Erro: os tipos 'int' e 'bool' não suportam operações com o operador '+'.
")] (txt "/repo/tests/test_cases/operator/int_bool_add.ama") [] 4000) (utf "").
Proof. vm_compute. repeat split. Qed.
Example t_operator_int_obj_add : same_error (see [(txt "/repo/tests/test_cases/operator/int_obj_add.ama", utf "

12 + ""a string"" #Expect error

#[output]:Erro: os tipos 'int' e 'texto' não suportam operações com o operador '+'.
")] (txt "/repo/tests/test_cases/operator/int_obj_add.ama") [] 4000) (utf "").
Proof. vm_compute. repeat split. Qed.
Example t_operator_logical : same_output (see [(txt "/repo/tests/test_cases/operator/logical.ama", utf "#Testing logical operators

mostra verdadeiro e falso #expect falso
mostra verdadeiro ou falso # expect verdadeiro
mostra nao verdadeiro # expect falso

#[output]:falso verdadeiro falso
")] (txt "/repo/tests/test_cases/operator/logical.ama") [] 4000) (utf "falso verdadeiro falso").
Proof. vm_compute. repeat split. Qed.
Example t_operator_real_bool : same_error (see [(txt "/repo/tests/test_cases/operator/real_bool.ama", utf "
2.1 < verdadeiro #expect error

#[output]:Erro: os tipos 'real' e 'bool' não suportam operações com o operador '<'.
")] (txt "/repo/tests/test_cases/operator/real_bool.ama") [] 4000) (utf "").
Proof. vm_compute. repeat split. Qed.
Example t_operator_relational : same_output (see [(txt "/repo/tests/test_cases/operator/relational.ama", utf "# Testing out relational operators

mostra 2 > 1 #expect verdadeiro
mostra 2 < 1 #expect falso
mostra 2 >= 1 #expect verdadeiro
mostra 2 <= 1.2 #expect falso
mostra 2 != 1 #expect verdadeiro
mostra 2 == 1 #expect falso
mostra 2 == 2 # expect verdadeiro
mostra 2 == 2.0 # expect verdadeiro

#[output]:verdadeiro falso verdadeiro falso verdadeiro falso verdadeiro verdadeiro
")] (txt "/repo/tests/test_cases/operator/relational.ama") [] 4000) (utf "verdadeiro falso verdadeiro falso verdadeiro falso verdadeiro verdadeiro").
Proof. vm_compute. repeat split. Qed.
Example t_statement_se_int_condition_error : same_error (see [(txt "/repo/tests/test_cases/statement/se/int_condition_error.ama", utf "# Condition must be boolean or evaluate to boolean


se 1 entao  # expect Error
    mostra 1
fim

#[output]:Erro: a condição da instrução 'se' deve ser um valor lógico.
")] (txt "/repo/tests/test_cases/statement/se/int_condition_error.ama") [] 4000) (utf "").
Proof. vm_compute. repeat split. Qed.
Example t_statement_se_nested_sse : same_output (see [(txt "/repo/tests/test_cases/statement/se/nested_sse.ama", utf "num : int = 4

se num > 3 entao
    se num >  4 entao
        mostra ""maior que 4""
    senaose num == 4 entao
        mostra ""igual à 4""
    fim
fim

#[output]:igual à 4
")] (txt "/repo/tests/test_cases/statement/se/nested_sse.ama") [] 4000) (utf "igual à 4").
Proof. vm_compute. repeat split. Qed.
Example t_statement_se_obj_condition_error : same_error (see [(txt "/repo/tests/test_cases/statement/se/obj_condition_error.ama", utf "
# Condition must be boolean or evaluate to boolean

se ""I am a beast"" entao  # expect Error
    mostra 1
fim

#[output]:Erro: a condição da instrução 'se' deve ser um valor lógico.
")] (txt "/repo/tests/test_cases/statement/se/obj_condition_error.ama") [] 4000) (utf "").
Proof. vm_compute. repeat split. Qed.
Example t_statement_se_real_condition_error : same_error (see [(txt "/repo/tests/test_cases/statement/se/real_condition_error.ama", utf "# Condition must be boolean or evaluate to boolean

se 3.14 entao  # expect Error
    mostra 1
fim

#[output]:Erro: a condição da instrução 'se' deve ser um valor lógico.
")] (txt "/repo/tests/test_cases/statement/se/real_condition_error.ama") [] 4000) (utf "").
Proof. vm_compute. repeat split. Qed.
Example t_statement_se_se_decl : same_output (see [(txt "/repo/tests/test_cases/statement/se/se_decl.ama", utf "# declaration in simple se error

se verdadeiro entao
   i : int; 
  mostra i; # expect 0
fim

#[output]:0
")] (txt "/repo/tests/test_cases/statement/se/se_decl.ama") [] 4000) (utf "0").
Proof. vm_compute. repeat split. Qed.
Example t_statement_se_senao_decl : same_output (see [(txt "/repo/tests/test_cases/statement/se/senao_decl.ama", utf "# declaration in senao


se (falso) entao
  mostra ""lol""; 
senao
   i : int = 4
  mostra i #expect 4
fim

#[output]:4
")] (txt "/repo/tests/test_cases/statement/se/senao_decl.ama") [] 4000) (utf "4").
Proof. vm_compute. repeat split. Qed.
Example t_statement_se_senaose : same_output (see [(txt "/repo/tests/test_cases/statement/se/senaose.ama", utf "


num : int = 2


se num == 3 entao
    mostra ""igual""
senaose  num == 3 entao
    mostra ""igual de novo""
senaose num > 3 entao
    mostra ""maior""
senaose num < 3 entao
    mostra ""menor""
fim

#[output]:menor
")] (txt "/repo/tests/test_cases/statement/se/senaose.ama") [] 4000) (utf "menor").
Proof. vm_compute. repeat split. Qed.
Example t_statement_se_shadowing_se : same_output (see [(txt "/repo/tests/test_cases/statement/se/shadowing_se.ama", utf "
x : int

se verdadeiro entao
     x : int
     x2 : int
     x3 : int
     x4 : int
     x5 : int
     x6 : int
    x = 4
    mostra x # expect 4
fim

mostra x # expect 0




#[output]:4 0
")] (txt "/repo/tests/test_cases/statement/se/shadowing_se.ama") [] 4000) (utf "4 0").
Proof. vm_compute. repeat split. Qed.
Example t_statement_se_shadowing_senao : same_output (see [(txt "/repo/tests/test_cases/statement/se/shadowing_senao.ama", utf "x : int

se falso entao
     x : int
     x2 : int
     x3 : int
     x4 : int
     x5 : int
     x6 : int
    x = 8
senao
     x : int
     x2 : int
     x3 : int
     x4 : int
     x5 : int
     x6 : int
    x = 9
    mostra x # expect 9
fim

mostra x # expect 0




#[output]:9 0
")] (txt "/repo/tests/test_cases/statement/se/shadowing_senao.ama") [] 4000) (utf "9 0").
Proof. vm_compute. repeat split. Qed.
Example t_statement_se_valid_se : same_output (see [(txt "/repo/tests/test_cases/statement/se/valid_se.ama", utf "# Testing out a se with blocks


num:int = 2;

# simple se-entao
se (verdadeiro) entao
  mostra num; # expect 2
fim

num = 3;


# se-senao (with declaration)
se (num > 3) entao 
   i:int = num;
  mostra num;
senao
  res:texto = ""not larger"";
  mostra res; # expect not larger
fim


#mutiple se

num = 10;

se (num == 8) entao 
  mostra ""oito"";
fim

se (num == 9) entao
  mostra ""nove"";
fim
se (num == 10) entao
  mostra ""dez""; # expect ""dez""
fim


# multiple se-senao
se (num == 8) entao
  mostra ""oito"";
senao
  mostra ""não oito""; # expect ""não oito""
fim

se (num == 9) entao
  mostra ""nove"";
senao
  mostra ""não nove""; # expect ""não nove""
fim

se (num == 10) entao
  mostra ""dez""; # expect ""dez""
senao
  mostra ""não dez"";
fim



#mutiple se

num = 11;

se (num == 8) entao
  mostra ""oito"";
fim

se (num == 9) entao
  mostra ""nove"";
fim

se (num == 10) entao
  mostra ""dez"";
senao
  mostra ""não dez""; # expect ""não dez""
fim


# empty se and senao

se (verdadeiro) entao 
senao
fim

#[output]:2 not larger dez não oito não nove dez não dez
")] (txt "/repo/tests/test_cases/statement/se/valid_se.ama") [] 4000) (utf "2 not larger dez não oito não nove dez não dez").
Proof. vm_compute. repeat split. Qed.
Example t_statement_enquanto_counting : same_output (see [(txt "/repo/tests/test_cases/statement/enquanto/counting.ama", utf "#Test of enquanto loop

i:int

enquanto i != 5 faca
  i += 1;
fim

mostra i; # expect 5

# with block
i = 0;

enquanto (i != 10) faca
  i += 1;
fim

mostra i; # expect 10


logico:bool

i = 0
enquanto nao logico faca
    se i == 20 entao
        logico = verdadeiro
    senao
        i += 1
    fim
fim

mostra i; # expect 20


#[output]:5 10 20
")] (txt "/repo/tests/test_cases/statement/enquanto/counting.ama") [] 4000) (utf "5 10 20").
Proof. vm_compute. repeat split. Qed.
Example t_statement_enquanto_int_condition_error : same_error (see [(txt "/repo/tests/test_cases/statement/enquanto/int_condition_error.ama", utf "# Condition must be boolean or promotable to boolean


enquanto 1 faca  # expect Error

fim

#[output]:Erro: a condição da instrução 'enquanto' deve ser um valor lógico.
")] (txt "/repo/tests/test_cases/statement/enquanto/int_condition_error.ama") [] 4000) (utf "").
Proof. vm_compute. repeat split. Qed.
Example t_statement_enquanto_local : same_output (see [(txt "/repo/tests/test_cases/statement/enquanto/local.ama", utf "i : int


enquanto i != 4 faca

    mostra i
    i += 1
    i : int

fim

#[output]:0 1 2 3
")] (txt "/repo/tests/test_cases/statement/enquanto/local.ama") [] 4000) (utf "0 1 2 3").
Proof. vm_compute. repeat split. Qed.
Example t_statement_enquanto_obj_condition_error : same_error (see [(txt "/repo/tests/test_cases/statement/enquanto/obj_condition_error.ama", utf "
# Condition must be boolean or promotable to boolean

enquanto ""String"" faca  # expect Error

fim

#[output]:Erro: a condição da instrução 'enquanto' deve ser um valor lógico.
")] (txt "/repo/tests/test_cases/statement/enquanto/obj_condition_error.ama") [] 4000) (utf "").
Proof. vm_compute. repeat split. Qed.
Example t_statement_enquanto_real_condition_error : same_error (see [(txt "/repo/tests/test_cases/statement/enquanto/real_condition_error.ama", utf "# Condition must be boolean or promotable to boolean


enquanto 3.14 faca  # expect Error

fim

#[output]:Erro: a condição da instrução 'enquanto' deve ser um valor lógico.
")] (txt "/repo/tests/test_cases/statement/enquanto/real_condition_error.ama") [] 4000) (utf "").
Proof. vm_compute. repeat split. Qed.
Example t_statement_escolha_bad_caso : same_error (see [(txt "/repo/tests/test_cases/statement/escolha/bad_caso.ama", utf "

dia : texto = ""nome""

escolha dia:
    caso ""segunda"": 
        mostra 1
    caso ""terça"": 
        mostra 2
    caso ""quarta"": 
        mostra 3
    caso 4: 
        mostra 4
    senao:
        mostra ""erro""
fim

#[output]:Erro: O tipo do valor do caso (int) deve ser igual ao tipo do valor que está a ser avaliado (texto).
")] (txt "/repo/tests/test_cases/statement/escolha/bad_caso.ama") [] 4000) (utf "").
Proof. vm_compute. repeat split. Qed.
Example t_statement_escolha_bad_escolha : same_error (see [(txt "/repo/tests/test_cases/statement/escolha/bad_escolha.ama", utf "
num_int : real = 1

escolha num_int:
    caso 1: 
        mostra 1
    caso 2: 
        mostra 2
    caso 3: 
        mostra 3
    caso 4: 
        mostra 4
    senao:
        mostra ""erro""
fim

#[output]:Erro: A directiva escolha só pode ser usada para avaliar números inteiros e strings.
")] (txt "/repo/tests/test_cases/statement/escolha/bad_escolha.ama") [] 4000) (utf "").
Proof. vm_compute. repeat split. Qed.
Example t_statement_escolha_escolha : same_output (see [(txt "/repo/tests/test_cases/statement/escolha/escolha.ama", utf "num_int : int = 1

escolha num_int:
    caso 1: 
        mostra 1
    caso 2: 
        mostra 2
    caso 3: 
        mostra 3
    caso 4: 
        mostra 4
    senao:
        mostra ""erro""
fim


dia : texto = ""s""


# Normal escolha
escolha dia:
    caso ""segunda"":
        mostra ""s""
    caso ""terca"":
        mostra ""s""
    caso ""quarta"":
        mostra ""s""
    caso ""quinta"":
        mostra ""s""
    caso ""sexta"":
        mostra ""s""
    caso ""sabado"":
        mostra ""s""
    caso ""domingo"":
        mostra ""s""
    senao:
        mostra ""inválido""
fim

# empty escolha
escolha dia: fim

#escolha with default
escolha dia: 
    senao:
        mostra ""default""
fim


#Nested escolha


se verdadeiro entao
    escolha dia:
        caso ""segunda"":
            mostra ""s""
        caso ""terca"":
            mostra ""s""
        caso ""quarta"":
            mostra ""s""
        caso ""quinta"":
            mostra ""s""
        caso ""sexta"":
            mostra ""s""
        caso ""sabado"":
            mostra ""s""
        caso ""domingo"":
            mostra ""s""
        senao:
            mostra ""inválido""
    fim

fim

#[output]:1 inválido default inválido
")] (txt "/repo/tests/test_cases/statement/escolha/escolha.ama") [] 4000) (utf "1 inválido default inválido").
Proof. vm_compute. repeat split. Qed.
Example t_function_bad_type : same_error (see [(txt "/repo/tests/test_cases/function/bad_type.ama", utf "#function with non existent type

func add(): Carro #expect carro
    retorna Carro()
fim

#[output]:Erro: o tipo 'Carro' não foi declarado.
")] (txt "/repo/tests/test_cases/function/bad_type.ama") [] 4000) (utf "").
Proof. vm_compute. repeat split. Qed.
Example t_function_early_return_error : same_error (see [(txt "/repo/tests/test_cases/function/early_return_error.ama", utf "func early_ret(): int
    mostra ""hello""
    retorna
    mostra ""world""
fim

early_ret()
#[output]: Erro: A instrução de retorno vazia só pode ser usada dentro de uma função vazia.
")] (txt "/repo/tests/test_cases/function/early_return_error.ama") [] 4000) (utf "").
Proof. vm_compute. repeat split. Qed.
Example t_function_early_return_func : same_output (see [(txt "/repo/tests/test_cases/function/early_return_func.ama", utf "func early_ret()
    mostra ""hello""
    retorna
    mostra ""world""
fim

early_ret()
#[output]: hello
")] (txt "/repo/tests/test_cases/function/early_return_func.ama") [] 4000) (utf "hello").
Proof. vm_compute. repeat split. Qed.
Example t_function_empty_return_error : same_error (see [(txt "/repo/tests/test_cases/function/empty_return_error.ama", utf "# function without return

func main():int #expect error
fim

#[output]:Erro: a função 'main' não possui a instrução 'retorna'.
")] (txt "/repo/tests/test_cases/function/empty_return_error.ama") [] 4000) (utf "").
Proof. vm_compute. repeat split. Qed.
Example t_function_function_named_call : same_error (see [(txt "/repo/tests/test_cases/function/function_named_call.ama", utf "
func foo(num: int) fim


foo(num: 10)
#[output]: Erro: Funções e métodos não suportam argumentos nomeados.
")] (txt "/repo/tests/test_cases/function/function_named_call.ama") [] 4000) (utf "").
Proof. vm_compute. repeat split. Qed.
Example t_function_invalid_param : same_error (see [(txt "/repo/tests/test_cases/function/invalid_param.ama", utf "# Invalid param type error


func add(a:numero):int #expect error
    retorna 0
fim

#[output]:Erro: o tipo 'numero' não foi declarado.
")] (txt "/repo/tests/test_cases/function/invalid_param.ama") [] 4000) (utf "").
Proof. vm_compute. repeat split. Qed.
Example t_function_invalid_return : same_error (see [(txt "/repo/tests/test_cases/function/invalid_return.ama", utf "#Invalid function return


func main():int
    retorna 3.14 #expect error
fim

#[output]:Erro: expressão de retorno inválida. O tipo do valor de retorno é incompatível com o tipo de retorno da função.
")] (txt "/repo/tests/test_cases/function/invalid_return.ama") [] 4000) (utf "").
Proof. vm_compute. repeat split. Qed.
Example t_function_long_func : same_output (see [(txt "/repo/tests/test_cases/function/long_func.ama", utf "

func really_long_func(
    a:int,b:int,
    c:int,d:int,
    aa:int,ab:int
) : int
    
    retorna 0

fim





mostra really_long_func(
    0,
    1,
    2,
    3,
    4,
    5
)

mostra really_long_func(
    0,1,
    2,3,
    4,5
)

mostra really_long_func(
    0
    ,1,
    2
    ,3,
    4
    ,5
)

#[output]:0 0 0
")] (txt "/repo/tests/test_cases/function/long_func.ama") [] 4000) (utf "0 0 0").
Proof. vm_compute. repeat split. Qed.
Example t_function_nested_empty_error : same_error (see [(txt "/repo/tests/test_cases/function/nested_empty_error.ama", utf "# nested function declared without return


func inner_func():int 
   a : int = 10;
fim

#[output]:Erro: a função 'inner_func' não possui a instrução 'retorna'.
")] (txt "/repo/tests/test_cases/function/nested_empty_error.ama") [] 4000) (utf "").
Proof. vm_compute. repeat split. Qed.
Example t_function_nested_return : same_output (see [(txt "/repo/tests/test_cases/function/nested_return.ama", utf "
global_var : int

func test_enquanto(): int
    
    enquanto 1==1 faca
        retorna 1
    fim
fim

mostra test_enquanto() # expect 1


func test_para(): int
    
    para i de 0..9 faca
        retorna i
    fim
fim

mostra test_para() # expect 0

#[output]:1 0
")] (txt "/repo/tests/test_cases/function/nested_return.ama") [] 4000) (utf "1 0").
Proof. vm_compute. repeat split. Qed.
Example t_function_nested_shadowing : same_output (see [(txt "/repo/tests/test_cases/function/nested_shadowing.ama", utf "a: int = 5

func crazy()

    mostra a # expect 5
    
     a : int = 4
     b : int
     c : int
     d : int

    mostra a # expect 4


    se verdadeiro entao
        
        mostra a # expect 4
         a : int =  3
         b : int
         c : int
         d : int

        mostra a # expect 3
    fim

fim
crazy()

#[output]:5 4 4 3
")] (txt "/repo/tests/test_cases/function/nested_shadowing.ama") [] 4000) (utf "5 4 4 3").
Proof. vm_compute. repeat split. Qed.
Example t_function_recursive_func : same_output (see [(txt "/repo/tests/test_cases/function/recursive_func.ama", utf "func fatorial(i: int): int 
    se i == 0 entao
        retorna 1
    senao
        retorna i * fatorial(i - 1)
    fim
fim

mostra fatorial(0)
mostra fatorial(1)
mostra fatorial(2)
mostra fatorial(3)
mostra fatorial(4)
mostra fatorial(5)

#[output]:1 1 2 6 24 120
")] (txt "/repo/tests/test_cases/function/recursive_func.ama") [] 4000) (utf "1 1 2 6 24 120").
Proof. vm_compute. repeat split. Qed.
Example t_function_repeat_param : same_error (see [(txt "/repo/tests/test_cases/function/repeat_param.ama", utf "#Function with repeating param


func add(a:int,a:float):int
    retorna 0
fim

#[output]:Erro: o parâmetro 'a' já foi especificado nesta função.
")] (txt "/repo/tests/test_cases/function/repeat_param.ama") [] 4000) (utf "").
Proof. vm_compute. repeat split. Qed.
Example t_function_se_branch_no_return : same_error (see [(txt "/repo/tests/test_cases/function/se_branch_no_return.ama", utf "



func test(a: int): bool 
    se a == 1 entao
    senao
        retorna falso
    fim
fim


escrevaln(test(1))
#[output]: Erro: a função 'test' não possui a instrução 'retorna'.
")] (txt "/repo/tests/test_cases/function/se_branch_no_return.ama") [] 4000) (utf "").
Proof. vm_compute. repeat split. Qed.
Example t_function_valid : same_output (see [(txt "/repo/tests/test_cases/function/valid.ama", utf "# Some tests with functions


# Change global

a:int;

func main():int
  a = 3;
  retorna a
fim

main();
mostra a; # expect 3


# type prom
func random(): real
  retorna 150;
fim


rand:real = random();
mostra rand; #expect 150.0


# recursion
func factorial(n:int): int
  se n == 0 entao
    retorna 1;
  fim
  retorna n*factorial(n-1);
fim

mostra factorial(5); # expect 120

#[output]:3 150.0 120
")] (txt "/repo/tests/test_cases/function/valid.ama") [] 4000) (utf "3 150.0 120").
Proof. vm_compute. repeat split. Qed.
Example t_function_void_assign : same_error (see [(txt "/repo/tests/test_cases/function/void_assign.ama", utf "
func escreva_num(a:int)
    mostra a
fim



num : int = escreva_num(5) # expect error

#[output]:Erro: atribuição inválida. incompatibilidade entre os operandos da atribuição: 'int' e 'vazio'.
")] (txt "/repo/tests/test_cases/function/void_assign.ama") [] 4000) (utf "").
Proof. vm_compute. repeat split. Qed.
Example t_function_void_function : same_output (see [(txt "/repo/tests/test_cases/function/void_function.ama", utf "func escreva_num(a:int)
    mostra a
fim



escreva_num(2) #expect 2
escreva_num(3) #expect 3
escreva_num(4+5) # expect 9
escreva_num(6*2) # expect 12


#[output]:2 3 9 12
")] (txt "/repo/tests/test_cases/function/void_function.ama") [] 4000) (utf "2 3 9 12").
Proof. vm_compute. repeat split. Qed.
Example t_function_void_op : same_error (see [(txt "/repo/tests/test_cases/function/void_op.ama", utf "func escreva_num(a:int)
    mostra a
fim



mostra 2 + escreva_num(5) #expect error

#[output]:Erro: os tipos 'int' e 'vazio' não suportam operações com o operador '+'.
")] (txt "/repo/tests/test_cases/function/void_op.ama") [] 4000) (utf "").
Proof. vm_compute. repeat split. Qed.
Example t_function_void_return : same_error (see [(txt "/repo/tests/test_cases/function/void_return.ama", utf "func escreva_num(a:int)
    mostra a
    retorna a # expect error
fim




#[output]:Erro: Não pode retornar um valor de uma função vazia.
")] (txt "/repo/tests/test_cases/function/void_return.ama") [] 4000) (utf "").
Proof. vm_compute. repeat split. Qed.
Example t_statement_retorna_enq_return : same_error (see [(txt "/repo/tests/test_cases/statement/retorna/enq_return.ama", utf "# Return from enquanto


enquanto verdadeiro faca
    retorna 1 # expect error
fim

#[output]:Erro: A directiva 'retorna' só pode ser usada dentro de uma função.
")] (txt "/repo/tests/test_cases/statement/retorna/enq_return.ama") [] 4000) (utf "").
Proof. vm_compute. repeat split. Qed.
Example t_statement_retorna_global_return : same_error (see [(txt "/repo/tests/test_cases/statement/retorna/global_return.ama", utf "# returning in global scope


retorna 6; # except ERROR

#[output]:Erro: A directiva 'retorna' só pode ser usada dentro de uma função.
")] (txt "/repo/tests/test_cases/statement/retorna/global_return.ama") [] 4000) (utf "").
Proof. vm_compute. repeat split. Qed.
Example t_statement_retorna_if_return : same_error (see [(txt "/repo/tests/test_cases/statement/retorna/if_return.ama", utf "#Try to return from se


se verdadeiro entao
    retorna 1 # Expect error
fim

#[output]:Erro: A directiva 'retorna' só pode ser usada dentro de uma função.
")] (txt "/repo/tests/test_cases/statement/retorna/if_return.ama") [] 4000) (utf "").
Proof. vm_compute. repeat split. Qed.
Example t_statement_retorna_invalid_type : same_error (see [(txt "/repo/tests/test_cases/statement/retorna/invalid_type.ama", utf "#Incompatible return type


func int_returner():int
    retorna 3.14 # expect error
fim

#[output]:Erro: expressão de retorno inválida. O tipo do valor de retorno é incompatível com o tipo de retorno da função.
")] (txt "/repo/tests/test_cases/statement/retorna/invalid_type.ama") [] 4000) (utf "").
Proof. vm_compute. repeat split. Qed.
Example t_statement_retorna_para_return : same_error (see [(txt "/repo/tests/test_cases/statement/retorna/para_return.ama", utf "#retorna from para

para i de 0..9 faca
    retorna ""8"" #expect error
fim

#[output]:Erro: A directiva 'retorna' só pode ser usada dentro de uma função.
")] (txt "/repo/tests/test_cases/statement/retorna/para_return.ama") [] 4000) (utf "").
Proof. vm_compute. repeat split. Qed.
Example t_statement_loop_ctl_continua : same_output (see [(txt "/repo/tests/test_cases/statement/loop_ctl/continua.ama", utf "i: int = 0

enquanto i < 10 faca
    i += 1
    se i % 2 != 0 entao
        continua
    fim
    escrevaln(i)
fim 



#[output]:2 4 6 8 10
")] (txt "/repo/tests/test_cases/statement/loop_ctl/continua.ama") [] 4000) (utf "2 4 6 8 10").
Proof. vm_compute. repeat split. Qed.
Example t_statement_loop_ctl_continua_outside_loop : same_error (see [(txt "/repo/tests/test_cases/statement/loop_ctl/continua_outside_loop.ama", utf "continua
escrevaln(""Bad break"")

#[output]:Erro: A directiva 'continua' só pode ser usada dentro de uma estrutura de repetição.

")] (txt "/repo/tests/test_cases/statement/loop_ctl/continua_outside_loop.ama") [] 4000) (utf "").
Proof. vm_compute. repeat split. Qed.
Example t_statement_loop_ctl_quebra : same_output (see [(txt "/repo/tests/test_cases/statement/loop_ctl/quebra.ama", utf "enquanto verdadeiro faca
    quebra
fim 

escrevaln(""Saí do loop 1"")

enquanto verdadeiro faca

    enquanto verdadeiro faca
        quebra
    fim 
    escrevaln(""Saí do loop 2"")

    quebra
fim 
escrevaln(""Saí do loop 3"")
#[output]:Saí do loop 1 Saí do loop 2 Saí do loop 3

")] (txt "/repo/tests/test_cases/statement/loop_ctl/quebra.ama") [] 4000) (utf "Saí do loop 1 Saí do loop 2 Saí do loop 3").
Proof. vm_compute. repeat split. Qed.
Example t_statement_loop_ctl_quebra_outside_loop : same_error (see [(txt "/repo/tests/test_cases/statement/loop_ctl/quebra_outside_loop.ama", utf "quebra
escrevaln(""Bad break"")

#[output]:Erro: A directiva 'quebra' só pode ser usada dentro de uma estrutura de repetição.
")] (txt "/repo/tests/test_cases/statement/loop_ctl/quebra_outside_loop.ama") [] 4000) (utf "").
Proof. vm_compute. repeat split. Qed.
Example t_comment_comment : same_output (see [(txt "/repo/tests/test_cases/comment/comment.ama", utf "#This is a comment in amanda
# There a only single line comments in amanda

#[output]:
")] (txt "/repo/tests/test_cases/comment/comment.ama") [] 4000) (utf "").
Proof. vm_compute. repeat split. Qed.
Example t_comment_single_comment : same_output (see [(txt "/repo/tests/test_cases/comment/single_comment.ama", utf "# File with a single comment within

#[output]:
")] (txt "/repo/tests/test_cases/comment/single_comment.ama") [] 4000) (utf "").
Proof. vm_compute. repeat split. Qed.
Example t_comment_special_chars : same_output (see [(txt "/repo/tests/test_cases/comment/special_chars.ama", utf "#You can use special chars in comments
# ກ ๹ ç

#[output]:
")] (txt "/repo/tests/test_cases/comment/special_chars.ama") [] 4000) (utf "").
Proof. vm_compute. repeat split. Qed.
Example t_call_bad_arity : same_error (see [(txt "/repo/tests/test_cases/call/bad_arity.ama", utf "func add(a:int,b:int):int
    retorna a+b
fim

add(1,2,3) # expect error

#[output]:Erro: número incorrecto de argumentos para a função add. Esperava 2 argumento(s), porém recebeu 3.
")] (txt "/repo/tests/test_cases/call/bad_arity.ama") [] 4000) (utf "").
Proof. vm_compute. repeat split. Qed.
Example t_call_bad_type : same_error (see [(txt "/repo/tests/test_cases/call/bad_type.ama", utf "
func add(a:int,b:int):int
    retorna a+b
fim

add(3.14,2) # expect error

#[output]:Erro: argumento inválido. Esperava-se um argumento do tipo 'int' mas recebeu o tipo 'real'.
")] (txt "/repo/tests/test_cases/call/bad_type.ama") [] 4000) (utf "").
Proof. vm_compute. repeat split. Qed.
Example t_call_call_bool : same_error (see [(txt "/repo/tests/test_cases/call/call_bool.ama", utf "verdadeiro() # expect error

#[output]:Erro: o símbolo 'verdadeiro' não é invocável.
")] (txt "/repo/tests/test_cases/call/call_bool.ama") [] 4000) (utf "").
Proof. vm_compute. repeat split. Qed.
Example t_call_call_const : same_error (see [(txt "/repo/tests/test_cases/call/call_const.ama", utf "texto(""String"")() #expect error

#[output]:Erro: Não pode invocar o resultado de uma invocação.
")] (txt "/repo/tests/test_cases/call/call_const.ama") [] 4000) (utf "").
Proof. vm_compute. repeat split. Qed.
Example t_call_call_func : same_error (see [(txt "/repo/tests/test_cases/call/call_func.ama", utf "func main(): int
    retorna 0
fim



main()() #expect error

#[output]:Erro: Não pode invocar o resultado de uma invocação.
")] (txt "/repo/tests/test_cases/call/call_func.ama") [] 4000) (utf "").
Proof. vm_compute. repeat split. Qed.
Example t_call_call_int : same_error (see [(txt "/repo/tests/test_cases/call/call_int.ama", utf "1() #expect error

#[output]:Erro: o símbolo '1' não é invocável.
")] (txt "/repo/tests/test_cases/call/call_int.ama") [] 4000) (utf "").
Proof. vm_compute. repeat split. Qed.
Example t_call_call_obj : same_error (see [(txt "/repo/tests/test_cases/call/call_obj.ama", utf """String object""() # expect error

#[output]:Erro: o símbolo '""String object""' não é invocável.
")] (txt "/repo/tests/test_cases/call/call_obj.ama") [] 4000) (utf "").
Proof. vm_compute. repeat split. Qed.
Example t_call_call_prom : same_error (see [(txt "/repo/tests/test_cases/call/call_prom.ama", utf "
func add(a:float,b:float):int
    retorna a+b
fim

add(3,2) # expect 5.0

#[output]:Erro: o tipo 'float' não foi declarado.
")] (txt "/repo/tests/test_cases/call/call_prom.ama") [] 4000) (utf "").
Proof. vm_compute. repeat split. Qed.
Example t_call_call_real : same_error (see [(txt "/repo/tests/test_cases/call/call_real.ama", utf "3.14() #expect error

#[output]:Erro: o símbolo '3.14' não é invocável.
")] (txt "/repo/tests/test_cases/call/call_real.ama") [] 4000) (utf "").
Proof. vm_compute. repeat split. Qed.
Example t_call_call_var : same_error (see [(txt "/repo/tests/test_cases/call/call_var.ama", utf "num : int = 1
num() #expect error

#[output]:Erro: identificador 'num' não é invocável.
")] (txt "/repo/tests/test_cases/call/call_var.ama") [] 4000) (utf "").
Proof. vm_compute. repeat split. Qed.
Example t_call_int_bool : same_error (see [(txt "/repo/tests/test_cases/call/int_bool.ama", utf "

func add(a:int,b:int):int
    retorna a+b
fim

add(verdadeiro,2) # expect error

#[output]:Erro: argumento inválido. Esperava-se um argumento do tipo 'int' mas recebeu o tipo 'bool'.
")] (txt "/repo/tests/test_cases/call/int_bool.ama") [] 4000) (utf "").
Proof. vm_compute. repeat split. Qed.
Example t_call_int_obj : same_error (see [(txt "/repo/tests/test_cases/call/int_obj.ama", utf "

func add(a:int,b:int):int
    retorna a+b
fim

add(""texto"",2) # expect error

#[output]:Erro: argumento inválido. Esperava-se um argumento do tipo 'int' mas recebeu o tipo 'texto'.
")] (txt "/repo/tests/test_cases/call/int_obj.ama") [] 4000) (utf "").
Proof. vm_compute. repeat split. Qed.
Example t_call_real_bool : same_error (see [(txt "/repo/tests/test_cases/call/real_bool.ama", utf "

func add(a:real,b:int):real
    retorna a+b
fim

add(verdadeiro,2) # expect error

#[output]:Erro: argumento inválido. Esperava-se um argumento do tipo 'real' mas recebeu o tipo 'bool'.
")] (txt "/repo/tests/test_cases/call/real_bool.ama") [] 4000) (utf "").
Proof. vm_compute. repeat split. Qed.
Example t_declaration_bad_decl : same_error (see [(txt "/repo/tests/test_cases/declaration/bad_decl.ama", utf "
l0 : real
l1 : real = l0 = 0.3 # expect error


#[output]:Erro sintático: as instruções devem ser delimitadas por ';' ou por uma nova linha.
")] (txt "/repo/tests/test_cases/declaration/bad_decl.ama") [] 4000) (utf "").
Proof. vm_compute. repeat split. Qed.
Example t_declaration_bad_multi_decl : same_error (see [(txt "/repo/tests/test_cases/declaration/bad_multi_decl.ama", utf "

l1,l2,l3 : real = 0.2 # expect error


#[output]:Erro sintático: as instruções devem ser delimitadas por ';' ou por uma nova linha.
")] (txt "/repo/tests/test_cases/declaration/bad_multi_decl.ama") [] 4000) (utf "").
Proof. vm_compute. repeat split. Qed.
Example t_declaration_init_ref_error : same_error (see [(txt "/repo/tests/test_cases/declaration/init_ref_error.ama", utf "# Referencing to the same variable during decl + init

a:int = a; #expect ERROR

#[output]:Erro: Erro ao inicializar variável. Não pode referenciar uma variável durante a sua declaração.
")] (txt "/repo/tests/test_cases/declaration/init_ref_error.ama") [] 4000) (utf "").
Proof. vm_compute. repeat split. Qed.
Example t_declaration_local : same_output (see [(txt "/repo/tests/test_cases/declaration/local.ama", utf "# Redeclaration in local scope

i : int = 2;

func main():int
    mostra i;#expect 2
    i:int = 4
    mostra i; #expect 4
    retorna i
fim

main()
mostra i; #expect 2


#[output]:2 4 2
")] (txt "/repo/tests/test_cases/declaration/local.ama") [] 4000) (utf "2 4 2").
Proof. vm_compute. repeat split. Qed.
Example t_declaration_multi_decl : same_output (see [(txt "/repo/tests/test_cases/declaration/multi_decl.ama", utf "
l1,l2,l3 : real
mostra l1 # expect 0.0
mostra l2 # expect 0.0
mostra l3 # expect 0.0


#[output]:0.0 0.0 0.0
")] (txt "/repo/tests/test_cases/declaration/multi_decl.ama") [] 4000) (utf "0.0 0.0 0.0").
Proof. vm_compute. repeat split. Qed.
Example t_declaration_redecl_func_error : same_error (see [(txt "/repo/tests/test_cases/declaration/redecl_func_error.ama", utf "# Redeclaring array type


a:int;

func a():int # expect error
 retorna 0
fim

#[output]:Erro: O identificador 'a' já foi declarado neste escopo.
")] (txt "/repo/tests/test_cases/declaration/redecl_func_error.ama") [] 4000) (utf "").
Proof. vm_compute. repeat split. Qed.
Example t_declaration_redecl_local_error : same_error (see [(txt "/repo/tests/test_cases/declaration/redecl_local_error.ama", utf "# Local redeclaration


func test_decl():int
     a : int
     a : bool
    retorna a
fim

#[output]:Erro: O identificador 'a' já foi declarado neste escopo.
")] (txt "/repo/tests/test_cases/declaration/redecl_local_error.ama") [] 4000) (utf "").
Proof. vm_compute. repeat split. Qed.
Example t_declaration_redecl_var_error : same_error (see [(txt "/repo/tests/test_cases/declaration/redecl_var_error.ama", utf "# Redeclaration in the same scope

a:int 
a:texto # expect error

#[output]:Erro: O identificador 'a' já foi declarado neste escopo.
")] (txt "/repo/tests/test_cases/declaration/redecl_var_error.ama") [] 4000) (utf "").
Proof. vm_compute. repeat split. Qed.
Example t_declaration_simple : same_output (see [(txt "/repo/tests/test_cases/declaration/simple.ama", utf "# Normal testing of declarations


a : int
mostra a #expect 0

b : int = 2

mostra b #expect 2

pi : real 
mostra pi; # expect 0.0

logico : bool
mostra logico; #expect falso

#[output]:0 2 0.0 falso
")] (txt "/repo/tests/test_cases/declaration/simple.ama") [] 4000) (utf "0 2 0.0 falso").
Proof. vm_compute. repeat split. Qed.
Example t_declaration_var_type_error : same_error (see [(txt "/repo/tests/test_cases/declaration/var_type_error.ama", utf "# Declaring with non existing type

a:Tempo; #error

#[output]:Erro: o tipo 'Tempo' não foi declarado.
")] (txt "/repo/tests/test_cases/declaration/var_type_error.ama") [] 4000) (utf "").
Proof. vm_compute. repeat split. Qed.
Example t_expression_bad_fstr_expr : same_error (see [(txt "/repo/tests/test_cases/expression/bad_fstr_expr.ama", utf "str: texto = ""Hello world""

escrevaln(f""{ 2 + ; } i am amanda"")
#[output]: Erro sintático: início inválido de expressão: ';'.
")] (txt "/repo/tests/test_cases/expression/bad_fstr_expr.ama") [] 4000) (utf "").
Proof. vm_compute. repeat split. Qed.
Example t_expression_bad_text_op : same_error (see [(txt "/repo/tests/test_cases/expression/bad_text_op.ama", utf """str"" - ""str"" # expect error

#[output]:Erro: os tipos 'texto' e 'texto' não suportam operações com o operador '-'.
")] (txt "/repo/tests/test_cases/expression/bad_text_op.ama") [] 4000) (utf "").
Proof. vm_compute. repeat split. Qed.
Example t_expression_bad_text_relop : same_error (see [(txt "/repo/tests/test_cases/expression/bad_text_relop.ama", utf """str"" >= ""str"" # expect error

#[output]:Erro: os tipos 'texto' e 'texto' não suportam operações com o operador '>='.
")] (txt "/repo/tests/test_cases/expression/bad_text_relop.ama") [] 4000) (utf "").
Proof. vm_compute. repeat split. Qed.
Example t_expression_class_ref_error : same_error (see [(txt "/repo/tests/test_cases/expression/class_ref_error.ama", utf "# Reference class name without calling


mostra 1 + texto; # expect error

#[output]:Erro: o identificador 'texto' não é uma referência válida.
")] (txt "/repo/tests/test_cases/expression/class_ref_error.ama") [] 4000) (utf "").
Proof. vm_compute. repeat split. Qed.
Example t_expression_empty_texto : same_output (see [(txt "/repo/tests/test_cases/expression/empty_texto.ama", utf "teste : texto
mostra teste # expect 

#[output]:
")] (txt "/repo/tests/test_cases/expression/empty_texto.ama") [] 4000) (utf "").
Proof. vm_compute. repeat split. Qed.
Example t_expression_fstr_bad_call : same_error (see [(txt "/repo/tests/test_cases/expression/fstr_bad_call.ama", utf "func nada() fim

escrevaln(f""{nada()} i am amanda"")

#[output]: Erro: Funções invocadas dentro de expressões em fstrings devem retornar valores coercíveis para o tipo 'texto'.
")] (txt "/repo/tests/test_cases/expression/fstr_bad_call.ama") [] 4000) (utf "").
Proof. vm_compute. repeat split. Qed.
Example t_expression_fstr_func_call : same_output (see [(txt "/repo/tests/test_cases/expression/fstr_func_call.ama", utf "func hello(): texto
    retorna ""hello word""
fim

escrevaln(f""{hello()} i am amanda"")
#[output]: hello word i am amanda
")] (txt "/repo/tests/test_cases/expression/fstr_func_call.ama") [] 4000) (utf "hello word i am amanda").
Proof. vm_compute. repeat split. Qed.
Example t_expression_fstr_tcheck : same_error (see [(txt "/repo/tests/test_cases/expression/fstr_tcheck.ama", utf "escrevaln(f""{2 + '' } i am amanda"")
#[output]: Erro: os tipos 'int' e 'texto' não suportam operações com o operador '+'.
")] (txt "/repo/tests/test_cases/expression/fstr_tcheck.ama") [] 4000) (utf "").
Proof. vm_compute. repeat split. Qed.
Example t_expression_fstr_with_lbrace_lit : same_output (see [(txt "/repo/tests/test_cases/expression/fstr_with_lbrace_lit.ama", utf "java: texto = ""System.out.println()""

escrevaln(f""public static void main(){{ {java} }"")
#[output]: public static void main(){ System.out.println() }
")] (txt "/repo/tests/test_cases/expression/fstr_with_lbrace_lit.ama") [] 4000) (utf "public static void main(){ System.out.println() }").
Proof. vm_compute. repeat split. Qed.
Example t_expression_func_ref_error : same_error (see [(txt "/repo/tests/test_cases/expression/func_ref_error.ama", utf "# Referencing function without calling


a:int;

func main(): int
  retorna 0;
fim

mostra a+main; #expect error

#[output]:Erro: o identificador 'main' não é uma referência válida.
")] (txt "/repo/tests/test_cases/expression/func_ref_error.ama") [] 4000) (utf "").
Proof. vm_compute. repeat split. Qed.
Example t_expression_mix_operands : same_output (see [(txt "/repo/tests/test_cases/expression/mix_operands.ama", utf "# Mix and match operands


a : int = 20
func duplica(a:int):int
    retorna a*2
fim


mostra - ((7+3) - (2 * (duplica(a) + a))) # expect 122


#[output]:110
")] (txt "/repo/tests/test_cases/expression/mix_operands.ama") [] 4000) (utf "110").
Proof. vm_compute. repeat split. Qed.
Example t_expression_nested_fstr : same_error (see [(txt "/repo/tests/test_cases/expression/nested_fstr.ama", utf "str: texto = ""Hello world""

escrevaln(f""{ f'{str}'} i am amanda"")
#[output]: Erro sintático: String de formatação inválida. Não pode ter uma f-string dentro de outra f-string.
")] (txt "/repo/tests/test_cases/expression/nested_fstr.ama") [] 4000) (utf "").
Proof. vm_compute. repeat split. Qed.
Example t_expression_overflow_int_literal : same_error (see [(txt "/repo/tests/test_cases/expression/overflow_int_literal.ama", utf "a: int = 9223372036854775808
escrevaln(a)
#[output]: Erro: Número inteiro demasiado grande. Só pode usar números inteiros iguais ou menores que '9223372036854775807'.
")] (txt "/repo/tests/test_cases/expression/overflow_int_literal.ama") [] 4000) (utf "").
Proof. vm_compute. repeat split. Qed.
Example t_expression_overflow_op_add : same_stop 2 (see [(txt "/repo/tests/test_cases/expression/overflow_op_add.ama", utf "a: int = 9223372036854775807
escrevaln(a + 1)
#[output]: Erro na linha 2: Erro ao realizar operação aritmética. Resultado fora do intervalo de inteiros representáveis.
")] (txt "/repo/tests/test_cases/expression/overflow_op_add.ama") [] 4000) (utf "").
Proof. vm_compute. repeat split. Qed.
Example t_expression_overflow_op_div : same_stop 2 (see [(txt "/repo/tests/test_cases/expression/overflow_op_div.ama", utf "a: int = -9223372036854775807
escrevaln((a - 1) // -1)
#[output]: Erro na linha 2: Erro ao realizar operação aritmética. Resultado fora do intervalo de inteiros representáveis.
")] (txt "/repo/tests/test_cases/expression/overflow_op_div.ama") [] 4000) (utf "").
Proof. vm_compute. repeat split. Qed.
Example t_expression_overflow_op_mul : same_stop 2 (see [(txt "/repo/tests/test_cases/expression/overflow_op_mul.ama", utf "a: int = 9223372036854775807
escrevaln(a * 2)
#[output]: Erro na linha 2: Erro ao realizar operação aritmética. Resultado fora do intervalo de inteiros representáveis.
")] (txt "/repo/tests/test_cases/expression/overflow_op_mul.ama") [] 4000) (utf "").
Proof. vm_compute. repeat split. Qed.
Example t_expression_overflow_op_rem : same_stop 2 (see [(txt "/repo/tests/test_cases/expression/overflow_op_rem.ama", utf "a: int = -9223372036854775807
escrevaln((a - 1) % -1)
#[output]: Erro na linha 2: Erro ao realizar operação aritmética. Resultado fora do intervalo de inteiros representáveis.
")] (txt "/repo/tests/test_cases/expression/overflow_op_rem.ama") [] 4000) (utf "").
Proof. vm_compute. repeat split. Qed.
Example t_expression_overflow_op_sub : same_stop 2 (see [(txt "/repo/tests/test_cases/expression/overflow_op_sub.ama", utf "a: int = -9223372036854775807
escrevaln(a - 2)
#[output]: Erro na linha 2: Erro ao realizar operação aritmética. Resultado fora do intervalo de inteiros representáveis.
")] (txt "/repo/tests/test_cases/expression/overflow_op_sub.ama") [] 4000) (utf "").
Proof. vm_compute. repeat split. Qed.
Example t_expression_plain_fstr : same_output (see [(txt "/repo/tests/test_cases/expression/plain_fstr.ama", utf "escrevaln(f""format string without expressions"")
#[output]: format string without expressions
")] (txt "/repo/tests/test_cases/expression/plain_fstr.ama") [] 4000) (utf "format string without expressions").
Proof. vm_compute. repeat split. Qed.
Example t_expression_precedence : same_output (see [(txt "/repo/tests/test_cases/expression/precedence.ama", utf "# testing parenthesis

mostra 1 + 2 * 3; # expect 7
mostra (1 + 2) * 3; # expect 9

#[output]:7 9
")] (txt "/repo/tests/test_cases/expression/precedence.ama") [] 4000) (utf "7 9").
Proof. vm_compute. repeat split. Qed.
Example t_expression_str_ctl_seq : same_output (see [(txt "/repo/tests/test_cases/expression/str_ctl_seq.ama", utf "func hello(): texto 
    retorna ""Hello world,""

fim

escreva(f""{hello()} i am amanda\n"")
escreva(f""another line\n"")
escrevaln(""\"""")
escrevaln(""\'"")
escrevaln(""\ "")

#[output]: Hello world, i am amanda another line "" ' \
")] (txt "/repo/tests/test_cases/expression/str_ctl_seq.ama") [] 4000) (utf "Hello world, i am amanda another line "" ' \").
Proof. vm_compute. repeat split. Qed.
Example t_expression_texto_ama : same_output (see [(txt "/repo/tests/test_cases/expression/texto_ama.ama", utf "teste : texto = ""texto""
mostra teste # expect texto


mostra teste # expect testeteste



mostra teste == teste # expect verdadeiro
mostra teste != teste # expect falso

mostra teste[0] #expect t
mostra teste[2] #expect x
mostra teste[4] #expect o

#[output]:texto texto verdadeiro falso t x o
")] (txt "/repo/tests/test_cases/expression/texto_ama.ama") [] 4000) (utf "texto texto verdadeiro falso t x o").
Proof. vm_compute. repeat split. Qed.
Example t_expression_texto_bad_index : same_error (see [(txt "/repo/tests/test_cases/expression/texto_bad_index.ama", utf "escrevaln(""a""[""""])
#[output]: Erro: Índices para valores do tipo 'texto' devem ser do tipo 'int'.
")] (txt "/repo/tests/test_cases/expression/texto_bad_index.ama") [] 4000) (utf "").
Proof. vm_compute. repeat split. Qed.
Example t_expression_texto_bad_index2 : same_error (see [(txt "/repo/tests/test_cases/expression/texto_bad_index2.ama", utf "
str: texto = ""a""
str[0] = ""as""
#[output]: Erro: As strings não podem ser modificadas por meio de índices.
")] (txt "/repo/tests/test_cases/expression/texto_bad_index2.ama") [] 4000) (utf "").
Proof. vm_compute. repeat split. Qed.
Example t_expression_texto_empty_fstr_expr : same_error (see [(txt "/repo/tests/test_cases/expression/texto_empty_fstr_expr.ama", utf "str: texto = ""Hello world""

escrevaln(f""{} i am amanda"")
#[output]: Erro sintático: String de formatação inválida. Expressões vazias não são permitidas.
")] (txt "/repo/tests/test_cases/expression/texto_empty_fstr_expr.ama") [] 4000) (utf "").
Proof. vm_compute. repeat split. Qed.
Example t_expression_texto_funcs : same_output (see [(txt "/repo/tests/test_cases/expression/texto_funcs.ama", utf "str: texto = ""Hello world""

#Indexing
escrevaln(str[0])

# tamanho
escrevaln(tam(str))


#formating
escrevaln(f""{str} i am amanda"")
escrevaln(f""1 + 2 = {1+2}"")
#[output]: H 11 Hello world i am amanda 1 + 2 = 3
")] (txt "/repo/tests/test_cases/expression/texto_funcs.ama") [] 4000) (utf "H 11 Hello world i am amanda 1 + 2 = 3").
Proof. vm_compute. repeat split. Qed.
Example t_expression_texto_iob : same_stop 4 (see [(txt "/repo/tests/test_cases/expression/texto_iob.ama", utf "str: texto = ""Hello world""

#Indexing
escrevaln(str[100])

#[output]: Erro na linha 4: Erro de índice inválido. O tamanho da string é 11, mas o índice é 100.
")] (txt "/repo/tests/test_cases/expression/texto_iob.ama") [] 4000) (utf "").
Proof. vm_compute. repeat split. Qed.
Example t_expression_texto_open_fstr_expr : same_error (see [(txt "/repo/tests/test_cases/expression/texto_open_fstr_expr.ama", utf "str: texto = ""Hello world""

escrevaln(f""{ i am amanda"")
#[output]: Erro sintático: String de formatação inválida. Expressões devem ser delimitadas por '{' e '}'.
")] (txt "/repo/tests/test_cases/expression/texto_open_fstr_expr.ama") [] 4000) (utf "").
Proof. vm_compute. repeat split. Qed.
Example t_expression_type_promotion : same_output (see [(txt "/repo/tests/test_cases/expression/type_promotion.ama", utf "# test type promotion


mostra 1+(2+2.5); # expect 5.5

#[output]:5.5
")] (txt "/repo/tests/test_cases/expression/type_promotion.ama") [] 4000) (utf "5.5").
Proof. vm_compute. repeat split. Qed.
Example t_expression_type_ref_error : same_error (see [(txt "/repo/tests/test_cases/expression/type_ref_error.ama", utf "# Referencing type error


a:int
mostra a + int

#[output]:Erro: o identificador 'int' não é uma referência válida.
")] (txt "/repo/tests/test_cases/expression/type_ref_error.ama") [] 4000) (utf "").
Proof. vm_compute. repeat split. Qed.
Example t_converte_bad_int_c : same_error (see [(txt "/repo/tests/test_cases/converte/bad_int_c.ama", utf "a: int = falso:>int

#[output]:Erro: Não pode converter um valor do tipo 'bool' para o tipo 'int'.
")] (txt "/repo/tests/test_cases/converte/bad_int_c.ama") [] 4000) (utf "").
Proof. vm_compute. repeat split. Qed.
Example t_converte_basic : same_output (see [(txt "/repo/tests/test_cases/converte/basic.ama", utf "num: int = ""40212"":>int

num_real: real = num

logico: bool = num_real:>bool

num_real2: indef = (15.01:>indef):>indef 
num_int: int = num_real:>int


escrevaln(num)
escrevaln(num_real2:>real)
escrevaln(num_real)
escrevaln(1:>bool)
escrevaln(0:>bool)
escrevaln("""":>bool)
escrevaln("" "":>bool)
escrevaln(1.0:>bool)
escrevaln(0.0:>bool)
escrevaln(verdadeiro:>texto)
escrevaln(falso:>texto)


#[output]: 40212 15.01 40212.0 verdadeiro falso falso verdadeiro verdadeiro falso verdadeiro falso
")] (txt "/repo/tests/test_cases/converte/basic.ama") [] 4000) (utf "40212 15.01 40212.0 verdadeiro falso falso verdadeiro verdadeiro falso verdadeiro falso").
Proof. vm_compute. repeat split. Qed.
Example t_converte_converte_bool_int : same_error (see [(txt "/repo/tests/test_cases/converte/converte_bool_int.ama", utf "mostra verdadeiro:>int

#[output]:Erro: Não pode converter um valor do tipo 'bool' para o tipo 'int'.
")] (txt "/repo/tests/test_cases/converte/converte_bool_int.ama") [] 4000) (utf "").
Proof. vm_compute. repeat split. Qed.
Example t_converte_converte_fake_type : same_error (see [(txt "/repo/tests/test_cases/converte/converte_fake_type.ama", utf "
mostra 8:>undeclared


#[output]:Erro: o tipo 'undeclared' não foi declarado.
")] (txt "/repo/tests/test_cases/converte/converte_fake_type.ama") [] 4000) (utf "").
Proof. vm_compute. repeat split. Qed.
Example t_converte_converte_func_args : same_stop 8 (see [(txt "/repo/tests/test_cases/converte/converte_func_args.ama", utf "func escrevaln1(arg : indef)
    str : texto = arg:>texto
    mostra str
fim



escrevaln1(10)
escrevaln1(""eu"")
escrevaln1(verdadeiro)
escrevaln1(3.14)
escrevaln1(falso)

#[output]:Erro na linha 8: Conversão inválida. O tipo original do valor é 'int', mas tentou converter o valor para o tipo 'texto'.
")] (txt "/repo/tests/test_cases/converte/converte_func_args.ama") [] 4000) (utf "").
Proof. vm_compute. repeat split. Qed.
Example t_converte_converte_indef : same_output (see [(txt "/repo/tests/test_cases/converte/converte_indef.ama", utf "a : indef = 8:>indef
mostra a # expect 8
mostra a:>int + 8 # expect 16 

#[output]:8 16
")] (txt "/repo/tests/test_cases/converte/converte_indef.ama") [] 4000) (utf "8 16").
Proof. vm_compute. repeat split. Qed.
Example t_converte_converte_non_type : same_error (see [(txt "/repo/tests/test_cases/converte/converte_non_type.ama", utf "a : int

mostra a:>a

#[output]:Erro: o tipo 'a' não foi declarado.
")] (txt "/repo/tests/test_cases/converte/converte_non_type.ama") [] 4000) (utf "").
Proof. vm_compute. repeat split. Qed.
Example t_converte_invalid_converte : same_stop 1 (see [(txt "/repo/tests/test_cases/converte/invalid_converte.ama", utf "escrevaln(""p"":>int)

#[output]: Erro na linha 1: A sequência de caracteres 'p' não é um inteiro válido.
")] (txt "/repo/tests/test_cases/converte/invalid_converte.ama") [] 4000) (utf "").
Proof. vm_compute. repeat split. Qed.
Example t_converte_invalid_converte_real : same_stop 1 (see [(txt "/repo/tests/test_cases/converte/invalid_converte_real.ama", utf "_: real = ""hello world"":>real
#[output]: Erro na linha 1: A sequência de caracteres 'hello world' não é um número real válido.
")] (txt "/repo/tests/test_cases/converte/invalid_converte_real.ama") [] 4000) (utf "").
Proof. vm_compute. repeat split. Qed.
Example t_converte_test_converte : same_output (see [(txt "/repo/tests/test_cases/converte/test_converte.ama", utf "mostra 8:>real
mostra 8:>texto
mostra 8:>bool
mostra 8:>int

#[output]:8.0 8 verdadeiro 8 
")] (txt "/repo/tests/test_cases/converte/test_converte.ama") [] 4000) (utf "8.0 8 verdadeiro 8").
Proof. vm_compute. repeat split. Qed.
Example t_vec_matrix_anexa : same_output (see [(txt "/repo/tests/test_cases/vec/matrix_anexa.ama", utf "matrix : [[int]] = vec(int, 2, 2)
mostra matrix

anexa(matrix, [int: 2, 2])

mostra matrix[2]

#[output]:[[0, 0], [0, 0]] [2, 2]
")] (txt "/repo/tests/test_cases/vec/matrix_anexa.ama") [] 4000) (utf "[[0, 0], [0, 0]] [2, 2]").
Proof. vm_compute. repeat split. Qed.
Example t_vec_matrix_lits : same_output (see [(txt "/repo/tests/test_cases/vec/matrix_lits.ama", utf "matrix : [[int]] = [
  [int]: 
  [int:  ],  
  [int:  ],  
  [int:  ]
]

matrix_madness : [[[int]]] = [
  [[int]]: 
  [ 
    [int]:
    [int: 1],
    [int: ]
  ], 
  [ 
    [int]:
    [int: ],
    [int: ]
  ], 
  [ 
    [int]:
    [int: ],
    [int: ]
  ]
]

anexa(matrix[0] , 1)
anexa(matrix[0] , 2)
anexa(matrix[0] , 3)
anexa(matrix[0] , 4)

escrevaln(matrix[0])
escrevaln(matrix_madness[0][0][0])

#[output]: [1, 2, 3, 4] 1
")] (txt "/repo/tests/test_cases/vec/matrix_lits.ama") [] 4000) (utf "[1, 2, 3, 4] 1").
Proof. vm_compute. repeat split. Qed.
Example t_vec_test : same_error (see [(txt "/repo/tests/test_cases/vec/test.ama", utf "vet2: [int] = vec(fake_type, 4) # Vec with 4 zeros
#[output]: Erro: o tipo 'fake_type' não foi declarado.
")] (txt "/repo/tests/test_cases/vec/test.ama") [] 4000) (utf "").
Proof. vm_compute. repeat split. Qed.
Example t_vec_vec_anexa : same_output (see [(txt "/repo/tests/test_cases/vec/vec_anexa.ama", utf "vec1 : [int] = vec(int, 0) 

escrevaln(tam(vec1))

anexa(vec1,1)
anexa(vec1,2)
anexa(vec1,3)

escrevaln(vec1)
escrevaln(tam(vec1))

vec2 : [int] = vec(int, 3) 

escrevaln(tam(vec2))

anexa(vec2, 255)

escrevaln(tam(vec2))

escrevaln(vec2)

#[output]:0 [1, 2, 3] 3 3 4 [0, 0, 0, 255] 
")] (txt "/repo/tests/test_cases/vec/vec_anexa.ama") [] 4000) (utf "0 [1, 2, 3] 3 3 4 [0, 0, 0, 255]").
Proof. vm_compute. repeat split. Qed.
Example t_vec_vec_anexa_bad_arg : same_error (see [(txt "/repo/tests/test_cases/vec/vec_anexa_bad_arg.ama", utf "anexa(0, 255)

#[output]:Erro: O argumento 1 da função 'anexa' deve ser um vector.
")] (txt "/repo/tests/test_cases/vec/vec_anexa_bad_arg.ama") [] 4000) (utf "").
Proof. vm_compute. repeat split. Qed.
Example t_vec_vec_anexa_bad_arg2 : same_error (see [(txt "/repo/tests/test_cases/vec/vec_anexa_bad_arg2.ama", utf "vet1: [int] = vec(int, 2)
anexa(vet1, 2.1)

#[output]:Erro: incompatibilidade de tipos entre o tipo dos elementos da lista e o valor a anexar: 'int' != 'real'.
")] (txt "/repo/tests/test_cases/vec/vec_anexa_bad_arg2.ama") [] 4000) (utf "").
Proof. vm_compute. repeat split. Qed.
Example t_vec_vec_anexa_prom : same_output (see [(txt "/repo/tests/test_cases/vec/vec_anexa_prom.ama", utf "lista1 : [real] = vec(real, 0) 

anexa(lista1,1)
anexa(lista1,2)
anexa(lista1,3)

escrevaln(tam(lista1))

para i de 0..tam(lista1) faca
    escrevaln(lista1[i])
fim

#[output]:3 1.0 2.0 3.0
")] (txt "/repo/tests/test_cases/vec/vec_anexa_prom.ama") [] 4000) (utf "3 1.0 2.0 3.0").
Proof. vm_compute. repeat split. Qed.
Example t_vec_vec_bad_args : same_error (see [(txt "/repo/tests/test_cases/vec/vec_bad_args.ama", utf "vec(int)

#[output]:Erro: Função 'vec' deve ser invocada com pelo menos 2 argumentos.
")] (txt "/repo/tests/test_cases/vec/vec_bad_args.ama") [] 4000) (utf "").
Proof. vm_compute. repeat split. Qed.
Example t_vec_vec_bad_cast : same_error (see [(txt "/repo/tests/test_cases/vec/vec_bad_cast.ama", utf "
lista_r: [real] = 1:>[int]



#[output]:Erro: Não pode converter um valor do tipo 'int' para o tipo '[int]'.
")] (txt "/repo/tests/test_cases/vec/vec_bad_cast.ama") [] 4000) (utf "").
Proof. vm_compute. repeat split. Qed.
Example t_vec_vec_bad_remova : same_error (see [(txt "/repo/tests/test_cases/vec/vec_bad_remova.ama", utf "remova([int: ], verdadeiro)

#[output]: Erro: O argumento 2 da função 'remova' deve ser um número inteiro.
")] (txt "/repo/tests/test_cases/vec/vec_bad_remova.ama") [] 4000) (utf "").
Proof. vm_compute. repeat split. Qed.
Example t_vec_vec_bad_set : same_error (see [(txt "/repo/tests/test_cases/vec/vec_bad_set.ama", utf "# Isto é uma var que guarda uma vec
minha_lista : [int] = vec(int, 4)

# Preencher o vec usando índices

minha_lista[0] = -3
minha_lista[1] = 88
minha_lista[2] = 65
minha_lista[3] = 11.0


# Imprimir a lista

para i de 0..4 faca
    mostra minha_lista[i]
fim


#[output]: Erro: Atribuição inválida. incompatibilidade entre os operandos da atribuição: 'int' e 'real'.
")] (txt "/repo/tests/test_cases/vec/vec_bad_set.ama") [] 4000) (utf "").
Proof. vm_compute. repeat split. Qed.
Example t_vec_vec_func : same_output (see [(txt "/repo/tests/test_cases/vec/vec_func.ama", utf "
func doubler(l1 : [int]) : [int]
    para i de 0..tam(l1) faca
        l1[i] *= 2
    fim
    retorna l1
fim


func fmt_lista(lx: [int], sep : texto)
    resultado : texto
    tamanho: int = tam(lx)
    para i de 0..tamanho faca
        valor : texto = lx[i]:>texto
        se i == tamanho - 1 entao
            resultado = f""{resultado}{valor}""
        senao
            resultado = f""{resultado}{valor}{sep}""
        fim
    fim
    mostra resultado
fim
 
l1 : [int] = vec(int,3)
l1[0] = 2
l1[1] = 3
l1[2] = 5

l1 = doubler(l1)

fmt_lista(l1,"","")

#[output]:4,6,10
")] (txt "/repo/tests/test_cases/vec/vec_func.ama") [] 4000) (utf "4,6,10").
Proof. vm_compute. repeat split. Qed.
Example t_vec_vec_illegal_size : same_stop 1 (see [(txt "/repo/tests/test_cases/vec/vec_illegal_size.ama", utf "vec(int, -3, 3)

#[output]:Erro na linha 1: Dimensões de um vector devem ser especificidas por números inteiros positivos.
")] (txt "/repo/tests/test_cases/vec/vec_illegal_size.ama") [] 4000) (utf "").
Proof. vm_compute. repeat split. Qed.
Example t_vec_vec_init : same_output (see [(txt "/repo/tests/test_cases/vec/vec_init.ama", utf "escrevaln(vec(int, 3))
escrevaln(vec(real, 3))
escrevaln(vec(bool, 3))
escrevaln(vec(texto, 3))

#[output]:[0, 0, 0] [0.0, 0.0, 0.0] [falso, falso, falso] [, , ]
")] (txt "/repo/tests/test_cases/vec/vec_init.ama") [] 4000) (utf "[0, 0, 0] [0.0, 0.0, 0.0] [falso, falso, falso] [, , ]").
Proof. vm_compute. repeat split. Qed.
Example t_vec_vec_iob : same_stop 6 (see [(txt "/repo/tests/test_cases/vec/vec_iob.ama", utf "#Para criar um vec use a 'função' vec

lista: [int] = vec(int,1)


lista[2]

#[output]:Erro na linha 6: Erro de índice inválido. O tamanho do vector é 1, mas tentou aceder o índice 2.
")] (txt "/repo/tests/test_cases/vec/vec_iob.ama") [] 4000) (utf "").
Proof. vm_compute. repeat split. Qed.
Example t_vec_vec_iob_set : same_stop 6 (see [(txt "/repo/tests/test_cases/vec/vec_iob_set.ama", utf "#Para criar um vec use a 'função' vec

lista: [int] = vec(int,1)


lista[1] = 0

#[output]:Erro na linha 6: Erro de índice inválido. O tamanho do vector é 1, mas tentou aceder o índice 1.
")] (txt "/repo/tests/test_cases/vec/vec_iob_set.ama") [] 4000) (utf "").
Proof. vm_compute. repeat split. Qed.
Example t_vec_vec_lit : same_output (see [(txt "/repo/tests/test_cases/vec/vec_lit.ama", utf "list : [int] = [int: 1, 2, 3, 4]
vec1 : [texto] = [texto: ""texto""]

escrevaln(list)
escrevaln(vec1)

#[output]:[1, 2, 3, 4] [texto]
")] (txt "/repo/tests/test_cases/vec/vec_lit.ama") [] 4000) (utf "[1, 2, 3, 4] [texto]").
Proof. vm_compute. repeat split. Qed.
Example t_vec_vec_lit_mix : same_error (see [(txt "/repo/tests/test_cases/vec/vec_lit_mix.ama", utf "list : [int] = [int: 1, ""ainn""]

#[output]:Erro: O tipo do elemento 1 da lista não condiz com o tipo da lista. Esperava elemento do tipo 'int', encontrou elemento do tipo 'texto'.
")] (txt "/repo/tests/test_cases/vec/vec_lit_mix.ama") [] 4000) (utf "").
Proof. vm_compute. repeat split. Qed.
Example t_vec_vec_lit_prom : same_output (see [(txt "/repo/tests/test_cases/vec/vec_lit_prom.ama", utf "lista1 : [real] = [real: 1, 2]
escreva(lista1)


#[output]:[1.0, 2.0]
")] (txt "/repo/tests/test_cases/vec/vec_lit_prom.ama") [] 4000) (utf "[1.0, 2.0]").
Proof. vm_compute. repeat split. Qed.
Example t_vec_vec_matrix : same_output (see [(txt "/repo/tests/test_cases/vec/vec_matrix.ama", utf "matrix : [[int]] = vec(int, 3, 3)

n: int 
para i de 0..3 faca
    para j de 0..3 faca
        n += 1
        matrix[i][j] = n
    fim
fim


escrevaln(matrix)
#[output]:[[1, 2, 3], [4, 5, 6], [7, 8, 9]]
")] (txt "/repo/tests/test_cases/vec/vec_matrix.ama") [] 4000) (utf "[[1, 2, 3], [4, 5, 6], [7, 8, 9]]").
Proof. vm_compute. repeat split. Qed.
Example t_vec_vec_print : same_output (see [(txt "/repo/tests/test_cases/vec/vec_print.ama", utf "#Para criar um vec use a 'função' vec

lista: [int] = vec(int,5)



para i de 0..5 faca
    lista[i] = (i + 1) * 5
fim

escrevaln(lista)
#[output]:[5, 10, 15, 20, 25]
")] (txt "/repo/tests/test_cases/vec/vec_print.ama") [] 4000) (utf "[5, 10, 15, 20, 25]").
Proof. vm_compute. repeat split. Qed.
Example t_vec_vec_remova : same_output (see [(txt "/repo/tests/test_cases/vec/vec_remova.ama", utf "lista: [int] = [int: 1, 2, 3]


escrevaln(tam(lista))
escrevaln(remova(lista, 2))
escrevaln(tam(lista))
escrevaln(remova(lista, 1))
escrevaln(tam(lista))
escrevaln(remova(lista, 0))
escrevaln(tam(lista))

#[output]:3 3 2 2 1 1 0
")] (txt "/repo/tests/test_cases/vec/vec_remova.ama") [] 4000) (utf "3 3 2 2 1 1 0").
Proof. vm_compute. repeat split. Qed.
Example t_vec_vec_remova_iob : same_stop 2 (see [(txt "/repo/tests/test_cases/vec/vec_remova_iob.ama", utf "lista: [int] = [int: ]
remova(lista, 0)
#[output]:Erro na linha 2: Erro de índice inválido. O tamanho do vector é 0, mas tentou aceder o índice 0.
")] (txt "/repo/tests/test_cases/vec/vec_remova_iob.ama") [] 4000) (utf "").
Proof. vm_compute. repeat split. Qed.
Example t_vec_vec_remova_neg_iob : same_stop 2 (see [(txt "/repo/tests/test_cases/vec/vec_remova_neg_iob.ama", utf "lista: [int] = [int: ]
remova(lista, -1)
#[output]:Erro na linha 2: Erro de índice inválido. Vectores só podem ser indexados com inteiros positivos.
")] (txt "/repo/tests/test_cases/vec/vec_remova_neg_iob.ama") [] 4000) (utf "").
Proof. vm_compute. repeat split. Qed.
Example t_vec_vec_remova_type : same_error (see [(txt "/repo/tests/test_cases/vec/vec_remova_type.ama", utf "el: bool = remova([int: 1], 0)

#[output]: Erro: atribuição inválida. incompatibilidade entre os operandos da atribuição: 'bool' e 'int'.
")] (txt "/repo/tests/test_cases/vec/vec_remova_type.ama") [] 4000) (utf "").
Proof. vm_compute. repeat split. Qed.
Example t_vec_vec_simple : same_output (see [(txt "/repo/tests/test_cases/vec/vec_simple.ama", utf "# Isto é uma var que guarda uma vec
minha_lista : [int] = vec(int, 4)

#Para criar um vec use a 'função' vec

# Preencher o vec usando índices

minha_lista[0] = -3
minha_lista[1] = 88
minha_lista[2] = 65
minha_lista[3] = 11


# Imprimir a lista

para i de 0..4 faca
    mostra minha_lista[i]
fim


#[output]:-3 88 65 11
")] (txt "/repo/tests/test_cases/vec/vec_simple.ama") [] 4000) (utf "-3 88 65 11").
Proof. vm_compute. repeat split. Qed.
Example t_vec_vec_tam : same_output (see [(txt "/repo/tests/test_cases/vec/vec_tam.ama", utf "#Para criar um vec use a 'função' vec

lista: [int] = vec(int,4)

escrevaln(f""tamanho: {tam(lista)}"")

para i de 0..tam(lista) faca
    mostra lista[i]
fim


#[output]:tamanho: 4 0 0 0 0
")] (txt "/repo/tests/test_cases/vec/vec_tam.ama") [] 4000) (utf "tamanho: 4 0 0 0 0").
Proof. vm_compute. repeat split. Qed.
Example t_rt_errors_zero_div_enquanto : same_stop 5 (see [(txt "/repo/tests/test_cases/rt_errors/zero_div_enquanto.ama", utf "a : int = 6
i : int

enquanto verdadeiro faca
    mostra a/i #expect error
fim




#[output]:Erro na linha 5: não pode dividir um número por zero.
")] (txt "/repo/tests/test_cases/rt_errors/zero_div_enquanto.ama") [] 4000) (utf "").
Proof. vm_compute. repeat split. Qed.
Example t_rt_errors_zero_div_error : same_stop 5 (see [(txt "/repo/tests/test_cases/rt_errors/zero_div_error.ama", utf "
a : int = 6
i : int

mostra a/i #expect error




#[output]:Erro na linha 5: não pode dividir um número por zero.
")] (txt "/repo/tests/test_cases/rt_errors/zero_div_error.ama") [] 4000) (utf "").
Proof. vm_compute. repeat split. Qed.
Example t_rt_errors_zero_div_func : same_stop 10 (see [(txt "/repo/tests/test_cases/rt_errors/zero_div_func.ama", utf "a : int = 6
i : int


func test()
    mostra a/i #expect error
fim


test()

#[output]:Erro na linha 10: não pode dividir um número por zero.
")] (txt "/repo/tests/test_cases/rt_errors/zero_div_func.ama") [] 4000) (utf "").
Proof. vm_compute. repeat split. Qed.
Example t_rt_errors_zero_div_layers : same_stop 8 (see [(txt "/repo/tests/test_cases/rt_errors/zero_div_layers.ama", utf "
se falso entao
     a : int = 6
     i : int
senao
     a : int = 6
     i : int
    mostra a/i
fim



#[output]:Erro na linha 8: não pode dividir um número por zero.
")] (txt "/repo/tests/test_cases/rt_errors/zero_div_layers.ama") [] 4000) (utf "").
Proof. vm_compute. repeat split. Qed.
Example t_rt_errors_zero_div_se : same_stop 6 (see [(txt "/repo/tests/test_cases/rt_errors/zero_div_se.ama", utf "
a : int = 6
i : int

se verdadeiro entao
    mostra a/i
fim



#[output]:Erro na linha 6: não pode dividir um número por zero.
")] (txt "/repo/tests/test_cases/rt_errors/zero_div_se.ama") [] 4000) (utf "").
Proof. vm_compute. repeat split. Qed.
Example t_rt_errors_zero_div_senao : same_stop 9 (see [(txt "/repo/tests/test_cases/rt_errors/zero_div_senao.ama", utf "

a : int = 6
i : int

se falso entao
    mostra a/i
senao
    mostra a/i
fim



#[output]:Erro na linha 9: não pode dividir um número por zero.
")] (txt "/repo/tests/test_cases/rt_errors/zero_div_senao.ama") [] 4000) (utf "").
Proof. vm_compute. repeat split. Qed.
Example t_registo_bad_init_1 : same_error (see [(txt "/repo/tests/test_cases/registo/bad_init_1.ama", utf "#All initializers must be named

registo Bar
    a: int
    b: texto
fim




a: Bar = Bar(a: 0, ""agya"")
#[output]: Erro: Todos os argumentos do inicializador de um registo devem ser nomeados.
")] (txt "/repo/tests/test_cases/registo/bad_init_1.ama") [] 4000) (utf "").
Proof. vm_compute. repeat split. Qed.
Example t_registo_bad_init_2 : same_error (see [(txt "/repo/tests/test_cases/registo/bad_init_2.ama", utf "#All field must be set in initializer

registo Foo
    a: int
    b: texto

fim


a: Foo = Foo(a: 0, c: ""0"")
#[output]: Erro: O registo 'Foo' não possui o atributo 'c'.
")] (txt "/repo/tests/test_cases/registo/bad_init_2.ama") [] 4000) (utf "").
Proof. vm_compute. repeat split. Qed.
Example t_registo_bad_init_3 : same_error (see [(txt "/repo/tests/test_cases/registo/bad_init_3.ama", utf "
#All field must be set in initializer
registo Foo
    a: int
    b: texto

fim


a: Foo = Foo(a: 0, b: ""hello"", c: 0)
#[output]: Erro: número incorrecto de argumentos para o inicializador do registo 'Foo'. Esperava 2 argumento(s), porém recebeu 3.
")] (txt "/repo/tests/test_cases/registo/bad_init_3.ama") [] 4000) (utf "").
Proof. vm_compute. repeat split. Qed.
Example t_registo_bad_init_4 : same_error (see [(txt "/repo/tests/test_cases/registo/bad_init_4.ama", utf "

#All field must be set in initializer
registo Foo
    a: int
    b: texto

fim


a: Foo = Foo(a: 0, a: ""hello"")
#[output]: Erro: O atributo 'a' já foi inicializado.
")] (txt "/repo/tests/test_cases/registo/bad_init_4.ama") [] 4000) (utf "").
Proof. vm_compute. repeat split. Qed.
Example t_registo_bad_init_5 : same_error (see [(txt "/repo/tests/test_cases/registo/bad_init_5.ama", utf "#Type of arg must match type of attribute
registo Foo
    a: int
    b: texto

fim

a: Foo = Foo(a: 0, b: 1)
#[output]: Erro: argumento nomeado inválido. incompatibilidade de tipos entre o valor do argumento nomeado 'b' e o atributo do registo. 'int' incompatível com 'texto'.
")] (txt "/repo/tests/test_cases/registo/bad_init_5.ama") [] 4000) (utf "").
Proof. vm_compute. repeat split. Qed.
Example t_registo_normal_registo : same_output (see [(txt "/repo/tests/test_cases/registo/normal_registo.ama", utf "registo Mensagem
    sender: texto
    to: texto
    corpo: texto
fim


msg: Mensagem = Mensagem(
    sender: ""Marco"", 
    to: ""Atila"", 
    corpo: ""Tá pico ya""
)


escrevaln(msg.sender)
escrevaln(msg.to)
escrevaln(msg.corpo)

msg.sender = ""sender""
escrevaln(msg.sender)

# Nested record
registo WrappedMessage
    msg: Mensagem
fim

wrap_msg: WrappedMessage = WrappedMessage(msg: msg)


wrap_msg.msg.sender = ""stacks""
wrap_msg.msg.to = ""me""

escrevaln(wrap_msg.msg.sender)
escrevaln(wrap_msg.msg.to)
escrevaln(msg.sender)
escrevaln(msg.to)

#Test having field of type Vec
registo Lottery
    numbers: [int]
fim

loto : Lottery =  Lottery(numbers: [int: 9, 8])
escrevaln(loto.numbers)

#Test passing registo as function args
func add_number(loto: Lottery)
    anexa(loto.numbers, 8)
fim

add_number(loto)
escrevaln(loto.numbers)

#Test a vec of registos

lotos: [Lottery] = [Lottery: loto, Lottery(numbers: [int: 1, 2])]
escrevaln(lotos[0].numbers)
escrevaln(lotos[1].numbers)

#[output]: Marco Atila Tá pico ya sender stacks me stacks me [9, 8] [9, 8, 8] [9, 8, 8] [1, 2]
")] (txt "/repo/tests/test_cases/registo/normal_registo.ama") [] 4000) (utf "Marco Atila Tá pico ya sender stacks me stacks me [9, 8] [9, 8, 8] [9, 8, 8] [1, 2]").
Proof. vm_compute. repeat split. Qed.
Example t_registo_registo_match : same_error (see [(txt "/repo/tests/test_cases/registo/registo_match.ama", utf "registo Foo
fim


registo Bar
fim


foo: Foo = Bar()
#[output]: Erro: atribuição inválida. incompatibilidade entre os operandos da atribuição: 'Foo' e 'Bar'.
")] (txt "/repo/tests/test_cases/registo/registo_match.ama") [] 4000) (utf "").
Proof. vm_compute. repeat split. Qed.
Example t_registo_registo_must_be_initialized : same_error (see [(txt "/repo/tests/test_cases/registo/registo_must_be_initialized.ama", utf "registo Foo
    baz: int
fim


bar: Foo



#[output]: Erro: Erro de inicialização. Variáveis de tipos não primitivos devem ser inicializadas.
")] (txt "/repo/tests/test_cases/registo/registo_must_be_initialized.ama") [] 4000) (utf "").
Proof. vm_compute. repeat split. Qed.
Example t_registo_repeated_field : same_error (see [(txt "/repo/tests/test_cases/registo/repeated_field.ama", utf "registo Foo
    a: int
    b: int
    a: int
fim
#[output]: Erro: O atributo 'a' já foi declarado neste registo.
")] (txt "/repo/tests/test_cases/registo/repeated_field.ama") [] 4000) (utf "").
Proof. vm_compute. repeat split. Qed.
Example t_registo_self_referential_registo : same_output (see [(txt "/repo/tests/test_cases/registo/self_referential_registo.ama", utf "registo No
    valor : int
    proximo : No?
fim


registo ListaLigada
    cabeca : No?
fim


met ListaLigada::ad_no(alvo, valor : int)
    novo : No = No(
        valor: valor, 
        proximo: nulo
    )

    se alvo.cabeca == nulo entao
        alvo.cabeca = novo
    senao
        ultimo : No = alvo.cabeca.valor
        enquanto ultimo.proximo != nulo faca
            ultimo = ultimo.proximo.valor
        fim
        ultimo.proximo = novo
    fim
fim

met ListaLigada::imprimir(alvo)
    node : No? = alvo.cabeca
    enquanto node != nulo faca
        escrevaln(node.valor.valor)
        node = node.valor.proximo
    fim
fim

l : ListaLigada = ListaLigada(cabeca: nulo)
l.ad_no(1)
l.ad_no(2)
l.ad_no(3)
l.imprimir()
#[output]: 1 2 3
")] (txt "/repo/tests/test_cases/registo/self_referential_registo.ama") [] 4000) (utf "1 2 3").
Proof. vm_compute. repeat split. Qed.
Example t_set_complex_set : same_output (see [(txt "/repo/tests/test_cases/set/complex_set.ama", utf "registo Bar
    x: texto
fim

registo Foo
    bar: Bar
fim



foo: Foo = Foo(
    bar: Bar(
        x: ""good""
    )
)

escrevaln(foo.bar.x)
foo.bar.x = ""changed""
escrevaln(foo.bar.x)
#[output]: good changed
")] (txt "/repo/tests/test_cases/set/complex_set.ama") [] 4000) (utf "good changed").
Proof. vm_compute. repeat split. Qed.
Example t_set_invalid_set : same_error (see [(txt "/repo/tests/test_cases/set/invalid_set.ama", utf "
registo Foo
    sender: texto
    to: texto
    corpo: texto
fim


msg: Foo = Foo(sender: ""hello"", to: ""world"", corpo: ""am"") 
msg.sender = 0
#[output]:Erro: atribuição inválida. incompatibilidade entre os operandos da atribuição: 'texto' e 'int'.
")] (txt "/repo/tests/test_cases/set/invalid_set.ama") [] 4000) (utf "").
Proof. vm_compute. repeat split. Qed.
Example t_set_set : same_output (see [(txt "/repo/tests/test_cases/set/set.ama", utf "registo Mensagem
    sender: texto
    to: texto
    corpo: texto
fim


msg: Mensagem = Mensagem(
    sender: ""Marco"", 
    to: ""Atila"", 
    corpo: ""Tá pico ya""
)
escrevaln(msg.sender)

msg.sender = ""Kiole""
escrevaln(msg.sender)
#[output]: Marco Kiole
")] (txt "/repo/tests/test_cases/set/set.ama") [] 4000) (utf "Marco Kiole").
Proof. vm_compute. repeat split. Qed.
Example t_methods_bad_met_call : same_error (see [(txt "/repo/tests/test_cases/methods/bad_met_call.ama", utf "registo Mensagem
    sender: texto
    to: texto
    corpo: texto
fim


msg: Mensagem = Mensagem(
    sender: ""Marco"", 
    to: ""Atila"", 
    corpo: ""Tá pico ya""
)


met Mensagem::enviar(alvo, a: int)
    escrevaln(alvo.sender)
fim


msg.enviar()
#[output]: Erro: número incorrecto de argumentos para o método Mensagem::enviar. Esperava 1 argumento(s), porém recebeu 0.
")] (txt "/repo/tests/test_cases/methods/bad_met_call.ama") [] 4000) (utf "").
Proof. vm_compute. repeat split. Qed.
Example t_methods_bad_met_type : same_error (see [(txt "/repo/tests/test_cases/methods/bad_met_type.ama", utf "
met Mensagem::enviar(alvo)
    escrevaln(alvo.sender)
fim
#[output]: Erro: o tipo 'Mensagem' não foi declarado.
")] (txt "/repo/tests/test_cases/methods/bad_met_type.ama") [] 4000) (utf "").
Proof. vm_compute. repeat split. Qed.
Example t_methods_local_met : same_error (see [(txt "/repo/tests/test_cases/methods/local_met.ama", utf "
registo Mensagem
    sender: texto
    to: texto
    corpo: texto
fim


func foo()
    met Mensagem::enviar(alvo)
        escrevaln(alvo.sender)
        

    fim
fim

msg.enviar()
#[output]: Erro: Métodos só podem ser declarados no escopo global.
")] (txt "/repo/tests/test_cases/methods/local_met.ama") [] 4000) (utf "").
Proof. vm_compute. repeat split. Qed.
Example t_methods_met : same_output (see [(txt "/repo/tests/test_cases/methods/met.ama", utf "registo Mensagem
    sender: texto
    to: texto
    corpo: texto
fim


msg: Mensagem = Mensagem(
    sender: ""Marco"", 
    to: ""Atila"", 
    corpo: ""Tá pico ya""
)


escrevaln(msg.sender)
escrevaln(msg.to)
escrevaln(msg.corpo)

msg.sender = ""sender""
escrevaln(msg.sender)



met Mensagem::enviar(alvo)
    escrevaln(f""Mensagem de: {alvo.sender}"")
    escrevaln(f""Para: {alvo.to}"")
    escrevaln(f""----------------------"")
    escrevaln(alvo.corpo)
fim

met Mensagem::assinar(alvo, assinatura: texto)
    alvo.corpo = f""{alvo.corpo}\n{assinatura}""
    escrevaln(alvo.corpo)
fim

msg.enviar()
msg.assinar(""John paul"")


registo Wrapper
    wrapped: Mensagem
fim


wrapper: Wrapper = Wrapper(wrapped: msg)


wrapper.wrapped.assinar(""Wrapped"")

#[output]: Marco Atila Tá pico ya sender Mensagem de: sender Para: Atila ---------------------- Tá pico ya Tá pico ya John paul Tá pico ya John paul Wrapped
")] (txt "/repo/tests/test_cases/methods/met.ama") [] 4000) (utf "Marco Atila Tá pico ya sender Mensagem de: sender Para: Atila ---------------------- Tá pico ya Tá pico ya John paul Tá pico ya John paul Wrapped").
Proof. vm_compute. repeat split. Qed.
Example t_methods_met_redeclared_field : same_error (see [(txt "/repo/tests/test_cases/methods/met_redeclared_field.ama", utf "
registo Mensagem
    sender: texto
    to: texto
    corpo: texto
fim


msg: Mensagem = Mensagem(
    sender: ""Marco"", 
    to: ""Atila"", 
    corpo: ""Tá pico ya""
)


met Mensagem::corpo(alvo)
    escrevaln(alvo.sender)
fim



msg.enviar()
#[output]: Erro: A propriedade 'corpo' já foi definida no tipo 'Mensagem'.
")] (txt "/repo/tests/test_cases/methods/met_redeclared_field.ama") [] 4000) (utf "").
Proof. vm_compute. repeat split. Qed.
Example t_methods_method_on_builtin : same_output (see [(txt "/repo/tests/test_cases/methods/method_on_builtin.ama", utf "met texto::contem(alvo, agulha: texto): bool
    retorna txt_contem(alvo, agulha)
fim



escrevaln(""hello"".contem(""a""))
#[output]: falso
")] (txt "/repo/tests/test_cases/methods/method_on_builtin.ama") [] 4000) (utf "falso").
Proof. vm_compute. repeat split. Qed.
Example t_methods_no_ret_met : same_error (see [(txt "/repo/tests/test_cases/methods/no_ret_met.ama", utf "
registo Mensagem
    sender: texto
    to: texto
    corpo: texto
fim


msg: Mensagem = Mensagem(
    sender: ""Marco"", 
    to: ""Atila"", 
    corpo: ""Tá pico ya""
)


escrevaln(msg.sender)
escrevaln(msg.to)
escrevaln(msg.corpo)

msg.sender = ""sender""
escrevaln(msg.sender)





met Mensagem::enviar(alvo): int
    escrevaln(alvo.sender)
fim


msg.enviar()
#[output]: Erro: O método 'enviar' do tipo 'Mensagem' não possui a instrução 'retorna'.
")] (txt "/repo/tests/test_cases/methods/no_ret_met.ama") [] 4000) (utf "").
Proof. vm_compute. repeat split. Qed.
Example t_methods_redeclare_met : same_error (see [(txt "/repo/tests/test_cases/methods/redeclare_met.ama", utf "
registo Mensagem
    sender: texto
    to: texto
    corpo: texto
fim


met Mensagem::enviar(alvo)
    escrevaln(alvo.sender)
fim

met Mensagem::enviar(alvo)
    escrevaln(alvo.sender)
fim

msg.enviar()
#[output]: Erro: O método 'enviar' do tipo 'Mensagem' já foi declarado anteriormente.
")] (txt "/repo/tests/test_cases/methods/redeclare_met.ama") [] 4000) (utf "").
Proof. vm_compute. repeat split. Qed.
Example t_nulo_erro_talvez : same_error (see [(txt "/repo/tests/test_cases/nulo/erro_talvez.ama", utf "a: int? = 0
b: int = 1
a + b 
#[output]: Erro: os tipos 'int?' e 'int' não suportam operações com o operador '+'.
")] (txt "/repo/tests/test_cases/nulo/erro_talvez.ama") [] 4000) (utf "").
Proof. vm_compute. repeat split. Qed.
Example t_nulo_invalid_nulo_op : same_error (see [(txt "/repo/tests/test_cases/nulo/invalid_nulo_op.ama", utf "mostra nulo < nulo

#[output]:Erro: os tipos 'nulo' e 'nulo' não suportam operações com o operador '<'.
")] (txt "/repo/tests/test_cases/nulo/invalid_nulo_op.ama") [] 4000) (utf "").
Proof. vm_compute. repeat split. Qed.
Example t_nulo_null_ref : same_stop 7 (see [(txt "/repo/tests/test_cases/nulo/null_ref.ama", utf "registo A
    head : int
fim


a : A? = nulo
mostra a.valor.head

#[output]: Erro na linha 7: Não pode aceder uma referência nula.
")] (txt "/repo/tests/test_cases/nulo/null_ref.ama") [] 4000) (utf "").
Proof. vm_compute. repeat split. Qed.
Example t_nulo_null_set : same_stop 7 (see [(txt "/repo/tests/test_cases/nulo/null_set.ama", utf "
registo A
    head : int
fim

a : A? = nulo
a.valor.head = 1

#[output]:Erro na linha 7: Não pode aceder uma referência nula.
")] (txt "/repo/tests/test_cases/nulo/null_set.ama") [] 4000) (utf "").
Proof. vm_compute. repeat split. Qed.
Example t_nulo_null_test : same_output (see [(txt "/repo/tests/test_cases/nulo/null_test.ama", utf "registo A
fim

a : A? = nulo
mostra a
mostra a == nulo
mostra nulo == nulo
mostra nulo != nulo

#[output]:nulo verdadeiro verdadeiro falso
")] (txt "/repo/tests/test_cases/nulo/null_test.ama") [] 4000) (utf "nulo verdadeiro verdadeiro falso").
Proof. vm_compute. repeat split. Qed.
Example t_nulo_teste_null_check : same_output (see [(txt "/repo/tests/test_cases/nulo/teste_null_check.ama", utf "a: int? = 1
mostra nulo == nulo
mostra a == nulo
mostra a != nulo
#[output]: verdadeiro falso verdadeiro
")] (txt "/repo/tests/test_cases/nulo/teste_null_check.ama") [] 4000) (utf "verdadeiro falso verdadeiro").
Proof. vm_compute. repeat split. Qed.
Example t_nulo_teste_opcao : same_output (see [(txt "/repo/tests/test_cases/nulo/teste_opcao.ama", utf "a: int? = 0
b: int = 1

#To get the value, .valor field must be used
a1: int = a.valor # If a were 'nulo', then the runtime would have stopped.

escrevaln(a1 + b)

a = nulo

# You can also specify a default value in case value is nulo 
c: int = a.valor_ou(0) # if a is nulo, c will be 0, otherwise c will be the non null value wrapped in a.

escrevaln(c)

#[output]: 1 0
")] (txt "/repo/tests/test_cases/nulo/teste_opcao.ama") [] 4000) (utf "1 0").
Proof. vm_compute. repeat split. Qed.
Example t_usa_crazy_imp : same_error (see [(txt "/repo/tests/test_cases/usa/crazy_imp.ama", utf "usa ""tests/test_data/crazy_imp_2""

foo()
#[output]:Erro: Erro ao importar o módulo '/home/stacks/files/personal/Projects/amanda/tests/test_data/crazy_imp_2.ama'. Inclusão cíclica detectada.
"); (txt "/repo/tests/test_data/crazy_imp_2.ama", utf "usa ""./tests/test_data/crazy_imp_3""

func foo() fim
")] (txt "/repo/tests/test_cases/usa/crazy_imp.ama") [] 4000) (utf "").
Proof. vm_compute. repeat split. Qed.
Example t_usa_scoped_usa_registo : same_output (see [(txt "/repo/tests/test_cases/usa/scoped_usa_registo.ama", utf "usa ""tests/test_data/bar"" => bar

reg: bar.Bar = bar.Bar()
reg.bar()

reg2: bar.Bar? = nulo
escrevaln(reg2)
#[output]: bar nulo
"); (txt "/repo/tests/test_data/bar.ama", utf "func bar()
    mostra ""bar""
fim

registo Bar 

fim

met Bar::bar(alvo)
    escrevaln(""bar"")
fim
")] (txt "/repo/tests/test_cases/usa/scoped_usa_registo.ama") [] 4000) (utf "bar nulo").
Proof. vm_compute. repeat split. Qed.
Example t_usa_self_import : same_error (see [(txt "/repo/tests/test_cases/usa/self_import.ama", utf "usa ""./tests/test_cases/usa/self_import.ama""
#[output]:Erro: Erro ao importar o módulo '/home/stacks/files/personal/Projects/amanda/tests/test_cases/usa/self_import.ama'. Inclusão cíclica detectada.
")] (txt "/repo/tests/test_cases/usa/self_import.ama") [] 4000) (utf "").
Proof. vm_compute. repeat split. Qed.
Example t_usa_usa : same_output (see [(txt "/repo/tests/test_cases/usa/usa.ama", utf "usa ""tests/test_data/bar""
usa ""tests/test_data/baz"" 

baz()
bar()
#[output]:baz bar
"); (txt "/repo/tests/test_data/bar.ama", utf "func bar()
    mostra ""bar""
fim

registo Bar 

fim

met Bar::bar(alvo)
    escrevaln(""bar"")
fim
"); (txt "/repo/tests/test_data/baz.ama", utf "func baz()
    escrevaln(""baz"")
fim


func ehlo()
fim
")] (txt "/repo/tests/test_cases/usa/usa.ama") [] 4000) (utf "baz bar").
Proof. vm_compute. repeat split. Qed.
Example t_usa_usa_access_mod_state : same_error (see [(txt "/repo/tests/test_cases/usa/usa_access_mod_state.ama", utf "usa ""tests/test_data/stateful_mod"" => stateful_mod


stateful_mod.state = 0
#[output]: Erro: Atribuição inválida. As variáveis globais de um módulo importado não podem ser modificadas externamente.
"); (txt "/repo/tests/test_data/stateful_mod.ama", utf "state: int = 0

func incrementa()
    state += 1
fim
")] (txt "/repo/tests/test_cases/usa/usa_access_mod_state.ama") [] 4000) (utf "").
Proof. vm_compute. repeat split. Qed.
Example t_usa_usa_access_mod_state_change_state : same_output (see [(txt "/repo/tests/test_cases/usa/usa_access_mod_state_change_state.ama", utf "usa ""tests/test_data/stateful_mod"" => stateful_mod



escrevaln(stateful_mod.state)
stateful_mod.incrementa()
escrevaln(stateful_mod.state)
#[output]: 0 1
"); (txt "/repo/tests/test_data/stateful_mod.ama", utf "state: int = 0

func incrementa()
    state += 1
fim
")] (txt "/repo/tests/test_cases/usa/usa_access_mod_state_change_state.ama") [] 4000) (utf "0 1").
Proof. vm_compute. repeat split. Qed.
Example t_usa_usa_access_mod_state_not_scoped : same_error (see [(txt "/repo/tests/test_cases/usa/usa_access_mod_state_not_scoped.ama", utf "usa ""tests/test_data/stateful_mod""
#usa ""tests/test_data/stateful_mod"" => stateful_mod

state = 1
escrevaln(state)

#[output]: Erro: Atribuição inválida. As variáveis globais de um módulo importado não podem ser modificadas externamente.
"); (txt "/repo/tests/test_data/stateful_mod.ama", utf "state: int = 0

func incrementa()
    state += 1
fim
")] (txt "/repo/tests/test_cases/usa/usa_access_mod_state_not_scoped.ama") [] 4000) (utf "").
Proof. vm_compute. repeat split. Qed.
Example t_usa_usa_already_imported : same_error (see [(txt "/repo/std/embutidos.ama", utf "# Este módulo contém as declarações de funções que já vêm com a linguagem
# E estão disponíveis em todos os programas
@@embutido(nome = ""embutidos"")


# Funções de entrada functions
@embutido
func leia(mensagem: texto): texto fim
@embutido
func leia_int(mensagem: texto): int fim
@embutido
func leia_real(mensagem: texto): real fim


# Funções de saída
@embutido
func escreva(item: indef) fim
@embutido
func escrevaln(item: indef) fim

# Para colecções
@embutido
func vec(tipo: indef, tam: int): indef fim
@embutido
func tam(seq: indef): int fim
@embutido
func anexa(vec: indef, valor: indef) fim
@embutido
func remova(vec: indef, indice: int): indef fim


# 'Metaprogramação'
#func nativa tipo(objecto: indef):texto

# Funções para trabalhar com texto
@embutido
func txt_contem(palheiro: texto, agulha: texto): bool fim

@embutido(item = ""Opcao"")
registo Opcao[T]
   valor: T
fim

@embutido
met[T] Opcao[T]::valor_ou(alvo, padrao: T): T fim

"); (txt "/repo/tests/test_cases/usa/usa_already_imported.ama", utf "usa ""embutidos"" => escrevaln

escrevaln(""Hello world!"")

#[output]: Erro: O identificador 'escrevaln' já foi declarado neste escopo.
")] (txt "/repo/tests/test_cases/usa/usa_already_imported.ama") [] 4000) (utf "").
Proof. vm_compute. repeat split. Qed.
Example t_usa_usa_item_not_exists : same_error (see [(txt "/repo/std/mat.ama", utf "# Este módulo contém de funções matemáticas essenciais
@@embutido(nome = ""mat"")


#Funções e constantes matemáticas
PI: real
@embutido func abs(valor: real): real fim
@embutido func expoente(x: real, y: real): real fim
@embutido func raizqd(valor: real): real fim
@embutido func arredonda(valor: real): int fim
@embutido func piso(valor: real): int fim
@embutido func teto(valor: real): int fim
@embutido func sen(valor: real): real fim
@embutido func cos(valor: real): real fim
@embutido func tan(valor: real): real fim
@embutido func log(valor: real, base: real): real fim
@embutido func grausprad(valor: real): real fim
@embutido func radpgraus(valor: real): real fim
"); (txt "/repo/tests/test_cases/usa/usa_item_not_exists.ama", utf "#Importa 'abs' e 'raiz' do módulo 'std/mat'
usa ""mat"" => [abs, raizqd, hkk]

escrevaln(abs(-1))
escrevaln(raizqd(4))

#[output]: Erro: Erro ao importar módulo. O item 'hkk' não foi declarado no módulo '/home/stacks/files/personal/Projects/amanda/std/mat.ama'.
")] (txt "/repo/tests/test_cases/usa/usa_item_not_exists.ama") [] 4000) (utf "").
Proof. vm_compute. repeat split. Qed.
Example t_usa_usa_item_redeclare : same_error (see [(txt "/repo/tests/test_cases/usa/usa_item_redeclare.ama", utf "usa ""tests/test_data/bar_baz"" => [ehlo]
usa ""tests/test_data/baz"" => [ehlo]

#[output]: Erro: O identificador 'ehlo' já foi declarado neste escopo.
"); (txt "/repo/tests/test_data/bar_baz.ama", utf "func baz()
    escrevaln(""baz"")
fim

func bar()
    escrevaln(""bar"")
fim

func ehlo()

fim
"); (txt "/repo/tests/test_data/baz.ama", utf "func baz()
    escrevaln(""baz"")
fim


func ehlo()
fim
")] (txt "/repo/tests/test_cases/usa/usa_item_redeclare.ama") [] 4000) (utf "").
Proof. vm_compute. repeat split. Qed.
Example t_usa_usa_methods : same_output (see [(txt "/repo/std/mat.ama", utf "# Este módulo contém de funções matemáticas essenciais
@@embutido(nome = ""mat"")


#Funções e constantes matemáticas
PI: real
@embutido func abs(valor: real): real fim
@embutido func expoente(x: real, y: real): real fim
@embutido func raizqd(valor: real): real fim
@embutido func arredonda(valor: real): int fim
@embutido func piso(valor: real): int fim
@embutido func teto(valor: real): int fim
@embutido func sen(valor: real): real fim
@embutido func cos(valor: real): real fim
@embutido func tan(valor: real): real fim
@embutido func log(valor: real, base: real): real fim
@embutido func grausprad(valor: real): real fim
@embutido func radpgraus(valor: real): real fim
"); (txt "/repo/tests/test_cases/usa/usa_methods.ama", utf "
usa ""tests/test_data/int_met""

escrevaln(4.exp(2))
#[output]: 16
"); (txt "/repo/tests/test_data/int_met.ama", utf "usa 'mat'

met int::exp(alvo, exp: int): int
    retorna expoente(alvo, exp):>int
fim
")] (txt "/repo/tests/test_cases/usa/usa_methods.ama") [] 4000) (utf "16").
Proof. vm_compute. repeat split. Qed.
Example t_usa_usa_multiple : same_output (see [(txt "/repo/std/mat.ama", utf "# Este módulo contém de funções matemáticas essenciais
@@embutido(nome = ""mat"")


#Funções e constantes matemáticas
PI: real
@embutido func abs(valor: real): real fim
@embutido func expoente(x: real, y: real): real fim
@embutido func raizqd(valor: real): real fim
@embutido func arredonda(valor: real): int fim
@embutido func piso(valor: real): int fim
@embutido func teto(valor: real): int fim
@embutido func sen(valor: real): real fim
@embutido func cos(valor: real): real fim
@embutido func tan(valor: real): real fim
@embutido func log(valor: real, base: real): real fim
@embutido func grausprad(valor: real): real fim
@embutido func radpgraus(valor: real): real fim
"); (txt "/repo/tests/test_cases/usa/usa_multiple.ama", utf "#Importa 'abs' e 'raiz' do módulo 'std/mat'
usa ""mat"" => [abs, raizqd]

escrevaln(abs(-1))
escrevaln(raizqd(4))

#[output]:1.0 2.0
")] (txt "/repo/tests/test_cases/usa/usa_multiple.ama") [] 4000) (utf "1.0 2.0").
Proof. vm_compute. repeat split. Qed.
Example t_usa_usa_registo : same_output (see [(txt "/repo/tests/test_cases/usa/usa_registo.ama", utf "usa ""tests/test_data/bar""

reg: Bar = Bar()
reg.bar()
#[output]:bar
"); (txt "/repo/tests/test_data/bar.ama", utf "func bar()
    mostra ""bar""
fim

registo Bar 

fim

met Bar::bar(alvo)
    escrevaln(""bar"")
fim
")] (txt "/repo/tests/test_cases/usa/usa_registo.ama") [] 4000) (utf "bar").
Proof. vm_compute. repeat split. Qed.
Example t_usa_usa_scoped : same_output (see [(txt "/repo/tests/test_cases/usa/usa_scoped.ama", utf "#Imports all the definitions in a the std/mat.ama
#file and makes them available through the 'mat'
usa ""tests/test_data/baz"" => baz

baz.baz()
#[output]: baz
"); (txt "/repo/tests/test_data/baz.ama", utf "func baz()
    escrevaln(""baz"")
fim


func ehlo()
fim
")] (txt "/repo/tests/test_cases/usa/usa_scoped.ama") [] 4000) (utf "baz").
Proof. vm_compute. repeat split. Qed.
Example t_usa_usa_scoped_methods : same_output (see [(txt "/repo/std/mat.ama", utf "# Este módulo contém de funções matemáticas essenciais
@@embutido(nome = ""mat"")


#Funções e constantes matemáticas
PI: real
@embutido func abs(valor: real): real fim
@embutido func expoente(x: real, y: real): real fim
@embutido func raizqd(valor: real): real fim
@embutido func arredonda(valor: real): int fim
@embutido func piso(valor: real): int fim
@embutido func teto(valor: real): int fim
@embutido func sen(valor: real): real fim
@embutido func cos(valor: real): real fim
@embutido func tan(valor: real): real fim
@embutido func log(valor: real, base: real): real fim
@embutido func grausprad(valor: real): real fim
@embutido func radpgraus(valor: real): real fim
"); (txt "/repo/tests/test_cases/usa/usa_scoped_methods.ama", utf "usa ""tests/test_data/int_met"" => int_met

escrevaln(4.exp(2))
#[output]: 16
"); (txt "/repo/tests/test_data/int_met.ama", utf "usa 'mat'

met int::exp(alvo, exp: int): int
    retorna expoente(alvo, exp):>int
fim
")] (txt "/repo/tests/test_cases/usa/usa_scoped_methods.ama") [] 4000) (utf "16").
Proof. vm_compute. repeat split. Qed.
Example t_annotations_bad_mod_annotation : same_error (see [(txt "/repo/tests/test_cases/annotations/bad_mod_annotation.ama", utf "@@embutido(nome = ""bad_builtin"")





#[output]: Erro: Anotação inválida. Apenas módulos nativos podem conter a anotação 'embutido'.
")] (txt "/repo/tests/test_cases/annotations/bad_mod_annotation.ama") [] 4000) (utf "").
Proof. vm_compute. repeat split. Qed.
Example t_uniao_simple_uniao : same_output (see [(txt "/repo/tests/test_cases/uniao/simple_uniao.ama", utf "uniao Resposta
    Sim,
    Nao, 
    Talvez, 
    Justificada(texto), 
    MultiplaEscolha(texto, texto)
fim  


met Resposta::e_sim(alvo): bool 
    retorna iguala alvo 
        Resposta::Sim => verdadeiro
        _ => falso
    fim
fim

r1: Resposta = Resposta::Sim
r2: Resposta = Resposta::Justificada(""because yes!"")



escrevaln(r1)
escrevaln(r2)
escrevaln(r1.e_sim())
escrevaln(r2.e_sim())
#[output]:<Variante(0)> <Variante(3)> verdadeiro falso
")] (txt "/repo/tests/test_cases/uniao/simple_uniao.ama") [] 4000) (utf "<Variante(0)> <Variante(3)> verdadeiro falso").
Proof. vm_compute. repeat split. Qed.
Example t_uniao_uniao_variant_arg_type_mismatch : same_error (see [(txt "/repo/tests/test_cases/uniao/uniao_variant_arg_type_mismatch.ama", utf "uniao Resposta
    Sim,
    Nao, 
    Talvez, 
    Justificada(texto)
fim  

r1: Resposta = Resposta::Justificada(1)
escrevaln(r1)
#[output]: Erro: erro no argumento 1. Esperava-se um argumento do tipo 'texto' mas recebeu o tipo 'int'.
")] (txt "/repo/tests/test_cases/uniao/uniao_variant_arg_type_mismatch.ama") [] 4000) (utf "").
Proof. vm_compute. repeat split. Qed.
Example t_uniao_uniao_variant_arity_err : same_error (see [(txt "/repo/tests/test_cases/uniao/uniao_variant_arity_err.ama", utf "uniao Resposta
    Sim,
    Nao, 
    Talvez, 
    Justificada(texto)
fim  

r1: Resposta = Resposta::Justificada()
escrevaln(r1)
#[output]: Erro: número incorrecto de argumentos para o constructor da Variante 'Resposta::Justificada'. Esperava 1 argumento(s), porém recebeu 0.
")] (txt "/repo/tests/test_cases/uniao/uniao_variant_arity_err.ama") [] 4000) (utf "").
Proof. vm_compute. repeat split. Qed.
Example t_uniao_uniao_variant_redecl : same_error (see [(txt "/repo/tests/test_cases/uniao/uniao_variant_redecl.ama", utf "uniao Resposta
    Sim,
    Nao, 
    Talvez, 
    Nao
fim  

#[output]: Erro: A variante 'Nao' já foi declarada anteriormente na união 'Resposta'.
")] (txt "/repo/tests/test_cases/uniao/uniao_variant_redecl.ama") [] 4000) (utf "").
Proof. vm_compute. repeat split. Qed.
Example t_uniao_uniao_variant_without_args_err : same_error (see [(txt "/repo/tests/test_cases/uniao/uniao_variant_without_args_err.ama", utf "uniao Resposta
    Sim,
    Nao, 
    Talvez, 
    Justificada(texto)
fim  

r1: Resposta = Resposta::Justificada
escrevaln(r1)
#[output]: Erro: A variante 'Justificada' da união 'Resposta' deve ser inicializada com os devidos argumentos.
")] (txt "/repo/tests/test_cases/uniao/uniao_variant_without_args_err.ama") [] 4000) (utf "").
Proof. vm_compute. repeat split. Qed.
Example t_iguala_binding_already_in_use : same_error (see [(txt "/repo/tests/test_cases/iguala/binding_already_in_use.ama", utf "
uniao Resposta
    Sim,
    Nao, 
    Talvez, 
    Justificada(texto),
    DuplaEscolha(texto, texto)
fim  

r1: Resposta = Resposta::Nao

iguala r1
    Resposta::Nao => verdadeiro, 
    Resposta::DuplaEscolha(arg1, arg1) => verdadeiro,
    _ => falso
fim

#[output]: Erro: Padrão inválido. A variável 'arg1' já foi utilizada neste padrão.
")] (txt "/repo/tests/test_cases/iguala/binding_already_in_use.ama") [] 4000) (utf "").
Proof. vm_compute. repeat split. Qed.
Example t_iguala_iguala_binding : same_output (see [(txt "/repo/tests/test_cases/iguala/iguala_binding.ama", utf "uniao Resposta
    Sim,
    Nao, 
    Talvez, 
    Justificada(texto), 
    MultiplaEscolha(texto, texto)
fim  



met Resposta::respostas_compostas(alvo): [texto]
    retorna iguala alvo
        Resposta::MultiplaEscolha(r1, r2) => [texto: r1, r2], 
        Resposta::Justificada(r) => [texto: r]
        _ => [texto: ]
    fim
fim

r1: Resposta = Resposta::MultiplaEscolha(""a"", ""b"")
r2: Resposta = Resposta::Justificada(""because yes!"")



escrevaln(r1.respostas_compostas())
escrevaln(r2.respostas_compostas())
#[output]: [a, b] [because yes!]
")] (txt "/repo/tests/test_cases/iguala/iguala_binding.ama") [] 4000) (utf "[a, b] [because yes!]").
Proof. vm_compute. repeat split. Qed.
Example t_iguala_iguala_block_bad_return_ty : same_error (see [(txt "/repo/tests/test_cases/iguala/iguala_block_bad_return_ty.ama", utf "uniao Resposta
    Sim,
    Nao, 
    Talvez, 
    Justificada(texto)
fim  

r1: Resposta = Resposta::Nao

iguala r1
    Resposta::Nao => verdadeiro, 
    _ => ""hello""
fim

#[output]: Erro: Retorno da alternativa iguala inválido. Esperava-se o tipo 'texto' mas o bloco retorna o tipo 'bool'.
")] (txt "/repo/tests/test_cases/iguala/iguala_block_bad_return_ty.ama") [] 4000) (utf "").
Proof. vm_compute. repeat split. Qed.
Example t_iguala_invalid_pattern_adt : same_error (see [(txt "/repo/tests/test_cases/iguala/invalid_pattern_adt.ama", utf "uniao Resposta
    Sim,
    Nao, 
    Talvez, 
    Justificada(texto)
fim  

r1: int = 0

iguala r1
    Resposta::Nao => verdadeiro, 
    _ => falso
fim

#[output]: Erro: Padrão inválido. Esperava-se um padrão do tipo 'int' mas utilizou-se um do tipo 'Resposta'.
")] (txt "/repo/tests/test_cases/iguala/invalid_pattern_adt.ama") [] 4000) (utf "").
Proof. vm_compute. repeat split. Qed.
Example t_iguala_invalid_pattern_int : same_error (see [(txt "/repo/tests/test_cases/iguala/invalid_pattern_int.ama", utf "uniao Resposta
    Sim,
    Nao, 
    Talvez, 
    Justificada(texto)
fim  

r1: Resposta = Resposta::Nao

iguala r1
    1 => verdadeiro, 
    _ => falso
fim

#[output]: Erro: Padrão inválido. Esperava-se um padrão do tipo 'Resposta' mas utilizou-se um do tipo 'int'.
")] (txt "/repo/tests/test_cases/iguala/invalid_pattern_int.ama") [] 4000) (utf "").
Proof. vm_compute. repeat split. Qed.
Example t_iguala_non_exhaustive_pattern_match_finite : same_error (see [(txt "/repo/tests/test_cases/iguala/non_exhaustive_pattern_match_finite.ama", utf "uniao Resposta
    Sim,
    Nao, 
    Talvez, 
    Justificada(texto)
fim  

r1: Resposta = Resposta::Nao

iguala r1
    Resposta::Nao => verdadeiro
fim

#[output]: Erro: A instrução iguala deve especificar alternativas para todos os valores possíveis do tipo 'Resposta'. Padrões em falta:  * Resposta::Justificada(_) => ...  * Resposta::Sim => ...  * Resposta::Talvez => ... .
")] (txt "/repo/tests/test_cases/iguala/non_exhaustive_pattern_match_finite.ama") [] 4000) (utf "").
Proof. vm_compute. repeat split. Qed.
Example t_iguala_non_exhaustive_pattern_match_infinite : same_error (see [(txt "/repo/tests/test_cases/iguala/non_exhaustive_pattern_match_infinite.ama", utf "uniao Resposta
    Sim,
    Nao, 
    Talvez, 
    Justificada(texto)
fim  

r1: int = 2

iguala r1
    1 => verdadeiro
fim

#[output]: Erro: A instrução iguala deve especificar uma alternativa genérica para o caso das outras alternativas falharem. Padrão em falta:   * _ => ....
")] (txt "/repo/tests/test_cases/iguala/non_exhaustive_pattern_match_infinite.ama") [] 4000) (utf "").
Proof. vm_compute. repeat split. Qed.
Example t_iguala_se_iguala_invalid_pattern : same_error (see [(txt "/repo/tests/test_cases/iguala/se_iguala_invalid_pattern.ama", utf "uniao Resposta
    Sim,
    Nao, 
    Talvez, 
    Justificada(texto), 
    MultiplaEscolha(texto, texto)
fim  



met Resposta::respostas_compostas(alvo): [texto]
    retorna iguala alvo
        Resposta::MultiplaEscolha(r1, r2) => [texto: r1, r2] , 
        Resposta::Justificada(r) => [texto: r], 
        _ => [texto: ]
    fim
fim


met Resposta::e_sim(alvo): bool
    se iguala alvo => 1 entao
        retorna verdadeiro
    senao
        retorna falso
    fim
fim


r1: Resposta = Resposta::MultiplaEscolha(""a"", ""b"")
r2: Resposta = Resposta::Justificada(""because yes!"")


escrevaln(r1.respostas_compostas())
escrevaln(r2.respostas_compostas())
escrevaln(r2.e_sim())
#[output]: Erro: Padrão inválido. Esperava-se um padrão do tipo 'Resposta' mas utilizou-se um do tipo 'int'.
")] (txt "/repo/tests/test_cases/iguala/se_iguala_invalid_pattern.ama") [] 4000) (utf "").
Proof. vm_compute. repeat split. Qed.
Example t_iguala_se_iguala_works : same_output (see [(txt "/repo/tests/test_cases/iguala/se_iguala_works.ama", utf "uniao Resposta
    Sim,
    Nao, 
    Talvez, 
    Justificada(texto), 
    MultiplaEscolha(texto, texto)
fim  



met Resposta::respostas_compostas(alvo): [texto]
    retorna iguala alvo
        Resposta::MultiplaEscolha(r1, r2) => [texto: r1, r2] , 
        Resposta::Justificada(r) => [texto: r], 
        _ => [texto: ]
    fim
fim


met Resposta::e_sim(alvo): bool
    se iguala alvo => Resposta::Sim entao
        retorna verdadeiro
    senao
        retorna falso
    fim
fim


r1: Resposta = Resposta::MultiplaEscolha(""a"", ""b"")
r2: Resposta = Resposta::Justificada(""because yes!"")


escrevaln(r1.respostas_compostas())
escrevaln(r2.respostas_compostas())
escrevaln(r2.e_sim())
escrevaln(Resposta::Sim.e_sim())
#[output]: [a, b] [because yes!] falso verdadeiro
")] (txt "/repo/tests/test_cases/iguala/se_iguala_works.ama") [] 4000) (utf "[a, b] [because yes!] falso verdadeiro").
Proof. vm_compute. repeat split. Qed.
Example t_iguala_variant_takes_no_args : same_error (see [(txt "/repo/tests/test_cases/iguala/variant_takes_no_args.ama", utf "uniao Resposta
    Sim,
    Nao, 
    Talvez, 
    Justificada(texto)
fim  

r1: Resposta = Resposta::Nao

iguala r1
    Resposta::Nao(arg1) => verdadeiro, 
    _ => falso
fim

#[output]: Erro: Padrão inválido. A variante 'Resposta::Nao' não espera receber nenhum argumento.
")] (txt "/repo/tests/test_cases/iguala/variant_takes_no_args.ama") [] 4000) (utf "").
Proof. vm_compute. repeat split. Qed.
Example t_iguala_void_iguala_target : same_error (see [(txt "/repo/tests/test_cases/iguala/void_iguala_target.ama", utf "iguala escreva(""teste"")
    _ => falso
fim

#[output]: Erro: Funções sem retorno não podem ser usadas como o alvo da instrução 'iguala'.
")] (txt "/repo/tests/test_cases/iguala/void_iguala_target.ama") [] 4000) (utf "").
Proof. vm_compute. repeat split. Qed.
Example t_iguala_yield_and_return_at_the_same_time : same_error (see [(txt "/repo/tests/test_cases/iguala/yield_and_return_at_the_same_time.ama", utf "uniao Resposta
    Sim,
    Nao, 
    Talvez, 
    Justificada(texto), 
    MultiplaEscolha(texto, texto)
fim  



met Resposta::respostas_compostas(alvo): [texto]
    retorna iguala alvo
        Resposta::MultiplaEscolha(r1, r2) => faca 
            retorna [texto: ]
            produz [texto: r1, r2] 
        fim 
        Resposta::Justificada(r) => [texto: r], 
        _ => [texto: ]
    fim
fim

r1: Resposta = Resposta::MultiplaEscolha(""a"", ""b"")
r2: Resposta = Resposta::Justificada(""because yes!"")



escrevaln(r1.respostas_compostas())
escrevaln(r2.respostas_compostas())
#[output]: Erro: Um bloco não pode conter as instruções 'retorna' e 'produz' ao mesmo tempo.
")] (txt "/repo/tests/test_cases/iguala/yield_and_return_at_the_same_time.ama") [] 4000) (utf "").
Proof. vm_compute. repeat split. Qed.
