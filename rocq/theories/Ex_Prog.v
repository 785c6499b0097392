(** Concrete programs used to show that the theorems' hypotheses are met, and
    as witnesses of the refutations.  They are written as the trees semantic
    analysis produces for the source text quoted beside them. *)
From Verif Require Import Base Bson Float Opcode Value VM Ast CodeGen Compile Sem SemWf SemProg.

Definition e0 : ext := mkExt (fun _ => []) (fun _ => []) (fun _ _ => f_zero) f_zero false.
Definition emb_path : text := txt "embutidos.ama".
Definition main_path : text := txt "main.ama".
(** The module of built-in functions, always the first import. *)
Definition emb : amodule := mkAMod emb_path (txt "embutidos") true [] [].

Definition gvar (n : String.string) : sym := mkSym (txt n) (txt n) true main_path KVar.
Definition gfun (n : String.string) : sym := mkSym (txt n) (txt n) true main_path KFunc.
Definition lvar (n o : String.string) : sym := mkSym (txt n) (txt o) false main_path KVar.
Definition bfun (n : String.string) : sym := mkSym (txt n) (txt n) true emb_path KFunc.
Definition num (l : Z) (n : String.string) : node := NConst l KInt (txt n) false.
Definition var (l : Z) (s : sym) : node := NVar l (sy_name s) (Some s) false.
Definition bin (l : Z) (o : bop) (a b : node) : node := NBin l o false false a b false.
Definition set (l : Z) (s : sym) (e : node) : node := NAssign l (sy_name s) s e false.
Definition decl (l : Z) (s : sym) (ty : String.string) (e : node) : node := NVarDecl l (sy_name s) (txt ty) (Some (set l s e)).
Definition call (l : Z) (f : sym) (args : list node) : node := NCall l CFunction (var l f) args false.
Definition scope_of (l : list sym) : scope := map (fun s => (sy_name s, s)) l.
Definition program_of (syms : list sym) (body : list node) : amodule :=
  mkAMod main_path (txt "main") false (scope_of syms) body.

Definition out_of (o : outcome) : option text :=
  match o with Finished s | Failed _ _ s => Some (w_out (s_world s)) | _ => None end.

(** <<
1 func fat(n: int): int
2   se n <= 1 entao
3     retorna 1
4   fim
5   retorna n * fat(n - 1)
6 fim
7 i: int = 0
8 enquanto i < 5 faz
9   mostra fat(i)
10  i = i + 1
11 fim
12 para j de 0..3 faz
13  mostra j * i
14 fim
15 mostra 10 // (i - 5)
>> *)
Definition n_ := lvar "n" "_r10_".
Definition j_ := lvar "j" "_r11_".
Definition i_ := gvar "i".
Definition fat_ := gfun "fat".
Definition fat_decl : node :=
  NFunc 1 fat_ [(txt "n", n_)] false (NBlock (scope_of [n_])
    [ NSe 2 (bin 2 BLe (var 2 n_) (num 2 "1")) (NBlock [] [NRet 3 (Some (num 3 "1"))]) [] None;
      NRet 5 (Some (bin 5 BMul (var 5 n_) (call 5 fat_ [bin 5 BSub (var 5 n_) (num 5 "1")]))) ]).
Definition prog1_body (last : list node) : list node :=
  [ fat_decl; decl 7 i_ "int" (num 7 "0");
    NEnquanto 8 (bin 8 BLt (var 8 i_) (num 8 "5"))
      (NBlock [] [NMostra 9 (call 9 fat_ [var 9 i_]); set 10 i_ (bin 10 BAdd (var 10 i_) (num 10 "1"))]);
    NPara 12 (txt "j") (num 12 "0") (num 12 "3") None
      (NBlock (scope_of [j_]) [NMostra 13 (bin 13 BMul (var 13 j_) (var 13 i_))]) ] ++ last.
Definition prog1 : amodule :=
  program_of [fat_; i_] (prog1_body [NMostra 15 (bin 15 BFloorDiv (num 15 "10") (bin 15 BSub (var 15 i_) (num 15 "5")))]).

Definition built (main : amodule) (imports : list amodule) : option program :=
  match build emb_path main imports with PyOk (Some p) => Some p | _ => None end.
Definition run_main (main : amodule) (imports : list amodule) (fuel : nat) : option outcome :=
  option_map (fun P => run e0 P fuel []) (built main imports).
Definition checked (main : amodule) (imports : list amodule) : bool :=
  program_ok emb_path main imports && sizes_ok emb_path main imports &&
  match built main imports with Some _ => true | None => false end.

Example prog1_checked : checked prog1 [emb] = true.
Proof. vm_compute. reflexivity. Qed.
Example prog1_runs : match run_main prog1 [emb] 2000 with
  | Some (Failed e tr s) => w_out (s_world s) = txt "1" ++ [10%N] ++ txt "1" ++ [10%N] ++ txt "2" ++ [10%N] ++ txt "6" ++ [10%N] ++ txt "24" ++ [10%N] ++ txt "0" ++ [10%N] ++ txt "5" ++ [10%N] ++ txt "10" ++ [10%N] /\ map fst tr = [15%N]
  | _ => False end.
Proof. vm_compute. auto. Qed.

(** <<
1 para j de 0..3 inc 1 faz
2   mostra 10 // j
3 fim
>> *)
Definition prog_inc : amodule := program_of []
  [NPara 1 (txt "j") (num 1 "0") (num 1 "3") (Some (num 1 "1"))
     (NBlock (scope_of [j_]) [NMostra 2 (bin 2 BFloorDiv (num 2 "10") (var 2 j_))])].

(** lib.ama: <<
1 func g(): int
2   retorna 10 // 0
3 fim
>> main.ama: <<
1 usa "lib"
2 mostra 1
3 mostra 2
4 mostra g()
>> *)
Definition lib_path : text := txt "lib.ama".
Definition libg_ : sym := mkSym (txt "g") (txt "g") true lib_path KFunc.
Definition lib_g : amodule := mkAMod lib_path (txt "lib") false (scope_of [libg_])
  [NFunc 1 libg_ [] false (NBlock [] [NRet 2 (Some (bin 2 BFloorDiv (num 2 "10") (num 2 "0")))])].
Definition prog_lib : amodule := program_of [libg_]
  [NNoOp 1; NMostra 2 (num 2 "1"); NMostra 3 (num 3 "2"); NMostra 4 (call 4 libg_ [])].

(** What the interpreter of [Sem.v] says a program prints. *)
Definition meant (main : amodule) (imports : list amodule) (fuel : nat) : option text :=
  match exec_program e0 fuel main imports [] with
  | Done _ c => Some (w_out (k_w c))
  | Fail _ w => Some (w_out w)
  | _ => None
  end.
Definition nl : text := [10%N].
Definition out_main (main : amodule) (imports : list amodule) (fuel : nat) : option text :=
  match run_main main imports fuel with Some o => out_of o | None => None end.

(** <<
1 func h(): int
2   retorna 100
3 fim
4 func g(): int
5   h()
6   retorna 2
7 fim
8 mostra 1 + g()
>> *)
Definition h_ := gfun "h".
Definition g_ := gfun "g".
Definition prog_junk : amodule := program_of [h_; g_]
  [ NFunc 1 h_ [] false (NBlock [] [NRet 2 (Some (num 2 "100"))]);
    NFunc 4 g_ [] false (NBlock [] [call 5 h_ []; NRet 6 (Some (num 6 "2"))]);
    NMostra 8 (bin 8 BAdd (num 8 "1") (call 8 g_ [])) ].

(** <<
1 i: int = 0
2 enquanto i < 3 faz
3   i + 1
4   i = i + 1
5 fim
>> *)
Definition prog_grow : amodule := program_of [i_]
  [ decl 1 i_ "int" (num 1 "0");
    NEnquanto 2 (bin 2 BLt (var 2 i_) (num 2 "3"))
      (NBlock [] [bin 3 BAdd (var 3 i_) (num 3 "1"); set 4 i_ (bin 4 BAdd (var 4 i_) (num 4 "1"))]) ].
(** Heights of the stack each time the main module is about to execute the
    instruction at [ip]. *)
Fixpoint heights (P : program) (ip : N) (fuel : nat) (s : state) : list Z :=
  match fuel with
  | O => []
  | Datatypes.S n =>
      let here := match s_frames s with f :: _ => if (f_ip f =? ip)%N then [s_sp s] else [] | [] => [] end in
      here ++ match step e0 P s with SNext s' => heights P ip n s' | _ => [] end
  end.
Definition heights_at (main : amodule) (ip : N) (fuel : nat) : list Z :=
  match built main [emb] with
  | Some P =>
      match run_imports e0 P fuel (initial_state P []) 0 (p_imports P) with
      | Finished s => match start_module e0 s None (p_main P) with Some s0 => heights P ip fuel s0 | None => [] end
      | _ => []
      end
  | None => []
  end.

(** <<
1 i: int = 0
2 enquanto i < 2 faz
3   para j de 0..3 faz
4     quebra
5   fim
6   mostra i
7   i = i + 1
8 fim
>> *)
Definition prog_brk : amodule := program_of [i_]
  [ decl 1 i_ "int" (num 1 "0");
    NEnquanto 2 (bin 2 BLt (var 2 i_) (num 2 "2"))
      (NBlock [] [NPara 3 (txt "j") (num 3 "0") (num 3 "3") None (NBlock (scope_of [j_]) [NLoopCtl 4 true]);
                  NMostra 6 (var 6 i_); set 7 i_ (bin 7 BAdd (var 7 i_) (num 7 "1"))]) ].

(** <<
1 a: int = 1 + a
2 mostra a
>> *)
Definition ga_ := gvar "a".
Definition prog_uninit : amodule := program_of [ga_] [ decl 1 ga_ "int" (bin 1 BAdd (num 1 "1") (var 1 ga_)); NMostra 2 (var 2 ga_) ].

(** lib.ama: <<
1 x: int = 5
2 func g(): int
3   retorna 1
4 fim
5 y: int = g()
6 mostra x
>> main.ama: <<
1 usa "lib"
>> *)
Definition libx_ : sym := mkSym (txt "x") (txt "x") true lib_path KVar.
Definition liby_ : sym := mkSym (txt "y") (txt "y") true lib_path KVar.
Definition lib_x : amodule := mkAMod lib_path (txt "lib") false (scope_of [libx_; libg_; liby_])
  [ decl 1 libx_ "int" (num 1 "5"); NFunc 2 libg_ [] false (NBlock [] [NRet 3 (Some (num 3 "1"))]);
    decl 5 liby_ "int" (call 5 libg_ []); NMostra 6 (var 6 libx_) ].
Definition prog_usa : amodule := program_of [] [NNoOp 1].

(** <<
1 func soma(a: int, b: int): int
2   t: int = a + b
3   retorna t
4 fim
5 x: int? = nulo
6 mostra x == nulo
7 mostra f"<{1 + soma(2, 3)}>"
8 para j de 0..3 faz
9   mostra j
10 fim
11 i: int = 0
12 enquanto verdadeiro faz
13  se i >= 2 entao
14    quebra
15  fim
16  i = i + 1
17 fim
18 mostra i
>> *)
Definition soma_ := gfun "soma".
Definition pa_ := lvar "a" "_r10_".
Definition pb_ := lvar "b" "_r11_".
Definition t_ := lvar "t" "_r12_".
Definition x_ := gvar "x".
Definition prog2 : amodule := program_of [soma_; x_; i_]
  [ NFunc 1 soma_ [(txt "a", pa_); (txt "b", pb_)] false (NBlock (scope_of [pa_; pb_; t_])
      [decl 2 t_ "int" (bin 2 BAdd (var 2 pa_) (var 2 pb_)); NRet 3 (Some (var 3 t_))]);
    decl 5 x_ "int" (NConst 5 KNulo (txt "nulo") false);
    NMostra 6 (NBin 6 BEq false true (var 6 x_) (NConst 6 KNulo (txt "nulo") false) false);
    NMostra 7 (NFmt 7 [NConst 7 KPart (txt "<") false; bin 7 BAdd (num 7 "1") (call 7 soma_ [num 7 "2"; num 7 "3"]); NConst 7 KPart (txt ">") false]);
    NPara 8 (txt "j") (num 8 "0") (num 8 "3") None (NBlock (scope_of [j_]) [NMostra 9 (var 9 j_)]);
    decl 11 i_ "int" (num 11 "0");
    NEnquanto 12 (NConst 12 KBool (txt "verdadeiro") false)
      (NBlock [] [NSe 13 (bin 13 BGe (var 13 i_) (num 13 "2")) (NBlock [] [NLoopCtl 14 true]) [] None;
                  set 16 i_ (bin 16 BAdd (var 16 i_) (num 16 "1"))]);
    NMostra 18 (var 18 i_) ].
