(** Running the model on source texts: a file system, an alphabet and the
    project's own module of built-ins (/repo/std/embutidos.ama).  Used for
    examples and as witnesses of the refutations. *)
From Verif Require Import Lexer Base Utf8 Dec Bson Float Opcode Value VM Ast CodeGen Compile Types Syntax Parser Sym Exhaust Check Front.
From Coq Require Import String.
Local Open Scope Z_scope.

(** A Coq string literal holds UTF-8 bytes. *)
Definition utf (s : String.string) : text := match utf8_decode (txt s) with Some t => t | None => [] end.
Fixpoint lines (l : list String.string) : text :=
  match l with [] => [] | s :: r => utf s ++ 10%N :: lines r end.

(** Letters of Latin-1 beyond ASCII, enough for the texts used here. *)
Definition latin (c : N) : bool := ((192 <=? c) && (c <=? 255) && negb (c =? 215) && negb (c =? 247))%N.
Definition alphabet : uni := mkUni (fun c => (c =? 160)%N) latin latin (fun _ => false) (fun _ => None) (Some 4300%nat).

(** [format!("{}", f64)]: the shortest digits that read back as the same number. *)
Definition digits_of (s : bool) (m : positive) (e : Z) (n : nat) : text :=
  (* n digits after the point, rounded to nearest *)
  let p := 10 ^ Z.of_nat n in
  let num := Zpos m * p * (if 0 <=? e then 2 ^ e else 1) in
  let den := if 0 <=? e then 1 else 2 ^ (- e) in
  let q := (2 * num + den) / (2 * den) in
  (if s then txt "-" else []) ++ dec_Z (q / p)
  ++ match n with O => [] | _ => txt "." ++ let d := dec_Z (q mod p) in repeat 48%N (n - List.length d) ++ d end.
Fixpoint shortest (s : bool) (m : positive) (e : Z) (n : nat) (more : nat) : text :=
  let t := digits_of s m e n in
  match more with
  | O => t
  | Datatypes.S more =>
      match parse_f64 t with
      | Some (SpecFloat.S754_finite s' m' e') => if Bool.eqb s s' && Pos.eqb m m' && Z.eqb e e' then t else shortest s m e (Datatypes.S n) more
      | _ => shortest s m e (Datatypes.S n) more
      end
  end.
Definition show_short (f : f64) : text :=
  match f with
  | SpecFloat.S754_zero s => if s then txt "-0" else txt "0"
  | SpecFloat.S754_infinity s => if s then txt "-inf" else txt "inf"
  | SpecFloat.S754_nan => txt "NaN"
  | SpecFloat.S754_finite s m e => shortest s m e 0 20
  end.
(** Powers with a natural exponent; the other functions of libm are not used. *)
Fixpoint pow_nat (x : f64) (n : nat) : f64 := match n with O => f_of_Z 1 | Datatypes.S n => f_mul x (pow_nat x n) end.
Definition libm_small (n : text) (l : list f64) : f64 :=
  match l with
  | [x; y] => match y with SpecFloat.S754_finite false m e => pow_nat x (Z.to_nat (Zpos m * 2 ^ e + (if e <? 0 then Zpos m / 2 ^ (- e) else 0))) | _ => f_of_Z 1 end
  | _ => f_zero
  end.
Definition e1 : ext := mkExt show_short (map (fun c => [c])) libm_small f_zero false.

Definition std_path : text := txt "/repo/std".
Definition embutidos : text := lines [
"# Este módulo contém as declarações de funções que já vêm com a linguagem"%string;
"# E estão disponíveis em todos os programas"%string;
"@@embutido(nome = ""embutidos"")"%string;
""%string;
""%string;
"# Funções de entrada functions"%string;
"@embutido"%string;
"func leia(mensagem: texto): texto fim"%string;
"@embutido"%string;
"func leia_int(mensagem: texto): int fim"%string;
"@embutido"%string;
"func leia_real(mensagem: texto): real fim"%string;
""%string;
""%string;
"# Funções de saída"%string;
"@embutido"%string;
"func escreva(item: indef) fim"%string;
"@embutido"%string;
"func escrevaln(item: indef) fim"%string;
""%string;
"# Para colecções"%string;
"@embutido"%string;
"func vec(tipo: indef, tam: int): indef fim"%string;
"@embutido"%string;
"func tam(seq: indef): int fim"%string;
"@embutido"%string;
"func anexa(vec: indef, valor: indef) fim"%string;
"@embutido"%string;
"func remova(vec: indef, indice: int): indef fim"%string;
""%string;
""%string;
"# 'Metaprogramação'"%string;
"#func nativa tipo(objecto: indef):texto"%string;
""%string;
"# Funções para trabalhar com texto"%string;
"@embutido"%string;
"func txt_contem(palheiro: texto, agulha: texto): bool fim"%string;
""%string;
"@embutido(item = ""Opcao"")"%string;
"registo Opcao[T]"%string;
"   valor: T"%string;
"fim"%string;
""%string;
"@embutido"%string;
"met[T] Opcao[T]::valor_ou(alvo, padrao: T): T fim"%string;
""%string ].

(** Python's keywords (the names [is_valid_name] refuses) that these texts could
    contain, and the files of a run; every path is absolute or relative to /repo. *)
Definition reserved : list String.string :=
  ["False"; "None"; "True"; "and"; "as"; "assert"; "async"; "await"; "break"; "class"; "continue"; "def"; "del";
   "elif"; "else"; "except"; "finally"; "for"; "from"; "global"; "if"; "import"; "in"; "is"; "lambda"; "nonlocal";
   "not"; "or"; "pass"; "raise"; "return"; "try"; "while"; "with"; "yield"]%string.
Definition abs_path (p : text) : text := match p with 47%N :: _ => p | _ => txt "/repo/" ++ p end.
Definition env_of (files : list (text * text)) : front_env :=
  let fs := (txt "/repo/std/embutidos.ama", embutidos) :: files in
  mkFront (fun p => match assoc (abs_path p) fs with Some _ => true | None => false end) abs_path (fun p => assoc (abs_path p) fs)
          std_path (fun l => l) (fun n => existsb (fun k => text_eqb n (txt k)) reserved).

(** What a user sees of [amanda main]. *)
Inductive seen :=
| Prints (t : text)                  (* a run that ends normally *)
| Stops (t : text) (lines : list N)   (* a run-time error, after the text; the lines reported, the last in the message itself *)
| Panics                             (* the VM panics *)
| Rejected (path : text) (line : Z)  (* an error message from the compiler *)
| Exception                          (* a Python exception other than the compiler's own error *)
| Outside
| NoFuel.
Definition see (files : list (text * text)) (main : text) (stdin : text) (fuel : nat) : seen :=
  match front (env_of files) alphabet 20 main with
  | FError p l => Rejected p l
  | FCrash => Exception
  | FUnsup => Outside
  | FFuel => NoFuel
  | FProgram P =>
      match VM.run e1 P fuel stdin with
      | Finished s => Prints (w_out (s_world s))
      | Failed _ tr s => Stops (w_out (s_world s)) (map fst tr)
      | Crashed => Panics
      | OutOfFuel => NoFuel
      end
  end.
Definition main_file : text := txt "main.ama".
Definition see1 (src : list String.string) : seen := see [(txt "/repo/main.ama", lines src)] main_file [] 4000.
Definition says (l : list String.string) : text := lines l.

(** [out.replace("\n", " ").strip()] of tests/test.py *)
Fixpoint drop_sp (t : text) : text := match t with 32%N :: r => drop_sp r | _ => t end.
Definition flat (t : text) : text :=
  let l := map (fun c => if (c =? 10)%N then 32%N else c) t in rev (drop_sp (rev (drop_sp l))).

