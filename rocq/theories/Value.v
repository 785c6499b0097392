(** Run-time values of the VM and their operations
    (/repo/amanda/vm/src/ama_value.rs, values/*.rs, modules/builtins/*.rs). *)
From Verif Require Import Base Dec Float Opcode.

(** [enum Type]: values/amatype.rs:3-10. *)
Inductive vty := TyInt | TyReal | TyTexto | TyBool | TyVector.
(** [check_cast] compares the discriminants: ama_value.rs:371-374. *)
Definition vty_eqb (a b : vty) : bool :=
  match a, b with
  | TyInt, TyInt | TyReal, TyReal | TyTexto, TyTexto | TyBool, TyBool | TyVector, TyVector => true
  | _, _ => false
  end.

(** The static part of [AmaFunc]: values/function.rs:30-39.  [bp], [ip] and
    [last_i] of a function value are always -1 and [start_ip] (binload.rs:290-305)
    because calls copy the value.  [None] is [FuncModule::Main]. *)
Record afunc := mkFunc { fn_name : text; fn_start : N; fn_locals : N; fn_mod : option N }.

(** [enum AmaValue]: ama_value.rs:68-84.  Heap objects ([Rc<RefCell<..>>]) are
    locations; [Registo] references carry the name and fields they point to;
    native functions are identified by name. *)
Inductive value :=
| VInt (z : Z)
| VF64 (f : f64)
| VBool (b : bool)
| VFunc (f : afunc)
| VNative (name : text)
| VType (t : vty)
| VNone
| VVec (loc : nat)
| VStr (t : text)
| VRegisto (name : text) (fields : list text)
| VObj (loc : nat)
| VVariant (tag : N) (args : option (list value)).

(** Heap cells: vectors and record instances (values/registo.rs:19-22).  The
    hash table of an instance maps field names to values. *)
Inductive cell :=
| CVec (vs : list value)
| CObj (reg : text) (state : list (text * value)).
Definition heap := list cell.

(** Messages of run-time errors (the Portuguese texts passed to
    [panic_and_throw]). *)
Inductive errmsg :=
| EArith            (* Resultado fora do intervalo de inteiros representaveis: ama_value.rs:28 *)
| EModZero          (* ama_value.rs:198 *)
| EDivZero          (* ama_value.rs:205,212 *)
| EIdxNegStr        (* vm.rs:255,267 *)
| EIdxStr (len idx : Z)   (* vm.rs:261,273 *)
| EIdxNegVec        (* ama_value.rs:160 *)
| EIdxVec (len idx : Z)   (* ama_value.rs:169 *)
| ENotInt (t : text)      (* ama_value.rs:303 *)
| ENotReal (t : text)     (* ama_value.rs:322 *)
| ENull             (* vm.rs:517 *)
| ECheckCast (from to : vty)  (* vm.rs:537 *)
| ERecursion        (* vm.rs:371 *)
| EVecDims          (* embutidos.rs:131 *)
| EReadInt          (* embutidos.rs:49 *)
| EReadReal.        (* embutidos.rs:64 *)

(** Result of a value operation: value, run-time error, or a Rust panic
    ([unimplemented!], [unreachable!], [unwrap], index out of bounds). *)
Inductive vres (A : Type) := ROk (a : A) | RErr (e : errmsg) | RPanic.
Arguments ROk {A}. Arguments RErr {A}. Arguments RPanic {A}.
Definition rbind {A B} (x : vres A) (f : A -> vres B) : vres B :=
  match x with ROk a => f a | RErr e => RErr e | RPanic => RPanic end.
Notation "'let*' x ':=' a 'in' b" := (rbind a (fun x => b)) (at level 200, x name, right associativity).
Definition of_opt {A} (o : option A) : vres A := match o with Some a => ROk a | None => RPanic end.

(** External parts: shortest decimal printing of doubles, Unicode grapheme
    segmentation, libm, and whether debug assertions are compiled in. *)
Record ext := mkExt {
  show_f64 : f64 -> text;                     (* format!("{}", f64) *)
  graphemes : text -> list text;              (* unicode_segmentation graphemes(true) *)
  libm : text -> list f64 -> f64;             (* powf, sin, cos, tan, log, to_radians, to_degrees *)
  pi : f64;                                   (* std::f64::consts::PI *)
  debug_build : bool                          (* debug_assert! active *)
}.

(** ** Accessors: ama_value.rs:87-155 *)
Definition get_type (v : value) : option vty :=
  match v with
  | VStr _ => Some TyTexto | VInt _ => Some TyInt | VF64 _ => Some TyReal
  | VBool _ => Some TyBool | VVec _ => Some TyVector | _ => None
  end.
Definition take_float (v : value) : vres f64 :=
  match v with VF64 f => ROk f | VInt z => ROk (f_of_Z z) | _ => RPanic end.
Definition take_int (v : value) : vres Z :=
  match v with VInt z => ROk z | VF64 f => ROk (f_to_i64 f) | _ => RPanic end.
Definition take_type (v : value) : vres vty := match v with VType t => ROk t | _ => RPanic end.
Definition take_str (v : value) : vres text := match v with VStr t => ROk t | _ => RPanic end.
Definition take_bool (v : value) : vres bool := match v with VBool b => ROk b | _ => RPanic end.
Definition is_float (v : value) : bool := match v with VF64 _ => true | _ => false end.
Definition is_str (v : value) : bool := match v with VStr _ => true | _ => false end.
Definition is_bool (v : value) : bool := match v with VBool _ => true | _ => false end.
Definition is_int (v : value) : bool := match v with VInt _ => true | _ => false end.
Definition is_none (v : value) : bool := match v with VNone => true | _ => false end.

(** ** Checked 64-bit arithmetic *)
Definition chk (z : Z) : option Z := if in_i64 z then Some z else None.
Definition checked_add (a b : Z) := chk (a + b)%Z.
Definition checked_sub (a b : Z) := chk (a - b)%Z.
Definition checked_mul (a b : Z) := chk (a * b)%Z.
Definition checked_rem (a b : Z) : option Z :=
  if (b =? 0)%Z then None else if ((a =? min_i64) && (b =? -1))%Z then None else Some (Z.rem a b).
Definition checked_div (a b : Z) : option Z :=
  if (b =? 0)%Z then None else chk (Z.quot a b).

(** [arith_ops!]: ama_value.rs:18-33. *)
Definition arith_ops (t : vty) (fop : f64 -> f64 -> f64) (iop : Z -> Z -> option Z) (l r : value)
  : vres value :=
  match t with
  | TyReal => let* a := take_float l in let* b := take_float r in ROk (VF64 (fop a b))
  | TyInt =>
      let* a := take_int l in let* b := take_int r in
      match iop a b with Some z => ROk (VInt z) | None => RErr EArith end
  | _ => RPanic
  end.
(** [comp_ops!]: ama_value.rs:35-43. *)
Definition comp_ops (t : vty) (fop : f64 -> f64 -> bool) (iop : Z -> Z -> bool) (l r : value)
  : vres value :=
  match t with
  | TyReal => let* a := take_float l in let* b := take_float r in ROk (VBool (fop a b))
  | TyInt => let* a := take_int l in let* b := take_int r in ROk (VBool (iop a b))
  | _ => RPanic
  end.
(** [eq_ops!]: ama_value.rs:45-55; [neg] selects [!=]. *)
Definition eq_ops (t : vty) (neg : bool) (l r : value) : vres value :=
  match t with
  | TyInt => let* a := take_int l in let* b := take_int r in ROk (VBool (xorb neg (a =? b)%Z))
  | TyReal => let* a := take_float l in let* b := take_float r in ROk (VBool (xorb neg (f_eqb a b)))
  | TyBool => let* a := take_bool l in let* b := take_bool r in ROk (VBool (xorb neg (Bool.eqb a b)))
  | TyTexto => let* a := take_str l in let* b := take_str r in ROk (VBool (xorb neg (text_eqb a b)))
  | _ => RPanic
  end.

(** [AmaValue::binop]: ama_value.rs:178-228. *)
Definition binop_type (l r : value) : option vty :=
  if is_float l || is_float r then Some TyReal
  else if is_int l && is_int r then Some TyInt
  else if is_bool l && is_bool r then Some TyBool
  else if is_str l && is_str r then Some TyTexto
  else if is_none l && is_str r then Some TyTexto
  else None.

Definition binop (l : value) (op : opcode) (r : value) : vres value :=
  match binop_type l r with
  | None => RPanic
  | Some t =>
      match op with
      | OP_ADD => arith_ops t f_add checked_add l r
      | OP_MINUS => arith_ops t f_sub checked_sub l r
      | OP_MUL => arith_ops t f_mul checked_mul l r
      | OP_MODULO =>
          let* d := take_float r in
          if f_eqb d f_zero then RErr EModZero else arith_ops t f_rem checked_rem l r
      | OP_DIV =>
          let* d := take_float r in
          if f_eqb d f_zero then RErr EDivZero
          else let* a := take_float l in ROk (VF64 (f_div a d))
      | OP_FLOORDIV =>
          let* d := take_int r in
          if (d =? 0)%Z then RErr EDivZero else arith_ops TyInt f_div checked_div l r
      | OP_AND => let* a := take_bool l in
                  if a then let* b := take_bool r in ROk (VBool b) else ROk (VBool false)
      | OP_OR => let* a := take_bool l in
                 if a then ROk (VBool true) else let* b := take_bool r in ROk (VBool b)
      | OP_EQ => eq_ops t false l r
      | OP_NOTEQ => eq_ops t true l r
      | OP_GREATER => comp_ops t (fun a b => f_ltb b a) (fun a b => (b <? a)%Z) l r
      | OP_GREATEREQ => comp_ops t (fun a b => f_leb b a) (fun a b => (b <=? a)%Z) l r
      | OP_LESS => comp_ops t f_ltb Z.ltb l r
      | OP_LESSEQ => comp_ops t f_leb Z.leb l r
      | _ => RPanic
      end
  end.

(** [OpInvert]/[OpNot]: vm.rs:230-247.  In a release build [-num] wraps. *)
Definition invert (v : value) : vres value :=
  match v with
  | VInt z => ROk (VInt (if (z =? min_i64)%Z then min_i64 else (- z)%Z))
  | VF64 f => ROk (VF64 (f_neg f))
  | _ => RPanic
  end.
Definition op_not (v : value) : vres value :=
  match v with VBool b => ROk (VBool (negb b)) | _ => RPanic end.

(** [Display]: ama_value.rs:254-293.  [None] is a panic: a value with no
    textual form, or unbounded recursion on a cyclic vector (stack overflow).
    Fuel [S (length h)] is enough for every acyclic value. *)
Definition sep : text := txt ", ".
Fixpoint join (l : list text) : text :=
  match l with [] => [] | [x] => x | x :: l' => x ++ sep ++ join l' end.
Fixpoint opt_map {A B} (f : A -> option B) (l : list A) : option (list B) :=
  match l with
  | [] => Some []
  | x :: l' => match f x, opt_map f l' with Some y, Some ys => Some (y :: ys) | _, _ => None end
  end.

Section WithExt.
Variable E : ext.

Definition show_real (f : f64) : text :=
  if f_is_integral f then show_f64 E f ++ txt ".0" else show_f64 E f.

Fixpoint show_fuel (fuel : nat) (h : heap) (v : value) : option text :=
  match fuel with
  | O => None
  | S f =>
      match v with
      | VStr t => Some t
      | VInt z => Some (dec_Z z)
      | VF64 x => Some (show_real x)
      | VBool b => Some (if b then txt "verdadeiro" else txt "falso")
      | VVec l =>
          match nth_error h l with
          | Some (CVec vs) =>
              match opt_map (show_fuel f h) vs with
              | Some ts => Some (txt "[" ++ join ts ++ txt "]")
              | None => None
              end
          | _ => None
          end
      | VNone => Some (txt "nulo")
      | VObj l =>
          match nth_error h l with
          | Some (CObj reg _) => Some ([60; 73; 110; 115; 116; 226; 110; 99; 105; 97]%N ++ txt " do tipo " ++ reg ++ txt ">")
          | _ => None
          end
      | VVariant tag _ => Some (txt "<Variante(" ++ dec_N tag ++ txt ")>")
      | _ => None
      end
  end.
Definition show (h : heap) (v : value) : option text := show_fuel (S (List.length h)) h v.

(** [cast]: ama_value.rs:295-348. *)
Definition vcast (h : heap) (v : value) (t : vty) : vres value :=
  match t with
  | TyTexto => let* s := of_opt (show h v) in ROk (VStr s)
  | TyInt =>
      match v with
      | VF64 f => ROk (VInt (f_to_i64 f))
      | VStr s => match parse_i64 s with Some z => ROk (VInt z) | None => RErr (ENotInt s) end
      | _ => RPanic
      end
  | TyReal =>
      match v with
      | VInt z => ROk (VF64 (f_of_Z z))
      | VStr s => match parse_f64 s with Some f => ROk (VF64 f) | None => RErr (ENotReal s) end
      | _ => RPanic
      end
  | TyBool =>
      match v with
      | VInt z => ROk (VBool (negb (z =? 0)%Z))
      | VF64 f => ROk (VBool (negb (f_eqb f f_zero)))
      | VStr s => ROk (VBool (match s with [] => false | _ => true end))
      | _ => RPanic
      end
  | TyVector => RPanic
  end.

(** [vec_index_check]: ama_value.rs:157-176 (the caller passes a vector). *)
Definition vec_index_check (vs : list value) (idx : Z) : vres nat :=
  if (idx <? 0)%Z then RErr EIdxNegVec
  else if (Z.of_nat (List.length vs) <=? idx)%Z then RErr (EIdxVec (Z.of_nat (List.length vs)) idx)
  else ROk (Z.to_nat idx).

(** [OpIndexGet]: vm.rs:248-290. *)
Definition index_get (h : heap) (target idxv : value) : vres value :=
  let* idx := take_int idxv in
  match target with
  | VStr s =>
      if (idx <? 0)%Z then RErr EIdxNegStr
      else
        let gs := graphemes E s in
        match (if (Z.of_nat (List.length gs) <=? idx)%Z then None else nth_error gs (Z.to_nat idx)) with
        | Some g => ROk (VStr g)
        | None => RErr (EIdxStr (Z.of_nat (List.length gs)) idx)
        end
  | VVec l =>
      match nth_error h l with
      | Some (CVec vs) => let* i := vec_index_check vs idx in of_opt (nth_error vs i)
      | _ => RPanic
      end
  | _ => RPanic
  end.

Fixpoint list_set {A} (l : list A) (i : nat) (x : A) : list A :=
  match l, i with
  | [], _ => []
  | _ :: l', O => x :: l'
  | y :: l', S i' => y :: list_set l' i' x
  end.

(** [OpIndexSet]: vm.rs:291-305. *)
Definition index_set (h : heap) (target idxv v : value) : vres heap :=
  let* idx := take_int idxv in
  match target with
  | VVec l =>
      match nth_error h l with
      | Some (CVec vs) =>
          let* i := vec_index_check vs idx in ROk (list_set h l (CVec (list_set vs i v)))
      | _ => RPanic
      end
  | _ => RPanic
  end.

(** Association lists for hash tables. *)
Fixpoint assoc {A} (k : text) (m : list (text * A)) : option A :=
  match m with
  | [] => None
  | (k', v) :: m' => if text_eqb k k' then Some v else assoc k m'
  end.
Fixpoint assoc_set {A} (m : list (text * A)) (k : text) (v : A) : list (text * A) :=
  match m with
  | [] => [(k, v)]
  | (k', v') :: m' => if text_eqb k k' then (k, v) :: m' else (k', v') :: assoc_set m' k v
  end.

(** [RegObj::with_fields]: registo.rs:32-49, on [key, value] pairs.  Keys are
    always texts here ([LOAD_NAME] pushes them). *)
Fixpoint pair_up (l : list value) (acc : list (text * value)) : vres (list (text * value)) :=
  match l with
  | [] => ROk acc
  | k :: v :: l' => let* s := take_str k in pair_up l' (assoc_set acc s v)
  | [_] => RPanic
  end.

(** [RegObj::get]/[set]: registo.rs:51-57 with [take_regobj]. *)
Definition prop_get (h : heap) (obj field : value) : vres value :=
  match obj with
  | VObj l =>
      match nth_error h l with
      | Some (CObj _ st) => let* f := take_str field in of_opt (assoc f st)
      | _ => RPanic
      end
  | _ => RPanic
  end.
Definition prop_set (h : heap) (obj field v : value) : vres heap :=
  match obj with
  | VObj l =>
      match nth_error h l with
      | Some (CObj r st) => let* f := take_str field in ROk (list_set h l (CObj r (assoc_set st f v)))
      | _ => RPanic
      end
  | _ => RPanic
  end.

(** ** Native functions *)

(** What natives and the VM read and write besides the stack. *)
Record world := mkWorld { w_heap : heap; w_out : text; w_in : text }.
Definition emit (w : world) (t : text) : world := mkWorld (w_heap w) (w_out w ++ t) (w_in w).
Definition set_heap (w : world) (h : heap) : world := mkWorld h (w_out w) (w_in w).
Definition halloc (w : world) (c : cell) : world * nat :=
  (set_heap w (w_heap w ++ [c]), List.length (w_heap w)).

(** [read_line]: up to and including the first newline. *)
Fixpoint split_line (t : text) : text * text :=
  match t with
  | [] => ([], [])
  | c :: t' => if (c =? 10)%N then ([c], t') else let (a, b) := split_line t' in (c :: a, b)
  end.

Definition pop_last (t : text) : option (text * N) :=
  match rev t with [] => None | c :: r => Some (rev r, c) end.

(** [escreva]: embutidos.rs:20-26. *)
Definition n_escreva (args : list value) (w : world) : vres (value * world) :=
  match args with
  | v :: _ => let* s := of_opt (show (w_heap w) v) in ROk (VNone, emit w s)
  | [] => RPanic
  end.
(** [leia]: embutidos.rs:28-41.  The newline is removed inside a
    [debug_assert!], which a release build does not evaluate. *)
Definition n_leia_line (args : list value) (w : world) : vres (text * world) :=
  let* vw := n_escreva args w in
  let w1 := snd vw in
  let (line, rest) := split_line (w_in w1) in
  let w2 := mkWorld (w_heap w1) (w_out w1) rest in
  if debug_build E then
    match pop_last line with
    | Some (l, c) => if (c =? 10)%N then ROk (l, w2) else RPanic
    | None => RPanic
    end
  else ROk (line, w2).

(** [build_vec]: embutidos.rs:96-122.  [dims] are the sizes still to build. *)
Definition zero_of (t : vty) : vres value :=
  match t with
  | TyInt => ROk (VInt 0) | TyReal => ROk (VF64 f_zero) | TyBool => ROk (VBool false)
  | TyTexto => ROk (VStr []) | TyVector => RPanic
  end.
Fixpoint alloc_copies (n : nat) (c : cell) (w : world) : list value * world :=
  match n with
  | O => ([], w)
  | S n' =>
      let (w1, l) := halloc w c in
      let (vs, w2) := alloc_copies n' c w1 in (VVec l :: vs, w2)
  end.
Fixpoint build_vec (dims : list value) (t : vty) (w : world) : vres (list value * world) :=
  match dims with
  | [] => RPanic
  | [d] => let* n := take_int d in let* z := zero_of t in ROk (repeat z (Z.to_nat n), w)
  | d :: dims' =>
      let* n := take_int d in
      if (n =? 0)%Z then ROk ([], w)
      else
        let* iw := build_vec dims' t w in
        let (inner, w1) := iw in
        ROk (alloc_copies (Z.to_nat n) (CVec inner) w1)
  end.
Fixpoint dims_ok (dims : list value) : vres bool :=
  match dims with
  | [] => ROk true
  | d :: r => let* n := take_int d in if (n <? 0)%Z then ROk false else dims_ok r
  end.
(** [vec]: embutidos.rs:124-139. *)
Definition n_vec (args : list value) (w : world) : vres (value * world) :=
  match args with
  | [] => RPanic
  | t :: dims =>
      let* t := take_type t in
      let* ok := dims_ok dims in
      if ok then
        let* vw := build_vec dims t w in
        let (vs, w1) := vw in
        let (w2, l) := halloc w1 (CVec vs) in ROk (VVec l, w2)
      else RErr EVecDims
  end.

(** Substring test ([str::contains]) on code points; for valid UTF-8 this is
    the same as on bytes. *)
Fixpoint is_prefix (a b : text) : bool :=
  match a, b with
  | [], _ => true
  | x :: a', y :: b' => (x =? y)%N && is_prefix a' b'
  | _ :: _, [] => false
  end.
Fixpoint contains (hay needle : text) : bool :=
  is_prefix needle hay || match hay with [] => false | _ :: h' => contains h' needle end.

Definition remove_nth {A} (l : list A) (i : nat) : list A := firstn i l ++ skipn (S i) l.

(** All natives of [embutidos] and [mat]: embutidos.rs:13-176, mat.rs:7-83.
    The native functions receive exactly the arguments the checker allows. *)
Definition libm_fn (n : text) : bool :=
  existsb (text_eqb n) (map txt ["expoente"; "sen"; "cos"; "tan"; "log"; "grausprad"; "radpgraus"]%string).

Fixpoint all_floats (l : list value) : vres (list f64) :=
  match l with
  | [] => ROk []
  | v :: r => let* f := take_float v in let* fs := all_floats r in ROk (f :: fs)
  end.

Definition native (n : text) (args : list value) (w : world) : vres (value * world) :=
  if text_eqb n (txt "escreva") then n_escreva args w
  else if text_eqb n (txt "escrevaln") then
    match args with
    | v :: _ => let* s := of_opt (show (w_heap w) v) in ROk (VNone, emit w (s ++ [10%N]))
    | [] => RPanic
    end
  else if text_eqb n (txt "leia") then
    let* lw := n_leia_line args w in let (l, w1) := lw in ROk (VStr l, w1)
  else if text_eqb n (txt "leia_int") then
    let* lw := n_leia_line args w in
    let (l, w1) := lw in
    match parse_i64 l with Some z => ROk (VInt z, w1) | None => RErr EReadInt end
  else if text_eqb n (txt "leia_real") then
    let* lw := n_leia_line args w in
    let (l, w1) := lw in
    match parse_f64 l with Some f => ROk (VF64 f, w1) | None => RErr EReadReal end
  else if text_eqb n (txt "tam") then
    match args with
    | VStr s :: _ => ROk (VInt (Z.of_nat (List.length (graphemes E s))), w)
    | VVec l :: _ =>
        match nth_error (w_heap w) l with
        | Some (CVec vs) => ROk (VInt (Z.of_nat (List.length vs)), w)
        | _ => RPanic
        end
    | _ => RPanic
    end
  else if text_eqb n (txt "txt_contem") then
    match args with
    | VStr a :: VStr b :: _ => ROk (VBool (contains a b), w)
    | _ => RPanic
    end
  else if text_eqb n (txt "vec") then n_vec args w
  else if text_eqb n (txt "anexa") then
    match args with
    | VVec l :: v :: _ =>
        match nth_error (w_heap w) l with
        | Some (CVec vs) => ROk (VNone, set_heap w (list_set (w_heap w) l (CVec (vs ++ [v]))))
        | _ => RPanic
        end
    | _ => RPanic
    end
  else if text_eqb n (txt "remova") then
    match args with
    | VVec l :: iv :: _ =>
        let* idx := take_int iv in
        match nth_error (w_heap w) l with
        | Some (CVec vs) =>
            let* i := vec_index_check vs idx in
            let* x := of_opt (nth_error vs i) in
            ROk (x, set_heap w (list_set (w_heap w) l (CVec (remove_nth vs i))))
        | _ => RPanic
        end
    | _ => RPanic
    end
  else if text_eqb n (txt "abs") then
    match args with v :: _ => let* f := take_float v in ROk (VF64 (f_abs f), w) | [] => RPanic end
  else if text_eqb n (txt "raizqd") then
    match args with v :: _ => let* f := take_float v in ROk (VF64 (f_sqrt f), w) | [] => RPanic end
  else if text_eqb n (txt "arredonda") then
    match args with v :: _ => let* f := take_float v in ROk (VInt (sat_i64 f (f_round_Z f)), w) | [] => RPanic end
  else if text_eqb n (txt "piso") then
    match args with v :: _ => let* f := take_float v in ROk (VInt (sat_i64 f (f_floor_Z f)), w) | [] => RPanic end
  else if text_eqb n (txt "teto") then
    match args with v :: _ => let* f := take_float v in ROk (VInt (sat_i64 f (f_ceil_Z f)), w) | [] => RPanic end
  else if libm_fn n then
    let* fs := all_floats args in ROk (VF64 (libm E n fs), w)
  else RPanic.

End WithExt.

(** The definitions exported by the native modules: embutidos.rs:159-176,
    mat.rs:69-83. *)
Definition embutidos_fns : list text :=
  map txt ["escrevaln"; "escreva"; "leia"; "leia_int"; "leia_real"; "tam"; "vec"; "anexa"; "remova"; "txt_contem"]%string.
Definition embutidos_exports (E : ext) : list (text * value) :=
  [(txt "int", VType TyInt); (txt "real", VType TyReal); (txt "bool", VType TyBool);
   (txt "texto", VType TyTexto); (txt "PI", VF64 (pi E))]
  ++ map (fun n => (n, VNative n)) embutidos_fns.
Definition mat_fns : list text :=
  map txt ["abs"; "raizqd"; "expoente"; "arredonda"; "piso"; "teto"; "sen"; "cos"; "tan"; "log"; "grausprad"; "radpgraus"]%string.
Definition mat_exports (E : ext) : list (text * value) :=
  (txt "PI", VF64 (pi E)) :: map (fun n => (n, VNative n)) mat_fns.
