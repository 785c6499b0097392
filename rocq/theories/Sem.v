(** What a checked program means, independently of how it is compiled: a
    big-step interpreter over the annotated tree ([Ast.node]).

    Variables are looked up by name in nested scopes, functions by name in
    their module, control flow is structured; there is no stack, no slot, no
    label, no bytecode.  The theorems in [Prop_Sem.v] say that the compiled
    program does exactly what this interpreter says.

    This is a specification: it follows the language as documented, not a file
    of /repo.  [Stuck] means the interpreter gives the program no meaning (a
    type error that the checker should have excluded, or a construct it does
    not cover); nothing is claimed about such programs. *)
From Verif Require Import Base Dec Float Value Ast Spec_Value Spec_Tables.

(** A program's functions, imported names and variants, by module ([None] is
    the main module, [Some i] the [i]-th import). *)
Record fundef := mkFD { fd_params : list text; fd_body : list node }.
Record senv := mkSE {
  se_fun : option N -> text -> option fundef;      (* functions of a module *)
  se_imp : option N -> text -> option (N * text);  (* name imported from import [i], and its name there *)
  se_tag : option N -> text -> option N            (* number of a variant *)
}.

(** World (heap, output, input), global variables of each module, and the
    nested scopes of local variables, innermost first. *)
Record cfg := mkCfg {
  k_w : world;
  k_g : option N -> text -> option value;
  k_l : list (list (text * value))
}.

(** How a piece of program ends: normally, with a value, by leaving or
    repeating the enclosing loop, or by returning from the function. *)
Inductive out := ONorm | OVal (v : value) | OBrk | OCont | ORet (v : value).
Inductive res :=
| Done (o : out) (c : cfg)
| Fail (e : errmsg) (w : world)     (* run-time error, with the world at that moment *)
| Stuck
| Fuel.                             (* not finished yet *)

Definition bind (r : res) (f : out -> cfg -> res) : res :=
  match r with Done o c => f o c | r => r end.
(** Continue with a value. *)
Definition bindv (r : res) (f : value -> cfg -> res) : res :=
  bind r (fun o c => match o with OVal v => f v c | _ => Stuck end).
(** Result of an operation on values. *)
Definition lift (w : world) (r : vres value) (c : cfg) : res :=
  match r with ROk v => Done (OVal v) c | RErr e => Fail e w | RPanic => Stuck end.

Definition omod_eqb (a b : option N) : bool :=
  match a, b with None, None => true | Some i, Some j => (i =? j)%N | _, _ => false end.
Definition set_w (c : cfg) (w : world) : cfg := mkCfg w (k_g c) (k_l c).
Definition set_l (c : cfg) l : cfg := mkCfg (k_w c) (k_g c) l.
Definition set_global (c : cfg) (m : option N) (n : text) (v : value) : cfg :=
  mkCfg (k_w c) (fun m' n' => if omod_eqb m m' && text_eqb n n' then Some v else k_g c m' n') (k_l c).

(** Lexical scoping. *)
Fixpoint look (l : list (list (text * value))) (n : text) : option value :=
  match l with
  | [] => None
  | sc :: r => match assoc n sc with Some v => Some v | None => look r n end
  end.
Fixpoint update (l : list (list (text * value))) (n : text) (v : value) : option (list (list (text * value))) :=
  match l with
  | [] => None
  | sc :: r =>
      match assoc n sc with
      | Some _ => Some (assoc_set sc n v :: r)
      | None => option_map (cons sc) (update r n v)
      end
  end.
Definition push_scope (c : cfg) (sc : list (text * value)) : cfg := set_l c (sc :: k_l c).
Definition pop_scope (c : cfg) : cfg := set_l c (tl (k_l c)).
Definition popr (r : res) : res := bind r (fun o c => Done o (pop_scope c)).

(** ** Values of literals *)
Definition digitb (c : N) : bool := ((48 <=? c) && (c <=? 57))%N.
Definition digitsb (t : text) : bool := match t with [] => false | _ => forallb digitb t end.
(** Splits at the first full stop. *)
Fixpoint split_dot (t : text) : text * option text :=
  match t with
  | [] => ([], None)
  | c :: r => if (c =? 46)%N then ([], Some r) else let (a, b) := split_dot r in (c :: a, b)
  end.
Definition lit_value (k : litkind) (lex : text) : option value :=
  match k with
  | KInt =>
      if digitsb lex && (digits_number 0 lex <? 2 ^ 63)%Z then Some (VInt (digits_number 0 lex)) else None
  | KReal =>
      match split_dot lex with
      | (a, Some b) =>
          if digitsb a && digitsb b then option_map VF64 (parse_f64 lex) else None
      | _ => None
      end
  | KText =>
      match lex with
      | q :: r => match rev r with
                  | q' :: s => if ((q =? 34) || (q =? 39))%N && (q =? q')%N then Some (VStr (rev s)) else None
                  | [] => None
                  end
      | [] => None
      end
  | KPart => Some (VStr lex)
  | KBool =>
      if text_eqb lex (txt "verdadeiro") then Some (VBool true)
      else if text_eqb lex (txt "falso") then Some (VBool false) else None
  | KNulo => if text_eqb lex (txt "nulo") then Some VNone else None
  end.
(** The value of a variable declared without one. *)
Definition zero_value (ty : text) : value :=
  if text_eqb ty (txt "int") then VInt 0
  else if text_eqb ty (txt "real") then VF64 f_zero
  else if text_eqb ty (txt "texto") then VStr []
  else VBool false.
Definition type_named (n : text) : option vty :=
  if text_eqb n (txt "int") then Some TyInt
  else if text_eqb n (txt "real") then Some TyReal
  else if text_eqb n (txt "bool") then Some TyBool
  else if text_eqb n (txt "texto") then Some TyTexto
  else None.

(** An [int] used where a [real] is expected. *)
Definition promote (pr : bool) (r : res) : res :=
  if pr then bindv r (fun v c => match v with VInt z => Done (OVal (VF64 (f_of_Z z))) c | _ => Stuck end)
  else r.

Definition is_equality (op : bop) : bool := match op with BEq | BNe => true | _ => false end.

(** ** Sequences *)
(** Statements in order; a value is dropped, a jump ends the sequence. *)
Definition run_seq (f : node -> cfg -> res) : list node -> cfg -> res :=
  fix go (l : list node) (c : cfg) {struct l} : res :=
    match l with
    | [] => Done ONorm c
    | y :: r => bind (f y c) (fun o c' => match o with ONorm | OVal _ => go r c' | o => Done o c' end)
    end.
(** Expressions from left to right. *)
Definition run_args (f : node -> cfg -> res) : list node -> cfg -> (list value -> cfg -> res) -> res :=
  fix go (l : list node) (c : cfg) (k : list value -> cfg -> res) {struct l} : res :=
    match l with
    | [] => k [] c
    | y :: r => bindv (f y c) (fun v c' => go r c' (fun vs c'' => k (v :: vs) c''))
    end.
Definition run_fields (f : node -> cfg -> res) : list node -> cfg -> (list (text * value) -> cfg -> res) -> res :=
  fix go (l : list node) (c : cfg) (k : list (text * value) -> cfg -> res) {struct l} : res :=
    match l with
    | [] => k [] c
    | NNamed _ n e :: r => bindv (f e c) (fun v c' => go r c' (fun vs c'' => k ((n, v) :: vs) c''))
    | _ :: _ => Stuck
    end.
(** A block has its own scope. *)
Definition run_block (f : node -> cfg -> res) (b : node) (c : cfg) : res :=
  match b with NBlock _ ch => popr (run_seq f ch (push_scope c [])) | _ => Stuck end.
(** Branches of a conditional after the first; [k] is the last one. *)
Definition run_elifs (f : node -> cfg -> res) (k : cfg -> res) : list node -> cfg -> res :=
  fix go (l : list node) (c : cfg) {struct l} : res :=
    match l with
    | [] => k c
    | NSenaoSe _ cnd blk :: r =>
        bindv (f cnd c) (fun v c =>
        match v with VBool true => run_block f blk c | VBool false => go r c | _ => Stuck end)
    | _ :: _ => Stuck
    end.
(** The fields of a new record: a later one with the same name wins. *)
Definition fields_of (l : list (text * value)) : list (text * value) :=
  fold_left (fun st p => assoc_set st (fst p) (snd p)) l [].

(** Points where the interpreter spends fuel: a new iteration of a loop, the
    test of a counting loop, and a function body. *)
Inductive item := Again (x : node) | Test (x : node) | Body (ch : list node).
Definition recfun := item -> option N -> nat -> cfg -> res.

Section Sem.
Variable E : ext.
Variable S : senv.
(** At most this many calls may be active, the program itself being the first. *)
Definition max_depth : nat := 1000.

(** A name that is not a local variable. *)
Definition global_value (c : cfg) (m : option N) (n : text) : option value :=
  match se_imp S m n with
  | Some (i, n') => k_g c (Some i) n'
  | None => k_g c m n
  end.
Definition var_value (c : cfg) (m : option N) (n : text) : option value :=
  match look (k_l c) n with Some v => Some v | None => global_value c m n end.
Definition read_var (c : cfg) (m : option N) (n : text) : res :=
  match var_value c m n with Some v => Done (OVal v) c | None => Stuck end.
Definition write_var (c : cfg) (m : option N) (n : text) (v : value) : res :=
  match update (k_l c) n v with
  | Some l => Done ONorm (set_l c l)
  | None => Done ONorm (set_global c m n v)
  end.
Definition declare (c : cfg) (m : option N) (n : text) (v : value) : res :=
  match k_l c with
  | [] => Done ONorm (set_global c m n v)
  | sc :: r => Done ONorm (set_l c (((n, v) :: sc) :: r))
  end.

(** What a called name denotes. *)
Inductive target := TUser (m : option N) (fd : fundef) | TNative (n : text).
Definition call_target (c : cfg) (m : option N) (n : text) : option target :=
  match look (k_l c) n with
  | Some _ => None
  | None =>
      match se_imp S m n with
      | Some (i, n') =>
          match se_fun S (Some i) n' with
          | Some fd => Some (TUser (Some i) fd)
          | None => match k_g c (Some i) n' with Some (VNative b) => Some (TNative b) | _ => None end
          end
      | None => option_map (TUser m) (se_fun S m n)
      end
  end.

Definition show_all (h : heap) (vs : list value) : option text :=
  option_map (@List.concat N) (opt_map (show E h) vs).

Section Ev.
Variable rec : recfun.
Variable m : option N.    (* the module the code belongs to *)
Variable d : nat.         (* active calls *)

(** Calling a function with values: its own scope holds the parameters; the
    caller's local variables come back untouched. *)
Definition call_user (mm : option N) (fd : fundef) (vs : list value) (c : cfg) : res :=
  if negb (List.length vs =? List.length (fd_params fd))%nat then Stuck
  else if (max_depth <=? d)%nat then Fail ERecursion (k_w c)
  else
    bind (rec (Body (fd_body fd)) mm (Datatypes.S d)
              (mkCfg (k_w c) (k_g c) [List.combine (fd_params fd) vs]))
         (fun o c' =>
            match o with
            | ORet v => Done (OVal v) (set_l c' (k_l c))
            | ONorm => Done (OVal (VBool false)) (set_l c' (k_l c))
            | _ => Stuck
            end).
Definition call_any (t : target) (vs : list value) (c : cfg) : res :=
  match t with
  | TUser mm fd => call_user mm fd vs c
  | TNative b =>
      match native E b vs (k_w c) with
      | ROk (v, w) => Done (OVal v) (set_w c w)
      | RErr e => Fail e (k_w c)
      | RPanic => Stuck
      end
  end.

Fixpoint ev (x : node) (c : cfg) {struct x} : res :=
  match x with
  (* expressions *)
  | NConst _ k lex pr =>
      promote pr (match lit_value k lex with Some v => Done (OVal v) c | None => Stuck end)
  | NVar _ n _ pr => promote pr (read_var c m n)
  | NAlvo _ s => read_var c m (sy_name s)
  | NPath _ vid callable =>
      match se_tag S m vid with
      | Some t => if callable then Stuck else Done (OVal (VVariant t None)) c
      | None => Stuck
      end
  | NUn _ op e pr => promote pr (bindv (ev e c) (fun v c => lift (k_w c) (sem_unop op v) c))
  | NBin _ op nl nr l r pr =>
      promote pr (bindv (ev l c) (fun a c => bindv (ev r c) (fun b c =>
        if (nl || nr) && is_equality op then
          Done (OVal (VBool (xorb (match op with BNe => true | _ => false end) (is_none a && is_none b)))) c
        else lift (k_w c) (sem_binop op a b) c)))
  | NCall _ CVariant callee args _ =>
      match callee with
      | NPath _ vid true =>
          match se_tag S m vid with
          | Some t =>
              run_args ev args c (fun vs c =>
                Done (OVal (VVariant t (match vs with [] => None | _ => Some vs end))) c)
          | None => Stuck
          end
      | _ => Stuck
      end
  | NCall _ CType callee args pr =>
      match callee with
      | NVar _ n _ false =>
          promote pr (run_fields ev args c (fun fs c =>
            match look (k_l c) n, global_value c m n with
            | None, Some (VRegisto rn _) =>
                let (w, l) := halloc (k_w c) (CObj rn (fields_of fs)) in Done (OVal (VObj l)) (set_w c w)
            | _, _ => Stuck
            end))
      | _ => Stuck
      end
  | NCall _ CFunction callee args pr =>
      match callee with
      | NVar _ n _ false =>
          promote pr (run_args ev args c (fun vs c =>
            match call_target c m n with Some t => call_any t vs c | None => Stuck end))
      | _ => Stuck
      end
  | NConv _ e None => bindv (ev e c) (fun v c => Done (OVal v) c)
  | NConv _ e (Some (t, checked)) =>
      bindv (ev e c) (fun v c =>
      match type_named (sy_name t) with
      | None => Stuck
      | Some ty =>
          if checked then
            match get_type v with
            | Some vt => if vty_eqb vt ty then Done (OVal v) c else Fail (ECheckCast vt ty) (k_w c)
            | None => Stuck
            end
          else lift (k_w c) (vcast E (w_heap (k_w c)) v ty) c
      end)
  | NIndex _ t i =>
      bindv (ev t c) (fun tv c => bindv (ev i c) (fun iv c =>
      lift (k_w c) (index_get E (w_heap (k_w c)) tv iv) c))
  | NFmt _ ps =>
      run_args ev ps c (fun vs c =>
      match show_all (w_heap (k_w c)) vs with Some t => Done (OVal (VStr t)) c | None => Stuck end)
  | NList _ es =>
      run_args ev es c (fun vs c =>
      let (w, l) := halloc (k_w c) (CVec vs) in Done (OVal (VVec l)) (set_w c w))
  | NGet _ t f | NField _ t f =>
      bindv (ev t c) (fun tv c => lift (k_w c) (prop_get (w_heap (k_w c)) tv (VStr f)) c)
  | NUnwrap _ o None =>
      bindv (ev o c) (fun v c => if is_none v then Fail ENull (k_w c) else Done (OVal v) c)
  | NUnwrap _ o (Some dflt) =>
      bindv (ev o c) (fun v c => bindv (ev dflt c) (fun dv c => Done (OVal (if is_none v then dv else v)) c))
  (* statements *)
  | NIndexSet _ t i e =>
      bindv (ev t c) (fun tv c => bindv (ev i c) (fun iv c => bindv (ev e c) (fun v c =>
      match index_set (w_heap (k_w c)) tv iv v with
      | ROk h => Done ONorm (set_w c (set_heap (k_w c) h))
      | RErr e => Fail e (k_w c)
      | RPanic => Stuck
      end)))
  | NSet _ _ t f e =>
      bindv (ev t c) (fun tv c => bindv (ev e c) (fun v c =>
      match prop_set (w_heap (k_w c)) tv (VStr f) v with
      | ROk h => Done ONorm (set_w c (set_heap (k_w c) h))
      | RErr e => Fail e (k_w c)
      | RPanic => Stuck
      end))
  | NAssign _ n _ rhs _ =>
      (* [a = b = e] gives [a] the value [b] now has *)
      match rhs with
      | NAssign _ n2 _ _ pr2 =>
          bind (ev rhs c) (fun o c => match o with
          | ONorm => bindv (promote pr2 (read_var c m n2)) (fun v c => write_var c m n v)
          | _ => Stuck end)
      | _ => bindv (ev rhs c) (fun v c => write_var c m n v)
      end
  | NVarDecl _ n ty None => declare c m n (zero_value ty)
  | NVarDecl _ n _ (Some (NAssign _ _ _ rhs _)) =>
      match rhs with
      | NAssign _ n2 _ _ pr2 =>
          bind (ev rhs c) (fun o c => match o with
          | ONorm => bindv (promote pr2 (read_var c m n2)) (fun v c => declare c m n v)
          | _ => Stuck end)
      | _ => bindv (ev rhs c) (fun v c => declare c m n v)
      end
  | NSe _ cnd th elifs el =>
      bindv (ev cnd c) (fun v c =>
      match v with
      | VBool true => run_block ev th c
      | VBool false =>
          run_elifs ev (fun c => match el with Some b => run_block ev b c | None => Done ONorm c end) elifs c
      | _ => Stuck
      end)
  | NEnquanto _ cnd blk =>
      bindv (ev cnd c) (fun v c =>
      match v with
      | VBool true =>
          bind (run_block ev blk c) (fun o c =>
          match o with
          | ONorm | OCont => rec (Again x) m d c
          | OBrk => Done ONorm c
          | o => Done o c
          end)
      | VBool false => Done ONorm c
      | _ => Stuck
      end)
  | NPara _ n start _ _ _ =>
      bindv (ev start c) (fun v c => rec (Test x) m d (push_scope c [(n, v)]))
  | NRet _ (Some e) => bindv (ev e c) (fun v c => Done (ORet v) c)
  | NRet _ None => Done (ORet (VBool false)) c
  | NMostra _ e =>
      bindv (ev e c) (fun v c =>
      match show E (w_heap (k_w c)) v with
      | Some t => Done ONorm (set_w c (emit (k_w c) (t ++ [10%N])))
      | None => Stuck
      end)
  | NLoopCtl _ q => Done (if q then OBrk else OCont) c
  | NRegisto _ n fs => Done ONorm (set_global c m n (VRegisto n fs))
  | NFunc _ _ _ _ _ | NUniao _ _ _ | NNoOp _ => Done ONorm c
  | _ => Stuck
  end.

(** One round of a counting loop, from its test: the counter is in the
    innermost scope. *)
Definition para_round (x : node) (c : cfg) : res :=
  match x with
  | NPara _ n _ stop inc blk =>
      bindv (read_var c m n) (fun i c => bindv (ev stop c) (fun s c =>
      bindv (lift (k_w c) (sem_binop BLt i s) c) (fun v c =>
      match v with
      | VBool true =>
          bind (run_block ev blk c) (fun o c =>
          match o with
          | ONorm | OCont =>
              bindv (match inc with Some e => ev e c | None => Done (OVal (VInt 1)) c end) (fun k c =>
              bindv (read_var c m n) (fun i c =>
              bindv (lift (k_w c) (sem_binop BAdd k i) c) (fun i' c =>
              bind (write_var c m n i') (fun _ c => rec (Test x) m d c))))
          | OBrk => Done ONorm (pop_scope c)
          | o => Done o (pop_scope c)
          end)
      | VBool false => Done ONorm (pop_scope c)
      | _ => Stuck
      end)))
  | _ => Stuck
  end.
End Ev.

(** The interpreter, with fuel. *)
Fixpoint exec (fuel : nat) : recfun :=
  match fuel with
  | O => fun _ _ _ _ => Fuel
  | Datatypes.S n => fun it m d c =>
      match it with
      | Again x => ev (exec n) m d x c
      | Test x => para_round (exec n) m d x c
      | Body ch => popr (run_seq (ev (exec n) m d) ch (push_scope c []))
      end
  end.

(** The statements of a module, run as the first active call. *)
Definition exec_module (fuel : nat) (m : option N) (body : list node) (c : cfg) : res :=
  bind (run_seq (ev (exec fuel) m 1) body c) (fun o c => match o with ONorm => Done ONorm c | _ => Stuck end).
End Sem.
