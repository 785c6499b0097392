(** The parser: /repo/amanda/compiler/parse.py:256-1355.

    The Python parser pulls tokens from the lexer one by one.  Lexing does not
    depend on parsing, so here the tokens are given as the list [tokenise]
    returns; a lexical error is raised when the parser reaches it.

    A syntax error is kept with its position and without its message. Python's
    recursion limit is not modelled. *)
From Verif Require Import Base Lexer Syntax.
Local Open Scope Z_scope.

(** What is left to read.  The first token is [self.lookahead]; when there is
    none left the lookahead is the end-of-file token, which [get_token] returns
    again when asked again. *)
Definition pst : Type := list token * ending.

Inductive pr (A : Type) :=
| POk (a : A) (s : pst)
| PErr (line col : Z)      (* AmandaError *)
| PCrash                   (* any other Python exception *)
| PFuel.                   (* not an outcome of the code: excluded by a theorem *)
Arguments POk {A}. Arguments PErr {A}. Arguments PCrash {A}. Arguments PFuel {A}.

Definition P (A : Type) : Type := pst -> pr A.
Definition ret {A} (a : A) : P A := fun s => POk a s.
Definition bind {A B} (m : P A) (f : A -> P B) : P B :=
  fun s => match m s with POk a s' => f a s' | PErr l c => PErr l c | PCrash => PCrash | PFuel => PFuel end.
Declare Scope parse_scope.
Notation "x <- m ;; k" := (bind m (fun x => k)) (at level 61, m at next level, right associativity) : parse_scope.
Notation "m ;;; k" := (bind m (fun _ => k)) (at level 61, right associativity) : parse_scope.
Local Open Scope parse_scope.

Definition eof0 : token := mkTok TEof (LText []) 0 0.
Definition look_tok (s : pst) : token :=
  match fst s with t :: _ => t | [] => match snd s with EEof t => t | _ => eof0 end end.
Definition look : P token := fun s => POk (look_tok s) s.
Definition kind (s : pst) : tk := t_kind (look_tok s).

(** [self.lookahead = self.lexer.get_token()] when [ts] is what remains. *)
Definition pull (ts : list token) (e : ending) : pr unit :=
  match ts with
  | _ :: _ => POk tt (ts, e)
  | [] => match e with
          | EEof _ => POk tt ([], e)
          | EErr _ l c => PErr l c
          | ECrash => PCrash
          | EFuel => PFuel
          end
  end.
Definition next : P unit := fun s => match fst s with _ :: ts => pull ts (snd s) | [] => POk tt s end.

(** [error]: parse.py:286-292, with no line given. *)
Definition error {A} : P A := fun s => PErr (t_line (look_tok s)) (t_col (look_tok s)).
Definition crash {A} : P A := fun _ => PCrash.

(** [match]: parse.py:298-299. *)
Definition is (k : tk) : P bool := fun s => POk (tk_eqb (kind s) k) s.
Definition one_of (ks : list tk) (k : tk) : bool := existsb (tk_eqb k) ks.

(** [consume]: parse.py:272-284. *)
Definition consume (k : tk) : P token :=
  fun s => if tk_eqb (kind s) k then (next ;;; ret (look_tok s)) s else error s.

(** [skip_newlines]: parse.py:294-296. *)
Fixpoint skip_nl (ts : list token) (e : ending) : pr unit :=
  match ts with
  | t :: r => if tk_eqb (t_kind t) TNewline then
                match r with [] => pull [] e | _ :: _ => skip_nl r e end
              else POk tt (ts, e)
  | [] => POk tt ([], e)
  end.
Definition skip_newlines : P unit := fun s => skip_nl (fst s) (snd s).
Definition consume_nl (k : tk) : P token := skip_newlines ;;; consume k.

(** [while c(lookahead): a = body(a)].  Every loop of the parser reads a token
    in each round, so the number of tokens left bounds the rounds. *)
Fixpoint while {A} (n : nat) (c : tk -> bool) (body : A -> P A) (a : A) : P A :=
  fun s => if c (kind s) then
             match n with O => PFuel | S n' => (a' <- body a ;; while n' c body a') s end
           else POk a s.
Definition loop {A} (c : tk -> bool) (body : A -> P A) (a : A) : P A :=
  fun s => while (S (List.length (fst s))) c body a s.
Definition not_in (ks : list tk) (k : tk) : bool := negb (one_of ks k).

(** ** Types *)

(** The functions that call each other again below a bracket, a keyword or a
    quoted expression. *)
Record rec := mkRec { r_eq : P sx; r_type : P sty; r_block : P (list sx); r_pat : P spat }.

Definition end_rec : rec := mkRec (fun _ => PFuel) (fun _ => PFuel) (fun _ => PFuel) (fun _ => PFuel).

Section Step.
Variable U : uni.
Variable R : rec.

(** [_is_maybe_type]: parse.py:411-416. *)
Definition is_maybe : P bool :=
  q <- is TQmark ;; if q then consume TQmark ;;; ret true else ret false.

(** [generic_args]: parse.py:540-557. *)
Definition generic_args : P (option (list sty)) :=
  b <- is TLbracket ;;
  if b then
    consume TLbracket ;;;
    e <- is TRbracket ;;
    if e then error else
    args <- loop (not_in [TRbracket])
              (fun args => ty <- r_type R ;; c <- is TComma ;;
                           (if c then consume TComma ;;; ret tt else ret tt) ;;; ret (args ++ [ty])) [] ;;
    consume TRbracket ;;; ret (Some args)
  else ret None.

(** [generic_params]: parse.py:559-576. *)
Definition generic_params : P (list token) :=
  b <- is TLbracket ;;
  if b then
    consume TLbracket ;;;
    e <- is TRbracket ;;
    if e then error else
    ps <- loop (not_in [TRbracket])
            (fun ps => i <- consume TIdent ;; c <- is TComma ;;
                       (if c then consume TComma ;;; ret tt else ret tt) ;;; ret (ps ++ [i])) [] ;;
    consume TRbracket ;;; ret ps
  else ret [].

(** [type_path], [type]: parse.py:418-444. *)
Definition type_path (h : token) : P sty :=
  comps <- loop (one_of [TDot])
             (fun cs => consume TDot ;;; i <- consume TIdent ;; ret (cs ++ [lex_text i])) [lex_text h] ;;
  g <- generic_args ;; q <- is_maybe ;; ret (YPath h comps g q).
Definition type_ : P sty :=
  t <- look ;;
  match t_kind t with
  | TIdent => name <- consume TIdent ;; d <- is TDot ;;
              if d then type_path name
              else g <- generic_args ;; q <- is_maybe ;; ret (YName name g q)
  | TLbracket => consume TLbracket ;;; el <- r_type R ;; consume TRbracket ;;;
                 q <- is_maybe ;; ret (YArr el q)
  | _ => error
  end.

(** [end_stmt]: parse.py:446-454. *)
Definition end_stmt : P unit :=
  t <- look ;;
  match t_kind t with
  | TNewline => consume TNewline ;;; ret tt
  | TSemi => consume TSemi ;;; ret tt
  | TEof => consume TEof ;;; ret tt
  | _ => error
  end.

(** ** Expressions *)

(** The token a node is built on: the [super().__init__] calls of ast.py. *)
Fixpoint node_tok (x : sx) : token :=
  match x with
  | XConst t | XPart t | XVar t | XPath t _ | XAlvo t | XUn t _ | XBin t _ _ | XNamed t _ | XConv t _ _
  | XIndex t _ _ | XIndexSet t _ _ | XGet _ t | XFmt t _ | XList t _ _ | XAssign t _ _ | XIguala t _ _
  | XArm t _ _ | XYield _ t _ | XDecl t _ _ _ | XMostra t _ | XRet t _ | XProduz t _ | XLoopCtl t
  | XSe t _ _ _ _ | XSenaoSe t _ _ | XEnquanto t _ _ | XPara t _ _ _ _ _ | XEscolha t _ _ _ | XCaso t _ _
  | XFunc t _ _ _ _ _ | XMet _ _ t _ _ _ _ | XReg t _ _ _ | XUni t _ _ _ | XUsa t _ _ => t
  | XCall c _ => node_tok c
  | XSet _ v => node_tok v
  | XBlock _ => program_tok
  end.

(** [iguala_arm]: parse.py:872-889. *)
Definition iguala_arm (eq : P sx) (pat : P spat) : P sx :=
  skip_newlines ;;;
  p <- pat ;;
  tok <- consume TArrow ;;
  skip_newlines ;;;
  f <- is TFaca ;;
  if f then
    tok <- consume TFaca ;; ch <- r_block R ;; consume TFim ;;;
    skip_newlines ;;; ret (XArm tok p (XYield (t_line tok) tok ch))
  else
    e <- eq ;; skip_newlines ;;;
    let t := node_tok e in
    ret (XArm tok p (XYield (t_line t) t [XProduz t e])).

(** [iguala_stmt]: parse.py:891-904. *)
Definition iguala_stmt (eq : P sx) (pat : P spat) : P sx :=
  tok <- consume TIguala ;;
  target <- eq ;;
  let arm := iguala_arm eq pat in
  arms <- loop (not_in [TFim])
            (fun arms => a <- arm ;;
               loop (one_of [TComma]) (fun arms => consume TComma ;;; a <- arm ;; ret (arms ++ [a])) (arms ++ [a])) [] ;;
  consume TFim ;;; ret (XIguala tok target arms).

(** [args], [named_arg]: parse.py:1306-1329. *)
Definition arg : P sx :=
  e <- r_eq R ;;
  c <- is TColon ;;
  match e with
  | XVar t => if c then consume TColon ;;; v <- r_eq R ;; ret (XNamed t v) else ret e
  | _ => ret e
  end.
Definition args : P (list sx) :=
  skip_newlines ;;;
  r <- is TRpar ;;
  l <- (if r then ret [] else a <- arg ;; ret [a]) ;;
  skip_newlines ;;;
  l <- loop (one_of [TComma])
         (fun l => consume_nl TComma ;;; skip_newlines ;;; a <- arg ;; skip_newlines ;;; ret (l ++ [a])) l ;;
  skip_newlines ;;; ret l.

(** *** Format strings: parse.py:1151-1239 *)
Definition RBRC : N := 125.
Definition LBRC : N := 123.

(** The characters up to the next "}" and what follows it. *)
Fixpoint to_brace (s : text) : option (text * text) :=
  match s with
  | [] => None
  | c :: r => if N.eqb c RBRC then Some ([], r)
              else match to_brace r with Some (a, b) => Some (c :: a, b) | None => None end
  end.

(** [str.strip]. *)
Fixpoint lstrip (s : text) : text :=
  match s with c :: r => if is_space U c then lstrip r else s | [] => [] end.

(** [parse_fstr_expr]: parse.py:1151-1193.  [expr_str[:2]] is only compared
    with two-character texts, so stripping the right end does not matter once
    the text is not empty. *)
Definition fstr_expr (token : token) (e : text) : P sx :=
  fun s =>
    match lstrip e with
    | [] => error s
    | c :: r =>
        if N.eqb c 102 && match r with q :: _ => N.eqb q SQ || N.eqb q DQ | [] => false end then error s
        else
          let '(ts, fin) := tokenise U e in
          match (match pull ts fin with
                 | POk _ s' => r_eq R s'
                 | PErr l c => PErr l c
                 | PCrash => PCrash
                 | PFuel => PFuel
                 end) with
          | POk x _ => POk x s
          | PErr _ _ => PErr (t_line token) (t_col token)
          | PCrash => PCrash
          | PFuel => PFuel
          end
    end.

Definition fpart (token : token) (w : text) : sx := XPart (mkTok TString (LText w) (t_line token) (t_col token)).
Definition flush (token : token) (cur : text) : list sx := match cur with [] => [] | _ => [fpart token cur] end.

(** The loop of [parse_format_str]; [cur] is [current_str], [s] the unread
    part beginning with [char]. *)
Fixpoint fmt_loop (fuel : nat) (token : token) (cur : text) (parts : list sx) (has : bool) (s : text)
  : P (list sx * bool) :=
  match fuel with
  | O => fun _ => PFuel
  | S fuel' =>
      match s with
      | [] => ret (parts ++ flush token cur, has)
      | c :: r =>
          if N.eqb c LBRC then
            match r with
            | d :: r' =>
                if N.eqb d LBRC then fmt_loop fuel' token (cur ++ [LBRC]) parts has r'
                else match to_brace r with
                     | Some (e, rest) =>
                         x <- fstr_expr token e ;;
                         fmt_loop fuel' token [] (parts ++ flush token cur ++ [x]) true rest
                     | None => error
                     end
            | [] => error
            end
          else fmt_loop fuel' token (cur ++ [c]) parts has r
      end
  end.

Definition inner (w : text) : text := removelast (tl w).
Definition parse_format_str : P sx :=
  token <- consume TFormat ;;
  let body := inner (lex_text token) in
  r <- fmt_loop (S (List.length body)) token [] [] false body ;;
  let '(parts, has) := r in
  if has then ret (XFmt token parts)
  else match parts with p :: _ => ret p | [] => crash end.    (* IndexError *)

(** [primary]: parse.py:1241-1304. *)
Definition primary (pat : P spat) : P sx :=
  t <- look ;;
  match t_kind t with
  | TIdent =>
      consume TIdent ;;;
      d <- is TDoubleColon ;;
      if d then
        tl <- loop (one_of [TDoubleColon])
                (fun l => consume TDoubleColon ;;; i <- consume TIdent ;; ret (l ++ [i])) [] ;;
        ret (XPath t tl)
      else ret (XVar t)
  | TInteger | TReal | TString | TNulo | TVerdadeiro | TFalso => consume (t_kind t) ;;; ret (XConst t)
  | TLbracket =>
      tok <- consume TLbracket ;;
      skip_newlines ;;;
      ty <- r_type R ;;
      consume TColon ;;;
      e <- is TRbracket ;;
      l <- (if e then ret [] else
              skip_newlines ;;;
              x <- r_eq R ;;
              loop (not_in [TRbracket])
                (fun l => consume_nl TComma ;;; skip_newlines ;;; x <- r_eq R ;; skip_newlines ;;; ret (l ++ [x])) [x]) ;;
      consume_nl TRbracket ;;;
      ret (XList tok ty l)
  | TFormat => parse_format_str
  | TLpar => consume TLpar ;;; e <- r_eq R ;; consume TRpar ;;; ret e
  | TAlvo => consume TAlvo ;;; ret (XAlvo t)
  | TIguala => iguala_stmt (r_eq R) pat
  | _ => error
  end.

(** [pattern], [capture_or_adt_pattern]: parse.py:834-870. *)
Definition pattern : P spat :=
  x <- primary (r_pat R) ;;
  let adt path h tl :=
    b <- is TLpar ;;
    if b then
      consume TLpar ;;;
      p <- r_pat R ;;
      skip_newlines ;;;
      ps <- loop (one_of [TComma]) (fun ps => consume TComma ;;; p <- r_pat R ;; ret (ps ++ [p])) [p] ;;
      consume TRpar ;;;
      ret (PaAdt path h tl ps)
    else if path then ret (PaAdt true h tl []) else ret (PaBind h) in
  match x with
  | XPath h tl => adt true h tl
  | XVar t => adt false t []
  | XConst t | XPart t =>
      match t_kind t with
      | TInteger => ret (PaInt t)
      | TString => ret (PaStr t)
      | _ => crash            (* unreachable() raises *)
      end
  | _ => error
  end.

(** [call]: parse.py:1123-1149. *)
Definition call : P sx :=
  e <- primary (r_pat R) ;;
  e <- loop (one_of [TLpar; TDot; TLbracket])
         (fun e => t <- look ;;
            match t_kind t with
            | TLpar => consume TLpar ;;; l <- args ;; consume TRpar ;;; ret (XCall e l)
            | TLbracket => consume TLbracket ;;; i <- r_eq R ;; tok <- consume TRbracket ;; ret (XIndex tok e i)
            | _ => consume TDot ;;; i <- consume TIdent ;; ret (XGet e i)
            end) e ;;
  c <- is TCast ;;
  if c then tok <- consume TCast ;; ty <- type_ ;; ret (XConv tok e ty) else ret e.

(** [unary]: parse.py:1115-1121. *)
Fixpoint unary_ (n : nat) : P sx :=
  t <- look ;;
  if one_of [TPlus; TMinus; TNao] (t_kind t) then
    match n with
    | O => fun _ => PFuel
    | S n' => tok <- consume (t_kind t) ;; e <- unary_ n' ;; ret (XUn tok e)
    end
  else call.
Definition unary : P sx := fun s => unary_ (S (List.length (fst s))) s.

(** The binary levels: [term], [addition], [comparison], [equality]
    (parse.py:1033-1083, 1331-1347; the operator functions only consume the operator). *)
Definition binary (ops : list tk) (operand : P sx) : P sx :=
  e <- operand ;;
  loop (one_of ops) (fun e => t <- look ;; op <- consume (t_kind t) ;; r <- operand ;; ret (XBin op e r)) e.
Definition term : P sx := binary [TStar; TDoubleSlash; TSlash; TModulo; TE] unary.
Definition addition : P sx := binary [TPlus; TMinus; TOu] term.
Definition comparison : P sx := binary [TGreater; TGreaterEq; TLess; TLessEq] addition.
Definition equality : P sx := binary [TDoubleEqual; TNotEqual] comparison.

(** [is_assignable]: ast.py:67, 146, 439, 449, 459. *)
Definition assignable (x : sx) : bool :=
  match x with XVar _ | XGet _ _ | XIndex _ _ _ | XIndexSet _ _ _ => true | _ => false end.

(** [assignment]: parse.py:1019-1031. *)
Fixpoint assignment_ (n : nat) : P sx :=
  e <- equality ;;
  b <- is TEqual ;;
  if b then
    tok <- consume TEqual ;;
    if negb (assignable e) then error else
    match n with
    | O => fun _ => PFuel
    | S n' =>
        v <- assignment_ n' ;;
        match e with
        | XGet _ _ => ret (XSet e v)
        | XIndex _ _ _ => ret (XIndexSet tok e v)
        | _ => ret (XAssign tok e v)
        end
    end
  else ret e.
Definition assignment : P sx := fun s => assignment_ (S (List.length (fst s))) s.

(** [compound_operator]: parse.py:976-985. *)
Definition compound_op (k : tk) : option (tk * text) :=
  match k with
  | TPlusEq => Some (TPlus, txt "+")
  | TMinusEq => Some (TMinus, txt "-")
  | TStarEq => Some (TStar, txt "*")
  | TSlashEq => Some (TSlash, txt "/")
  | _ => None
  end.

(** [expression], [compound_assignment]: parse.py:967-1017. *)
Definition expression : P sx :=
  e <- assignment ;;
  t <- look ;;
  match compound_op (t_kind t) with
  | None => ret e
  | Some (k, w) =>
      if negb (assignable e) then error else
      let eq := mkTok TEqual (LText (txt "=")) (t_line t) (t_col t) in
      let op := mkTok k (LText w) (t_line t) (t_col t) in
      consume (t_kind t) ;;;
      match e with
      | XGet _ _ => v <- assignment ;; ret (XSet e v)
      | XIndex _ _ _ => r <- equality ;; ret (XIndexSet op e (XBin op e r))
      | _ => r <- equality ;; ret (XAssign eq e (XBin op e r))
      end
  end.

(** ** Statements *)

(** [get_decl_assign], [simple_decl]: parse.py:932-946. *)
Definition simple_decl (name : token) : P sx :=
  tok <- consume TColon ;;
  ty <- type_ ;;
  b <- is TEqual ;;
  if b then eq <- consume TEqual ;; e <- equality ;; ret (XDecl tok name ty (Some (eq, e)))
  else ret (XDecl tok name ty None).

(** [multi_decl]: parse.py:948-965. *)
Definition multi_decl (name : token) : P (list sx) :=
  names <- loop (one_of [TComma]) (fun l => consume TComma ;;; i <- consume TIdent ;; ret (l ++ [i])) [name] ;;
  tok <- consume TColon ;;
  ty <- type_ ;;
  ret (map (fun n => XDecl tok n ty None) names).

(** [decl_stmt]: parse.py:922-930. *)
Definition decl_stmt : P (list sx) :=
  e <- expression ;;
  t <- look ;;
  l <- (match e with
        | XVar n => match t_kind t with
                    | TColon => d <- simple_decl n ;; ret [d]
                    | TComma => multi_decl n
                    | _ => ret [e]
                    end
        | _ => ret [e]
        end) ;;
  end_stmt ;;; ret l.

(** Where [block] stops: parse.py:364-370. *)
Definition block_end : list tk := [TFim; TSenao; TSenaoSe; TCaso; TEof].
Definition block : P (list sx) := r_block R.

(** [se_statement], [se_iguala_stmt], [senaose_branch]: parse.py:723-789. *)
Definition se_iguala_stmt (token : token) : P sx :=
  consume TIguala ;;;
  target <- equality ;;
  consume TArrow ;;;
  p <- pattern ;;
  consume TEntao ;;;
  th <- block ;;
  b <- is TSenao ;;
  el <- (if b then consume TSenao ;;; l <- block ;; ret (Some l) else ret None) ;;
  consume TFim ;;;
  let ptok := match p with PaInt t | PaStr t | PaBind t | PaAdt _ t _ _ => t end in
  let then_arm := XArm ptok p (XYield 1 program_tok th) in
  let tok := match el with Some _ => program_tok | None => token end in
  let any := mkTok TIdent (LText (txt "_")) 0 0 in
  let else_arm := XArm tok (PaBind any)
                    (XYield (t_line token) tok (match el with Some l => l | None => [] end)) in
  ret (XIguala token target [then_arm; else_arm]).
Definition senaose_branch : P sx :=
  tok <- consume TSenaoSe ;; c <- equality ;; consume TEntao ;;; b <- block ;; ret (XSenaoSe tok c (XBlock b)).
Definition se_statement : P sx :=
  tok <- consume TSe ;;
  i <- is TIguala ;;
  if i then se_iguala_stmt tok else
  c <- equality ;;
  consume TEntao ;;;
  th <- block ;;
  elifs <- loop (one_of [TSenaoSe]) (fun l => x <- senaose_branch ;; ret (l ++ [x])) [] ;;
  b <- is TSenao ;;
  el <- (if b then consume TSenao ;;; l <- block ;; ret (Some (XBlock l)) else ret None) ;;
  consume TFim ;;;
  ret (XSe tok c (XBlock th) elifs el).

(** [enquanto_stmt], [para_stmt] with [for_expression] and
    [range_expression], [escolha_stmt]: parse.py:791-832, 906-920. *)
Definition enquanto_stmt : P sx :=
  tok <- consume TEnquanto ;; c <- equality ;; consume TFaca ;;; b <- block ;; consume TFim ;;;
  ret (XEnquanto tok c (XBlock b)).
Definition para_stmt : P sx :=
  tok <- consume TPara ;;
  name <- consume TIdent ;;
  consume TDe ;;;
  a <- equality ;; consume TDdot ;;; z <- equality ;;
  i <- is TInc ;;
  inc <- (if i then consume TInc ;;; x <- equality ;; ret (Some x) else ret None) ;;
  consume TFaca ;;; b <- block ;; consume TFim ;;;
  ret (XPara tok name a z inc (XBlock b)).
Definition escolha_stmt : P sx :=
  tok <- consume TEscolha ;;
  e <- equality ;;
  consume TColon ;;;
  skip_newlines ;;;
  cases <- loop (one_of [TCaso])
             (fun l => t <- consume TCaso ;; x <- equality ;; consume TColon ;;; b <- block ;;
                       ret (l ++ [XCaso t x (XBlock b)])) [] ;;
  d <- is TSenao ;;
  df <- (if d then consume TSenao ;;; consume TColon ;;; b <- block ;; ret (Some (XBlock b)) else ret None) ;;
  consume TFim ;;;
  ret (XEscolha tok e cases df).

(** [mostra_statement], [loop_ctl_statement], [retorna_statement],
    [produz_statement], [statement]: parse.py:675-721. *)
Definition statement : P (list sx) :=
  t <- look ;;
  match t_kind t with
  | TMostra => tok <- consume TMostra ;; e <- equality ;; end_stmt ;;; ret [XMostra tok e]
  | TRetorna =>
      tok <- consume TRetorna ;;
      n <- look ;;
      e <- (if one_of [TSemi; TNewline] (t_kind n) then ret None else e <- equality ;; ret (Some e)) ;;
      end_stmt ;;; ret [XRet tok e]
  | TProduz => tok <- consume TProduz ;; e <- equality ;; end_stmt ;;; ret [XProduz tok e]
  | TEnquanto => x <- enquanto_stmt ;; ret [x]
  | TSe => x <- se_statement ;; ret [x]
  | TPara => x <- para_stmt ;; ret [x]
  | TEscolha => x <- escolha_stmt ;; ret [x]
  | TQuebra | TContinua => tok <- consume (t_kind t) ;; end_stmt ;;; ret [XLoopCtl tok]
  | TIguala => x <- iguala_stmt equality pattern ;; ret [x]
  | _ => decl_stmt
  end.

(** ** Declarations *)

(** [annotation_body], [annotations], [module_annotations]:
    parse.py:323-328, 1085-1113. *)
Fixpoint set_attr (k v : text) (l : list (text * text)) : list (text * text) :=
  match l with
  | [] => [(k, v)]
  | (k', v') :: l' => if text_eqb k k' then (k, v) :: l' else (k', v') :: set_attr k v l'
  end.
Definition annotation_body : P annot :=
  tok <- consume TIdent ;;
  b <- is TLpar ;;
  if negb b then ret (mkAnnot (lex_text tok) [] tok) else
  consume TLpar ;;;
  e <- is TRpar ;;
  if e then error else
  attrs <- loop (not_in [TRpar])
             (fun l => k <- consume TIdent ;; consume TEqual ;;; v <- consume TString ;;
                       c <- is TComma ;; (if c then consume TComma ;;; ret tt else ret tt) ;;;
                       ret (set_attr (lex_text k) (lex_text v) l)) [] ;;
  consume TRpar ;;; ret (mkAnnot (lex_text tok) attrs tok).
Definition annotations (k : tk) : P (list annot) :=
  loop (one_of [k]) (fun l => consume k ;;; a <- annotation_body ;; ret (l ++ [a])) [].

(** [formal_params]: parse.py:658-673. *)
Definition formal_params : P (list sparam) :=
  let param := name <- consume_nl TIdent ;; consume TColon ;;; ty <- type_ ;; ret (mkParam name ty) in
  skip_newlines ;;;
  i <- is TIdent ;;
  if i then
    p <- param ;;
    loop (not_in [TRpar]) (fun l => consume_nl TComma ;;; p <- param ;; skip_newlines ;;; ret (l ++ [p])) [p]
  else ret [].

(** [function_header], [native_func_decl], [function_decl]:
    parse.py:456-485, 525-538. *)
Definition function_decl (ans : list annot) : P sx :=
  consume TFunc ;;;
  nat <- is TNativa ;;
  (if nat then consume TNativa ;;; ret tt else ret tt) ;;;
  name <- consume TIdent ;;
  consume TLpar ;;;
  ps <- formal_params ;;
  consume TRpar ;;;
  c <- is TColon ;;
  ty <- (if c then consume TColon ;;; v <- is TVazio ;;
           if v then consume TVazio ;;; ret None else t <- type_ ;; ret (Some t)
         else ret None) ;;
  if nat then end_stmt ;;; ret (XFunc name ps ty true [] None)
  else b <- block ;; consume TFim ;;; ret (XFunc name ps ty false ans (Some (XBlock b))).

(** [method_decl]: parse.py:487-523. *)
Definition method_decl (ans : list annot) : P sx :=
  consume TMet ;;;
  g <- generic_params ;;
  ty <- type_ ;;
  consume TDoubleColon ;;;
  name <- consume TIdent ;;
  consume TLpar ;;;
  consume TAlvo ;;;
  c <- is TComma ;;
  ps <- (if c then consume TComma ;;; formal_params else ret []) ;;
  consume TRpar ;;;
  c <- is TColon ;;
  rt <- (if c then consume TColon ;;; t <- type_ ;; ret (Some t) else ret None) ;;
  b <- block ;;
  consume TFim ;;;
  ret (XMet g ty name ps rt ans (XBlock b)).

(** [uniao_decl], [uniao_body], [uniao_variant]: parse.py:578-621. *)
Definition uniao_variant : P svariant :=
  name <- consume TIdent ;;
  b <- is TLpar ;;
  if b then
    consume TLpar ;;; skip_newlines ;;;
    ty <- type_ ;;
    l <- loop (one_of [TComma])
           (fun l => skip_newlines ;;; consume TComma ;;; skip_newlines ;;; ty <- type_ ;; skip_newlines ;;;
                     ret (l ++ [ty])) [ty] ;;
    consume TRpar ;;; ret (mkVariant name l)
  else ret (mkVariant name []).
Definition uniao_body : P (list svariant) :=
  skip_newlines ;;;
  i <- is TIdent ;;
  l <- (if i then
          v <- uniao_variant ;; skip_newlines ;;;
          loop (one_of [TComma])
            (fun l => skip_newlines ;;; consume TComma ;;; skip_newlines ;;; v <- uniao_variant ;; ret (l ++ [v])) [v]
        else ret []) ;;
  skip_newlines ;;; ret l.
Definition uniao_decl (ans : list annot) : P sx :=
  consume TUniao ;;; name <- consume TIdent ;; g <- generic_params ;; l <- uniao_body ;; consume TFim ;;;
  ret (XUni name g l ans).

(** [registo_decl], [registo_body]: parse.py:623-656. *)
Definition registo_body : P (list sx) :=
  loop (not_in [TFim; TEof])
    (fun l => t <- look ;;
       match t_kind t with
       | TNewline => skip_newlines ;;; ret l
       | TIdent =>
           name <- consume TIdent ;;
           n <- look ;;
           fs <- (match t_kind n with
                  | TColon => d <- simple_decl name ;; ret [d]
                  | TComma => multi_decl name
                  | _ => ret []
                  end) ;;
           end_stmt ;;; ret (l ++ fs)
       | _ => error
       end) [].
Definition registo_decl (ans : list annot) : P sx :=
  consume TRegisto ;;; name <- consume TIdent ;; g <- generic_params ;; l <- registo_body ;; consume TFim ;;;
  ret (XReg name g l ans).

(** [declaration]: parse.py:386-409. *)
Definition declaration : P (list sx) :=
  a <- is TAt ;;
  ans <- (if a then
            ans <- annotations TAt ;; skip_newlines ;;;
            t <- look ;;
            if one_of [TFunc; TMet; TRegisto; TUniao] (t_kind t) then ret ans else error
          else ret []) ;;
  t <- look ;;
  match t_kind t with
  | TFunc => x <- function_decl ans ;; ret [x]
  | TMet => x <- method_decl ans ;; ret [x]
  | TRegisto => x <- registo_decl ans ;; ret [x]
  | TUniao => x <- uniao_decl ans ;; ret [x]
  | _ => statement
  end.

(** [block], [append_child]: parse.py:359-384. *)
Definition children (stop : list tk) : P (list sx) :=
  loop (not_in stop)
    (fun l => b <- is TNewline ;;
       if b then consume TNewline ;;; ret l else x <- declaration ;; ret (l ++ x)) [].

(** [usa_stmt]: parse.py:330-357. *)
Definition usa_stmt : P sx :=
  tok <- consume TUsa ;;
  m <- consume TString ;;
  a <- is TArrow ;;
  if negb a then end_stmt ;;; ret (XUsa tok MGlobal m) else
  consume TArrow ;;;
  t <- look ;;
  match t_kind t with
  | TIdent => i <- consume TIdent ;; ret (XUsa tok (MScoped i) m)
  | TLbracket =>
      consume TLbracket ;;;
      i <- consume TIdent ;;
      l <- loop (one_of [TComma]) (fun l => consume TComma ;;; i <- consume TIdent ;; ret (l ++ [lex_text i]))
             [lex_text i] ;;
      consume TRbracket ;;; ret (XUsa tok (MItem l) m)
  | _ => error
  end.

(** [module]: parse.py:304-321. *)
Definition module_ : P smodule :=
  skip_newlines ;;;
  ans <- annotations TDoubleAt ;;
  us <- loop (one_of [TUsa]) (fun l => u <- usa_stmt ;; skip_newlines ;;; ret (l ++ [u])) [] ;;
  l <- children [TEof] ;;
  ret (mkModule ans (us ++ l)).

Definition step : rec := mkRec equality type_ (children block_end) pattern.
End Step.

(** [n] bounds the nesting of brackets, blocks and quoted expressions. *)
Fixpoint run (U : uni) (n : nat) : rec :=
  match n with O => end_rec | S n' => step U (run U n') end.

(** [parse]: parse.py:1350-1355.  [Parser.__init__] reads the first token. *)
Definition parse_tokens (U : uni) (n : nat) (ts : list token) (e : ending) : pr smodule :=
  match pull ts e with
  | POk _ s => module_ U (run U n) s
  | PErr l c => PErr l c
  | PCrash => PCrash
  | PFuel => PFuel
  end.
Definition parse (U : uni) (src : text) : pr smodule :=
  let '(ts, e) := tokenise U src in parse_tokens U (S (List.length src)) ts e.
