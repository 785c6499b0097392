(** The lexer: /repo/amanda/compiler/parse.py:14-253 and
    /repo/amanda/compiler/tokens.py. *)
From Verif Require Import Base.
Local Open Scope Z_scope.

(** ** Characters
    The lexer asks Python about characters.  For ASCII the answers are written
    out; for other characters they come from Python's Unicode tables, which
    are a parameter.  [u_dec] is the digit value [int] and [float] give a
    character, [None] when they raise ValueError; [u_limit] is the longest
    digit string [int] accepts (sys.get_int_max_str_digits), [None] for
    unlimited. *)
Record uni := mkUni { u_space : N -> bool; u_alpha : N -> bool; u_alnum : N -> bool; u_digit : N -> bool;
                      u_dec : N -> option Z; u_limit : option nat }.

Definition between (a b c : N) : bool := ((a <=? c) && (c <=? b))%N.
Definition ascii_space (c : N) : bool := between 9 13 c || between 28 32 c.
Definition ascii_digit (c : N) : bool := between 48 57 c.
Definition ascii_alpha (c : N) : bool := between 65 90 c || between 97 122 c.

Section Chars.
Variable U : uni.
(** [str.isspace], [str.isalpha], [str.isalnum], [str.isdigit]. *)
Definition is_space (c : N) : bool := if (c <? 128)%N then ascii_space c else u_space U c.
Definition is_alpha (c : N) : bool := if (c <? 128)%N then ascii_alpha c else u_alpha U c.
Definition is_digit (c : N) : bool := if (c <? 128)%N then ascii_digit c else u_digit U c.
Definition is_alnum (c : N) : bool :=
  if (c <? 128)%N then ascii_alpha c || ascii_digit c else u_alnum U c.
Definition digit_val (c : N) : option Z :=
  if (c <? 128)%N then (if ascii_digit c then Some (Z.of_N c - 48) else None) else u_dec U c.
End Chars.

Definition NL : N := 10.
Definition HASH : N := 35.
Definition DQ : N := 34.
Definition SQ : N := 39.
Definition BSL : N := 92.
Definition DOTC : N := 46.
Definition USC : N := 95.

(** ** Tokens: tokens.py:7-98. *)
Inductive tk :=
| TEof | TInteger | TReal | TString | TFormat | TIdent
| TLpar | TRpar | TDot | TDdot | TSemi | TComma | TLbrace | TRbrace | TLbracket | TRbracket
| TAt | TDoubleAt | TColon | TQmark | TDoubleColon | TCast | TArrow | TNewline
| TPlus | TMinus | TStar | TSlash | TDoubleSlash | TModulo | TPlusEq | TMinusEq | TStarEq | TSlashEq
| TLess | TGreater | TLessEq | TGreaterEq | TNotEqual | TEqual | TDoubleEqual
| TMostra | TE | TOu | TNao | TVerdadeiro | TFalso | TCaso | TRetorna | TProduz | TSe | TSenao | TSenaoSe
| TEscolha | TEntao | TEnquanto | TPara | TFaca | TDe | TContinua | TQuebra | TUsa | TComo | TAlvo
| TRegisto | TIguala | TInc | TFim | TFunc | TMet | TNulo | TVazio | TNativa | TUniao | TClasse.

Definition tk_eq_dec (a b : tk) : {a = b} + {a <> b}.
Proof. decide equality. Defined.
Definition tk_eqb (a b : tk) : bool := if tk_eq_dec a b then true else false.

(** [Token.lexeme]: a text, or for literals the Python number. A real keeps the
    digits [float] was given. *)
Inductive lexeme := LText (t : text) | LInt (z : Z) | LReal (t : text).

(** [class Token]: tokens.py:112-118. *)
Record token := mkTok { t_kind : tk; t_lex : lexeme; t_line : Z; t_col : Z }.

(** [Token.TOKENS] ([build_tokens_dict]): tokens.py:100-109. *)
Definition symbols : list (text * tk) :=
  [(txt "(", TLpar); (txt ")", TRpar); (txt ".", TDot); (txt "..", TDdot); (txt ";", TSemi); (txt ",", TComma);
   (txt "{", TLbrace); (txt "}", TRbrace); (txt "[", TLbracket); (txt "]", TRbracket); (txt "@", TAt);
   (txt "@@", TDoubleAt); (txt ":", TColon); (txt "?", TQmark); (txt "::", TDoubleColon); (txt ":>", TCast);
   (txt "=>", TArrow); (txt "\n", TNewline); (txt "+", TPlus); (txt "-", TMinus); (txt "*", TStar);
   (txt "/", TSlash); (txt "//", TDoubleSlash); (txt "%", TModulo); (txt "+=", TPlusEq); (txt "-=", TMinusEq);
   (txt "*=", TStarEq); (txt "/=", TSlashEq); (txt "<", TLess); (txt ">", TGreater); (txt "<=", TLessEq);
   (txt ">=", TGreaterEq); (txt "!=", TNotEqual); (txt "=", TEqual); (txt "==", TDoubleEqual)].

(** [KEYWORDS] ([build_reserved_keywords]): tokens.py:136-146. *)
Definition keywords : list (text * tk) :=
  [(txt "mostra", TMostra); (txt "e", TE); (txt "ou", TOu); (txt "nao", TNao); (txt "verdadeiro", TVerdadeiro);
   (txt "falso", TFalso); (txt "caso", TCaso); (txt "retorna", TRetorna); (txt "produz", TProduz); (txt "se", TSe);
   (txt "senao", TSenao); (txt "senaose", TSenaoSe); (txt "escolha", TEscolha); (txt "entao", TEntao);
   (txt "enquanto", TEnquanto); (txt "para", TPara); (txt "faca", TFaca); (txt "de", TDe);
   (txt "continua", TContinua); (txt "quebra", TQuebra); (txt "usa", TUsa); (txt "como", TComo);
   (txt "alvo", TAlvo); (txt "registo", TRegisto); (txt "iguala", TIguala); (txt "inc", TInc); (txt "fim", TFim);
   (txt "func", TFunc); (txt "met", TMet); (txt "nulo", TNulo); (txt "vazio", TVazio); (txt "nativa", TNativa);
   (txt "uniao", TUniao); (txt "classe", TClasse)].

Fixpoint lookup_tk (t : text) (l : list (text * tk)) : option tk :=
  match l with [] => None | (k, v) :: l' => if text_eqb k t then Some v else lookup_tk t l' end.

(** [Token.from_char]: tokens.py:120-128 (the kind only). *)
Definition from_char (t : text) : option tk := lookup_tk t symbols.

(** [is_ambiguous_char]: tokens.py:149-158. *)
Definition is_ambiguous (c : N) : bool :=
  existsb (fun p => match fst p with a :: _ :: _ => N.eqb a c | _ => false end) symbols.

(** ** The lexer state
    [lx_rest] is [current_char] followed by what is still unread, so it is
    empty when [current_char] is the end marker.  The state before the first
    [advance] (parse.py:227-228) is not kept apart: [start] is the state after it. *)
Record lex := mkLex { lx_line : Z; lx_pos : Z; lx_rest : text }.

(** [pos] after [advance]: parse.py:36-43 (it counts characters, not the end). *)
Definition adv (rest : text) (pos : Z) : Z := match rest with [] => pos | _ => pos + 1 end.

Definition start (src : text) : lex := mkLex 1 (adv src 1) src.

Inductive lexerr := InvalidSymbol | InvalidString.
Inductive lexres :=
| LTok (t : token) (s : lex)
| LErr (e : lexerr) (line pos : Z)
| LCrash               (* Python ValueError from [int] or [float] *)
| LFuel.               (* not an outcome of the code: excluded by a theorem *)

(** A [while p(current_char): result += current_char; advance()] loop. *)
Fixpoint eat (p : N -> bool) (rest : text) (pos : Z) : text * text * Z :=
  match rest with
  | c :: r => if p c then let '(w, r', pos') := eat p r (adv r pos) in (c :: w, r', pos') else ([], rest, pos)
  | [] => ([], [], pos)
  end.

Section Lex.
Variable U : uni.

(** [comment]: parse.py:75-77. *)
Definition comment (rest : text) (pos : Z) : text * Z :=
  let '(_, r, p) := eat (fun c => negb (N.eqb c NL)) rest pos in (r, p).

(** [whitespace]: parse.py:65-73. *)
Definition whitespace (rest : text) (pos : Z) : text * Z :=
  let '(_, r, p) := eat (fun c => negb (N.eqb c NL) && is_space U c) rest pos in
  match r with
  | c :: _ => if N.eqb c HASH then comment r p else (r, p)
  | [] => (r, p)
  end.

(** [int(result)]: the value, [None] for ValueError. *)
Fixpoint digits_val (acc : Z) (t : text) : option Z :=
  match t with
  | [] => Some acc
  | c :: t' => match digit_val U c with Some d => digits_val (acc * 10 + d) t' | None => None end
  end.
Definition py_int (t : text) : option Z :=
  match u_limit U with
  | Some m => if (m <? List.length t)%nat then None else digits_val 0 t
  | None => digits_val 0 t
  end.
(** [float(result)] raises ValueError unless every digit is a decimal digit. *)
Definition float_ok (a b : text) : bool :=
  match digits_val 0 a, digits_val 0 b with Some _, Some _ => true | _, _ => false end.

Definition peek (rest : text) : option N := match rest with _ :: c :: _ => Some c | _ => None end.

(** [number]: parse.py:126-147. *)
Definition number (line pos : Z) (rest : text) : lexres :=
  let '(w, r, p) := eat (is_digit U) rest pos in
  match r with
  | c :: r1 =>
      if N.eqb c DOTC then
        match r1 with
        | d :: _ =>
            if is_digit U d then
              let '(w2, r2, p2) := eat (is_digit U) r1 (adv r1 p) in
              let res := w ++ DOTC :: w2 in
              if float_ok w w2
              then LTok (mkTok TReal (LReal res) line (p2 - (Z.of_nat (List.length res) + 1))) (mkLex line p2 r2)
              else LCrash
            else match py_int w with
                 | Some z => LTok (mkTok TInteger (LInt z) line (p - (Z.of_nat (List.length w) + 1))) (mkLex line p r)
                 | None => LCrash end
        | [] => match py_int w with
                | Some z => LTok (mkTok TInteger (LInt z) line (p - (Z.of_nat (List.length w) + 1))) (mkLex line p r)
                | None => LCrash end
        end
      else match py_int w with
           | Some z => LTok (mkTok TInteger (LInt z) line (p - (Z.of_nat (List.length w) + 1))) (mkLex line p r)
           | None => LCrash end
  | [] => match py_int w with
          | Some z => LTok (mkTok TInteger (LInt z) line (p - (Z.of_nat (List.length w) + 1))) (mkLex line p r)
          | None => LCrash end
  end.

(** [escape_seq]: parse.py:149-155.  It tests the character after the current
    one and does not look at the current one. *)
Definition escape_seq (char seq : N) (s : bool * text * text * Z) : bool * text * text * Z :=
  let '(hit, res, rest, pos) := s in
  match rest with
  | _ :: c :: r => if N.eqb c char then (true, res ++ [seq], r, adv r (adv (c :: r) pos)) else s
  | _ => s
  end.

(** The loop of [string]: parse.py:162-179, returning the text read, the input
    after the closing quote and the position there. *)
Inductive strres := SDone (body rest : text) (pos : Z) | SErr (pos : Z) | SFuel.
Fixpoint string_loop (fuel : nat) (symbol : N) (res rest : text) (pos : Z) : strres :=
  match fuel with
  | O => SFuel
  | S fuel' =>
      match rest with
      | [] => SErr pos
      | c :: r =>
          if N.eqb c symbol then SDone res r (adv r pos)
          else if N.eqb c BSL then
            let '(hit, res', rest', pos') :=
              escape_seq DQ DQ (escape_seq SQ SQ (escape_seq 110 NL (false, res, rest, pos))) in
            if hit then string_loop fuel' symbol res' rest' pos'
            else string_loop fuel' symbol (res ++ [BSL]) r (adv r pos)
          else string_loop fuel' symbol (res ++ [c]) r (adv r pos)
      end
  end.

(** [string]: parse.py:157-188. *)
Definition string (kind : tk) (line pos : Z) (symbol : N) (r : text) : lexres :=
  match string_loop (S (List.length r)) symbol [] r (adv r pos) with
  | SDone body rest p => LTok (mkTok kind (LText (symbol :: body ++ [symbol])) line pos) (mkLex line p rest)
  | SErr p => LErr InvalidString line p
  | SFuel => LFuel
  end.

(** [identifier]: parse.py:190-202. *)
Definition identifier (line pos : Z) (rest : text) : lexres :=
  let '(w, r, p) := eat (fun c => is_alnum U c || N.eqb c USC) rest pos in
  let kind := match lookup_tk w keywords with Some k => k | None => TIdent end in
  LTok (mkTok kind (LText w) line (p - (Z.of_nat (List.length w) + 1))) (mkLex line p r).

(** [common_toks]: parse.py:204-224; [None] stands for the error raised by
    [get_token] (parse.py:249-253), which happens after the character was
    skipped. *)
Definition common_toks (line pos : Z) (c : N) (r : text) : lexres :=
  let one :=
    match from_char [c] with
    | Some k => LTok (mkTok k (LText [c]) line pos) (mkLex line (adv r pos) r)
    | None => LErr InvalidSymbol line (adv r pos)
    end in
  if is_ambiguous c then
    match r with
    | d :: r' =>
        match from_char [c; d] with
        | Some k => LTok (mkTok k (LText [c; d]) line pos) (mkLex line (adv r' (adv r pos)) r')
        | None => one
        end
    | [] => one
    end
  else one.

(** [get_token]: parse.py:226-253. *)
Definition get_token (s : lex) : lexres :=
  let line := lx_line s in
  let '(rest, pos) :=
    match lx_rest s with
    | c :: _ => if N.eqb c HASH then comment (lx_rest s) (lx_pos s) else (lx_rest s, lx_pos s)
    | [] => (lx_rest s, lx_pos s)
    end in
  let '(rest, pos) :=
    match rest with
    | c :: _ => if negb (N.eqb c NL) && is_space U c then whitespace rest pos else (rest, pos)
    | [] => (rest, pos)
    end in
  match rest with
  | [] => LTok (mkTok TEof (LText []) line pos) (mkLex line pos [])
  | c :: r =>
      if N.eqb c NL then
        match r with
        | [] => LTok (mkTok TEof (LText []) line (pos - 1)) (mkLex line pos [])
        | _ :: _ => LTok (mkTok TNewline (LText (txt "\n")) line pos) (mkLex (line + 1) (adv r 1) r)  (* newline: 57-63 *)
        end
      else if N.eqb c SQ || N.eqb c DQ then string TString line pos c r
      else if is_alpha U c || N.eqb c USC then
        match r with
        | q :: r' =>
            if N.eqb c 102 && (N.eqb q DQ || N.eqb q SQ)
            then string TFormat line (adv r pos) q r'      (* format_str: 221-224 *)
            else identifier line pos rest
        | [] => identifier line pos rest
        end
      else if is_digit U c then number line pos rest
      else common_toks line pos c r
  end.

(** Tokens until the end of the text, as the parser pulls them
    (parse.py:270-296).  The parser stops at its first error, so it sees a
    prefix of this. *)
Inductive ending := EEof (t : token) | EErr (e : lexerr) (line pos : Z) | ECrash | EFuel.
Fixpoint tokens (fuel : nat) (s : lex) : list token * ending :=
  match fuel with
  | O => ([], EFuel)
  | S fuel' =>
      match get_token s with
      | LTok t s' =>
          if tk_eqb (t_kind t) TEof then ([], EEof t)
          else let '(ts, e) := tokens fuel' s' in (t :: ts, e)
      | LErr e l p => ([], EErr e l p)
      | LCrash => ([], ECrash)
      | LFuel => ([], EFuel)
      end
  end.
Definition tokenise (src : text) : list token * ending := tokens (S (List.length src)) (start src).
End Lex.
