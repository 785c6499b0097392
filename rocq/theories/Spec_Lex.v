(** What it means for a text to be a sequence of tokens, written without the
    lexer.  Used to state C18 and C19. *)
From Verif Require Import Base Lexer.
Local Open Scope Z_scope.

(** What Python's Unicode tables satisfy: the classes the lexer tells apart do
    not overlap. *)
Definition python_tables (U : uni) : Prop :=
  forall c, (128 <= c)%N ->
    (u_space U c = true -> u_alpha U c = false /\ u_digit U c = false) /\
    (u_alpha U c = true -> u_digit U c = false /\ u_alnum U c = true).

(** A blank is a space character that does not end the line. *)
Definition blank (U : uni) (c : N) : Prop := c <> NL /\ is_space U c = true.

(** What may stand between tokens: blanks, then possibly a comment reaching to
    the end of the line. [rest] is what follows. *)
Inductive gap (U : uni) : text -> text -> Prop :=
| gap_blanks b rest : Forall (blank U) b -> gap U b rest
| gap_comment b c rest :
    Forall (blank U) b -> ~ In NL c -> (rest = [] \/ exists r, rest = NL :: r) -> gap U (b ++ HASH :: c) rest.

(** The text [raw] written between two quotes [q] stands for [body]. *)
Inductive quoted (q : N) : text -> text -> Prop :=
| q_nil : quoted q [] []
| q_newline r b : quoted q r b -> quoted q (BSL :: 110%N :: r) (NL :: b)
| q_single r b : quoted q r b -> quoted q (BSL :: SQ :: r) (SQ :: b)
| q_double r b : quoted q r b -> quoted q (BSL :: DQ :: r) (DQ :: b)
| q_backslash c r b : c <> 110%N -> c <> SQ -> c <> DQ -> quoted q (c :: r) b -> quoted q (BSL :: c :: r) (BSL :: b)
| q_other c r b : c <> q -> c <> BSL -> quoted q r b -> quoted q (c :: r) (c :: b).

Definition head_is (P : N -> Prop) (t : text) : Prop := exists c r, t = c :: r /\ P c.
Definition word_char (U : uni) (c : N) : Prop := is_alnum U c = true \/ c = USC.
Definition word_start (U : uni) (c : N) : Prop := is_alpha U c = true \/ c = USC.

(** [w] is made of digits whose values are [ds]. *)
Definition digits (U : uni) (w : text) (ds : list Z) : Prop :=
  Forall2 (fun c d => is_digit U c = true /\ digit_val U c = Some d) w ds.
Definition decimal (ds : list Z) : Z := fold_left (fun a d => a * 10 + d) ds 0.
Definition within_limit (U : uni) (w : text) : Prop :=
  match u_limit U with Some m => (List.length w <= m)%nat | None => True end.

(** The signs and the reserved words of the language. *)
Definition signs : list (text * tk) :=
  [(txt "(", TLpar); (txt ")", TRpar); (txt ".", TDot); (txt "..", TDdot); (txt ";", TSemi); (txt ",", TComma);
   (txt "{", TLbrace); (txt "}", TRbrace); (txt "[", TLbracket); (txt "]", TRbracket); (txt "@", TAt);
   (txt "@@", TDoubleAt); (txt ":", TColon); (txt "?", TQmark); (txt "::", TDoubleColon); (txt ":>", TCast);
   (txt "=>", TArrow); (txt "\n", TNewline); (txt "+", TPlus); (txt "-", TMinus); (txt "*", TStar);
   (txt "/", TSlash); (txt "//", TDoubleSlash); (txt "%", TModulo); (txt "+=", TPlusEq); (txt "-=", TMinusEq);
   (txt "*=", TStarEq); (txt "/=", TSlashEq); (txt "<", TLess); (txt ">", TGreater); (txt "<=", TLessEq);
   (txt ">=", TGreaterEq); (txt "!=", TNotEqual); (txt "=", TEqual); (txt "==", TDoubleEqual)].
Definition reserved : list (text * tk) :=
  [(txt "mostra", TMostra); (txt "e", TE); (txt "ou", TOu); (txt "nao", TNao); (txt "verdadeiro", TVerdadeiro);
   (txt "falso", TFalso); (txt "caso", TCaso); (txt "retorna", TRetorna); (txt "produz", TProduz); (txt "se", TSe);
   (txt "senao", TSenao); (txt "senaose", TSenaoSe); (txt "escolha", TEscolha); (txt "entao", TEntao);
   (txt "enquanto", TEnquanto); (txt "para", TPara); (txt "faca", TFaca); (txt "de", TDe);
   (txt "continua", TContinua); (txt "quebra", TQuebra); (txt "usa", TUsa); (txt "como", TComo);
   (txt "alvo", TAlvo); (txt "registo", TRegisto); (txt "iguala", TIguala); (txt "inc", TInc); (txt "fim", TFim);
   (txt "func", TFunc); (txt "met", TMet); (txt "nulo", TNulo); (txt "vazio", TVazio); (txt "nativa", TNativa);
   (txt "uniao", TUniao); (txt "classe", TClasse)].

(** [w] is a way of writing a token of kind [k] with value [v]. *)
Inductive spells (U : uni) : tk -> lexeme -> text -> Prop :=
| sp_line : spells U TNewline (LText (txt "\n")) [NL]
| sp_symbol k w : In (w, k) signs -> spells U k (LText w) w
| sp_keyword k w : In (w, k) reserved -> spells U k (LText w) w
| sp_name c w : word_start U c -> Forall (word_char U) w -> (forall k, ~ In (c :: w, k) reserved) ->
    spells U TIdent (LText (c :: w)) (c :: w)
| sp_integer w ds : w <> [] -> digits U w ds -> within_limit U w -> spells U TInteger (LInt (decimal ds)) w
| sp_real a b da db : a <> [] -> b <> [] -> digits U a da -> digits U b db ->
    spells U TReal (LReal (a ++ DOTC :: b)) (a ++ DOTC :: b)
| sp_text q raw body : q = SQ \/ q = DQ -> quoted q raw body ->
    spells U TString (LText (q :: body ++ [q])) (q :: raw ++ [q])
| sp_format q raw body : q = SQ \/ q = DQ -> quoted q raw body ->
    spells U TFormat (LText (q :: body ++ [q])) (102%N :: q :: raw ++ [q]).

(** The token written [w] ends where [rest] begins: it cannot be made longer. *)
Definition stops (U : uni) (k : tk) (w rest : text) : Prop :=
  match k with
  | TInteger => ~ head_is (fun c => is_digit U c = true) rest /\
                ~ (exists c r, rest = DOTC :: c :: r /\ is_digit U c = true)
  | TReal => ~ head_is (fun c => is_digit U c = true) rest
  | TString | TFormat => True
  | _ =>
      (w = [NL] -> rest <> []) /\
      (head_is (word_start U) w ->
         ~ head_is (word_char U) rest /\ ~ (w = [102%N] /\ head_is (fun c => c = SQ \/ c = DQ) rest)) /\
      (forall c d r k', w = [c] -> rest = d :: r -> ~ In ([c; d], k') signs)
  end.

(** A token found in a text: its kind, its value, how it is written and the
    line it starts on. *)
Record item := mkItem { i_kind : tk; i_val : lexeme; i_written : text; i_line : Z }.

Definition line_ends (t : text) : Z := Z.of_nat (count_occ N.eq_dec t NL).

(** [src], starting on line [l], consists of these tokens. *)
Inductive reads (U : uni) : Z -> text -> list item -> Prop :=
| rd_end l g : gap U g [] -> reads U l g []
| rd_last_line l g : gap U g [NL] -> reads U l (g ++ [NL]) []
| rd_token l g k v w rest its :
    gap U g (w ++ rest) -> spells U k v w -> stops U k w rest ->
    reads U (l + line_ends w) rest its ->
    reads U l (g ++ w ++ rest) (mkItem k v w l :: its).

(** Two tokens agree in kind and value. *)
Definition says (t : token) (i : item) : Prop := t_kind t = i_kind i /\ t_lex t = i_val i.

(** The places where the lexer misreads an escape: a decoded escape, one other
    character, and a quote. *)
Definition slips (s : text) : Prop :=
  exists a e x y b, s = a ++ BSL :: e :: x :: y :: b /\ x <> BSL /\
    ((e = 110%N /\ (y = SQ \/ y = DQ)) \/ (e = SQ /\ y = DQ)).
