(** A part of the language on which the analyser is shown never to fail with an
    exception ([Prop_Plain.v]), given by the shape of the text alone.

    [R]: the text has records; [V]: it has vectors.  Left out are the constructs
    for which an exception is known ([Prop_Crash.v], [Prop_Front.v]) and those not
    treated: unions, [iguala], blocks as expressions, generic and optional types,
    imports, native functions. *)
From Verif Require Import Base Value Lexer Ast Types Syntax Sym Check.

(** Names a text may declare: not the three that the analyser itself looks up. *)
Definition needed_names : list text := [txt "int"; txt "texto"; txt "vazio"].
Definition free_name (n : text) : bool := negb (existsb (text_eqb n) needed_names).
(** Names a text may use: not the optional type of the library and its method. *)
Definition used_name (n : text) : bool := negb (text_eqb n (txt "Opcao") || text_eqb n (txt "valor_ou")).
Definition both (n : text) : bool := free_name n && used_name n.

(** Expressions whose form shows that they are of a primitive type. *)
Definition primitive_form (x : sx) : bool := match x with XConst _ | XBin _ _ _ | XUn _ _ | XFmt _ _ => true | _ => false end.

Section Plain.
Variables R V : bool.

Fixpoint plain_type (y : sty) : bool :=
  match y with
  | YArr el q => V && negb q && plain_type el
  | YName t None q => negb q && used_name (lex_text t)
  | _ => false
  end.
Definition plain_result (o : option sty) : bool := match o with Some y => plain_type y | None => true end.
Definition plain_param (p : sparam) : bool := both (lex_text (sp_name p)) && plain_type (sp_ty p).
(** What [se], [enquanto] and [escolha] look at. *)
Definition plain_head (x : sx) : bool := primitive_form x || (negb R && negb V).

(** The functions of the library that are checked apart. *)
Definition plain_args (n : text) (args : list sx) : bool :=
  if text_eqb n (txt "vec") then
    V && (List.length args <? 256)%nat &&
    match args with XVar t :: sizes => used_name (lex_text t) && forallb plain_head sizes | _ :: _ => false | [] => true end
  else if text_eqb n (txt "anexa") || text_eqb n (txt "remova") then (2 <=? List.length args)%nat
  else true.

Definition plain_const (t : token) : bool :=
  match t_kind t with
  | TInteger => match t_lex t with LInt _ => true | _ => false end
  | Lexer.TReal | TString | TVerdadeiro | TFalso | Lexer.TNulo => true
  | _ => false
  end.

Fixpoint plain (x : sx) : bool :=
  match x with
  | XConst t => plain_const t
  | XPart _ | XAlvo _ => true
  | XVar t => used_name (lex_text t)
  | XUn t e => match uop_of (t_kind t) with Some _ => plain e | None => false end
  | XBin t a b => match bop_of (t_kind t) with Some _ => plain a && plain b | None => false end
  | XCall callee args =>
      let l := map plain args in
      match callee with
      | XVar t => used_name (lex_text t) && plain_args (lex_text t) args && forallb (fun b => b) (if text_eqb (lex_text t) (txt "vec") then tl l else l)
      | XGet _ m => plain callee && negb (existsb (text_eqb (lex_text m)) [txt "vec"; txt "anexa"; txt "remova"]) && forallb (fun b => b) l
      | _ => false
      end
  | XNamed _ e => plain e
  | XConv _ e y => plain e && plain_type y
  | XIndex _ a i => plain a && plain i
  | XIndexSet _ i v => negb R && plain i && plain v
  | XGet a m => plain a && used_name (lex_text m)
  | XSet target v => match target with XGet _ _ => plain target | _ => false end && plain v
  | XFmt _ l => forallb plain l
  | XList _ y l => V && plain_type y && forallb plain l
  | XAssign _ (XVar v) r => used_name (lex_text v) && plain r
  | XDecl _ n y i => both (lex_text n) && plain_type y && match i with Some (_, e) => plain e | None => true end
  | XMostra _ e => plain e
  | XRet _ (Some e) => plain e
  | XRet _ None => true
  | XLoopCtl _ => true
  | XSe _ c th l el => plain_head c && plain c && plain th && forallb (fun c => match c with XSenaoSe _ a b => plain_head a && plain a && plain b | _ => false end) l && match el with Some e => plain e | None => true end
  | XEnquanto _ c b => plain_head c && plain c && plain b
  | XPara _ n a z i b => both (lex_text n) && plain a && plain z && match i with Some e => plain e | None => true end && plain b
  | XEscolha _ e l d =>
      plain_head e && plain e && forallb (fun c => match c with XCaso _ a b => plain a && plain b | _ => false end) l && match d with Some b => plain b | None => true end
  | XBlock l => forallb plain l
  | _ => false
  end.

(** Declarations, which stand outside blocks. *)
Definition plain_field (x : sx) : bool := match x with XDecl _ n y None => both (lex_text n) && plain_type y | _ => false end.
Definition plain_top (x : sx) : bool :=
  match x with
  | XFunc n ps y native [] (Some b) => negb native && both (lex_text n) && forallb plain_param ps && plain_result y && match b with XBlock _ => plain b | _ => false end
  | XMet [] (YName t None false) n ps ret [] b =>
      used_name (lex_text t) && both (lex_text n) && forallb plain_param ps && plain_result ret && match b with XBlock _ => plain b | _ => false end
  | XReg n [] fields _ => R && both (lex_text n) && forallb plain_field fields
  | _ => plain x
  end.
End Plain.

(** ** The library *)
(** Symbols of the library whose types are primitive. *)
Definition primitive_type (t : cty) : bool := match t with CPrim _ => true | _ => false end.
Definition primitive_var (st : store) (i : nat) : bool :=
  match nth_error (so_syms st) i with Some x => match s_kind x with SVar t => primitive_type t | _ => false end | None => false end.
Definition simple_sym (st : store) (x : symbol) : bool :=
  match s_kind x with
  | SPrim _ => true
  | SVar t => primitive_type t
  | SFun r ps => primitive_type r && forallb (fun p => primitive_var st (snd p)) ps
  | _ => false
  end.
(** The state the analyser starts in once the library is loaded: outside every
    function, every name but [Opcao] and [valor_ou] with a simple symbol, and the
    names the analyser looks up standing for primitive types. *)
Definition library_ready (s : sst) : bool :=
  let st := sst_st s in let c := sst_cx s in
  (cx_scope c =? cx_global c)%nat && match cx_func c with None => true | Some _ => false end &&
  match nth_error (so_scopes st) (cx_global c) with
  | Some top =>
      match sc_up top with None => true | Some _ => false end &&
      forallb (fun e => match nth_error (so_syms st) (snd e) with
                        | Some x => text_eqb (s_name x) (fst e) && (negb (used_name (fst e)) || simple_sym st x)
                        | None => false
                        end) (sc_syms top) &&
      forallb (fun n => match assoc n (sc_syms top) with
                        | Some i => match nth_error (so_syms st) i with Some x => match s_kind x with SPrim _ => true | _ => false end | None => false end
                        | None => false
                        end) needed_names
  | None => false
  end &&
  match nth_error (so_scopes st) (cx_ty c) with
  | Some types => match sc_up types, sc_syms types with None, [] => true | _, _ => false end
  | None => false
  end &&
  match so_prims st with [] => true | _ => false end.
