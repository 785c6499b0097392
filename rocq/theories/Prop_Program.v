(** C44: whole programs are read with the structure they are written with. *)
From Verif Require Import Base Lexer Spec_Lex LexFacts LexAll Prop_Lex Syntax Parser ParseFacts ParseTotal Spec_Parse ParseExpr ParseLine Prop_Parse
  Spec_Program ParseStmt ParseDecl ParseProg.
Local Open Scope Z_scope.

(** Whatever the spaces, comments and empty lines, a text written with the words
    of a program is parsed, into that program: every statement, in the order
    written, with the blocks, branches, cases, arms, parameters, types, fields,
    variants, annotations and imports written for it.  Missing from the full
    property: format strings, blocks used as expressions, line ends inside the
    brackets of expressions and parameters, and compound assignment to a field
    (which C20_field_refuted shows to be read otherwise). *)
Theorem C44_read_back_partial : forall U src p ws,
  python_tables U -> ~ slips src -> program_words p ws -> written U src ws ->
  exists m s, parse U src = POk m s /\ stands_for m p.
Proof. intros U src p ws HU Hs Hp Hw. apply (written_parse U src ws _ HU Hs Hw). intros N HN. now apply program_read. Qed.
Print Assumptions C44_read_back_partial.

Lemma usa_or_not x i s : shape_import x = Some i -> shape_st x = Some s -> False.
Proof. destruct x; discriminate. Qed.
Lemma split_same a : forall b a' b' is is' l l', a ++ b = a' ++ b' ->
  all shape_import a = Some is -> all shape_import a' = Some is' -> all shape_st b = Some l -> all shape_st b' = Some l' -> is = is' /\ l = l'.
Proof.
  induction a as [|x a IH]; intros b a' b' is is' l l' E H1 H2 H3 H4.
  - destruct a' as [|y a']; [cbn in E; subst b'; split; congruence|]. exfalso. cbn in E. subst b. cbn in H2, H3.
    destruct (shape_import y) eqn:A; [|discriminate]. destruct (shape_st y) eqn:B; [|discriminate]. eapply usa_or_not; eassumption.
  - destruct a' as [|y a'].
    + exfalso. cbn in E. subst b'. cbn in H1, H4.
      destruct (shape_import x) eqn:A; [|discriminate]. destruct (shape_st x) eqn:B; [|discriminate]. eapply usa_or_not; eassumption.
    + injection E as -> E. cbn in H1, H2. destruct (shape_import y) as [i|]; [|discriminate]. cbn in H1, H2.
      destruct (all shape_import a) as [js|] eqn:A; [|discriminate]. destruct (all shape_import a') as [js'|] eqn:B; [|discriminate].
      cbn in H1, H2. injection H1 as <-. injection H2 as <-. destruct (IH b a' b' js js' l l' E eq_refl B H3 H4) as [-> ->]. auto.
Qed.
Lemma stands_one m p q : stands_for m p -> stands_for m q -> p = q.
Proof.
  intros (N1 & a & b & E1 & I1 & B1) (N2 & a' & b' & E2 & I2 & B2). rewrite E1 in E2.
  destruct (split_same a b a' b' _ _ _ _ E2 I1 I2 B1 B2) as [Hi Hb]. destruct p, q. cbn in *. congruence.
Qed.

(** No text is written for two programs. *)
Theorem C44_unambiguous : forall p q ws, program_words p ws -> program_words q ws -> p = q.
Proof.
  intros p q ws Hp Hq.
  pose proof (program_read tables0 p ws (List.length ws) Hp (le_n _)) as P1.
  pose proof (program_read tables0 q ws (List.length ws) Hq (le_n _)) as P2.
  set (ts := map (fun w => mkTok (fst w) (snd w) 0 0) ws).
  assert (E : words ts = ws).
  { unfold ts, words. rewrite map_map. erewrite map_ext; [apply map_id|]. intros [k v]. reflexivity. }
  destruct (P1 ts eof0 E eq_refl) as (x & Ex & Qx). destruct (P2 ts eof0 E eq_refl) as (y & Ey & Qy).
  rewrite Ex in Ey. injection Ey as <-. eapply stands_one; eassumption.
Qed.
Print Assumptions C44_unambiguous.

(** An example with nested statements and most kinds of declarations. *)
Definition nl : String.string := String (Ascii.ascii_of_nat 10) EmptyString.
Fixpoint unlines (l : list String.string) : String.string :=
  match l with [] => EmptyString | s :: l' => String.append s (String.append nl (unlines l')) end.
Definition s44 : text := txt (unlines
  ["usa 'conta' => [soma, dobro]"; ""; "@feito(por = 'mim')"; "registo Ponto"; "   x, y: int"; "   nome: texto = 'p'; fim";
   "uniao Forma"; "  Circulo(int),"; "  Nada"; "fim"; "# comentario";
   "func f(a: int, b: [real]): int"; "  se a == 1 entao"; "    retorna 2"; "  senaose a == 2 entao retorna 3"; "  senao"; "    a += 1"; "  fim";
   "  para i de 0..a inc 2 faca"; "    enquanto i > 1 faca"; "       quebra"; "    fim"; "  fim"; "  retorna a"; "fim";
   "escolha x: "; " caso 1: mostra 1"; " senao: mostra 2"; "fim";
   "iguala q"; "  Forma::Circulo(r) => r, _ => faca"; " mostra 1"; " produz 0"; " fim"; "fim";
   "met Ponto::g(alvo, k: int)"; "fim"; "mostra x; x = 3"]%string).
Definition num (z : Z) : ex := EAtom (AInt z).
Definition tn (s : String.string) : ty := TyName (txt s) [] [] false.
Definition p44 : program :=
  mkProgram [] [mkImport (txt "'conta'") (ModSome (txt "soma") [txt "dobro"])]
   [SRecord [mkNote (txt "feito") [(txt "por", txt "'mim'")]] (txt "Ponto") []
      [(txt "x", tn "int", None); (txt "y", tn "int", None); (txt "nome", tn "texto", Some (EAtom (AText (txt "'p'"))))];
    SUnion [] (txt "Forma") [] [(txt "Circulo", [tn "int"]); (txt "Nada", [])];
    SFunc [] (txt "f") [(txt "a", tn "int"); (txt "b", TyList (tn "real") false)] (Some (tn "int"))
      [SIf (EBin BEq (nm "a") (num 1)) [SRet (Some (num 2))] [(EBin BEq (nm "a") (num 2), [SRet (Some (num 3))])]
         (Some [SLine (LSet (nm "a") (EBin BAdd (nm "a") (num 1)))]);
       SFor (txt "i") (num 0) (nm "a") (Some (num 2)) [SWhile (EBin BGt (nm "i") (num 1)) [SBreak]];
       SRet (Some (nm "a"))];
    SSwitch (nm "x") [(num 1, [SLine (LShow (num 1))])] (Some [SLine (LShow (num 2))]);
    SMatch (nm "q") [(PtVariant (txt "Forma") [txt "Circulo"] [PtName (txt "r")], [SYield (nm "r")]);
                     (PtName (txt "_"), [SLine (LShow (num 1)); SYield (num 0)])];
    SMethod [] [] (tn "Ponto") (txt "g") [(txt "k", tn "int")] None [];
    SLine (LShow (nm "x")); SLine (LSet (nm "x") (num 3))].

Lemma bl_1 a ws l' ws' : writes [a] ws -> Spec_Program.block l' ws' -> Spec_Program.block (a :: l') (ws ++ ws').
Proof. apply (bl_cons [a]). Qed.
Lemma cl_nl : closes w_nl. Proof. now left. Qed.
Lemma cl_semi : closes w_semi. Proof. now right. Qed.
Example C44_ex : exists ws, program_words p44 ws /\ written tables0 s44 ws.
Proof.
  Ltac nl := apply bl_line.
  Ltac one := eapply wr_simple; [constructor; cbn; auto|exact cl_nl].
  eexists. split.
  - unfold p44. eapply (pw [] _ _ 0); [constructor| | |congruence].
    + eapply sis_cons; [apply (si_some _ _ _ 1)|constructor].
    + match goal with |- body_words ?l _ => change l with (removelast l ++ [SLine (LSet (nm "x") (num 3))]) end.
      eapply bw_open; [cbn [removelast]|apply sm_line; exact I]. eapply bl_1.
      { eapply wr_record; [apply (sn_some _ _ 1); repeat constructor; cbn; auto|].
        apply (sf_many 1 _ _ [] _ w_nl); [exact cl_nl|]. apply (sf_one 0 _ _ _ w_semi); [exact cl_semi|]. apply (sf_nil 0). }
      nl. eapply bl_1.
      { eapply wr_union; [constructor|]. apply (su_some 1). apply (sv_more _ 1). apply (sv_one _ 1). }
      nl. nl. eapply bl_1.
      { eapply wr_func; [constructor|constructor|]. eapply bl_1.
        { eapply wr_if.
          - nl. eapply bl_1; [one|constructor].
          - eapply el_cons; [eapply bl_1; [one|constructor]|constructor].
          - apply oe_some. nl. eapply bl_1; [|constructor]. eapply wr_simple; [|exact cl_nl].
            eapply sm_compound; [reflexivity|exact I|discriminate]. }
        nl. eapply bl_1.
        { eapply wr_for. nl. eapply bl_1; [|nl; constructor]. eapply wr_while. nl. eapply bl_1; [one|constructor]. }
        nl. eapply bl_1; [one|constructor]. }
      nl. eapply bl_1.
      { apply (wr_switch _ 1).
        - eapply cs_cons; [eapply bl_1; [one|constructor]|constructor].
        - apply df_some. eapply bl_1; [one|constructor]. }
      nl. eapply bl_1.
      { apply (wr_match _ 1). eapply ma_arm.
        - apply (ar_expr 0 0). cbn. split; [left; discriminate|auto].
        - apply (mo_comma 0). eapply ma_arm; [|constructor]. apply (ar_block 0 1); [exact I|]. nl. eapply bl_1; [one|]. eapply bl_1; [one|constructor]. }
      nl. eapply bl_1; [eapply wr_method; [constructor|constructor|discriminate]|].
      nl. eapply bl_1; [eapply wr_simple; [constructor; exact I|exact cl_semi]|]. constructor.
  - apply written_words; [reflexivity|]. vm_compute. split; [reflexivity|eauto].
Qed.
