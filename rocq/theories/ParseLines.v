(** The lines in the tree that the parser builds are lines of the words read
    (files without format strings). *)
From Verif Require Import Base Lexer Spec_Lex LexFacts LexAll Syntax Parser ParseFacts ParseTotal Spec_Lines.
Local Open Scope Z_scope.
Local Open Scope parse_scope.

Section Lines.
Variable E : Z -> Prop.
Hypothesis E1 : E 1.

Definition fine (t : token) : Prop := E (t_line t) /\ t_kind t <> TFormat.
Definition sfine (s : pst) : Prop :=
  Forall fine (fst s) /\ match snd s with EEof t => fine t | _ => fst s <> [] end.
Definition tr {A} (m : P A) (G : A -> Prop) : Prop :=
  forall s, sfine s -> match m s with POk a s' => sfine s' /\ G a | _ => True end.
Definition any {A} (_ : A) : Prop := True.

Lemma tr_ret {A} (a : A) (G : A -> Prop) : G a -> tr (ret a) G.
Proof. intros H s Hs. cbn. auto. Qed.
Lemma tr_bind {A B} (m : P A) (f : A -> P B) G H : tr m G -> (forall a, G a -> tr (f a) H) -> tr (bind m f) H.
Proof. intros Hm Hf s Hs. unfold bind. specialize (Hm s Hs). destruct (m s) as [a s'| | |]; auto. destruct Hm as [Hs' Ha]. now apply Hf. Qed.
Lemma tr_weak {A} (m : P A) (G H : A -> Prop) : tr m G -> (forall a, G a -> H a) -> tr m H.
Proof. intros Hm W s Hs. specialize (Hm s Hs). destruct (m s); auto. destruct Hm; auto. Qed.
Lemma tr_error {A} (G : A -> Prop) : tr error G.
Proof. intros s Hs. exact I. Qed.
Lemma tr_crash {A} (G : A -> Prop) : tr crash G.
Proof. intros s Hs. exact I. Qed.
Lemma tr_fuel {A} (G : A -> Prop) : tr (fun _ => PFuel) G.
Proof. intros s Hs. exact I. Qed.
Lemma look_fine s : sfine s -> fine (look_tok s).
Proof. intros [H1 H2]. unfold look_tok. destruct (fst s) as [|t r]; [destruct (snd s); auto; congruence|]. now inversion H1. Qed.
Lemma tr_look : tr look fine.
Proof. intros s Hs. cbn. split; [exact Hs|now apply look_fine]. Qed.
Lemma tr_is k : tr (is k) any.
Proof. intros s Hs. cbn. split; [exact Hs|exact I]. Qed.
Lemma pull_fine ts e : Forall fine ts -> match e with EEof t => fine t | _ => True end ->
  match pull ts e with POk _ s' => sfine s' | _ => True end.
Proof. intros H1 H2. unfold pull. destruct ts; [destruct e; try exact I; split; auto|]. split; [exact H1|]. cbn. destruct e; auto; discriminate. Qed.
Lemma tr_next : tr next any.
Proof.
  intros [ts e] [H1 H2]. unfold next. cbn [fst snd] in *. destruct ts as [|t r]; [cbn; repeat split; auto|]. inversion H1; subst.
  pose proof (pull_fine r e ltac:(assumption)) as Q. destruct (pull r e); auto. split; [apply Q; destruct e; auto|exact I].
Qed.
Lemma tr_consume k : tr (consume k) fine.
Proof.
  intros s Hs. unfold consume. destruct (tk_eqb (kind s) k); [|exact I]. unfold bind. pose proof (tr_next s Hs) as Q. destruct (next s); auto. destruct Q as [Q _].
  cbn. split; [exact Q|now apply look_fine].
Qed.
Lemma tr_skip : tr skip_newlines any.
Proof.
  intros [ts e] [H1 H2]. unfold skip_newlines. cbn [fst snd] in *. assert (H3 : ts = [] -> match e with EEof t => fine t | _ => False end) by (intros ->; destruct e; auto).
  assert (H4 : match e with EEof t => fine t | _ => True end) by (destruct e; auto).
  clear H2. induction ts as [|t r IH]; cbn [skip_nl].
  - split; [|exact I]. split; [constructor|]. specialize (H3 eq_refl). cbn. destruct e; auto; contradiction.
  - inversion H1; subst. destruct (tk_eqb (t_kind t) TNewline).
    + destruct r as [|t' r']; [pose proof (pull_fine [] e (Forall_nil _) H4) as Q; destruct (pull [] e); auto; split; [exact Q|exact I]|]. apply IH; [assumption|discriminate].
    + split; [|exact I]. split; [exact H1|]. cbn. destruct e; auto; discriminate.
Qed.
Lemma tr_consume_nl k : tr (consume_nl k) fine.
Proof. unfold consume_nl. eapply tr_bind; [apply tr_skip|]. intros. apply tr_consume. Qed.
Lemma tr_while {A} c (body : A -> P A) (G : A -> Prop) : (forall a, G a -> tr (body a) G) -> forall n a, G a -> tr (while n c body a) G.
Proof.
  intros Hb. induction n as [|n IH]; intros a Ha s Hs; cbn [while]; destruct (c (kind s)); auto.
  exact (tr_bind _ _ _ _ (Hb a Ha) IH s Hs).
Qed.
Lemma tr_loop {A} c (body : A -> P A) a (G : A -> Prop) : G a -> (forall a, G a -> tr (body a) G) -> tr (loop c body a) G.
Proof. intros Ha Hb s Hs. unfold loop. now apply tr_while. Qed.

(** Statements after which the analyser can stand on line 1: those that end with
    a block. *)
Definition tidy (x : sx) : bool :=
  match x with
  | XSe _ _ _ _ _ | XSenaoSe _ _ _ | XEnquanto _ _ _ | XPara _ _ _ _ _ _ | XEscolha _ _ _ _ | XCaso _ _ _ | XBlock _
  | XFunc _ _ _ _ _ _ | XMet _ _ _ _ _ _ _ | XReg _ _ _ _ | XUsa _ _ _ => false
  | _ => true
  end.
(** None of them stands where an expression is expected. *)
Fixpoint proper (x : sx) : bool :=
  let ex (y : sx) := tidy y && proper y in
  let opt (o : option sx) := match o with Some y => ex y | None => true end in
  let blk (o : option sx) := match o with Some y => proper y | None => true end in
  match x with
  | XConst _ | XPart _ | XVar _ | XPath _ _ | XAlvo _ | XLoopCtl _ | XUni _ _ _ _ => true
  | XUsa _ _ _ => false
  | XUn _ e | XNamed _ e | XConv _ e _ | XMostra _ e | XProduz _ e | XGet e _ => ex e
  | XBin _ a b | XIndex _ a b | XIndexSet _ a b | XAssign _ a b | XSet a b => ex a && ex b
  | XSenaoSe _ a b | XEnquanto _ a b | XCaso _ a b => ex a && proper b
  | XCall f l => ex f && forallb ex l
  | XFmt _ l | XList _ _ l => forallb ex l
  | XIguala _ e l => ex e && forallb ex l
  | XArm _ _ b => ex b
  | XYield _ _ l | XBlock l => forallb proper l
  | XDecl _ _ _ None => true
  | XDecl _ _ _ (Some (_, y)) => ex y
  | XRet _ o => opt o
  | XSe _ c th l el => ex c && proper th && forallb proper l && blk el
  | XPara _ _ a z i b => ex a && ex z && opt i && proper b
  | XEscolha _ e l d => ex e && forallb proper l && blk d
  | XFunc _ _ _ _ _ b => blk b
  | XMet _ _ _ _ _ _ b => proper b
  | XReg _ _ l _ => forallb ex l
  end.
Definition okx (x : sx) : Prop := Forall E (lines_of x) /\ proper x = true.
Definition oke (x : sx) : Prop := okx x /\ tidy x = true.
Definition okl (l : list sx) : Prop := Forall okx l.
Definition okel (l : list sx) : Prop := Forall oke l.
Definition okp (p : spat) : Prop := Forall E (pat_lines p).
Lemma flat_ok {A} (f : A -> list Z) l : Forall (fun x => Forall E (f x)) l <-> Forall E (flat_map f l).
Proof.
  induction l as [|a l IH]; cbn; [split; constructor|]. rewrite Forall_app, <- IH. split; [intros H; inversion H; auto|intros []; constructor; auto].
Qed.
Lemma oke_x x : oke x -> okx x.
Proof. intros []. assumption. Qed.
Lemma okel_l l : okel l -> okl l.
Proof. apply Forall_impl. apply oke_x. Qed.
Lemma okl_lines l : okl l -> Forall E (flat_map lines_of l).
Proof. intros H. apply flat_ok. eapply Forall_impl; [|exact H]. intros x []. assumption. Qed.
Lemma okel_lines l : okel l -> Forall E (flat_map lines_of l).
Proof. intros H. apply okl_lines. now apply okel_l. Qed.
Lemma okl_proper l : okl l -> forallb proper l = true.
Proof. intros H. apply forallb_forall. intros x Hx. unfold okl in H. rewrite Forall_forall in H. now destruct (H x Hx). Qed.
Lemma okel_proper l : okel l -> forallb (fun y => tidy y && proper y) l = true.
Proof. intros H. apply forallb_forall. intros x Hx. unfold okel in H. rewrite Forall_forall in H. destruct (H x Hx) as [[_ ->] ->]. reflexivity. Qed.
Lemma okl_app a b : okl a -> okl b -> okl (a ++ b).
Proof. intros. apply Forall_app. auto. Qed.
Lemma okl_one x : okx x -> okl [x].
Proof. intros. constructor; auto. Qed.
Lemma okel_app a b : okel a -> okel b -> okel (a ++ b).
Proof. intros. apply Forall_app. auto. Qed.
Lemma okel_one x : oke x -> okel [x].
Proof. intros. constructor; auto. Qed.
Lemma node_line x : Forall E (lines_of x) -> E (t_line (node_tok x)).
Proof.
  revert x. fix IH 1. intros x H. destruct x; cbn [node_tok lines_of] in *;
    try (inversion H; assumption); try exact E1.
  - apply Forall_app in H as [H _]. now apply IH.
  - apply Forall_app in H as [_ H]. now apply IH.
  - inversion H; subst. inversion H3; assumption.
  - destruct init as [[? ?]|]; inversion H; assumption.
Qed.

Section Step.
Variable U : uni.
Variable R : rec.
Hypothesis Req : tr (r_eq R) oke.
Hypothesis Rty : tr (r_type R) any.
Hypothesis Rbl : tr (r_block R) okl.
Hypothesis Rpa : tr (r_pat R) okp.

Ltac fin' :=
  unfold any, fine, okp in *;
  repeat match goal with
         | H : okl ?l |- _ => pose proof (okl_lines _ H); apply okl_proper in H
         | H : okel ?l |- _ => pose proof (okel_lines _ H); apply okel_proper in H
         | H : oke _ |- _ => destruct H
         | H : okx _ |- _ => destruct H
         | H : _ /\ _ |- _ => destruct H
         end;
  unfold oke, okx;
  cbn [lines_of pat_lines arm_lines proper tidy andb forallb flat_map];
  repeat match goal with
         | H : ?b = true |- context [?b] => rewrite H
         end; cbn [andb];
  repeat first [ assumption | exact I | exact E1 | reflexivity | split | apply Forall_nil | apply Forall_cons | apply Forall_app; split | (apply (proj1 (flat_ok _ _))) | (now auto) ].
Ltac fin := first [assumption | exact I | fin'].
Ltac go :=
  repeat first
    [ apply tr_error | apply tr_crash | apply tr_fuel
    | match goal with
      | |- tr (ret _) _ => apply tr_ret
      | |- tr (bind _ _) _ => eapply tr_bind; [solve [eauto using tr_look, tr_is, tr_next, tr_consume, tr_skip, tr_consume_nl]|intros ? ?]
      | |- tr (if ?b then _ else _) _ => destruct b
      | |- tr (let _ := _ in _) _ => cbv zeta
      end ].

Lemma tr_maybe : tr is_maybe any.
Proof. unfold is_maybe. go; exact I. Qed.
Lemma tr_opt_comma {A} (k : P A) G : tr k G -> forall c : bool, tr ((if c then consume TComma ;;; ret tt else ret tt) ;;; k) G.
Proof. intros Hk c. eapply (tr_bind _ _ any); [destruct c; go; exact I|]. auto. Qed.
Lemma tr_generic_args : tr (generic_args R) any.
Proof.
  unfold generic_args. go; try exact I. eapply (tr_bind _ _ any).
  - apply tr_loop; [exact I|]. intros l _. go. apply tr_opt_comma. go. exact I.
  - intros. go. exact I.
Qed.
Lemma tr_generic_params : tr generic_params any.
Proof.
  unfold generic_params. go; try exact I. eapply (tr_bind _ _ any).
  - apply tr_loop; [exact I|]. intros l _. go. apply tr_opt_comma. go. exact I.
  - intros. go. exact I.
Qed.
Lemma tr_type_path h : tr (type_path R h) any.
Proof.
  unfold type_path. eapply (tr_bind _ _ any); [apply tr_loop; [exact I|]; intros; go; exact I|]. intros.
  eapply tr_bind; [apply tr_generic_args|]. intros. eapply tr_bind; [apply tr_maybe|]. intros. go. exact I.
Qed.
Lemma tr_type : tr (type_ R) any.
Proof.
  unfold type_. go. destruct (t_kind a); go; try apply tr_type_path; try exact I.
  - eapply tr_bind; [apply tr_generic_args|]. intros. eapply tr_bind; [apply tr_maybe|]. intros. go. exact I.
  - eapply tr_bind; [apply tr_maybe|]. intros. go. exact I.
Qed.
Lemma tr_end_stmt : tr end_stmt any.
Proof. unfold end_stmt. go. destruct (t_kind a); go; exact I. Qed.

Lemma tr_arm eq pat : tr eq oke -> tr pat okp -> tr (iguala_arm R eq pat) oke.
Proof.
  intros He Hp. unfold iguala_arm. go; fin.
  - destruct a0; fin; inversion H0; auto.
  - destruct a0; fin; inversion H0; auto.
  - now apply node_line.
  - now apply node_line.
Qed.
Lemma tr_iguala eq pat : tr eq oke -> tr pat okp -> tr (iguala_stmt R eq pat) oke.
Proof.
  intros He Hp. unfold iguala_stmt. go. eapply (tr_bind _ _ okel).
  - apply tr_loop; [constructor|]. intros l Hl. eapply tr_bind; [now apply tr_arm|]. intros x Hx. apply tr_loop; [apply okel_app; [exact Hl|now apply okel_one]|].
    intros l' Hl'. eapply tr_bind; [apply tr_consume|]. intros. eapply tr_bind; [now apply tr_arm|]. intros. apply tr_ret. apply okel_app; [assumption|now apply okel_one].
  - intros. go. fin.
Qed.
Lemma tr_arg : tr (arg R) oke.
Proof. unfold arg. go. destruct a; go; fin; now inversion H. Qed.
Lemma tr_args : tr (args R) okel.
Proof.
  unfold args. go. eapply (tr_bind _ _ okel).
  - destruct a0; [apply tr_ret; constructor|]. eapply tr_bind; [apply tr_arg|]. intros. apply tr_ret. now apply okel_one.
  - intros. go. eapply (tr_bind _ _ okel).
    + apply tr_loop; [assumption|]. intros l Hl. go. eapply tr_bind; [apply tr_arg|]. intros. go. apply okel_app; [assumption|now apply okel_one].
    + intros. go. assumption.
Qed.
Lemma tr_primary pat : tr pat okp -> tr (primary U R pat) oke.
Proof.
  intros Hp. unfold primary. go. destruct (t_kind a) eqn:K; go; try (fin; fail).
  - eapply (tr_bind _ _ any); [apply tr_loop; [exact I|]; intros; go; exact I|]. intros. go. fin.
  - eapply (tr_bind _ _ okel).
    + destruct a4; [apply tr_ret; constructor|]. go. apply tr_loop; [now apply okel_one|]. intros l Hl. go. apply okel_app; [assumption|now apply okel_one].
    + intros. go. fin.
  - now apply tr_iguala.
Qed.
Lemma tr_pattern : tr (pattern U R) okp.
Proof.
  unfold pattern. eapply tr_bind; [now apply tr_primary|]. intros x Hx. cbv zeta.
  assert (A : forall path h tl, E (t_line h) ->
    tr (b <- is TLpar ;; if b then consume TLpar ;;; p <- r_pat R ;; skip_newlines ;;;
          ps <- loop (one_of [TComma]) (fun ps => consume TComma ;;; p <- r_pat R ;; ret (ps ++ [p])) [p] ;;
          consume TRpar ;;; ret (PaAdt path h tl ps)
        else if path then ret (PaAdt true h tl []) else ret (PaBind h)) okp).
  { intros path h tl Hh. go; try (fin; fail). eapply (tr_bind _ _ (Forall okp)).
    - apply tr_loop; [constructor; auto|]. intros l Hl. go. apply Forall_app. split; [assumption|]. constructor; auto.
    - intros. go. fin. }
  destruct Hx as [[Hx _] _]. destruct x; try (apply A; now inversion Hx); try apply tr_error; destruct (t_kind t); go; exact Hx.
Qed.
Lemma tr_call : tr (call U R) oke.
Proof.
  unfold call. eapply tr_bind; [now apply tr_primary|]. intros. eapply (tr_bind _ _ oke).
  - apply tr_loop; [assumption|]. intros x Hx. go. destruct (t_kind a0); go; try (fin; fail).
    eapply tr_bind; [apply tr_args|]. intros. go. fin.
  - intros. go; [|assumption]. eapply tr_bind; [apply tr_type|]. intros. go. fin.
Qed.
Lemma tr_unary_ n : tr (unary_ U R n) oke.
Proof.
  induction n as [|n IH]; cbn [unary_]; go; try apply tr_call. fin.
Qed.
Lemma tr_unary : tr (unary U R) oke.
Proof. intros s Hs. unfold unary. now apply tr_unary_. Qed.
Lemma tr_binary ops m : tr m oke -> tr (binary ops m) oke.
Proof. intros Hm. unfold binary. go. apply tr_loop; [assumption|]. intros. go. fin. Qed.
Lemma tr_equality : tr (equality U R) oke.
Proof. repeat apply tr_binary. apply tr_unary. Qed.
Lemma tr_assignment_ n : tr (assignment_ U R n) oke.
Proof.
  induction n as [|n IH]; cbn [assignment_]; (eapply tr_bind; [apply tr_equality|]; intros; go; try assumption).
  assert (A1 : oke (XSet a a1)) by fin. assert (A2 : oke (XIndexSet a0 a a1)) by fin. assert (A3 : oke (XAssign a0 a a1)) by fin.
  destruct a; apply tr_ret; assumption.
Qed.
Lemma tr_assignment : tr (assignment U R) oke.
Proof. intros s Hs. unfold assignment. now apply tr_assignment_. Qed.
Lemma tr_expression : tr (expression U R) oke.
Proof.
  unfold expression. eapply tr_bind; [apply tr_assignment|]. intros. go. destruct (compound_op (t_kind a0)) as [[k w]|]; go; try assumption.
  assert (V : tr (v <- assignment U R ;; ret (XSet a v)) oke) by (eapply tr_bind; [apply tr_assignment|]; intros; go; fin).
  assert (V2 : forall o e, t_line o = t_line a0 -> t_line e = t_line a0 ->
    tr (r <- equality U R ;; ret (XIndexSet o a (XBin o a r))) oke /\ tr (r <- equality U R ;; ret (XAssign e a (XBin o a r))) oke).
  { intros o e Ho He. destruct H0 as [H0 _]. split; (eapply tr_bind; [apply tr_equality|]; intros; go; unfold oke, okx; cbn [lines_of]; rewrite ?Ho, ?He; fin). }
  set (o := mkTok k (LText w) (t_line a0) (t_col a0)). set (q := mkTok TEqual (LText (txt "=")) (t_line a0) (t_col a0)).
  destruct (V2 o q eq_refl eq_refl) as [V3 V4]. destruct a; first [exact V | exact V3 | exact V4].
Qed.
Lemma tr_simple_decl n : E (t_line n) -> tr (simple_decl U R n) oke.
Proof.
  intros Hn. unfold simple_decl. go. eapply tr_bind; [apply tr_type|]. intros. go; [|fin]. eapply tr_bind; [apply tr_equality|]. intros. go. fin.
Qed.
Definition tl_ok (t : token) : Prop := E (t_line t).
Lemma tr_multi_decl n : E (t_line n) -> tr (multi_decl R n) okel.
Proof.
  intros Hn. unfold multi_decl. eapply (tr_bind _ _ (Forall tl_ok)).
  - apply tr_loop; [constructor; auto|]. intros. go. apply Forall_app. split; [assumption|]. constructor; [apply H1|constructor].
  - intros l Hl. go. eapply tr_bind; [apply tr_type|]. intros. go. apply Forall_map. eapply Forall_impl; [|exact Hl]. intros t Ht. unfold tl_ok in Ht. fin.
Qed.
Lemma tr_decl_stmt : tr (decl_stmt U R) okl.
Proof.
  unfold decl_stmt. eapply tr_bind; [apply tr_expression|]. intros x Hx. go. eapply (tr_bind _ _ okl).
  - assert (D : tr (ret [x]) okl) by (apply tr_ret; apply okl_one, oke_x, Hx).
    destruct x; try exact D. assert (Ht : E (t_line t)) by (destruct Hx as [[Hx _] _]; now inversion Hx).
    destruct (t_kind a); first [exact D | exact (tr_weak _ _ _ (tr_multi_decl t Ht) okel_l) | eapply tr_bind; [now apply tr_simple_decl|]; intros; go; now apply okl_one, oke_x].
  - intros. eapply tr_bind; [apply tr_end_stmt|]. intros. go. assumption.
Qed.
Lemma tr_se_iguala t : E (t_line t) -> tr (se_iguala_stmt U R t) okx.
Proof.
  intros Ht. unfold se_iguala_stmt, block. go. eapply tr_bind; [apply tr_equality|]. intros e He. go. eapply tr_bind; [apply tr_pattern|]. intros pp Hp. go.
  eapply (tr_bind _ _ (fun o => match o with Some l => okl l | None => True end)).
  - match goal with |- tr (if ?b then _ else _) _ => destruct b end; go; fin.
  - intros o Ho. go.
    assert (P1 : E (t_line (match pp with PaInt t | PaStr t | PaBind t | PaAdt _ t _ _ => t end))) by (destruct pp; cbn in Hp; now inversion Hp).
    assert (P2 : Forall E (arm_lines pp)) by (destruct pp; [exact Hp|exact Hp|constructor|exact Hp]).
    destruct o; fin.
Qed.
Lemma tr_senaose : tr (senaose_branch U R) okx.
Proof. unfold senaose_branch, block. go. eapply tr_bind; [apply tr_equality|]. intros. go. fin. Qed.
Lemma tr_se : tr (se_statement U R) okx.
Proof.
  unfold se_statement, block. go; [apply tr_se_iguala; apply H|]. eapply tr_bind; [apply tr_equality|]. intros. go.
  eapply (tr_bind _ _ okl).
  - apply tr_loop; [constructor|]. intros. eapply tr_bind; [apply tr_senaose|]. intros. go. apply okl_app; [assumption|now apply okl_one].
  - intros. go. eapply (tr_bind _ _ (fun o => match o with Some l => okx l | None => True end)).
    + match goal with |- tr (if ?b then _ else _) _ => destruct b end; go; fin.
    + intros o Ho. go. destruct o; fin.
Qed.
Lemma tr_enquanto : tr (enquanto_stmt U R) okx.
Proof. unfold enquanto_stmt, block. go. eapply tr_bind; [apply tr_equality|]. intros. go. fin. Qed.
Lemma tr_para : tr (para_stmt U R) okx.
Proof.
  unfold para_stmt, block. go. eapply tr_bind; [apply tr_equality|]. intros. go. eapply tr_bind; [apply tr_equality|]. intros. go.
  eapply (tr_bind _ _ (fun o => match o with Some l => oke l | None => True end)).
  - match goal with |- tr (if ?b then _ else _) _ => destruct b end; go; try exact I. eapply tr_bind; [apply tr_equality|]. intros. go. fin.
  - intros o Ho. go. destruct o; fin.
Qed.
Lemma tr_escolha : tr (escolha_stmt U R) okx.
Proof.
  unfold escolha_stmt, block. go. eapply tr_bind; [apply tr_equality|]. intros. go. eapply (tr_bind _ _ okl).
  - apply tr_loop; [constructor|]. intros. go. eapply tr_bind; [apply tr_equality|]. intros. go. apply okl_app; [assumption|apply okl_one; fin].
  - intros. go. eapply (tr_bind _ _ (fun o => match o with Some l => okx l | None => True end)).
    + match goal with |- tr (if ?b then _ else _) _ => destruct b end; go; fin.
    + intros o Ho. go. destruct o; fin.
Qed.
Lemma tr_one (m : P sx) : tr m okx -> tr (x <- m ;; ret [x]) okl.
Proof. intros Hm. eapply tr_bind; [exact Hm|]. intros. go. now apply okl_one. Qed.
Lemma tr_statement : tr (statement U R) okl.
Proof.
  unfold statement. go. destruct (t_kind a) eqn:K; try apply tr_decl_stmt; try (apply tr_one; auto using tr_enquanto, tr_se, tr_para, tr_escolha; fail);
    try (apply tr_one; apply (tr_weak _ _ _ (tr_iguala _ _ tr_equality tr_pattern) oke_x); fail);
    try (go; eapply tr_bind; [apply tr_end_stmt|]; intros; go; apply okl_one; fin; fail).
  - go. eapply tr_bind; [apply tr_equality|]. intros. eapply tr_bind; [apply tr_end_stmt|]. intros. go. apply okl_one. fin.
  - go. eapply (tr_bind _ _ (fun o => match o with Some l => oke l | None => True end)).
    + match goal with |- tr (if ?b then _ else _) _ => destruct b end; go; try exact I. eapply tr_bind; [apply tr_equality|]. intros. go. fin.
    + intros o Ho. eapply tr_bind; [apply tr_end_stmt|]. intros. go. apply okl_one. destruct o; fin.
  - go. eapply tr_bind; [apply tr_equality|]. intros. eapply tr_bind; [apply tr_end_stmt|]. intros. go. apply okl_one. fin.
Qed.

Definition oka (a : annot) : Prop := E (t_line (an_tok a)).
Lemma tr_annotation_body : tr annotation_body oka.
Proof.
  unfold annotation_body. go; try apply H.
  eapply (tr_bind _ _ any); [apply tr_loop; [exact I|]; intros; go; apply tr_opt_comma; go; exact I|]. intros. go. apply H.
Qed.
Lemma tr_annotations k : tr (annotations k) (Forall oka).
Proof.
  unfold annotations. apply tr_loop; [constructor|]. intros. go. eapply tr_bind; [apply tr_annotation_body|]. intros. go. apply Forall_app. split; [assumption|]. constructor; auto.
Qed.
Definition okps (l : list sparam) : Prop := Forall E (map (fun p => t_line (sp_name p)) l).
Lemma tr_formal_params : tr (formal_params R) okps.
Proof.
  unfold formal_params. cbv zeta.
  assert (D : tr (name <- consume_nl TIdent ;; consume TColon ;;; ty <- type_ R ;; ret (mkParam name ty)) (fun p => E (t_line (sp_name p)))).
  { go. eapply tr_bind; [apply tr_type|]. intros. go. apply H. }
  eapply tr_bind; [apply tr_skip|]. intros. eapply tr_bind; [apply tr_is|]. intros b _. destruct b; [|apply tr_ret; constructor].
  eapply tr_bind; [exact D|]. intros. apply tr_loop; [constructor; auto; constructor|]. intros. eapply tr_bind; [apply tr_consume_nl|]. intros.
  eapply tr_bind; [exact D|]. intros. go. unfold okps in *. rewrite map_app. apply Forall_app. split; [assumption|]. constructor; auto.
Qed.
Lemma tr_function_decl ans : tr (function_decl R ans) okx.
Proof.
  unfold function_decl, block. eapply tr_bind; [apply tr_consume|]. intros. eapply tr_bind; [apply tr_is|]. intros nat _.
  eapply (tr_bind _ _ any); [destruct nat; go; exact I|]. intros. go. eapply tr_bind; [apply tr_formal_params|]. intros ps Hps. go.
  eapply (tr_bind _ _ any).
  - match goal with |- tr (if ?b then _ else _) _ => destruct b end; go; try exact I. eapply tr_bind; [apply tr_type|]. intros. go. exact I.
  - intros. destruct nat; [eapply tr_bind; [apply tr_end_stmt|]; intros|]; go; fin.
Qed.
Lemma tr_method_decl ans : tr (method_decl R ans) okx.
Proof.
  unfold method_decl, block. go. eapply tr_bind; [apply tr_generic_params|]. intros. eapply tr_bind; [apply tr_type|]. intros. go.
  eapply (tr_bind _ _ okps).
  - match goal with |- tr (if ?b then _ else _) _ => destruct b end; go; [apply tr_formal_params|constructor].
  - intros ps Hps. go. eapply (tr_bind _ _ any).
    + match goal with |- tr (if ?b then _ else _) _ => destruct b end; go; try exact I. eapply tr_bind; [apply tr_type|]. intros. go. exact I.
    + intros. go. fin.
Qed.
Definition okv (v : svariant) : Prop := E (t_line (sv_name v)).
Lemma tr_uniao_variant : tr (uniao_variant R) okv.
Proof.
  unfold uniao_variant. go; [|apply H]. eapply tr_bind; [apply tr_type|]. intros. eapply (tr_bind _ _ any).
  - apply tr_loop; [exact I|]. intros. go. eapply tr_bind; [apply tr_type|]. intros. go. exact I.
  - intros. go. apply H.
Qed.
Lemma tr_uniao_body : tr (uniao_body R) (Forall okv).
Proof.
  unfold uniao_body. go. eapply (tr_bind _ _ (Forall okv)).
  - match goal with |- tr (if ?b then _ else _) _ => destruct b end; [|apply tr_ret; constructor].
    eapply tr_bind; [apply tr_uniao_variant|]. intros. go. apply tr_loop; [constructor; auto|]. intros. go. eapply tr_bind; [apply tr_uniao_variant|]. intros. go.
    apply Forall_app. split; [assumption|]. constructor; auto.
  - intros. go. assumption.
Qed.
Lemma tr_uniao_decl ans : tr (uniao_decl R ans) okx.
Proof.
  unfold uniao_decl. go. eapply tr_bind; [apply tr_generic_params|]. intros. eapply tr_bind; [apply tr_uniao_body|]. intros l Hl. go.
  split; [|reflexivity]. cbn [lines_of]. constructor; [apply H0|]. apply Forall_map. exact Hl.
Qed.
Lemma tr_registo_body : tr (registo_body U R) okel.
Proof.
  unfold registo_body. apply tr_loop; [constructor|]. intros. go. destruct (t_kind a0); go; try assumption.
  eapply (tr_bind _ _ okel).
  - assert (D : tr (ret (@nil sx)) okel) by (apply tr_ret; constructor). destruct H1 as [H1 _].
    match goal with |- tr (match ?k with _ => _ end) _ => destruct k end;
      first [exact D | exact (tr_multi_decl _ H1) | eapply tr_bind; [apply (tr_simple_decl _ H1)|]; intros; go; now apply okel_one].
  - intros. eapply tr_bind; [apply tr_end_stmt|]. intros. go. now apply okel_app.
Qed.
Lemma tr_registo_decl ans : tr (registo_decl U R ans) okx.
Proof.
  unfold registo_decl. go. eapply tr_bind; [apply tr_generic_params|]. intros. eapply tr_bind; [apply tr_registo_body|]. intros l Hl. go. fin.
Qed.
Lemma tr_declaration : tr (declaration U R) okl.
Proof.
  unfold declaration. eapply tr_bind; [apply tr_is|]. intros b _. eapply (tr_bind _ _ any).
  - destruct b; [|apply tr_ret; exact I]. eapply tr_bind; [apply tr_annotations|]. intros. go. exact I.
  - intros. go. destruct (t_kind a0); try apply tr_statement; apply tr_one; auto using tr_function_decl, tr_method_decl, tr_registo_decl, tr_uniao_decl.
Qed.
Lemma tr_children stop : tr (children U R stop) okl.
Proof.
  unfold children. apply tr_loop; [constructor|]. intros. go; [assumption|]. eapply tr_bind; [apply tr_declaration|]. intros. go. now apply okl_app.
Qed.
Definition okc (x : sx) : Prop := okx x \/ exists t mode w, x = XUsa t mode w /\ E (t_line t).
Lemma tr_usa : tr usa_stmt okc.
Proof.
  unfold usa_stmt. eapply tr_bind; [apply tr_consume|]. intros t [Ht _].
  assert (D : forall mode w, okc (XUsa t mode w)) by (intros; right; eauto). go; [|].
  - eapply tr_bind; [apply tr_end_stmt|]. intros. go. apply D.
  - match goal with |- tr (match ?k with _ => _ end) _ => destruct k end; go; try apply D.
    eapply (tr_bind _ _ any); [apply tr_loop; [exact I|]; intros; go; exact I|]. intros. go. apply D.
Qed.
Definition okm (m : smodule) : Prop := Forall okc (sm_children m) /\ Forall oka (sm_annots m).
Lemma tr_module : tr (module_ U R) okm.
Proof.
  unfold module_. go. eapply tr_bind; [apply tr_annotations|]. intros. eapply (tr_bind _ _ (Forall okc)).
  - apply tr_loop; [constructor|]. intros. eapply tr_bind; [apply tr_usa|]. intros. go. apply Forall_app. split; [assumption|]. constructor; auto.
  - intros. eapply tr_bind; [apply tr_children|]. intros l Hl. go. split; [|assumption]. apply Forall_app. split; [assumption|].
    eapply Forall_impl; [|exact Hl]. intros x Hx. now left.
Qed.
End Step.

Lemma tr_run U n : tr (r_eq (run U n)) oke /\ tr (r_type (run U n)) any /\ tr (r_block (run U n)) okl /\ tr (r_pat (run U n)) okp.
Proof.
  induction n as [|n (I1 & I2 & I3 & I4)]; cbn [run end_rec step r_eq r_type r_block r_pat].
  - split; [|split; [|split]]; apply tr_fuel.
  - split; [|split; [|split]]; [now apply tr_equality|now apply tr_type|now apply tr_children|now apply tr_pattern].
Qed.
End Lines.

(** No format string in a text. *)
Definition no_format (U : uni) (src : text) : Prop := Forall (fun t => t_kind t <> TFormat) (fst (tokenise U src)).

Theorem parse_lines U src m s : python_tables U -> no_format U src -> parse U src = POk m s ->
  okm (fun l => 1 <= l <= 1 + inner_ends src) m.
Proof.
  intros HU NF. unfold parse.
  pose proof (tokens_lines U HU (S (List.length src)) (start src)) as Lin. cbn [start lx_rest lx_line] in *. specialize (Lin ltac:(lia)).
  fold (tokenise U src) in *. unfold no_format in NF. destruct (tokenise U src) as [ts e] eqn:Et. cbn [fst snd] in *. cbv zeta in Lin. destruct Lin as [L1 L2].
  unfold parse_tokens. intros H. set (E := fun l => 1 <= l <= 1 + inner_ends src) in *.
  assert (E1 : E 1). { unfold E, inner_ends. pose proof (line_ends_pos (removelast src)). lia. }
  destruct (pull ts e) as [u s'|l c| |] eqn:Ep; try discriminate.
  assert (F0 : sfine E s').
  { pose proof (pull_fine E ts e) as Q. rewrite Ep in Q. apply Q.
    - rewrite Forall_forall in *. intros t Ht. split; [now apply L1|now apply NF].
    - destruct e; auto. split; [exact L2|]. rewrite (tokens_eof U _ _ _ _ Et). discriminate. }
  destruct (tr_run E E1 U (S (List.length src))) as (I1 & I2 & I3 & I4).
  pose proof (tr_module E E1 U _ I1 I2 I3 I4 s' F0) as Q. rewrite H in Q. apply Q.
Qed.
