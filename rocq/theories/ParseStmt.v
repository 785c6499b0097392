(** Proofs for C44: the parser reads back statements of one line. *)
From Verif Require Import Base Lexer Spec_Lex LexFacts LexAll Syntax Parser ParseFacts ParseTotal Spec_Parse ParseExpr ParseLine Spec_Program.
Local Open Scope Z_scope.
Local Open Scope parse_scope.

(** ** More about [parses] *)
Lemma parses_ext {A} (m m' : P A) ws F Q : (forall s, m s = m' s) -> parses m' ws F Q -> parses m ws F Q.
Proof. intros E H ts rest e Ht Hg Hk. rewrite E. now apply H. Qed.
Lemma parses_look_end {A} (f : token -> P A) (F : tk -> Prop) Q :
  (forall t, F (t_kind t) -> parses (f t) [] (fun k => F k /\ k = t_kind t) Q) -> parses (bind look f) [] F Q.
Proof.
  intros H ts rest e Ht Hg Hk. destruct ts; [|discriminate]. cbn [app].
  destruct (H (look_tok (rest, e)) Hk [] rest e eq_refl Hg (conj Hk eq_refl)) as (a & Ea & Qa). exists a. split; [exact Ea|exact Qa].
Qed.
Lemma parses_is_end' {A} k (f : bool -> P A) (F : tk -> Prop) Q :
  (forall k', F k' -> tk_eqb k' k = false) -> parses (f false) [] F Q -> parses (bind (is k) f) [] F Q.
Proof. apply parses_is_end. Qed.
Lemma parses_lines {A} k (f : P A) ws F Q : meets ws F (fun k => k <> TNewline) -> parses f ws F Q ->
  parses (skip_newlines ;;; f) (lines k ++ ws) F Q.
Proof.
  intros Hm H. induction k as [|k IH]; [now apply parses_skip|].
  intros ts rest e Ht Hg Hk. cbn [lines repeat app] in Ht. destruct ts as [|t ts]; [discriminate|]. injection Ht as Hw _ Ht.
  destruct (IH ts rest e Ht Hg Hk) as (a & Ea & Qa). exists a. split; [|assumption]. rewrite <- Ea.
  unfold bind, skip_newlines. cbn [fst snd app skip_nl]. rewrite Hw. change (tk_eqb TNewline TNewline) with true. cbv iota.
  destruct (ts ++ rest) as [|t1 r] eqn:E; [|reflexivity].
  apply app_eq_nil in E as [-> ->]. destruct Hg as [Hg|[t1 ->]]; [now destruct Hg|reflexivity].
Qed.
Lemma parses_end {A} (a : A) w F (Q : A -> Prop) : closes w -> Q a -> parses (end_stmt ;;; ret a) [w] F Q.
Proof.
  intros Hw Qa. change [w] with ([w] ++ []). eapply parses_bind with (F1 := fun _ => True) (Q1 := fun _ => True).
  - unfold end_stmt. apply parses_look. intros t Et.
    assert (Ek : t_kind t = fst w) by (rewrite <- Et; reflexivity).
    destruct Hw as [-> | ->]; rewrite Ek; cbn [fst].
    + apply (parses_next w_nl []). intros _ _. now apply parses_ret.
    + apply (parses_next w_semi []). intros _ _. now apply parses_ret.
  - cbn. auto.
  - intros _ _. now apply parses_ret.
Qed.

Lemma while_mono {A} c (body : A -> P A) n : forall m a s a' s', while n c body a s = POk a' s' -> (n <= m)%nat ->
  while m c body a s = POk a' s'.
Proof.
  induction n as [|n IH]; intros m a s a' s' H Hm.
  - cbn [while] in H. destruct m; cbn [while]; destruct (c (kind s)); try discriminate; exact H.
  - destruct m as [|m]; [lia|]. cbn [while] in *. destruct (c (kind s)); [|exact H]. unfold bind in *.
    destruct (body a s) as [a1 s1| | |]; try discriminate. eapply IH; [exact H|lia].
Qed.
Lemma parses_loop_nil {A} c (body : A -> P A) acc (F : tk -> Prop) (Q : A -> Prop) :
  (forall k, F k -> c k = false) -> Q acc -> parses (loop c body acc) [] F Q.
Proof.
  intros HF Qa ts rest e Ht Hg Hk. destruct ts; [|discriminate]. cbn [app]. exists acc. split; [|assumption].
  unfold loop. cbn [while]. now rewrite (HF _ Hk).
Qed.
Lemma parses_loop_cons {A} c (body : A -> P A) acc (w : word) ws1 ws2 F1 F Q1 Q : c (fst w) = true ->
  parses (body acc) (w :: ws1) F1 Q1 -> meets ws2 F F1 ->
  (forall acc', Q1 acc' -> parses (loop c body acc') ws2 F Q) -> parses (loop c body acc) ((w :: ws1) ++ ws2) F Q.
Proof.
  intros Hc Hb Hm Hl ts rest e Ht Hg Hk. unfold words in Ht. destruct (map_eq_app _ _ _ _ Ht) as (t1 & t2 & -> & E1 & E2).
  destruct t1 as [|u t1]; [discriminate|].
  destruct (Hb (u :: t1) (t2 ++ rest) e E1 (good_app _ _ _ Hg) (meets_kind _ _ _ _ _ _ E2 Hm Hk)) as (acc' & Ea & Qa).
  destruct (Hl acc' Qa t2 rest e E2 Hg Hk) as (a & El & Qa'). exists a. split; [|assumption].
  unfold loop in *. cbn [while]. injection E1 as Eu _. 
  assert (Ek : kind (((u :: t1) ++ t2) ++ rest, e) = fst w) by (rewrite <- Eu; reflexivity). rewrite Ek, Hc.
  unfold bind. rewrite <- app_assoc. rewrite Ea. eapply while_mono; [exact El|]. cbn [fst app List.length]. rewrite !app_length. lia.
Qed.

Ltac len := repeat (rewrite ?app_length in *; cbn [List.length app] in *); lia.
Ltac tok := match goal with |- parses (bind (consume _) _) (?w :: _) _ _ =>
  apply (parses_next w); let t := fresh "t" in let E := fresh "Et" in intros t E end.
Ltac pick t E := match goal with |- parses (bind look _) (?w :: _) _ _ =>
  apply parses_look; intros t E; let k := eval cbv in (fst w) in
  let K := fresh "K" in assert (K : t_kind t = k) by (change k with (fst w); rewrite <- E; reflexivity); rewrite ?K end.

(** ** Words expressions begin with *)
Definition heads : list tk := [TLpar; TInteger; TReal; TString; TVerdadeiro; TFalso; TNulo; TIdent; TAlvo; TPlus; TMinus; TNao; TLbracket].
Lemma show_starts e : forall n, exists w ws, show n e = w :: ws /\ In (fst w) heads.
Proof.
  assert (L : forall e n, (level e <? n)%nat = true -> exists w ws, show n e = w :: ws /\ In (fst w) heads).
  { intros e0 n E. rewrite show_eq, E. eexists _, _. split; [reflexivity|]. cbn. auto. }
  induction e using ex_ind'; intros m;
    match goal with |- context [show _ ?e] => destruct (level e <? m)%nat eqn:El; [now apply L|] end;
    rewrite show_eq, El; cbn [body].
  - destruct a; cbn [show_atom flat_map app]; eexists _, _; (split; [reflexivity|]); cbn; tauto.
  - eexists _, _. split; [reflexivity|]. destruct o; cbn; tauto.
  - destruct (IHe1 (bin_level o)) as (w & ws & E & H). rewrite E. eexists _, _. split; [reflexivity|exact H].
  - destruct (IHe 6%nat) as (w & ws & E & H'). rewrite E. eexists _, _. split; [reflexivity|exact H'].
  - destruct (IHe 6%nat) as (w & ws & E & H'). rewrite E. eexists _, _. split; [reflexivity|exact H'].
  - destruct (IHe1 6%nat) as (w & ws & E & H'). rewrite E. eexists _, _. split; [reflexivity|exact H'].
  - destruct (IHe 6%nat) as (w & ws & E & H'). rewrite E. eexists _, _. split; [reflexivity|exact H'].
  - eexists _, _. split; [reflexivity|]. cbn. tauto.
Qed.

(** ** Statements of one line *)
Section Stmt.
Variable U : uni.

Definition Qs (l : list st) (r : list sx) : Prop := all shape_st r = Some l.
Lemma all_app {A B} (f : A -> option B) a b la lb : all f a = Some la -> all f b = Some lb -> all f (a ++ b) = Some (la ++ lb).
Proof.
  revert la. induction a as [|x a IH]; cbn; intros la Ha Hb; [injection Ha as <-; exact Hb|].
  destruct (f x); cbn in *; [|discriminate]. destruct (all f a) as [r|]; cbn in *; [|discriminate]. injection Ha as <-.
  now rewrite (IH r eq_refl Hb).
Qed.

Definition ends (k : tk) : Prop := k = TNewline \/ k = TSemi \/ k = TEof.
(** What may follow an assignment: no operator, no sign of assignment. *)
Definition FA (k : tk) : Prop := FE 0 k /\ k <> TEqual /\ compound_op k = None.
Lemma ends_FA k : ends k -> FA k.
Proof. intros [-> | [-> | ->]]; repeat split; try reflexivity; discriminate. Qed.

Lemma parses_assign e N n : (List.length (show 0 e) <= N)%nat ->
  parses (assignment_ U (run U N) n) (show 0 e) (fun k => FE 0 k /\ k <> TEqual) (Qe e).
Proof.
  intros HN. rewrite <- (app_nil_r (show 0 e)). destruct n; cbn [assignment_];
  (eapply parses_bind; [apply parses_equality; exact HN|cbn; tauto|]; intros x Qx; apply parses_is_end; [|now apply parses_ret];
   intros k [_ Hk]; destruct (tk_eqb k TEqual) eqn:E; [apply tk_eqb_true in E; contradiction|reflexivity]).
Qed.
Lemma parses_assignment e N : (List.length (show 0 e) <= N)%nat ->
  parses (assignment U (run U N)) (show 0 e) (fun k => FE 0 k /\ k <> TEqual) (Qe e).
Proof. intros HN ts rest x Ht Hg Hk. unfold assignment. now apply (parses_assign e N _ HN). Qed.

Lemma parses_assign_set t v N : can_set t -> (List.length (show 0 t ++ w_eq :: show 0 v) <= N)%nat ->
  parses (assignment U (run U N)) (show 0 t ++ w_eq :: show 0 v) (fun k => FE 0 k /\ k <> TEqual)
    (fun x => shape_line x = Some (LSet t v) /\ forall n, x <> XVar n).
Proof.
  intros Hc HN. assert (forall n, parses (assignment_ U (run U N) (S n)) (show 0 t ++ w_eq :: show 0 v) (fun k => FE 0 k /\ k <> TEqual)
    (fun x => shape_line x = Some (LSet t v) /\ forall n, x <> XVar n)) as H; [|intros ts rest x Ht Hg Hk; unfold assignment; now apply H].
  intros n. cbn [assignment_]. eapply parses_bind; [apply parses_equality; len|reflexivity|]. intros x Qx.
  apply parses_is. cbv iota. change (tk_eqb (fst w_eq) TEqual) with true. cbv iota. tok.
  rewrite (assignable_shape _ _ Qx Hc). cbn [negb]. rewrite <- (app_nil_r (show 0 v)).
  eapply parses_bind; [apply (parses_assign v N n); len|cbn; auto|]. intros y Qy.
  pose proof (set_shape t0 x y t v Qx Qy Hc) as Hs. pose proof (assignable_shape _ _ Qx Hc) as Ha.
  unfold set_node in Hs. destruct x; try discriminate Ha; now apply parses_ret.
Qed.

Lemma parses_expression_end N ws (Q : sx -> Prop) :
  parses (assignment U (run U N)) ws (fun k => FE 0 k /\ k <> TEqual) Q -> parses (expression U (run U N)) ws FA Q.
Proof.
  intros H. unfold expression. rewrite <- (app_nil_r ws). eapply parses_bind; [exact H|cbn; unfold FA; tauto|].
  intros x Qx. apply parses_look_end. intros t (_ & _ & Ht). rewrite Ht. now apply parses_ret.
Qed.

Lemma parses_expression_compound N o w t e : compound o = Some w -> can_set t -> (forall a n, t <> EField a n) ->
  (List.length (show 0 t ++ w :: show 0 e) <= N)%nat ->
  parses (expression U (run U N)) (show 0 t ++ w :: show 0 e) FA
    (fun x => shape_line x = Some (LSet t (EBin o t e)) /\ forall n, x <> XVar n).
Proof.
  intros Ho Hc Hf HN. destruct (compound_kind _ _ Ho) as (k & wd & Ck & Bk & Fk & Nk).
  unfold expression. eapply parses_bind; [apply parses_assignment; len|cbn; auto|]. intros x Qx.
  apply parses_look. intros tw Etw. assert (Ek : t_kind tw = fst w) by (rewrite <- Etw; reflexivity).
  rewrite Ek, Ck. pose proof (assignable_shape _ _ Qx Hc) as Ha. rewrite Ha. cbn [negb].
  apply (parses_next w). intros _ _.
  assert (Hme : forall a b, x = XGet a b -> False).
  { intros a b ->. unfold Qe in Qx. cbn [shape] in Qx. destruct (shape a); cbn [obind] in Qx; [|discriminate Qx].
    injection Qx as <-. eapply Hf. reflexivity. }
  set (eq0 := mkTok TEqual (LText (txt "=")) (t_line tw) (t_col tw)). set (op0 := mkTok k (LText wd) (t_line tw) (t_col tw)).
  assert (Fin : forall (K : sx -> sx), (forall y, Qe e y -> shape_line (K y) = Some (LSet t (EBin o t e)) /\ forall n, K y <> XVar n) ->
    parses (r <- equality U (run U N) ;; ret (K r)) (show 0 e) FA
      (fun x => shape_line x = Some (LSet t (EBin o t e)) /\ forall n, x <> XVar n)).
  { intros K HK. rewrite <- (app_nil_r (show 0 e)). eapply parses_bind; [apply parses_equality; len|cbn; unfold FA; tauto|].
    intros y Qy. apply parses_ret. now apply HK. }
  assert (Sb : forall y, Qe e y -> shape (XBin op0 x y) = Some (EBin o t e)).
  { intros y Qy. unfold Qe in *. cbn [shape]. unfold op0. cbn [t_kind]. rewrite Bk. cbn [obind]. now rewrite Qx, Qy. }
  destruct x; try discriminate Ha; try (exfalso; eapply Hme; reflexivity);
    apply Fin; intros y Qy; (split; [|discriminate]); cbn [shape_line]; rewrite Qx; cbn [obind]; rewrite (Sb y Qy); reflexivity.
Qed.

(** A type, perhaps with a first value. *)
Lemma parses_simple_decl N n t v name : lex_text name = n ->
  (List.length (w_colon :: show_ty t ++ show_init v) <= N)%nat ->
  parses (simple_decl U (run U N) name) (w_colon :: show_ty t ++ show_init v) ends
    (fun x => shape_st x = Some (SDecl n t v) /\ shape_field x = Some (n, t, v)).
Proof.
  intros Hn HN. unfold simple_decl. tok. eapply parses_bind.
  - apply parses_type. len.
  - destruct v; cbn [show_init]; [reflexivity|]. intros k [-> | [-> | ->]]; reflexivity.
  - intros y Hy. destruct v as [e|]; cbn [show_init].
    + apply parses_is. change (tk_eqb (fst w_eq) TEqual) with true. cbv iota. tok. rewrite <- (app_nil_r (show 0 e)).
      eapply parses_bind; [apply parses_equality; cbn [show_init] in HN; len|cbn; intros k Hk; now apply ends_FA|].
      intros x Qx. apply parses_ret. unfold Qe in Qx. cbn [shape_st shape_field]. rewrite Qx. cbn [obind]. now rewrite Hn, Hy.
    + apply parses_is_end; [intros k [-> | [-> | ->]]; reflexivity|]. apply parses_ret. cbn. now rewrite Hn, Hy.
Qed.

Lemma sep_names (n : text) l : sep w_comma (map (fun n => [w_name n]) (n :: l)) = w_name n :: flat_map (fun m => [w_comma; w_name m]) l.
Proof. cbn [map]. rewrite sep_cons. cbn [app]. f_equal. induction l; cbn; congruence. Qed.
Lemma names_eq l (r : list token) : Forall2 (fun (n : text) t => lex_text t = n) l r -> map lex_text r = l.
Proof. induction 1; cbn; congruence. Qed.

(** Names after commas. *)
Lemma parses_names l (acc : list token) (F : tk -> Prop) : (forall k, F k -> k <> TComma) ->
  parses (loop (one_of [TComma]) (fun l => consume TComma ;;; i <- consume TIdent ;; ret (l ++ [i])) acc)
    (flat_map (fun m => [w_comma; w_name m]) l) F (fun r => exists r', r = acc ++ r' /\ map lex_text r' = l).
Proof.
  intros HF. eapply parses_mono; [apply parses_loop with (Q := fun n t => lex_text t = n)|exact (fun k H => H)|].
  - intros k Hk. specialize (HF k Hk). destruct k; try reflexivity. contradiction.
  - intros b l1 l2 acc0 _. exists w_comma, [w_name b]. split; [reflexivity|]. split; [reflexivity|]. tok. tok.
    apply parses_ret. exists t0. split; [reflexivity|]. now apply lex_name.
  - intros r (r' & -> & F2). exists r'. split; [reflexivity|]. now apply names_eq.
Qed.

Lemma parses_multi_decl N n m l t name : lex_text name = n ->
  (List.length (flat_map (fun m => [w_comma; w_name m]) (m :: l) ++ w_colon :: show_ty t) <= N)%nat ->
  parses (multi_decl (run U N) name) (flat_map (fun m => [w_comma; w_name m]) (m :: l) ++ w_colon :: show_ty t) ends
    (fun r => all shape_st r = Some (map (fun n => SDecl n t None) (n :: m :: l)) /\
              all shape_field r = Some (map (fun n => (n, t, None)) (n :: m :: l))).
Proof.
  intros Hn HN. unfold multi_decl. eapply parses_bind; [apply (parses_names (m :: l) [name] (fun k => k = TColon)); intros k ->; discriminate|reflexivity|].
  intros r (r' & -> & Hr). tok. rewrite <- (app_nil_r (show_ty t)). eapply parses_bind; [apply parses_type; len| |].
  - cbn. intros k [-> | [-> | ->]]; reflexivity.
  - intros y Hy. apply parses_ret.
    assert (G : forall ns, all shape_st (map (fun n0 => XDecl t0 n0 y None) ns) = Some (map (fun n => SDecl n t None) (map lex_text ns)) /\
       all shape_field (map (fun n0 => XDecl t0 n0 y None) ns) = Some (map (fun n => (n, t, None)) (map lex_text ns))).
    { clear -Hy. induction ns as [|a ns [IH1 IH2]]; [split; reflexivity|]. cbn [map all shape_st shape_field obind]. rewrite IH1, IH2. cbn [obind]. now rewrite Hy. }
    specialize (G ([name] ++ r')). replace (map lex_text ([name] ++ r')) with (n :: m :: l) in G; [exact G|].
    rewrite map_app, Hr. cbn. now rewrite Hn.
Qed.

(** [statement] without the end of the line. *)
Definition pre (R : rec) : P (list sx) :=
  t <- look ;;
  match t_kind t with
  | TMostra => tok <- consume TMostra ;; e <- equality U R ;; ret [XMostra tok e]
  | TRetorna =>
      tok <- consume TRetorna ;;
      n <- look ;;
      e <- (if one_of [TSemi; TNewline] (t_kind n) then ret None else e <- equality U R ;; ret (Some e)) ;;
      ret [XRet tok e]
  | TProduz => tok <- consume TProduz ;; e <- equality U R ;; ret [XProduz tok e]
  | TQuebra | TContinua => tok <- consume (t_kind t) ;; ret [XLoopCtl tok]
  | _ =>
      e <- expression U R ;;
      t <- look ;;
      match e with
      | XVar n => match t_kind t with
                  | TColon => d <- simple_decl U R n ;; ret [d]
                  | TComma => multi_decl R n
                  | _ => ret [e]
                  end
      | _ => ret [e]
      end
  end.
Definition compounds : list tk := [TEnquanto; TSe; TPara; TEscolha; TIguala].
Lemma bind_ok_ext {A B} (m : P A) (f g : A -> P B) s : (forall a s', f a s' = g a s') -> bind m f s = bind m g s.
Proof. intros H. unfold bind. destruct (m s); auto. Qed.
Lemma bind_bind {A B C} (m : P A) (f : A -> P B) (g : B -> P C) s : bind (bind m f) g s = bind m (fun a => bind (f a) g) s.
Proof. unfold bind. destruct (m s); reflexivity. Qed.
Lemma statement_pre R s : ~ In (kind s) compounds -> statement U R s = bind (pre R) (fun l => end_stmt ;;; ret l) s.
Proof.
  intros H. unfold kind in H.
  assert (E1 : forall (A : Type) (f : token -> P A), bind look f s = f (look_tok s) s) by reflexivity.
  unfold statement, pre. rewrite E1, bind_bind, E1.
  destruct (t_kind (look_tok s)) eqn:E; try (exfalso; apply H; cbn; tauto); unfold decl_stmt.
  all: repeat first [reflexivity | rewrite !bind_bind; apply bind_ok_ext; intros ? ? | rewrite bind_bind; apply bind_ok_ext; intros ? ? | apply bind_ok_ext; intros ? ?].
Qed.

Lemma shape_st_line x l : shape_line x = Some l -> shape_st x = Some (SLine l).
Proof. intros H. destruct x; cbn [shape_st]; try (rewrite H; reflexivity); discriminate H. Qed.
Lemma shape_line_expr x e : shape x = Some e -> shape_line x = Some (LExpr e).
Proof. intros H. destruct x; cbn [shape_line]; try (rewrite H; reflexivity); discriminate H. Qed.
Lemma Qs_one x s : shape_st x = Some s -> Qs [s] [x].
Proof. intros H. unfold Qs. cbn. now rewrite H. Qed.

Lemma pre_expr R (w : word) ws F Q : In (fst w) heads ->
  parses (e <- expression U R ;;
      t <- look ;;
      match e with
      | XVar n => match t_kind t with
                  | TColon => d <- simple_decl U R n ;; ret [d]
                  | TComma => multi_decl R n
                  | _ => ret [e]
                  end
      | _ => ret [e]
      end) (w :: ws) F Q -> parses (pre R) (w :: ws) F Q.
Proof.
  intros Hw H. unfold pre. apply parses_look. intros t Et.
  assert (Ek : t_kind t = fst w) by (rewrite <- Et; reflexivity). rewrite Ek.
  cbn in Hw. repeat (destruct Hw as [Hw|Hw]; [rewrite <- Hw; exact H|]). contradiction.
Qed.
Lemma pre_tail R x (Q : list sx -> Prop) : Q [x] ->
  parses (t <- look ;;
      match x with
      | XVar n => match t_kind t with
                  | TColon => d <- simple_decl U R n ;; ret [d]
                  | TComma => multi_decl R n
                  | _ => ret [x]
                  end
      | _ => ret [x]
      end) [] ends Q.
Proof.
  intros Qx. apply parses_look_end. intros t Ht.
  destruct x; try (now apply parses_ret). destruct Ht as [E | [E | E]]; rewrite E; now apply parses_ret.
Qed.

Theorem parses_simple l ws N : simple l ws -> (List.length ws <= N)%nat -> parses (pre (run U N)) ws ends (Qs l).
Proof.
  intros H HN. destruct H as [l Hl|o w t e Ho Hc Hf|n t v|n m l t|e|e| |].
  - destruct l as [e|e|t v]; cbn [show_line line_ok] in *.
    + unfold pre. pick tk0 Ek. tok. rewrite <- (app_nil_r (show 0 e)).
      eapply parses_bind; [apply parses_equality; len|cbn; intros k Hk; now apply ends_FA|]. intros x Qx. apply parses_ret.
      apply Qs_one, shape_st_line. unfold Qe in Qx. cbn. now rewrite Qx.
    + destruct (show_starts e 0) as (w & ws & Ew & Hw). rewrite Ew. apply pre_expr; [exact Hw|]. rewrite <- Ew.
      rewrite <- (app_nil_r (show 0 e)). eapply parses_bind; [apply parses_expression_end, parses_assignment; exact HN| |].
      * cbn. apply ends_FA.
      * intros x Qx. apply pre_tail. now apply Qs_one, shape_st_line, shape_line_expr.
    + destruct (show_starts t 0) as (w & ws & Ew & Hw). 
      assert (Ews : show 0 t ++ w_eq :: show 0 v = w :: ws ++ w_eq :: show 0 v) by now rewrite Ew.
      change (lit TEqual (txt "=")) with w_eq in *. rewrite Ews. apply pre_expr; [exact Hw|]. rewrite <- Ews.
      rewrite <- (app_nil_r (_ ++ _)). eapply parses_bind; [apply parses_expression_end, parses_assign_set; eassumption| |].
      * cbn. apply ends_FA.
      * intros x [Qx _]. apply pre_tail. now apply Qs_one, shape_st_line.
  - destruct (show_starts t 0) as (w0 & ws & Ew & Hw).
    assert (Ews : show 0 t ++ w :: show 0 e = w0 :: ws ++ w :: show 0 e) by now rewrite Ew.
    rewrite Ews. apply pre_expr; [exact Hw|]. rewrite <- Ews.
    rewrite <- (app_nil_r (_ ++ _)). eapply parses_bind; [apply parses_expression_compound; eassumption| |].
    + cbn. apply ends_FA.
    + intros x [Qx _]. apply pre_tail. now apply Qs_one, shape_st_line.
  - apply pre_expr; [cbn; tauto|]. change (w_name n :: ?r) with (show 0 (EAtom (AName n)) ++ r).
    eapply parses_bind; [apply parses_expression_end, parses_assignment; cbn; len| |].
    + cbn. repeat split; discriminate.
    + intros x Qx. destruct (shape_name _ _ Qx) as (name & -> & Hn). pick tk0 Ek. rewrite <- (app_nil_r (w_colon :: _)).
      eapply parses_bind; [apply (parses_simple_decl N n t v name Hn); len|cbn; auto|]. intros x [Hx _]. apply parses_ret. now apply Qs_one.
  - rewrite sep_names. cbn [app]. apply pre_expr; [cbn; tauto|].
    change (w_name n :: ?r) with (show 0 (EAtom (AName n)) ++ r).
    rewrite sep_names in HN. cbn [app] in HN.
    eapply parses_bind; [apply parses_expression_end, parses_assignment; cbn; len| |].
    + cbn. repeat split; discriminate.
    + intros x Qx. destruct (shape_name _ _ Qx) as (name & -> & Hn). cbn [flat_map app]. pick tk0 Ek.
      eapply parses_mono; [apply (parses_multi_decl N n m l t name Hn); cbn [flat_map app] in *; len|auto|]. intros r [Hr _]. exact Hr.
  - unfold pre. pick tk0 Ek. tok. destruct (show_starts e 0) as (w & ws & Ew & Hw). rewrite Ew. apply parses_look. intros t1 Et1.
    assert (Ek1 : t_kind t1 = fst w) by (rewrite <- Et1; reflexivity). rewrite Ek1.
    replace (one_of [TSemi; TNewline] (fst w)) with false by (symmetry; cbn in Hw; repeat (destruct Hw as [Hw|Hw]; [rewrite <- Hw; reflexivity|]); contradiction).
    rewrite <- Ew. rewrite <- (app_nil_r (show 0 e)). eapply parses_bind with (F1 := ends) (Q1 := fun o => exists x, o = Some x /\ Qe e x).
    + rewrite <- (app_nil_r (show 0 e)). eapply parses_bind; [apply parses_equality; len|cbn; intros k Hk; now apply ends_FA|].
      intros x Qx. apply parses_ret. eauto.
    + cbn. auto.
    + intros o (x & -> & Qx). apply parses_ret, Qs_one. unfold Qe in Qx. cbn. now rewrite Qx.
  - unfold pre. pick tk0 Ek. tok. rewrite <- (app_nil_r (show 0 e)).
    eapply parses_bind; [apply parses_equality; len|cbn; intros k Hk; now apply ends_FA|]. intros x Qx. apply parses_ret, Qs_one.
    unfold Qe in Qx. cbn. now rewrite Qx.
  - unfold pre. pick tk0 Ek. tok. apply parses_ret, Qs_one. cbn [shape_st]. injection Et as Et _. now rewrite Et.
  - unfold pre. pick tk0 Ek. tok. apply parses_ret, Qs_one. cbn [shape_st]. injection Et as Et _. now rewrite Et.
Qed.

(** Words a statement or declaration begins with. *)
Definition starts : list tk := heads ++ [TMostra; TRetorna; TProduz; TQuebra; TContinua].
Lemma simple_starts l ws : simple l ws -> exists w ws', ws = w :: ws' /\ In (fst w) starts.
Proof.
  assert (G : forall e r, exists w ws', show 0 e ++ r = w :: ws' /\ In (fst w) starts).
  { intros e r. destruct (show_starts e 0) as (w & ws0 & Ew & Hw). rewrite Ew. eexists _, _. split; [reflexivity|]. apply in_or_app. now left. }
  intros [l0 Hl|o w t e Ho Hc Hf|n t v|n m l0 t|e|e| |]; try (rewrite sep_names); try apply G;
    try (eexists _, _; split; [reflexivity|cbn; tauto]).
  destruct l0 as [e|e|t v]; cbn [show_line]; try apply G; [eexists _, _; split; [reflexivity|cbn; tauto]|].
  rewrite <- (app_nil_r (show 0 e)). apply G.
Qed.

(** A declaration that begins so is a statement. *)
Lemma declaration_statement R (w : word) ws F Q : ~ In (fst w) [TAt; TFunc; TMet; TRegisto; TUniao] ->
  parses (statement U R) (w :: ws) F Q -> parses (declaration U R) (w :: ws) F Q.
Proof.
  intros Hw H. unfold declaration. apply parses_is.
  replace (tk_eqb (fst w) TAt) with false by (symmetry; destruct (tk_eqb (fst w) TAt) eqn:E; [|reflexivity]; apply tk_eqb_true in E; exfalso; apply Hw; rewrite E; cbn; tauto).
  change (w :: ws) with ([] ++ w :: ws). eapply parses_bind with (F1 := fun _ => True) (Q1 := fun a => a = []); [now apply parses_ret|exact I|].
  intros a ->. apply parses_look. intros t Et. assert (Ek : t_kind t = fst w) by (rewrite <- Et; reflexivity). rewrite Ek.
  destruct (fst w); try exact H; exfalso; apply Hw; cbn; tauto.
Qed.
Lemma statement_simple R (w : word) ws F Q : ~ In (fst w) compounds ->
  parses (bind (pre R) (fun l => end_stmt ;;; ret l)) (w :: ws) F Q -> parses (statement U R) (w :: ws) F Q.
Proof.
  intros Hw H ts rest e Ht Hg Hk. destruct (H ts rest e Ht Hg Hk) as (a & Ea & Qa). exists a. split; [|assumption]. rewrite <- Ea.
  apply statement_pre. destruct ts as [|t ts]; [discriminate|]. injection Ht as Hw0 _. unfold kind, look_tok. cbn [fst app].
  subst w. exact Hw.
Qed.
Lemma starts_fine k : In k starts -> ~ In k compounds /\ ~ In k [TAt; TFunc; TMet; TRegisto; TUniao] /\ ~ In k (TNewline :: block_end).
Proof. intros H. cbn in H. repeat (destruct H as [<-|H]; [cbn; intuition discriminate|]). contradiction. Qed.

Lemma closed_simple l ws w N : simple l ws -> closes w -> (List.length (ws ++ [w]) <= N)%nat ->
  parses (declaration U (run U N)) (ws ++ [w]) (fun _ => True) (Qs l).
Proof.
  intros H Hw HN. destruct (simple_starts _ _ H) as (w0 & ws0 & E & Hs). destruct (starts_fine _ Hs) as (H1 & H2 & _).
  assert (E' : ws ++ [w] = w0 :: ws0 ++ [w]) by now rewrite E. rewrite E'.
  apply declaration_statement, statement_simple; auto. rewrite <- E'.
  eapply parses_bind; [apply (parses_simple l ws N H); len| |].
  - cbn. destruct Hw as [-> | ->]; cbn; unfold ends; auto.
  - intros r Qr. now apply parses_end.
Qed.
End Stmt.
