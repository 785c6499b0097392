(** From expressions to lines and whole texts. *)
From Verif Require Import Base Lexer Spec_Lex LexFacts LexAll Syntax Parser ParseFacts ParseTotal Spec_Parse ParseExpr.
Local Open Scope Z_scope.
Local Open Scope parse_scope.

Definition at_eof (k : tk) : Prop := k = TEof.


(** [children] stops at the end of the text, so the state it leaves is not
    wanted exactly: only what was read. *)
Definition whole {A} (m : P A) (ws : list word) (Q : A -> Prop) : Prop :=
  forall ts t, words ts = ws -> t_kind t = TEof -> exists a, m (ts, EEof t) = POk a ([], EEof t) /\ Q a.

Lemma parses_whole {A} (m : P A) ws Q : parses m ws at_eof Q -> whole m ws Q.
Proof.
  intros H ts t Ht Hk. destruct (H ts [] (EEof t) Ht) as (a & Ea & Qa).
  - right. eauto.
  - exact Hk.
  - rewrite app_nil_r in Ea. eauto.
Qed.
Lemma whole_bind {A B} (m : P A) (f : A -> P B) ws1 ws2 F1 Q1 Q2 :
  parses m ws1 F1 Q1 -> meets ws2 at_eof F1 -> (forall a, Q1 a -> whole (f a) ws2 Q2) -> whole (bind m f) (ws1 ++ ws2) Q2.
Proof.
  intros Hm Hk Hf ts t Ht Et. unfold words in Ht.
  destruct (map_eq_app _ _ _ _ Ht) as (ts1 & ts2 & -> & E1 & E2).
  destruct (Hm ts1 ts2 (EEof t) E1) as (a & Ea & Qa).
  - right. eauto.
  - rewrite <- (app_nil_r ts2). eapply meets_kind; eauto.
  - destruct (Hf a Qa ts2 t E2 Et) as (b & Eb & Qb). exists b. split; [|assumption]. unfold bind. now rewrite Ea.
Qed.
Lemma whole_end_stmt {A} (a : A) (Q : A -> Prop) : Q a -> whole (end_stmt ;;; ret a) [] Q.
Proof.
  intros Qa ts t Ht Et. destruct ts; [|discriminate]. exists a. split; [|assumption].
  assert (E : consume TEof ([], EEof t) = POk t ([], EEof t)).
  { unfold consume, kind, look_tok. cbn [fst snd]. rewrite Et, tk_eqb_refl. reflexivity. }
  assert (E' : end_stmt ([], EEof t) = POk tt ([], EEof t)); [|unfold bind; now rewrite E'].
  unfold end_stmt, bind at 1, look. change (look_tok ([], EEof t)) with t. cbv iota beta. rewrite Et. unfold bind. now rewrite E.
Qed.
Lemma whole_look {A} w ws (f : token -> P A) Q :
  (forall t, word_of t = w -> whole (f t) (w :: ws) Q) -> whole (bind look f) (w :: ws) Q.
Proof.
  intros H ts t Ht Et. destruct ts as [|t0 ts]; [discriminate|]. injection Ht as Hw Ht.
  apply (H t0 Hw (t0 :: ts) t); auto. unfold words in *. cbn. now rewrite Hw, Ht.
Qed.
Lemma whole_look_end {A} (f : token -> P A) Q :
  (forall t, t_kind t = TEof -> whole (f t) [] Q) -> whole (bind look f) [] Q.
Proof. intros H ts t Ht Et. destruct ts; [|discriminate]. apply (H t Et [] t); auto. Qed.
Lemma whole_is_hd {A} k w ws ws0 (f : bool -> P A) Q : ws0 = w :: ws ->
  whole (f (tk_eqb (fst w) k)) ws0 Q -> whole (bind (is k) f) ws0 Q.
Proof.
  intros -> H ts t Ht Et. destruct (H ts t Ht Et) as (a & Ea & Qa). exists a. split; [|assumption].
  destruct ts as [|t0 ts]; [discriminate|]. injection Ht as Hw Ht. unfold bind, is, kind, look_tok. cbn [fst]. subst w. exact Ea.
Qed.
Lemma whole_next {A} w ws (f : token -> P A) Q :
  (forall t, word_of t = w -> whole (f t) ws Q) -> whole (bind (consume (fst w)) f) (w :: ws) Q.
Proof.
  intros H. change (w :: ws) with ([w] ++ ws). eapply whole_bind; [apply (parses_consume w (fun _ => True))| |exact H].
  destruct ws; cbn; auto.
Qed.

Definition line_heads : list tk := [TNewline; TDoubleAt; TUsa; TAt; TFunc; TMet; TRegisto; TUniao; TEof].

Lemma whole_module U R w ws Q : ~ In (fst w) line_heads -> whole (statement U R) (w :: ws) Q ->
  whole (module_ U R) (w :: ws) (fun m => sm_annots m = [] /\ Q (sm_children m)).
Proof.
  intros Hw H ts t Ht Et. destruct ts as [|t0 ts]; [discriminate|].
  destruct (H (t0 :: ts) t Ht Et) as (l & El & Ql). injection Ht as Hw0 _.
  assert (Hk : ~ In (t_kind t0) line_heads) by (subst w; exact Hw).
  assert (Hn : forall k, In k line_heads -> tk_eqb (t_kind t0) k = false).
  { intros k Hin. destruct (tk_eqb (t_kind t0) k) eqn:E; [|reflexivity]. apply tk_eqb_true in E. subst k. contradiction. }
  exists (mkModule [] l). split; [|split; [reflexivity|exact Ql]].
  assert (Sk : skip_newlines (t0 :: ts, EEof t) = POk tt (t0 :: ts, EEof t)).
  { unfold skip_newlines. cbn [fst snd skip_nl]. now rewrite (Hn TNewline) by (cbn; tauto). }
  assert (Lo : forall A k (bd : A -> P A) a, In k line_heads -> loop (one_of [k]) bd a (t0 :: ts, EEof t) = POk a (t0 :: ts, EEof t)).
  { intros A k bd a Hin. unfold loop. cbn [fst while]. unfold kind, look_tok. cbn [fst]. unfold one_of. cbn [existsb]. now rewrite (Hn k Hin). }
  unfold module_. unfold bind at 1. rewrite Sk. unfold bind at 1. unfold annotations. rewrite Lo by (cbn; tauto).
  unfold bind at 1. rewrite Lo by (cbn; tauto). unfold bind, children.
  assert (D : declaration U R (t0 :: ts, EEof t) = POk l ([], EEof t)).
  { unfold declaration, bind, is, look, ret. unfold kind, look_tok. cbn [fst]. rewrite (Hn TAt) by (cbn; tauto). cbv iota. unfold look_tok; cbn [fst].
    destruct (t_kind t0) eqn:E0; try exact El; exfalso; apply Hk; cbn; tauto. }
  unfold loop. cbn [fst List.length while]. unfold kind at 1, look_tok. cbn [fst]. unfold not_in at 1, one_of at 1. cbn [existsb]. rewrite (Hn TEof) by (cbn; tauto).
  cbn [orb negb]. cbv iota. unfold bind at 1 2. unfold is, kind, look_tok at 1. cbn [fst]. rewrite (Hn TNewline) by (cbn; tauto). cbv iota.
  unfold bind at 1. rewrite D. unfold ret at 1. cbn [app].
  destruct ts as [|t1 ts]; cbn [while]; unfold kind, look_tok; cbn [fst snd]; rewrite Et; reflexivity.
Qed.

Section Lines.
Variable U : uni.

Lemma show_head e n : exists w ws, show n e = w :: ws /\
  ~ In (fst w) ([TMostra; TRetorna; TProduz; TEnquanto; TSe; TPara; TEscolha; TQuebra; TContinua; TIguala] ++ line_heads).
Proof.
  revert n. assert (L : forall e n, (level e <? n)%nat = true -> exists w ws, show n e = w :: ws /\
    ~ In (fst w) ([TMostra; TRetorna; TProduz; TEnquanto; TSe; TPara; TEscolha; TQuebra; TContinua; TIguala] ++ line_heads)).
  { intros e0 n E. rewrite show_eq, E. eexists _, _. split; [reflexivity|]. cbn. intuition discriminate. }
  induction e using ex_ind'; intros m;
    match goal with |- context [show _ ?e] => destruct (level e <? m)%nat eqn:El; [now apply L|] end;
    rewrite show_eq, El; cbn [body].
  - destruct a; cbn [show_atom flat_map app]; eexists _, _; (split; [reflexivity|]); cbn; intuition discriminate.
  - eexists _, _. split; [reflexivity|]. destruct o; cbn; intuition discriminate.
  - destruct (IHe1 (bin_level o)) as (w & ws & E & H). rewrite E. eexists _, _. split; [reflexivity|exact H].
  - destruct (IHe 6%nat) as (w & ws & E & H'). rewrite E. eexists _, _. split; [reflexivity|exact H'].
  - destruct (IHe 6%nat) as (w & ws & E & H'). rewrite E. eexists _, _. split; [reflexivity|exact H'].
  - destruct (IHe1 6%nat) as (w & ws & E & H'). rewrite E. eexists _, _. split; [reflexivity|exact H'].
  - destruct (IHe 6%nat) as (w & ws & E & H'). rewrite E. eexists _, _. split; [reflexivity|exact H'].
  - eexists _, _. split; [reflexivity|]. cbn. intuition discriminate.
Qed.

Lemma assignable_shape x e : shape x = Some e -> can_set e -> assignable x = true.
Proof.
  intros H Hc. destruct x; cbn [shape] in H; try discriminate; try reflexivity;
    repeat match goal with H : obind ?o _ = _ |- _ => destruct o eqn:?; cbn [obind] in H; [|discriminate] end;
    try (injection H as <-; cbn in Hc; contradiction).
  - unfold atom_of in *. injection H as <-. destruct (t_kind t), (t_lex t); try discriminate; injection Heqo as <-; cbn in Hc; contradiction.
  - destruct tl; [discriminate|]. injection H as <-. cbn in Hc. contradiction.
Qed.

(** An assignment's right-hand side, alone or followed by the end. *)
Lemma parses_rhs N v : (List.length (show 0 v) <= N)%nat ->
  parses (assignment U (run U N)) (show 0 v) at_eof (Qe v).
Proof.
  intros HN ts rest e Ht Hg Hk. unfold assignment. cbn [fst assignment_].
  destruct (parses_equality U v N HN ts rest e Ht Hg) as (x & Ex & Qx).
  - rewrite Hk. reflexivity.
  - exists x. split; [|assumption]. unfold bind at 1. rewrite Ex. unfold bind, is. rewrite Hk. reflexivity.
Qed.

Definition set_node (tok : token) (x v : sx) : sx :=
  match x with XGet _ _ => XSet x v | XIndex _ _ _ => XIndexSet tok x v | _ => XAssign tok x v end.
Lemma set_shape tok x v t e : shape x = Some t -> shape v = Some e -> can_set t ->
  shape_line (set_node tok x v) = Some (LSet t e) /\ forall n, set_node tok x v <> XVar n.
Proof.
  intros Hx Hv Hc. pose proof (assignable_shape _ _ Hx Hc) as Ha. unfold set_node.
  destruct x; try discriminate Ha; cbn [shape_line]; rewrite Hx, Hv; split; try reflexivity; discriminate.
Qed.

Lemma whole_set N t v : can_set t -> (List.length (show 0 t ++ lit TEqual (txt "=") :: show 0 v) <= N)%nat ->
  whole (expression U (run U N)) (show 0 t ++ lit TEqual (txt "=") :: show 0 v)
    (fun x => shape_line x = Some (LSet t v) /\ forall n, x <> XVar n).
Proof.
  intros Hc HN ts te Ht Et. rewrite app_length in HN. cbn [List.length] in HN. unfold words in Ht.
  destruct (map_eq_app _ _ _ _ Ht) as (t1 & t2 & -> & E1 & E2). destruct t2 as [|eqt t2]; [discriminate|]. injection E2 as Ek _ E2.
  destruct (parses_equality U t N ltac:(lia) t1 (eqt :: t2) (EEof te) E1) as (x & Ex & Qx).
  { left. discriminate. } { unfold kind, look_tok. cbn [fst]. rewrite Ek. reflexivity. }
  pose proof (assignable_shape _ _ Qx Hc) as Ha.
  assert (Hv : exists y, assignment_ U (run U N) (List.length (t1 ++ eqt :: t2)) (t2, EEof te) = POk y ([], EEof te) /\ shape y = Some v).
  { destruct (parses_equality U v N ltac:(lia) t2 [] (EEof te) E2) as (y & Ey & Qy).
    { right. eauto. } { unfold kind, look_tok. cbn. rewrite Et. reflexivity. }
    rewrite app_nil_r in Ey. exists y. split; [|exact Qy]. rewrite app_length. cbn [List.length]. rewrite Nat.add_succ_r. cbn [assignment_].
    unfold bind at 1. rewrite Ey. unfold bind, is, kind, look_tok. cbn [fst snd]. rewrite Et. reflexivity. }
  destruct Hv as (y & Ey & Qy). destruct (set_shape eqt x y t v Qx Qy Hc) as [S1 S2].
  exists (set_node eqt x y). split; [|split; assumption].
  assert (A : assignment U (run U N) (t1 ++ eqt :: t2, EEof te) = POk (set_node eqt x y) ([], EEof te)).
  { unfold assignment. cbn [fst assignment_]. unfold bind at 1. rewrite Ex. unfold bind at 1, is, kind at 1, look_tok at 1. cbn [fst]. rewrite Ek.
    change (tk_eqb TEqual TEqual) with true. cbv iota. unfold bind at 1. unfold consume, kind, look_tok. cbn [fst]. rewrite Ek.
    change (tk_eqb TEqual TEqual) with true. cbv iota. unfold bind at 1, next. cbn [fst snd].
    replace (pull t2 (EEof te)) with (POk tt (t2, EEof te)) by (destruct t2; reflexivity). unfold ret at 1. rewrite Ha. cbn [negb].
    unfold bind. rewrite Ey. unfold set_node. destruct x; try discriminate Ha; reflexivity. }
  unfold expression. unfold bind at 1. rewrite A. unfold bind, look, look_tok. cbn [fst snd]. rewrite Et. reflexivity.
Qed.

Lemma whole_expr N e : (List.length (show 0 e) <= N)%nat ->
  whole (expression U (run U N)) (show 0 e) (Qe e).
Proof.
  intros HN ts te Ht Et. destruct (parses_rhs N e HN ts [] (EEof te) Ht) as (x & Ex & Qx).
  { right. eauto. } { exact Et. }
  rewrite app_nil_r in Ex. exists x. split; [|exact Qx]. unfold expression, bind. rewrite Ex. unfold look, look_tok. cbn [fst snd].
  rewrite Et. reflexivity.
Qed.

Lemma whole_decl N ws (Q : sx -> Prop) : whole (expression U (run U N)) ws Q ->
  whole (decl_stmt U (run U N)) ws (fun l => exists x, l = [x] /\ Q x).
Proof.
  intros H ts te Ht Et. destruct (H ts te Ht Et) as (x & Ex & Qx). exists [x]. split; [|eauto].
  unfold decl_stmt. unfold bind at 1. rewrite Ex. unfold bind at 1, look, look_tok. cbn [fst snd]. rewrite Et.
  assert (E : forall A (a b : A), match x with XVar _ => a | _ => a end = a) by (intros; destruct x; reflexivity).
  unfold bind at 1.
  replace ((match x with XVar n => ret [x] | _ => ret [x] end) ([], EEof te)) with (@POk (list sx) [x] ([], EEof te)) by (destruct x; reflexivity).
  destruct (whole_end_stmt [x] (fun l => l = [x]) eq_refl [] te eq_refl Et) as (a & Ea & ->). exact Ea.
Qed.

Lemma statement_decl w ws N Q : ~ In (fst w) [TMostra; TRetorna; TProduz; TEnquanto; TSe; TPara; TEscolha; TQuebra; TContinua; TIguala] ->
  whole (decl_stmt U (run U N)) (w :: ws) Q -> whole (statement U (run U N)) (w :: ws) Q.
Proof.
  intros Hw H. unfold statement. apply whole_look. intros t Et.
  assert (Ek : t_kind t = fst w) by (rewrite <- Et; reflexivity). rewrite Ek.
  destruct (fst w); try exact H; exfalso; apply Hw; cbn; tauto.
Qed.

Lemma whole_line N l : line_ok l -> (List.length (show_line l) <= N)%nat ->
  whole (module_ U (run U N)) (show_line l)
    (fun m => sm_annots m = [] /\ exists x, sm_children m = [x] /\ shape_line x = Some l).
Proof.
  intros Hl HN.
  pose proof (fun w ws => whole_module U (run U N) w ws (fun ch => exists x, ch = [x] /\ shape_line x = Some l)) as WM. cbn beta in WM.
  destruct l as [e|e|t v]; cbn [show_line line_ok] in *.
  - apply WM; [cbn; intuition discriminate|]. unfold statement. apply whole_look. intros tok Et.
    assert (Ek : t_kind tok = TMostra) by now injection Et. rewrite Ek. cbn [List.length] in HN.
    apply (whole_next (lit TMostra (txt "mostra"))). intros t1 _. rewrite <- (app_nil_r (show 0 e)).
    eapply whole_bind; [apply (parses_equality U e N); lia| |].
    + cbn. intros k ->. reflexivity.
    + intros x Qx. apply whole_end_stmt. exists (XMostra t1 x). split; [reflexivity|]. cbn. now rewrite Qx.
  - destruct (show_head e 0) as (w & ws & Ew & Hw). rewrite Ew in *.
    apply WM; [intros H; apply Hw, in_or_app; now right|].
    apply statement_decl; [intros H; apply Hw, in_or_app; now left|]. rewrite <- Ew in *.
    intros ts te Ht Et. destruct (whole_decl N (show 0 e) (Qe e) (whole_expr N e HN) ts te (eq_trans Ht (eq_sym Ew)) Et) as (a & Ea & x & -> & Qx).
    exists [x]. split; [exact Ea|]. exists x. split; [reflexivity|]. unfold Qe in Qx.
    destruct x; cbn [shape_line]; try (now rewrite Qx); discriminate.
  - destruct (show_head t 0) as (w & ws & Ew & Hw).
    assert (Ews : show 0 t ++ lit TEqual (txt "=") :: show 0 v = w :: ws ++ lit TEqual (txt "=") :: show 0 v) by now rewrite Ew.
    rewrite Ews. apply WM; [intros H; apply Hw, in_or_app; now right|].
    apply statement_decl; [intros H; apply Hw, in_or_app; now left|].
    intros ts te Ht Et. destruct (whole_decl N _ _ (whole_set N t v Hl HN) ts te (eq_trans Ht (eq_sym Ews)) Et) as (a & Ea & x & -> & Qx & _).
    exists [x]. split; [exact Ea|]. eauto.
Qed.

(** Compound assignment. *)
Definition no_field (t : ex) : Prop := match t with EField _ _ => False | _ => True end.
Lemma compound_kind o w : compound o = Some w -> exists k wd, compound_op (fst w) = Some (k, wd) /\ bin_of k = Some o /\
  FE 0 (fst w) /\ fst w <> TEqual.
Proof. destruct o; cbn; intros H; try discriminate; injection H as <-; eexists _, _; (split; [reflexivity|]); (split; [reflexivity|]); split; try reflexivity; discriminate. Qed.

Lemma whole_compound N o w t e : compound o = Some w -> can_set t ->
  (List.length (show 0 t ++ w :: show 0 e) <= N)%nat ->
  whole (expression U (run U N)) (show 0 t ++ w :: show 0 e)
    (fun x => shape_line x = Some (match t with EField _ _ => LSet t e | _ => LSet t (EBin o t e) end) /\ forall n, x <> XVar n).
Proof.
  intros Ho Hc HN ts te Ht Et. rewrite app_length in HN. cbn [List.length] in HN. unfold words in Ht.
  destruct (compound_kind _ _ Ho) as (k & wd & Ck & Bk & Fk & Nk).
  destruct (map_eq_app _ _ _ _ Ht) as (t1 & t2 & -> & E1 & E2). destruct t2 as [|opt t2]; [discriminate|]. injection E2 as Eq0 E2.
  assert (Ek : t_kind opt = fst w) by now rewrite <- Eq0.
  destruct (parses_equality U t N ltac:(lia) t1 (opt :: t2) (EEof te) E1) as (x & Ex & Qx).
  { left. discriminate. } { unfold kind, look_tok. cbn [fst]. rewrite Ek. exact Fk. }
  pose proof (assignable_shape _ _ Qx Hc) as Ha.
  destruct (parses_equality U e N ltac:(lia) t2 [] (EEof te) E2) as (y & Ey & Qy).
  { right. eauto. } { unfold kind, look_tok. cbn. rewrite Et. reflexivity. }
  rewrite app_nil_r in Ey.
  assert (A : assignment U (run U N) (t1 ++ opt :: t2, EEof te) = POk x (opt :: t2, EEof te)).
  { unfold assignment. cbn [fst assignment_]. unfold bind at 1. rewrite Ex. unfold bind at 1, is, kind at 1, look_tok at 1. cbn [fst]. rewrite Ek.
    replace (tk_eqb (fst w) TEqual) with false; [reflexivity|]. symmetry. destruct (tk_eqb (fst w) TEqual) eqn:E; [|reflexivity].
    apply tk_eqb_true in E. contradiction. }
  assert (A' : assignment U (run U N) (t2, EEof te) = POk y ([], EEof te)).
  { unfold assignment. cbn [fst assignment_]. unfold bind at 1. rewrite Ey. unfold bind at 1, is, kind at 1, look_tok at 1. cbn [fst snd]. rewrite Et. reflexivity. }
  set (eq0 := mkTok TEqual (LText (txt "=")) (t_line opt) (t_col opt)). set (op0 := mkTok k (LText wd) (t_line opt) (t_col opt)).
  assert (Sb : shape (XBin op0 x y) = Some (EBin o t e)).
  { cbn [shape t_kind op0]. unfold op0. cbn [t_kind]. rewrite Bk. cbn [obind]. now rewrite Qx, Qy. }
  exists (match x with XGet _ _ => XSet x y | XIndex _ _ _ => XIndexSet op0 x (XBin op0 x y) | _ => XAssign eq0 x (XBin op0 x y) end).
  split.
  - unfold expression. unfold bind at 1. rewrite A. unfold bind at 1, look, look_tok. cbn [fst]. rewrite Ek, Ck, Ha. cbn [negb].
    unfold bind at 1. unfold consume, kind, look_tok. cbn [fst]. rewrite Ek, tk_eqb_refl. unfold bind at 1, next. cbn [fst snd].
    replace (pull t2 (EEof te)) with (POk tt (t2, EEof te)) by (destruct t2; reflexivity). unfold ret at 1.
    unfold bind. destruct x; try discriminate Ha; try (rewrite A'; reflexivity); rewrite Ey; reflexivity.
  - assert (Hne : forall s u, t = EField s u -> exists a b, x = XGet a b).
    { intros s u ->. destruct x; cbn [shape] in Qx; try discriminate Ha; try discriminate Qx; try (eexists _, _; reflexivity).
      unfold Qe in Qx. cbn [shape] in Qx. repeat match type of Qx with obind ?o _ = _ => destruct o; cbn [obind] in Qx; [|discriminate Qx] end. discriminate Qx. }
    assert (Hme : forall a b, x = XGet a b -> exists s u, t = EField s u).
    { intros a b ->. unfold Qe in Qx. cbn [shape] in Qx. destruct (shape a); cbn [obind] in Qx; [|discriminate Qx]. injection Qx as <-. eauto. }
    destruct x; try discriminate Ha; (split; [|discriminate]); cbn [shape_line]; rewrite Qx; cbn [obind];
      try (destruct (Hme _ _ eq_refl) as (s & u & ->); rewrite Qy; reflexivity);
      rewrite Sb; cbn [obind]; (destruct t; try reflexivity; destruct (Hne _ _ eq_refl) as (a & b & [=])).
Qed.

Lemma whole_module_compound N o w t e : compound o = Some w -> can_set t ->
  (List.length (show 0 t ++ w :: show 0 e) <= N)%nat ->
  whole (module_ U (run U N)) (show 0 t ++ w :: show 0 e)
    (fun m => sm_annots m = [] /\ exists x, sm_children m = [x] /\
       shape_line x = Some (match t with EField _ _ => LSet t e | _ => LSet t (EBin o t e) end)).
Proof.
  intros Ho Hc HN. destruct (show_head t 0) as (w0 & ws & Ew & Hw).
  assert (Ews : show 0 t ++ w :: show 0 e = w0 :: ws ++ w :: show 0 e) by now rewrite Ew.
  rewrite Ews.
  apply (whole_module U (run U N) w0 _ (fun ch => exists x, ch = [x] /\
    shape_line x = Some (match t with EField _ _ => LSet t e | _ => LSet t (EBin o t e) end))); [intros H; apply Hw, in_or_app; now right|].
  apply statement_decl; [intros H; apply Hw, in_or_app; now left|].
  intros ts te Ht Et. destruct (whole_decl N _ _ (whole_compound N o w t e Ho Hc HN) ts te (eq_trans Ht (eq_sym Ews)) Et) as (a & Ea & x & -> & Qx & _).
  exists [x]. split; [exact Ea|]. eauto.
Qed.

(** From the text. *)
Lemma written_parse src ws Q : python_tables U -> ~ slips src -> written U src ws ->
  (forall N, (List.length ws <= N)%nat -> whole (module_ U (run U N)) ws Q) ->
  exists m s, parse U src = POk m s /\ Q m.
Proof.
  intros HU Hs (items & Hr & Hw) H.
  destruct (tokens_complete U HU 1 src items Hr (S (List.length src)) (start src) eq_refl (Nat.lt_succ_diag_r _) Hs) as (ts & e & E & F & _).
  assert (Ews : words ts = ws).
  { subst ws. clear -F. induction F as [|t i ts is [A B] F IH]; [reflexivity|]. cbn. unfold word_of. rewrite A, B. f_equal. exact IH. }
  pose proof (tokens_wt U HU (S (List.length src)) (start src)) as Wt. rewrite E in Wt. cbn [fst start lx_rest] in Wt.
  assert (Hlen : (List.length ws <= S (List.length src))%nat).
  { rewrite <- Ews. unfold words. rewrite map_length. assert (List.length ts <= lwt ts)%nat; [|lia]. clear. induction ts as [|t ts IH]; cbn [List.length lwt]; [lia|]. pose proof (twt_pos t). lia. }
  assert (Hk : t_kind e = TEof) by (eapply tokens_eof; exact E).
  destruct (H _ Hlen ts e Ews Hk) as (m & Em & Qm). exists m, ([], EEof e). split; [|exact Qm].
  unfold parse. unfold tokenise. rewrite E. unfold parse_tokens.
  replace (pull ts (EEof e)) with (POk tt (ts, EEof e)) by (destruct ts; reflexivity). exact Em.
Qed.
End Lines.
