(** Statements: the names they use and declare. *)
From Verif Require Import Base BaseFacts Dec Bson Value Ast Types Syntax Sym Exhaust Check Front Spec_Accept Spec_Scope GenLocals ValueFacts AcceptBase AcceptTypes AcceptFrame AcceptStep AcceptExpr AcceptDecl ScopeExpr ScopeInv.
Local Open Scope chk_scope.

Section Stm.
Variable F : front_env.
Variable usa : smode -> text -> M unit.
Variable gl : nat.
Variable path : text.
Variable stf : store.
Notation visit := (visit F usa).
Notation visits := (visits F usa).
Notation sinv := (sinv gl path).
Notation scoped := (scoped stf).
Notation after := (after stf).
Tactic Notation "next" simple_intropattern(a) ident(Q) := let s1 := fresh "s" in apply cbind_inv in Q as (a & s1 & ?H & Q).
Ltac lsub H := match type of H with ?a = _ => subst a end.
Ltac first_line H := cbn [Check.visit] in H; apply cbind_inv in H as (?u & ?s0 & ?L & H).

Lemma define_out i d sc s u s' x : nth_error (so_syms (sst_st s)) i = Some x -> define_symbol F i d sc s = COk u s' -> (1 <= d)%nat ->
  so_syms (sst_st s') = upd (so_syms (sst_st s)) i (s_set_out (out_name d (cnt (sst_st s) sc))) /\
  so_scopes (sst_st s') = upd (so_scopes (sst_st s)) sc (bind_in (s_name x) i) /\ so_opcao (sst_st s') = so_opcao (sst_st s) /\ sst_cx s' = sst_cx s.
Proof.
  intros E H D. unfold define_symbol in H. apply cbind_inv in H as (x' & s1 & H1 & H). apply sym_at_inv in H1 as [E1 ->].
  assert (x' = x) as -> by congruence. apply cbind_inv in H as (k & s1 & H1 & H). unfold count in H1. apply gst_inv in H1 as [EK ->].
  apply cbind_inv in H as (v & s1 & H1 & H). unfold define, mst in H. injection H as <- <-.
  assert (DB : (1 <=? d)%nat = true) by (apply Nat.leb_le; exact D). rewrite DB, orb_true_r in H1.
  unfold upd_sym, mst in H1. injection H1 as <- <-. subst k. repeat split; reflexivity.
Qed.
Lemma new_out n t sc d s i s1 u s2 : new_var n t s = COk i s1 -> define_symbol F i d sc s1 = COk u s2 -> (1 <= d)%nat ->
  i = List.length (so_syms (sst_st s)) /\ sst_cx s2 = sst_cx s /\ so_opcao (sst_st s2) = so_opcao (sst_st s) /\
  so_scopes (sst_st s2) = upd (so_scopes (sst_st s)) sc (bind_in n i) /\
  so_syms (sst_st s2) = so_syms (sst_st s) ++ [mkSymbol n (out_name d (cnt (sst_st s) sc)) false false (cx_module (sst_cx s)) false (SVar t)].
Proof.
  intros H1 H2 D. apply new_var_inv in H1 as (-> & ->). edestruct define_out as (SY & SC & OP & CX); [|exact H2|exact D|].
  - cbn. apply nth_last.
  - cbn [sst_st sst_cx with_syms so_syms so_scopes so_opcao s_name] in *. rewrite upd_last in SY. auto.
Qed.

(** ** Expressions *)
Lemma reads_ok x p again L s t o s' : is_a (core x) = true -> visit x p None again s = COk (t, o) s' -> sinv L s -> reads L t.
Proof.
  intros C V I. pose proof (uses_found _ _ _ _ _ _ _ _ _ C V) as H. unfold reads. eapply Forall_impl; [|exact H]. cbn. intros u E.
  rewrite <- E. symmetry. eapply sinv_resolve. exact I.
Qed.
Lemma reads_prom L b t : reads L t -> reads L (set_prom b t).
Proof. unfold reads. rewrite uses_prom. auto. Qed.
Lemma etx_scoped L t : etx t = true -> reads L t -> scoped L t.
Proof. destruct t; try discriminate; intros _ H; exact H. Qed.
Lemma etx_after L t : etx t = true -> after L t = L.
Proof. destruct t; try discriminate; reflexivity. Qed.

(** ** Statements *)
Definition Sc (x : sx) : Prop := forall again L s t o s', visit x PNone None again s = COk (t, o) s' -> sinv L s -> (cx_depth (sst_cx s) + nest x <= 9)%nat ->
  ext (sst_st s') stf -> (is_decl x = true -> cx_depth (sst_cx s) <> 0%nat) -> scoped L t /\ (is_decl x = false -> after L t = L) /\ sinv (after L t) s'.
Lemma s_step x again s t o s' : is_s (core x) = true \/ is_l (core x) = true -> is_decl x = false -> noyield s ->
  visit x PNone None again s = COk (t, o) s' -> step nowhere s s'.
Proof.
  intros C ND NY V. destruct (P_all F usa x) as [PX _]. eapply step_weak; [|eapply PX; [exact C|exact NY|congruence|exact V]].
  intros k [D _]. congruence.
Qed.
Lemma sc_plain x : is_s (core x) = true -> is_decl x = false ->
  (forall again L s t o s', visit x PNone None again s = COk (t, o) s' -> sinv L s -> (cx_depth (sst_cx s) + nest x <= 9)%nat -> ext (sst_st s') stf -> scoped L t /\ after L t = L) -> Sc x.
Proof.
  intros C ND H again L s t o s' V I N X DL. destruct (H _ _ _ _ _ _ V I N X) as (S1 & S2). split; [exact S1|]. split; [auto|]. rewrite S2.
  eapply sinv_step; [exact I|]. eapply s_step; [left; exact C|exact ND|apply I|exact V].
Qed.
Lemma Sc_expr x : is_e (core x) = true -> Sc x.
Proof.
  intros C. apply sc_plain; [destruct (core x); try discriminate C; reflexivity|destruct x; try reflexivity; cbn in C; repeat (match type of C with context[match ?e with _ => _ end] => destruct e end; try discriminate C)|].
  intros again L s t o s' V I _ _. pose proof (visit_etx _ _ _ _ _ _ _ _ _ (is_e_is_a _ C) V) as ET. split; [|apply etx_after; exact ET].
  apply etx_scoped; [exact ET|]. eapply reads_ok; [apply is_e_is_a; exact C|exact V|exact I].
Qed.
Ltac begin := intros again L s t0 o0 s' V I N X; cbn [Check.visit] in V; next ?u V;
  match goal with H : set_line _ _ = COk _ _ |- _ => apply line_inv in H; subst end;
  match type of V with _ (reline s ?l) = _ => apply sinv_line with (ln := l) in I; 
    change (cx_depth (sst_cx s)) with (cx_depth (sst_cx (reline s l))) in N;
    let s0 := fresh "s" in set (s0 := reline s l) in *; clearbody s0; clear s; rename s0 into s end.
Lemma vstep L x p again s r s' : is_e (core x) = true -> visit x p None again s = COk r s' -> sinv L s -> sinv L s' /\ reads L (fst r).
Proof.
  intros C V I. split; [eapply sinv_step; [exact I|eapply v_step; eassumption]|]. destruct r. eapply reads_ok; [apply is_e_is_a; exact C|exact V|exact I].
Qed.
Lemma Sc_assign t v r : is_e (core r) = true -> Sc (XAssign t (XVar v) r).
Proof.
  intros C. apply sc_plain; [cbn; rewrite C; reflexivity|reflexivity|]. begin. next rv V. destruct (vstep _ _ _ _ _ _ _ C H I) as [I1 RV].
  next ?u V. apply line_inv in H0. subst. next lr V. apply variable_inv in H0 as (-> & i & x & ty & -> & RS & E & SY & CE).
  cbn [fst snd] in V. next y V. apply sym_at_inv in H0 as [E' ->]. next m V. apply gcx_inv in H0 as [-> ->].
  match type of V with (if ?b then _ else _) _ = _ => destruct b end; [discriminate V|].
  assert (RD : forall b, reads L (TAssign (Lexer.t_line t) (lex_text v) i (set_prom b (fst rv)) ty)).
  { intros b. unfold reads. cbn [uses]. constructor; [|apply reads_prom; exact RV]. cbn [fst snd]. rewrite <- RS. symmetry. eapply sinv_resolve. apply sinv_line. exact I1. }
  assert (V' : (promotes (tx_ty (fst rv)) ty ;;; ok <- match_ty ty (tx_ty (fst rv)) ;;
     (if negb ok then set_line (Lexer.t_line t) ;;; ccerr else cret (TAssign (Lexer.t_line t) (lex_text v) i (set_prom (to_real (tx_ty (fst rv)) ty) (fst rv)) ty, None))) (reline s0 (Lexer.t_line v)) = COk (t0, o0) s').
  { destruct ty; try exact V. discriminate V. }
  clear V. rename V' into V. next ?u V. next ok V. destruct ok; [|next ?u V; discriminate V]. apply cret_inv in V as [V ->]. injection V as -> ->.
  split; [apply RD|reflexivity].
Qed.
Lemma Sc_iset t a v : is_e (core a) = true -> is_e (core v) = true -> Sc (XIndexSet t a v).
Proof.
  intros C C'. apply sc_plain; [cbn; rewrite C, C'; reflexivity|reflexivity|]. begin. next ra V. destruct (vstep _ _ _ _ _ _ _ C H I) as [I1 RA].
  next ?u V. assert (s1 = s0) as -> by (destruct (tx_ty (fst ra)) as [[]|?|?|?|? ?|?|?]; try discriminate H0; apply cret_inv in H0 as [_ ->]; reflexivity).
  next rv V. destruct (vstep _ _ _ _ _ _ _ C' H1 I1) as [I2 RV]. next ok V. destruct ok; [|next ?u V; discriminate V]. apply cret_inv in V as [V ->]. injection V as -> ->.
  split; [|reflexivity]. apply Forall_app. split; assumption.
Qed.
Lemma Sc_set a v : is_e (core a) = true -> is_e (core v) = true -> Sc (XSet a v).
Proof.
  intros C C'. apply sc_plain; [cbn; rewrite C, C'; reflexivity|reflexivity|]. begin. next ra V. destruct (vstep _ _ _ _ _ _ _ C H I) as [I1 RA].
  destruct (fst ra) as [| | | | | | | | | | |ln ta m t| | | | | | | | | | | | | | | | | | | | | | |] eqn:EA; try discriminate V.
  assert (V' : (rv <- visit v PExpr None again ;;
              let tt := t in
              promotes (tx_ty (fst rv)) tt ;;;
              ok <- match_ty tt (tx_ty (fst rv)) ;;
              if negb ok then set_line (Lexer.t_line (Parser.node_tok (XSet a v))) ;;; ccerr
              else cret (TSet (Lexer.t_line (Parser.node_tok (XSet a v))) (TGet ln ta m t) (set_prom (to_real (tx_ty (fst rv)) tt) (fst rv)) tt, None)) s0 = COk (t0, o0) s').
  { destruct (tx_ty ta); try exact V. discriminate V. }
  clear V. rename V' into V. cbn zeta in V. next rv V. destruct (vstep _ _ _ _ _ _ _ C' H0 I1) as [I2 RV]. next ?u V. next ok V.
  destruct ok; [|next ?w V; discriminate V]. apply cret_inv in V as [V ->]. injection V as -> ->.
  split; [|reflexivity]. apply Forall_app. split; [exact RA|apply reads_prom; exact RV].
Qed.
Lemma Sc_mostra t e : is_e (core e) = true -> Sc (XMostra t e).
Proof.
  intros C. apply sc_plain; [cbn; rewrite C; reflexivity|reflexivity|]. begin. next r V. destruct (vstep _ _ _ _ _ _ _ C H I) as [I1 RA].
  apply cret_inv in V as [V ->]. injection V as -> ->. split; [exact RA|reflexivity].
Qed.
Lemma Sc_loopctl t : Sc (XLoopCtl t).
Proof.
  apply sc_plain; [reflexivity|reflexivity|]. begin. next b V. destruct b; [|discriminate V]. apply cret_inv in V as [V ->]. injection V as -> ->.
  split; [constructor|reflexivity].
Qed.
Lemma Sc_ret t o : oP (fun e => is_e (core e) = true) o -> Sc (XRet t o).
Proof.
  intros C. apply sc_plain; [cbn; destruct o; [cbn in C; rewrite C|]; reflexivity|reflexivity|]. begin.
  next f V. apply gcx_inv in H as [-> ->]. destruct (cx_func (sst_cx s)) as [f|]; [|discriminate V].
  next x V. apply sym_at_inv in H as [E ->]. next ft V. apply must_inv in H as [ET ->]. destruct o as [e|].
  - destruct (is_vazio ft); [discriminate V|]. next y V. apply gcx_inv in H as [-> ->]. rewrite (v_yield _ _ _ _ I) in V. next ?v V. apply cret_inv in H as [_ ->].
    next re V. destruct (vstep _ _ _ _ _ _ _ C H I) as [I1 RA]. next ?v V. next ok V. destruct ok; [|discriminate V]. apply cret_inv in V as [V ->]. injection V as -> ->.
    split; [|reflexivity]. apply reads_prom. exact RA.
  - destruct (negb (is_vazio ft)); [discriminate V|]. next y V. apply gcx_inv in H as [-> ->]. rewrite (v_yield _ _ _ _ I) in V. next ?v V. apply cret_inv in H as [_ ->].
    apply cret_inv in V as [V ->]. injection V as -> ->. split; [constructor|reflexivity].
Qed.
(** A declaration inside a block. *)
Lemma declares_ok L s n i x ns r : sinv L s -> L = mkLevel (cx_scope (sst_cx s)) ns :: r -> (List.length L <= 10)%nat -> ext (sst_st s) stf ->
  scope_get (sst_st s) (cx_scope (sst_cx s)) n = None -> scope_get stf (cx_scope (sst_cx s)) n = Some i -> nth_error (so_syms stf) i = Some x -> s_name x = n ->
  (r <> [] -> s_out x = out_name (List.length r) (cnt (sst_st s) (cx_scope (sst_cx s)))) -> declares stf L n i.
Proof.
  intros I EL LE X FREE SG EX NX OX. pose proof (v_chain _ _ _ _ I) as C. subst L. cbn [declares lv_names lv_scope]. split; [|split; [exact SG|split; [eauto|]]].
  - unfold scope_get in FREE. inversion C as [c ? E U A|? c up ? ? E U LT C' (A & _)]; subst; rewrite A; rewrite E in FREE; exact FREE.
  - intros NE. eapply fresh_slot; [exact C|exact LE|exact X|exact EX|]. cbn [List.length pred]. apply OX. exact NE.
Qed.
Lemma Sc_decl t n y o : core_ty y = true -> oP (fun q => is_e (core (snd q)) = true) o -> Sc (XDecl t n y o).
Proof.
  intros CY C again L s t0 o0 s' V I N X DL. specialize (DL eq_refl).
  cbn [Check.visit] in V. next ?u V. apply line_inv in H. subst.
  match type of V with _ (reline s ?l) = _ => apply sinv_line with (ln := l) in I;
    change (cx_depth (sst_cx s)) with (cx_depth (sst_cx (reline s l))) in N, DL;
    let s0 := fresh "s" in set (s0 := reline s l) in *; clearbody s0; clear s; rename s0 into s end.
  next ?v V. apply free_inv in H as [-> FREE]. next ?v V. destruct again; [discriminate H|]. apply cret_inv in H as [_ ->].
  next ty V. pose proof (AcceptDecl.type_same _ CY _ _ _ H). subst s0.
  next i V. next d V. apply gcx_inv in H1 as [-> ->]. next cur V. apply gcx_inv in H1 as [-> ->]. next ?v V.
  edestruct new_out as (EI & CX & OP & SC & SY); [exact H0|exact H1| |].
  { apply new_var_inv in H0 as [_ ->]. cbn. lia. }
  apply new_var_inv in H0 as [_ ->]. cbn [sst_cx sst_st] in *. clear H1.
  match type of V with _ ?z = _ => rename z into sd end. set (x := mkSymbol _ _ _ _ _ _ _) in SY.
  next rr V. match type of H0 with _ = COk _ ?z => rename z into se end. 
  destruct (cx_depth (sst_cx s)) as [|dd] eqn:ED; [congruence|]. cbn [Nat.eqb] in V. next ?v V. apply cret_inv in H1 as [_ ->].
  apply cret_inv in V as [V ->]. injection V as -> ->.
  assert (SD : step nowhere sd se).
  { destruct o as [[ta e]|].
    - destruct (lex_is (Parser.node_tok e) (lex_text n)); [discriminate H0|]. next ?v H0. apply l_step in H1. eapply step_trans; [exact H1|].
      next rv H0. apply v_step in H2; [|exact C]. eapply step_trans; [exact H2|]. next ?v H0. apply l_step in H3. eapply step_trans; [exact H3|].
      next rl H0. apply variable_inv in H4 as (-> & _). match type of H0 with _ ?z = _ => rename z into sq end.
      assert (V' : (promotes (tx_ty (fst rv)) (snd rl) ;;; ok <- match_ty (snd rl) (tx_ty (fst rv)) ;;
        (if negb ok then set_line (Lexer.t_line ta) ;;; ccerr else cret (Some (TAssign (Lexer.t_line ta) (lex_text n) (fst rl) (set_prom (to_real (tx_ty (fst rv)) (snd rl)) (fst rv)) (snd rl))))) sq = COk rr se).
      { destruct (snd rl); try exact H0. discriminate H0. }
      clear H0. next ?v V'. apply promotes_inv in H0. subst. next ok V'. apply match_ty_inv in H0 as [_ ->]. destruct ok; [|next ?v V'; discriminate V'].
      apply cret_inv in V' as [_ ->]. apply step_refl.
    - next b H0. apply gcx_inv in H1 as [-> ->]. destruct (_ && _); [discriminate H0|]. apply cret_inv in H0 as [_ ->]. apply step_refl. }
  destruct (sch_scope _ _ _ _ _ (v_chain _ _ _ _ I)) as (ns & r & EL).
  assert (DR : List.length r = S dd) by (pose proof (v_depth _ _ _ _ I) as DD; rewrite ED, EL in DD; cbn in DD; lia).
  assert (NR : r <> []) by (destruct r; [discriminate DR|discriminate]).
  assert (FRD : frame (eq (cx_scope (sst_cx s))) (sst_st s) (sst_st sd)).
  { eapply bind_frame; [exact SY| |exact SC|exact OP|exact FREE]. constructor; [|constructor]. intros f ms tp K. discriminate K. }
  assert (XD : ext (sst_st sd) stf) by (eapply ext_trans; [eapply frame_ext; apply SD|exact X]).
  assert (EX : nth_error (so_syms (sst_st sd)) i = Some x) by (rewrite SY, EI; apply nth_last).
  assert (ID : sinv (add L (lex_text n) i) sd).
  { destruct I as [I1 I2 I3 I4 I5]. constructor; unfold noyield in *; rewrite ?CX; auto.
    - rewrite EL in I4 |- *. exact I4.
    - rewrite EL in I5 |- *. cbn [add lv_scope lv_names]. eapply sch_bind with (st := sst_st s) (x := x) (t := ty); auto; [eapply frame_ext; exact FRD|].
      cbn [x s_out]. rewrite DR. reflexivity. }
  assert (SG : scope_get (sst_st sd) (cx_scope (sst_cx s)) (lex_text n) = Some i).
  { unfold scope_get. rewrite SC, nth_upd, Nat.eqb_refl. destruct (sch_some _ _ _ _ _ (v_chain _ _ _ _ I)) as (c & E). rewrite E. cbn. apply assoc_set_eq. }
  pose proof (ext_get _ _ _ _ _ XD SG) as SGF. pose proof (ext_sym _ _ _ _ XD EX) as EXF.
  assert (DC : declares stf L (lex_text n) i).
  { eapply declares_ok; [exact I|exact EL| |eapply ext_trans; [eapply frame_ext; exact FRD|exact XD]|exact FREE|exact SGF|exact EXF|reflexivity|].
    - rewrite EL. cbn [List.length]. lia.
    - intros _. cbn [x s_out]. rewrite DR. reflexivity. }
  destruct o as [[ta e]|].
  - destruct (lex_is (Parser.node_tok e) (lex_text n)); [discriminate H0|]. next ?v H0. apply line_inv in H1. lsub H1.
    next rv H0. destruct rv as [tv ov]. cbn [fst] in H0. next ?v H0. apply line_inv in H2. lsub H2. next rl H0. apply variable_inv in H2 as (-> & i' & x' & t' & -> & RS & E & SYT & CE).
    cbn [fst snd] in H0. cbn in C.
    pose proof (sinv_line _ _ _ _ (Lexer.t_line ta) ID) as ID1. destruct (vstep _ _ _ _ _ _ _ C H1 ID1) as [I2 RV]. cbn [fst] in RV.
    assert (i' = i) as ->.
    { rewrite (sinv_resolve _ _ _ _ _ (sinv_line _ _ _ _ (Lexer.t_line n) I2)) in RS. rewrite EL in RS. cbn [add look lv_names assoc] in RS. rewrite text_eqb_refl in RS. congruence. }
    assert (V' : (promotes (tx_ty tv) t' ;;; ok <- match_ty t' (tx_ty tv) ;;
        (if negb ok then set_line (Lexer.t_line ta) ;;; ccerr else cret (Some (TAssign (Lexer.t_line ta) (lex_text n) i (set_prom (to_real (tx_ty tv) t') tv) t')))) (reline s0 (Lexer.t_line n)) = COk rr se).
    { destruct t'; try exact H0. discriminate H0. }
    clear H0. rename V' into H0. next ?v H0. next ok H0. destruct ok; [|next ?v H0; discriminate H0].
    apply cret_inv in H0 as [-> _]. cbn [Spec_Scope.scoped Spec_Scope.after].
    split; [split; [reflexivity|split; [exact DC|apply reads_prom; exact RV]]|]. split; [discriminate|]. eapply sinv_step; [exact ID|exact SD].
  - next b H0. destruct (_ && _) in H0; [discriminate H0|]. apply cret_inv in H0 as [-> _]. cbn [Spec_Scope.scoped Spec_Scope.after].
    split; [eexists; exact DC|]. split; [discriminate|]. assert (EA : (match L with l :: _ => match scope_get stf (lv_scope l) (lex_text n) with Some i => add L (lex_text n) i | None => L end | [] => L end) = add L (lex_text n) i).
    { rewrite EL. cbn [lv_scope]. rewrite SGF. reflexivity. }
    rewrite EA. eapply sinv_step; [exact ID|exact SD].
Qed.
(** ** Sequences and blocks *)
Lemma visits_cons x l again s ts s' : visits (x :: l) again s = COk ts s' ->
  exists t o s1 ts', visit x PNone None again s = COk (t, o) s1 /\ visits l again s1 = COk ts' s' /\ ts = t :: ts'.
Proof.
  intros H. change (visits (x :: l) again) with (cbind (cbind (visit x PNone None again) (fun r => cret (fst r)))
      (fun y => cbind (visits l again) (fun ys => cret (y :: ys)))) in H.
  next t H. next r H. apply cret_inv in H as [-> ->]. next r1 H0. destruct r1 as [t1 o1]. apply cret_inv in H0 as [-> ->]. eauto 8.
Qed.
Definition depths (l : list sx) : nat := fold_right Nat.max 0%nat (map nest l).
Lemma seq_sc l again : Forall Sc l -> Forall (Fclaim F usa) l -> forall L s ts s', visits l again s = COk ts s' -> sinv L s -> cx_depth (sst_cx s) <> 0%nat ->
  (cx_depth (sst_cx s) + depths l <= 9)%nat -> ext (sst_st s') stf -> in_order stf scoped L ts.
Proof.
  induction 1 as [|x l SX _ IH]; intros FA L s ts s' V I NE N EX.
  - unfold AcceptFrame.visits in V. cbn in V. injection V as <- <-. exact Logic.I.
  - inversion FA as [|? ? FX FA']; subst. apply visits_cons in V as (t & o & s1 & ts' & V1 & V2 & ->). unfold depths in N. cbn [map fold_right] in N. fold (depths l) in N.
    assert (ST : step (eq (cx_scope (sst_cx s))) s s1).
    { eapply step_weak; [|eapply FX; [apply I|intros _; exact NE|exact V1]]. intros k [_ ->]. reflexivity. }
    assert (DP : cx_depth (sst_cx s1) = cx_depth (sst_cx s)) by (destruct ST as [_ (ln & ->)]; reflexivity).
    assert (EX1 : ext (sst_st s1) stf).
    { eapply ext_trans; [|exact EX]. eapply frame_ext. eapply visits_frame; [exact FA'| | |exact V2]; [eapply kept_yield; [apply ST|apply I]|]. rewrite DP. exact NE. }
    destruct (SX _ _ _ _ _ _ V1 I ltac:(lia) EX1 ltac:(auto)) as (S1 & _ & I1). cbn [in_order]. split; [exact S1|].
    eapply IH; [exact FA'|exact V2|exact I1|rewrite DP; exact NE|rewrite DP; lia|exact EX].
Qed.
Definition blk (L : list level) (t : tx) : Prop := exists sc ch, t = TBlock sc ch /\ inside stf L sc /\ in_order stf scoped (mkLevel sc [] :: L) ch.
Definition Kc (x : sx) : Prop :=
  (forall again L s t o s', visit x PNone None again s = COk (t, o) s' -> sinv L s -> (cx_depth (sst_cx s) + nest x <= 9)%nat -> ext (sst_st s') stf -> blk L t) /\
  (forall again ns L s psc t o s', visit x PNone (Some psc) again s = COk (t, o) s' -> sinv (mkLevel psc ns :: L) (at_scope s (S (cx_depth (sst_cx s))) psc) ->
    (cx_depth (sst_cx s) + nest x <= 9)%nat -> ext (sst_st s') stf -> exists ch, t = TBlock psc ch /\ in_order stf scoped (mkLevel psc ns :: L) ch).
Lemma sinv_len L s : sinv L s -> (1 <= List.length L)%nat.
Proof. intros I. pose proof (sch_ne _ _ _ _ _ (v_chain _ _ _ _ I)). destruct L; [congruence|cbn; lia]. Qed.
Lemma inside_ok L s sc c : sinv L s -> ext (sst_st s) stf -> nth_error (so_scopes (sst_st s)) sc = Some c -> sc_up c = Some (cx_scope (sst_cx s)) -> inside stf L sc.
Proof.
  intros I X E U. apply (ext_inside (sst_st s)); [exact X|]. destruct (sch_scope _ _ _ _ _ (v_chain _ _ _ _ I)) as (ns & r & ->). unfold inside. rewrite E. exact U.
Qed.
(** Entering a new scope. *)
Lemma sinv_enter L s s1 sc c ns : sinv L s -> frame nowhere (sst_st s) (sst_st s1) -> nth_error (so_scopes (sst_st s1)) sc = Some c ->
  sc_up c = Some (cx_scope (sst_cx s)) -> (List.length (so_scopes (sst_st s)) <= sc)%nat -> table path (sst_st s1) (List.length L) c ns ->
  cx_scope (sst_cx s1) = sc -> cx_depth (sst_cx s1) = S (cx_depth (sst_cx s)) -> cx_module (sst_cx s1) = path -> noyield s1 -> cx_reg (sst_cx s1) = false ->
  sinv (mkLevel sc ns :: L) s1.
Proof.
  intros I FR E U LE T C1 C2 C3 C4 C5. pose proof (sinv_len _ _ I) as LN. constructor; auto.
  - rewrite C2, (v_depth _ _ _ _ I). cbn. lia.
  - rewrite C1. eapply sch_in; [exact E|exact U| |eapply sch_frame; [exact FR|intros k _ []|apply I]|exact T].
    pose proof (sch_lt _ _ _ _ _ (v_chain _ _ _ _ I)). lia.
Qed.
Lemma block_sc l : Forall Sc l -> Forall (Fclaim F usa) l -> Kc (XBlock l).
Proof.
  intros SA FA.
  assert (MAIN : forall again ns L s1 ts s2 u s', sinv (mkLevel (cx_scope (sst_cx s1)) ns :: L) s1 -> L <> [] -> (cx_depth (sst_cx s1) + depths l <= 9)%nat ->
    visits l again s1 = COk ts s2 -> leave_scope s2 = COk u s' -> ext (sst_st s') stf -> ext (sst_st s1) stf /\ in_order stf scoped (mkLevel (cx_scope (sst_cx s1)) ns :: L) ts).
  { intros again ns L s1 ts s2 u s' I NE N V L0 EX. apply leave_inv in L0 as (c & up' & EC & UC & ->). cbn [at_scope sst_st] in EX.
    assert (DP : cx_depth (sst_cx s1) <> 0%nat) by (rewrite (v_depth _ _ _ _ I); destruct L; [congruence|discriminate]).
    split; [|eapply seq_sc; eassumption]. eapply ext_trans; [|exact EX]. eapply frame_ext. eapply visits_frame; [exact FA|apply I|exact DP|exact V]. }
  split.
  - intros again L s t o s' H I N EX. apply block_inv in H as (ln & k & s1 & ts & s2 & u & E & V & L0 & ->).
    apply block_enter in E as [(psc & D & _)|(_ & Eb & E1)]; [discriminate D|].
    pose proof (sinv_line _ _ _ _ ln I) as IL. cbn [nest] in N. fold (depths l) in N.
    assert (FR : frame nowhere (sst_st (reline s ln)) (sst_st s1)) by (subst s1; apply new_scope_frame).
    assert (EK : nth_error (so_scopes (sst_st s1)) k = Some (mkScope [] (Some (cx_scope (sst_cx s))))) by (subst s1 k; apply nth_last).
    assert (SK : cx_scope (sst_cx s1) = k) by (subst s1; reflexivity).
    assert (I1 : sinv (mkLevel (cx_scope (sst_cx s1)) [] :: L) s1).
    { rewrite SK. eapply sinv_enter; [exact IL|exact FR|exact EK|reflexivity|subst k; apply le_n| |exact SK| | | |].
      - split; [reflexivity|]. exists []. split; constructor.
      - subst s1; reflexivity.
      - subst s1; apply I.
      - subst s1; apply I.
      - subst s1; apply I. }
    assert (DE : cx_depth (sst_cx s1) = S (cx_depth (sst_cx s))) by (subst s1; reflexivity).
    destruct (MAIN _ _ _ _ _ _ _ _ I1 (sch_ne _ _ _ _ _ (v_chain _ _ _ _ I)) ltac:(lia) V L0 EX) as [X1 IO]. exists k, ts. rewrite SK in IO. split; [reflexivity|]. split; [|exact IO].
    apply (ext_inside (sst_st s1)); [exact X1|]. destruct (sch_scope _ _ _ _ _ (v_chain _ _ _ _ I)) as (ns & r & ->). unfold inside. rewrite EK. reflexivity.
  - intros again ns L s psc t o s' H I N EX. apply block_inv in H as (ln & k & s1 & ts & s2 & u & E & V & L0 & ->).
    apply block_enter in E as [(psc' & D & Eb & E1)|(D & _)]; [|discriminate D]. injection D as <-. subst k. cbn [nest] in N. fold (depths l) in N.
    assert (SK : cx_scope (sst_cx s1) = psc) by (subst s1; reflexivity).
    assert (I1 : sinv (mkLevel (cx_scope (sst_cx s1)) ns :: L) s1).
    { rewrite SK. subst s1. apply (sinv_line _ _ _ _ ln) in I. exact I. }
    assert (NE : L <> []).
    { pose proof (v_depth _ _ _ _ I) as DD. cbn in DD. destruct L; [discriminate DD|discriminate]. }
    assert (DE : cx_depth (sst_cx s1) = S (cx_depth (sst_cx s))) by (subst s1; reflexivity).
    destruct (MAIN _ _ _ _ _ _ _ _ I1 NE ltac:(lia) V L0 EX) as [_ IO]. rewrite SK in IO. eauto.
Qed.
(** ** Conditionals and loops *)
Definition Lc (x : sx) : Prop := forall again L s t o s', visit x PNone None again s = COk (t, o) s' -> sinv L s -> (cx_depth (sst_cx s) + nest x <= 9)%nat ->
  ext (sst_st s') stf -> exists ln c b, t = TSenaoSe ln c b /\ reads L c /\ blk L b.
Lemma step_depth s s' : step nowhere s s' -> cx_depth (sst_cx s') = cx_depth (sst_cx s).
Proof. intros [_ (ln & ->)]. reflexivity. Qed.
Lemma step_ext s s' : step nowhere s s' -> ext (sst_st s) (sst_st s').
Proof. intros [FR _]. eapply frame_ext. exact FR. Qed.
Lemma Lc_senaose t c b : is_e (core c) = true -> Bclaim F usa b -> Kc b -> Lc (XSenaoSe t c b).
Proof.
  intros C B K. begin. next rc V. destruct (vstep _ _ _ _ _ _ _ C H I) as [I1 RC]. pose proof (v_step _ _ _ _ _ _ _ _ C H) as ST1.
  destruct (tx_ty (fst rc)) as [[]|?|?|?|? ?|?|?]; try discriminate V. next rb V. destruct rb as [tb ob]. apply cret_inv in V as [V ->]. injection V as -> ->.
  eexists _, _, _. split; [reflexivity|]. split; [exact RC|]. eapply (proj1 K); [exact H0|exact I1|rewrite (step_depth _ _ ST1); exact N|exact X].
Qed.
Lemma elifs_sc l again : Forall (fun x => is_decl x = false /\ Fclaim F usa x) l -> Forall Lc l -> forall L s ts s', visits l again s = COk ts s' -> sinv L s ->
  (cx_depth (sst_cx s) + depths l <= 9)%nat -> ext (sst_st s') stf -> all (fun t => exists ln c b, t = TSenaoSe ln c b /\ reads L c /\ blk L b) ts.
Proof.
  intros FA LA. induction LA as [|x l LX _ IH]; intros L s ts s' V I N X.
  - unfold AcceptFrame.visits in V. cbn in V. injection V as <- <-. exact Logic.I.
  - inversion FA as [|? ? FX FA']; subst. destruct FX as [ND FX]. apply visits_cons in V as (t & o & s1 & ts' & V1 & V2 & ->). unfold depths in N. cbn [map fold_right] in N. fold (depths l) in N.
    assert (ST : step nowhere s s1).
    { eapply step_weak; [|eapply FX; [apply I|congruence|exact V1]]. intros k [D _]. congruence. }
    pose proof (sinv_step _ _ _ _ _ I ST) as I1. pose proof (S_elifs _ _ _ _ FA' _ _ _ (v_yield _ _ _ _ I1) V2) as ST2.
    cbn [all]. split; [eapply LX; [exact V1|exact I|lia|eapply ext_trans; [apply step_ext; exact ST2|exact X]]|].
    eapply IH; [exact FA'|exact V2|exact I1|rewrite (step_depth _ _ ST); lia|exact X].
Qed.
Lemma blk_scoped L b : blk L b -> match b with TBlock sc ch => inside stf L sc /\ in_order stf scoped (mkLevel sc [] :: L) ch | _ => False end.
Proof. intros (sc & ch & -> & H). exact H. Qed.
Lemma all_imp (P Q : tx -> Prop) l : (forall t, P t -> Q t) -> all P l -> all Q l.
Proof. intros H. induction l as [|y l IH]; cbn; [auto|]. intros [A B]. auto. Qed.
Lemma Sc_se t c th l el : is_s (core (XSe t c th l el)) = true -> is_e (core c) = true -> Bclaim F usa th -> Kc th ->
  Forall (fun x => is_decl x = false /\ Fclaim F usa x) l -> Forall Lc l -> oP (Bclaim F usa) el -> oP Kc el -> Sc (XSe t c th l el).
Proof.
  intros CS C B K FL LL BE KE. apply sc_plain; [exact CS|reflexivity|]. begin. cbn [nest] in N. fold (depths l) in N.
  next rc V. destruct (vstep _ _ _ _ _ _ _ C H I) as [I1 RC]. pose proof (v_step _ _ _ _ _ _ _ _ C H) as ST1. pose proof (step_depth _ _ ST1) as D1.
  next g V. apply tag_inv in H0 as [TC ->]. destruct (negb (prim_eqb g TBool)); [discriminate V|].
  next rt V. destruct rt as [tt ot]. pose proof (b_step _ _ _ _ _ _ _ B (v_yield _ _ _ _ I1) H0) as ST2. pose proof (sinv_step _ _ _ _ _ I1 ST2) as I2. pose proof (step_depth _ _ ST2) as D2.
  next ts V. change (visits l again s1 = COk ts s2) in H1. pose proof (S_elifs _ _ _ _ FL _ _ _ (v_yield _ _ _ _ I2) H1) as ST3. pose proof (sinv_step _ _ _ _ _ I2 ST3) as I3. pose proof (step_depth _ _ ST3) as D3.
  next ro V. apply cret_inv in V as [V ->]. injection V as -> ->.
  assert (ST4 : step nowhere s2 s3).
  { destruct el as [e|]; [|eapply cret_step; eassumption]. next re H2. apply cret_inv in H2 as [_ ->]. eapply b_step; [exact BE|exact (v_yield _ _ _ _ I3)|eassumption]. }
  pose proof (ext_trans _ _ _ (step_ext _ _ ST4) X) as X3. pose proof (ext_trans _ _ _ (step_ext _ _ ST3) X3) as X2.
  split; [|reflexivity]. cbn [Spec_Scope.scoped fst]. split; [exact RC|]. split; [|split].
  - apply blk_scoped. eapply (proj1 K); [exact H0|exact I1|lia|exact X2].
  - eapply all_imp; [|eapply elifs_sc; [exact FL|exact LL|exact H1|exact I2|lia|exact X3]]. cbn. intros y (ln & c' & b & -> & R1 & R2). split; [exact R1|apply blk_scoped; exact R2].
  - destruct el as [e|].
    + next re H2. destruct re as [te oe]. apply cret_inv in H2 as [-> ->]. cbn [fst]. apply blk_scoped. eapply (proj1 KE); [exact H3|exact I3|lia|exact X].
    + apply cret_inv in H2 as [-> ->]. exact Logic.I.
Qed.
Lemma Sc_enquanto t c b : is_e (core c) = true -> is_b (core b) = true -> Bclaim F usa b -> Kc b -> Sc (XEnquanto t c b).
Proof.
  intros C CB B K. apply sc_plain; [cbn; rewrite C, CB; reflexivity|reflexivity|]. begin. cbn [nest] in N.
  next rc V. destruct (vstep _ _ _ _ _ _ _ C H I) as [I1 RC]. pose proof (v_step _ _ _ _ _ _ _ _ C H) as ST1. pose proof (step_depth _ _ ST1) as D1.
  next g V. apply tag_inv in H0 as [TC ->]. destruct (negb (prim_eqb g TBool)); [next ?v V; discriminate V|].
  next old V. apply gcx_inv in H0 as [-> ->]. next ?v V. unfold set_loop, mcx in H0. injection H0 as <- <-.
  next rb V. destruct rb as [tb ob]. next ?v V. unfold set_loop, mcx in H1. injection H1 as <- <-. apply cret_inv in V as [V ->]. injection V as -> ->.
  split; [|reflexivity]. cbn [Spec_Scope.scoped fst]. split; [exact RC|]. apply blk_scoped. eapply (proj1 K); [exact H0| | |exact X].
  - destruct I1 as [A1 A2 A3 A4 A5]. constructor; auto.
  - cbn. lia.
Qed.
Lemma nest_b b : is_b (core b) = true -> (1 <= nest b)%nat.
Proof.
  destruct b; intros C; try discriminate C; try (cbn [nest]; lia).
  all: cbn in C; repeat (match type of C with context[match ?e with _ => _ end] => destruct e end; try discriminate C).
Qed.
Lemma Sc_para t n a z inc b : is_b (core b) = true -> is_s (core (XPara t n a z inc b)) = true -> is_e (core a) = true -> is_e (core z) = true -> oP (fun e => is_e (core e) = true) inc ->
  Bclaim F usa b -> Kc b -> Sc (XPara t n a z inc b).
Proof.
  intros CB CS CA CZ CI B K. pose proof (nest_b _ CB) as NB. apply sc_plain; [exact CS|reflexivity|]. begin. cbn [nest] in N.
  next ra V. destruct (vstep _ _ _ _ _ _ _ CA H I) as [I1 RA]. pose proof (step_depth _ _ (v_step _ _ _ _ _ _ _ _ CA H)) as D1.
  next rz V. destruct (vstep _ _ _ _ _ _ _ CZ H0 I1) as [I2 RZ]. pose proof (step_depth _ _ (v_step _ _ _ _ _ _ _ _ CZ H0)) as D2. next ri V.
  assert (ST3 : step nowhere s1 s2).
  { destruct inc as [e|]; [|eapply cret_step; eassumption]. next re H1. apply cret_inv in H1 as [_ ->]. eapply v_step; [exact CI|eassumption]. }
  assert (RI : reads_opt L ri).
  { destruct inc as [e|]; [|apply cret_inv in H1 as [-> _]; exact Logic.I]. next re H1. apply cret_inv in H1 as [-> ->]. exact (proj2 (vstep _ _ _ _ _ _ _ CI H2 I2)). }
  pose proof (sinv_step _ _ _ _ _ I2 ST3) as I3. pose proof (step_depth _ _ ST3) as D3.
  match type of V with (if ?b then _ else _) _ = _ => destruct b end; [discriminate V|].
  next o V. apply here_inv in H2 as [-> ->]. next ty V.
  destruct (named_inv _ _ _ _ H2) as (_ & _ & _ & _ & _ & EQ). subst s3. clear H2.
  next i V. next d V. apply gcx_inv in H3 as [-> ->]. next cur V. apply gcx_inv in H3 as [-> ->]. next psc V. apply new_scope_inv in H3 as (EP & ->).
  apply new_var_inv in H2 as (EI & ->). next ?v V. cbn [sst_st sst_cx with_syms so_syms so_scopes] in *.
  edestruct define_out as (SY & SC & OP & CX); [|exact H2|lia|].
  { cbn. subst i. apply nth_last. }
  cbn [sst_st sst_cx with_syms with_scopes so_syms so_scopes so_opcao s_name s_kind s_mod] in *.
  rewrite EI, upd_last in SY. rewrite EP, upd_last in SC. unfold bind_in in SC. cbn [sc_syms sc_up assoc_set] in SC.
  match type of V with _ ?x = _ => rename x into sd end.
  set (x := s_set_out _ _) in SY.
  assert (OX : s_out x = out_name (List.length L) 0%nat).
  { unfold x. cbn [s_set_out s_out]. pose proof (v_depth _ _ _ _ I3) as DD. pose proof (sinv_len _ _ I3). f_equal; [lia|].
    unfold cnt. cbn [sst_st with_scopes so_scopes with_syms]. rewrite EP, nth_last. reflexivity. }
  assert (FR : frame nowhere (sst_st s2) (sst_st sd)).
  { constructor.
    - eexists. split; [exact SY|]. constructor; [|constructor]. intros f ms tp KK. discriminate KK.
    - intros k LT _. rewrite SC. apply nth_error_app1. exact LT.
    - intros k c E. exists c. rewrite SC. split; [apply nth_old; exact E|auto].
    - exact OP. }
  next rb V. destruct rb as [tb ob]. apply cret_inv in V as [V ->]. injection V as -> ->. cbn [fst] in *.
  assert (UPS : nth_error (so_scopes (sst_st sd)) psc = Some (mkScope [(lex_text n, i)] (Some (cx_scope (sst_cx s2))))) by (rewrite SC, EP, EI; apply nth_last).
  assert (STB : step (eq psc) sd s3).
  { eapply (proj2 B); [|exact UPS| |exact H3]; [unfold noyield; rewrite CX; apply I3|]. rewrite CX. reflexivity. }
  assert (XD : ext (sst_st sd) stf) by (eapply ext_trans; [eapply frame_ext; apply STB|exact X]).
  assert (EX : nth_error (so_syms (sst_st sd)) i = Some x) by (rewrite SY, EI; apply nth_last).
  assert (IB : sinv (mkLevel psc [(lex_text n, i)] :: L) (at_scope sd (S (cx_depth (sst_cx sd))) psc)).
  { eapply sinv_enter; [exact I3|exact FR|exact UPS|reflexivity|subst psc; apply le_n| |reflexivity| | | |].
    - split; [reflexivity|]. exists [0%nat]. split; [constructor; [|constructor]|constructor; [cbn; lia|constructor]]. exists x, ty. cbn [fst snd]. split; [exact EX|].
      split; [reflexivity|]. split; [reflexivity|]. split; [exact (v_path _ _ _ _ I3)|]. split; [reflexivity|exact OX].
    - cbn. rewrite CX. reflexivity.
    - cbn. rewrite CX. apply I3.
    - unfold noyield. cbn. rewrite CX. apply I3.
    - cbn. rewrite CX. apply I3. }
  destruct (proj2 K _ _ _ _ _ _ _ _ H3 IB) as (ch & -> & IO); [rewrite CX; lia|exact X|].
  split; [|reflexivity]. cbn [Spec_Scope.scoped]. split; [exact RA|]. split; [exact RZ|]. split; [exact RI|].
  assert (IN : inside stf L psc).
  { apply (ext_inside (sst_st sd)); [exact XD|]. destruct (sch_scope _ _ _ _ _ (v_chain _ _ _ _ I3)) as (ns & r & EL). rewrite EL. unfold inside. rewrite UPS. reflexivity. }
  split; [exact IN|]. exists i. split; [|exact IO]. cbn [declares lv_names lv_scope assoc]. split; [reflexivity|]. split.
  - eapply ext_get; [exact XD|]. unfold scope_get. rewrite UPS. cbn [sc_syms assoc]. rewrite text_eqb_refl. reflexivity.
  - pose proof (ext_sym _ _ _ _ XD EX) as EXF. split; [exists x; split; [exact EXF|reflexivity]|]. intros _. rewrite locals_cons by (eapply sch_ne; apply I3). cbn [lv_names map app].
    intros IS. apply in_map_iff in IS as (j & ES & IJ). destruct (sch_locals _ _ _ _ _ _ (v_chain _ _ _ _ I3) IJ) as (d & k & m & HL & HD).
    assert (XS : ext (sst_st s2) stf) by (eapply ext_trans; [eapply frame_ext; exact FR|exact XD]).
    destruct (loc_ext _ _ _ _ _ _ _ XS HL) as (y & ty' & EY & _ & _ & _ & _ & OY). unfold slot in ES. rewrite EXF, EY in ES. assert (ES' : s_out x = s_out y) by congruence. clear ES. rename ES' into ES. rewrite OX, OY in ES.
    pose proof (v_depth _ _ _ _ I3) as DD. pose proof (sinv_len _ _ I3). apply out_inj in ES as [E1 E2]; lia.
Qed.
(** ** All statements *)
Definition Qc (x : sx) : Prop := (is_s (core x) = true -> Sc x) /\ (is_l (core x) = true -> Lc x) /\ (is_b (core x) = true -> Kc x).
Ltac no C := solve [discriminate C | cbn in C; repeat match type of C with
  | context[if ?b then _ else _] => destruct b
  | context[match ?z with _ => _ end] => destruct z
  end; discriminate C].
Ltac case_when C := match type of C with context[if ?b then _ else _] => destruct b eqn:?W end.
Lemma l_decl y : is_l (core y) = true -> is_decl y = false.
Proof. intros C3. destruct y; try reflexivity. cbn in C3. destruct init as [[? ?]|]; case_when C3; discriminate C3. Qed.
Lemma Q_all x : Qc x.
Proof.
  assert (PE : forall x, is_e (core x) = true -> Qc x).
  { intros y C. split; [intros _; apply Sc_expr; exact C|]. split; intros D; destruct (core y); discriminate. }
  assert (PL : forall y, is_l (core y) = true -> Fclaim F usa y) by (intros y C; apply (P_all F usa y); right; exact C).
  assert (PS : forall y, is_s (core y) = true -> Fclaim F usa y) by (intros y C; apply (P_all F usa y); left; exact C).
  assert (PB : forall y, is_b (core y) = true -> Bclaim F usa y) by (intros y C; apply (P_all F usa y); exact C).
  induction x using sx_ind'; try (split; [|split]; intros C; no C).
  all: try (apply PE; reflexivity).
  - destruct (is_e (core x)) eqn:E; [apply PE; cbn; rewrite E; reflexivity|]. split; [|split]; intros C; cbn in C; rewrite E in C; no C.
  - destruct (is_e (core x1) && is_e (core x2)) eqn:E; [apply PE; cbn; rewrite E; reflexivity|]. split; [|split]; intros C; cbn in C; rewrite E in C; no C.
  - destruct (is_e (core (XCall x l))) eqn:E; [apply PE; exact E|]. split; [|split]; intros C; try no C; destruct x; try no C. cbn in E, C. case_when C; discriminate.
  - destruct (is_e (core (XConv t x y))) eqn:E; [apply PE; exact E|]. split; [|split]; intros C; try no C. cbn in E, C. case_when C; discriminate.
  - destruct (is_e (core (XIndex t x1 x2))) eqn:E; [apply PE; exact E|]. split; [|split]; intros C; try no C. cbn in E, C. case_when C; discriminate.
  - split; [|split]; intros C; try no C. cbn in C. case_when C; [|discriminate C]. apply andb_prop in W as [W1 W2]. apply Sc_iset; assumption.
  - destruct (is_e (core (XGet x m))) eqn:E; [apply PE; exact E|]. split; [|split]; intros C; try no C. cbn in E, C. case_when C; discriminate.
  - split; [|split]; intros C; try no C. cbn in C. case_when C; [|discriminate C]. apply andb_prop in W as [W1 W2]. apply Sc_set; assumption.
  - destruct (is_e (core (XFmt t l))) eqn:E; [apply PE; exact E|]. split; [|split]; intros C; try no C. cbn in E, C. case_when C; discriminate.
  - destruct (is_e (core (XList t y l))) eqn:E; [apply PE; exact E|]. split; [|split]; intros C; try no C. cbn in E, C. case_when C; discriminate.
  - destruct x1; try (split; [|split]; intros C; no C). split; [|split]; intros C; try no C. cbn in C. case_when C; [|discriminate C]. apply Sc_assign. assumption.
  - split; [|split]; intros C; try no C.
    assert (CC : core_ty y = true /\ oP (fun q => is_e (core (snd q)) = true) o).
    { cbn in C. destruct o as [[ta e]|]; case_when C; try discriminate C; [apply andb_prop in W as [W1 W2]; auto|cbn; auto]. }
    apply Sc_decl; apply CC.
  - split; [|split]; intros C; try no C. cbn in C. case_when C; [|discriminate C]. apply Sc_mostra. assumption.
  - split; [|split]; intros C; try no C. cbn in C. apply Sc_ret. destruct o; [|exact Logic.I]. case_when C; [exact W|discriminate C].
  - split; [|split]; intros C; try no C. apply Sc_loopctl.
  - split; [|split]; intros C; try no C. pose proof C as CS.
    assert (CC : is_e (core x1) = true /\ is_b (core x2) = true /\ forallb (fun y => is_l (core y)) l = true /\ oP (fun e => is_b (core e) = true) o).
    { cbn in C. destruct o; case_when C; try discriminate C; rewrite !andb_true_iff in W; cbn; tauto. }
    destruct CC as (C1 & C2 & C3 & C4). rewrite forallb_forall in C3. apply Sc_se; auto; [apply IHx2; exact C2| | |destruct o; [apply PB; exact C4|exact Logic.I]|].
    + rewrite Forall_forall. intros y IN. specialize (C3 y IN). split; [apply l_decl; exact C3|apply PL; exact C3].
    + rewrite Forall_forall in *. intros y IN. apply H; auto.
    + destruct o; [|exact Logic.I]. cbn in *. apply H0. exact C4.
  - split; [|split]; intros C; try no C. cbn in C. case_when C; [|discriminate C]. apply andb_prop in W as [W1 W2]. apply Lc_senaose; auto. apply IHx2. exact W2.
  - split; [|split]; intros C; try no C. cbn in C. case_when C; [|discriminate C]. apply andb_prop in W as [W1 W2]. apply Sc_enquanto; auto. apply IHx2. exact W2.
  - split; [|split]; intros C; try no C. pose proof C as CS.
    assert (CC : is_e (core x1) = true /\ is_e (core x2) = true /\ oP (fun e => is_e (core e) = true) o /\ is_b (core x3) = true).
    { cbn in C. destruct o; case_when C; try discriminate C; rewrite !andb_true_iff in W; cbn; tauto. }
    destruct CC as (C1 & C2 & C3 & C4). apply Sc_para; auto. apply IHx3. exact C4.
  - split; [|split]; intros C; try no C. cbn in C. case_when C; [|discriminate C]. rewrite forallb_forall in W. apply block_sc; rewrite Forall_forall in *; intros y IN; [apply H; auto|apply PS; auto].
Qed.
End Stm.
