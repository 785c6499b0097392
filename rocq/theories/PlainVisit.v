(** Lemmas for C43: statements and expressions of a plain text are analysed
    without an exception. *)
From Verif Require Import Base BaseFacts Bson Value Lexer Ast Types Syntax Sym Check Spec_Plain PlainBase PlainStep AcceptBase.
From Coq Require Import Lia.
Local Open Scope chk_scope.

Section Visit.
Variables (F : front_env) (usa : smode -> text -> M unit).
Variables (R V : bool) (g t0 B : nat) (ex : list nat).
Local Notation wf := (wf R V g t0 B ex).
Local Notation ty_ok := (ty_ok R V ex).
Local Notation var_ok := (var_ok ex).
Local Notation cok := (cok g t0 B ex).
Local Notation gent := (gent ex).
Local Notation K := (K R V g t0 B ex).
Local Notation plain := (plain R V).
Local Notation plain_head := (plain_head R V).

Ltac lift E :=
  match type of E with
  | ext ?a ?b =>
      repeat match goal with
             | H : PlainBase.ty_ok _ _ _ a _ |- _ => apply (ty_ok_ext _ _ _ _ _ _ E) in H
             | H : PlainBase.var_ok _ a _ |- _ => apply (var_ok_ext _ _ _ _ E) in H
             | H : PlainStep.cok _ _ _ _ a _ |- _ => apply (cok_ext _ _ _ _ _ _ _ E) in H
             | H : PlainStep.gent _ a _ _ |- _ => apply (gent_ext _ _ _ _ _ E) in H
             | H : up_is a _ _ |- _ => apply (up_is_ext _ _ _ _ E) in H
             | H : fn_ok _ a _ |- _ => apply (fn_ok_ext _ _ _ _ E) in H
             | H : Forall (fun x => PlainBase.ty_ok _ _ _ a (@?f x)) _ |- _ => eapply Forall_impl in H; [|intros ? ?; eapply ty_ok_ext; [exact E|eassumption]]
             | W : PlainBase.wf _ _ _ _ _ _ a |- _ => clear W
             end
  end.

(** Scopes. *)
Definition sc_pre (st : store) (c : pc) (o : option nat) : Prop := match o with Some k => (B <= k)%nat /\ up_is st k (p_cur c) | None => True end.
Lemma cok_in : forall st c k, cok st c -> (B <= k)%nat -> up_is st k (p_cur c) -> cok st (mkPc k (p_ty c) (p_fn c)).
Proof. intros st c k (H1 & H2 & H3) LE U. split; [|split; auto]. cbn. econstructor; eauto. Qed.
Lemma cur_scoped : forall st c, wf st -> cok st c -> scoped st (p_cur c).
Proof.
  intros st c W (H & _). pose proof (under_lt _ _ _ _ _ _ _ _ W H) as L. apply nth_error_Some in L. destruct (nth_error (so_scopes st) (p_cur c)) as [x|] eqn:E; [exists x; exact E|congruence].
Qed.
Lemma k_enter : forall A o c st (k : nat -> M A) c' Q, wf st -> cok st c -> sc_pre st c o ->
  (forall st1 i, ext st st1 -> wf st1 -> cok st1 c -> (B <= i)%nat -> up_is st1 i (p_cur c) -> cok st1 (mkPc i (p_ty c) (p_fn c)) -> K (mkPc i (p_ty c) (p_fn c)) st1 (k i) c' Q) ->
  K c st (cbind (enter_scope o) k) c' Q.
Proof.
  intros A o c st k c' Q W C P HK. unfold enter_scope. apply k_assoc, k_gcx. intros d. apply k_assoc, k_scope, k_assoc. destruct o as [i|].
  - apply k_retb. apply k_assoc, k_setscope, k_retb. destruct P as [P1 P2]. apply HK; auto; [apply ext_refl|apply cok_in; auto].
  - apply k_new_scope; [exact W|apply cur_scoped; auto|]. intros st1 E W1 U LE. lift E. apply k_assoc, k_setscope, k_retb. apply HK; auto. apply cok_in; auto.
Qed.
Lemma k_leave : forall A c u st (k : unit -> M A) c' Q, up_is st (p_cur c) u -> K (mkPc u (p_ty c) (p_fn c)) st (k tt) c' Q -> K c st (cbind leave_scope k) c' Q.
Proof.
  intros A c u st k c' Q (x & X & U) HK. unfold leave_scope. apply k_assoc, k_gcx. intros d. apply k_assoc, k_scope, k_assoc, k_gst, k_assoc.
  eapply k_must; [exact X|]. apply k_assoc. eapply k_must; [exact U|]. apply k_setscope. exact HK.
Qed.

(** What a visit gives. *)
Definition vq (x : sx) (r : tx * option nat) (st : store) : Prop :=
  ty_ok st (tx_ty (fst r)) /\ (primitive_form x = true -> exists p, tx_ty (fst r) = CPrim p) /\
  match x with XGet _ m => (exists i, snd r = Some i /\ gent st (lex_text m) i) /\ exists a b d e, fst r = TGet a b d e | _ => True end.
Definition vok (x : sx) : Prop := plain x = true -> forall p sc c st, wf st -> cok st c -> sc_pre st c sc -> K c st (visit F usa x p sc false) (fun _ => c) (vq x).
Definition parts (x : sx) : Prop := match x with XSenaoSe _ a b | XCaso _ a b => vok a /\ vok b | XNamed _ e => vok e | _ => True end.

Lemma head_prim : forall x r st, plain_head x = true -> vq x r st -> exists p, tx_ty (fst r) = CPrim p.
Proof.
  intros x r st H (T & P & _). unfold Spec_Plain.plain_head in H. apply orb_true_iff in H. destruct H as [H|H]; [auto|].
  apply andb_true_iff in H. destruct H as [H1 H2]. apply negb_true_iff in H1, H2. destruct (tx_ty (fst r)); cbn in T; try contradiction; [eauto|destruct T|destruct T]; congruence.
Qed.
Lemma k_tag : forall A t p c st (k : prim -> M A) c' Q, t = CPrim p -> K c st (k p) c' Q -> K c st (cbind (tag_of t) k) c' Q.
Proof. intros. subst. apply k_retb. auto. Qed.

Lemma k_vis : forall A x p c st (k : tx * option nat -> M A) c' Q, vok x -> plain x = true -> wf st -> cok st c ->
  (forall r st1, ext st st1 -> wf st1 -> vq x r st1 -> K c st1 (k r) c' Q) -> K c st (cbind (visit F usa x p None false) k) c' Q.
Proof. intros A x p c st k c' Q HV P W C HK. eapply k_bind; [apply HV; auto; exact I|]. intros; apply HK; auto. Qed.

(** Arguments. *)
Lemma k_match_args : forall A ts l c st (k : list tx -> M A) c' Q, wf st -> Forall (ty_ok st) ts -> (forall l', K c st (k l') c' Q) -> K c st (cbind (match_args ts l) k) c' Q.
Proof.
  intros A ts. induction ts as [|t ts IH]; intros l c st k c' Q W T HK; destruct l as [|x l]; cbn [match_args]; try (apply k_retb; apply HK).
  inversion T; subst. apply k_assoc, k_promotes; auto. intros _. apply k_assoc, k_match; auto. intros v. destruct (negb v); [apply k_errb|].
  apply k_assoc. apply IH; auto. intros l'. apply k_retb. apply HK.
Qed.
Lemma k_param_types : forall A ps c st (k : list cty -> M A) c' Q, wf st -> Forall (fun p => var_ok st (snd p)) ps -> (forall ts, Forall (ty_ok st) ts -> K c st (k ts) c' Q) -> K c st (cbind (param_types ps) k) c' Q.
Proof.
  intros A ps. unfold param_types. induction ps as [|p ps IH]; intros c st k c' Q W T HK; cbn [mapc].
  - apply k_retb. apply HK. constructor.
  - inversion T as [|? ? (NE & x & t & X & KD) T2]; subst. apply k_assoc, k_assoc. eapply k_sym; [exact X|]. eapply k_must; [unfold sym_ty; rewrite KD; reflexivity|].
    apply k_assoc. apply IH; auto. intros ts Ts. apply k_retb. apply HK. constructor; auto. eapply sym_ty_ok; eauto. unfold sym_ty. rewrite KD. reflexivity.
Qed.

Lemma all_map : forall l, forallb (fun b => b) (map plain l) = true -> forall a, In a l -> plain a = true.
Proof. intros l H a I. rewrite forallb_forall in H. apply H. apply in_map. exact I. Qed.
Lemma vq_none : forall x t o st, ty_ok st (tx_ty t) -> primitive_form x = false -> (match x with XGet _ _ => False | _ => True end) -> vq x (t, o) st.
Proof. intros x t o st T P G. split; [exact T|split; [congruence|]]. destruct x; auto. contradiction. Qed.
Lemma vq_unknown : forall x t o st, tx_ty t = CPrim TUnknown -> primitive_form x = false -> (match x with XGet _ _ => False | _ => True end) -> vq x (t, o) st.
Proof. intros x t o st T P G. apply vq_none; auto. rewrite T. exact I. Qed.
Lemma vq_prim : forall x p t o st, tx_ty t = CPrim p -> (match x with XGet _ _ => False | _ => True end) -> vq x (t, o) st.
Proof. intros x p t o st T G. split; [cbn; rewrite T; exact I|split; [cbn; rewrite T; eauto|]]. destruct x; auto. contradiction. Qed.

Ltac bits := repeat match goal with H : (_ && _)%bool = true |- _ => apply andb_true_iff in H; let H2 := fresh "P" in destruct H as [H H2] end.
Ltac vis := apply k_vis; [match goal with HV : vok ?x |- vok ?x => exact HV end|assumption|assumption|assumption|let r := fresh "r" in let st1 := fresh "st" in let E := fresh "E" in let W := fresh "W" in let T := fresh "T" in
  intros r st1 E W T; let T1 := fresh "T" in assert (T1 := proj1 T); lift E].

Lemma k_first : forall A pp l c st (k : M A) c' Q, wf st -> K c st k c' Q -> K c st (cbind (match pp with PField => cret tt | _ => set_line l end) (fun _ => k)) c' Q.
Proof. intros. destruct pp; try (apply k_line; auto; fail). apply k_retb. auto. Qed.

Lemma k_init : forall fs l cx st seen, wf st -> cok st cx -> (forall m j, assoc m fs = Some j -> var_ok st j) -> (forall a, In a l -> plain a = true) -> (forall a, In a l -> vok a) ->
  K cx st ((fix go (seen : list text) (l : list sx) : M (list tx) :=
              match l with
              | [] => cret []
              | a :: r =>
                  set_line (t_line (Parser.node_tok a)) ;;;
                  match a with
                  | XNamed n _ =>
                      ra <- visit F usa a PCall None false ;;
                      match assoc (lex_text n) fs with
                      | None => ccerr
                      | Some j =>
                          if existsb (text_eqb (lex_text n)) seen then ccerr
                          else
                            fx <- sym_at j ;; ft <- must (sym_ty fx) ;;
                            promotes (tx_ty (fst ra)) ft ;;;
                            ok <- match_ty ft (tx_ty (fst ra)) ;;
                            if negb ok then ccerr
                            else rest <- go (lex_text n :: seen) r ;; cret (fst ra :: rest)
                      end
                  | _ => ccerr
                  end
              end) seen l) (fun _ => cx) (fun _ _ => True).
Proof.
  intros fs l. induction l as [|a l IH]; intros cx st seen W C FV PL VL.
  - apply k_ret; auto.
  - apply k_line; auto. destruct a; try apply k_err. pose proof (VL _ (or_introl eq_refl)) as VA. pose proof (PL _ (or_introl eq_refl)) as PA. apply k_vis; [exact VA|exact PA|assumption|assumption|].
    intros ra st1 E W1 T. destruct (assoc _ fs) as [j|] eqn:A; [|apply k_err]. destruct (existsb _ seen); [apply k_err|]. pose proof (var_ok_ext _ _ _ _ E (FV _ _ A)) as (NE & x & t & X & KD).
    eapply k_sym; [exact X|]. assert (ST : sym_ty x = Some t) by (unfold sym_ty; rewrite KD; reflexivity). eapply k_must; [exact ST|]. pose proof (sym_ty_ok R V g t0 B ex _ _ _ _ W1 X NE ST) as TF.
    apply k_promotes; auto. intros _. apply k_match; auto. intros [|]; [|apply k_err]. eapply k_bind.
    + apply IH; [exact W1|eapply cok_ext; eauto|intros m i Am; eapply var_ok_ext; eauto|intros; apply PL; right; auto|intros; apply VL; right; auto].
    + intros rest st2 E2 W2 _. apply k_ret; auto.
Qed.

Lemma visit_parts : forall x, vok x /\ parts x.
Proof.
  induction x using sx_ind'.
  all: try match goal with IH : oP _ ?o |- _ => destruct o; cbn [oP] in * end.
  all: repeat match goal with IH : vok ?x /\ parts ?x |- _ => let H := fresh "V" in let H2 := fresh "VP" in destruct IH as [H H2] end.
  all: repeat match goal with IH : Forall (fun x => vok x /\ parts x) ?l |- _ =>
         let V := fresh "VL" in let W := fresh "WL" in
         assert (V : forall x, In x l -> vok x) by (intros; rewrite Forall_forall in IH; apply IH; assumption);
         assert (W : forall x, In x l -> parts x) by (intros; rewrite Forall_forall in IH; apply IH; assumption); clear IH end.
  all: split; [intros P pp sc0 cx st W C SC | solve [exact I | cbn [parts]; try split; assumption]].
  all: try (exfalso; cbn in P; discriminate P).
  all: cbn [visit]; apply k_first; [exact W|]; cbn [Spec_Plain.plain] in P.
  - (* XConst *) unfold plain_const in P. destruct (t_kind t); try discriminate; try (apply k_ret; [exact W|eapply vq_prim; [reflexivity|exact I]]).
    apply k_need; auto. intros q. destruct (t_lex t); try discriminate. destruct (max_i64 <? z)%Z; [apply k_err|]. apply k_ret; [exact W|eapply vq_prim; [reflexivity|exact I]].
  - apply k_ret; [exact W|eapply vq_prim; [reflexivity|exact I]].
  - (* XVar *) apply k_variable; auto. intros i x t1 X NE KD T. apply k_ret; [exact W|]. apply vq_none; auto.
  - (* XAlvo *) apply k_func. destruct (p_fn cx) as [f|] eqn:FN; [|apply k_err]. destruct C as (C1 & C2 & C3). rewrite FN in C3. destruct C3 as (NE & x & X & KD).
    eapply k_sym; [exact X|]. pose proof (w_sym _ _ _ _ _ _ _ W _ _ X NE) as OK. unfold sym_ok in OK. destruct (s_kind x); try apply k_err.
    apply k_new_var; [exact W|tauto|]. intros st1 i E W1 _ _. apply k_ret; [exact W1|]. apply vq_none; auto. cbn. eapply ty_ok_ext; [exact E|tauto].
  - (* XUn *) destruct (uop_of (t_kind t)) eqn:EU; [|discriminate]. vis. eapply k_must; [reflexivity|]. apply k_gst. destruct (ty_unop u _) eqn:E2; [|apply k_line_err].
    apply k_ret; [assumption|]. destruct (unop_prim _ _ _ _ _ _ _ T0 E2) as (q & Q). eapply vq_prim; [exact Q|exact I].
  - (* XBin *) destruct (bop_of (t_kind t)) eqn:EB; [|discriminate]. bits. vis. vis. eapply k_must; [reflexivity|]. cbv zeta. apply k_gst.
    destruct (binop_total _ _ _ st1 (tx_ty (fst r)) (strip st1 (tx_ty (fst r0))) b T0) as (o & -> & HP). apply k_retb. destruct o as [ty|]; [|apply k_line_err].
    destruct (HP _ eq_refl) as (q & ->). apply k_retb. apply k_promotes; auto. intros _. apply k_promotes; auto. intros _. apply k_ret; [assumption|]. eapply vq_prim; [reflexivity|exact I].
  - (* XCall *)
    assert (HN : exists n, (forall k, (forall f i st1, ext st st1 -> wf st1 -> gent st1 n i -> K cx st1 (k (f, i)) (fun _ => cx) (vq (XCall x l))) ->
        K cx st (cbind (match x with
            | XVar t => o <- resolve_here (lex_text t) ;;
                        match o with
                        | None => ccerr
                        | Some i => cret (TVar (t_line t) (lex_text t) None (CPrim TUnknown) false, i)
                        end
            | XGet _ _ => r <- visit F usa x PCall None false ;; i <- must (snd r) ;; cret (fst r, i)
            | XPath _ _ => r <- visit F usa x PCall None false ;;
                           match fst r with
                           | TPath _ i _ => s <- sym_at i ;; if is_callable s then cret (fst r, i) else ccerr
                           | _ => crash
                           end
            | _ => ccerr
            end) k) (fun _ => cx) (vq (XCall x l)))
      /\ (text_eqb n (txt "vec") = true -> V = true /\ (List.length l < 256)%nat /\
            match l with XVar t :: sizes => used_name (lex_text t) = true /\ forall a, In a sizes -> plain_head a = true /\ plain a = true | _ :: _ => False | [] => True end)
      /\ (text_eqb n (txt "anexa") || text_eqb n (txt "remova") = true -> (2 <= List.length l)%nat)%bool
      /\ (text_eqb n (txt "vec") = false -> forall a, In a l -> plain a = true)).
    { destruct x; try discriminate P.
      - (* a name *) bits. exists (lex_text t). split; [|split; [|split]].
        + intros k HK. apply k_assoc, k_resolve; auto. intros [i|] Hi; [|apply k_errb]. apply k_retb. destruct Hi as [H1 H2]. apply HK; [apply ext_refl|exact W|split; auto].
        + intros EV. rewrite EV in P0. unfold plain_args in P1. rewrite EV in P1. bits. match goal with H : (_ <? 256)%nat = true |- _ => apply Nat.ltb_lt in H; split; [assumption|split; [exact H|]] end.
          destruct l as [|a0 l]; [exact I|]. destruct a0; try discriminate. bits. split; [assumption|]. intros a Ia. split; [rewrite forallb_forall in *; auto|]. cbn [map tl] in P0. eapply all_map; eauto.
        + intros EA. unfold plain_args in P1. destruct (text_eqb (lex_text t) (txt "vec")) eqn:EV.
          { apply text_eqb_eq in EV. rewrite EV in EA. discriminate EA. }
          rewrite EA in P1. apply Nat.leb_le in P1. exact P1.
        + intros EV. rewrite EV in P0. apply all_map. exact P0.
      - (* a member *) bits. apply negb_true_iff in P1. exists (lex_text member). split; [|split; [|split]].
        + intros k HK. apply k_assoc. match goal with HV : vok (XGet x member) |- _ => apply k_vis; [exact HV|cbn; bits; auto|exact W|exact C|] end. intros r st1 E1 W1 (T1 & _ & (i & I1 & G1) & _).
          apply k_assoc. eapply k_must; [exact I1|]. apply k_retb. apply HK; auto.
        + intros EV. cbn [existsb] in P1. rewrite EV in P1. discriminate.
        + intros EA. cbn [existsb] in P1. apply orb_true_iff in EA. destruct EA as [EA|EA]; rewrite EA in P1; cbn [orb] in P1; rewrite ?orb_true_r in P1; discriminate.
        + intros _. apply all_map. assumption. }
    destruct HN as (n & HK & Hvec & Han & Hall). apply HK. clear HK. intros f i st1 E1 W1 G1. lift E1. pose proof G1 as [(s & X & N) NE]. eapply k_sym; [exact X|]. cbv zeta. rewrite N.
    destruct (builtin_fn n) as [fn|] eqn:BF.
    + assert (fn = n). { unfold builtin_fn in BF. apply find_some in BF. destruct BF as [_ BF]. apply text_eqb_eq in BF. congruence. } subst fn.
      destruct (text_eqb n (txt "vec")) eqn:EV.
      * destruct (Hvec eq_refl) as (VT & LT & HL). destruct (256 <=? List.length l)%nat eqn:LE; [apply Nat.leb_le in LE; lia|].
        destruct l as [|first [|a2 l]]; try apply k_err. destruct first; try contradiction HL. destruct HL as [UN HL]. 
        apply k_mapc with (P := fun _ _ => True); auto.
        -- intros a st9 Ia E9 W9 C9. destruct (HL a Ia) as [PH PA]. pose proof (VL a (or_intror Ia)) as VA. vis. destruct (head_prim _ _ _ PH T) as (q & Q). eapply k_tag; [exact Q|].
           destruct (prim_eqb q TInt); [|apply k_err]. apply k_ret; auto.
        -- intros bs st9 E9 W9 C9 _ _. apply k_type_sym; auto. intros j e el Xj Nj Ej Tj. eapply k_sym; [exact Xj|]. eapply k_must; [exact Ej|]. apply k_ret; [assumption|].
           apply vq_none; auto. cbn [tx_ty]. generalize (List.length (a2 :: l)). intros m. induction m; cbn; auto.
      * specialize (Hall eq_refl). destruct (text_eqb n (txt "tam")) eqn:ET.
        -- destruct l as [|a1 [|? ?]]; try apply k_err. pose proof (VL a1 (or_introl eq_refl)) as VA. pose proof (Hall a1 (or_introl eq_refl)) as PA. vis. apply k_gst. destruct (negb _); [apply k_err|].
           apply k_need_glob; auto. intros q. apply k_ret; [assumption|]. apply vq_none; auto. exact I.
        -- assert (L2 : (2 <= List.length l)%nat).
           { apply Han. unfold builtin_fn in BF. apply find_some in BF. destruct BF as [[BF|[BF|[BF|[BF|[]]]]] _]; rewrite <- BF in *; try discriminate; reflexivity. }
           destruct l as [|a1 [|a2 [|a3 l]]]; cbn in L2; try lia; try apply k_err. pose proof (VL a1 (or_introl eq_refl)) as VA. pose proof (Hall a1 (or_introl eq_refl)) as PA.
           pose proof (VL a2 (or_intror (or_introl eq_refl))) as VA2. pose proof (Hall a2 (or_intror (or_introl eq_refl))) as PA2. vis. vis.
           destruct (tx_ty (fst r)) as [q|el| | | | |] eqn:ETY; try apply k_err. cbn in T0. destruct T0 as [VT T0]. destruct (text_eqb n (txt "anexa")).
           { apply k_match; auto. intros [|]; [|apply k_err]. apply k_promotes; auto. intros _. apply k_need_glob; auto. intros q. apply k_ret; [assumption|]. apply vq_none; auto. exact I. }
           { destruct (is_int _); [|apply k_err]. apply k_ret; [assumption|]. apply vq_none; auto. }
    + pose proof (w_sym _ _ _ _ _ _ _ W1 _ _ X NE) as OK. unfold sym_ok in OK.
      assert (Hall' : forall a, In a l -> plain a = true).
      { apply Hall. destruct (text_eqb n (txt "vec")) eqn:EV; [|reflexivity]. unfold builtin_fn in BF. cbn [find] in BF. rewrite EV in BF. discriminate. }
      assert (FUN : forall ret ps, ty_ok st1 ret -> Forall (fun p => var_ok st1 (snd p)) ps ->
        K cx st1 (l0 <- mapc (fun a => if is_named a then set_line (t_line (Parser.node_tok a)) ;;; ccerr else r <- visit F usa a PCall None false ;; cret (fst r)) l ;;
              (if negb (List.length l =? List.length ps)%nat then ccerr
              else ts <- param_types ps ;; l1 <- match_args ts l0 ;; cret (TCall (t_line (Parser.node_tok x)) i f l1 ret false, None))) (fun _ => cx) (vq (XCall x l))).
      { intros ret ps Tr Tp. apply k_mapc with (P := fun _ _ => True); auto.
        - intros a st9 Ia E9 W9 C9. destruct (is_named a); [apply k_line_err|]. pose proof (VL a Ia) as VA. pose proof (Hall' a Ia) as PA. vis. apply k_ret; auto.
        - intros bs st9 E9 W9 C9 _ _. destruct (negb _); [apply k_err|]. lift E9. apply k_param_types; auto.
          + eapply Forall_impl; [|exact Tp]. intros p Hp. eapply var_ok_ext; eauto.
          + intros ts Ts. apply k_match_args; auto. intros l'. apply k_ret; [assumption|]. apply vq_none; auto. }
      destruct (s_kind s) as [tv|ret ps|tg ret ps| | |fields ms tp| |] eqn:KD; try apply k_err; try contradiction OK.
      * apply FUN; tauto.
      * apply FUN; tauto.
      * destruct OK as (RR & LE & (fsc & FS) & MS). apply k_gst. rewrite FS. destruct (negb _); [apply k_err|].
        assert (TY : ty_ok st1 (CReg i)) by (cbn; eauto 10).
        destruct (w_sc _ _ _ _ _ _ _ W1 _ _ LE FS) as (u & _ & _ & FF).
        assert (FV : forall m j, assoc m (sc_syms fsc) = Some j -> var_ok st1 j). { intros m j A. rewrite Forall_forall in FF. exact (proj1 (FF _ (assoc_in _ _ _ A))). }
        eapply k_bind with (c1 := fun _ => cx) (Q1 := fun _ _ => True).
        -- apply k_init; auto.
        -- intros bs st9 E9 W9 _. apply k_ret; [assumption|]. apply vq_none; auto. eapply ty_ok_ext; eauto.
  - (* XNamed *) vis. apply k_ret; [assumption|]. apply vq_none; auto.
  - (* XConv *) bits. vis. apply k_type; auto. intros ty Ty. apply k_cast; auto. intros [|]; [|apply k_err]. apply k_ret; [assumption|]. apply vq_none; auto.
  - (* XIndex *) bits. vis. vis. destruct (tx_ty (fst r)) as [q|el| | | | |] eqn:ET; try apply k_err.
    + destruct q; try apply k_err. destruct (is_int _); [|apply k_err]. apply k_ret; [assumption|]. apply vq_none; auto.
    + destruct (is_int _); [|apply k_err]. apply k_ret; [assumption|]. apply vq_none; auto. cbn in *. tauto.
  - (* XIndexSet *) bits. apply negb_true_iff in P. vis. cbv zeta.
    assert (G : forall k, K cx st0 k (fun _ => cx) (vq (XIndexSet t x1 x2)) -> K cx st0 (cbind (match tx_ty (fst r) with CVec _ => cret tt | CPrim TTexto => ccerr | CPrim _ => cret tt | _ => crash end) (fun _ => k)) (fun _ => cx) (vq (XIndexSet t x1 x2))).
    { intros k HK. destruct (tx_ty (fst r)) as [q| | | | | |]; cbn in T0; try contradiction; [destruct q; try (apply k_retb; exact HK); apply k_errb|apply k_retb; exact HK|destruct T0; congruence]. }
    apply G; clear G. vis. apply k_match; auto. intros [|]; [|apply k_line_err]. apply k_ret; [assumption|]. apply vq_none; auto.
  - (* XGet *) bits. vis. apply k_prop; auto. intros [i|] Hi; [|apply k_err]. pose proof Hi as [(x0 & X & N) NE]. eapply k_sym; [exact X|].
    destruct (_ && _ && _)%bool; [apply k_err|]. destruct (sym_any_ty R V g t0 B ex _ _ _ W0 X NE) as (ty & ET & TY). eapply k_must; [exact ET|]. apply k_ret; [assumption|].
    split; [exact TY|split; [discriminate|]]. split; [exists i; auto|cbn; eauto 8].
  - (* XSet *) bits. destruct x1; try discriminate P. vis. destruct T as (_ & _ & _ & a1 & a2 & a3 & a4 & ET). rewrite ET in *. cbn [tx_ty] in *.
    assert (G : forall k, K cx st0 k (fun _ => cx) (vq (XSet (XGet x1 member) x2)) -> K cx st0 (match tx_ty a2 with CMod _ => ccerr | _ => k end) (fun _ => cx) (vq (XSet (XGet x1 member) x2))).
    { intros k HK. destruct (tx_ty a2); auto. apply k_err. }
    apply G; clear G. vis. cbv zeta. apply k_promotes; auto. intros _. apply k_match; auto. intros [|]; [|apply k_line_err]. apply k_ret; [assumption|]. apply vq_none; auto.
  - (* XFmt *) apply k_need_glob; auto. intros q. apply k_mapc with (P := fun _ _ => True); auto.
    + intros a st1 Ia E W1 C1. pose proof (VL a Ia) as VA. assert (PA : plain a = true) by (rewrite forallb_forall in P; auto). vis. apply k_cast; [exact I|]. intros [|]; [|apply k_line_err]. apply k_ret; auto.
    + intros bs st1 E W1 C1 _ _. apply k_ret; [assumption|]. eapply vq_prim; [reflexivity|exact I].
  - (* XList *) bits. apply k_type; auto. intros ty Ty. apply k_mapc with (P := fun _ _ => True); auto.
    + intros a st1 Ia E W1 C1. lift E. pose proof (VL a Ia) as VA. assert (PA : plain a = true) by (rewrite forallb_forall in *; auto). vis. apply k_match; [auto|]. intros [|]; [|apply k_err].
      apply k_promotes; auto. intros _. apply k_ret; auto.
    + intros bs st1 E W1 C1 _ _. lift E. apply k_ret; [assumption|]. apply vq_none; auto. cbn. auto.
  - (* XAssign *) destruct x1; try discriminate P. bits. vis. apply k_line; auto. apply k_variable; auto. intros i x tv X NE KD Tv. eapply k_sym; [exact X|]. apply k_gcx. intros m.
    destruct (negb _); [apply k_err|]. cbn [snd fst].
    destruct tv; try apply k_err; try (exfalso; exact Tv); (apply k_promotes; [exact Tv|intros _]; apply k_match; [exact Tv|intros [|]; [|apply k_line_err]]; apply k_ret; [assumption|]; apply vq_none; auto).
  - (* XDecl some *) destruct p as [ta e]. cbn [snd fst] in *. unfold both in P. bits. cbv zeta. apply k_free. apply k_retb. apply k_type; auto. intros ty Ty.
    apply k_new_var; auto. intros st1 i E W1 G1 V1. lift E. apply k_gcx. intros d. apply k_scope. eapply k_define; [exact W1|exact G1|exact P| |].
    { destruct C as (CU & _). inversion CU; [left; congruence|right; split; [assumption|exact V1]]. }
    intros st2 E2 W2. lift E2. destruct (lex_is _ _); [apply k_errb|]. apply k_assoc, k_line; auto. apply k_assoc. vis. apply k_assoc. apply k_line; auto. apply k_assoc, k_variable; auto.
    intros j x tv X NE KD Tv. cbn [snd fst].
    assert (TT : match tv with CPrim _ | CVec _ | CReg _ => True | _ => False end) by (destruct tv; auto).
    destruct tv; try contradiction TT; apply k_assoc; (apply k_promotes; [exact Tv|]); intros _; apply k_assoc; (apply k_match; [exact Tv|]); intros [|]; try (intros s1 E1 A1; exact I); apply k_retb;
       (destruct (d =? 0)%nat; [apply k_mark; [assumption|intros; split; reflexivity|intros st9 E9 W9]|apply k_retb]); (apply k_ret; [assumption|]); (eapply vq_prim; [reflexivity|exact I]).
  - (* XDecl none *) unfold both in P. bits. cbv zeta. apply k_free. apply k_retb. apply k_type; auto. intros ty Ty.
    apply k_new_var; auto. intros st1 i E W1 G1 V1. lift E. apply k_gcx. intros d. apply k_scope. eapply k_define; [exact W1|exact G1|exact P| |].
    { destruct C as (CU & _). inversion CU; [left; congruence|right; split; [assumption|exact V1]]. }
    intros st2 E2 W2. apply k_assoc, k_gcx. intros rg. destruct (_ && _)%bool; [apply k_errb|]. apply k_retb.
    destruct (d =? 0)%nat; [apply k_mark; [assumption|auto|intros st9 E9 W9]|apply k_retb]; (apply k_ret; [assumption|]; (eapply vq_prim; [reflexivity|exact I])).
  - (* XMostra *) vis. apply k_ret; [assumption|]. eapply vq_prim; [reflexivity|exact I].
  - (* XRet *) apply k_func. destruct (p_fn cx) as [f|] eqn:FN; [|apply k_err]. pose proof C as (C1 & C2 & C3). rewrite FN in C3. destruct C3 as (NE & x0 & X & KD).
    eapply k_sym; [exact X|]. assert (FT : exists ft, sym_ty x0 = Some ft) by (unfold sym_ty; destruct (s_kind x0); try contradiction; eauto). destruct FT as (ft & FT).
    pose proof (sym_ty_ok R V g t0 B ex _ _ _ _ W X NE FT) as TF. eapply k_must; [exact FT|]. destruct (is_vazio ft); [apply k_err|]. apply k_gcx. intros y.
    assert (G : forall k, K cx st k (fun _ => cx) (vq (XRet t (Some s))) -> K cx st (cbind (match y with Some y => set_yield (Some (mkY true (y_ty y) (y_alvo y))) | None => cret tt end) (fun _ => k)) (fun _ => cx) (vq (XRet t (Some s)))).
    { intros k HK. destruct y; [apply k_mcx; auto|apply k_retb; exact HK]. }
    apply G; clear G. vis. apply k_promotes; auto. intros _. apply k_match; auto. intros [|]; [|apply k_err]. apply k_ret; [assumption|]. eapply vq_prim; [reflexivity|exact I].
  - (* XRet none *) apply k_func. destruct (p_fn cx) as [f|] eqn:FN; [|apply k_err]. pose proof C as (C1 & C2 & C3). rewrite FN in C3. destruct C3 as (NE & x0 & X & KD).
    eapply k_sym; [exact X|]. assert (FT : exists ft, sym_ty x0 = Some ft) by (unfold sym_ty; destruct (s_kind x0); try contradiction; eauto). destruct FT as (ft & FT).
    eapply k_must; [exact FT|]. destruct (negb (is_vazio ft)); [apply k_err|]. apply k_gcx. intros y.
    assert (G : forall k, K cx st k (fun _ => cx) (vq (XRet t None)) -> K cx st (cbind (match y with Some y => set_yield (Some (mkY true (y_ty y) (y_alvo y))) | None => cret tt end) (fun _ => k)) (fun _ => cx) (vq (XRet t None))).
    { intros k HK. destruct y; [apply k_mcx; auto|apply k_retb; exact HK]. }
    apply G; clear G. apply k_ret; [assumption|]. eapply vq_prim; [reflexivity|exact I].
  - (* XLoopCtl *) apply k_gcx. intros [|]; [|apply k_err]. apply k_ret; [assumption|]. eapply vq_prim; [reflexivity|exact I].
  - (* XSe *) bits. vis. destruct (head_prim _ _ _ P T) as (q & Q). eapply k_tag; [exact Q|]. destruct (negb _); [apply k_err|]. vis.
    apply k_mapc with (P := fun _ _ => True); auto.
    + intros a st9 Ia E8 W9 C9. pose proof (WL a Ia) as VA. assert (PA : match a with XSenaoSe _ a b => plain_head a && plain a && plain b | _ => false end = true) by (rewrite forallb_forall in *; auto).
      destruct a; try discriminate PA. destruct VA as [VA1 VA2]. bits. cbn [visit]. apply k_assoc. apply k_line; [assumption|]. apply k_assoc. vis. destruct (tx_ty (fst r1)) as [q2| | | | | |]; try apply k_errb.
      destruct q2; try apply k_errb. apply k_assoc. vis. apply k_retb. apply k_ret; auto.
    + intros bs st9 E9 W9 C9 _ _. apply k_assoc. vis. apply k_retb. apply k_ret; [assumption|]. eapply vq_prim; [reflexivity|exact I].
  - (* XSe *) bits. vis. destruct (head_prim _ _ _ P T) as (q & Q). eapply k_tag; [exact Q|]. destruct (negb _); [apply k_err|]. vis.
    apply k_mapc with (P := fun _ _ => True); auto.
    + intros a st9 Ia E8 W9 C9. pose proof (WL a Ia) as VA. assert (PA : match a with XSenaoSe _ a b => plain_head a && plain a && plain b | _ => false end = true) by (rewrite forallb_forall in *; auto).
      destruct a; try discriminate PA. destruct VA as [VA1 VA2]. bits. cbn [visit]. apply k_assoc. apply k_line; [assumption|]. apply k_assoc. vis. destruct (tx_ty (fst r1)) as [q2| | | | | |]; try apply k_errb.
      destruct q2; try apply k_errb. apply k_assoc. vis. apply k_retb. apply k_ret; auto.
    + intros bs st9 E9 W9 C9 _ _. apply k_retb. apply k_ret; [assumption|]. eapply vq_prim; [reflexivity|exact I].
  - (* XEnquanto *) bits. vis. destruct (head_prim _ _ _ P T) as (q & Q). eapply k_tag; [exact Q|]. destruct (negb _); [apply k_line_err|]. apply k_gcx. intros old. apply k_mcx; auto.
    vis. apply k_mcx; auto. apply k_ret; [assumption|]. eapply vq_prim; [reflexivity|exact I].
  - (* XPara *) bits. vis. vis. apply k_assoc. vis. apply k_retb. destruct (negb _); [apply k_err|]. apply k_need; auto. intros q. apply k_new_var; [assumption|exact I|]. intros st8 i E8 W8 G8 V8. lift E8.
    apply k_gcx. intros d. apply k_scope. apply k_new_scope; [assumption|apply cur_scoped; auto|]. intros st9 E9 W9 U9 L9. lift E9. unfold both in P. bits.
    eapply k_define; [exact W9|exact G8|exact P|right; split; assumption|]. intros st10 E10 W10. lift E10.
    eapply k_bind; [match goal with HV : vok ?x |- K _ _ (visit _ _ ?x _ _ _) _ _ => apply HV; auto end; split; assumption|]. intros rb st11 E11 W11 T11. apply k_ret; [assumption|]. eapply vq_prim; [reflexivity|exact I].
  - (* XPara *) bits. vis. vis. apply k_retb. destruct (negb _); [apply k_err|]. apply k_need; auto. intros q. apply k_new_var; [assumption|exact I|]. intros st8 i E8 W8 G8 V8. lift E8.
    apply k_gcx. intros d. apply k_scope. apply k_new_scope; [assumption|apply cur_scoped; auto|]. intros st9 E9 W9 U9 L9. lift E9. unfold both in P. bits.
    eapply k_define; [exact W9|exact G8|exact P|right; split; assumption|]. intros st10 E10 W10. lift E10.
    eapply k_bind; [match goal with HV : vok ?x |- K _ _ (visit _ _ ?x _ _ _) _ _ => apply HV; auto end; split; assumption|]. intros rb st11 E11 W11 T11. apply k_ret; [assumption|]. eapply vq_prim; [reflexivity|exact I].
  - (* XEscolha *) bits. vis. destruct (head_prim _ _ _ P T) as (q & Q). eapply k_tag; [exact Q|]. destruct (negb _); [apply k_err|].
    apply k_mapc with (P := fun _ _ => True); auto.
    + intros a st9 Ia E8 W9 C9. lift E8. pose proof (WL a Ia) as VA. assert (PA : match a with XCaso _ a b => plain a && plain b | _ => false end = true) by (rewrite forallb_forall in *; auto).
      destruct a; try discriminate PA. destruct VA as [VA1 VA2]. bits. vis. apply k_match; auto. intros [|]; [|apply k_err]. vis. apply k_ret; auto.
    + intros bs st9 E9 W9 C9 _ _. apply k_assoc. vis. apply k_retb. apply k_ret; [assumption|]. eapply vq_prim; [reflexivity|exact I].
  - (* XEscolha *) bits. vis. destruct (head_prim _ _ _ P T) as (q & Q). eapply k_tag; [exact Q|]. destruct (negb _); [apply k_err|].
    apply k_mapc with (P := fun _ _ => True); auto.
    + intros a st9 Ia E8 W9 C9. lift E8. pose proof (WL a Ia) as VA. assert (PA : match a with XCaso _ a b => plain a && plain b | _ => false end = true) by (rewrite forallb_forall in *; auto).
      destruct a; try discriminate PA. destruct VA as [VA1 VA2]. bits. vis. apply k_match; auto. intros [|]; [|apply k_err]. vis. apply k_ret; auto.
    + intros bs st9 E9 W9 C9 _ _.  apply k_retb. apply k_ret; [assumption|]. eapply vq_prim; [reflexivity|exact I].
  - (* XBlock *) apply k_enter; auto. intros st1 i E1 W1 C1 LE U1 C2. lift E1. apply k_mapc with (P := fun _ _ => True); auto.
    + intros a st9 Ia E8 W9 C9. pose proof (VL a Ia) as VA. assert (PA : plain a = true) by (rewrite forallb_forall in *; auto). vis. apply k_ret; auto.
    + intros bs st9 E9 W9 C9 _ _. lift E9. eapply k_leave; [exact U1|]. cbn [p_ty p_fn]. destruct cx. apply k_ret; [assumption|]. eapply vq_prim; [reflexivity|exact I].
Qed.
Lemma visit_ok : forall x, vok x.
Proof. intros x. apply visit_parts. Qed.
End Visit.
