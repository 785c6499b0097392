(** Proofs for C44: patterns, headers of declarations, records, unions, imports. *)
From Verif Require Import Base Lexer Spec_Lex LexFacts LexAll Syntax Parser ParseFacts ParseTotal Spec_Parse ParseExpr ParseLine Spec_Program ParseStmt.
Local Open Scope Z_scope.
Local Open Scope parse_scope.

Lemma neqb k k' : k <> k' -> tk_eqb k k' = false.
Proof. intros H. destruct (tk_eqb k k') eqn:E; [|reflexivity]. apply tk_eqb_true in E. contradiction. Qed.
Lemma lex_lit k t w : word_of t = lit k w -> lex_text t = w.
Proof. unfold word_of, lit. intros H. injection H as _ H. unfold lex_text. now rewrite H. Qed.

Section Decl.
Variable U : uni.

(** ** Parameters *)
Lemma sep_flat {A} (f : A -> list word) a l : sep w_comma (map f (a :: l)) = f a ++ flat_map (fun b => w_comma :: f b) l.
Proof. cbn [map]. rewrite sep_cons. f_equal. induction l; cbn; congruence. Qed.

Definition param_words (p : text * ty) : list word := w_name (fst p) :: w_colon :: show_ty (snd p).
Lemma parses_params ps N : (List.length (show_params ps) <= N)%nat ->
  parses (formal_params (run U N)) (show_params ps) (fun k => k = TRpar) (fun r => map shape_param r = ps).
Proof.
  intros HN. unfold formal_params. destruct ps as [|p ps].
  - cbn [show_params map sep]. apply parses_skip; [cbn; intros k ->; discriminate|].
    apply parses_is_end; [intros k ->; reflexivity|]. now apply parses_ret.
  - unfold show_params in *. change (fun p => w_name (fst p) :: w_colon :: show_ty (snd p)) with param_words in *.
    rewrite sep_flat in *.
    set (param := name <- consume_nl TIdent ;; consume TColon ;;; ty <- type_ (run U N) ;; ret (mkParam name ty)).
    assert (Hp : forall q, (List.length (param_words q) <= N)%nat -> parses param (param_words q) (fun k => k = TComma \/ k = TRpar) (fun a => shape_param a = q)).
    { intros [n t] Hq. unfold param, param_words in *. cbn [fst snd] in *. apply (parses_next_nl (w_name n)); [discriminate|]. intros t0 Et0.
      tok. rewrite <- (app_nil_r (show_ty t)). eapply parses_bind; [apply parses_type; len| |].
      - cbn. intros k [-> | ->]; reflexivity.
      - intros y Hy. apply parses_ret. unfold shape_param. cbn. now rewrite Hy, (lex_name _ _ Et0). }
    unfold param_words at 1. cbn [app]. apply parses_skip; [discriminate|]. apply parses_is. change (tk_eqb (fst (w_name (fst p))) TIdent) with true. cbv iota.
    change (w_name (fst p) :: w_colon :: show_ty (snd p) ++ ?r) with (param_words p ++ r).
    eapply parses_bind; [apply Hp; len|destruct ps; cbn; auto|].
    intros a Qa. eapply parses_mono; [apply parses_loop with (Q := fun q a => shape_param a = q)|exact (fun k H => H)|].
    + intros k ->. reflexivity.
    + intros q l1 l2 acc El. exists w_comma, (param_words q). split; [reflexivity|]. split; [reflexivity|].
      apply (parses_next_nl w_comma); [discriminate|]. intros _ _. rewrite <- (app_nil_r (param_words q)).
      assert (Hin : In q ps) by (rewrite El; apply in_or_app; right; now left).
      pose proof (flat_in (fun b => w_comma :: param_words b) q ps Hin) as L.
      eapply parses_bind; [apply Hp; len| |].
      * cbn. destruct l2; cbn; intros k ->; auto.
      * intros b Qb. apply parses_skip; [cbn; destruct l2; cbn; intros k ->; discriminate|]. apply parses_ret. eauto.
    + intros r (r' & -> & F2). cbn. rewrite Qa. f_equal. clear -F2. induction F2; cbn; congruence.
Qed.

(** ** Type parameters *)
Lemma parses_gparams gs : parses generic_params (show_gs gs) (fun k => gs = [] -> k <> TLbracket) (fun r => map lex_text r = gs).
Proof.
  unfold generic_params. destruct gs as [|g gs]; cbn [show_gs].
  - apply parses_is_end; [intros k Hk; now apply neqb, Hk|]. now apply parses_ret.
  - apply parses_is. change (tk_eqb (fst w_lbr) TLbracket) with true. cbv iota. tok. rewrite sep_names. cbn [app].
    apply parses_is. change (tk_eqb (fst (w_name g)) TRbracket) with false. cbv iota.
    set (bd := fun ps => i <- consume TIdent ;; c <- is TComma ;; (if c then consume TComma ;;; ret tt else ret tt) ;;; ret (ps ++ [i])).
    assert (H : forall gs g acc, parses (loop (not_in [TRbracket]) bd acc) (w_name g :: flat_map (fun m => [w_comma; w_name m]) gs)
      (fun k => k = TRbracket) (fun r => exists r', r = acc ++ r' /\ map lex_text r' = g :: gs)).
    { clear. induction gs as [|h gs IH]; intros g acc.
      - cbn [flat_map]. change [w_name g] with ((w_name g :: []) ++ []). eapply parses_loop_cons with (F1 := fun k => k = TRbracket); [reflexivity| |cbn; auto|].
        + unfold bd. tok. apply parses_is_end; [intros k ->; reflexivity|].
          change (@nil word) with (@nil word ++ []). eapply parses_bind with (F1 := fun _ => True) (Q1 := fun _ => True); [now apply parses_ret|cbn; auto|].
          intros _ _. apply parses_ret with (Q := fun r => exists t, r = acc ++ [t] /\ lex_text t = g). exists t. split; [reflexivity|now apply lex_name].
        + cbn beta. intros r (t & -> & Ht). apply parses_loop_nil; [intros k ->; reflexivity|]. exists [t]. split; [reflexivity|]. cbn. now rewrite Ht.
      - cbn [flat_map app]. change (w_name g :: w_comma :: ?r) with ((w_name g :: [w_comma]) ++ r).
        eapply parses_loop_cons with (F1 := fun _ => True); [reflexivity| |exact I|].
        + unfold bd. tok. apply parses_is. change (tk_eqb (fst w_comma) TComma) with true. cbv iota.
          change [w_comma] with ([w_comma] ++ []). eapply parses_bind with (F1 := fun _ => True) (Q1 := fun _ => True); [tok; now apply parses_ret|cbn; auto|].
          intros _ _. apply parses_ret with (Q := fun r => exists t, r = acc ++ [t] /\ lex_text t = g). exists t. split; [reflexivity|now apply lex_name].
        + cbn beta. intros r (t & -> & Ht). eapply parses_mono; [apply IH|auto|]. intros r (r' & -> & Hr).
          exists (t :: r'). split; [now rewrite <- app_assoc|]. cbn. now rewrite Ht, Hr. }
    change (w_name g :: flat_map (fun m => [w_comma; w_name m]) gs ++ [w_rbr]) with ((w_name g :: flat_map (fun m => [w_comma; w_name m]) gs) ++ [w_rbr]).
    eapply parses_bind; [apply H|reflexivity|]. intros r (r' & -> & Hr). tok. now apply parses_ret.
Qed.

(** ** The type a function gives back *)
Lemma parses_ret_ty {A} N r wr (w : word) ws (K : option sty -> P A) F Q : show_ret r wr -> closes w -> (List.length wr <= N)%nat ->
  (forall y, option_map shape_ty y = r -> parses (K y) (w :: ws) F Q) ->
  parses (c <- is TColon ;;
    ty <- (if c then consume TColon ;;; v <- is TVazio ;;
             if v then consume TVazio ;;; ret None else t <- type_ (run U N) ;; ret (Some t)
           else ret None) ;; K ty) (wr ++ w :: ws) F Q.
Proof.
  intros Hr Hw HN HK. assert (Wk : fst w = TNewline \/ fst w = TSemi) by (destruct Hw as [-> | ->]; cbn; auto).
  destruct Hr as [| |t].
  - cbn [app]. apply parses_is. replace (tk_eqb (fst w) TColon) with false by (destruct Wk as [-> | ->]; reflexivity).
    change (w :: ws) with ([] ++ w :: ws) at 1. eapply parses_bind with (F1 := fun _ => True) (Q1 := fun y => y = None); [now apply parses_ret|exact I|].
    intros y ->. now apply HK.
  - apply parses_is. change (tk_eqb (fst w_colon) TColon) with true. cbv iota.
    change (w_colon :: kw TVazio "vazio" :: w :: ws) with ([w_colon; kw TVazio "vazio"] ++ w :: ws).
    eapply parses_bind with (F1 := fun _ => True) (Q1 := fun y => y = None); [|exact I|].
    + tok. apply parses_is. change (tk_eqb (fst (kw TVazio "vazio")) TVazio) with true. cbv iota. tok. now apply parses_ret.
    + intros y ->. now apply HK.
  - cbn [app]. apply parses_is. change (tk_eqb (fst w_colon) TColon) with true. cbv iota. rewrite app_comm_cons.
    eapply parses_bind with (F1 := fun k => k = TNewline \/ k = TSemi) (Q1 := fun y => option_map shape_ty y = Some t); [|exact Wk|exact HK].
    tok. destruct (show_ty_head t) as (w1 & ws1 & E1 & Hw1). apply (parses_is_hd _ _ _ _ _ _ _ E1).
    replace (tk_eqb (fst w1) TVazio) with false by (destruct Hw1 as [-> | ->]; reflexivity). rewrite <- (app_nil_r (show_ty t)).
    eapply parses_bind; [apply parses_type; len| |].
    + cbn. intros k [-> | ->]; reflexivity.
    + intros y Hy. apply parses_ret. cbn. now rewrite Hy.
Qed.
Lemma parses_ret_met {A} N r ws (K : option sty -> P A) F Q : (List.length (show_ret_met r) <= N)%nat ->
  (forall y, option_map shape_ty y = r -> parses (K y) (w_nl :: ws) F Q) ->
  parses (c <- is TColon ;; ty <- (if c then consume TColon ;;; t <- type_ (run U N) ;; ret (Some t) else ret None) ;; K ty)
    (show_ret_met r ++ w_nl :: ws) F Q.
Proof.
  intros HN HK. destruct r as [t|]; cbn [show_ret_met app].
  - apply parses_is. change (tk_eqb (fst w_colon) TColon) with true. cbv iota. rewrite app_comm_cons.
    eapply parses_bind with (F1 := fun k => k = TNewline) (Q1 := fun y => option_map shape_ty y = Some t); [|reflexivity|exact HK].
    tok. rewrite <- (app_nil_r (show_ty t)).
    eapply parses_bind; [apply parses_type; cbn [show_ret_met] in HN; len|cbn; intros k ->; reflexivity|].
    intros y Hy. apply parses_ret. cbn. now rewrite Hy.
  - apply parses_is. change (tk_eqb (fst w_nl) TColon) with false. cbv iota. change (w_nl :: ws) with ([] ++ w_nl :: ws) at 1.
    eapply parses_bind with (F1 := fun _ => True) (Q1 := fun y => y = None); [now apply parses_ret|exact I|]. intros y ->. now apply HK.
Qed.

(** ** Annotations *)
Lemma set_attr_new k v l : ~ In k (map fst l) -> set_attr k v l = l ++ [(k, v)].
Proof.
  induction l as [|[k' v'] l IH]; intros H; [reflexivity|]. cbn in *. destruct (text_eqb k k') eqn:E.
  - apply text_eqb_eq in E. subst. tauto.
  - rewrite IH by tauto. reflexivity.
Qed.
Definition attr_words (kv : text * text) : list word := [w_name (fst kv); w_eq; lit TString (snd kv)].
Lemma parses_annotation a : note_ok a ->
  parses annotation_body (tl (show_note w_nl a)) (fun k => k <> TLpar) (fun r => shape_note r = a).
Proof.
  destruct a as [n at_]. unfold note_ok, show_note. cbn [nt_name nt_attrs tl]. intros Hd. unfold annotation_body. tok.
  destruct at_ as [|[k0 v0] at_].
  - apply parses_is_end; [intros k Hk; now apply neqb|]. cbn [negb]. apply parses_ret. unfold shape_note. cbn. now rewrite (lex_name _ _ Et).
  - apply parses_is. change (tk_eqb (fst w_lpar) TLpar) with true. cbn [negb]. tok.
    change (fun kv => [w_name (fst kv); w_eq; lit TString (snd kv)]) with attr_words.
    rewrite sep_flat. cbn [attr_words app fst snd]. apply parses_is. change (tk_eqb (fst (w_name k0)) TRpar) with false. cbv iota.
    set (bd := fun l => k <- consume TIdent ;; consume TEqual ;;; v <- consume TString ;;
                       c <- is TComma ;; (if c then consume TComma ;;; ret tt else ret tt) ;;;
                       ret (set_attr (lex_text k) (lex_text v) l)).
    assert (Hb : forall kv acc, ~ In (fst kv) (map fst acc) -> parses (bd acc) (attr_words kv) (fun k => k = TRpar) (fun r => r = acc ++ [kv]) /\
        parses (bd acc) (attr_words kv ++ [w_comma]) (fun _ => True) (fun r => r = acc ++ [kv])).
    { clear. intros [k v] acc Hk. cbn [fst] in Hk. unfold bd, attr_words. cbn [fst snd app]. split; tok; tok; tok.
      - apply parses_is_end; [intros k' ->; reflexivity|]. change (@nil word) with (@nil word ++ []).
        eapply parses_bind with (F1 := fun _ => True) (Q1 := fun _ => True); [now apply parses_ret|cbn; auto|]. intros _ _.
        apply parses_ret. rewrite (lex_name _ _ Et), (lex_lit _ _ _ Et1). now apply set_attr_new.
      - apply parses_is. change (tk_eqb (fst w_comma) TComma) with true. cbv iota. change [w_comma] with ([w_comma] ++ []).
        eapply parses_bind with (F1 := fun _ => True) (Q1 := fun _ => True); [tok; now apply parses_ret|cbn; auto|]. intros _ _.
        apply parses_ret. rewrite (lex_name _ _ Et), (lex_lit _ _ _ Et1). now apply set_attr_new. }
    assert (H : forall l kv acc, NoDup (map fst (acc ++ kv :: l)) ->
       parses (loop (not_in [TRpar]) bd acc) (attr_words kv ++ flat_map (fun b => w_comma :: attr_words b) l) (fun k => k = TRpar)
         (fun r => r = acc ++ kv :: l)).
    { clear -Hb. induction l as [|kv' l IH]; intros kv acc Hd.
      - cbn [flat_map]. eapply parses_loop_cons with (F1 := fun k => k = TRpar); [reflexivity|apply Hb|cbn; auto|].
        + rewrite map_app in Hd. cbn in Hd. apply NoDup_remove_2 in Hd. rewrite app_nil_r in Hd. exact Hd.
        + cbn beta. intros r ->. apply parses_loop_nil; [intros k ->; reflexivity|]. reflexivity.
      - cbn [flat_map]. replace (attr_words kv ++ (w_comma :: attr_words kv') ++ flat_map (fun b => w_comma :: attr_words b) l)
          with ((attr_words kv ++ [w_comma]) ++ attr_words kv' ++ flat_map (fun b => w_comma :: attr_words b) l) by (now rewrite <- app_assoc).
        eapply parses_loop_cons with (F1 := fun _ => True); [reflexivity|apply Hb| |].
        + rewrite map_app in Hd. cbn in Hd. apply NoDup_remove_2 in Hd. intros Hi. apply Hd. apply in_or_app. now left.
        + exact I.
        + cbn beta. intros r ->. eapply parses_mono; [apply IH|auto|].
          * now rewrite <- app_assoc.
          * intros r ->. now rewrite <- app_assoc. }
    change (w_name k0 :: w_eq :: lit TString v0 :: flat_map (fun b => w_comma :: attr_words b) at_ ++ [w_rpar])
      with ((attr_words (k0, v0) ++ flat_map (fun b => w_comma :: attr_words b) at_) ++ [w_rpar]).
    eapply parses_bind; [apply (H at_ (k0, v0) [] Hd)|reflexivity|]. intros r ->. tok. apply parses_ret. unfold shape_note. cbn. now rewrite (lex_name _ _ Et).
Qed.
Lemma parses_annots k w notes acc (F : tk -> Prop) : fst w = k -> k <> TLpar -> Forall note_ok notes -> (forall k', F k' -> k' <> k /\ k' <> TLpar) ->
  parses (loop (one_of [k]) (fun l => consume k ;;; a <- annotation_body ;; ret (l ++ [a])) acc) (flat_map (show_note w) notes) F
    (fun r => exists r', r = acc ++ r' /\ map shape_note r' = notes).
Proof.
  intros Hw Hk Hn HF. revert acc. induction Hn as [|a notes Ha Hn IH]; intros acc.
  - apply parses_loop_nil; [|exists []; split; [now rewrite app_nil_r|reflexivity]]. intros k' Hk'. destruct (HF k' Hk') as [H _].
    unfold one_of. cbn. now rewrite neqb.
  - cbn [flat_map]. change (show_note w a) with (w :: tl (show_note w a)).
    eapply parses_loop_cons with (F1 := fun k' => k' <> TLpar) (Q1 := fun r => exists x, r = acc ++ [x] /\ shape_note x = a).
    + unfold one_of. cbn. rewrite Hw, tk_eqb_refl. reflexivity.
    + subst k. tok. change (tl (show_note w a)) with (tl (show_note w_nl a)). rewrite <- (app_nil_r (tl _)).
      eapply parses_bind; [apply (parses_annotation a Ha)|cbn; auto|]. intros x Hx. apply parses_ret. eauto.
    + destruct notes; cbn; [intros k' Hk'; now apply HF|]. now rewrite Hw.
    + cbn beta. intros r (x & -> & Hx). eapply parses_mono; [apply IH|auto|]. intros r (r' & -> & Hr). exists (x :: r').
      split; [now rewrite <- app_assoc|]. cbn. now rewrite Hx, Hr.
Qed.

(** ** Patterns *)
Section PtInd.
Variable Pp : pt -> Prop.
Hypotheses (H1 : forall z, Pp (PtInt z)) (H2 : forall w, Pp (PtText w)) (H3 : forall n, Pp (PtName n))
  (H4 : forall n path args, Forall Pp args -> Pp (PtVariant n path args)).
Fixpoint pt_ind' (p : pt) : Pp p :=
  match p with
  | PtInt z => H1 z | PtText w => H2 w | PtName n => H3 n
  | PtVariant n path args =>
      H4 n path args ((fix go l : Forall Pp l := match l with [] => Forall_nil _ | q :: l' => Forall_cons q (pt_ind' q) (go l') end) args)
  end.
End PtInd.
Lemma pt_ok_args n path args : pt_ok (PtVariant n path args) -> Forall pt_ok args.
Proof. cbn. intros [_ H]. induction args as [|q l IH]; constructor; [apply H|apply IH, H]. Qed.
Definition pt_heads : list tk := [TIdent; TInteger; TString].
Lemma pt_starts p : exists w ws, show_pt p = w :: ws /\ In (fst w) pt_heads.
Proof. destruct p; cbn; eexists _, _; (split; [reflexivity|cbn; tauto]). Qed.

Definition FP (k : tk) : Prop := k <> TLpar /\ k <> TDoubleColon.
Definition Qp (p : pt) (q : spat) : Prop := shape_pt q = Some p.

(** The name of a variant. *)
Lemma parses_path R pat n path : parses (primary U R pat) (w_name n :: flat_map (fun d => [w_path; w_name d]) path) (fun k => k <> TDoubleColon)
  (fun x => match path with
            | [] => exists t, x = XVar t /\ lex_text t = n
            | _ => exists t tl, x = XPath t tl /\ lex_text t = n /\ map lex_text tl = path end).
Proof.
  unfold primary. apply parses_look. intros t Et. assert (K : t_kind t = TIdent) by now injection Et. rewrite K.
  change (w_name n :: ?r) with ([w_name n] ++ r). cbn [app]. apply (parses_next (w_name n)). intros _ _.
  destruct path as [|d path].
  - cbn [flat_map]. apply parses_is_end; [intros k Hk; now apply neqb|]. apply parses_ret. exists t. split; [reflexivity|now apply lex_name].
  - cbn [flat_map app]. apply parses_is. change (tk_eqb (fst w_path) TDoubleColon) with true. cbv iota.
    rewrite <- (app_nil_r (w_path :: _)). change (w_path :: w_name d :: flat_map (fun d => [w_path; w_name d]) path) with (flat_map (fun d => [w_path; w_name d]) (d :: path)).
    eapply parses_bind with (F1 := fun k => k <> TDoubleColon).
    + apply parses_loop with (Q := fun n t => lex_text t = n).
      * intros k Hk. unfold one_of. cbn. now rewrite neqb.
      * intros b l1 l2 acc _. exists w_path, [w_name b]. split; [reflexivity|]. split; [reflexivity|]. tok. tok. apply parses_ret.
        exists t1. split; [reflexivity|now apply lex_name].
    + cbn. auto.
    + cbn beta. intros r (r' & -> & F2). apply parses_ret. exists t, r'. cbn [app]. split; [reflexivity|]. split; [now apply lex_name|now apply names_eq].
Qed.

Theorem parses_pattern : forall p N, pt_ok p -> (List.length (show_pt p) <= N)%nat -> parses (pattern U (run U N)) (show_pt p) FP (Qp p).
Proof.
  induction p as [z|w|n|n path args IH] using pt_ind'; intros N Hp HN; unfold pattern.
  - cbn [show_pt]. change [(TInteger, LInt z)] with ([(TInteger, LInt z)] ++ []).
    eapply parses_bind with (F1 := fun _ => True) (Q1 := fun x => exists t, x = XConst t /\ word_of t = (TInteger, LInt z)); [|cbn; auto|].
    + unfold primary. apply parses_look. intros t Et. assert (K : t_kind t = TInteger) by now injection Et. rewrite K.
      apply (parses_next (TInteger, LInt z)). intros _ _. apply parses_ret. eauto.
    + intros x (t & -> & Et). assert (K : t_kind t = TInteger) by now injection Et. rewrite K. apply parses_ret. unfold Qp. cbn.
      injection Et as _ Et. now rewrite Et.
  - cbn [show_pt]. change [lit TString w] with ([lit TString w] ++ []).
    eapply parses_bind with (F1 := fun _ => True) (Q1 := fun x => exists t, x = XConst t /\ word_of t = lit TString w); [|cbn; auto|].
    + unfold primary. apply parses_look. intros t Et. assert (K : t_kind t = TString) by now injection Et. rewrite K.
      apply (parses_next (lit TString w)). intros _ _. apply parses_ret. eauto.
    + intros x (t & -> & Et). assert (K : t_kind t = TString) by now injection Et. rewrite K. apply parses_ret. unfold Qp. cbn.
      now rewrite (lex_lit _ _ _ Et).
  - cbn [show_pt]. change [w_name n] with ((w_name n :: flat_map (fun d => [w_path; w_name d]) []) ++ []).
    eapply parses_bind; [apply (parses_path _ _ n [])|cbn; unfold FP; tauto|]. intros x (t & -> & Ht).
    apply parses_is_end; [intros k [Hk _]; now apply neqb|]. apply parses_ret. unfold Qp. cbn. now rewrite Ht.
  - cbn [show_pt] in *. rewrite app_comm_cons in *.
    set (tail := match args with [] => [] | _ => w_lpar :: sep w_comma (map show_pt args) ++ [w_rpar] end) in *.
    eapply parses_bind; [apply (parses_path _ _ n path)| |].
    + unfold tail. destruct args; cbn; [unfold FP; tauto|discriminate].
    + intros x Hx.
      set (adt := fun (ispath : bool) h tl =>
        b <- is TLpar ;;
        if b then
          consume TLpar ;;;
          p <- r_pat (run U N) ;;
          skip_newlines ;;;
          ps <- loop (one_of [TComma]) (fun ps => consume TComma ;;; p <- r_pat (run U N) ;; ret (ps ++ [p])) [p] ;;
          consume TRpar ;;;
          ret (PaAdt ispath h tl ps)
        else if ispath then ret (PaAdt true h tl []) else ret (PaBind h)).
      assert (Hadt : forall b h tl, lex_text h = n -> map lex_text tl = path -> b = (match path with [] => false | _ => true end) ->
        parses (adt b h tl) tail FP (Qp (PtVariant n path args))).
      { intros b h tl0 Hh Htl Hb. unfold adt, tail. apply pt_ok_args in Hp as Ha. destruct args as [|a args].
        - apply parses_is_end; [intros k [Hk _]; now apply neqb|]. destruct path as [|d path]; [exfalso; cbn in Hp; destruct Hp as [[H|H] _]; now apply H|].
          subst b. apply parses_ret. unfold Qp. cbn. now rewrite Hh, Htl.
        - apply parses_is. change (tk_eqb (fst w_lpar) TLpar) with true. cbv iota. tok. rewrite sep_flat, <- app_assoc.
          unfold tail in HN. rewrite sep_flat in HN.
          destruct N as [|N]; [len|]. inversion Ha as [|? ? Hpa Hpl]; subst. inversion IH as [|? ? Ia Il]; subst.
          eapply parses_bind; [apply (Ia N); [exact Hpa|len]|destruct args; cbn; split; discriminate|]. intros q Qq.
          apply parses_skip; [destruct args; cbn; discriminate|].
          eapply parses_bind with (F1 := fun k => k = TRpar).
          + apply parses_loop with (Q := Qp); [intros k ->; reflexivity|]. intros b l1 l2 acc El.
            exists w_comma, (show_pt b). split; [reflexivity|]. split; [reflexivity|]. tok. rewrite <- (app_nil_r (show_pt b)).
            assert (Hin : In b args) by (rewrite El; apply in_or_app; right; now left).
            pose proof (flat_in (fun b => w_comma :: show_pt b) b args Hin) as L. rewrite Forall_forall in Il, Hpl.
            eapply parses_bind; [apply (Il b Hin N); [now apply Hpl|len]| |].
            * cbn. destruct l2; cbn; intros k ->; split; discriminate.
            * intros q' Qq'. apply parses_ret. eauto.
          + reflexivity.
          + cbn beta. intros r (r' & -> & F2). tok. apply parses_ret. unfold Qp in *. cbn [shape_pt app].
            rewrite (all_shape shape_pt (q :: r') (a :: args)); [reflexivity|]. now constructor. }
      destruct path as [|d path].
      * destruct Hx as (t & -> & Ht). now apply Hadt.
      * destruct Hx as (t & tl0 & -> & Ht & Htl). now apply Hadt.
Qed.

(** ** Records *)
Definition fbody (R : rec) (l : list sx) : P (list sx) :=
  t <- look ;;
  match t_kind t with
  | TNewline => skip_newlines ;;; ret l
  | TIdent =>
      name <- consume TIdent ;;
      n <- look ;;
      fs <- (match t_kind n with
             | TColon => d <- simple_decl U R name ;; ret [d]
             | TComma => multi_decl R name
             | _ => ret []
             end) ;;
      end_stmt ;;; ret (l ++ fs)
  | _ => error
  end.
Lemma fields_lines R k acc ws (F : tk -> Prop) Q : meets ws F (fun k => k <> TNewline) ->
  parses (loop (not_in [TFim; TEof]) (fbody R) acc) ws F Q -> parses (loop (not_in [TFim; TEof]) (fbody R) acc) (lines k ++ ws) F Q.
Proof.
  intros Hm H. destruct k as [|k]; [exact H|]. change (lines (S k)) with (w_nl :: lines k).
  eapply parses_loop_cons with (F1 := fun k => k <> TNewline) (Q1 := fun r => r = acc); [reflexivity| |exact Hm|intros r ->; exact H].
  unfold fbody. pick tk0 Ek. change (w_nl :: lines k) with (lines (S k)). rewrite <- (app_nil_r (lines (S k))).
  apply parses_lines; [cbn; auto|]. now apply parses_ret.
Qed.
Theorem parses_fields fs ws N acc : show_fields fs ws -> (List.length ws <= N)%nat ->
  parses (loop (not_in [TFim; TEof]) (fbody (run U N)) acc) ws (fun k => k = TFim)
    (fun r => exists r', r = acc ++ r' /\ all shape_field r' = Some fs).
Proof.
  intros H. revert acc. induction H as [k|k n t v w l ws Hw Hf IH|k n m ns t w l ws Hw Hf IH]; intros acc HN.
  - rewrite <- (app_nil_r (lines k)). apply fields_lines; [cbn; intros k' ->; discriminate|].
    apply parses_loop_nil; [intros k' ->; reflexivity|]. exists []. split; [now rewrite app_nil_r|reflexivity].
  - apply fields_lines; [discriminate|].
    replace ((w_name n :: w_colon :: show_ty t ++ show_init v) ++ w :: ws) with ((w_name n :: (w_colon :: show_ty t ++ show_init v) ++ [w]) ++ ws)
      by (cbn; rewrite <- !app_assoc; reflexivity).
    eapply parses_loop_cons with (F1 := fun _ => True) (Q1 := fun r => exists x, r = acc ++ [x] /\ shape_field x = Some (n, t, v)); [reflexivity| | |].
    + unfold fbody. pick tk0 Ek. tok. cbn [app]. pick tk1 Ek1. rewrite app_comm_cons.
      eapply parses_bind with (F1 := ends) (Q1 := fun fs => exists x, fs = [x] /\ shape_field x = Some (n, t, v)).
      * rewrite <- (app_nil_r (w_colon :: _)). eapply parses_bind; [apply (parses_simple_decl U N n t v); [now apply lex_name|len]|cbn; auto|].
        intros x [_ Hx]. apply parses_ret. eauto.
      * destruct Hw as [-> | ->]; cbn; unfold ends; auto.
      * intros fs (x & -> & Hx). apply parses_end; [exact Hw|]. eauto.
    + destruct ws; cbn; auto.
    + cbn beta. intros r (x & -> & Hx). eapply parses_mono; [apply IH; len|auto|]. intros r (r' & -> & Hr). exists (x :: r').
      split; [now rewrite <- app_assoc|]. cbn. rewrite Hx. cbn. now rewrite Hr.
  - apply fields_lines; [rewrite sep_names; discriminate|]. rewrite sep_names in *.
    replace (((w_name n :: flat_map (fun m => [w_comma; w_name m]) (m :: ns)) ++ w_colon :: show_ty t) ++ w :: ws)
      with ((w_name n :: (flat_map (fun m => [w_comma; w_name m]) (m :: ns) ++ w_colon :: show_ty t) ++ [w]) ++ ws)
      by (cbn [app]; f_equal; rewrite <- !app_assoc; cbn [app]; rewrite <- ?app_assoc; reflexivity).
    eapply parses_loop_cons with (F1 := fun _ => True) (Q1 := fun r => exists rx, r = acc ++ rx /\ all shape_field rx = Some (map (fun n => (n, t, None)) (n :: m :: ns))); [reflexivity| | |].
    + unfold fbody. pick tk0 Ek. tok.
      change ((flat_map (fun m => [w_comma; w_name m]) (m :: ns) ++ w_colon :: show_ty t) ++ [w]) with
        (w_comma :: (w_name m :: flat_map (fun m => [w_comma; w_name m]) ns ++ w_colon :: show_ty t) ++ [w]).
      pick tk1 Ek1. rewrite app_comm_cons.
      eapply parses_bind with (F1 := ends) (Q1 := fun fs => all shape_field fs = Some (map (fun n => (n, t, None)) (n :: m :: ns))).
      * eapply parses_mono; [apply (parses_multi_decl U N n m ns t); [now apply lex_name|]|auto|].
        -- cbn [flat_map app] in *. len.
        -- intros r [_ Hr]. exact Hr.
      * destruct Hw as [-> | ->]; cbn; unfold ends; auto.
      * intros fs Hfs. apply parses_end; [exact Hw|]. eauto.
    + destruct ws; cbn; auto.
    + cbn beta. intros r (rx & -> & Hx). eapply parses_mono; [apply IH; len|auto|]. intros r (r' & -> & Hr). exists (rx ++ r').
      split; [now rewrite <- app_assoc|]. now apply all_app.
Qed.

(** ** Unions *)
Lemma parses_variant v N : (List.length (show_variant v) <= N)%nat ->
  parses (uniao_variant (run U N)) (show_variant v) (fun k => k <> TLpar) (fun x => shape_variant x = v).
Proof.
  destruct v as [n ts]. unfold show_variant, uniao_variant. cbn [fst snd]. intros HN. tok. destruct ts as [|t0 ts].
  - apply parses_is_end; [intros k Hk; now apply neqb|]. apply parses_ret. unfold shape_variant. cbn. now rewrite (lex_name _ _ Et).
  - apply parses_is. change (tk_eqb (fst w_lpar) TLpar) with true. cbv iota. tok. rewrite sep_flat, <- app_assoc in *.
    destruct (show_ty_head t0) as (w1 & ws1 & E1 & Hw1).
    apply parses_skip; [rewrite E1; cbn; destruct Hw1 as [-> | ->]; discriminate|].
    eapply parses_bind; [apply parses_type; len|destruct ts; reflexivity|]. intros y Hy.
    eapply parses_bind with (F1 := fun k => k = TRpar).
    + apply parses_loop with (Q := fun t y => shape_ty y = t); [intros k ->; reflexivity|]. intros b l1 l2 acc El.
      exists w_comma, (show_ty b). split; [reflexivity|]. split; [reflexivity|]. apply parses_skip; [discriminate|]. tok.
      destruct (show_ty_head b) as (w2 & ws2 & E2 & Hw2).
      apply parses_skip; [rewrite E2; cbn; destruct Hw2 as [-> | ->]; discriminate|]. rewrite <- (app_nil_r (show_ty b)).
      assert (Hin : In b ts) by (rewrite El; apply in_or_app; right; now left).
      pose proof (flat_in (fun b => w_comma :: show_ty b) b ts Hin) as L.
      eapply parses_bind; [apply parses_type; len| |].
      * cbn. destruct l2; cbn; intros k ->; reflexivity.
      * intros y' Hy'. apply parses_skip; [cbn; destruct l2; cbn; intros k ->; discriminate|]. apply parses_ret. eauto.
    + reflexivity.
    + cbn beta. intros r (r' & -> & F2). tok. apply parses_ret. unfold shape_variant. cbn. rewrite (lex_name _ _ Et), Hy. do 2 f_equal.
      clear -F2. induction F2; cbn; congruence.
Qed.
Definition vloop (R : rec) (l : list svariant) : P (list svariant) :=
  l <- loop (one_of [TComma]) (fun l => skip_newlines ;;; consume TComma ;;; skip_newlines ;;; v <- uniao_variant R ;; ret (l ++ [v])) l ;;
  skip_newlines ;;; ret l.
Lemma parses_vloop vs ws N : show_variants vs ws -> (List.length ws <= N)%nat -> exists v l wt, vs = v :: l /\ ws = show_variant v ++ wt /\
  (l = [] /\ (exists k, wt = lines k) \/ exists wt', wt = w_comma :: wt') /\
  forall acc, parses (vloop (run U N) acc) wt (fun k => k = TFim) (fun r => exists r', r = acc ++ r' /\ map shape_variant r' = l).
Proof.
  induction 1 as [v k|v k l ws Hs IH]; intros HN.
  - exists v, [], (lines k). repeat split; [eauto|]. intros acc. unfold vloop. rewrite <- (app_nil_l (lines k)).
    eapply parses_bind with (F1 := fun k => k <> TComma) (Q1 := fun r => r = acc).
    + apply parses_loop_nil; [|reflexivity]. intros k' Hk. unfold one_of. cbn. now rewrite neqb.
    + destruct k; cbn; [intros k' ->|]; discriminate.
    + intros r ->. rewrite <- (app_nil_r (lines k)). apply parses_lines; [cbn; intros k' ->; discriminate|]. apply parses_ret. exists [].
      split; [now rewrite app_nil_r|reflexivity].
  - destruct IH as (v' & l' & wt & -> & -> & Hwt & Hl); [len|]. exists v, (v' :: l'), (w_comma :: lines k ++ show_variant v' ++ wt).
    split; [reflexivity|]. split; [reflexivity|]. split; [right; eauto|]. intros acc.
    assert (Hb : parses (loop (one_of [TComma]) (fun l => skip_newlines ;;; consume TComma ;;; skip_newlines ;;; v <- uniao_variant (run U N) ;; ret (l ++ [v])) acc)
       [] (fun k => k = TFim) (fun r => r = acc)) by (apply parses_loop_nil; [intros k' ->; reflexivity|reflexivity]). clear Hb.
    (* one more round *)
    intros ts rest e Ht Hg Hk. change (w_comma :: lines k ++ show_variant v' ++ wt) with ((w_comma :: lines k) ++ show_variant v' ++ wt) in Ht.
    rewrite app_assoc in Ht. unfold words in Ht. destruct (map_eq_app _ _ _ _ Ht) as (t1 & t2 & -> & E1 & E2).
    assert (Hround : parses (skip_newlines ;;; consume TComma ;;; skip_newlines ;;; v <- uniao_variant (run U N) ;; ret (acc ++ [v]))
       ((w_comma :: lines k) ++ show_variant v') (fun k => k <> TLpar) (fun r => exists x, r = acc ++ [x] /\ shape_variant x = v')).
    { cbn [app]. apply parses_skip; [discriminate|]. tok. apply parses_lines; [unfold show_variant; discriminate|]. rewrite <- (app_nil_r (show_variant v')).
      eapply parses_bind; [apply parses_variant; len|cbn; auto|]. intros x Hx. apply parses_ret. eauto. }
    destruct (Hround t1 (t2 ++ rest) e E1 (good_app _ _ _ Hg)) as (r1 & Er1 & x & -> & Hx).
    { apply (meets_kind t2 rest e wt (fun k => k = TFim)); [exact E2| |exact Hk]. destruct Hwt as [[_ [k' ->]]|[wt' ->]]; [destruct k'; cbn; [intros k0 ->|]; discriminate|discriminate]. }
    destruct (Hl (acc ++ [x]) t2 rest e E2 Hg Hk) as (r2 & Er2 & r' & -> & Hr'). exists ((acc ++ [x]) ++ r'). split.
    + rewrite <- app_assoc. unfold vloop, bind at 1 in Er2. unfold vloop, bind at 1. unfold loop at 1. unfold loop at 1 in Er2.
      destruct (while _ _ _ (acc ++ [x]) (t2 ++ rest, e)) as [a s| | |] eqn:Ew in Er2; try discriminate Er2.
      cbn [while]. destruct t1 as [|u t1]; [discriminate|]. injection E1 as Eu _ _. unfold kind, look_tok. cbn [fst app]. rewrite Eu.
      change (one_of [TComma] TComma) with true. cbv iota. unfold bind at 1. cbn [app] in Er1. rewrite Er1.
      erewrite while_mono; [exact Er2|exact Ew|]. cbn [fst app List.length]. rewrite !app_length. lia.
    + exists (x :: r'). split; [now rewrite <- app_assoc|]. cbn. now rewrite Hx, Hr'.
Qed.
Theorem parses_union vs ws N : show_union vs ws -> (List.length ws <= N)%nat ->
  parses (uniao_body (run U N)) ws (fun k => k = TFim) (fun r => map shape_variant r = vs).
Proof.
  intros [k|k l ws0 Hv] HN; unfold uniao_body.
  - rewrite <- (app_nil_r (lines k)). apply parses_lines; [cbn; intros k' ->; discriminate|].
    apply parses_is_end; [intros k' ->; reflexivity|]. change (@nil word) with (@nil word ++ []).
    eapply parses_bind with (F1 := fun _ => True) (Q1 := fun r => r = []); [now apply parses_ret|cbn; auto|]. intros r ->.
    apply parses_skip; [cbn; intros k' ->; discriminate|]. now apply parses_ret.
  - destruct (parses_vloop l ws0 N Hv) as (v & l' & wt & -> & -> & Hwt & Hl); [len|].
    apply parses_lines; [unfold show_variant; discriminate|]. unfold show_variant at 1. cbn [app]. apply parses_is.
    change (tk_eqb (fst (w_name (fst v))) TIdent) with true. cbv iota. rewrite app_comm_cons. fold (show_variant v).
    eapply parses_ext; [intros s; rewrite bind_bind; reflexivity|].
    eapply parses_bind; [apply parses_variant; len| |].
    + destruct Hwt as [[_ [k' ->]]|[wt' ->]]; [destruct k'; cbn; [intros k0 ->|]; discriminate|discriminate].
    + intros x Hx. eapply parses_ext; [intros s; rewrite bind_bind; reflexivity|]. specialize (Hl [x]). unfold vloop in Hl.
      assert (Hfin : parses (l <- loop (one_of [TComma]) (fun l => skip_newlines ;;; consume TComma ;;; skip_newlines ;;; v <- uniao_variant (run U N) ;; ret (l ++ [v])) [x] ;; skip_newlines ;;; ret l) wt (fun k => k = TFim) (fun r => map shape_variant r = v :: l')).
      { eapply parses_mono; [exact Hl|auto|]. intros r (r' & -> & Hr). cbn. now rewrite Hx, Hr. }
      destruct Hwt as [[El [k' ->]]|[wt' ->]].
      * subst l'. rewrite <- (app_nil_r (lines k')). apply parses_lines; [cbn; intros k0 ->; discriminate|].
        change (@nil word) with (@nil word ++ []). eapply parses_bind with (F1 := fun k => k = TFim) (Q1 := fun r => r = [x]).
        -- apply parses_loop_nil; [intros k0 ->; reflexivity|reflexivity].
        -- cbn. auto.
        -- intros r ->. apply parses_skip; [cbn; intros k0 ->; discriminate|]. apply parses_ret. cbn. now rewrite Hx.
      * apply parses_skip; [discriminate|]. exact Hfin.
Qed.

(** ** Imports *)
Lemma parses_usa i ws : show_import i ws -> exists wa k, ws = wa ++ lines k /\ (exists w wa', wa = w :: wa' /\ fst w = TUsa) /\
  parses usa_stmt wa (fun _ => True) (fun x => shape_import x = Some i).
Proof.
  intros [f w k Hw|f n k|f n l k].
  - exists [kw TUsa "usa"; lit TString f; w], k. split; [reflexivity|]. split; [eexists _, _; split; reflexivity|].
    unfold usa_stmt. tok. tok. apply parses_is. replace (tk_eqb (fst w) TArrow) with false by (destruct Hw as [-> | ->]; reflexivity). cbn [negb].
    apply parses_end; [exact Hw|]. cbn. now rewrite (lex_lit _ _ _ Et0).
  - exists [kw TUsa "usa"; lit TString f; w_arrow; w_name n], (S k). split; [reflexivity|]. split; [eexists _, _; split; reflexivity|].
    unfold usa_stmt. tok. tok. apply parses_is. change (tk_eqb (fst w_arrow) TArrow) with true. cbn [negb]. tok. pick t3 Et3. tok.
    apply parses_ret. cbn. now rewrite (lex_lit _ _ _ Et0), (lex_name _ _ Et2).
  - exists (kw TUsa "usa" :: lit TString f :: w_arrow :: w_lbr :: sep w_comma (map (fun n => [w_name n]) (n :: l)) ++ [w_rbr]), (S k).
    split; [cbn [app]; rewrite <- app_assoc; reflexivity|]. split; [eexists _, _; split; reflexivity|].
    unfold usa_stmt. tok. tok. apply parses_is. change (tk_eqb (fst w_arrow) TArrow) with true. cbn [negb]. tok. pick t3 Et3. tok.
    rewrite sep_names. cbn [app]. tok.
    eapply parses_bind with (F1 := fun k => k = TRbracket).
    + apply parses_loop with (wsf := fun m => [w_comma; w_name m]) (Q := fun (n m : text) => m = n); [intros k0 ->; reflexivity|].
      intros b l1 l2 acc _. exists w_comma, [w_name b]. split; [reflexivity|]. split; [reflexivity|]. tok. tok. apply parses_ret.
      exists (lex_text t6). split; [reflexivity|now apply lex_name].
    + reflexivity.
    + cbn beta. intros r (r' & -> & F2). tok. apply parses_ret. cbn. rewrite (lex_lit _ _ _ Et0), (lex_name _ _ Et4). do 3 f_equal.
      clear -F2. induction F2; congruence.
Qed.
Lemma lines_app a b : lines a ++ lines b = lines (a + b).
Proof. symmetry. apply repeat_app. Qed.
Theorem parses_imports is wi acc k (F : tk -> Prop) : show_imports is wi -> (is <> [] \/ k = 0%nat) -> (forall k, F k -> k <> TNewline /\ k <> TUsa) ->
  parses (loop (one_of [TUsa]) (fun l => u <- usa_stmt ;; skip_newlines ;;; ret (l ++ [u])) acc) (wi ++ lines k) F
    (fun r => exists r', r = acc ++ r' /\ all shape_import r' = Some is).
Proof.
  intros H. revert acc k. induction H as [|i l ws ws' Hi Hs IH]; intros acc k Hk HF.
  - destruct Hk as [Hk | ->]; [now destruct Hk|]. cbn [app lines repeat]. apply parses_loop_nil.
    + intros k' Hk'. unfold one_of. cbn. rewrite neqb; [reflexivity|]. now apply HF.
    + exists []. split; [now rewrite app_nil_r|reflexivity].
  - destruct (parses_usa i ws Hi) as (wa & k0 & -> & (w & wa' & -> & Hw) & Hp).
    assert (Hb : forall k1, parses (u <- usa_stmt ;; skip_newlines ;;; ret (acc ++ [u])) (w :: (wa' ++ lines k1)) (fun k => k <> TNewline)
       (fun r => exists x, r = acc ++ [x] /\ shape_import x = Some i)).
    { intros k1. rewrite app_comm_cons. eapply parses_bind; [exact Hp|destruct k1; cbn; auto|]. intros x Hx. rewrite <- (app_nil_r (lines k1)).
      apply parses_lines; [cbn; auto|]. apply parses_ret. eauto. }
    destruct Hs as [|j l wj ws' Hj Hs].
    + cbn [app]. rewrite app_nil_r, <- app_assoc, lines_app. rewrite <- (app_nil_r (w :: _)).
      eapply parses_loop_cons; [unfold one_of; cbn; rewrite Hw; reflexivity|apply Hb|cbn; intros k' Hk'; now apply HF|].
      cbn beta. intros r (x & -> & Hx). apply parses_loop_nil; [intros k' Hk'; unfold one_of; cbn; rewrite neqb; [reflexivity|now apply HF]|].
      exists [x]. split; [reflexivity|]. cbn. now rewrite Hx.
    + rewrite <- app_assoc. change ((w :: wa') ++ lines k0) with (w :: (wa' ++ lines k0)).
      eapply parses_loop_cons; [unfold one_of; cbn; rewrite Hw; reflexivity|apply Hb| |].
      * destruct Hj; discriminate.
      * cbn beta. intros r (x & -> & Hx). eapply parses_mono; [apply IH; [left; discriminate|exact HF]|auto|]. intros r (r' & -> & Hr).
        exists (x :: r'). split; [now rewrite <- app_assoc|]. cbn. rewrite Hx. cbn. now rewrite Hr.
Qed.
End Decl.
