(** Lemmas for C43: declarations of a plain text are analysed without an
    exception. *)
From Verif Require Import Base BaseFacts Bson Value Lexer Ast Types Syntax Sym Check Spec_Plain PlainBase PlainStep PlainVisit.
From Coq Require Import Lia.
Local Open Scope chk_scope.

Section Top.
Variables (F : front_env) (usa : smode -> text -> M unit).
Hypothesis order_nil : f_order F [] = [].
Variables (R V : bool) (g t0 B : nat) (ex : list nat).
Local Notation wf := (wf R V g t0 B ex).
Local Notation ty_ok := (ty_ok R V ex).
Local Notation var_ok := (var_ok ex).
Local Notation met_ok := (met_ok ex).
Local Notation fn_ok := (fn_ok ex).
Local Notation cok := (cok g t0 B ex).
Local Notation gent := (gent ex).
Local Notation K := (K R V g t0 B ex).
Local Notation plain := (plain R V).

Definition kind_is (st : store) (i : nat) (k : skind) : Prop := exists x, nth_error (so_syms st) i = Some x /\ kcl (s_kind x) = kcl k.
Lemma kind_is_ext : forall a b i k, ext a b -> kind_is a i k -> kind_is b i k.
Proof. intros a b i k E (x & X & KD). destruct (e_sym _ _ E _ _ X) as (y & Y & _ & KY). exists y. split; [exact Y|congruence]. Qed.
Lemma forall_var_ext : forall a b (ps : list (text * nat)), ext a b -> Forall (fun p => var_ok a (snd p)) ps -> Forall (fun p => var_ok b (snd p)) ps.
Proof. intros a b ps E. apply Forall_impl. intros p H. eapply var_ok_ext; eauto. Qed.

Ltac lift E :=
  match type of E with
  | ext ?a ?b =>
      repeat match goal with
             | H : PlainBase.ty_ok _ _ _ a _ |- _ => apply (ty_ok_ext _ _ _ _ _ _ E) in H
             | H : PlainBase.var_ok _ a _ |- _ => apply (var_ok_ext _ _ _ _ E) in H
             | H : PlainStep.cok _ _ _ _ a _ |- _ => apply (cok_ext _ _ _ _ _ _ _ E) in H
             | H : PlainStep.gent _ a _ _ |- _ => apply (gent_ext _ _ _ _ _ E) in H
             | H : up_is a _ _ |- _ => apply (up_is_ext _ _ _ _ E) in H
             | H : PlainBase.fn_ok _ a _ |- _ => apply (fn_ok_ext _ _ _ _ E) in H
             | H : kind_is a _ _ |- _ => apply (kind_is_ext _ _ _ _ E) in H
             | H : Forall (fun p => PlainBase.var_ok _ a (snd p)) _ |- _ => apply (forall_var_ext _ _ _ E) in H
             | W : PlainBase.wf _ _ _ _ _ _ a |- _ => clear W
             end
  end.

(** Parameters. *)
Lemma k_read_params : forall A l seen c st (k : list (text * nat) -> M A) c' Q, wf st -> cok st c -> forallb (plain_param V) l = true ->
  Forall (fun p => var_ok st (snd p) /\ gent st (fst p) (snd p) /\ free_name (fst p) = true) seen ->
  (forall ps st1, ext st st1 -> wf st1 -> cok st1 c -> Forall (fun p => var_ok st1 (snd p) /\ gent st1 (fst p) (snd p) /\ free_name (fst p) = true) ps -> K c st1 (k ps) c' Q) ->
  K c st (cbind (read_params seen l) k) c' Q.
Proof.
  intros A l. induction l as [|p l IH]; intros seen c st k c' Q W C P S HK; cbn [read_params].
  - apply k_retb. apply HK; auto. apply ext_refl.
  - cbn in P. apply andb_true_iff in P. destruct P as [P P2]. unfold plain_param, both in P. rewrite !andb_true_iff in P. destruct P as [[P0 P1] P3].
    destruct (assoc _ seen); [apply k_errb|]. apply k_assoc, k_line; auto. apply k_assoc, k_type; auto. intros t T. apply k_assoc, k_new_var; auto. intros st1 i E W1 G1 V1.
    apply IH; auto; [eapply cok_ext; eauto| |].
    + apply Forall_app. split; [|constructor; auto]. eapply Forall_impl; [|exact S]. cbn. intros q (Q1 & Q2 & Q3). split; [eapply var_ok_ext; eauto|split; [eapply gent_ext; eauto|exact Q3]].
    + intros ps st2 E2 W2 C2 F2. apply HK; auto. eapply ext_trans; eauto.
Qed.
Lemma k_define_all : forall A d sc ps c st (k : unit -> M A) c' Q, wf st -> (B <= sc)%nat ->
  Forall (fun p => var_ok st (snd p) /\ gent st (fst p) (snd p) /\ free_name (fst p) = true) ps ->
  (forall st1, ext st st1 -> wf st1 -> K c st1 (k tt) c' Q) ->
  K c st (cbind (mapc (fun p => define_symbol F (snd p) d sc) ps) (fun _ => k tt)) c' Q.
Proof.
  intros A d sc ps. induction ps as [|p ps IH]; intros c st k c' Q W LE S HK; cbn [mapc].
  - apply k_retb. apply HK; auto. apply ext_refl.
  - inversion S as [|? ? (S1 & S2 & S3) S4]; subst. apply k_assoc. eapply k_define; [exact W|exact S2|exact S3|right; auto|]. intros st1 E1 W1. apply k_assoc.
    eapply IH with (k := k); auto.
    + eapply Forall_impl; [|exact S4]. cbn. intros q (Q1 & Q2 & Q3). split; [eapply var_ok_ext; eauto|split; [eapply gent_ext; eauto|exact Q3]].
    + intros st2 E2 W2. apply HK; auto. eapply ext_trans; eauto.
Qed.
Lemma k_func_scope : forall A l c st (k : nat * list (text * nat) -> M A) c' Q, wf st -> cok st c -> forallb (plain_param V) l = true ->
  (forall sc ps st1, ext st st1 -> wf st1 -> cok st1 c -> (B <= sc)%nat -> up_is st1 sc (p_cur c) -> Forall (fun p => var_ok st1 (snd p)) ps -> K c st1 (k (sc, ps)) c' Q) ->
  K c st (cbind (define_func_scope F l) k) c' Q.
Proof.
  intros A l c st k c' Q W C P HK. unfold define_func_scope. apply k_assoc, k_read_params; auto. intros ps st1 E1 W1 C1 S1. apply k_assoc, k_scope, k_assoc, k_gcx. intros d.
  apply k_assoc, k_new_scope; [exact W1|eapply cur_scoped; eauto|]. intros st2 E2 W2 U2 LE. apply k_assoc.
  eapply k_define_all with (k := fun _ => cbind (cret (List.length (so_scopes st1), ps)) k); auto.
  - eapply Forall_impl; [|exact S1]. cbn. intros q (Q1 & Q2 & Q3). split; [eapply var_ok_ext; eauto|split; [eapply gent_ext; eauto|exact Q3]].
  - intros st3 E3 W3. apply k_retb. apply HK; auto.
    + eapply ext_trans; [exact E1|eapply ext_trans; eauto].
    + eapply cok_ext; [exact E3|eapply cok_ext; eauto].
    + eapply up_is_ext; eauto.
    + eapply Forall_impl; [|exact S1]. cbn. intros q (Q1 & _). eapply var_ok_ext; [exact E3|eapply var_ok_ext; eauto].
Qed.

(** Generic parameters: there are none. *)
Lemma k_params_nil : forall A sc c st (k : unit -> M A) c' Q, K c st (k tt) c' Q -> K c st (cbind (define_params sc []) k) c' Q.
Proof. intros. unfold define_params. apply k_assoc, k_gcx. intros m. apply k_assoc. cbn [mapc]. apply k_retb, k_retb. auto. Qed.
Lemma generics_nil : generic_params F [] = [].
Proof. unfold generic_params. cbn. exact order_nil. Qed.
Lemma ty_scoped : forall st c, wf st -> cok st c -> scoped st (p_ty c).
Proof.
  intros st c W (_ & U & _). inversion U as [|k u LE (x & X & _)]; subst; [|exists x; exact X]. destruct (w_ty _ _ _ _ _ _ _ W) as (x & X & _). exists x. exact X.
Qed.
Lemma k_generics : forall A c st (k : unit -> M A) c' Q, wf st -> cok st c ->
  (forall st1 i, ext st st1 -> wf st1 -> cok st1 c -> up_is st1 i (p_ty c) -> cok st1 (mkPc (p_cur c) i (p_fn c)) -> K (mkPc (p_cur c) i (p_fn c)) st1 (k tt) c' Q) ->
  K c st (cbind (enter_generics []) k) c' Q.
Proof.
  intros A c st k c' Q W C HK. unfold enter_generics. apply k_assoc, k_tysc, k_assoc, k_new_scope; [exact W|apply ty_scoped; auto|]. intros st1 E W1 U LE. lift E.
  apply k_assoc, k_params_nil, k_setty. apply HK; auto. destruct C as (C1 & C2 & C3). split; [exact C1|split; [|exact C3]]. cbn. econstructor; eauto.
Qed.
Lemma k_leave_ty : forall A c u st (k : unit -> M A) c' Q, up_is st (p_ty c) u -> K (mkPc (p_cur c) u (p_fn c)) st (k tt) c' Q -> K c st (cbind leave_ty_ctx k) c' Q.
Proof.
  intros A c u st k c' Q (x & X & U) HK. unfold leave_ty_ctx. apply k_assoc, k_tysc, k_assoc, k_gst, k_assoc. eapply k_must; [exact X|]. apply k_assoc. eapply k_must; [exact U|].
  apply k_setty. exact HK.
Qed.

(** The block of a function. *)
Lemma k_body : forall A i b sc c st (k : tx * option nat -> M A) c' Q, wf st -> cok st c -> plain b = true -> fn_ok st i -> (B <= sc)%nat -> up_is st sc (p_cur c) ->
  (forall rb st1, ext st st1 -> wf st1 -> cok st1 c -> K c st1 (k rb) c' Q) ->
  K c st (cbind (gcx cx_func) (fun old => cbind (set_func (Some i)) (fun _ => cbind (visit F usa b PNone (Some sc) false) (fun rb => cbind (set_func old) (fun _ => k rb))))) c' Q.
Proof.
  intros A i b sc c st k c' Q W C P FN LE U HK. apply k_func, k_setfn. eapply k_bind.
  - apply (visit_ok F usa R V g t0 B ex b P); [exact W| |split; assumption]. destruct C as (C1 & C2 & C3). split; [exact C1|split; [exact C2|exact FN]].
  - intros rb st1 E1 W1 _. apply k_setfn. cbn [p_cur p_ty p_fn]. destruct c. apply HK; auto. eapply cok_ext; eauto.
Qed.

Definition top := mkPc g t0 None.
Lemma func_top : forall n ps y b, both (lex_text n) = true -> forallb (plain_param V) ps = true -> plain_result V y = true -> plain b = true ->
  forall p sc st, wf st -> cok st top -> K top st (visit F usa (XFunc n ps y false [] (Some b)) p sc false) (fun _ => top) (fun _ _ => True).
Proof.
  intros n ps y b N P Y PB p sc st W C. unfold both in N. apply andb_true_iff in N. destruct N as [N1 N2]. cbn [visit]. apply k_first; [exact W|]. cbv zeta. apply k_decl.
  assert (G : forall k, K top st k (fun _ => top) (fun _ _ => True) -> K top st (cbind (if (max_params <? List.length ps)%nat then ccerr else cret tt) (fun _ : unit => k)) (fun _ => top) (fun (_ : tx * option nat) _ => True)).
  { intros k HK. destruct (max_params <? _)%nat; [apply k_errb|apply k_retb; exact HK]. }
  apply G; clear G. apply k_type_opt; auto. intros ty T. apply k_gcx. intros m. apply k_new_sym; [exact W|cbn; auto|]. intros st1 E1 W1 X1 NE. lift E1.
  set (i := List.length (so_syms st)) in *.
  assert (KI : kind_is st1 i (SFun ty [])) by (eexists; split; [exact X1|reflexivity]).
  assert (GI : gent st1 (lex_text n) i) by (split; [eexists; split; [exact X1|reflexivity]|exact NE]).
  assert (FI : fn_ok st1 i) by (split; [exact NE|eexists; split; [exact X1|exact I]]). clear X1.
  apply k_type_opt; auto. intros ty2 _. apply k_mark; [exact W1|auto|]. intros st2 E2 W2. lift E2. apply k_gcx. intros d. apply k_scope.
  eapply k_define; [exact W2|exact GI|exact N1|left; reflexivity|]. intros st3 E3 W3. lift E3. apply k_func_scope; auto. intros fsc fps st4 E4 W4 C4 LE U4 FP. lift E4. cbn [fst snd].
  apply k_upd; [exact W4| | |].
  { intros x X. cbn. split; [reflexivity|]. destruct KI as (x' & X' & KX). rewrite X in X'. injection X' as <-. symmetry. exact KX. }
  { intros x X _. cbn. auto. }
  intros st5 E5 W5. lift E5. destruct (negb _ && negb _)%bool; [apply k_line_err|]. apply k_body; auto. intros rb st6 E6 W6 C6. apply k_ret; auto.
Qed.

(** [define_method] *)
Lemma k_method : forall A t n i c st (k : unit -> M A) c' Q, wf st -> ty_ok st t -> (match t with CVec _ => False | _ => True end) -> met_ok st n i ->
  (forall st1, ext st st1 -> wf st1 -> K c st1 (k tt) c' Q) -> K c st (cbind (define_method t n i) k) c' Q.
Proof.
  intros A t n i c st k c' Q W T NV MO HK. destruct t; cbn in T; try contradiction; cbn [define_method].
  - assert (WP : wf (with_prims st (match find (fun e => prim_eqb (fst e) p) (so_prims st) with
                  | Some _ => map (fun e => if prim_eqb (fst e) p then (fst e, assoc_set (snd e) n i) else e) (so_prims st)
                  | None => so_prims st ++ [(p, [(n, i)])]
                  end))).
    { apply wf_prims; [exact W|]. intros q m I. destruct (find _ _) as [e|] eqn:FE.
      - apply in_map_iff in I. destruct I as ((q' & m') & EQ & I). cbn [fst snd] in EQ. pose proof (w_pr _ _ _ _ _ _ _ W _ _ I) as FA.
        destruct (prim_eqb q' p); injection EQ as <- <-; [|exact FA]. rewrite Forall_forall in *. intros e' Ie. destruct (in_set _ _ _ _ Ie) as [->|G]; [exact MO|auto].
      - apply in_app_iff in I. destruct I as [I|[I|[]]]; [exact (w_pr _ _ _ _ _ _ _ W _ _ I)|]. injection I as <- <-. constructor; [exact MO|constructor]. }
    apply k_mst; [exact WP|apply ext_prims|]. apply HK; [apply ext_prims|exact WP].
  - apply k_upd; [exact W| | |exact HK].
    + intros x X. cbv beta. destruct (s_kind x) eqn:KD; rewrite ?KD; split; reflexivity.
    + intros x X NE. pose proof (w_sym _ _ _ _ _ _ _ W _ _ X NE) as OK. cbv beta. destruct (s_kind x) eqn:KD; auto. unfold sym_ok in *. rewrite KD in OK. cbn. destruct OK as (O1 & O2 & O3 & O4).
      repeat split; auto. rewrite Forall_forall in *. intros e' Ie. destruct (in_set _ _ _ _ Ie) as [->|G]; [exact MO|auto].
Qed.

Lemma met_top : forall t n ps y b, used_name (lex_text t) = true -> both (lex_text n) = true -> forallb (plain_param V) ps = true -> plain_result V y = true -> plain b = true ->
  forall p sc st, wf st -> cok st top -> K top st (visit F usa (XMet [] (YName t None false) n ps y [] b) p sc false) (fun _ => top) (fun _ _ => True).
Proof.
  intros t n ps y b UT N P Y PB p sc st W C. unfold both in N. apply andb_true_iff in N. destruct N as [N1 N2]. cbn [visit]. apply k_first; [exact W|]. cbv zeta. rewrite generics_nil.
  apply k_generics; auto. intros st1 gi E1 W1 C1 U1 C1'. lift E1. clear C1. cbn [p_cur p_ty p_fn top] in *. cbn [get_type].
  apply k_assoc, k_type_sym; auto. intros j x tt0 X NE ST T. apply k_assoc. unfold construct_ty. eapply k_sym; [exact X|]. apply k_assoc. eapply k_must; [exact ST|]. apply k_retb.
  assert (NV : match tt0 with CVec _ => False | _ => True end). { unfold sym_type in ST. destruct (s_kind x); try discriminate; injection ST as <-; exact I. }
  clear j x X NE ST. unfold type_name. apply k_gst. apply k_prop; auto. intros [o|] _; [apply k_err|]. apply k_decl. apply k_type_opt; auto. intros ty Tr. apply k_gcx. intros m.
  apply k_new_sym; [exact W1|cbn; auto|]. intros st2 E2 W2 X2 NE. lift E2. set (i := List.length (so_syms st1)) in *.
  assert (KI : kind_is st2 i (SMet tt0 ty [])) by (eexists; split; [exact X2|reflexivity]).
  assert (GI : gent st2 (lex_text n) i) by (split; [eexists; split; [exact X2|reflexivity]|exact NE]).
  assert (FI : fn_ok st2 i) by (split; [exact NE|eexists; split; [exact X2|exact I]]). clear X2.
  apply k_mark; [exact W2|auto|]. intros st3 E3 W3. lift E3. apply k_gcx. intros d. apply k_scope.
  eapply k_define; [exact W3|exact GI|exact N1|left; reflexivity|]. intros st4 E4 W4. lift E4. apply k_func_scope; auto. intros fsc fps st5 E5 W5 C5 LE U5 FP. lift E5. cbn [fst snd].
  apply k_upd; [exact W5| | |].
  { intros x X. cbn. split; [reflexivity|]. destruct KI as (x' & X' & KX). rewrite X in X'. injection X' as <-. symmetry. exact KX. }
  { intros x X _. cbn. auto. }
  intros st6 E6 W6. lift E6. apply k_new_var; auto. intros st7 av E7 W7 GA VA. lift E7. eapply k_define; [exact W7|exact GA|reflexivity|right; split; assumption|].
  intros st8 E8 W8. lift E8. apply k_params_nil. change (is_embutido []) with false. cbv iota. destruct (negb _ && negb _)%bool.
  { intros s1 S1 A1. exact I. }
  match goal with |- context [cbind (cbind (gcx cx_func) _) ?kk] => set (kb := kk) end.
  apply k_assoc. apply k_func. apply k_assoc, k_setfn. cbn [p_cur p_ty p_fn]. apply k_assoc. eapply k_bind.
  { apply (visit_ok F usa R V g t0 B ex b PB); [exact W8| |split; [exact LE|exact U5]]. destruct C1' as (D1 & D2 & D3). split; [exact D1|split; [exact D2|exact FI]]. }
  intros rb st9 E9 W9 _. lift E9. apply k_assoc, k_setfn, k_retb. unfold kb; clear kb. cbn [p_cur p_ty p_fn].
  apply k_method; auto.
  { destruct KI as (x & X & KX). destruct (kcl_met _ _ _ _ KX) as (a1 & a2 & a3 & KM). destruct GI as [(x' & X' & NX) _]. rewrite X in X'. injection X' as <-. split; [exact NE|]. eexists _, _, _, _. split; [exact X|split; [exact NX|exact KM]]. }
  intros st10 E10 W10. lift E10. eapply k_leave_ty; [exact U1|]. cbn [p_cur p_ty p_fn]. apply k_ret; auto.
Qed.

Lemma k_props : forall A fs c st (k : unit -> M A) c' Q, wf st -> (forall st1, ext st st1 -> wf st1 -> K c st1 (k tt) c' Q) ->
  K c st (cbind (mapc (fun e : text * nat => upd_sym (snd e) s_set_prop) fs) (fun _ => k tt)) c' Q.
Proof.
  intros A fs. induction fs as [|e fs IH]; intros c st k c' Q W HK; cbn [mapc].
  - apply k_retb. apply HK; auto. apply ext_refl.
  - apply k_assoc. apply k_mark; auto. intros st1 E1 W1. apply k_assoc. eapply IH with (k := k); auto. intros st2 E2 W2. apply HK; auto. eapply ext_trans; eauto.
Qed.
Lemma field_plain : forall f, plain_field V f = true -> plain f = true.
Proof. intros [] H; try discriminate. cbn in *. destruct init; [discriminate|]. rewrite andb_true_r. exact H. Qed.
Lemma reg_top : forall n fields ans, R = true -> both (lex_text n) = true -> forallb (plain_field V) fields = true ->
  forall p sc st, wf st -> cok st top -> K top st (visit F usa (XReg n [] fields ans) p sc false) (fun _ => top) (fun _ _ => True).
Proof.
  intros n fields ans RR N P p sc st W C. unfold both in N. apply andb_true_iff in N. destruct N as [N1 N2]. cbn [visit]. apply k_first; [exact W|]. cbv zeta. rewrite generics_nil.
  apply k_scope, k_gcx. intros d. apply k_new_scope; [exact W|apply (cur_scoped R V g t0 B ex st top); auto|]. intros st1 E1 W1 U1 LE. lift E1. set (rsc := List.length (so_scopes st)) in *.
  apply k_here. intros [o|]; [apply k_err|]. apply k_generics; auto. intros st2 gi E2 W2 C2 U2 C2'. lift E2. clear C2. cbn [p_cur p_ty p_fn top] in *. apply k_gcx. intros m.
  apply k_new_sym; [exact W2| |].
  { cbn. repeat split; auto. destruct U1 as (x & X & _). exists x. exact X. }
  intros st3 E3 W3 X3 NE. lift E3. set (i := List.length (so_syms st2)) in *.
  assert (GI : gent st3 (lex_text n) i) by (split; [eexists; split; [exact X3|reflexivity]|exact NE]). clear X3.
  eapply k_define; [exact W3|exact GI|exact N1|left; reflexivity|]. intros st4 E4 W4. lift E4. apply k_mcx; auto.
  apply k_enter; [exact W4|exact C2'|split; assumption|]. intros st5 i5 E5 W5 C5 L5 U5 C5'. lift E5. clear C5. cbn [p_cur p_ty p_fn] in *.
  apply k_mapc with (P := fun _ _ => True); auto.
  { intros f st9 If E9 W9 C9. eapply k_weak; [apply visit_ok; [apply field_plain; rewrite forallb_forall in P; auto|exact W9|exact C9|exact I]|auto]. }
  intros bs st6 E6 W6 C6 _ _. lift E6. apply k_gst. match goal with |- context [mapc (fun e => upd_sym (snd e) s_set_prop) ?z] => generalize z; intros fs end.
  match goal with |- PlainStep.K _ _ _ _ _ _ _ _ (cbind _ (fun _ => ?kk)) _ _ => apply (k_props _ fs _ _ (fun _ => kk)) end; [exact W6|]. intros st7 E7 W7. lift E7.
  eapply k_leave; [exact U5|]. cbn [p_cur p_ty p_fn]. eapply k_define; [exact W7|exact GI|exact N1|left; reflexivity|]. intros st8 E8 W8. lift E8.
  eapply k_leave_ty; [exact U2|]. cbn [p_cur p_ty p_fn]. apply k_mcx; auto. apply k_ret; auto.
Qed.

Lemma top_ok : forall x, plain_top R V x = true -> forall st, wf st -> cok st top -> K top st (visit F usa x PNone None false) (fun _ => top) (fun _ _ => True).
Proof.
  intros x P st W C. assert (D : plain x = true -> K top st (visit F usa x PNone None false) (fun _ => top) (fun _ _ => True)).
  { intros PX. eapply k_weak; [apply visit_ok; [exact PX|exact W|exact C|exact I]|auto]. }
  destruct x; try (apply D; exact P); cbn in P.
  - destruct ans; [|apply D; exact P]. destruct blk as [b|]; [|apply D; exact P]. destruct b; rewrite ?andb_false_r in P; try discriminate P. rewrite !andb_true_iff in P. destruct P as [[[[P1 P2] P3] P4] P5].
    apply negb_true_iff in P1. subst. apply func_top; auto.
  - destruct gparams; [|apply D; exact P]. destruct target as [t gargs q| |]; try (apply D; exact P). destruct gargs; [apply D; exact P|]. destruct q; [apply D; exact P|]. destruct ans; [|apply D; exact P].
    destruct x; rewrite ?andb_false_r in P; try discriminate P. rewrite !andb_true_iff in P. destruct P as [[[[P1 P2] P3] P4] P5]. apply met_top; auto.
  - destruct gparams; [|apply D; exact P]. rewrite !andb_true_iff in P. destruct P as [[P1 P2] P3]. apply reg_top; auto.
Qed.

Theorem all_ok : forall l, forallb (plain_top R V) l = true -> forall st, wf st -> cok st top -> K top st (visit_all F usa l) (fun _ => top) (fun _ _ => True).
Proof.
  intros l P st W C. unfold visit_all. eapply k_weak with (Q := fun _ _ => True); [|auto].
  assert (G : forall A (m : M A) c s (c' : A -> pc) Q, K c s (cbind m cret) c' Q -> K c s m c' Q).
  { intros A m c s c' Q H s1 E1 A1. specialize (H s1 E1 A1). unfold cbind, cret in H. destruct (m s1); auto. }
  apply G. apply k_mapc with (P := fun _ _ => True); auto.
  - intros a st1 Ia E1 W1 C1. eapply k_bind; [apply top_ok; [rewrite forallb_forall in P; auto|exact W1|exact C1]|]. intros r st2 E2 W2 _. apply k_ret; auto.
  - intros bs st1 E1 W1 C1 _ _. apply k_ret; auto.
Qed.
End Top.
