(** From the items of a module to the whole program. *)
From Verif Require Import Base BaseFacts Dec Bson Value Ast Types Syntax Sym Exhaust Check Front Sem Spec_Types Spec_Typing Spec_Accept GenLocals ValueFacts AcceptBase AcceptTypes AcceptExpr AcceptFrame AcceptStep AcceptStm AcceptDecl AcceptTop.
Local Open Scope chk_scope.

(** ** [Transformer] leaves the fragment as it is *)
Lemma mapc_id {A} (f : A -> M A) s l : Forall (fun x => f x s = COk x s) l -> mapc f l s = COk l s.
Proof. intros FA. induction FA as [|x l E FA IH]; [reflexivity|]. cbn. unfold cbind at 1. rewrite E. unfold cbind. rewrite IH. reflexivity. Qed.

Lemma bind_ok {A B} {m : M A} {k : A -> M B} {s a s'} : m s = COk a s' -> (x <- m ;; k x) s = k a s'.
Proof. intros E. unfold cbind. rewrite E. reflexivity. Qed.
Definition arg_ok (st : store) (path : text) (ret : cty) (x : tx) : bool :=
  match x with TNamed _ _ e _ => safe st path ret e | TVar _ _ None _ _ => true | _ => safe st path ret x end.
Lemma safe_arg st path ret l : forallb (safe st path ret) l = true -> forallb (arg_ok st path ret) l = true.
Proof.
  rewrite !forallb_forall. intros H x I. specialize (H x I). destruct x; try exact H; [|discriminate H]. destruct s; [exact H|reflexivity].
Qed.
Lemma call_args st path ret ln i c l t p : safe st path ret (TCall ln i c l t p) = true -> forallb (arg_ok st path ret) l = true.
Proof.
  cbn [safe]. destruct c; try discriminate. destruct s; [discriminate|]. destruct pr; [discriminate|]. destruct (symbol_at st i) as [z|]; [|discriminate].
  destruct (s_kind z) as [| | | | |? ? tps| |]; try discriminate.
  - destruct (text_eqb _ _); [intros H; apply andb_prop in H as [H _]; apply safe_arg; exact H|]. destruct (builtin_fn _) as [fn|]; [|apply safe_arg].
    destruct (text_eqb fn _); [|intros H; apply andb_prop in H as [H _]; apply safe_arg; exact H].
    intros H. apply andb_prop in H as [H _]. destruct l as [|y l]; [discriminate H|]. destruct y; try discriminate H. destruct s; [discriminate H|]. destruct pr; [discriminate H|]. cbn. apply safe_arg. exact H.
  - destruct tps; [|discriminate]. intros H. rewrite !andb_true_iff in H. destruct H as [[_ H] _]. rewrite forallb_forall in H |- *. intros x I. specialize (H x I). destruct x; try discriminate H. exact H.
Qed.
Lemma trans_safe path s : forall x ret, safe (sst_st s) path ret x = true -> trans x s = COk x s.
Proof.
  fix IH 1. intros x ret SF.
  assert (CG : forall l i f args t p, (exists ln n t0, f = TVar ln n None t0 false) -> symbol_at (sst_st s) i <> None -> mapc trans args s = COk args s ->
    (f <- trans f ;; args <- mapc trans args ;; trans_call l i f args t p) s = COk (TCall l i f args t p) s).
  { intros l i f args t p (ln & n & t0 & ->) SY M. cbn [trans]. unfold cbind at 1. cbn [cret]. unfold cbind at 1. rewrite M. unfold trans_call. unfold cbind at 1.
    unfold sym_at, cbind at 1, gst. unfold symbol_at in SY. destruct (nth_error (so_syms (sst_st s)) i) as [z|]; [|congruence]. cbn. unfold cbind, gcx. destruct (_ && _); reflexivity. }
  assert (GG : forall ln a member t, trans a s = COk a s -> (exists i, tx_ty a = CReg i) -> (a <- trans a ;; trans_get ln a member t) s = COk (TGet ln a member t) s).
  { intros ln a member t E (i & TY). unfold cbind at 1. rewrite E. unfold trans_get. rewrite TY. reflexivity. }
  pose proof SF as SF0. destruct x; cbn [safe] in SF; try discriminate SF; try reflexivity; cbn [trans]; rewrite ?andb_true_iff in SF.
  - rewrite (bind_ok (IH _ _ (proj1 SF))). reflexivity.
  - rewrite (bind_ok (IH _ _ (proj2 (proj1 SF)))), (bind_ok (IH _ _ (proj1 (proj1 SF)))). reflexivity.
  - rename x into f. destruct f; try discriminate SF. destruct s1; [discriminate SF|]. destruct pr0; [discriminate SF|].
    destruct (symbol_at (sst_st s) s0) as [z|] eqn:SY; [|discriminate SF]. apply CG; [eauto|congruence|]. apply mapc_id.
    assert (AO : forallb (arg_ok (sst_st s) path ret) args = true) by (eapply call_args; exact SF0). clear - IH AO.
    induction args as [|y l IHl]; [constructor|]. cbn [forallb] in AO. apply andb_prop in AO as [A1 A2]. constructor; [|exact (IHl A2)].
    pose proof (IH y) as IHy. destruct y; try exact (IHy ret A1).
    + reflexivity.
    + cbn [arg_ok] in A1. cbn [trans]. rewrite (bind_ok (IH _ _ A1)). reflexivity.
  - rewrite (bind_ok (IH _ _ (proj1 (proj1 SF)))). reflexivity.
  - rewrite (bind_ok (IH _ _ (proj1 SF))), (bind_ok (IH _ _ (proj2 SF))). reflexivity.
  - destruct x1; try discriminate SF. rewrite ?andb_true_iff in SF. destruct SF as [[[S1 S2] S3] _]. cbn [trans].
    erewrite bind_ok; [|rewrite (bind_ok (IH _ _ S1)), (bind_ok (IH _ _ S2)); reflexivity]. rewrite (bind_ok (IH _ _ S3)). reflexivity.
  - destruct SF as [[S1 S2] _]. apply GG; [exact (IH _ _ S1)|]. destruct (tx_ty x); try discriminate S2. eauto.
  - destruct x1; try discriminate SF. rewrite ?andb_true_iff in SF. destruct SF as [[[[[S1 S2] S3] S4] S5] S6]. cbn [trans].
    erewrite bind_ok; [|apply GG; [exact (IH _ _ S1)|destruct (tx_ty x1); try discriminate S2; eauto]]. rewrite (bind_ok (IH _ _ S4)). reflexivity.
  - erewrite bind_ok; [reflexivity|]. apply mapc_id. clear - IH SF. induction parts as [|y l IHl]; [constructor|]. cbn in SF. apply andb_prop in SF as [A1 A2]. constructor; [exact (IH _ _ A1)|exact (IHl A2)].
  - destruct t; try discriminate SF. rewrite ?andb_true_iff in SF. destruct SF as [[_ SF] _].
    erewrite bind_ok; [reflexivity|]. apply mapc_id. clear - IH SF. induction elems as [|y l IHl]; [constructor|]. cbn in SF. apply andb_prop in SF as [A1 A2]. constructor; [exact (IH _ _ A1)|exact (IHl A2)].
  - rewrite (bind_ok (IH _ _ (proj1 (proj1 SF)))). reflexivity.
  - destruct init as [e|]; [|reflexivity]. destruct e; try discriminate SF. rewrite ?andb_true_iff in SF. destruct SF as [[[_ S2] _] _]. cbn [trans].
    erewrite bind_ok; [reflexivity|]. rewrite (bind_ok (IH _ _ S2)). reflexivity.
  - rewrite (bind_ok (IH _ _ SF)). reflexivity.
  - destruct e as [e|]; [|reflexivity]. apply andb_prop in SF as [SF _]. rewrite (bind_ok (IH _ _ SF)). reflexivity.
  - destruct SF as [[[S1 S2] S3] S4]. rewrite (bind_ok (IH _ _ S1)), (bind_ok (IH _ _ S2)). erewrite bind_ok.
    + destruct el as [el|]; [|reflexivity]. erewrite bind_ok; [reflexivity|]. rewrite (bind_ok (IH _ _ S4)). reflexivity.
    + apply mapc_id. clear - IH S3. induction elifs as [|y l IHl]; [constructor|]. cbn in S3. apply andb_prop in S3 as [A1 A2]. constructor; [exact (IH _ _ A1)|exact (IHl A2)].
  - rewrite (bind_ok (IH _ _ (proj1 SF))), (bind_ok (IH _ _ (proj2 SF))). reflexivity.
  - rewrite (bind_ok (IH _ _ (proj1 SF))), (bind_ok (IH _ _ (proj2 SF))). reflexivity.
  - destruct SF as [[[[[S1 S2] S3] S4] _] _]. rewrite (bind_ok (IH _ _ S1)), (bind_ok (IH _ _ S2)). destruct inc as [e|].
    + erewrite bind_ok; [|rewrite (bind_ok (IH _ _ S3)); reflexivity]. rewrite (bind_ok (IH _ _ S4)). reflexivity.
    + erewrite bind_ok; [|reflexivity]. rewrite (bind_ok (IH _ _ S4)). reflexivity.
  - erewrite bind_ok; [reflexivity|]. apply mapc_id. clear - IH SF. induction ch as [|y l IHl]; [constructor|]. cbn in SF. apply andb_prop in SF as [A1 A2]. constructor; [exact (IH _ _ A1)|exact (IHl A2)].
  - destruct blk as [b|]; [|reflexivity]. destruct (symbol_at _ s0) as [z|]; [|discriminate SF]. destruct (s_kind z); try discriminate SF. rewrite ?andb_true_iff in SF.
    rewrite (bind_ok (IH _ _ (proj2 (proj1 SF)))). reflexivity.
Qed.

(** ** All items of the module *)
Section Items.
Variable F : front_env.
Variable usa : smode -> text -> M unit.
Variable gl tyc : nat.
Variable path lib : text.
Variable S : senv.
Variable stf : store.
Hypothesis own_names : forall n i x, scope_get stf gl n = Some i -> nth_error (so_syms stf) i = Some x -> s_mod x = path -> se_imp S None n = None.
Hypothesis lib_names : forall n i x, scope_get stf gl n = Some i -> nth_error (so_syms stf) i = Some x -> s_mod x = lib -> s_name x = n ->
  se_imp S None n = Some (0%N, n) /\ se_fun S (Some 0%N) n = None.
Hypothesis prim_names : forall i x p, nth_error (so_syms stf) i = Some x -> s_kind x = SPrim p -> s_name x = prim_name p.
Hypothesis order_nil : f_order F [] = [].
Notation OI := (OI gl tyc path).
Notation T := (T gl tyc path lib).

Lemma items_cons x l s body s' : visit_all F usa (x :: l) s = COk body s' ->
  exists t o s1 ts, visit F usa x PNone None false s = COk (t, o) s1 /\ visit_all F usa l s1 = COk ts s' /\ body = t :: ts.
Proof.
  intros H. unfold visit_all in H. cbn [mapc] in H. apply cbind_inv in H as (t & s1 & H1 & H). apply cbind_inv in H1 as ([t' o] & s2 & H1 & H2). apply cret_inv in H2 as [-> ->].
  apply cbind_inv in H as (ts & s3 & H2 & H). apply cret_inv in H as [-> ->]. exists t', o, s2, ts. auto.
Qed.
Lemma items_op l : forall s body s', forallb (fun x => is_t (core x)) l = true -> OI s -> visit_all F usa l s = COk body s' -> OI s' /\ more (sst_st s) (sst_st s').
Proof.
  induction l as [|x l IH]; intros s body s' C O V.
  - apply cret_inv in V as [_ ->]. split; [exact O|apply more_refl].
  - cbn [forallb] in C. apply andb_prop in C as [C1 C2]. apply items_cons in V as (t & o & s1 & ts & V1 & V2 & ->).
    destruct (item_op F usa gl tyc path lib S stf own_names lib_names prim_names order_nil x _ _ _ _ C1 O V1) as [O1 M1]. destruct (IH _ _ _ C2 O1 V2) as [O2 M2]. split; [exact O2|eapply more_trans; eassumption].
Qed.
Lemma items_ok ret l : forall g s body s', forallb (fun x => is_t (core x)) l = true -> T g s -> visit_all F usa l s = COk body s' -> more (sst_st s') stf ->
  forallb (safe stf path ret) body = true -> exists g', T g' s' /\
  forall nds cur, lseq (lower stf gl) body (Some gl) = LOk (nds, cur) -> Forall (funs_ok S) nds -> prog_ty S None (R gl stf) g nds g'.
Proof.
  induction l as [|x l IH]; intros g s body s' C TT V MF SF.
  - apply cret_inv in V as [-> ->]. exists g. split; [exact TT|]. intros nds cur L _. injection L as <- _. reflexivity.
  - cbn [forallb] in C. apply andb_prop in C as [C1 C2]. apply items_cons in V as (t & o & s1 & ts & V1 & V2 & ->). cbn [forallb] in SF. apply andb_prop in SF as [S1 S2].
    destruct (item_op F usa gl tyc path lib S stf own_names lib_names prim_names order_nil x _ _ _ _ C1 (t_oi _ _ _ _ _ _ TT) V1) as [O1 M1]. destruct (items_op _ _ _ _ C2 O1 V2) as [O2 M2].
    destruct (item_ok F usa gl tyc path lib S stf own_names lib_names prim_names order_nil x ret g s t o s1 C1 V1 TT S1 (more_trans _ _ _ M2 MF)) as (g1 & T1 & L1).
    destruct (IH g1 s1 ts s' C2 T1 V2 MF S2) as (g' & T2 & L2). exists g'. split; [exact T2|]. intros nds cur L FO. cbn [lseq] in L.
    destruct (lower stf gl t (Some gl)) as [[n1 c1]| |] eqn:LT; try discriminate L. cbn [lbind] in L. destruct (lseq (lower stf gl) ts c1) as [[n2 c2]| |] eqn:LS; try discriminate L.
    cbn [lbind] in L. injection L as <- _. inversion FO; subst. destruct (L1 _ _ eq_refl H1) as [-> TY]. exists g1. split; [exact TY|]. eapply L2; [exact LS|assumption].
Qed.
End Items.
