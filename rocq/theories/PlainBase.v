(** Lemmas for C43: what the tables hold while a plain text is analysed, and
    computations of the analyser that end without an exception. *)
From Verif Require Import Base BaseFacts Bson Value Types Syntax Sym Check Spec_Plain.
From Coq Require Import Lia.
Local Open Scope chk_scope.

Lemma nth_upd : forall {A} (l : list A) k f i, nth_error (upd l k f) i = (if Nat.eqb i k then option_map f (nth_error l i) else nth_error l i).
Proof.
  induction l as [|a l IH]; intros k f [|i]; destruct k; cbn; try reflexivity; [destruct (Nat.eqb i k); reflexivity|apply IH].
Qed.
Lemma len_upd : forall {A} (l : list A) k f, List.length (upd l k f) = List.length l.
Proof. induction l as [|a l IH]; intros [|k] f; cbn; auto. Qed.
Lemma nth_snoc : forall {A} (l : list A) a i x, nth_error (l ++ [a]) i = Some x -> nth_error l i = Some x \/ (i = List.length l /\ x = a).
Proof.
  induction l as [|b l IH]; intros a [|i] x H; cbn in *; try (injection H as <-; auto); [destruct i; discriminate|].
  destruct (IH _ _ _ H) as [G|[-> ->]]; auto.
Qed.
Lemma nth_snoc_l : forall {A} (l : list A) a i x, nth_error l i = Some x -> nth_error (l ++ [a]) i = Some x.
Proof. intros. rewrite nth_error_app1; auto. apply nth_error_Some. congruence. Qed.
Lemma nth_snoc_r : forall {A} (l : list A) a, nth_error (l ++ [a]) (List.length l) = Some a.
Proof. intros. rewrite nth_error_app2, Nat.sub_diag; auto. Qed.
Lemma assoc_in : forall {A} (l : list (text * A)) n a, assoc n l = Some a -> In (n, a) l.
Proof.
  induction l as [|[m b] l IH]; intros n a H; cbn in H; [discriminate|]. destruct (text_eqb n m) eqn:E; [|right; auto].
  injection H as ->. apply text_eqb_eq in E. subst. left; auto.
Qed.
Lemma in_set : forall {A} (l : list (text * A)) n a e, In e (assoc_set l n a) -> e = (n, a) \/ In e l.
Proof.
  induction l as [|[m b] l IH]; intros n a e H; cbn in H; [destruct H; auto|]. destruct (text_eqb n m) eqn:E.
  - apply text_eqb_eq in E. subst. destruct H as [<-|H]; cbn; auto.
  - destruct H as [<-|H]; cbn; auto. destruct (IH _ _ _ H); auto.
Qed.
Lemma set_same : forall {A} (l : list (text * A)) n a, assoc n (assoc_set l n a) = Some a.
Proof. induction l as [|[m b] l IH]; intros n a; cbn; [rewrite text_eqb_refl; auto|]. destruct (text_eqb n m) eqn:E; cbn; [rewrite text_eqb_refl; auto|rewrite E; auto]. Qed.
Lemma set_other : forall {A} (l : list (text * A)) n a m, text_eqb m n = false -> assoc m (assoc_set l n a) = assoc m l.
Proof.
  induction l as [|[k b] l IH]; intros n a m H; cbn; [rewrite H; auto|]. destruct (text_eqb n k) eqn:E; cbn.
  - apply text_eqb_eq in E. subst. rewrite H. auto.
  - destruct (text_eqb m k); auto.
Qed.

Section Inv.
(** [g], [t0]: the outermost scope and the outermost scope of type names; [B]: the
    first scope of the text; [ex]: symbols of the library outside the fragment. *)
Variables (R V : bool) (g t0 B : nat) (ex : list nat).

Definition kcl (k : skind) : skind :=
  match k with
  | SFun _ _ => SFun (CPrim TInt) []
  | SMet _ _ _ => SMet (CPrim TInt) (CPrim TInt) []
  | SReg f _ _ => SReg f [] []
  | k => k
  end.
Record ext (a b : store) : Prop := mkExt {
  e_sym : forall i x, nth_error (so_syms a) i = Some x -> exists y, nth_error (so_syms b) i = Some y /\ s_name y = s_name x /\ kcl (s_kind y) = kcl (s_kind x);
  e_sc : forall k x, nth_error (so_scopes a) k = Some x -> exists y, nth_error (so_scopes b) k = Some y /\ sc_up y = sc_up x
}.
Lemma ext_refl : forall a, ext a a.
Proof. intros a. constructor; eauto. Qed.
Lemma ext_trans : forall a b c, ext a b -> ext b c -> ext a c.
Proof.
  intros a b c [A1 A2] [B1 B2]. constructor.
  - intros i x H. destruct (A1 _ _ H) as (y & Y & N & K). destruct (B1 _ _ Y) as (z & Z & N2 & K2). exists z. repeat split; congruence.
  - intros i x H. destruct (A2 _ _ H) as (y & Y & N). destruct (B2 _ _ Y) as (z & Z & N2). exists z. repeat split; congruence.
Qed.

(** ** Facts that last *)
Fixpoint ty_ok (st : store) (t : cty) : Prop :=
  match t with
  | CPrim _ => True
  | CVec e => V = true /\ ty_ok st e
  | CReg i => R = true /\ ~ In i ex /\ exists x f ms tp, nth_error (so_syms st) i = Some x /\ s_kind x = SReg f ms tp
  | _ => False
  end.
Definition var_ok (st : store) (i : nat) : Prop := ~ In i ex /\ exists x t, nth_error (so_syms st) i = Some x /\ s_kind x = SVar t.
Definition met_ok (st : store) (n : text) (i : nat) : Prop :=
  ~ In i ex /\ exists x tg r ps, nth_error (so_syms st) i = Some x /\ s_name x = n /\ s_kind x = SMet tg r ps.
Definition fn_ok (st : store) (i : nat) : Prop :=
  ~ In i ex /\ exists x, nth_error (so_syms st) i = Some x /\ match s_kind x with SFun _ _ | SMet _ _ _ => True | _ => False end.
Definition named (st : store) (n : text) (i : nat) : Prop := exists x, nth_error (so_syms st) i = Some x /\ s_name x = n.
Definition scoped (st : store) (k : nat) : Prop := exists x, nth_error (so_scopes st) k = Some x.
Definition up_is (st : store) (k u : nat) : Prop := exists x, nth_error (so_scopes st) k = Some x /\ sc_up x = Some u.
Inductive under (st : store) (r : nat) : nat -> Prop :=
| un_top : under st r r
| un_in k u : (B <= k)%nat -> up_is st k u -> under st r u -> under st r k.

Lemma kcl_var : forall k t, kcl k = SVar t -> k = SVar t.
Proof. intros k t H. destruct k; cbn in H; congruence. Qed.
Lemma kcl_met : forall k a r ps, kcl k = kcl (SMet a r ps) -> exists a' r' ps', k = SMet a' r' ps'.
Proof. intros k a r ps H. destruct k; cbn in H; try discriminate. eauto. Qed.
Lemma kcl_reg : forall k f ms tp, kcl k = kcl (SReg f ms tp) -> exists ms' tp', k = SReg f ms' tp'.
Proof. intros k f ms tp H. destruct k; cbn in H; try discriminate. injection H as ->. eauto. Qed.

Lemma ty_ok_ext : forall a b t, ext a b -> ty_ok a t -> ty_ok b t.
Proof.
  intros a b t E. induction t; cbn; auto; [tauto|]. intros (RR & N & x & f & ms & tp & H & K). split; [exact RR|split; [exact N|]].
  destruct (e_sym _ _ E _ _ H) as (y & Y & _ & K2). rewrite K in K2. destruct (kcl_reg _ _ _ _ K2) as (ms' & tp' & K3). eauto 8.
Qed.
Lemma var_ok_ext : forall a b i, ext a b -> var_ok a i -> var_ok b i.
Proof.
  intros a b i E (N & x & t & H & K). split; [exact N|]. destruct (e_sym _ _ E _ _ H) as (y & Y & _ & K2). rewrite K in K2.
  exists y, t. split; [exact Y|]. apply kcl_var. exact K2.
Qed.
Lemma met_ok_ext : forall a b n i, ext a b -> met_ok a n i -> met_ok b n i.
Proof.
  intros a b n i E (N & x & tg & r & ps & H & M & K). split; [exact N|]. destruct (e_sym _ _ E _ _ H) as (y & Y & N2 & K2). rewrite K in K2.
  destruct (kcl_met _ _ _ _ K2) as (tg' & r' & ps' & K3). exists y, tg', r', ps'. repeat split; auto. congruence.
Qed.
Lemma fn_ok_ext : forall a b i, ext a b -> fn_ok a i -> fn_ok b i.
Proof.
  intros a b i E (N & x & H & K). split; [exact N|]. destruct (e_sym _ _ E _ _ H) as (y & Y & _ & K2). exists y. split; [exact Y|].
  destruct (s_kind x), (s_kind y); cbn in K2; try discriminate; auto.
Qed.
Lemma named_ext : forall a b n i, ext a b -> named a n i -> named b n i.
Proof. intros a b n i E (x & H & K). destruct (e_sym _ _ E _ _ H) as (y & Y & N & _). exists y. split; [exact Y|congruence]. Qed.
Lemma scoped_ext : forall a b k, ext a b -> scoped a k -> scoped b k.
Proof. intros a b k E (x & H). destruct (e_sc _ _ E _ _ H) as (y & Y & _). exists y. exact Y. Qed.
Lemma up_is_ext : forall a b k u, ext a b -> up_is a k u -> up_is b k u.
Proof. intros a b k u E (x & H & K). destruct (e_sc _ _ E _ _ H) as (y & Y & N). exists y. split; [exact Y|congruence]. Qed.
Lemma under_ext : forall a b r k, ext a b -> under a r k -> under b r k.
Proof. intros a b r k E H. induction H; [constructor|]. econstructor; eauto. eapply up_is_ext; eauto. Qed.

(** ** The tables *)
Definition sym_ok (st : store) (x : symbol) : Prop :=
  match s_kind x with
  | SVar t => ty_ok st t
  | SFun r ps => ty_ok st r /\ Forall (fun p => var_ok st (snd p)) ps
  | SMet tg r ps => ty_ok st tg /\ ty_ok st r /\ Forall (fun p => var_ok st (snd p)) ps
  | SReg f ms _ => R = true /\ (B <= f)%nat /\ scoped st f /\ Forall (fun e => met_ok st (fst e) (snd e)) ms
  | SPrim _ => True
  | _ => False
  end.
Definition loc_ok (st : store) (e : text * nat) : Prop := var_ok st (snd e) /\ named st (fst e) (snd e) /\ free_name (fst e) = true.
Definition prim_sym (st : store) (i : nat) : Prop := ~ In i ex /\ exists x p, nth_error (so_syms st) i = Some x /\ s_kind x = SPrim p.
Record wf (st : store) : Prop := mkWf {
  w_sym : forall i x, nth_error (so_syms st) i = Some x -> ~ In i ex -> sym_ok st x;
  w_sc : forall k x, (B <= k)%nat -> nth_error (so_scopes st) k = Some x ->
    exists u, sc_up x = Some u /\ (u < k)%nat /\ Forall (loc_ok st) (sc_syms x);
  w_glob : exists x, nth_error (so_scopes st) g = Some x /\ sc_up x = None
    /\ (forall n i, assoc n (sc_syms x) = Some i -> named st n i /\ (used_name n = true -> ~ In i ex))
    /\ (forall n, free_name n = false -> exists i, assoc n (sc_syms x) = Some i /\ prim_sym st i);
  w_ty : exists x, nth_error (so_scopes st) t0 = Some x /\ sc_up x = None /\ sc_syms x = [];
  w_pr : forall p l, In (p, l) (so_prims st) -> Forall (fun e => met_ok st (fst e) (snd e)) l;
  w_B : (B <= List.length (so_scopes st))%nat /\ (g < B)%nat /\ (t0 < B)%nat;
  w_ex : forall i, In i ex -> (i < List.length (so_syms st))%nat
}.

Lemma prim_sym_ext : forall a b i, ext a b -> prim_sym a i -> prim_sym b i.
Proof.
  intros a b i E (N & x & p & H & K). split; [exact N|]. destruct (e_sym _ _ E _ _ H) as (y & Y & _ & K2). rewrite K in K2.
  exists y, p. split; [exact Y|]. destruct (s_kind y); cbn in K2; congruence.
Qed.
Lemma loc_ok_ext : forall a b e, ext a b -> loc_ok a e -> loc_ok b e.
Proof. intros a b e E (A & C & D). split; [eapply var_ok_ext; eauto|split; [eapply named_ext; eauto|exact D]]. Qed.
Lemma forall_ext : forall (P : store -> text * nat -> Prop) a b l, (forall e, P a e -> P b e) -> Forall (P a) l -> Forall (P b) l.
Proof. intros P a b l H. apply Forall_impl. exact H. Qed.
Lemma sym_ok_ext : forall a b x, ext a b -> sym_ok a x -> sym_ok b x.
Proof.
  intros a b x E. unfold sym_ok. destruct (s_kind x); auto.
  - apply ty_ok_ext; auto.
  - intros [H1 H2]. split; [eapply ty_ok_ext; eauto|]. eapply Forall_impl; [|exact H2]. intros; eapply var_ok_ext; eauto.
  - intros (H1 & H0 & H2). split; [eapply ty_ok_ext; eauto|split; [eapply ty_ok_ext; eauto|]]. eapply Forall_impl; [|exact H2]. intros; eapply var_ok_ext; eauto.
  - intros (H1 & H2 & H3 & H4). repeat split; auto; [eapply scoped_ext; eauto|]. eapply Forall_impl; [|exact H4]. intros; eapply met_ok_ext; eauto.
Qed.

(** ** Names *)
Definition ent (st : store) (n : text) (i : nat) : Prop := named st n i /\ (used_name n = true -> ~ In i ex).
Lemma resolve_ent : forall st r k, wf st -> (r = g \/ r = t0) -> under st r k -> forall fuel n i, resolve_in fuel st k n = Some i -> ent st n i.
Proof.
  intros st r k W RR U. induction U as [|k u LE (x & X & UP) U IH]; intros [|fuel] n i H; cbn in H; try discriminate.
  - destruct RR as [->| ->].
    + destruct (w_glob _ W) as (x & X & UP & A & _). rewrite X, UP in H. destruct (assoc n (sc_syms x)) eqn:E; [|discriminate]. injection H as <-. exact (A _ _ E).
    + destruct (w_ty _ W) as (x & X & UP & A). rewrite X, UP, A in H. discriminate.
  - rewrite X in H. destruct (assoc n (sc_syms x)) eqn:E.
    + injection H as <-. destruct (w_sc _ W _ _ LE X) as (u' & _ & _ & F). rewrite Forall_forall in F. destruct (F _ (assoc_in _ _ _ E)) as ((N & _) & D & _). split; auto.
    + rewrite UP in H. eauto.
Qed.
Lemma resolve_needed : forall st k, wf st -> under st g k -> forall fuel n, (k < fuel)%nat -> free_name n = false -> exists i, resolve_in fuel st k n = Some i /\ prim_sym st i.
Proof.
  intros st k W U. induction U as [|k u LE (x & X & UP) U IH]; intros [|fuel] n LT F; try lia; cbn.
  - destruct (w_glob _ W) as (x & X & UP & _ & A). rewrite X. destruct (A _ F) as (i & I & P). rewrite I. eauto.
  - rewrite X. destruct (w_sc _ W _ _ LE X) as (u' & UP' & LTu & FA). rewrite UP in UP'. injection UP' as <-. destruct (assoc n (sc_syms x)) eqn:E.
    + rewrite Forall_forall in FA. destruct (FA _ (assoc_in _ _ _ E)) as (_ & _ & D). cbn in D. congruence.
    + rewrite UP. apply IH; [lia|exact F].
Qed.
Lemma under_lt : forall st k, wf st -> under st g k -> (k < List.length (so_scopes st))%nat.
Proof.
  intros st k W U. destruct U as [|k u LE (x & X & UP) U]; [|apply nth_error_Some; congruence].
  destruct (w_B _ W) as (A & C & _). lia.
Qed.

Lemma glob_ext : forall a b y, ext a b ->
  ((forall n i, assoc n (sc_syms y) = Some i -> named a n i /\ (used_name n = true -> ~ In i ex))
    /\ (forall n, free_name n = false -> exists i, assoc n (sc_syms y) = Some i /\ prim_sym a i)) ->
  ((forall n i, assoc n (sc_syms y) = Some i -> named b n i /\ (used_name n = true -> ~ In i ex))
    /\ (forall n, free_name n = false -> exists i, assoc n (sc_syms y) = Some i /\ prim_sym b i)).
Proof.
  intros a b y E [A C]. split.
  - intros n i H. destruct (A _ _ H) as [G D]. split; [eapply named_ext; eauto|exact D].
  - intros n F. destruct (C _ F) as (i & I & P). exists i. split; [exact I|eapply prim_sym_ext; eauto].
Qed.

(** ** Changes *)
Lemma ext_sym : forall st x, ext st (with_syms st (so_syms st ++ [x])).
Proof. intros st x. constructor; cbn; [|eauto]. intros i y H. exists y. split; [apply nth_snoc_l; exact H|auto]. Qed.
Lemma wf_sym : forall st x, wf st -> sym_ok (with_syms st (so_syms st ++ [x])) x -> wf (with_syms st (so_syms st ++ [x])).
Proof.
  intros st x W OK. pose proof (ext_sym st x) as E. constructor; cbn.
  - intros i y H N. destruct (nth_snoc _ _ _ _ H) as [G|[-> ->]]; [|exact OK]. eapply sym_ok_ext; [exact E|]. eapply w_sym; eauto.
  - intros k y LE H. destruct (w_sc _ W _ _ LE H) as (u & U & L & F). exists u. split; [exact U|split; [exact L|]]. eapply Forall_impl; [|exact F]. intros; eapply loc_ok_ext; eauto.
  - destruct (w_glob _ W) as (y & Y & UP & A & C). exists y. split; [exact Y|split; [exact UP|eapply glob_ext; eauto]].
  - exact (w_ty _ W).
  - intros p l H. eapply Forall_impl; [|exact (w_pr _ W _ _ H)]. intros; eapply met_ok_ext; eauto.
  - exact (w_B _ W).
  - intros i H. rewrite app_length. pose proof (w_ex _ W _ H). cbn. lia.
Qed.
Lemma ext_scope : forall st o, ext st (with_scopes st (so_scopes st ++ [mkScope [] o])).
Proof. intros st x. constructor; cbn; [eauto|]. intros i y H. exists y. split; [apply nth_snoc_l; exact H|auto]. Qed.
Lemma wf_scope : forall st u, wf st -> scoped st u -> wf (with_scopes st (so_scopes st ++ [mkScope [] (Some u)])).
Proof.
  intros st v W SV. pose proof (ext_scope st (Some v)) as E. constructor; cbn.
  - intros i y H N. eapply sym_ok_ext; [exact E|]. eapply w_sym; eauto.
  - intros k y LE H. destruct (nth_snoc _ _ _ _ H) as [G|[-> ->]].
    + destruct (w_sc _ W _ _ LE G) as (u & U & L & F). exists u. split; [exact U|split; [exact L|]]. eapply Forall_impl; [|exact F]. intros; eapply loc_ok_ext; eauto.
    + exists v. cbn. repeat split; auto. destruct SV as (z & Z). apply nth_error_Some. congruence.
  - destruct (w_glob _ W) as (y & Y & UP & A & C). exists y. split; [apply nth_snoc_l; exact Y|split; [exact UP|eapply glob_ext; eauto]].
  - destruct (w_ty _ W) as (y & Y & A). exists y. split; [apply nth_snoc_l; auto|auto].
  - intros p l H. eapply Forall_impl; [|exact (w_pr _ W _ _ H)]. intros; eapply met_ok_ext; eauto.
  - destruct (w_B _ W) as (A & C & D). rewrite app_length. cbn. lia.
  - exact (w_ex _ W).
Qed.
Lemma ext_upd : forall st k f, (forall x, nth_error (so_syms st) k = Some x -> s_name (f x) = s_name x /\ kcl (s_kind (f x)) = kcl (s_kind x)) -> ext st (with_syms st (upd (so_syms st) k f)).
Proof.
  intros st k f H. constructor; cbn; [|eauto]. intros i x X. rewrite nth_upd. destruct (Nat.eqb i k) eqn:E; [|eauto].
  apply Nat.eqb_eq in E. subst. rewrite X. cbn. exists (f x). destruct (H _ X). auto.
Qed.
Lemma wf_upd : forall st k f, wf st -> (forall x, nth_error (so_syms st) k = Some x -> s_name (f x) = s_name x /\ kcl (s_kind (f x)) = kcl (s_kind x)) ->
  (forall x, nth_error (so_syms st) k = Some x -> ~ In k ex -> sym_ok st (f x)) -> wf (with_syms st (upd (so_syms st) k f)).
Proof.
  intros st k f W H OK. pose proof (ext_upd st k f H) as E. constructor; cbn.
  - intros i y Y N. eapply sym_ok_ext; [exact E|]. rewrite nth_upd in Y. destruct (Nat.eqb i k) eqn:Q; [|eapply w_sym; eauto].
    apply Nat.eqb_eq in Q. subst. destruct (nth_error (so_syms st) k) eqn:Z; [|discriminate]. injection Y as <-. auto.
  - intros k' y LE Y. destruct (w_sc _ W _ _ LE Y) as (u & U & L & F). exists u. split; [exact U|split; [exact L|]]. eapply Forall_impl; [|exact F]. intros; eapply loc_ok_ext; eauto.
  - destruct (w_glob _ W) as (y & Y & UP & A & C). exists y. split; [exact Y|split; [exact UP|eapply glob_ext; eauto]].
  - exact (w_ty _ W).
  - intros p l Y. eapply Forall_impl; [|exact (w_pr _ W _ _ Y)]. intros; eapply met_ok_ext; eauto.
  - exact (w_B _ W).
  - intros i Y. rewrite len_upd. exact (w_ex _ W _ Y).
Qed.
Definition put (st : store) (sc : nat) (n : text) (i : nat) : store :=
  with_scopes st (upd (so_scopes st) sc (fun s => mkScope (assoc_set (sc_syms s) n i) (sc_up s))).
Lemma ext_put : forall st sc n i, ext st (put st sc n i).
Proof.
  intros. constructor; cbn; [eauto|]. intros k x X. rewrite nth_upd. destruct (Nat.eqb k sc); [|eauto]. rewrite X. cbn. eauto.
Qed.
Lemma wf_put : forall st sc n i, wf st -> free_name n = true -> named st n i -> ~ In i ex -> (sc = g \/ (B <= sc)%nat /\ var_ok st i) -> wf (put st sc n i).
Proof.
  intros st sc n i W FN NM NE SC. pose proof (ext_put st sc n i) as E. destruct (w_B _ W) as (B1 & B2 & B3). constructor; cbn.
  - intros j y Y N. eapply sym_ok_ext; [exact E|]. eapply w_sym; eauto.
  - intros k' y LE Y. rewrite nth_upd in Y. destruct (Nat.eqb k' sc) eqn:Q.
    + apply Nat.eqb_eq in Q. subst. destruct (nth_error (so_scopes st) sc) eqn:Z; [|discriminate]. injection Y as <-. cbn.
      destruct (w_sc _ W _ _ LE Z) as (u & U & L & F). exists u. repeat split; auto. rewrite Forall_forall in *. intros e H. apply loc_ok_ext with st; [exact E|].
      destruct (in_set _ _ _ _ H) as [->|G]; [|exact (F _ G)]. destruct SC as [->|[_ VO]]; [lia|]. split; [exact VO|split; [exact NM|exact FN]].
    + destruct (w_sc _ W _ _ LE Y) as (u & U & L & F). exists u. split; [exact U|split; [exact L|]]. eapply Forall_impl; [|exact F]. intros; eapply loc_ok_ext; eauto.
  - destruct (w_glob _ W) as (y & Y & UP & A & C). destruct (Nat.eqb g sc) eqn:Q.
    + apply Nat.eqb_eq in Q. subst sc. eexists. rewrite nth_upd, Nat.eqb_refl, Y. cbn. split; [reflexivity|split; [exact UP|split]].
      * cbn [sc_syms]. intros m j H. destruct (text_eqb m n) eqn:TE.
        { apply text_eqb_eq in TE. subst m. rewrite set_same in H. injection H as <-. split; auto. }
        { rewrite set_other in H by exact TE. exact (A _ _ H). }
      * cbn [sc_syms]. intros m F. destruct (C _ F) as (j & I & P). exists j. split; [|eapply prim_sym_ext; eauto].
        rewrite set_other; [exact I|]. destruct (text_eqb m n) eqn:TE; [|reflexivity]. apply text_eqb_eq in TE. congruence.
    + exists y. rewrite nth_upd, Q. split; [exact Y|split; [exact UP|eapply glob_ext; eauto]].
  - destruct (w_ty _ W) as (y & Y & UP & A). destruct (Nat.eqb t0 sc) eqn:Q; [|exists y; rewrite nth_upd, Q; auto].
    apply Nat.eqb_eq in Q. subst sc. destruct SC as [EQ|[LE _]]; [|lia]. exists y. exfalso.
    destruct (w_glob _ W) as (z & Z & _ & _ & C). rewrite <- EQ, Y in Z. injection Z as <-. destruct (C (txt "int") eq_refl) as (j & J & _). rewrite A in J. discriminate.
  - intros p l H. eapply Forall_impl; [|exact (w_pr _ W _ _ H)]. intros; eapply met_ok_ext; eauto.
  - rewrite len_upd. auto.
  - exact (w_ex _ W).
Qed.
Lemma ext_prims : forall st l, ext st (with_prims st l).
Proof. intros. constructor; cbn; eauto. Qed.
Lemma wf_prims : forall st l, wf st -> (forall p m, In (p, m) l -> Forall (fun e => met_ok st (fst e) (snd e)) m) -> wf (with_prims st l).
Proof.
  intros st l W H. pose proof (ext_prims st l) as E. destruct W as [W1 W2 W3 W4 W5 W6 W7]. constructor; cbn; auto.
  - intros i x X N. eapply sym_ok_ext; eauto.
Qed.
End Inv.
