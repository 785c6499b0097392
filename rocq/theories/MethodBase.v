(** What every step of the analyser keeps about methods: the tables of methods of
    types hold methods of those types, and methods and functions are found in
    global scopes only. *)
From Verif Require Import Lexer Base Dec Bson Value VM Ast CodeGen Compile Types BaseFacts Syntax Parser Sym Exhaust Check Front AcceptBase AcceptFrame Spec_Method.
Local Open Scope chk_scope.

(** The part of a symbol's kind that never changes. *)
Definition kclass (k : skind) : skind :=
  match k with
  | SMet t _ _ => SMet t (CPrim TInt) []
  | SFun _ _ => SFun (CPrim TInt) []
  | SReg f _ _ => SReg f [] []
  | SUni _ _ _ => SUni [] [] []
  | _ => k
  end.
Definition global_kind (k : skind) : bool := match k with SMet _ _ _ | SFun _ _ => true | _ => false end.
Lemma kclass_idem k : kclass (kclass k) = kclass k. Proof. destruct k; reflexivity. Qed.
Lemma global_kclass k : global_kind (kclass k) = global_kind k. Proof. destruct k; reflexivity. Qed.

Definition has (i : nat) (k : skind) (st : store) : Prop := exists x, nth_error (so_syms st) i = Some x /\ kclass (s_kind x) = k.
Definition up_is (sc : nat) (o : option nat) (st : store) : Prop := exists c, nth_error (so_scopes st) sc = Some c /\ sc_up c = o.
Inductive chain (st : store) : nat -> nat -> Prop :=
| chain_root : forall sc, up_is sc None st -> chain st sc 0
| chain_up : forall sc u d, up_is sc (Some u) st -> chain st u d -> chain st sc (S d).

Definition keeps_sym (x x' : symbol) : Prop :=
  kclass (s_kind x') = kclass (s_kind x) /\ (s_prop x = true -> s_prop x' = true) /\
  (forall n, called x n -> called x' n).
Definition R (st st' : store) : Prop :=
  (forall i x, nth_error (so_syms st) i = Some x -> exists x', nth_error (so_syms st') i = Some x' /\ keeps_sym x x') /\
  (forall k c, nth_error (so_scopes st) k = Some c -> exists c', nth_error (so_scopes st') k = Some c' /\ sc_up c' = sc_up c).
Lemma keeps_refl x : keeps_sym x x. Proof. repeat split; auto. Qed.
Lemma R_refl st : R st st.
Proof. split; intros; eexists; split; eauto using keeps_refl. Qed.
Lemma R_trans a b c : R a b -> R b c -> R a c.
Proof.
  intros [A1 A2] [B1 B2]. split.
  - intros i x H. destruct (A1 _ _ H) as (y & Hy & K1 & K2 & K3). destruct (B1 _ _ Hy) as (z & Hz & L1 & L2 & L3). exists z. split; [exact Hz|]. repeat split; [congruence|auto|auto].
  - intros k d H. destruct (A2 _ _ H) as (y & Hy & E). destruct (B2 _ _ Hy) as (z & Hz & E2). exists z. split; congruence.
Qed.
Definition stable (P : store -> Prop) : Prop := forall st st', P st -> R st st' -> P st'.
Lemma st_true : stable (fun _ => True). Proof. intros ? ? ? ?. exact I. Qed.
Lemma st_and P Q : stable P -> stable Q -> stable (fun st => P st /\ Q st).
Proof. intros A B st st' [H1 H2] HR. split; eauto. Qed.
Lemma st_has i k : stable (has i k).
Proof. intros st st' (x & H & E) [HR _]. destruct (HR _ _ H) as (x' & H' & K & _). exists x'. split; congruence. Qed.
Lemma st_up sc o : stable (up_is sc o).
Proof. intros st st' (c & H & E) [_ HR]. destruct (HR _ _ H) as (c' & H' & K). exists c'. split; congruence. Qed.
Lemma st_chain sc d : stable (fun st => chain st sc d).
Proof.
  intros st st' H HR. induction H as [sc H|sc u d H _ IH].
  - apply chain_root. eapply st_up; eauto.
  - eapply chain_up; [eapply st_up; eauto|exact IH].
Qed.
Lemma st_forall {A} (P : A -> store -> Prop) l : (forall a, stable (P a)) -> stable (fun st => Forall (fun a => P a st) l).
Proof. intros H st st' HF HR. eapply Forall_impl; [|exact HF]. intros a Ha. exact (H a st st' Ha HR). Qed.
Lemma st_const (P : Prop) : stable (fun _ => P). Proof. intros ? ? H _. exact H. Qed.
Lemma st_method t m i : stable (fun st => method_of st t m i).
Proof.
  intros st st' (x & tg & r & ps & H & K & D & C & S) [HR _]. destruct (HR _ _ H) as (x' & H' & K1 & K2 & K3).
  rewrite K in K1. destruct (s_kind x') eqn:E; try discriminate K1. injection K1 as ->. exists x', tg. do 2 eexists. repeat split; eauto.
Qed.
Definition member_ok (t : cty) (m : text) (i : nat) (st : store) : Prop :=
  match declared_as t with
  | CMod _ => True
  | _ => match option_map s_kind (nth_error (so_syms st) i) with
         | Some (SMet _ _ _) => method_of st t m i
         | Some (SFun _ _) | None => False
         | Some _ => True
         end
  end.
Lemma st_member t m i : stable (member_ok t m i).
Proof.
  intros st st' H HR. unfold member_ok in *. destruct (declared_as t); try exact I.
  all: destruct (nth_error (so_syms st) i) as [x|] eqn:E; cbn [option_map] in H; [|contradiction].
  all: destruct (proj1 HR _ _ E) as (x' & E' & K1 & K2 & K3); rewrite E'; cbn [option_map].
  all: destruct (s_kind x) eqn:EK; cbn [kclass] in K1; destruct (s_kind x') eqn:EK'; try discriminate K1; try exact I; try contradiction.
  all: exact (st_method _ _ _ _ _ H HR).
Qed.
Lemma st_dispatched c : stable (fun st => dispatched st c).
Proof. destruct c as [[a m] i]. exact (st_member (tx_ty a) m i). Qed.
Definition calls_ok (x : tx) (st : store) : Prop := Forall (dispatched st) (member_calls x).
Lemma st_calls x : stable (calls_ok x).
Proof. intros st st' H HR. eapply Forall_impl; [|exact H]. intros c Hc. exact (st_dispatched _ _ _ Hc HR). Qed.

(** The invariant. *)
Definition table_ok (st : store) (t : cty) (l : list (text * nat)) : Prop := Forall (fun e => method_of st t (fst e) (snd e)) l.
Record good (st : store) : Prop := mkGood {
  g_reg : forall i x f ms tp, nth_error (so_syms st) i = Some x -> s_kind x = SReg f ms tp -> table_ok st (CReg i) ms /\ exists u, up_is f (Some u) st;
  g_uni : forall i x vs ms tp, nth_error (so_syms st) i = Some x -> s_kind x = SUni vs ms tp -> table_ok st (CUni i) ms;
  g_prim : forall p l, In (p, l) (so_prims st) -> table_ok st (CPrim p) l;
  g_scope : forall k c u n i, nth_error (so_scopes st) k = Some c -> sc_up c = Some u -> In (n, i) (sc_syms c) ->
            exists x, nth_error (so_syms st) i = Some x /\ global_kind (s_kind x) = false }.
Lemma st_table t l : stable (fun st => table_ok st t l).
Proof. intros st st' H HR. eapply Forall_impl; [|exact H]. intros e He. exact (st_method _ _ _ _ _ He HR). Qed.

Definition ctx := (nat * nat * nat)%type.
Definition cxis (c : ctx) (s : sst) : Prop :=
  cx_scope (sst_cx s) = fst (fst c) /\ cx_depth (sst_cx s) = snd (fst c) /\ cx_global (sst_cx s) = snd c.
Definition okc (c : ctx) (st : store) : Prop := chain st (fst (fst c)) (snd (fst c)) /\ up_is (snd c) None st.
Lemma st_okc c : stable (okc c). Proof. apply st_and; [apply st_chain|apply st_up]. Qed.

(** [m], started in the context [c] in a state with [P], ends in the context
    [c'] in one with [Q]. *)
Definition tri {A} (c : ctx) (c' : A -> ctx) (P : store -> Prop) (m : M A) (Q : A -> store -> Prop) : Prop :=
  forall s, good (sst_st s) -> okc c (sst_st s) -> cxis c s -> P (sst_st s) ->
  match m s with
  | COk a s' => good (sst_st s') /\ R (sst_st s) (sst_st s') /\ okc (c' a) (sst_st s') /\ cxis (c' a) s' /\ Q a (sst_st s')
  | _ => True
  end.
Lemma tri_bind {A B} c c1 c2 P (m : M A) Q1 (f : A -> M B) Q :
  stable P -> tri c c1 P m Q1 -> (forall a, tri (c1 a) c2 (fun st => P st /\ Q1 a st) (f a) Q) -> tri c c2 P (cbind m f) Q.
Proof.
  intros HS Hm Hf s G O C HP. unfold cbind. specialize (Hm s G O C HP). destruct (m s) as [a s1|? ?| |]; auto.
  destruct Hm as (G1 & R1 & O1 & C1 & Q1'). specialize (Hf a s1 G1 O1 C1 (conj (HS _ _ HP R1) Q1')).
  destruct (f a s1); auto. destruct Hf as (G2 & R2 & H). split; [exact G2|]. split; [eapply R_trans; eauto|exact H].
Qed.
Lemma tri_weaken {A} c c' (P P' : store -> Prop) (m : M A) (Q Q' : A -> store -> Prop) :
  tri c c' P' m Q' -> (forall st, P st -> P' st) -> (forall a st, Q' a st -> Q a st) -> tri c c' P m Q.
Proof. intros H HP HQ s G O C Hs. specialize (H s G O C (HP _ Hs)). destruct (m s); auto. destruct H as (A1 & A2 & A3 & A4 & A5). auto 10. Qed.
Definition keep {A} (c : ctx) (P : store -> Prop) (m : M A) (Q : A -> store -> Prop) : Prop := tri c (fun _ => c) P m Q.
Definition fine {A} (m : M A) : Prop := forall c, keep c (fun _ => True) m (fun _ _ => True).

Lemma k_bind {A B} c (P : store -> Prop) (m : M A) Q1 (f : A -> M B) Q :
  stable P -> keep c P m Q1 -> (forall a, keep c (fun st => P st /\ Q1 a st) (f a) Q) -> keep c P (cbind m f) Q.
Proof. unfold keep. intros. eapply tri_bind; eauto. Qed.
(** A step nothing is remembered of. *)
Lemma k_skip {A B} c (P : store -> Prop) (m : M A) (f : A -> M B) Q : stable P -> fine m -> (forall a, keep c P (f a) Q) -> keep c P (cbind m f) Q.
Proof.
  intros HS Hm Hf. apply (k_bind c P m (fun _ _ => True)); [exact HS| |].
  - eapply tri_weaken; [apply Hm|cbv beta; auto|cbv beta; auto].
  - intros a. eapply tri_weaken; [apply Hf|intros st [H _]; exact H|cbv beta; auto].
Qed.
Lemma k_fine {A} c (P : store -> Prop) (m : M A) : fine m -> keep c P m (fun _ _ => True).
Proof. intros H. eapply tri_weaken; [apply H|cbv beta; auto|cbv beta; auto]. Qed.
Lemma k_ret {A} c (P : store -> Prop) (a : A) (Q : A -> store -> Prop) : (forall st, P st -> Q a st) -> keep c P (cret a) Q.
Proof. intros H s G O C HP. cbn. split; [exact G|]. split; [apply R_refl|]. split; [exact O|]. split; [exact C|auto]. Qed.
Lemma k_crash {A} c (P : store -> Prop) Q : keep c P (@crash A) Q. Proof. intros s ? ? ? ?. exact I. Qed.
Lemma k_ccerr {A} c (P : store -> Prop) Q : keep c P (@ccerr A) Q. Proof. intros s ? ? ? ?. exact I. Qed.
Lemma k_cerr_at {A} l c (P : store -> Prop) Q : keep c P (@cerr_at A l) Q. Proof. intros s ? ? ? ?. exact I. Qed.
(** Reading. *)
Lemma k_gst {A} c (P : store -> Prop) (f : store -> A) (Q : A -> store -> Prop) : (forall st, good st -> okc c st -> P st -> Q (f st) st) -> keep c P (gst f) Q.
Proof. intros H s G O C HP. cbn. split; [exact G|]. split; [apply R_refl|]. split; [exact O|]. split; [exact C|auto]. Qed.
Lemma k_gcx {A} c (P : store -> Prop) (f : actx -> A) (Q : A -> store -> Prop) : (forall s, good (sst_st s) -> okc c (sst_st s) -> cxis c s -> P (sst_st s) -> Q (f (sst_cx s)) (sst_st s)) -> keep c P (gcx f) Q.
Proof. intros H s G O C HP. cbn. split; [exact G|]. split; [apply R_refl|]. split; [exact O|]. split; [exact C|auto]. Qed.
Lemma f_gst {A} (f : store -> A) : fine (gst f). Proof. intros c. apply k_gst. auto. Qed.
Lemma f_gcx {A} (f : actx -> A) : fine (gcx f). Proof. intros c. apply k_gcx. auto. Qed.
Lemma f_ret {A} (a : A) : fine (cret a). Proof. intros c. apply k_ret. auto. Qed.
Lemma f_crash {A} : fine (@crash A). Proof. intros c. apply k_crash. Qed.
Lemma f_ccerr {A} : fine (@ccerr A). Proof. intros c. apply k_ccerr. Qed.
Lemma f_cerr_at {A} l : fine (@cerr_at A l). Proof. intros c. apply k_cerr_at. Qed.
Lemma f_must {A} (o : option A) : fine (must o). Proof. destruct o; [apply f_ret|apply f_crash]. Qed.
Lemma f_py {A} (o : pyres A) : fine (py o). Proof. destruct o; [apply f_ret|apply f_crash]. Qed.
Lemma f_bind {A B} (m : M A) (f : A -> M B) : fine m -> (forall a, fine (f a)) -> fine (cbind m f).
Proof. intros Hm Hf c. apply k_skip; [apply st_true|exact Hm|intros a; apply Hf]. Qed.
Lemma f_mapc {A B} (f : A -> M B) l : (forall a, In a l -> fine (f a)) -> fine (mapc f l).
Proof.
  induction l as [|a l IH]; intros H; cbn [mapc]; [apply f_ret|]. apply f_bind; [apply H; left; reflexivity|]. intros b.
  apply f_bind; [apply IH; intros x Hx; apply H; right; exact Hx|]. intros. apply f_ret.
Qed.
Lemma k_mapc {A B} c (P : store -> Prop) (f : A -> M B) l (Q : B -> store -> Prop) :
  stable P -> (forall b, stable (Q b)) -> (forall a, In a l -> keep c P (f a) Q) -> keep c P (mapc f l) (fun bs st => Forall (fun b => Q b st) bs).
Proof.
  intros HP HQ. induction l as [|a l IH]; intros H; cbn [mapc]; [apply k_ret; constructor|].
  eapply k_bind; [exact HP|apply H; left; reflexivity|]. intros b.
  eapply k_bind; [apply st_and; [exact HP|apply HQ]| |].
  - eapply tri_weaken; [apply IH; intros x Hx; apply H; right; exact Hx|intros st [A1 _]; exact A1|intros bs st A2; exact A2].
  - intros bs. apply k_ret. intros st [[_ A1] A2]. constructor; assumption.
Qed.
Lemma k_must_bind {A B} c (P : store -> Prop) (o : option A) (k : A -> M B) Q : (forall a, o = Some a -> keep c P (k a) Q) -> keep c P (cbind (must o) k) Q.
Proof. destruct o as [a|]; intros H; [exact (H a eq_refl) | intros s ? ? ? ?; exact I]. Qed.

(** Changes of the context other than the scopes. *)
Lemma f_mcx g : (forall x, cx_scope (g x) = cx_scope x /\ cx_depth (g x) = cx_depth x /\ cx_global (g x) = cx_global x) -> fine (mcx g).
Proof.
  intros H c s G O (C1 & C2 & C3) _. cbn. split; [exact G|]. split; [apply R_refl|]. split; [exact O|]. split; [|exact I].
  destruct (H (sst_cx s)) as (H1 & H2 & H3). unfold cxis. cbn [sst_cx]. rewrite H1, H2, H3. auto.
Qed.
Lemma f_set_line l : fine (set_line l). Proof. apply f_mcx. auto. Qed.
Lemma f_set_reg l : fine (set_reg l). Proof. apply f_mcx. auto. Qed.
Lemma f_set_func l : fine (set_func l). Proof. apply f_mcx. auto. Qed.
Lemma f_set_yield l : fine (set_yield l). Proof. apply f_mcx. auto. Qed.
Lemma f_set_loop l : fine (set_loop l). Proof. apply f_mcx. auto. Qed.
Lemma f_set_module l : fine (set_module l). Proof. apply f_mcx. auto. Qed.
Lemma f_set_ty l : fine (set_ty_ctx l). Proof. apply f_mcx. auto. Qed.

(** Changes of the store. *)
Lemma k_mst c (P : store -> Prop) f (Q : unit -> store -> Prop) :
  (forall st, good st -> okc c st -> P st -> good (f st) /\ R st (f st) /\ Q tt (f st)) -> keep c P (mst f) Q.
Proof.
  intros H s G O C HP. cbn. destruct (H _ G O HP) as (A1 & A2 & A3). split; [exact A1|]. split; [exact A2|]. split; [eapply st_okc; eauto|]. split; [exact C|exact A3].
Qed.
Lemma method_mono st st' t m i : R st st' -> method_of st t m i -> method_of st' t m i.
Proof. intros HR H. exact (st_method t m i st st' H HR). Qed.
Lemma up_mono st st' a b : R st st' -> up_is a b st -> up_is a b st'.
Proof. intros HR H. exact (st_up a b st st' H HR). Qed.

Lemma R_syms st l : (forall i x, nth_error (so_syms st) i = Some x -> exists x', nth_error l i = Some x' /\ keeps_sym x x') -> R st (with_syms st l).
Proof. intros H. split; [exact H|]. intros k c Hk. exists c. auto. Qed.

(** Symbols: all the old ones are there, changed within their kind, and the new
    kinds obey the invariant. *)
Lemma good_syms st l : good st ->
  (forall i x, nth_error (so_syms st) i = Some x -> exists x', nth_error l i = Some x' /\ keeps_sym x x') ->
  (forall i x' f ms tp, nth_error l i = Some x' -> s_kind x' = SReg f ms tp -> table_ok (with_syms st l) (CReg i) ms /\ exists u, up_is f (Some u) st) ->
  (forall i x' vs ms tp, nth_error l i = Some x' -> s_kind x' = SUni vs ms tp -> table_ok (with_syms st l) (CUni i) ms) ->
  good (with_syms st l).
Proof.
  intros G H H1 H2. assert (HR : R st (with_syms st l)) by (apply R_syms, H). constructor.
  - intros i x f ms tp E K. destruct (H1 i x f ms tp E K) as (A & u & B). split; [exact A|]. exists u. eapply up_mono; eauto.
  - intros i x vs ms tp E K. exact (H2 i x vs ms tp E K).
  - intros p t E. eapply st_table; [|exact HR]. exact (g_prim st G p t E).
  - intros k c u n i E U HI. destruct (g_scope st G k c u n i E U HI) as (x & Ex & Kx). destruct (H i x Ex) as (x' & Ex' & K & _).
    exists x'. split; [exact Ex'|]. rewrite <- global_kclass, K, global_kclass. exact Kx.
Qed.
Lemma nth_app_inv {A} (l : list A) x i y : nth_error (l ++ [x]) i = Some y -> nth_error l i = Some y \/ (i = List.length l /\ y = x).
Proof.
  intros H. destruct (Nat.lt_ge_cases i (List.length l)) as [L|L]; [left; rewrite nth_error_app1 in H; assumption|].
  right. rewrite nth_error_app2 in H by exact L. destruct (i - List.length l)%nat as [|k] eqn:E; [|destruct k; discriminate H].
  injection H as <-. split; [apply Nat.le_antisymm; [apply Nat.sub_0_le; exact E|exact L]|reflexivity].
Qed.
(** A new symbol. *)
Definition new_ok (x : symbol) (st : store) : Prop :=
  match s_kind x with SReg f ms _ => ms = [] /\ exists u, up_is f (Some u) st | SUni _ ms _ => ms = [] | _ => True end.
Lemma good_new st x : good st -> new_ok x st -> good (with_syms st (so_syms st ++ [x])) /\ R st (with_syms st (so_syms st ++ [x])).
Proof.
  intros G N.
  assert (H : forall i y, nth_error (so_syms st) i = Some y -> exists x', nth_error (so_syms st ++ [x]) i = Some x' /\ keeps_sym y x').
  { intros i y E. exists y. split; [|apply keeps_refl]. rewrite nth_error_app1; [exact E|]. apply nth_error_Some. congruence. }
  assert (HR : R st (with_syms st (so_syms st ++ [x]))) by (apply R_syms, H).
  split; [|exact HR]. apply good_syms; [exact G|exact H| |].
  - intros i x' f ms tp E K. apply nth_app_inv in E as [E|[_ ->]].
    + destruct (g_reg st G i x' f ms tp E K) as [A B]. split; [eapply st_table; eauto|exact B].
    + unfold new_ok in N. rewrite K in N. destruct N as [-> N]. split; [constructor|exact N].
  - intros i x' vs ms tp E K. apply nth_app_inv in E as [E|[_ ->]].
    + eapply st_table; [exact (g_uni st G i x' vs ms tp E K)|exact HR].
    + unfold new_ok in N. rewrite K in N. subst ms. constructor.
Qed.
Lemma k_new c (P : store -> Prop) x : (forall st, P st -> new_ok x st) ->
  keep c P (new_sym x) (fun i st => nth_error (so_syms st) i = Some x).
Proof.
  intros H s G O C HP. cbn. destruct (good_new _ x G (H _ HP)) as [A B]. split; [exact A|]. split; [exact B|]. split; [eapply st_okc; eauto|]. split; [exact C|].
  cbn. rewrite nth_error_app2 by reflexivity. rewrite Nat.sub_diag. reflexivity.
Qed.
Lemma f_new x : (forall st, new_ok x st) -> fine (new_sym x).
Proof. intros H c. eapply tri_weaken; [apply (k_new c (fun _ => True)); auto|cbv beta; auto|cbv beta; auto]. Qed.
Lemma k_new_has c (P : store -> Prop) x : (forall st, P st -> new_ok x st) -> keep c P (new_sym x) (fun i st => has i (kclass (s_kind x)) st).
Proof. intros H. eapply tri_weaken; [apply (k_new c P x H)|cbv beta; auto|]. intros i st E. exists x. auto. Qed.

(** A symbol changed. *)
Lemma nth_upd_inv {A} (l : list A) k f i y : nth_error (upd l k f) i = Some y ->
  exists x, nth_error l i = Some x /\ y = if (i =? k)%nat then f x else x.
Proof.
  rewrite nth_upd. destruct (i =? k)%nat; [|eauto]. destruct (nth_error l i) as [x|]; [|discriminate]. intros H. injection H as <-. eauto.
Qed.
Lemma upd_keep st k g : (forall x, nth_error (so_syms st) k = Some x -> keeps_sym x (g x)) ->
  forall i x, nth_error (so_syms st) i = Some x -> exists x', nth_error (upd (so_syms st) k g) i = Some x' /\ keeps_sym x x'.
Proof.
  intros H i x E. rewrite nth_upd, E. cbn [option_map]. destruct (Nat.eqb_spec i k) as [->|N]; eexists; split; eauto using keeps_refl.
Qed.
(** The tables in the new kind are made of the old one's. *)
Definition upd_ok (k : nat) (g : symbol -> symbol) (st : store) : Prop :=
  forall x, nth_error (so_syms st) k = Some x ->
    keeps_sym x (g x) /\
    match s_kind (g x) with
    | SReg f ms _ => table_ok st (CReg k) ms
    | SUni _ ms _ => table_ok st (CUni k) ms
    | _ => True
    end.
Lemma k_upd c (P : store -> Prop) k g : (forall st, good st -> P st -> upd_ok k g st) -> keep c P (upd_sym k g) (fun _ _ => True).
Proof.
  intros H. apply k_mst. intros st G _ HP. specialize (H st G HP).
  assert (K : forall i x, nth_error (so_syms st) i = Some x -> exists x', nth_error (upd (so_syms st) k g) i = Some x' /\ keeps_sym x x')
    by (apply upd_keep; intros x E; apply H, E).
  assert (HR : R st (with_syms st (upd (so_syms st) k g))) by (apply R_syms, K).
  split; [|split; [exact HR|exact I]]. apply good_syms; [exact G|exact K| |].
  - intros i x' f ms tp E Kx. apply nth_upd_inv in E as (x & E & ->). destruct (Nat.eqb_spec i k) as [->|N].
    + destruct (H x E) as [(K1 & _) T]. rewrite Kx in T, K1. split; [eapply st_table; eauto|].
      destruct (s_kind x) eqn:Ex; try discriminate K1. injection K1 as <-. exact (proj2 (g_reg st G _ _ _ _ _ E Ex)).
    + destruct (g_reg st G _ _ _ _ _ E Kx) as [A B]. split; [eapply st_table; eauto|exact B].
  - intros i x' vs ms tp E Kx. apply nth_upd_inv in E as (x & E & ->). destruct (Nat.eqb_spec i k) as [->|N].
    + destruct (H x E) as [_ T]. rewrite Kx in T. eapply st_table; eauto.
    + eapply st_table; [exact (g_uni st G _ _ _ _ _ E Kx)|exact HR].
Qed.
(** A change that leaves the kind alone. *)
Lemma f_upd k g : (forall x, keeps_sym x (g x) /\ s_kind (g x) = s_kind x) -> fine (upd_sym k g).
Proof.
  intros H c. apply k_upd. intros st G _ x E. destruct (H x) as [A B]. split; [exact A|]. rewrite B. destruct (s_kind x) eqn:K; try exact I.
  - exact (proj1 (g_reg st G _ _ _ _ _ E K)).
  - exact (g_uni st G _ _ _ _ _ E K).
Qed.
Lemma f_upd_out k o : fine (upd_sym k (s_set_out o)). Proof. apply f_upd. intros x. repeat split; auto. Qed.
Lemma f_upd_global k : fine (upd_sym k s_set_global). Proof. apply f_upd. intros x. repeat split; auto. Qed.
Lemma f_upd_prop k : fine (upd_sym k s_set_prop). Proof. apply f_upd. intros x. repeat split; auto. Qed.

(** Scopes. *)
Lemma k_scope c (P : store -> Prop) u : keep c P (new_scope u) (fun sc st => up_is sc u st).
Proof.
  intros s G O C HP. cbn.
  assert (HR : R (sst_st s) (with_scopes (sst_st s) (so_scopes (sst_st s) ++ [mkScope [] u]))).
  { split; [intros i x E; exists x; split; [exact E|apply keeps_refl]|]. intros k d E. exists d. split; [|reflexivity]. cbn.
    rewrite nth_error_app1; [exact E|]. apply nth_error_Some. congruence. }
  split; [|split; [exact HR|split; [eapply st_okc; eauto|split; [exact C|]]]].
  - constructor.
    + intros i x f ms tp E K. destruct (g_reg _ G i x f ms tp E K) as (A & v & B). split; [eapply st_table; eauto|]. exists v. eapply up_mono; eauto.
    + intros i x vs ms tp E K. eapply st_table; [exact (g_uni _ G i x vs ms tp E K)|exact HR].
    + intros p t E. eapply st_table; [|exact HR]. exact (g_prim _ G p t E).
    + intros k d v n i E U HI. apply nth_app_inv in E as [E|[_ ->]]; [exact (g_scope _ G k d v n i E U HI)|destruct HI].
  - eexists. cbn. rewrite nth_error_app2 by reflexivity. rewrite Nat.sub_diag. split; reflexivity.
Qed.
(** What may be defined in a scope. *)
Definition def_ok (sc i : nat) (st : store) : Prop :=
  (exists x, nth_error (so_syms st) i = Some x /\ global_kind (s_kind x) = false) \/ up_is sc None st.
Lemma good_scopes st k h : good st ->
  (forall d, nth_error (so_scopes st) k = Some d -> sc_up (h d) = sc_up d /\
     forall u n i, sc_up d = Some u -> In (n, i) (sc_syms (h d)) -> exists x, nth_error (so_syms st) i = Some x /\ global_kind (s_kind x) = false) ->
  good (with_scopes st (upd (so_scopes st) k h)) /\ R st (with_scopes st (upd (so_scopes st) k h)).
Proof.
  intros G H.
  assert (HR : R st (with_scopes st (upd (so_scopes st) k h))).
  { split; [intros i x E; exists x; split; [exact E|apply keeps_refl]|]. intros j d E. cbn. rewrite nth_upd, E. cbn [option_map].
    destruct (Nat.eqb_spec j k) as [->|N]; eexists; split; eauto. apply H, E. }
  split; [|exact HR]. constructor.
  - intros i x f ms tp E K. destruct (g_reg _ G i x f ms tp E K) as (A & v & B). split; [eapply st_table; eauto|]. exists v. eapply up_mono; eauto.
  - intros i x vs ms tp E K. eapply st_table; [exact (g_uni _ G i x vs ms tp E K)|exact HR].
  - intros p t E. eapply st_table; [|exact HR]. exact (g_prim _ G p t E).
  - intros j d v n i E U HI. cbn in E. apply nth_upd_inv in E as (d0 & E & ->). destruct (Nat.eqb_spec j k) as [->|N].
    + destruct (H d0 E) as [A B]. rewrite A in U. exact (B v n i U HI).
    + exact (g_scope _ G j d0 v n i E U HI).
Qed.
Lemma in_assoc_set (l : list (text * nat)) n i m j : In (m, j) (assoc_set l n i) -> In (m, j) l \/ (m = n /\ j = i).
Proof.
  induction l as [|[a b] l IH]; cbn [assoc_set].
  - intros [E|[]]. injection E as <- <-. auto.
  - destruct (text_eqb _ _) eqn:T; cbn [In].
    + intros [E|E]; [|auto]. injection E as <- <-. apply text_eqb_eq in T. right. split; congruence.
    + intros [E|E]; [auto|]. destruct (IH E); auto.
Qed.
Lemma k_define c (P : store -> Prop) sc n i : (forall st, good st -> okc c st -> P st -> def_ok sc i st) -> keep c P (define sc n i) (fun _ _ => True).
Proof.
  intros H. apply k_mst. intros st G O HP. specialize (H st G O HP).
  destruct (good_scopes st sc (fun s => mkScope (assoc_set (sc_syms s) n i) (sc_up s)) G) as [A B]; [|auto].
  intros d E. split; [reflexivity|]. cbn [sc_syms]. intros u m j U HI. apply in_assoc_set in HI as [HI|[-> ->]].
  - exact (g_scope st G sc d u m j E U HI).
  - destruct H as [H|(d' & E' & U')]; [exact H|congruence].
Qed.
