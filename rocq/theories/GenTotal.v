(** The generator has code for every tree of the language of the reference
    interpreter: it stops only when a table or the code is full. *)
From Verif Require Import Base BaseFacts Value VM Ast Bson Opcode CodeGen Compile GenFacts Sem SemWf SemProg Spec_Gen.

(** The limits: 65535 constants or names, and 2^64 bytes of code. *)
Definition full (e : pyerr) : Prop := e = AssertErr \/ e = ValueErr.
Definition ok (r : pyres gst) (Q : gst -> Prop) : Prop := match r with PyOk s => Q s | PyErr e => full e end.

(** What the encoder needs of an instruction: the operands it takes, and a label
    that exists. *)
Definition arity (o : opcode) : nat := match op_size o with 1%N => 0 | 17%N => 2 | _ => 1 end%nat.
Definition instr_ok (n : nat) (i : instr) : Prop :=
  List.length (snd i) = arity (fst i) /\ (is_jump (fst i) = true -> forall l, In l (snd i) -> (N.to_nat l < n)%nat).
Record sane (s : gst) : Prop := {
  sn_ops : Forall (instr_ok (List.length (g_labels s))) (g_ops s);
  sn_lab : Forall (fun l => (l <= g_ip s)%N) (g_labels s)
}.

Definition has (s : gst) (o : text) : Prop := exists k, assoc o (g_locals s) = Some k.
Record ext (a b : gst) : Prop := {
  e_ctx : same_ctx a b;
  e_has : forall o, has a o -> has b o;
  e_var : forall v, In v (g_variants a) -> In v (g_variants b);
  e_len : (List.length (g_labels a) <= List.length (g_labels b))%nat;
  e_sane : sane a -> sane b
}.
Lemma ext_refl a : ext a a. Proof. constructor; auto using same_ctx_refl. Qed.
Lemma ext_trans a b c : ext a b -> ext b c -> ext a c.
Proof. intros [X1 X2 X3 X4 X5] [Y1 Y2 Y3 Y4 Y5]. constructor; auto; [eapply same_ctx_trans; eassumption|lia]. Qed.
Lemma sane_same s s' : g_ops s' = g_ops s -> g_labels s' = g_labels s -> g_ip s' = g_ip s -> sane s -> sane s'.
Proof. intros A B D [X Y]. constructor; rewrite ?A, ?B, ?D; assumption. Qed.
Ltac triv := intros [[X1 X2 X3] Y Z L N]; constructor; [constructor; assumption|exact Y|exact Z|exact L|intros Q; eapply sane_same; [ | | |exact (N Q)]; reflexivity].
Lemma ext_op a s o l : instr_ok (List.length (g_labels s)) (o, l) -> ext a s -> ext a (append_op s o l).
Proof.
  intros I [[X1 X2 X3] Y Z L N]; constructor; [constructor; assumption|exact Y|exact Z|exact L|]. intros Q. destruct (N Q) as [A B]. constructor; cbn.
  - apply Forall_app. split; [exact A|]. constructor; [exact I|constructor].
  - eapply Forall_impl; [|exact B]. cbn. intros; lia.
Qed.
Lemma ext_line a s l : ext a s -> ext a (set_line s l). Proof. triv. Qed.
Lemma ext_func a s f : ext a s -> ext a (add_func s f). Proof. triv. Qed.
Lemma ext_reg a s f : ext a s -> ext a (add_reg s f). Proof. triv. Qed.
Lemma ext_consts a s f : ext a s -> ext a (set_consts s f). Proof. triv. Qed.
Lemma ext_names a s f : ext a s -> ext a (set_names s f). Proof. triv. Qed.
Lemma ext_new a s : ext a s -> ext a (set_labels s (g_labels s ++ [g_ip s])).
Proof.
  intros [[X1 X2 X3] Y Z L N]; constructor; [constructor; assumption|exact Y|exact Z| |]; cbn; [rewrite app_length; cbn; lia|].
  intros Q. destruct (N Q) as [A B]. constructor; cbn.
  - eapply Forall_impl; [|exact A]. intros i [I J]. split; [exact I|]. intros H l Hl. rewrite app_length. specialize (J H l Hl). lia.
  - apply Forall_app. split; [exact B|]. constructor; [lia|constructor].
Qed.

Lemma set_new {A} (l : list (text * A)) k v : exists j, assoc k (assoc_set l k v) = Some j.
Proof.
  induction l as [|[k' v'] l [j IH]]; cbn.
  - rewrite text_eqb_refl. eauto.
  - destruct (text_eqb k k') eqn:E; cbn; [rewrite text_eqb_refl|rewrite E]; eauto.
Qed.
Lemma set_old {A} (l : list (text * A)) k v o : (exists j, assoc o l = Some j) -> exists j, assoc o (assoc_set l k v) = Some j.
Proof.
  induction l as [|[k' v'] l IH]; cbn; [intros [j H]; discriminate|]. intros [j H].
  destruct (text_eqb k k') eqn:E; cbn.
  - apply text_eqb_eq in E. subst k'. destruct (text_eqb o k); eauto.
  - destruct (text_eqb o k'); eauto.
Qed.
Lemma ext_declare a s x : ext a s -> ext a (fst (declare_local s x)).
Proof.
  intros [[X1 X2 X3] Y Z L N]. constructor; [constructor; assumption| |exact Z|exact L|intros Q; eapply sane_same; [ | | |exact (N Q)]; reflexivity].
  intros o H. apply set_old. exact (Y o H).
Qed.
Ltac jump := split; [reflexivity|intros _ ?l' [<-|[]]; repeat match goal with E : ext ?a ?b |- _ => generalize (e_len a b E); clear E end; cbn [append_op set_code set_line enter leave add_reg g_labels]; intros; lia].
Ltac op := first [split; [reflexivity|intros X; discriminate X] | assumption | jump].
Lemma ext_label a s s' l : new_label s = (s', l) -> ext a s -> ext a s' /\ (N.to_nat l < List.length (g_labels s'))%nat.
Proof. unfold new_label. intros H E. injection H as <- <-. split; [apply ext_new, E|]. cbn. rewrite app_length, Nat2N.id. cbn. lia. Qed.

Lemma ok_bind r f Q Q' : ok r Q -> (forall s, Q s -> ok (f s) Q') -> ok (pbind r f) Q'.
Proof. destruct r; cbn; auto. Qed.
Lemma ok_weak r (Q Q' : gst -> Prop) : ok r Q -> (forall s, Q s -> Q' s) -> ok r Q'.
Proof. destruct r; cbn; auto. Qed.

Lemma ok_const a s c : ext a s -> ok (load_const s c) (ext a).
Proof. intros H. unfold load_const, const_index. destruct (table_index _ _ _). destruct (_ <? _)%N; cbn; [|now left]. apply ext_op; [op|]; apply ext_consts, H. Qed.
Lemma ok_name a s n : ext a s -> ok (load_name s n) (ext a).
Proof. intros H. unfold load_name, name_index. destruct (table_index _ _ _). destruct (_ <? _)%N; cbn; [|now left]. apply ext_op; [op|]; apply ext_names, H. Qed.
Lemma ok_name_index a s n (f : gst * N -> pyres gst) : ext a s -> (forall s' i, ext a s' -> ok (f (s', i)) (ext a)) -> ok (pbind (name_index s n) f) (ext a).
Proof. intros H K. unfold name_index. destruct (table_index _ _ _) as [t i]. destruct (_ <? _)%N; cbn [pbind]; [|now left]. apply K, ext_names, H. Qed.
Lemma ok_patch a s l : ext a s -> ok (patch_label s l) (ext a).
Proof.
  intros [[X1 X2 X3] Y Z L N]. unfold patch_label. destruct (_ <? _)%N; [now right|]. cbn [ok].
  constructor; [constructor; assumption|exact Y|exact Z| |]; cbn; rewrite ?list_set_length; [exact L|].
  intros Q. destruct (N Q) as [A B]. constructor; cbn; [rewrite list_set_length; exact A|].
  assert (G : forall ls i, Forall (fun l => (l <= g_ip s)%N) ls -> Forall (fun l => (l <= g_ip s)%N) (list_set ls i (g_ip s))).
  { induction ls as [|x ls IH]; intros [|i] F; cbn; auto; inversion F; subst; constructor; auto. lia. }
  apply G, B.
Qed.
Lemma ok_set a s x : ext a s -> ok (set_variable s x) (fun s' => ext a s' /\ (sy_global x = false -> has s' (sy_out x))).
Proof.
  intros H. unfold set_variable. destruct (sy_global x).
  - unfold name_index. destruct (table_index _ _ _). destruct (_ <? _)%N; cbn; [|now left]. split; [|discriminate]. apply ext_op; [op|]; apply ext_names, H.
  - destruct (assoc (sy_out x) (g_locals s)) as [k|] eqn:E.
    + rewrite E. cbn. split; [apply ext_op; [op|]; apply H|]. intros _. exists k. exact E.
    + destruct (set_new (g_locals s) (sy_out x) (N.of_nat (List.length (g_locals s)))) as [j J].
      change (assoc (sy_out x) (g_locals (fst (declare_local s x))) = Some j) in J. rewrite J. cbn [ok]. split; [apply ext_op; [op|]; apply ext_declare, H|].
      intros _. exists j. exact J.
Qed.
Lemma ok_set' a s x : ext a s -> ok (set_variable s x) (ext a).
Proof. intros H. eapply ok_weak; [apply ok_set, H|]. intros s' [X _]; exact X. Qed.

Section Gen.
Variable S : senv.
Variable C : gctx.
Variable m : option N.
Hypothesis builtins_known : exists i, assoc (c_builtins C) (c_modules C) = Some i.
Hypothesis not_builtins : c_path C <> c_builtins C.

Definition loads (s : gst) (x : sym) : Prop :=
  if negb (text_eqb (sy_mod x) (c_path C)) then exists i, assoc (sy_mod x) (c_modules C) = Some i
  else sy_global x = true \/ has s (sy_out x).
Lemma loads_ext a s x : loads a x -> ext a s -> loads s x.
Proof. unfold loads. intros L H. destruct (negb _); [exact L|]. destruct L as [L|L]; [now left|right]. apply H, L. Qed.
Lemma ok_load a s x : loads s x -> ext a s -> ok (load_variable C s x) (ext a).
Proof.
  intros L H. unfold load_variable, name_index. destruct (table_index _ _ _). destruct (_ <? _)%N; cbn [pbind]; [|now left]. unfold loads in L.
  destruct (negb _). { destruct L as [i ->]. apply ext_op; [op|]; apply ext_names, H. }
  destruct (sy_global x) eqn:G; [apply ext_op; [op|]; apply ext_names, H|]. destruct L as [L|[k L]]; [discriminate|].
  change (g_locals (set_names s l)) with (g_locals s). rewrite L. apply ext_op; [op|]; apply ext_names, H.
Qed.
Lemma builtin_loads s x : sy_mod x = c_builtins C -> loads s x.
Proof.
  intros E. unfold loads. rewrite E. destruct (text_eqb (c_builtins C) (c_path C)) eqn:F; [|exact builtins_known].
  apply text_eqb_eq in F. now elim not_builtins.
Qed.
Lemma ok_cast a s p : ext a s -> ok (auto_cast C s p) (ext a).
Proof.
  intros H. destruct p; [|exact H]. cbn. eapply ok_bind; [apply ok_load; [now apply builtin_loads|exact H]|]. intros s' H'. apply ext_op; [op|]; apply H'.
Qed.

Record inv (vs : list text) (lp : bool) (g : gam) (scs : list scope) (s : gst) : Prop := {
  i_scs : g_scopes s = scs;
  i_has : forall o, In o (gouts g) -> has s o;
  i_var : forall v, In v vs -> In v (g_variants s);
  i_lp : lp = true -> exists b c, g_brk s = Some b /\ g_cont s = Some c /\
    (N.to_nat b < List.length (g_labels s))%nat /\ (N.to_nat c < List.length (g_labels s))%nat
}.
Lemma inv_ext vs lp g scs a s : inv vs lp g scs a -> ext a s -> inv vs lp g scs s.
Proof.
  intros [A B D E] [[X1 X2 X3] Y Z L N]. constructor; [congruence|auto|auto|]. rewrite X2, X3. intros LP.
  destruct (E LP) as (b & c & E1 & E2 & E3 & E4). exists b, c. repeat split; auto; lia.
Qed.

Lemma glook_outs g n y : glook g n = Some y -> In (sy_out y) (gouts g).
Proof.
  unfold gouts. induction g as [|sc g IH]; cbn; [discriminate|]. destruct (assoc n sc) as [z|] eqn:E.
  - intros H. injection H as <-. rewrite map_app. apply in_or_app. left. clear -E. induction sc as [|[k v] sc IH]; cbn in *; [discriminate|].
    destruct (text_eqb n k); [injection E as ->; now left|right; auto].
  - intros H. rewrite map_app. apply in_or_app. right. auto.
Qed.
Lemma glob_loads n x s : glob_ok S C m n x = true -> loads s x.
Proof.
  unfold glob_ok, loads, own_glob. destruct (text_eqb (sy_mod x) (c_path C)); cbn [negb].
  - rewrite !andb_true_iff. intros [[G _] _]. now left.
  - destruct (assoc (sy_mod x) (c_modules C)); [eauto|discriminate].
Qed.
Lemma var_loads vs lp g scs n x s : var_ok S C m g n x = true -> inv vs lp g scs s -> loads s x.
Proof.
  unfold var_ok. destruct (glook g n) as [y|] eqn:E; [|intros H _; eapply glob_loads; exact H].
  rewrite !andb_true_iff. intros [[A B] D] I. unfold loads. rewrite A. cbn [negb]. right. apply text_eqb_eq in D. rewrite D. apply (i_has _ _ _ _ _ I), (glook_outs _ _ _ E).
Qed.

(** What is shown of a node: it is generated, and what it declares is declared. *)
Definition made (g : gam) (scs : list scope) (x : node) (a s : gst) : Prop := ext a s /\ forall o, In o (gouts (decls scs g x)) -> has s o.
Definition good (vs : list text) (calls : bool) (x : node) : Prop := forall lp g scs a s,
  wf S C m calls lp g scs x = true -> coded vs x = true -> nofn x = true -> inv vs lp g scs a -> ext a s -> ok (gen C x s) (made g scs x a).

Lemma gouts_mono g scs x o : In o (gouts g) -> In o (gouts (decls scs g x)).
Proof.
  assert (A : forall n y, In o (gouts g) -> In o (gouts (gdecl g n y))).
  { intros n y H. destruct g; [exact H|]. unfold gouts. cbn. right. exact H. }
  intros H. destruct x; cbn [decls]; auto. destruct init as [[]|]; auto. destruct (resolve scs name); auto.
Qed.
Lemma inv_decls vs lp g scs x a s : inv vs lp g scs a -> made g scs x a s -> inv vs lp (decls scs g x) scs s.
Proof. intros I [E H]. destruct (inv_ext _ _ _ _ _ _ I E) as [A B D F]. constructor; auto. Qed.

Lemma ok_seq vs calls scs lp : forall l g a s, Forall (good vs calls) l ->
  wf_seq (fun g y => wf S C m calls lp g scs y) (decls scs) g l = true -> forallb (coded vs) l = true -> forallb nofn l = true ->
  inv vs lp g scs a -> ext a s -> ok (seqm (gen C) l s) (ext a).
Proof.
  induction l as [|x l IH]; intros g a s F W CO NF I E; [exact E|]. cbn in *.
  inversion F as [|? ? G F']; subst. rewrite andb_true_iff in W, CO, NF. destruct W as [W1 W2], CO as [C1 C2], NF as [N1 N2].
  pose proof (G lp g scs a s W1 C1 N1 I E) as O. destruct (gen C x s) as [s'|e]; [|exact O]. cbn in O.
  apply (ok_weak _ (ext s')).
  - apply (IH (decls scs g x)); auto; [|apply ext_refl]. eapply inv_decls; eassumption.
  - intros s2 E2. eapply ext_trans; [apply O|exact E2].
Qed.

Lemma ext_enter_leave a s sc s' : ext a s -> ext (enter s sc) s' -> ext a (leave s').
Proof.
  intros [[X1 X2 X3] Y Z L N] [[A1 A2 A3] B D M K]. cbn in *. constructor; [constructor; cbn; [now rewrite A1|congruence|congruence]| | | |].
  - intros o H. exact (B o (Y o H)).
  - intros v H. exact (D v (Z v H)).
  - cbn. lia.
  - intros Q. eapply (sane_same s'); [reflexivity..|]. apply K. eapply (sane_same s); [reflexivity..|]. exact (N Q).
Qed.
Lemma inv_enter vs lp g scs s sc g' : inv vs lp g scs s -> gouts g' = gouts g -> inv vs lp g' (sc :: scs) (enter s sc).
Proof. intros [A B D E] H. constructor; cbn; [congruence| |exact D|exact E]. rewrite H. exact B. Qed.

Lemma ok_block vs calls lp g scs sc ch a s : Forall (good vs calls) ch ->
  wf_seq (fun g y => wf S C m calls lp g (sc :: scs) y) (decls (sc :: scs)) ([] :: g) ch = true -> forallb (coded vs) ch = true -> forallb nofn ch = true ->
  inv vs lp g scs a -> ext a s -> ok (block_with (gen C) (NBlock sc ch) s) (ext a).
Proof.
  intros F W CO NF I E. cbn [block_with]. eapply ok_bind.
  - eapply ok_seq; try eassumption; [|apply ext_refl]. apply inv_enter with (g := g); [|reflexivity]. eapply inv_ext; eassumption.
  - intros s' E'. cbn. eapply ext_enter_leave; eassumption.
Qed.

(** Expressions and lists of them. *)
Lemma ok_exprs vs calls lp g scs a : inv vs lp g scs a -> forall l s, Forall (good vs calls) l ->
  forallb (wf S C m calls lp g scs) l = true -> forallb (coded vs) l = true -> forallb nofn l = true -> ext a s -> ok (seqm (gen C) l s) (ext a).
Proof.
  intros I. induction l as [|x l IH]; intros s F W CO NF E; [exact E|]. cbn in *.
  inversion F as [|? ? G F']; subst. rewrite andb_true_iff in W, CO, NF. destruct W as [W1 W2], CO as [C1 C2], NF as [N1 N2].
  pose proof (G lp g scs a s W1 C1 N1 I E) as O. destruct (gen C x s) as [s'|e]; [|exact O]. apply IH; auto. apply O.
Qed.

Definition is_vardecl (x : node) : bool := match x with NVarDecl _ _ _ _ => true | _ => false end.
Lemma ok_made vs lp g scs x a r : is_vardecl x = false -> inv vs lp g scs a -> ok r (ext a) -> ok r (made g scs x a).
Proof.
  intros V I H. eapply ok_weak; [exact H|]. intros s E. split; [exact E|]. intros o O. apply E, (i_has _ _ _ _ _ I). destruct x; try exact O. discriminate.
Qed.
Lemma ok_expr vs calls lp g scs x a s : good vs calls x -> wf S C m calls lp g scs x = true -> coded vs x = true -> nofn x = true ->
  inv vs lp g scs a -> ext a s -> ok (gen C x s) (ext a).
Proof. intros G W CO NF I E. eapply ok_weak; [eapply G; eassumption|]. intros s' [X _]. exact X. Qed.

Definition sub (Q : node -> Prop) (x : node) : Prop :=
  match x with
  | NAssign _ _ _ r _ | NNamed _ _ r => Q r
  | NBlock _ ch => Forall Q ch
  | NSenaoSe _ c b => Q c /\ match b with NBlock _ ch => Forall Q ch | _ => True end
  | _ => True
  end.
Definition both vs calls x := good vs calls x /\ sub (good vs calls) x.
Lemma both_all vs calls l : Forall (both vs calls) l -> Forall (good vs calls) l.
Proof. intros H. eapply Forall_impl; [|exact H]. intros a [X _]. exact X. Qed.

Lemma variant_has s v : In v (g_variants s) -> exists t, variant_tag s v = PyOk t.
Proof.
  unfold variant_tag. intros H. assert (X : exists i, index_of text_eqb (g_variants s) v = Some i); [|destruct X as [i ->]; eauto].
  induction (g_variants s) as [|w l IH]; [destruct H|]. cbn. destruct (text_eqb w v) eqn:E; [eauto|]. destruct H as [->|H]; [rewrite text_eqb_refl in E; discriminate|].
  destruct (IH H) as [i ->]. cbn. eauto.
Qed.

Lemma ok_finish vs lp g scs a s y rhs : inv vs lp g scs a -> ext a s -> chain_ok S C m g rhs = true ->
  ok (finish_assign C s y rhs) (fun s' => ext a s' /\ (sy_global y = false -> has s' (sy_out y))).
Proof.
  intros I E CH. unfold finish_assign. apply (ok_bind _ _ (ext a)); [|intros s' E'; now apply ok_set].
  destruct rhs; try exact E. cbn [chain_ok] in CH. apply andb_true_iff in CH as [_ CH]. apply ok_load; [|exact E].
  eapply var_loads; [exact CH|]. eapply inv_ext; eassumption.
Qed.
Lemma decl_outs g n y s : (forall o, In o (gouts g) -> has s o) -> (g <> [] -> has s (sy_out y)) -> forall o, In o (gouts (gdecl g n y)) -> has s o.
Proof. intros H K o. destruct g as [|sc g]; cbn; [intros []|]. intros [<-|O]; [apply K; discriminate|apply H, O]. Qed.

Ltac bools := repeat match goal with
  | H : (_ && _)%bool = true |- _ => apply andb_true_iff in H; destruct H
  | H : true = true |- _ => clear H
  end.
Ltac ex := lazymatch goal with
  | |- ext _ (append_op _ _ _) => apply ext_op; [op|ex]
  | |- ext _ (set_line _ _) => apply ext_line; ex
  | |- ext _ (add_reg _ _) => apply ext_reg; ex
  | |- ext _ (set_labels _ (g_labels _ ++ [g_ip _])) => apply ext_new; ex
  | |- ext _ _ => first [eassumption|apply ext_refl]
  end.
Lemma decl_global g n y : decl_ok S m g n y = true -> g <> [] -> sy_global y = false.
Proof. unfold decl_ok, fresh_ok. destruct g; [intros _ X; now elim X|]. rewrite andb_true_iff. intros [H _] _. now destruct (sy_global y). Qed.
Lemma scopes_now vs lp g scs a s : inv vs lp g scs a -> ext a s -> g_scopes s = scs.
Proof. intros I E. rewrite (sc_scopes _ _ (e_ctx _ _ E)). apply I. Qed.
Lemma ok_elifs vs calls lp g scs a l0 : (N.to_nat l0 < List.length (g_labels a))%nat -> inv vs lp g scs a -> forall l s, Forall (fun x => both vs calls x) l ->
  forallb (fun e => match e with NSenaoSe _ c b => wf S C m calls lp g scs c && match b with
      | NBlock sc ch => wf_seq (fun g y => wf S C m calls lp g (sc :: scs) y) (decls (sc :: scs)) ([] :: g) ch | _ => false end | _ => false end) l = true ->
  forallb (coded vs) l = true -> forallb nofn l = true -> ext a s -> ok (seqm (gen_elif C l0) l s) (ext a).
Proof.
  intros L0 I. induction l as [|x l IH]; intros s F W CO NF E; [exact E|]. cbn [seqm forallb] in *.
  inversion F as [|? ? G F']; subst. destruct G as [_ G]. bools.
  assert (O : ok (gen_elif C l0 x s) (ext a)).
  { destruct x; try discriminate. cbn [sub gen_elif coded nofn] in *. destruct G as [G1 G2]. bools. destruct (new_label s) as [s1 l1] eqn:NL.
    destruct (ext_label a _ _ _ NL E) as [E1 L1]. clear NL E. pose proof (inv_ext _ _ _ _ _ _ I E1) as I1.
    apply (ok_weak _ (ext s1)); [|intros; eapply ext_trans; eassumption]. pose proof (ext_refl s1) as R1. pose proof (e_len _ _ E1) as M1. clear E1.
    eapply ok_bind; [eapply ok_expr; [eassumption..|ex]|]. intros s2 E2. destruct x2; try discriminate. cbn [coded nofn] in *.
    eapply ok_bind; [eapply ok_block; [eassumption..|ex]|]. intros s3 E3. apply ok_patch; ex. }
  destruct (gen_elif C l0 x s) as [s'|]; [|exact O]. apply IH; auto.
Qed.
Ltac opened := cbn [gen node_line wf coded nofn] in *; bools.

Lemma gen_good vs calls x : both vs calls x.
Proof.
  induction x using node_ind'; (split; [intros lp gm scs s0 st W CO NF INV EX|]); cbn [sub];
    repeat match goal with H : both _ _ ?x |- _ => destruct H | H : Forall (fun x => both ?v ?c x) ?l |- _ => lazymatch goal with K : Forall (good v c) l |- _ => fail | _ => pose proof (both_all v c l H) end end;
    try exact Logic.I; try assumption; try (now apply both_all); try discriminate W; try discriminate NF.
  all: try (apply (ok_made vs lp); [reflexivity|exact INV|]).
  all: opened.
  - (* NConst *) eapply ok_bind; [apply ok_const; ex|]. intros s' E'. now apply ok_cast.
  - (* NVar *) unfold eff in W. change (g_scopes (set_line st ln)) with (g_scopes st).
    assert (EG : g_scopes st = scs) by (rewrite (sc_scopes _ _ (e_ctx _ _ EX)); apply INV). rewrite EG. unfold need.
    destruct (match s with Some x => Some x | None => resolve scs name end) as [y|]; [|discriminate W].
    eapply ok_bind; [apply ok_load; [|ex]|intros s' E'; now apply ok_cast]. eapply loads_ext; [eapply var_loads; eassumption|ex].
  - (* NAlvo *) apply ok_load; [|ex]. eapply loads_ext; [eapply var_loads; eassumption|ex].
  - (* NPath *) apply existsb_exists in CO as (v & IN & EV). apply text_eqb_eq in EV. subst v.
    destruct (variant_has (set_line st ln) vid) as [t ->]. { cbn. apply EX, INV, IN. }
    cbn [pbind]. eapply ok_bind; [apply ok_const; ex|]. intros s' E'. destruct c; cbn [ok]; ex.
  - (* NUn *) eapply ok_bind; [eapply ok_expr; [eassumption..|ex]|]. intros s' E'.
    destruct op; try discriminate; apply ok_cast; ex.
  - (* NBin *)
    assert (GL : forall s, ext s0 s -> ok (gen C x1 s) (ext s0)) by (intros; eapply ok_expr; eassumption).
    assert (GR : forall s, ext s0 s -> ok (gen C x2 s) (ext s0)) by (intros; eapply ok_expr; eassumption).
    assert (B : ok (let! s := gen C x1 (set_line st ln) in let! s1 := gen C x2 s in auto_cast C (append_op s1 (binop_code op) []) pr) (ext s0)).
    { eapply ok_bind; [apply GL; ex|]. intros s1 E1. eapply ok_bind; [apply GR; ex|]. intros s2 E2. apply ok_cast; destruct op; ex. }
    destruct nl, op, nr; try exact B; (eapply ok_bind; [first [apply GL; ex|apply GR; ex]|]; intros s1 E1; cbn [ok]; ex).
  - (* NCall *)
    assert (AR : forall l s, (forall y, In y l -> forall s, ext s0 s -> ok (gen C y s) (ext s0)) -> ext s0 s -> ok (seqm (gen C) l s) (ext s0)).
    { induction l as [|y l IHl]; intros s G Es; [exact Es|]. cbn. pose proof (G y (or_introl eq_refl) s Es) as O.
      destruct (gen C y s) as [s'|]; [|exact O]. apply IHl; [|exact O]. intros z Hz. apply G. now right. }
    assert (PL : forall b, forallb (wf S C m calls lp gm scs) args = b -> b = true -> forall y, In y args -> forall s, ext s0 s -> ok (gen C y s) (ext s0)).
    { intros b <- W' y Hy s Es. rewrite forallb_forall in *. match goal with K : Forall (good _ _) args |- _ => rewrite Forall_forall in K; specialize (K y Hy) end.
      eapply ok_expr; try eassumption; auto. }
    assert (CL : forall n o s, ext s0 s -> (match glook gm n, eff scs o n with None, Some y => glob_ok S C m n y | _, _ => false end) = true -> forall ln, ok (gen C (NVar ln n o false) s) (ext s0)).
    { intros n o s Es G l0. cbn [gen node_line]. unfold eff in G. change (g_scopes (set_line s l0)) with (g_scopes s).
      assert (EG : g_scopes s = scs) by (rewrite (sc_scopes _ _ (e_ctx _ _ Es)); apply INV). rewrite EG. unfold need.
      destruct (glook gm n); [discriminate|]. destruct (match o with Some x => Some x | None => resolve scs n end) as [y|]; [|discriminate].
      eapply ok_bind; [apply ok_load; [eapply glob_loads; exact G|ex]|]. intros s' E'. exact E'. }
    destruct k; destruct x; try discriminate W.
    + destruct callable; [|discriminate W]. eapply ok_bind; [apply AR; [eapply PL; [reflexivity|exact W]|ex]|]. intros s1 E1.
      eapply ok_bind; [|intros s2 E2; cbn [ok]; ex].
      match goal with K : coded vs (NPath _ _ _) = true |- _ => cbn [coded] in K; apply existsb_exists in K as (v & IN & EV) end. apply text_eqb_eq in EV. subst v.
      cbn [gen node_line]. destruct (variant_has (set_line s1 ln0) vid) as [t ->]. { cbn. apply E1, INV, IN. }
      cbn [pbind]. eapply ok_bind; [apply ok_const; ex|]. intros s' E'. cbn [ok]; ex.
    + destruct pr0; [discriminate W|]. bools. eapply ok_bind; [apply AR; [|ex]|].
      * intros y Hy s1 E1.
        match goal with K : forallb (coded vs) args = true |- _ => rename K into CA end.
        match goal with K : forallb nofn args = true |- _ => rename K into NA end.
        revert CA NA; match goal with K : forallb _ args = true |- _ => rename K into WA end; intros CA NA.
        rewrite forallb_forall in WA, CA, NA. specialize (WA y Hy); rename WA into WY. specialize (CA y Hy). specialize (NA y Hy).
        match goal with K : Forall (fun x => both _ _ x) args |- _ => rewrite Forall_forall in K; destruct (K y Hy) as [_ SY] end.
        destruct y; try discriminate WY. cbn [sub] in SY. cbn [coded nofn gen node_line] in *.
        eapply ok_bind; [apply ok_name; ex|]. intros s2 E2. eapply ok_expr; eassumption.
      * intros s1 E1. eapply ok_bind; [apply CL; [ex|assumption]|]. intros s2 E2. apply ok_cast; ex.
    + destruct pr0; [discriminate W|]. bools. eapply ok_bind; [apply AR; [eapply PL; [reflexivity|assumption]|ex]|].
      intros s1 E1. eapply ok_bind; [apply CL; [ex|assumption]|]. intros s2 E2. apply ok_cast; ex.
  - (* NConv *) eapply ok_bind; [eapply ok_expr; [eassumption..|ex]|]. intros s1 E1. destruct c as [[t fi]|]; [|exact E1].
    eapply ok_bind; [apply ok_load; [|ex]|intros s2 E2; cbn [ok]; ex]. apply builtin_loads. now apply text_eqb_eq.
  - (* NIndex *) eapply ok_bind; [eapply ok_expr; [eassumption..|ex]|]. intros s1 E1. eapply ok_bind; [eapply ok_expr; eassumption|]. intros s2 E2. cbn [ok]; ex.
  - (* NIndexSet *) eapply ok_bind; [eapply ok_expr; [eassumption..|ex]|]. intros s1 E1. eapply ok_bind; [eapply ok_expr; eassumption|]. intros s2 E2.
    eapply ok_bind; [eapply ok_expr; eassumption|]. intros s3 E3. cbn [ok]; ex.
  - (* NFmt *) eapply ok_bind; [eapply ok_exprs; [eassumption..|ex]|]. intros s1 E1. cbn [ok]; ex.
  - (* NList *) eapply ok_bind; [eapply ok_exprs; [eassumption..|ex]|]. intros s1 E1. cbn [ok]; ex.
  - (* NGet *) eapply ok_bind; [eapply ok_expr; [eassumption..|ex]|]. intros s1 E1. eapply ok_bind; [apply ok_name; ex|]. intros s2 E2. cbn [ok]; ex.
  - (* NSet *) eapply ok_bind; [eapply ok_expr; [eassumption..|ex]|]. intros s1 E1. eapply ok_bind; [apply ok_name; ex|]. intros s2 E2.
    eapply ok_bind; [eapply ok_expr; eassumption|]. intros s3 E3. cbn [ok]; ex.
  - (* NUnwrap *) eapply ok_bind; [eapply ok_expr; [eassumption..|ex]|]. intros s1 E1. destruct d as [d|]; [|cbn [ok]; ex].
    match goal with K : optP _ _ |- _ => cbn [optP] in K; destruct K end. eapply ok_bind; [eapply ok_expr; eassumption|]. intros s2 E2. cbn [ok]; ex.
  - (* NAssign *) eapply ok_bind; [eapply ok_expr; [eassumption..|ex]|]. intros s1 E1. eapply ok_weak; [eapply ok_finish; eassumption|]. intros s2 [X _]; exact X.
  - (* NVarDecl *) destruct i as [i|].
    + cbn [optP] in *. destruct i; try discriminate W.
      match goal with K : both _ _ _ |- _ => destruct K as [_ GR]; cbn [sub] in GR end. cbn [coded nofn] in *. bools.
      eapply ok_bind; [eapply ok_expr; [eassumption..|ex]|]. intros s1 E1.
      eapply ok_weak; [eapply ok_finish; eassumption|]. intros s2 [X Y]. split; [exact X|]. cbn [decls].
      apply decl_outs; [intros o O; apply X, INV, O|]. intros NG. apply Y. eapply decl_global; eassumption.
    + eapply ok_bind; [apply ok_const; ex|]. intros s1 E1. rewrite (scopes_now _ _ _ _ _ _ INV E1). destruct (resolve scs name) as [y|] eqn:R; [|discriminate W]. cbn [need].
      eapply ok_weak; [apply ok_set; exact E1|]. intros s2 [X Y]. split; [exact X|]. cbn [decls]. rewrite R.
      apply decl_outs; [intros o O; apply X, INV, O|]. intros NG. apply Y. eapply decl_global; eassumption.
  - (* NSe *) destruct x2; try discriminate.
    match goal with K : sub _ (NBlock _ _) |- _ => cbn [sub] in K end. cbn [coded nofn] in *.
    destruct (new_label (set_line st ln)) as [p1 l1] eqn:NL1. destruct (new_label p1) as [p2 l2] eqn:NL2.
    destruct (ext_label s0 _ _ _ NL1) as [PE1 L1]; [ex|]. destruct (ext_label s0 _ _ _ NL2 PE1) as [PE2 L2].
    destruct (ext_label p1 _ _ _ NL2 (ext_refl p1)) as [PE3 _]. pose proof (e_len _ _ PE3) as M1. clear PE3 PE1 NL1 NL2 EX.
    assert (L1' : (N.to_nat l1 < List.length (g_labels p2))%nat) by lia. clear L1 M1.
    apply (ok_weak _ (ext p2)); [|intros; eapply ext_trans; eassumption]. pose proof (inv_ext _ _ _ _ _ _ INV PE2) as I2. pose proof (ext_refl p2) as R2. clear INV PE2.
    eapply ok_bind; [eapply ok_expr; [eassumption..|ex]|]. intros s1 E1.
    eapply ok_bind; [eapply ok_block; [eassumption..|ex]|]. intros s2 E2.
    eapply ok_bind; [apply ok_patch; ex|]. intros s3 E3.
    eapply ok_bind; [eapply ok_elifs; eassumption|]. intros s4 E4.
    eapply ok_bind; [|intros s5 E5; apply ok_patch; ex].
    destruct el as [b|]; [|exact E4]. cbn [optP] in *. match goal with K : both _ _ b |- _ => destruct K as [_ GB] end.
    destruct b; try discriminate. cbn [sub coded nofn] in *. eapply ok_block; eassumption.
  - (* NSenaoSe *) split; [assumption|]. destruct x2; try exact Logic.I. assumption.
  - (* NEnquanto *) destruct x2; try discriminate. match goal with K : sub _ (NBlock _ _) |- _ => cbn [sub] in K; rename K into GB end. cbn [coded nofn] in *. bools.
    destruct (new_label (set_line st ln)) as [p1 l1] eqn:NL1. destruct (new_label p1) as [p2 l2] eqn:NL2.
    destruct (ext_label s0 _ _ _ NL1) as [PE1 L1]; [ex|]. destruct (ext_label s0 _ _ _ NL2 PE1) as [PE2 L2].
    destruct (ext_label p1 _ _ _ NL2 (ext_refl p1)) as [PE3 _]. pose proof (e_len _ _ PE3) as M1. clear PE3 PE1 NL1 NL2 EX.
    assert (L1' : (N.to_nat l1 < List.length (g_labels p2))%nat) by lia. clear L1 M1. cbv zeta.
    match goal with |- ok (let! s := patch_label (enter ?b sc) _ in _) _ => assert (XB : exists b', b' = b) by eauto; destruct XB as [s1 XB]; rewrite <- XB end.
    assert (LE1 : (N.to_nat l1 < List.length (g_labels (enter s1 sc)))%nat) by (rewrite XB; exact L1').
    assert (LE2 : (N.to_nat l2 < List.length (g_labels (enter s1 sc)))%nat) by (rewrite XB; exact L2).
    assert (I1 : forall lp', inv vs lp' gm (sc :: scs) (enter s1 sc)).
    { intros lp'. constructor.
      - rewrite XB. cbn. f_equal. exact (scopes_now _ _ _ _ _ _ INV PE2).
      - intros o O. rewrite XB. apply (e_has _ _ PE2), INV, O.
      - intros v V. rewrite XB. apply (e_var _ _ PE2), INV, V.
      - intros _. exists l1, l2. rewrite XB. cbn. auto. }
    apply (ok_bind _ _ (ext (enter s1 sc))); [apply ok_patch, ext_refl|]. intros s2 E2.
    eapply ok_bind; [eapply ok_expr; [eassumption..|apply I1|exact E2]|]. intros s3 E3.
    eapply ok_bind; [eapply ok_seq with (lp := true) (g := [] :: gm); [eassumption..| |ex]|].
    { destruct (I1 true) as [A1 A2 A3 A4]. constructor; assumption. }
    intros s4 E4. eapply ok_bind; [apply ok_patch; ex|]. intros s5 E5. cbn [ok].
    destruct E5 as [[X1 X2 X3] Y Z L N]. destruct PE2 as [[P1 P2 P3] P4 P5 P6 P7]. rewrite XB in *. constructor; [constructor; cbn|..].
    + rewrite X1. cbn. exact P1.
    + exact P2.
    + exact P3.
    + intros o O. exact (Y o (P4 o O)).
    + intros v V. exact (Z v (P5 v V)).
    + cbn in *. lia.
    + intros Q. eapply (sane_same s5); [reflexivity..|]. apply N. eapply (sane_same p2); [reflexivity..|]. exact (P7 Q).
  - (* NPara *) destruct x3; try discriminate. match goal with K : sub _ (NBlock _ _) |- _ => cbn [sub] in K; rename K into GB end. cbn [coded nofn] in *. bools.
    change (g_scopes (set_line st ln)) with (g_scopes st). rewrite (scopes_now _ _ _ _ _ _ INV EX). destruct (resolve (sc :: scs) v) as [cv|]; [|discriminate]. bools. cbn [need].
    destruct (new_label (set_line st ln)) as [p1 l1] eqn:NL1. destruct (new_label p1) as [s1 l2] eqn:NL2.
    destruct (ext_label s0 _ _ _ NL1) as [PE1 L1]; [ex|]. destruct (ext_label s0 _ _ _ NL2 PE1) as [ES L2].
    destruct (ext_label p1 _ _ _ NL2 (ext_refl p1)) as [PE3 _]. pose proof (e_len _ _ PE3) as M1. clear PE3 PE1 NL1 NL2 EX.
    assert (L1' : (N.to_nat l1 < List.length (g_labels (enter s1 sc)))%nat) by (cbn; lia). change (N.to_nat l2 < List.length (g_labels (enter s1 sc)))%nat in L2. clear L1 M1.
    assert (I1 : inv vs lp gm (sc :: scs) (enter s1 sc)).
    { eapply inv_enter; [|reflexivity]. eapply inv_ext; eassumption. }
    eapply ok_bind; [eapply ok_expr; [eassumption..|apply ext_refl]|]. intros s2 E2.
    match goal with K : fresh_ok gm cv = true |- _ => unfold fresh_ok in K; apply andb_true_iff in K as [FG _] end.
    assert (NG : sy_global cv = false) by now destruct (sy_global cv).
    eapply ok_bind; [apply ok_set; exact E2|]. intros s3 [E3 HCV]. specialize (HCV NG).
    assert (I3 : forall lp', (lp' = true -> lp = true) -> inv vs lp' ([(v, cv)] :: gm) (sc :: scs) s3).
    { intros lp' LP. destruct (inv_ext _ _ _ _ _ _ I1 E3) as [A1 A2 A3 A4]. constructor; auto. intros o [<-|O]; [exact HCV|auto]. }
    pose proof (e_len _ _ E3) as M3.
    apply (ok_bind _ _ (ext s3)); [apply ok_patch, ext_refl|]. intros s4 E4.
    assert (LD : forall s, ext s3 s -> ok (load_variable C s cv) (ext s3)).
    { intros s Es. apply ok_load; [|exact Es]. unfold loads. match goal with K : text_eqb (sy_mod cv) (c_path C) = true |- _ => rewrite K end. cbn [negb]. right. apply Es, HCV. }
    eapply ok_bind; [apply LD; exact E4|]. intros s5 E5.
    eapply ok_bind; [eapply ok_expr; [eassumption..|apply I3; auto|exact E5]|]. intros s6 E6.
    eapply ok_bind; [eapply ok_seq with (lp := false) (g := [] :: [(v, cv)] :: gm); [eassumption..| |ex]|].
    { destruct (I3 false) as [A1 A2 A3 A4]; [discriminate|]. constructor; assumption. }
    intros s7 E7. apply (ok_bind _ _ (ext s3)).
    { destruct i as [i|]; [|apply ok_const; exact E7]. cbn [optP] in *. match goal with K : both _ _ i |- _ => destruct K as [GI _] end. eapply ok_expr; [eassumption..|apply I3; auto|exact E7]. }
    intros s8 E8. eapply ok_bind; [apply LD; exact E8|]. intros s9 E9. eapply ok_bind; [apply ok_set'; ex|]. intros s10 E10.
    eapply ok_bind; [apply ok_patch; ex|]. intros s11 E11. cbn [ok]. eapply ext_enter_leave; [exact ES|]. eapply ext_trans; [exact E3|exact E11].
  - (* NRet *) eapply ok_bind; [|intros s1 E1; cbn [ok]; ex]. destruct e as [e|]; [|apply ok_const; ex].
    cbn [optP] in *. match goal with K : both _ _ e |- _ => destruct K as [GI _] end. eapply ok_expr; [eassumption..|ex].
  - (* NMostra *) eapply ok_bind; [eapply ok_expr; [eassumption..|ex]|]. intros s1 E1. cbn [ok]; ex.
  - (* NLoopCtl *) destruct (i_lp _ _ _ _ _ INV W) as (b & c & B & CN & LB & LC). cbn [set_line g_brk g_cont].
    rewrite (sc_brk _ _ (e_ctx _ _ EX)), (sc_cont _ _ (e_ctx _ _ EX)), B, CN. destruct q; cbn [ok]; ex.
  - (* NRegisto *) apply ok_name_index; [ex|]. intros s1 k E1. cbn [fst append_op set_code add_reg g_scopes].
    rewrite (scopes_now _ _ _ _ _ _ INV E1). destruct (resolve scs n) as [y|]; [|discriminate W]. cbn [need]. apply ok_set'. ex.
  - (* NNoOp *) cbn [ok]; ex.
Qed.

Lemma fold_has ps : forall l o, (In o (gouts [ps]) \/ exists k, assoc o l = Some k) ->
  exists k, assoc o (fold_left (fun ls q => assoc_set ls (sy_out (snd q)) (N.of_nat (List.length ls))) ps l : list (text * N)) = Some k.
Proof.
  induction ps as [|[n y] ps IH]; intros l o H; cbn.
  - destruct H as [[]|H]. exact H.
  - apply IH. unfold gouts in H. cbn in H. destruct H as [[<-|H]|H]; [right; apply set_new|left; exact H|right; now apply set_old].
Qed.
Lemma all_good vs calls l : Forall (good vs calls) l.
Proof. apply Forall_forall. intros x _. apply gen_good. Qed.

Lemma ext_vars a s vids : ext a s -> ext a (fold_left variant_index vids s) /\ forall v, In v vids -> In v (g_variants (fold_left variant_index vids s)).
Proof.
  assert (Q : forall w s, In w (g_variants (variant_index s w)) /\ forall v, In v (g_variants s) -> In v (g_variants (variant_index s w))).
  { intros w t. unfold variant_index. cbn. unfold table_index. destruct (index_of text_eqb (g_variants t) w) eqn:X; cbn.
    - split; [|auto]. clear -X. revert n X. induction (g_variants t) as [|y l IH]; intros n X; [discriminate|]. cbn in X. destruct (text_eqb y w) eqn:F.
      + apply text_eqb_eq in F. now left.
      + destruct (index_of text_eqb l w); [|discriminate]. right. eapply IH. reflexivity.
    - split; [apply in_or_app; right; now left|]. intros v H. apply in_or_app. now left. }
  revert s. induction vids as [|w vids IH]; intros s E; cbn [fold_left]; [split; [exact E|intros v []]|].
  assert (E' : ext a (variant_index s w)).
  { destruct E as [[X1 X2 X3] Y Z L N]. constructor; [constructor; assumption|exact Y| |exact L|intros SN; eapply (sane_same s); [reflexivity..|exact (N SN)]]. intros v H. apply Q, Z, H. }
  destruct (IH _ E') as [A B]. split; [exact A|]. intros v [<-|H]; [|auto].
  clear -Q. assert (M : forall l s, In w (g_variants s) -> In w (g_variants (fold_left variant_index l s))).
  { induction l as [|y l IH]; intros t H; cbn; [exact H|]. apply IH, Q, H. }
  apply M. exact (proj1 (Q w s)).
Qed.

(** A statement at the top level. *)
Definition after (vs : list text) (x : node) : list text := match x with NUniao _ _ vids => vs ++ vids | _ => vs end.
Lemma top_good vs calls sc x a s : wf S C m calls false [] [sc] x = true -> top_ok S C m sc x = true -> coded vs x = true ->
  inv vs false [] [sc] a -> ext a s -> ok (gen C x s) (fun s' => ext a s' /\ inv (after vs x) false [] [sc] s').
Proof.
  intros W T CO I E.
  assert (G : nofn x = true -> ok (gen C x s) (fun s' => ext a s' /\ inv (after vs x) false [] [sc] s')).
  { intros NF. eapply ok_weak; [eapply (proj1 (gen_good vs calls x)); eassumption|]. intros s' [E' _]. split; [exact E'|].
    replace (after vs x) with vs by (destruct x; try reflexivity; discriminate NF). eapply inv_ext; eassumption. }
  destruct x; try (apply G; exact T); clear G.
  - (* NFunc *) cbn [top_ok] in T. destruct builtin; [discriminate|]. destruct x; try discriminate. bools. cbn [gen node_line coded after] in *.
    eapply ok_weak; [|intros s' E'; split; [exact E'|eapply inv_ext; [exact I|exact E']]].
    apply ok_name_index; [ex|]. intros s1' k E1'. cbn [fst]. destruct (new_label s1') as [q1 l1] eqn:NL1. cbv zeta. destruct (new_label (append_op q1 JUMP [l1])) as [s1 l2] eqn:NL2.
    destruct (ext_label a _ _ _ NL1 E1') as [E1'' L1]. destruct (ext_label a _ _ _ NL2) as [E1 L2]; [apply ext_op; [op|exact E1'']|]. clear NL1 NL2 E1' E1'' L1 L2.
    match goal with |- context [enter ?b sc0] => assert (XB : exists b', b' = b) by eauto; destruct XB as [s2 XB]; rewrite <- XB end.
    assert (I2 : inv vs false [[]; params] [sc0; sc] (enter s2 sc0)).
    { constructor.
      - rewrite XB. cbn. f_equal. exact (scopes_now _ _ _ _ _ _ I E1).
      - intros o O. rewrite XB. apply fold_has. left. exact O.
      - intros v V. rewrite XB. apply (e_var _ _ E1), I, V.
      - discriminate. }
    apply (ok_bind _ _ (fun s3 => exists s4, s3 = leave s4 /\ ext (enter s2 sc0) s4)).
    { eapply ok_bind; [eapply ok_seq with (g := [[]; params]) (lp := false) (scs := [sc0; sc]); [apply (all_good vs true)|eassumption..|apply ext_refl]|]. intros s4 E4. cbn [ok]. eauto. }
    intros s3 (s4 & -> & E4).
    apply (ok_bind _ _ (ext (leave s4))); [apply ok_const, ext_refl|]. intros s5 E5.
    assert (E6 : ext a (set_locals (append_op s5 Opcode.RETURN []) (g_locals s1))).
    { destruct E1 as [[A1 A2 A3] A4 A5 A6 A7], E4 as [[B1 B2 B3] B4 B5 B6 B7], E5 as [[D1 D2 D3] D4 D5 D6 D7]. rewrite XB in *. cbn in B1, B2, B3, B4, B5, B6, D1, D2, D3, D4, D5, D6. constructor; [constructor; cbn|..].
      - rewrite D1, B1. cbn. exact A1.
      - congruence.
      - congruence.
      - exact A4.
      - intros v V. apply D5, B5, A5, V.
      - cbn. lia.
      - intros Q. assert (S5 : sane s5).
        { apply D7. eapply (sane_same s4); [reflexivity..|]. apply B7. eapply (sane_same s1); [reflexivity..|]. exact (A7 Q). }
        eapply (sane_same (append_op s5 Opcode.RETURN [])); [reflexivity..|]. exact (e_sane _ _ (ext_op s5 s5 Opcode.RETURN [] ltac:(op) (ext_refl s5)) S5). }
    eapply ok_bind; [apply ok_patch; exact E6|]. intros s7 E7. cbn [ok]. apply ext_func, E7.
  - (* NUniao *) cbn [gen node_line after] in *. unfold name_index. destruct (table_index _ _ _) as [t i]. destruct (_ <? _)%N; cbn [pbind fst ok]; [|now left].
    destruct (ext_vars a (set_names (set_line s ln) t) vids) as [A B]; [apply ext_names; ex|]. split; [exact A|].
    destruct (inv_ext _ _ _ _ _ _ I A) as [I1 I2 I3 I4]. constructor; auto. intros v V. apply in_app_or in V as [V|V]; auto.
Qed.

Lemma tops_good calls sc : forall l vs a s,
  wf_seq (fun g z => wf S C m calls false g [sc] z) (decls [sc]) [] l = true -> forallb (top_ok S C m sc) l = true -> coded_all vs l = true ->
  inv vs false [] [sc] a -> ext a s -> ok (seqm (gen C) l s) (ext a).
Proof.
  induction l as [|x l IH]; intros vs a s W T CO I E; [exact E|]. cbn [wf_seq forallb coded_all seqm] in *. bools.
  match goal with K : wf _ _ _ _ _ _ _ x = true |- _ => rename K into WX end.
  match goal with K : top_ok _ _ _ _ x = true |- _ => rename K into TX end.
  match goal with K : coded vs x = true |- _ => rename K into CX end.
  pose proof (top_good vs calls sc x a s WX TX CX I E) as O. destruct (gen C x s) as [s'|]; [|exact O]. destruct O as [E' I'].
  assert (DN : decls [sc] [] x = []) by (destruct x; try reflexivity; cbn [decls]; destruct init as [[]|]; try reflexivity; destruct (resolve [sc] name); reflexivity).
  rewrite DN in *. eapply ok_weak; [eapply (IH (after vs x) s' s'); [assumption|assumption|assumption|exact I'|apply ext_refl]|].
  intros s2 E2. eapply ext_trans; eassumption.
Qed.

Lemma module_good md : module_ok S C m md = true -> coded_all [] (mo_body md) = true -> ok (gen_module C md) sane.
Proof.
  intros M CO. unfold gen_module.
  assert (B : ok (init_tables (mo_scope md)) (fun s => g_scopes s = [] /\ sane s)).
  { unfold init_tables. destruct (const_index init_gst _) as [[s1 i1]|e1] eqn:E1; [|vm_compute in E1; discriminate]. cbn [pbind fst].
    assert (N1 : s1 = set_consts init_gst [CText (txt "verdadeiro")]) by (vm_compute in E1; injection E1 as <- _; reflexivity). subst s1.
    destruct (const_index _ (CText (txt "falso"))) as [[s2 i2]|e2] eqn:E2; [|vm_compute in E2; discriminate]. cbn [pbind fst].
    assert (N : g_scopes s2 = [] /\ sane s2) by (vm_compute in E2; injection E2 as <- _; split; [reflexivity|split; constructor]). clear E1 E2. revert s2 N.
    clear. induction (mo_scope md) as [|e sc IH]; intros s N; [exact N|]. cbn [seqm]. destruct (is_named_kind (sy_kind (snd e))); [|apply IH; exact N].
    unfold name_index. destruct (table_index _ _ _) as [t i]. destruct (_ <? _)%N; cbn [pbind fst]; [|now left]. apply IH.
    destruct N as [N1 N2]. split; [exact N1|]. eapply (sane_same s); [reflexivity..|exact N2]. }
  eapply ok_bind; [exact B|]. intros s [N SN]. unfold module_ok in M. bools.
  apply (ok_bind _ _ sane).
  - eapply ok_weak; [eapply tops_good with (sc := mo_scope md) (vs := []) (a := enter s (mo_scope md)); try eassumption; [|apply ext_refl]|].
    + constructor; cbn; [now rewrite N|intros o []|intros v []|discriminate].
    + intros s' E'. apply E'. eapply (sane_same s); [reflexivity..|exact SN].
  - intros s' S'. cbn [ok]. assert (S2 : sane (set_line (leave s') 0)) by (eapply (sane_same s'); [reflexivity..|exact S']).
    exact (e_sane _ _ (ext_op _ _ HALT [] ltac:(op) (ext_refl _)) S2).
Qed.
End Gen.

(** The encoder. *)
Lemma write_one labels i : instr_ok (List.length labels) i -> Forall (fun l => (l < 2 ^ 64)%N) labels -> in_width i -> exists b, write_op_bytes labels i = PyOk b.
Proof.
  intros [A J] L W. destruct i as [o args]. cbn [fst snd] in *. unfold write_op_bytes.
  assert (X : forall a, (a < 2 ^ 64)%N -> exists b, format_u64_arg a = PyOk b).
  { intros a H. unfold format_u64_arg. apply N.ltb_lt in H. rewrite H. eauto. }
  destruct (is_jump o) eqn:JO.
  - assert (O : op_size o = 9%N) by (destruct o; try discriminate; reflexivity). unfold arity in A. rewrite O in *. destruct args as [|a [|? ?]]; try discriminate.
    cbn [arg0 pbind]. specialize (J eq_refl a (or_introl eq_refl)). destruct (nth_error labels (N.to_nat a)) as [b|] eqn:E; [|apply nth_error_None in E; lia].
    cbn [pbind arg0]. assert (LB : (b < 2 ^ 64)%N) by (rewrite Forall_forall in L; apply L; eapply nth_error_In, E).
    destruct (X b LB) as [c ->]. cbn. eauto.
  - cbn [pbind]. unfold in_width in W. cbn [fst snd] in W. unfold arity in A.
    destruct o; cbn in A, W |- *; try discriminate JO; try (eauto; fail).
    all: destruct args as [|a [|b [|? ?]]]; try discriminate A; cbn [arg0 pbind].
    all: try (destruct W as [W|W]; [discriminate W|]).
    all: try (inversion W as [|? ? W1 W2]; subst).
    all: try (apply N.ltb_lt in W1; rewrite W1; eauto; fail).
    all: try (destruct (X a W1) as [c ->]; cbn; eauto; fail).
    all: try (eauto; fail).
    all: inversion W2 as [|? ? W3 W4]; subst; destruct (X a W1) as [c ->]; destruct (X b W3) as [d ->]; cbn; eauto.
Qed.
Lemma write_all labels ops : Forall (instr_ok (List.length labels)) ops -> Forall (fun l => (l < 2 ^ 64)%N) labels -> Forall in_width ops -> exists b, write_ops labels ops = PyOk b.
Proof.
  intros A L. induction A as [|i ops I A IH]; intros W; cbn; [eauto|]. inversion W as [|? ? W1 W2]; subst.
  destruct (write_one _ _ I L W1) as [b ->]. destruct (IH W2) as [c ->]. cbn. eauto.
Qed.
Lemma sane_writes s : sane s -> (g_ip s < 2 ^ 64)%N -> Forall in_width (g_ops s) -> exists b, write_ops (g_labels s) (g_ops s) = PyOk b.
Proof. intros [A B] L W. apply write_all; auto. eapply Forall_impl; [|exact B]. cbn. intros; lia. Qed.
