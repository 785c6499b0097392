(** What generating code for a node can change in the generator's state. *)
From Verif Require Import Base BaseFacts Bson BsonFacts TableFacts Opcode Spec_Opcode OpcodeFacts Value Ast CodeGen.

Definition prefix {A} (a b : list A) : Prop := exists t, b = a ++ t.
Lemma prefix_refl {A} (a : list A) : prefix a a.
Proof. exists []. rewrite app_nil_r. reflexivity. Qed.
Lemma prefix_trans {A} (a b c : list A) : prefix a b -> prefix b c -> prefix a c.
Proof. intros [x ->] [y ->]. exists (x ++ y). rewrite app_assoc. reflexivity. Qed.
Lemma prefix_app {A} (a b : list A) : prefix a (a ++ b).
Proof. exists b. reflexivity. Qed.
Lemma prefix_nth {A} (a b : list A) i x : prefix a b -> nth_error a i = Some x -> nth_error b i = Some x.
Proof. intros [t ->]. apply nth_error_prefix. Qed.
#[export] Hint Resolve prefix_refl prefix_app : gx.

(** [gx n a b]: the tables of [a] are extended in [b], and labels below [n]
    keep their value. *)
Record gx (n : nat) (a b : gst) : Prop := {
  gx_ops : prefix (g_ops a) (g_ops b);
  gx_consts : prefix (g_consts a) (g_consts b);
  gx_names : prefix (g_names a) (g_names b);
  gx_regs : prefix (g_regs a) (g_regs b);
  gx_funcs : prefix (g_funcs a) (g_funcs b);
  gx_vars : prefix (g_variants a) (g_variants b);
  gx_llen : (List.length (g_labels a) <= List.length (g_labels b))%nat;
  gx_lab : forall i, (i < n)%nat -> (i < List.length (g_labels a))%nat -> nth_error (g_labels b) i = nth_error (g_labels a) i;
  gx_ip : g_ip a = ops_size (g_ops a) -> g_ip b = ops_size (g_ops b)
}.
Lemma gx_refl n a : gx n a a.
Proof. constructor; auto with gx. Qed.
Lemma gx_trans n a b c : gx n a b -> gx n b c -> gx n a c.
Proof.
  intros H K. constructor; try (eapply prefix_trans; [apply H|apply K]).
  - etransitivity; [apply H|apply K].
  - intros i Hi Hl. rewrite (gx_lab _ _ _ K) by (try assumption; pose proof (gx_llen _ _ _ H); lia). apply H; assumption.
  - intros X. apply K, H, X.
Qed.
Lemma gx_le n n' a b : (n' <= n)%nat -> gx n a b -> gx n' a b.
Proof. intros L H. destruct H as [h1 h2 h3 h4 h5 h6 h7 h8 h9]. constructor; try assumption. intros i Hi; apply h8; lia. Qed.

(** Same enclosing scopes and loop. *)
Record same_ctx (a b : gst) : Prop := {
  sc_scopes : g_scopes b = g_scopes a; sc_brk : g_brk b = g_brk a; sc_cont : g_cont b = g_cont a
}.
Lemma same_ctx_refl a : same_ctx a a. Proof. constructor; reflexivity. Qed.
Lemma same_ctx_trans a b c : same_ctx a b -> same_ctx b c -> same_ctx a c.
Proof. intros [] []. constructor; congruence. Qed.

(** Both; [n] is the number of labels that must stay. *)
Definition gs (n : nat) (a b : gst) : Prop := gx n a b /\ same_ctx a b.
Lemma gs_refl n a : gs n a a. Proof. split; [apply gx_refl|apply same_ctx_refl]. Qed.
Lemma gs_trans n a b c : gs n a b -> gs n b c -> gs n a c.
Proof. intros [] []. split; [eapply gx_trans|eapply same_ctx_trans]; eassumption. Qed.
Lemma gs_le n n' a b : (n' <= n)%nat -> gs n a b -> gs n' a b.
Proof. intros L []; split; [eapply gx_le|]; eassumption. Qed.

Ltac gs_triv := split; [constructor; cbn; auto with gx; try lia | constructor; reflexivity].
Lemma gs_line n s l : gs n s (set_line s l). Proof. gs_triv. Qed.
Lemma gs_locals n s l : gs n s (set_locals s l). Proof. gs_triv. Qed.
Lemma gs_func n s f : gs n s (add_func s f). Proof. gs_triv. Qed.
Lemma gs_reg n s f : gs n s (add_reg s f). Proof. gs_triv. Qed.
Lemma gs_op n s o a : gs n s (append_op s o a).
Proof.
  split; [constructor; cbn; auto with gx; try lia | constructor; reflexivity].
  intros ->. rewrite ops_size_app. cbn. lia.
Qed.
Lemma gs_new_label n s s' l : new_label s = (s', l) -> gs n s s' /\ l = N.of_nat (List.length (g_labels s)) /\
  List.length (g_labels s') = Datatypes.S (List.length (g_labels s)).
Proof.
  intros H. injection H as <- <-. split; [|split; [reflexivity|cbn; rewrite app_length; cbn; lia]].
  split; [constructor; cbn; auto with gx; rewrite ?app_length; try lia | constructor; reflexivity].
  intros i _ Hi. apply nth_error_app1. assumption.
Qed.
Lemma list_set_length {A} (l : list A) i x : List.length (list_set l i x) = List.length l.
Proof. revert i. induction l as [|y l IH]; intros [|i]; cbn; auto. Qed.
Lemma list_set_other {A} (l : list A) i j x : i <> j -> nth_error (list_set l i x) j = nth_error l j.
Proof. revert i j. induction l as [|y l IH]; intros [|i] [|j] H; cbn; auto; try congruence; apply IH; lia. Qed.
Lemma list_set_same {A} (l : list A) i x : (i < List.length l)%nat -> nth_error (list_set l i x) i = Some x.
Proof. revert i. induction l as [|y l IH]; intros [|i] H; cbn in *; auto; try lia. apply IH; lia. Qed.
Lemma gs_patch n s l s' : patch_label s l = PyOk s' -> (n <= N.to_nat l)%nat -> gs n s s' /\
  List.length (g_labels s') = List.length (g_labels s).
Proof.
  unfold patch_label. destruct (_ <? _)%N; [discriminate|]. intros H L. apply pyok_inj in H. subst s'.
  split; [|cbn; apply list_set_length].
  split; [constructor; cbn; auto with gx; rewrite ?list_set_length; try lia | constructor; reflexivity].
  intros i Hi _. apply list_set_other. lia.
Qed.
Lemma table_prefix {A} eqb (l : list A) x : prefix l (fst (table_index eqb l x)).
Proof. unfold table_index. destruct (index_of eqb l x); cbn; auto with gx. Qed.
Lemma gs_const n s c s' i : const_index s c = PyOk (s', i) -> gs n s s'.
Proof.
  unfold const_index. pose proof (table_prefix ckey_eqb (g_consts s) c) as P.
  destruct (table_index _ _ _) as [t j]. destruct (_ <? _)%N; [|discriminate]. intros H. apply pyok_inj in H. injection H as <- <-.
  split; [constructor; cbn in *; auto with gx | constructor; reflexivity].
Qed.
Lemma gs_name n s c s' i : name_index s c = PyOk (s', i) -> gs n s s'.
Proof.
  unfold name_index. pose proof (table_prefix text_eqb (g_names s) c) as P.
  destruct (table_index _ _ _) as [t j]. destruct (_ <? _)%N; [|discriminate]. intros H. apply pyok_inj in H. injection H as <- <-.
  split; [constructor; cbn in *; auto with gx | constructor; reflexivity].
Qed.
Lemma gs_load_const n s c s' : load_const s c = PyOk s' -> gs n s s'.
Proof.
  unfold load_const. intros H. apply pbind_ok in H as ((s1 & i) & H1 & H). apply pyok_inj in H; subst.
  eapply gs_trans; [eapply gs_const; eassumption|apply gs_op].
Qed.
Lemma gs_load_name n s c s' : load_name s c = PyOk s' -> gs n s s'.
Proof.
  unfold load_name. intros H. apply pbind_ok in H as ((s1 & i) & H1 & H). apply pyok_inj in H; subst.
  eapply gs_trans; [eapply gs_name; eassumption|apply gs_op].
Qed.
Lemma gs_load_variable C n s x s' : load_variable C s x = PyOk s' -> gs n s s'.
Proof.
  unfold load_variable. intros H. apply pbind_ok in H as ((s1 & i) & H1 & H).
  apply (gs_trans _ _ s1); [eapply gs_name; eassumption|].
  destruct (negb _); [destruct (assoc _ _); [|discriminate]|destruct (sy_global x); [|destruct (assoc _ _); [|discriminate]]];
    apply pyok_inj in H; subst; apply gs_op.
Qed.
Lemma gs_auto_cast C n s p s' : auto_cast C s p = PyOk s' -> gs n s s'.
Proof.
  unfold auto_cast. destruct p; intros H.
  - apply pbind_ok in H as (s1 & H1 & H). apply pyok_inj in H; subst.
    eapply gs_trans; [eapply gs_load_variable; eassumption|apply gs_op].
  - apply pyok_inj in H; subst. apply gs_refl.
Qed.
Lemma gs_set_variable n s x s' : set_variable s x = PyOk s' -> gs n s s'.
Proof.
  unfold set_variable. destruct (sy_global x); intros H.
  - apply pbind_ok in H as ((s1 & i) & H1 & H). apply pyok_inj in H; subst.
    eapply gs_trans; [eapply gs_name; eassumption|apply gs_op].
  - destruct (assoc (sy_out x) (g_locals s)) as [k|] eqn:A.
    + rewrite A in H. apply pyok_inj in H; subst. apply gs_op.
    + destruct (assoc _ _) in H; [|discriminate]. apply pyok_inj in H; subst.
      eapply gs_trans; [apply gs_locals|apply gs_op].
Qed.
Lemma gs_finish C n s x r s' : finish_assign C s x r = PyOk s' -> gs n s s'.
Proof.
  unfold finish_assign. intros H. apply pbind_ok in H as (s1 & H1 & H).
  apply (gs_trans _ _ s1); [|eapply gs_set_variable; eassumption].
  destruct r; try (apply pyok_inj in H1; subst; apply gs_refl). eapply gs_load_variable; eassumption.
Qed.
Lemma gs_variants n vids : forall s, gs n s (fold_left variant_index vids s).
Proof.
  induction vids as [|v r IH]; intros s; cbn [fold_left]; [apply gs_refl|].
  eapply gs_trans; [|apply IH]. unfold variant_index.
  split; [constructor; cbn; auto with gx | constructor; reflexivity]. apply table_prefix.
Qed.
Lemma need_ok {A} (o : option A) k s : need o k = PyOk s -> exists a, o = Some a /\ k a = PyOk s.
Proof. destruct o; cbn; intros H; [eauto|discriminate]. Qed.

(** The node property: everything that was there stays. *)
Definition gsp (C : gctx) (x : node) : Prop :=
  (forall a b, gen C x a = PyOk b -> gs (List.length (g_labels a)) a b) /\
  (forall a b, block_with (gen C) x a = PyOk b -> gs (List.length (g_labels a)) a b).

Lemma gs_len n a b : gs n a b -> (List.length (g_labels a) <= List.length (g_labels b))%nat.
Proof. intros [H _]. apply H. Qed.
Lemma gs_seqm {A} (f : A -> gst -> pyres gst) l :
  (forall y, In y l -> forall a b, f y a = PyOk b -> gs (List.length (g_labels a)) a b) ->
  forall n a b, (n <= List.length (g_labels a))%nat -> seqm f l a = PyOk b -> gs n a b.
Proof.
  intros F n. induction l as [|y l IH]; intros a b L H; cbn in H.
  - apply pyok_inj in H; subst. apply gs_refl.
  - destruct (f y a) as [a1|] eqn:E; [|discriminate].
    assert (G : gs n a a1) by (eapply gs_le; [|eapply F; [left; reflexivity|eassumption]]; assumption).
    eapply gs_trans; [exact G|]. apply IH; [intros; eapply F; [right|]; eassumption| |assumption].
    apply gs_len in G. lia.
Qed.
Lemma gs_enter_leave n a sc b : gs n (enter a sc) b -> gs n a (leave b).
Proof.
  intros [[h1 h2 h3 h4 h5 h6 h7 h8 h9] [k1 k2 k3]]. split; constructor; cbn in *; auto. rewrite k1. reflexivity.
Qed.
Lemma gs_loop n a b x y : gs n (set_loop a x y) b -> gs n a (set_loop b (g_brk a) (g_cont a)).
Proof.
  intros [[h1 h2 h3 h4 h5 h6 h7 h8 h9] [k1 k2 k3]]. split; constructor; cbn in *; auto.
Qed.
Lemma gs_line_l n a b l : gs n (set_line a l) b -> gs n a b.
Proof. intros H. eapply gs_trans; [apply gs_line|exact H]. Qed.
Lemma gs_locals_l n a b l : gs n (set_locals a l) b -> gs n a b.
Proof. intros H. eapply gs_trans; [apply gs_locals|exact H]. Qed.

Lemma gs_fw n a b c : (n <= List.length (g_labels a))%nat -> gs n a b ->
  gs (List.length (g_labels b)) b c -> gs n a c.
Proof. intros L H K. eapply gs_trans; [exact H|]. eapply gs_le; [|exact K]. apply gs_len in H. lia. Qed.
Lemma gs_patch_new n a s0 s1 l b c : (n <= List.length (g_labels a))%nat -> gs n a s0 -> new_label s0 = (s1, l) ->
  patch_label b l = PyOk c -> gs n a b -> gs n a c.
Proof.
  intros L G N P H. apply (gs_new_label n) in N as (_ & -> & _). eapply gs_trans; [exact H|].
  apply (gs_patch n) in P; [apply P|]. rewrite Nat2N.id. apply gs_len in G. lia.
Qed.
Lemma seqm_gs (f : node -> gst -> pyres gst) C l n a b c :
  (forall y, gsp C y -> forall a b, f y a = PyOk b -> gs (List.length (g_labels a)) a b) ->
  Forall (gsp C) l -> seqm f l b = PyOk c -> (n <= List.length (g_labels a))%nat -> gs n a b -> gs n a c.
Proof.
  intros F FA H L G. eapply gs_fw; [exact L|exact G|].
  eapply gs_seqm; [|reflexivity|exact H]. intros y Hy. rewrite Forall_forall in FA. apply F, FA, Hy.
Qed.

Ltac inv_gen :=
  repeat match goal with
  | H : PyErr _ = PyOk _ |- _ => discriminate H
  | H : PyOk _ = PyOk _ |- _ => apply pyok_inj in H; subst
  | H : need _ _ = PyOk _ |- _ => apply need_ok in H; destruct H as (? & ? & H)
  | H : pbind _ _ = PyOk _ |- _ => apply pbind_ok in H; destruct H as (? & ? & H); cbv beta zeta in H
  | H : (let (_, _) := new_label ?s in _) = PyOk _ |- _ => destruct (new_label s) eqn:?
  | p : (gst * N)%type |- _ => destruct p; cbn [fst snd] in *
  end.
Ltac labs := repeat match goal with
  | H : new_label ?s = (_, ?l) |- _ => apply (gs_new_label O) in H as (_ & ? & ?)
  end; cbn [g_labels set_line set_loop enter set_scopes] in *.
Ltac nle := first [reflexivity | cbn; lia | labs; cbn; lia].
Ltac bk C :=
  first [ eassumption | apply gs_refl |
  lazymatch goal with
  | |- gs _ _ (append_op _ _ _) => eapply gs_trans; [|apply gs_op]; bk C
  | |- gs _ _ (set_line _ _) => eapply gs_trans; [|apply gs_line]; bk C
  | |- gs _ _ (set_locals _ _) => eapply gs_trans; [|apply gs_locals]; bk C
  | |- gs _ _ (add_func _ _) => eapply gs_trans; [|apply gs_func]; bk C
  | |- gs _ _ (add_reg _ _) => eapply gs_trans; [|apply gs_reg]; bk C
  | |- gs _ _ (fold_left variant_index _ _) => eapply gs_trans; [|apply gs_variants]; bk C
  | |- gs _ _ ?b => 
      match goal with
      | H : load_const _ _ = PyOk b |- _ => eapply gs_trans; [|eapply gs_load_const; exact H]; clear H; bk C
      | H : load_name _ _ = PyOk b |- _ => eapply gs_trans; [|eapply gs_load_name; exact H]; clear H; bk C
      | H : name_index _ _ = PyOk (b, _) |- _ => eapply gs_trans; [|eapply gs_name; exact H]; clear H; bk C
      | H : auto_cast _ _ _ = PyOk b |- _ => eapply gs_trans; [|eapply gs_auto_cast; exact H]; clear H; bk C
      | H : load_variable _ _ _ = PyOk b |- _ => eapply gs_trans; [|eapply gs_load_variable; exact H]; clear H; bk C
      | H : set_variable _ _ = PyOk b |- _ => eapply gs_trans; [|eapply gs_set_variable; exact H]; clear H; bk C
      | H : finish_assign _ _ _ _ = PyOk b |- _ => eapply gs_trans; [|eapply gs_finish; exact H]; clear H; bk C
      | H : gen _ ?e _ = PyOk b, I : gsp _ ?e |- _ => eapply gs_fw; [nle| |apply (proj1 I); exact H]; bk C
      | H : block_with (gen _) ?e _ = PyOk b, I : gsp _ ?e |- _ => eapply gs_fw; [nle| |apply (proj2 I); exact H]; bk C
      | H : seqm (gen _) _ _ = PyOk b, I : Forall _ _ |- _ =>
          eapply (seqm_gs (gen C) C); [intros ? X; apply (proj1 X)|exact I|exact H|nle|]; bk C
      | H : new_label _ = (b, _) |- _ => eapply gs_trans; [|apply (gs_new_label _ _ _ _ H)]; bk C
      | H : patch_label _ ?l = PyOk b, K : new_label _ = (_, ?l) |- _ =>
          first [eapply gs_patch_new; [nle| |exact K|exact H|]; bk C | eapply gs_trans; [|apply (fun X => proj1 (gs_patch _ _ _ _ H X)); labs; lia]; bk C]
      end
  end ].

Lemma gs_block C sc ch a b : Forall (gsp C) ch ->
  pbind (seqm (gen C) ch (enter a sc)) (fun s => PyOk (leave s)) = PyOk b -> gs (List.length (g_labels a)) a b.
Proof.
  intros F H. inv_gen. apply (gs_enter_leave _ _ sc).
  eapply gs_seqm; [|reflexivity|eassumption]. intros y Hy. rewrite Forall_forall in F. apply F, Hy.
Qed.

(** ... and of the nodes the generator looks into directly. *)
Definition subs (Q : node -> Prop) (x : node) : Prop :=
  match x with
  | NAssign _ _ _ r _ => Q r
  | NBlock _ ch => Forall Q ch
  | NSenaoSe _ c b => Q c /\ Q b
  | NCase _ _ b => Q b
  | _ => True
  end.
Definition gspp C x := gsp C x /\ subs (gsp C) x.
Lemma gspp_all C l : Forall (gspp C) l -> Forall (gsp C) l.
Proof. intros H. eapply Forall_impl; [|exact H]. intros a [X _]. exact X. Qed.

Ltac ih := repeat match goal with
  | H : optP _ ?o, K : match ?o with Some _ => _ | None => _ end = PyOk _ |- _ => destruct o; cbn [optP] in H
  end.
Ltac ihs := repeat match goal with
  | H : optP _ ?o |- _ => destruct o; cbn [optP] in H
  | H : gspp _ ?x |- _ => destruct H as [? ?]
  | H : Forall (fun x => gspp ?C x) ?l |- _ =>
      lazymatch goal with K : Forall (gsp C) l |- _ => fail | _ => pose proof (gspp_all C l H) end
  end.
Definition gen_elif (C : gctx) (after_if : N) (b : node) (s : gst) : pyres gst :=
  match b with
  | NSenaoSe _ c blk =>
      let (s, after) := new_label s in
      let! s := gen C c s in
      let s := append_op s JUMP_IF_FALSE [after] in
      let! s := block_with (gen C) blk s in
      let s := append_op s JUMP [after_if] in
      patch_label s after
  | _ => PyErr AttributeErr
  end.
Lemma elif_gs C l x : gspp C x -> forall a b, gen_elif C l x a = PyOk b -> gs (List.length (g_labels a)) a b.
Proof. intros [_ S] a b H. destruct x; try discriminate H. cbn [subs] in S. destruct S. cbn [gen_elif] in H. inv_gen. bk C. Qed.
Definition gen_bind (C : gctx) (body : node) (b : text * sym) (s : gst) : pyres gst :=
  let! s := load_variable C s (snd b) in
  match body with
  | NYield _ sc _ => need (resolve (sc :: g_scopes s) (fst b)) (fun x => set_variable s x)
  | _ => PyErr AttributeErr
  end.
Lemma bind_gs C body x a b : gen_bind C body x a = PyOk b -> gs (List.length (g_labels a)) a b.
Proof. intros H. unfold gen_bind in H. inv_gen. destruct body; try discriminate H. inv_gen. bk C. Qed.
Definition gen_arg (a : sym) (s : gst) : pyres gst :=
  let (s, i) := declare_local s a in load_const s (CInt (Z.of_N i)).
Lemma arg_gs n x a b : gen_arg x a = PyOk b -> gs n a b.
Proof. unfold gen_arg, declare_local. cbn [fst snd]. intros H. eapply gs_locals_l, gs_load_const, H. Qed.
Definition gen_case (C : gctx) (v : sym) (after_if : N) (cs : node) (s : gst) : pyres gst :=
  match cs with
  | NCase c args body =>
      let (s, after) := new_label s in
      let! s := load_variable C s v in
      let! s :=
        match c with
        | PInt z => let! s := load_const s (CInt z) in PyOk (append_op s OP_EQ [])
        | PStr t => let! s := load_const s (CText t) in PyOk (append_op s OP_EQ [])
        | PVariant vid => let! tag := variant_tag s vid in PyOk (append_op s MATCH_VARIANT [tag])
        end in
      let s := append_op s JUMP_IF_FALSE [after] in
      let! s := load_variable C s v in
      let! s :=
        match c, args with
        | PVariant _, _ :: _ =>
            let! s := seqm gen_arg args s in
            PyOk (append_op s BIND_MATCH_ARGS [N.of_nat (List.length args)])
        | _, _ => PyOk s
        end in
      let! s := gen C body s in
      let s := append_op s JUMP [after_if] in
      patch_label s after
  | _ => PyErr AttributeErr
  end.
Lemma args_gs n l : forall a b, seqm gen_arg l a = PyOk b -> gs n a b.
Proof.
  induction l as [|x l IH]; intros a b H; cbn [seqm] in H.
  - apply pyok_inj in H; subst. apply gs_refl.
  - destruct (gen_arg x a) eqn:E; [|discriminate]. eapply gs_trans; [eapply arg_gs; exact E|apply IH, H].
Qed.
Lemma case_gs C v l x : gspp C x -> forall a b, gen_case C v l x a = PyOk b -> gs (List.length (g_labels a)) a b.
Proof.
  intros [_ S] a b H. destruct x; try discriminate H. cbn [subs] in S. cbn [gen_case] in H. inv_gen.
  assert (T : gs (List.length (g_labels a)) a x1).
  { destruct c; inv_gen; bk C. }
  assert (T2 : gs (List.length (g_labels a)) a x3).
  { eapply gs_trans; [instantiate (1 := x2); clear H1 H3; bk C|].
    destruct c; inv_gen; try apply gs_refl. destruct args; inv_gen; try apply gs_refl.
    eapply gs_trans; [eapply args_gs; eassumption|apply gs_op]. }
  clear H1 H3. bk C.
Qed.

Lemma gen_gs C x : gspp C x.
Proof.
  induction x using node_ind'; (split; [split; [|try (intros a b G; cbn [block_with] in G; discriminate)]|]);
    try (intros a b G; cbn [gen node_line] in G; discriminate); ihs;
    try exact I; try assumption; try (split; assumption).
  all: try (destruct op, nl, nr).
  all: try destruct op.
  all: try destruct k.
  all: try (match goal with |- context [NPath _ _ ?p] => destruct p end).
  all: try (match goal with p : option (sym * bool) |- _ => destruct p as [[? ?]|] end).
  all: try (intros ga gb G; cbn [gen node_line] in G; apply (gs_line_l _ _ _ ln); inv_gen; bk C; fail).
  all: try (intros ga gb G; cbn [gen node_line block_with] in G; discriminate G).
  - intros ga gb G; cbn [gen node_line] in G; apply (gs_line_l _ _ _ ln). destruct n; try discriminate G. cbn [subs] in *. inv_gen. bk C.
  - intros ga gb G; cbn [gen node_line] in G; apply (gs_line_l _ _ _ ln). inv_gen.
    change (seqm (gen_elif C n0) elifs x3 = PyOk x4) in H10.
    assert (T : gs (List.length (g_labels ga)) (set_line ga ln) x3) by (clear H10; bk C).
    assert (T2 : gs (List.length (g_labels ga)) (set_line ga ln) x4).
    { eapply gs_fw; [nle|exact T|]. eapply gs_seqm; [|reflexivity|exact H10].
      intros y Hy. apply elif_gs. rewrite Forall_forall in H. apply H, Hy. }
    clear H10. bk C.
  - intros ga gb G; cbn [gen node_line] in G; apply (gs_line_l _ _ _ ln). inv_gen.
    match goal with HH : seqm _ elifs ?p = PyOk ?q |- _ =>
      change (seqm (gen_elif C n) elifs p = PyOk q) in HH; rename HH into Hs;
      assert (T : gs (List.length (g_labels ga)) (set_line ga ln) p) by (clear Hs; bk C);
      assert (T2 : gs (List.length (g_labels ga)) (set_line ga ln) q) end.
    { eapply gs_fw; [nle|exact T|]. eapply gs_seqm; [|reflexivity|exact Hs].
      intros y Hy. apply elif_gs. rewrite Forall_forall in H. apply H, Hy. }
    clear Hs. bk C.
  - intros ga gb G. cbn [block_with] in G. eapply gs_block; eassumption.
  - intros ga gb G; cbn [gen node_line] in G; apply (gs_line_l _ _ _ ln).
    inv_gen. destruct x2; try discriminate G. cbn [subs] in *. inv_gen.
    eapply gs_trans; [instantiate (1 := g0); clear H3 H4 H5 H6; bk C|].
    eapply gs_loop, gs_enter_leave. bk C.
  - intros ga gb G; cbn [gen node_line] in G; apply (gs_line_l _ _ _ ln).
    destruct x3; try discriminate G. cbn [subs] in *. inv_gen.
    eapply gs_trans; [instantiate (1 := g0); clear - C Heqp Heqp0; bk C|].
    eapply gs_enter_leave. bk C.
  - intros ga gb G; cbn [gen node_line] in G; apply (gs_line_l _ _ _ ln).
    destruct x3; try discriminate G. cbn [subs] in *. inv_gen.
    eapply gs_trans; [instantiate (1 := g0); clear - C Heqp Heqp0; bk C|].
    eapply gs_enter_leave. bk C.
  - intros ga gb G; cbn [gen node_line] in G; apply (gs_line_l _ _ _ ln).
    inv_gen.
    assert (T : gs (List.length (g_labels ga)) (set_line ga ln) x1).
    { eapply gs_fw; [nle|instantiate (1 := g0); clear - C H1 Heqp Heqp0; bk C|]. destruct bi; inv_gen; [apply gs_locals|].
      destruct x; try discriminate. cbn [subs] in *. eapply gs_locals_l.
      match type of H2 with context [enter ?e _] => eapply (gs_block C sc ch e) end; eassumption. }
    clear H2. bk C.
  - intros ga gb G; cbn [gen node_line] in G; apply (gs_line_l _ _ _ ln).
    destruct (if q then _ else _); [|discriminate]. inv_gen. bk C.
  - intros ga gb G; cbn [gen node_line] in G; apply (gs_line_l _ _ _ ln).
    apply (gs_block C sc ch (set_line ga ln)); assumption.
  - intros ga gb G. cbn [gen node_line] in G. inv_gen.
    match goal with HH : seqm _ bs ?p = PyOk ?q |- _ => change (seqm (gen_bind C x) bs p = PyOk q) in HH; rename HH into Hs end.
    assert (T : gs (List.length (g_labels ga)) ga x0) by (eapply gs_seqm; [|reflexivity|exact Hs]; intros y _; apply bind_gs).
    clear Hs. bk C.
  - intros ga gb G. cbn [gen node_line] in G. destruct cs as [|c0 cs0] eqn:Ecs; [discriminate|]. rewrite <- Ecs in *. clear Ecs.
    inv_gen.
    match goal with HH : seqm _ cs ?p = PyOk ?q |- _ => change (seqm (gen_case C v n0) cs p = PyOk q) in HH; rename HH into Hs end.
    assert (T : gs (List.length (g_labels ga)) ga x).
    { eapply gs_fw; [nle|instantiate (1 := g); clear Hs; bk C|]. eapply gs_seqm; [|reflexivity|exact Hs].
      intros y Hy. apply case_gs. rewrite Forall_forall in H. apply H, Hy. }
    clear Hs. bk C.
  - intros ga gb G. cbn [gen node_line] in G. destruct cs as [|c0 cs0] eqn:Ecs; [discriminate|]. rewrite <- Ecs in *. clear Ecs.
    inv_gen.
    match goal with HH : seqm _ cs ?p = PyOk ?q |- _ => change (seqm (gen_case C v n) cs p = PyOk q) in HH; rename HH into Hs end.
    assert (T : gs (List.length (g_labels ga)) ga x).
    { eapply gs_fw; [nle|instantiate (1 := g); clear Hs; bk C|]. eapply gs_seqm; [|reflexivity|exact Hs].
      intros y Hy. apply case_gs. rewrite Forall_forall in H. apply H, Hy. }
    clear Hs. bk C.
Qed.
