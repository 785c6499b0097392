(** The generator's table of local variables: code without [iguala] only adds
    slots, numbered in order. *)
From Verif Require Import Base BaseFacts Bson BsonFacts TableFacts Opcode Value Ast CodeGen GenFacts Sem SemWf.

(** No pattern matching inside (function bodies have their own table). *)
Fixpoint noig (x : node) : bool :=
  let opt (o : option node) := match o with Some y => noig y | None => true end in
  match x with
  | NConst _ _ _ _ | NVar _ _ _ _ | NAlvo _ _ | NPath _ _ _ | NLoopCtl _ _ | NRegisto _ _ _
  | NUniao _ _ _ | NNoOp _ | NFunc _ _ _ _ _ => true
  | NUn _ _ e _ | NNamed _ _ e | NConv _ e _ | NGet _ e _ | NField _ e _ | NMostra _ e => noig e
  | NAssign _ _ _ e _ => noig e
  | NBin _ _ _ _ l r _ => noig l && noig r
  | NCall _ _ f args _ => noig f && forallb noig args
  | NIndex _ t i => noig t && noig i
  | NIndexSet _ t i v => noig t && noig i && noig v
  | NFmt _ ps | NList _ ps => forallb noig ps
  | NSet _ _ t _ v => noig t && noig v
  | NUnwrap _ o dv => noig o && opt dv
  | NVarDecl _ _ _ i => opt i
  | NSe _ c th els el => noig c && noig th && forallb noig els && opt el
  | NSenaoSe _ c b => noig c && noig b
  | NBlock _ ch => forallb noig ch
  | NEnquanto _ c b => noig c && noig b
  | NPara _ _ a b i blk => noig a && noig b && opt i && noig blk
  | NRet _ e => opt e
  | _ => false
  end.

Definition numb (L : list (text * N)) : Prop :=
  map snd L = map N.of_nat (seq 0 (List.length L)) /\ NoDup (map fst L).
Definition lx (a b : gst) : Prop :=
  prefix (g_locals a) (g_locals b) /\ (numb (g_locals a) -> numb (g_locals b)).
Lemma lx_refl a : lx a a. Proof. split; [apply prefix_refl|auto]. Qed.
Lemma lx_trans a b c : lx a b -> lx b c -> lx a c.
Proof. intros [] []. split; [eapply prefix_trans; eassumption|auto]. Qed.
Lemma lx_eq a b : g_locals b = g_locals a -> lx a b.
Proof. intros E. split; rewrite E; [apply prefix_refl|auto]. Qed.
Lemma lx_via a b c : lx a b -> g_locals c = g_locals b -> lx a c.
Proof. intros H E. eapply lx_trans; [exact H|apply lx_eq, E]. Qed.

Lemma loc_const s c s' i : const_index s c = PyOk (s', i) -> g_locals s' = g_locals s.
Proof. unfold const_index. destruct (table_index _ _ _). destruct (_ <? _)%N; [|discriminate]. intros H. apply pyok_inj in H. injection H as <- <-. reflexivity. Qed.
Lemma loc_name s c s' i : name_index s c = PyOk (s', i) -> g_locals s' = g_locals s.
Proof. unfold name_index. destruct (table_index _ _ _). destruct (_ <? _)%N; [|discriminate]. intros H. apply pyok_inj in H. injection H as <- <-. reflexivity. Qed.
Lemma loc_load_const s c s' : load_const s c = PyOk s' -> g_locals s' = g_locals s.
Proof. unfold load_const. intros H. inv_gen. cbn. eapply loc_const; eassumption. Qed.
Lemma loc_load_name s c s' : load_name s c = PyOk s' -> g_locals s' = g_locals s.
Proof. unfold load_name. intros H. inv_gen. cbn. eapply loc_name; eassumption. Qed.
Lemma loc_load_variable C s c s' : load_variable C s c = PyOk s' -> g_locals s' = g_locals s.
Proof.
  unfold load_variable. intros H. inv_gen. apply loc_name in H0. rewrite <- H0.
  destruct (negb _); [destruct (assoc _ _)|destruct (sy_global c); [|destruct (assoc _ _)]]; inv_gen; reflexivity.
Qed.
Lemma loc_auto_cast C s p s' : auto_cast C s p = PyOk s' -> g_locals s' = g_locals s.
Proof. unfold auto_cast. destruct p; intros H; inv_gen; [|reflexivity]. cbn. eapply loc_load_variable; eassumption. Qed.
Lemma loc_patch s l s' : patch_label s l = PyOk s' -> g_locals s' = g_locals s.
Proof. unfold patch_label. destruct (_ <? _)%N; intros H; inv_gen. reflexivity. Qed.
Lemma loc_new_label s l s' : new_label s = (s', l) -> g_locals s' = g_locals s.
Proof. intros H. injection H as <- <-. reflexivity. Qed.
Lemma loc_variants vids : forall s, g_locals (fold_left variant_index vids s) = g_locals s.
Proof. induction vids as [|v r IH]; intros s; cbn [fold_left]; [reflexivity|]. rewrite IH. reflexivity. Qed.

Lemma assoc_none_in {A} k (l : list (text * A)) : assoc k l = None -> ~ In k (map fst l).
Proof.
  induction l as [|[k' v] l IH]; cbn; [tauto|]. destruct (text_eqb k k') eqn:E; [discriminate|].
  intros H [->|I]; [rewrite text_eqb_refl in E; discriminate|apply (IH H I)].
Qed.
Lemma assoc_set_none {A} k v (l : list (text * A)) : assoc k l = None -> assoc_set l k v = l ++ [(k, v)].
Proof.
  induction l as [|[k' v'] l IH]; cbn; [reflexivity|]. destruct (text_eqb k k'); [discriminate|]. intros H. rewrite IH by exact H. reflexivity.
Qed.
Lemma assoc_app {A} k (l e : list (text * A)) v : assoc k l = Some v -> assoc k (l ++ e) = Some v.
Proof. induction l as [|[k' v'] l IH]; cbn; [discriminate|]. destruct (text_eqb k k'); auto. Qed.
Lemma assoc_last {A} k (l : list (text * A)) v : assoc k l = None -> assoc k (l ++ [(k, v)]) = Some v.
Proof. induction l as [|[k' v'] l IH]; cbn; [rewrite text_eqb_refl; reflexivity|]. destruct (text_eqb k k'); [discriminate|auto]. Qed.
Lemma numb_nil : numb []. Proof. split; [reflexivity|constructor]. Qed.
Lemma numb_snoc L k : numb L -> assoc k L = None -> numb (L ++ [(k, N.of_nat (List.length L))]).
Proof.
  intros [A B] H. split.
  - rewrite map_app, A, app_length. cbn [List.length map snd]. rewrite Nat.add_1_r, seq_S, map_app. reflexivity.
  - rewrite map_app. cbn. apply assoc_none_in in H.
    rewrite <- (rev_involutive (map fst L ++ [k])), rev_app_distr. apply NoDup_rev. cbn. constructor.
    + rewrite <- in_rev. exact H.
    + apply NoDup_rev. exact B.
Qed.
Lemma numb_lt L k i : numb L -> assoc k L = Some i -> (N.to_nat i < List.length L)%nat.
Proof.
  intros [A _] H.
  assert (I : In i (map snd L)).
  { clear A. induction L as [|[k' v] L IH]; cbn in *; [discriminate|]. destruct (text_eqb k k'); [left; congruence|right; auto]. }
  rewrite A in I. apply in_map_iff in I as (n & <- & I). apply in_seq in I. lia.
Qed.
Lemma assoc_in {A} k (l : list (text * A)) v : assoc k l = Some v -> In (k, v) l.
Proof.
  induction l as [|[k' v'] l IH]; cbn; [discriminate|]. destruct (text_eqb k k') eqn:E; [|auto].
  apply text_eqb_eq in E. intros H. left. congruence.
Qed.
Lemma in_nth_pair {A B} (l : list (A * B)) a b : In (a, b) l -> exists i, nth_error (map fst l) i = Some a /\ nth_error (map snd l) i = Some b.
Proof.
  intros H. apply In_nth_error in H as (i & E). exists i. rewrite !nth_error_map, E. split; reflexivity.
Qed.
Lemma numb_inj L k k' i : numb L -> assoc k L = Some i -> assoc k' L = Some i -> k = k'.
Proof.
  intros [A B] H H'. apply assoc_in, in_nth_pair in H as (p & P1 & P2). apply assoc_in, in_nth_pair in H' as (q & Q1 & Q2).
  rewrite A in P2, Q2. rewrite nth_error_map in P2, Q2.
  assert (D : forall j x, option_map N.of_nat (nth_error (seq 0 (Datatypes.length L)) j) = Some x -> x = N.of_nat j).
  { intros j x H. destruct (nth_error (seq 0 _) j) eqn:E; [|discriminate]. cbn in H. injection H as <-.
    f_equal. assert (Hl : (j < List.length (seq 0 (List.length L)))%nat) by (apply nth_error_Some; congruence).
    rewrite seq_length in Hl. rewrite (nth_error_nth' (seq 0 (List.length L)) 0%nat) in E by (rewrite seq_length; lia).
    rewrite seq_nth in E by lia. cbn in E. congruence. }
  apply D in P2. apply D in Q2. assert (p = q) by lia. subst. congruence.
Qed.

Lemma lx_set_variable s x s' : set_variable s x = PyOk s' -> lx s s'.
Proof.
  unfold set_variable. destruct (sy_global x); intros H; inv_gen.
  - apply lx_eq. cbn. eapply loc_name; eassumption.
  - destruct (assoc (sy_out x) (g_locals s)) as [k|] eqn:A.
    + rewrite A in H. inv_gen. apply lx_eq. reflexivity.
    + unfold declare_local in H. cbn [fst set_locals g_locals] in H. destruct (assoc _ _) in H; inv_gen.
      assert (E : g_locals (append_op (set_locals s (assoc_set (g_locals s) (sy_out x) (N.of_nat (List.length (g_locals s))))) SET_LOCAL [n])
              = g_locals s ++ [(sy_out x, N.of_nat (List.length (g_locals s)))])
        by (cbn; apply assoc_set_none; exact A).
      split; rewrite E; [apply prefix_app|]. intros N. apply numb_snoc; assumption.
Qed.
Lemma lx_finish C s x r s' : finish_assign C s x r = PyOk s' -> lx s s'.
Proof.
  unfold finish_assign. intros H. inv_gen. eapply lx_trans; [|eapply lx_set_variable; exact H].
  destruct r; inv_gen; try apply lx_refl. apply lx_eq. eapply loc_load_variable; eassumption.
Qed.

Definition lxp (C : gctx) (x : node) : Prop :=
  noig x = true ->
  (forall a b, gen C x a = PyOk b -> lx a b) /\
  (forall a b, block_with (gen C) x a = PyOk b -> lx a b).
Lemma lx_seqm {A} (f : A -> gst -> pyres gst) l :
  (forall y, In y l -> forall a b, f y a = PyOk b -> lx a b) ->
  forall a b, seqm f l a = PyOk b -> lx a b.
Proof.
  intros F. induction l as [|y l IH]; intros a b H; cbn in H; inv_gen; [apply lx_refl|].
  destruct (f y a) as [a1|] eqn:E; [|discriminate].
  eapply lx_trans; [eapply F; [left; reflexivity|exact E]|]. apply IH; [intros; eapply F; [right|]; eassumption|assumption].
Qed.
Lemma lx_seq C ch a b : Forall (lxp C) ch -> forallb noig ch = true -> seqm (gen C) ch a = PyOk b -> lx a b.
Proof.
  intros F N H. eapply lx_seqm; [|exact H]. intros y Hy. rewrite Forall_forall in F. rewrite forallb_forall in N.
  apply F; auto.
Qed.
Definition lxpp C x := lxp C x /\ subs (lxp C) x.
Lemma lxpp_all C l : Forall (lxpp C) l -> Forall (lxp C) l.
Proof. intros H. eapply Forall_impl; [|exact H]. intros a [X _]. exact X. Qed.

Ltac bl :=
  first [ eassumption | apply lx_refl |
  lazymatch goal with
  | |- lx _ (append_op ?s _ _) => apply (lx_via _ s); [|reflexivity]; bl
  | |- lx _ (set_line ?s _) => apply (lx_via _ s); [|reflexivity]; bl
  | |- lx _ (add_func ?s _) => apply (lx_via _ s); [|reflexivity]; bl
  | |- lx _ (add_reg ?s _) => apply (lx_via _ s); [|reflexivity]; bl
  | |- lx _ (leave ?s) => apply (lx_via _ s); [|reflexivity]; bl
  | |- lx _ (enter ?s _) => apply (lx_via _ s); [|reflexivity]; bl
  | |- lx _ (set_loop ?s _ _) => apply (lx_via _ s); [|reflexivity]; bl
  | |- lx _ (fold_left variant_index _ ?s) => apply (lx_via _ s); [|apply loc_variants]; bl
  | |- lx _ ?b => 
      match goal with
      | H : load_const _ _ = PyOk b |- _ => eapply lx_via; [|eapply loc_load_const; exact H]; clear H; bl
      | H : load_name _ _ = PyOk b |- _ => eapply lx_via; [|eapply loc_load_name; exact H]; clear H; bl
      | H : name_index _ _ = PyOk (b, _) |- _ => eapply lx_via; [|eapply loc_name; exact H]; clear H; bl
      | H : auto_cast _ _ _ = PyOk b |- _ => eapply lx_via; [|eapply loc_auto_cast; exact H]; clear H; bl
      | H : load_variable _ _ _ = PyOk b |- _ => eapply lx_via; [|eapply loc_load_variable; exact H]; clear H; bl
      | H : set_variable _ _ = PyOk b |- _ => eapply lx_trans; [|eapply lx_set_variable; exact H]; clear H; bl
      | H : finish_assign _ _ _ _ = PyOk b |- _ => eapply lx_trans; [|eapply lx_finish; exact H]; clear H; bl
      | H : new_label _ = (b, _) |- _ => eapply lx_via; [|eapply loc_new_label; exact H]; clear H; bl
      | H : patch_label _ _ = PyOk b |- _ => eapply lx_via; [|eapply loc_patch; exact H]; clear H; bl
      | H : gen _ ?e _ = PyOk b, I : lxp _ ?e |- _ =>
          eapply lx_trans; [|apply (proj1 (I ltac:(assumption))); exact H]; clear H; bl
      | H : block_with (gen _) ?e _ = PyOk b, I : lxp _ ?e |- _ =>
          eapply lx_trans; [|apply (proj2 (I ltac:(assumption))); exact H]; clear H; bl
      | H : seqm (gen _) _ _ = PyOk b, I : Forall (lxp _) _ |- _ =>
          eapply lx_trans; [|eapply (lx_seq _ _ _ _ I); [|exact H]; assumption]; clear H; bl
      end
  end ].
Ltac ihl := repeat match goal with
  | H : optP _ ?o |- _ => destruct o; cbn [optP] in H
  | H : lxpp _ ?x |- _ => destruct H as [? ?]
  | H : Forall (fun x => lxpp ?C x) ?l |- _ =>
      lazymatch goal with K : Forall (lxp C) l |- _ => fail | _ => pose proof (lxpp_all C l H) end
  end.
Ltac spl := repeat match goal with H : (_ && _)%bool = true |- _ => apply andb_prop in H as [? ?] end.
Lemma elif_lx C l x : lxpp C x -> noig x = true -> forall a b, gen_elif C l x a = PyOk b -> lx a b.
Proof.
  intros [_ S] N a b H. destruct x; try discriminate H. cbn [subs] in S. destruct S. cbn [gen_elif] in H. cbn [noig] in N. spl.
  inv_gen. bl.
Qed.
Lemma gen_lx C x : lxpp C x.
Proof.
  induction x using node_ind'; (split; [intros NI; try discriminate NI; (split; [|try (intros a b G; cbn [block_with] in G; discriminate)])|]);
    try (intros a b G; cbn [gen node_line] in G; discriminate); ihl;
    try exact I; try assumption; try (split; assumption).
  all: cbn [noig] in *; spl.
  all: try (destruct op, nl, nr).
  all: try destruct op.
  all: try destruct k.
  all: try (match goal with |- context [NPath _ _ ?p] => destruct p end).
  all: try (match goal with p : option (sym * bool) |- _ => destruct p as [[? ?]|] end).
  all: try (intros ga gb G; cbn [gen node_line] in G; inv_gen; bl; fail).
  - intros ga gb G; cbn [gen node_line] in G. destruct n; try discriminate G. cbn [subs noig] in *. inv_gen. bl.
  - intros ga gb G; cbn [gen node_line] in G. inv_gen.
    match goal with HH : seqm _ elifs ?p = PyOk ?q, K : new_label (set_line _ _) = (_, ?l) |- _ =>
      change (seqm (gen_elif C l) elifs p = PyOk q) in HH; rename HH into Hs; assert (T2 : lx p q) end.
    { eapply lx_seqm; [|exact Hs]. intros y Hy. rewrite Forall_forall in H. match goal with Q : forallb noig elifs = true |- _ => rewrite forallb_forall in Q end.
      apply elif_lx; auto. }
    clear Hs. assert (T : lx ga x3) by bl. pose proof (lx_trans _ _ _ T T2). clear T2 T. bl.
  - intros ga gb G; cbn [gen node_line] in G. inv_gen.
    match goal with HH : seqm _ elifs ?p = PyOk ?q, K : new_label (set_line _ _) = (_, ?l) |- _ =>
      change (seqm (gen_elif C l) elifs p = PyOk q) in HH; rename HH into Hs; assert (T2 : lx p q) end.
    { eapply lx_seqm; [|exact Hs]. intros y Hy. rewrite Forall_forall in H. match goal with Q : forallb noig elifs = true |- _ => rewrite forallb_forall in Q end.
      apply elif_lx; auto. }
    clear Hs. assert (T : lx ga x3) by bl. pose proof (lx_trans _ _ _ T T2). clear T2 T. bl.
  - intros ga gb G. cbn [block_with] in G. inv_gen. bl.
  - intros ga gb G; cbn [gen node_line] in G. inv_gen. destruct x2; try discriminate G. cbn [subs noig] in *. inv_gen. bl.
  - intros ga gb G; cbn [gen node_line] in G. destruct x3; try discriminate G. cbn [subs noig] in *. inv_gen. bl.
  - intros ga gb G; cbn [gen node_line] in G. destruct x3; try discriminate G. cbn [subs noig] in *. inv_gen. bl.
  - intros ga gb G; cbn [gen node_line] in G. inv_gen. apply lx_eq. cbn.
    match goal with K : patch_label _ _ = PyOk _ |- _ => apply loc_patch in K; rewrite K end. cbn.
    repeat match goal with K : new_label _ = _ |- _ => apply loc_new_label in K end. rewrite Heqp0. cbn. rewrite Heqp.
    match goal with K : name_index _ _ = _ |- _ => apply loc_name in K; rewrite K end. reflexivity.
  - intros ga gb G; cbn [gen node_line] in G. destruct (if q then _ else _); [|discriminate]. inv_gen. bl.
Qed.
