(** The generator's tables of functions and variants: only the declarations
    of functions and unions add to them. *)
From Verif Require Import Base BaseFacts Bson BsonFacts TableFacts Opcode Value Ast CodeGen GenFacts Sem SemWf GenLocals Sim Compile SemProg.

Definition fx (a b : gst) : Prop := g_funcs b = g_funcs a /\ g_variants b = g_variants a.
Lemma fx_refl a : fx a a. Proof. split; reflexivity. Qed.
Lemma fx_trans a b c : fx a b -> fx b c -> fx a c.
Proof. unfold fx. intros [] []. split; congruence. Qed.
Ltac fr := split; reflexivity.
Lemma fx_const s c s' i : const_index s c = PyOk (s', i) -> fx s s'.
Proof. unfold const_index. destruct (table_index _ _ _). destruct (_ <? _)%N; [|discriminate]. intros H. apply pyok_inj in H. injection H as <- <-. fr. Qed.
Lemma fx_name s c s' i : name_index s c = PyOk (s', i) -> fx s s'.
Proof. unfold name_index. destruct (table_index _ _ _). destruct (_ <? _)%N; [|discriminate]. intros H. apply pyok_inj in H. injection H as <- <-. fr. Qed.
Lemma fx_load_const s c s' : load_const s c = PyOk s' -> fx s s'.
Proof. unfold load_const. intros H. inv_gen. eapply fx_trans; [eapply fx_const; eassumption|fr]. Qed.
Lemma fx_load_name s c s' : load_name s c = PyOk s' -> fx s s'.
Proof. unfold load_name. intros H. inv_gen. eapply fx_trans; [eapply fx_name; eassumption|fr]. Qed.
Lemma fx_load_variable C s c s' : load_variable C s c = PyOk s' -> fx s s'.
Proof.
  unfold load_variable. intros H. inv_gen. apply fx_name in H0. eapply fx_trans; [exact H0|].
  destruct (negb _); [destruct (assoc _ _)|destruct (sy_global c); [|destruct (assoc _ _)]]; inv_gen; fr.
Qed.
Lemma fx_auto_cast C s p s' : auto_cast C s p = PyOk s' -> fx s s'.
Proof. unfold auto_cast. destruct p; intros H; inv_gen; [|fr]. eapply fx_trans; [eapply fx_load_variable; eassumption|fr]. Qed.
Lemma fx_patch s l s' : patch_label s l = PyOk s' -> fx s s'.
Proof. unfold patch_label. destruct (_ <? _)%N; intros H; inv_gen. fr. Qed.
Lemma fx_new_label s l s' : new_label s = (s', l) -> fx s s'.
Proof. intros H. injection H as <- <-. fr. Qed.
Lemma fx_set_variable s x s' : set_variable s x = PyOk s' -> fx s s'.
Proof.
  unfold set_variable. destruct (sy_global x); intros H; inv_gen.
  - eapply fx_trans; [eapply fx_name; eassumption|fr].
  - destruct (assoc (sy_out x) (g_locals s)) as [k|] eqn:A.
    + rewrite A in H. inv_gen. fr.
    + unfold declare_local in H. cbn [fst set_locals g_locals] in H. destruct (assoc _ _) in H; inv_gen. fr.
Qed.
Lemma fx_finish C s x r s' : finish_assign C s x r = PyOk s' -> fx s s'.
Proof.
  unfold finish_assign. intros H. inv_gen. eapply fx_trans; [|eapply fx_set_variable; exact H].
  destruct r; inv_gen; try apply fx_refl. eapply fx_load_variable; eassumption.
Qed.

Definition fxp (C : gctx) (x : node) : Prop :=
  nofn x = true ->
  (forall a b, gen C x a = PyOk b -> fx a b) /\
  (forall a b, block_with (gen C) x a = PyOk b -> fx a b).
Lemma fx_seqm {A} (f : A -> gst -> pyres gst) l :
  (forall y, In y l -> forall a b, f y a = PyOk b -> fx a b) ->
  forall a b, seqm f l a = PyOk b -> fx a b.
Proof.
  intros F. induction l as [|y l IH]; intros a b H; cbn in H; inv_gen; [apply fx_refl|].
  destruct (f y a) as [a1|] eqn:E; [|discriminate].
  eapply fx_trans; [eapply F; [left; reflexivity|exact E]|]. apply IH; [intros; eapply F; [right|]; eassumption|assumption].
Qed.
Lemma fx_seq C ch a b : Forall (fxp C) ch -> forallb nofn ch = true -> seqm (gen C) ch a = PyOk b -> fx a b.
Proof.
  intros F N H. eapply fx_seqm; [|exact H]. intros y Hy. rewrite Forall_forall in F. rewrite forallb_forall in N.
  apply F; auto.
Qed.
Definition fxpp C x := fxp C x /\ subs (fxp C) x.
Lemma fxpp_all C l : Forall (fxpp C) l -> Forall (fxp C) l.
Proof. intros H. eapply Forall_impl; [|exact H]. intros a [X _]. exact X. Qed.

Ltac fv s := apply (fx_trans _ s); [|fr].
Ltac bl :=
  first [ eassumption | apply fx_refl |
  lazymatch goal with
  | |- fx _ (append_op ?s _ _) => fv s; bl
  | |- fx _ (set_line ?s _) => fv s; bl
  | |- fx _ (add_reg ?s _) => fv s; bl
  | |- fx _ (leave ?s) => fv s; bl
  | |- fx _ (enter ?s _) => fv s; bl
  | |- fx _ (set_loop ?s _ _) => fv s; bl
  | |- fx _ ?b => 
      match goal with
      | H : load_const _ _ = PyOk b |- _ => eapply fx_trans; [|eapply fx_load_const; exact H]; clear H; bl
      | H : load_name _ _ = PyOk b |- _ => eapply fx_trans; [|eapply fx_load_name; exact H]; clear H; bl
      | H : name_index _ _ = PyOk (b, _) |- _ => eapply fx_trans; [|eapply fx_name; exact H]; clear H; bl
      | H : auto_cast _ _ _ = PyOk b |- _ => eapply fx_trans; [|eapply fx_auto_cast; exact H]; clear H; bl
      | H : load_variable _ _ _ = PyOk b |- _ => eapply fx_trans; [|eapply fx_load_variable; exact H]; clear H; bl
      | H : set_variable _ _ = PyOk b |- _ => eapply fx_trans; [|eapply fx_set_variable; exact H]; clear H; bl
      | H : finish_assign _ _ _ _ = PyOk b |- _ => eapply fx_trans; [|eapply fx_finish; exact H]; clear H; bl
      | H : new_label _ = (b, _) |- _ => eapply fx_trans; [|eapply fx_new_label; exact H]; clear H; bl
      | H : patch_label _ _ = PyOk b |- _ => eapply fx_trans; [|eapply fx_patch; exact H]; clear H; bl
      | H : gen _ ?e _ = PyOk b, I : fxp _ ?e |- _ =>
          eapply fx_trans; [|apply (proj1 (I ltac:(assumption))); exact H]; clear H; bl
      | H : block_with (gen _) ?e _ = PyOk b, I : fxp _ ?e |- _ =>
          eapply fx_trans; [|apply (proj2 (I ltac:(assumption))); exact H]; clear H; bl
      | H : seqm (gen _) _ _ = PyOk b, I : Forall (fxp _) _ |- _ =>
          eapply fx_trans; [|eapply (fx_seq _ _ _ _ I); [|exact H]; assumption]; clear H; bl
      end
  end ].
Ltac ihl := repeat match goal with
  | H : optP _ ?o |- _ => destruct o; cbn [optP] in H
  | H : fxpp _ ?x |- _ => destruct H as [? ?]
  | H : Forall (fun x => fxpp ?C x) ?l |- _ =>
      lazymatch goal with K : Forall (fxp C) l |- _ => fail | _ => pose proof (fxpp_all C l H) end
  end.
Ltac spl := repeat match goal with H : (_ && _)%bool = true |- _ => apply andb_prop in H as [? ?] end.
Lemma elif_fx C l x : fxpp C x -> nofn x = true -> forall a b, gen_elif C l x a = PyOk b -> fx a b.
Proof.
  intros [_ S] N a b H. destruct x; try discriminate H. cbn [subs] in S. destruct S. cbn [gen_elif] in H. cbn [nofn] in N. spl.
  inv_gen. bl.
Qed.
Lemma gen_fx C x : fxpp C x.
Proof.
  induction x using node_ind'; (split; [intros NI; try discriminate NI; (split; [|try (intros a b G; cbn [block_with] in G; discriminate)])|]);
    try (intros a b G; cbn [gen node_line] in G; discriminate); ihl;
    try exact I; try assumption; try (split; assumption).
  all: cbn [nofn] in *; spl.
  all: try (destruct op, nl, nr).
  all: try destruct op.
  all: try destruct k.
  all: try (match goal with |- context [NPath _ _ ?p] => destruct p end).
  all: try (match goal with p : option (sym * bool) |- _ => destruct p as [[? ?]|] end).
  all: try (intros ga gb G; cbn [gen node_line] in G; inv_gen; bl; fail).
  - intros ga gb G; cbn [gen node_line] in G. destruct n; try discriminate G. cbn [subs nofn] in *. inv_gen. bl.
  - intros ga gb G; cbn [gen node_line] in G. inv_gen.
    match goal with HH : seqm _ elifs ?p = PyOk ?q, K : new_label (set_line _ _) = (_, ?l) |- _ =>
      change (seqm (gen_elif C l) elifs p = PyOk q) in HH; rename HH into Hs; assert (T2 : fx p q) end.
    { eapply fx_seqm; [|exact Hs]. intros y Hy. rewrite Forall_forall in H. match goal with Q : forallb nofn elifs = true |- _ => rewrite forallb_forall in Q end.
      apply elif_fx; auto. }
    clear Hs. assert (T : fx ga x3) by bl. pose proof (fx_trans _ _ _ T T2). clear T2 T. bl.
  - intros ga gb G; cbn [gen node_line] in G. inv_gen.
    match goal with HH : seqm _ elifs ?p = PyOk ?q, K : new_label (set_line _ _) = (_, ?l) |- _ =>
      change (seqm (gen_elif C l) elifs p = PyOk q) in HH; rename HH into Hs; assert (T2 : fx p q) end.
    { eapply fx_seqm; [|exact Hs]. intros y Hy. rewrite Forall_forall in H. match goal with Q : forallb nofn elifs = true |- _ => rewrite forallb_forall in Q end.
      apply elif_fx; auto. }
    clear Hs. assert (T : fx ga x3) by bl. pose proof (fx_trans _ _ _ T T2). clear T2 T. bl.
  - intros ga gb G. cbn [block_with] in G. inv_gen. bl.
  - intros ga gb G; cbn [gen node_line] in G. inv_gen. destruct x2; try discriminate G. cbn [subs nofn] in *. inv_gen. bl.
  - intros ga gb G; cbn [gen node_line] in G. destruct x3; try discriminate G. cbn [subs nofn] in *. inv_gen. bl.
  - intros ga gb G; cbn [gen node_line] in G. destruct x3; try discriminate G. cbn [subs nofn] in *. inv_gen. bl.
  - intros ga gb G; cbn [gen node_line] in G. destruct (if q then _ else _); [|discriminate]. inv_gen. bl.
Qed.

