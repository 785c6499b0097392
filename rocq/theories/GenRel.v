(** Any relation between generator states that is kept by the generator's
    elementary actions is kept by the code of every tree. *)
From Verif Require Import Base BaseFacts Bson BsonFacts TableFacts Opcode Value Ast CodeGen GenFacts Spec_Code.

Lemma lines_all x : lines (fun _ => true) x = true.
Proof.
  induction x using node_ind'; cbn [lines andb];
    repeat match goal with
    | H : optP _ ?o |- _ => destruct o; cbn [optP] in H
    | H : lines _ _ = true |- _ => rewrite H; clear H
    | H : Forall _ ?l |- _ => assert (forallb (lines (fun _ => true)) l = true) by (apply forallb_forall; intros ? ?; rewrite Forall_forall in H; auto); clear H
    | H : forallb _ _ = true |- _ => rewrite H; clear H
    end; reflexivity.
Qed.

Record kept (p : Z -> bool) (R : gst -> gst -> Prop) : Prop := mkKept {
  kp_refl : forall a, R a a;
  kp_trans : forall a b c, R a b -> R b c -> R a c;
  kp_line : forall a l, p l = true -> R a (set_line a l);
  kp_const : forall a k b i, const_index a k = PyOk (b, i) -> R a b;
  kp_name : forall a k b i, name_index a k = PyOk (b, i) -> R a b;
  kp_var : forall a v, R a (variant_index a v);
  kp_op : forall a o args, R a (append_op a o args);
  kp_locals : forall a l, R a (set_locals a l);
  kp_new : forall a, R a (fst (new_label a));
  kp_patch : forall a l b, patch_label a l = PyOk b -> R a b;
  kp_scopes : forall a l, R a (set_scopes a l);
  kp_loop : forall a b c, R a (set_loop a b c);
  kp_reg : forall a r, R a (add_reg a r);
  kp_fun : forall a f k, fn_start f = nth k (g_labels a) 0%N -> R a (add_func a f)
}.

Section Kept.
Variable lp : Z -> bool.
Variable R : gst -> gst -> Prop.
Hypothesis K : kept lp R.
Let refl := kp_refl _ _ K.
Let trans := kp_trans _ _ K.

Lemma kr_new a b l : new_label a = (b, l) -> R a b.
Proof. intros H. replace b with (fst (new_label a)) by (rewrite H; reflexivity). apply (kp_new _ _ K). Qed.
Lemma kr_load_const a k b : load_const a k = PyOk b -> R a b.
Proof. intros H. unfold load_const in H. inv_gen. eapply trans; [eapply (kp_const _ _ K); eassumption|apply (kp_op _ _ K)]. Qed.
Lemma kr_load_name a k b : load_name a k = PyOk b -> R a b.
Proof. intros H. unfold load_name in H. inv_gen. eapply trans; [eapply (kp_name _ _ K); eassumption|apply (kp_op _ _ K)]. Qed.
Lemma kr_load_variable C a x b : load_variable C a x = PyOk b -> R a b.
Proof.
  intros H. unfold load_variable in H. inv_gen. eapply trans; [eapply (kp_name _ _ K); eassumption|].
  destruct (negb _); [destruct (assoc _ _); inv_gen; apply (kp_op _ _ K)|].
  destruct (sy_global x); inv_gen; [apply (kp_op _ _ K)|]. destruct (assoc _ _); inv_gen; apply (kp_op _ _ K).
Qed.
Lemma kr_auto_cast C a p b : auto_cast C a p = PyOk b -> R a b.
Proof.
  intros H. unfold auto_cast in H. destruct p; inv_gen; [|apply refl].
  eapply trans; [eapply kr_load_variable; eassumption|apply (kp_op _ _ K)].
Qed.
Lemma kr_set_variable a x b : set_variable a x = PyOk b -> R a b.
Proof.
  intros H. unfold set_variable in H. destruct (sy_global x); inv_gen.
  - eapply trans; [eapply (kp_name _ _ K); eassumption|apply (kp_op _ _ K)].
  - set (a' := match assoc (sy_out x) (g_locals a) with Some _ => a | None => fst (declare_local a x) end) in *.
    assert (T : R a a') by (unfold a'; destruct (assoc _ _); [apply refl|apply (kp_locals _ _ K)]).
    destruct (assoc _ (g_locals a')); inv_gen. eapply trans; [exact T|apply (kp_op _ _ K)].
Qed.
Lemma kr_finish C a x r b : finish_assign C a x r = PyOk b -> R a b.
Proof.
  intros H. unfold finish_assign in H. inv_gen. eapply trans; [|eapply kr_set_variable; exact H].
  destruct r; inv_gen; try apply refl. eapply kr_load_variable; eassumption.
Qed.
Lemma kr_variants vs : forall a, R a (fold_left variant_index vs a).
Proof. induction vs as [|v vs IH]; intros a; cbn; [apply refl|]. eapply trans; [apply (kp_var _ _ K)|apply IH]. Qed.
Lemma kr_seqm {A} (f : A -> gst -> pyres gst) l : (forall y, In y l -> forall a b, f y a = PyOk b -> R a b) ->
  forall a b, seqm f l a = PyOk b -> R a b.
Proof.
  intros F. induction l as [|y l IH]; intros a b H; cbn in H; inv_gen; [apply refl|].
  destruct (f y a) as [a1|] eqn:E; [|discriminate].
  eapply trans; [eapply F; [left; reflexivity|exact E]|]. apply IH; [intros; eapply F; [right|]; eassumption|assumption].
Qed.

Definition krp (C : gctx) (x : node) : Prop :=
  lines lp x = true ->
  (forall a b, gen C x a = PyOk b -> R a b) /\ (forall a b, block_with (gen C) x a = PyOk b -> R a b).
Definition krpp C x := krp C x /\ subs (krp C) x.
Lemma krpp_all C l : Forall (krpp C) l -> Forall (krp C) l.
Proof. intros H. eapply Forall_impl; [|exact H]. intros a [X _]. exact X. Qed.
Lemma kr_seq C ch a b : Forall (krp C) ch -> forallb (lines lp) ch = true -> seqm (gen C) ch a = PyOk b -> R a b.
Proof. intros F N H. eapply kr_seqm; [|exact H]. intros y Hy. rewrite Forall_forall in F. rewrite forallb_forall in N. apply F; auto. Qed.

Ltac kb :=
  first [ eassumption | apply refl |
  lazymatch goal with
  | |- R _ (append_op ?s _ _) => eapply trans; [|apply (kp_op _ _ K)]; kb
  | |- R _ (set_line ?s _) => eapply trans; [|apply (kp_line _ _ K); assumption]; kb
  | |- R _ (add_reg ?s _) => eapply trans; [|apply (kp_reg _ _ K)]; kb
  | |- R _ (leave ?s) => eapply trans; [|apply (kp_scopes _ _ K)]; kb
  | |- R _ (enter ?s _) => eapply trans; [|apply (kp_scopes _ _ K)]; kb
  | |- R _ (set_loop ?s _ _) => eapply trans; [|apply (kp_loop _ _ K)]; kb
  | |- R _ (set_locals ?s _) => eapply trans; [|apply (kp_locals _ _ K)]; kb
  | |- R _ (fold_left variant_index _ ?s) => eapply trans; [|apply kr_variants]; kb
  | |- R _ ?b => 
      match goal with
      | H : load_const _ _ = PyOk b |- _ => eapply trans; [|eapply kr_load_const; exact H]; clear H; kb
      | H : load_name _ _ = PyOk b |- _ => eapply trans; [|eapply kr_load_name; exact H]; clear H; kb
      | H : name_index _ _ = PyOk (b, _) |- _ => eapply trans; [|eapply (kp_name _ _ K); exact H]; clear H; kb
      | H : auto_cast _ _ _ = PyOk b |- _ => eapply trans; [|eapply kr_auto_cast; exact H]; clear H; kb
      | H : load_variable _ _ _ = PyOk b |- _ => eapply trans; [|eapply kr_load_variable; exact H]; clear H; kb
      | H : set_variable _ _ = PyOk b |- _ => eapply trans; [|eapply kr_set_variable; exact H]; clear H; kb
      | H : finish_assign _ _ _ _ = PyOk b |- _ => eapply trans; [|eapply kr_finish; exact H]; clear H; kb
      | H : new_label _ = (b, _) |- _ => eapply trans; [|eapply kr_new; exact H]; clear H; kb
      | H : patch_label _ _ = PyOk b |- _ => eapply trans; [|eapply (kp_patch _ _ K); exact H]; clear H; kb
      | H : gen _ ?e _ = PyOk b, I : krp _ ?e |- _ => eapply trans; [|apply (proj1 (I ltac:(assumption))); exact H]; clear H; kb
      | H : block_with (gen _) ?e _ = PyOk b, I : krp _ ?e |- _ => eapply trans; [|apply (proj2 (I ltac:(assumption))); exact H]; clear H; kb
      | H : seqm (gen _) _ _ = PyOk b, I : Forall (krp _) _ |- _ => eapply trans; [|eapply (kr_seq _ _ _ _ I); [|exact H]; assumption]; clear H; kb
      end
  end ].
Ltac ihk := repeat match goal with
  | H : optP _ ?o |- _ => destruct o; cbn [optP] in H
  | H : krpp _ ?x |- _ => destruct H as [? ?]
  | H : Forall (fun x => krpp ?C x) ?l |- _ =>
      lazymatch goal with X : Forall (krp C) l |- _ => fail | _ => pose proof (krpp_all C l H) end
  end.

Ltac spk := cbn [lines] in *; repeat match goal with H : (_ && _)%bool = true |- _ => apply andb_prop in H as [? ?] end.
Lemma elif_kr C l x : krpp C x -> lines lp x = true -> forall a b, gen_elif C l x a = PyOk b -> R a b.
Proof.
  intros [_ S] L a b H. destruct x; try discriminate H. cbn [subs] in S. destruct S. cbn [gen_elif] in H. spk. inv_gen. kb.
Qed.
Lemma bind_kr C body x a b : gen_bind C body x a = PyOk b -> R a b.
Proof. intros H. unfold gen_bind in H. inv_gen. destruct body; try discriminate H. inv_gen. kb. Qed.
Lemma arg_kr x a b : gen_arg x a = PyOk b -> R a b.
Proof. unfold gen_arg, declare_local. intros H. eapply trans; [|eapply kr_load_const; exact H]. apply (kp_locals _ _ K). Qed.
Lemma case_kr C v l x : krpp C x -> lines lp x = true -> forall a b, gen_case C v l x a = PyOk b -> R a b.
Proof.
  intros [_ S] L a b H. destruct x; try discriminate H. cbn [subs] in S. spk. cbn [gen_case] in H. inv_gen.
  assert (T : R a x1) by (destruct c; inv_gen; kb).
  assert (T2 : R a x3).
  { eapply trans; [instantiate (1 := x2); clear H1 H3; kb|].
    destruct c; inv_gen; try apply refl. destruct args; inv_gen; try apply refl.
    eapply trans; [eapply kr_seqm; [|eassumption]; intros y _; apply arg_kr|apply (kp_op _ _ K)]. }
  clear H1 H3. kb.
Qed.

Lemma gen_kr C x : krpp C x.
Proof.
  induction x using node_ind'; (split; [intros LN; (split; [|try (intros a b G; cbn [block_with] in G; discriminate)])|]);
    try (intros a b G; cbn [gen node_line] in G; discriminate); ihk;
    try exact I; try assumption; try (split; assumption).
  all: spk.
  all: try (destruct op, nl, nr).
  all: try destruct op.
  all: try destruct k.
  all: try (match goal with |- context [NPath _ _ ?p] => destruct p end).
  all: try (match goal with p : option (sym * bool) |- _ => destruct p as [[? ?]|] end).
  all: try (intros ga gb G; cbn [gen node_line] in G; inv_gen; kb; fail).
  all: try (intros ga gb G; cbn [gen node_line block_with] in G; discriminate G).
  - intros ga gb G; cbn [gen node_line] in G. destruct n; try discriminate G. cbn [subs] in *. spk. inv_gen. kb.
  - intros ga gb G; cbn [gen node_line] in G. inv_gen.
    match goal with HH : seqm _ elifs ?p = PyOk ?q, X : new_label (set_line _ _) = (_, ?l) |- _ =>
      change (seqm (gen_elif C l) elifs p = PyOk q) in HH; rename HH into Hs; assert (T2 : R p q);
      [eapply kr_seqm; [|exact Hs]; intros y Hy; rewrite Forall_forall in H; match goal with Q : forallb (lines lp) elifs = true |- _ => rewrite forallb_forall in Q end; apply elif_kr; auto|];
      clear Hs; assert (T : R ga p) by kb; pose proof (trans _ _ _ T T2); clear T2 T; kb end.
  - intros ga gb G; cbn [gen node_line] in G. inv_gen.
    match goal with HH : seqm _ elifs ?p = PyOk ?q, X : new_label (set_line _ _) = (_, ?l) |- _ =>
      change (seqm (gen_elif C l) elifs p = PyOk q) in HH; rename HH into Hs; assert (T2 : R p q);
      [eapply kr_seqm; [|exact Hs]; intros y Hy; rewrite Forall_forall in H; match goal with Q : forallb (lines lp) elifs = true |- _ => rewrite forallb_forall in Q end; apply elif_kr; auto|];
      clear Hs; assert (T : R ga p) by kb; pose proof (trans _ _ _ T T2); clear T2 T; kb end.
  - intros ga gb G. cbn [block_with] in G. inv_gen. kb.
  - intros ga gb G; cbn [gen node_line] in G. inv_gen. destruct x2; try discriminate G. cbn [subs] in *. spk. inv_gen. kb.
  - intros ga gb G; cbn [gen node_line] in G. destruct x3; try discriminate G. cbn [subs] in *. spk. inv_gen. kb.
  - intros ga gb G; cbn [gen node_line] in G. destruct x3; try discriminate G. cbn [subs] in *. spk. inv_gen. kb.
  - intros ga gb G; cbn [gen node_line] in G. inv_gen.
    assert (T : R (set_line ga ln) x1).
    { destruct bi; inv_gen; [kb|]. destruct x; try discriminate. cbn [subs] in *. spk. inv_gen. kb. }
    clear H2. eapply trans; [|eapply (kp_fun _ _ K); reflexivity]. pose proof (trans _ _ _ (kp_line _ _ K ga ln ltac:(assumption)) T). clear T. kb.
  - intros ga gb G; cbn [gen node_line] in G. destruct (if q then _ else _); [|discriminate]. inv_gen. kb.
  - intros ga gb G. cbn [gen node_line] in G. inv_gen.
    match goal with HH : seqm _ bs ?p = PyOk ?q |- _ => change (seqm (gen_bind C x) bs p = PyOk q) in HH; rename HH into Hs end.
    assert (T : R ga x0) by (eapply kr_seqm; [|exact Hs]; intros y _; apply bind_kr).
    clear Hs. kb.
  - intros ga gb G. cbn [gen node_line] in G. destruct cs as [|c0 cs0] eqn:Ecs; [discriminate|]. rewrite <- Ecs in *. clear Ecs.
    inv_gen.
    match goal with HH : seqm _ cs ?p = PyOk ?q |- _ => change (seqm (gen_case C v n0) cs p = PyOk q) in HH; rename HH into Hs end.
    assert (T : R g x) by (eapply kr_seqm; [|exact Hs]; intros y Hy; rewrite Forall_forall in H; match goal with Q : forallb (lines lp) cs = true |- _ => rewrite forallb_forall in Q end; apply case_kr; auto).
    clear Hs. assert (T0 : R ga g) by kb. pose proof (trans _ _ _ T0 T). clear T T0. kb.
  - intros ga gb G. cbn [gen node_line] in G. destruct cs as [|c0 cs0] eqn:Ecs; [discriminate|]. rewrite <- Ecs in *. clear Ecs.
    inv_gen.
    match goal with HH : seqm _ cs ?p = PyOk ?q |- _ => change (seqm (gen_case C v n) cs p = PyOk q) in HH; rename HH into Hs end.
    assert (T : R g x) by (eapply kr_seqm; [|exact Hs]; intros y Hy; rewrite Forall_forall in H; match goal with Q : forallb (lines lp) cs = true |- _ => rewrite forallb_forall in Q end; apply case_kr; auto).
    clear Hs. assert (T0 : R ga g) by kb. pose proof (trans _ _ _ T0 T). clear T T0. kb.
Qed.
Theorem gen_kept_in C x a b : lines lp x = true -> gen C x a = PyOk b -> R a b.
Proof. intros L. apply (proj1 (proj1 (gen_kr C x) L)). Qed.
Theorem seq_kept_in C l a b : forallb (lines lp) l = true -> seqm (gen C) l a = PyOk b -> R a b.
Proof. apply kr_seq, Forall_forall. intros x _. exact (proj1 (gen_kr C x)). Qed.
End Kept.
Theorem gen_kept R C x a b : kept (fun _ => true) R -> gen C x a = PyOk b -> R a b.
Proof. intros K. apply (gen_kept_in _ _ K), lines_all. Qed.
Theorem seq_kept R C l a b : kept (fun _ => true) R -> seqm (gen C) l a = PyOk b -> R a b.
Proof. intros K. apply (seq_kept_in _ _ K), forallb_forall. intros x _. apply lines_all. Qed.
