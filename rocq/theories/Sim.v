(** The relation between the interpreter's state and the machine's, and what
    the finished module says about code generated earlier. *)
From Verif Require Import Base BaseFacts Bson BsonFacts Opcode Spec_Opcode OpcodeFacts Dec Float Value Spec_Value ValueFacts
  Ast Spec_Tables TableFacts CodeGen VM GenFacts Sem SemWf GenLocals SimVM.

(** ** Generator states *)
Definition ipok (s : gst) : Prop := g_ip s = ops_size (g_ops s).
(** From [a] to [b] everything is kept, in particular labels in [K]. *)
Record mv (K : nat -> Prop) (a b : gst) : Prop := mkMv {
  mv_ops : prefix (g_ops a) (g_ops b);
  mv_consts : prefix (g_consts a) (g_consts b);
  mv_names : prefix (g_names a) (g_names b);
  mv_regs : prefix (g_regs a) (g_regs b);
  mv_vars : prefix (g_variants a) (g_variants b);
  mv_llen : (List.length (g_labels a) <= List.length (g_labels b))%nat;
  mv_lab : forall i, K i -> (i < List.length (g_labels a))%nat -> nth_error (g_labels b) i = nth_error (g_labels a) i;
  mv_loc : prefix (g_locals a) (g_locals b);
  mv_ip : ipok a -> ipok b
}.
Lemma mv_refl K a : mv K a a.
Proof. constructor; auto with gx. Qed.
Lemma mv_trans K a b c : mv K a b -> mv K b c -> mv K a c.
Proof.
  intros H J. constructor; try (eapply prefix_trans; [apply H|apply J]).
  - etransitivity; [apply H|apply J].
  - intros i Hi Hl. rewrite (mv_lab _ _ _ J) by (try assumption; pose proof (mv_llen _ _ _ H); lia). apply H; assumption.
  - intros X. apply J, H, X.
Qed.
Lemma mv_of_gx K a b : gx (List.length (g_labels a)) a b -> prefix (g_locals a) (g_locals b) -> mv K a b.
Proof.
  intros [h1 h2 h3 h4 h5 h6 h7 h8 h9] L. constructor; try assumption. intros i _ Hi. apply h8; assumption.
Qed.
Lemma mv_of_gs K a b : gs (List.length (g_labels a)) a b -> prefix (g_locals a) (g_locals b) -> mv K a b.
Proof. intros [X _]. apply mv_of_gx, X. Qed.
Lemma mv_op K s o a : mv K s (append_op s o a).
Proof. apply mv_of_gs; [apply gs_op|apply prefix_refl]. Qed.
Lemma mv_line K s l : mv K s (set_line s l).
Proof. apply mv_of_gs; [apply gs_line|apply prefix_refl]. Qed.
Lemma mv_reg K s r : mv K s (add_reg s r).
Proof. apply mv_of_gs; [apply gs_reg|apply prefix_refl]. Qed.
Lemma mv_scopes K s x : mv K s (set_scopes s x).
Proof. constructor; cbn; auto with gx. Qed.
Lemma mv_enter K s sc : mv K s (enter s sc). Proof. apply mv_scopes. Qed.
Lemma mv_leave K s : mv K s (leave s). Proof. apply mv_scopes. Qed.
Lemma mv_loop K s x y : mv K s (set_loop s x y).
Proof. constructor; cbn; auto with gx. Qed.
Lemma mv_variants K l s : mv K s (fold_left variant_index l s).
Proof. apply mv_of_gs; [apply gs_variants|rewrite loc_variants; apply prefix_refl]. Qed.
Lemma mv_new_label K s s' l : new_label s = (s', l) -> mv K s s'.
Proof.
  intros H. apply mv_of_gs; [apply (gs_new_label _ _ _ _ H)|]. apply loc_new_label in H. rewrite H. apply prefix_refl.
Qed.
Lemma mv_patch (K : nat -> Prop) s l s' : patch_label s l = PyOk s' -> ~ K (N.to_nat l) -> mv K s s'.
Proof.
  unfold patch_label. destruct (_ <? _)%N; [discriminate|]. intros H NK. apply pyok_inj in H. subst s'.
  constructor; cbn; auto with gx; rewrite ?list_set_length; auto. intros i Hi _. apply list_set_other. intros <-. auto.
Qed.
Lemma mv_const K s c s' i : const_index s c = PyOk (s', i) -> mv K s s'.
Proof. intros H. apply mv_of_gs; [eapply gs_const, H|]. apply loc_const in H. rewrite H. apply prefix_refl. Qed.
Lemma mv_name K s c s' i : name_index s c = PyOk (s', i) -> mv K s s'.
Proof. intros H. apply mv_of_gs; [eapply gs_name, H|]. apply loc_name in H. rewrite H. apply prefix_refl. Qed.
Lemma mv_load_const K s c s' : load_const s c = PyOk s' -> mv K s s'.
Proof. intros H. apply mv_of_gs; [eapply gs_load_const, H|]. apply loc_load_const in H. rewrite H. apply prefix_refl. Qed.
Lemma mv_load_name K s c s' : load_name s c = PyOk s' -> mv K s s'.
Proof. intros H. apply mv_of_gs; [eapply gs_load_name, H|]. apply loc_load_name in H. rewrite H. apply prefix_refl. Qed.
Lemma mv_load_variable K C s c s' : load_variable C s c = PyOk s' -> mv K s s'.
Proof. intros H. apply mv_of_gs; [eapply gs_load_variable, H|]. apply loc_load_variable in H. rewrite H. apply prefix_refl. Qed.
Lemma mv_auto_cast K C s c s' : auto_cast C s c = PyOk s' -> mv K s s'.
Proof. intros H. apply mv_of_gs; [eapply gs_auto_cast, H|]. apply loc_auto_cast in H. rewrite H. apply prefix_refl. Qed.
Lemma mv_set_variable K s c s' : set_variable s c = PyOk s' -> mv K s s'.
Proof. intros H. apply mv_of_gs; [eapply gs_set_variable, H|]. apply lx_set_variable in H. apply H. Qed.
Lemma mv_finish K C s x r s' : finish_assign C s x r = PyOk s' -> mv K s s'.
Proof. intros H. apply mv_of_gs; [eapply gs_finish, H|]. apply lx_finish in H. apply H. Qed.
Lemma mv_gen K C x s s' : noig x = true -> gen C x s = PyOk s' -> mv K s s'.
Proof.
  intros N H. apply mv_of_gs; [apply (proj1 (proj1 (gen_gs C x))), H|].
  apply (proj1 (proj1 (gen_lx C x) N)), H.
Qed.
Lemma mv_block K C x s s' : noig x = true -> block_with (gen C) x s = PyOk s' -> mv K s s'.
Proof.
  intros N H. apply mv_of_gs; [apply (proj2 (proj1 (gen_gs C x))), H|].
  apply (proj2 (proj1 (gen_lx C x) N)), H.
Qed.
Lemma mv_seqm {B} K (f : B -> gst -> pyres gst) l : (forall y, In y l -> forall a b, f y a = PyOk b -> mv K a b) ->
  forall a b, seqm f l a = PyOk b -> mv K a b.
Proof.
  intros F. induction l as [|y l IH]; intros a b H; cbn in H.
  - apply pyok_inj in H; subst. apply mv_refl.
  - destruct (f y a) as [a1|] eqn:Ex; [|discriminate].
    eapply mv_trans; [eapply F; [left; reflexivity|exact Ex]|]. apply IH; [intros; eapply F; [right|]; eassumption|assumption].
Qed.
Lemma mv_seq K C l s s' : forallb noig l = true -> seqm (gen C) l s = PyOk s' -> mv K s s'.
Proof.
  intros N. rewrite forallb_forall in N. apply mv_seqm. intros y Hy a b. apply (mv_gen K C y a b), N, Hy.
Qed.
Ltac nok := solve [let X := fresh in intros X; cbv beta in X; first [exact X | lia | cbn [append_op set_code set_line enter leave set_scopes set_loop g_labels] in X; lia]].
Ltac mvt :=
  first [ eassumption | apply mv_refl |
  lazymatch goal with
  | |- mv _ _ (append_op ?s _ _) => apply (mv_trans _ _ s); [|apply mv_op]; mvt
  | |- mv _ _ (set_line ?s _) => apply (mv_trans _ _ s); [|apply mv_line]; mvt
  | |- mv _ _ (add_reg ?s _) => apply (mv_trans _ _ s); [|apply mv_reg]; mvt
  | |- mv _ _ (enter ?s _) => apply (mv_trans _ _ s); [|apply mv_enter]; mvt
  | |- mv _ _ (leave ?s) => apply (mv_trans _ _ s); [|apply mv_leave]; mvt
  | |- mv _ _ (set_loop ?s _ _) => apply (mv_trans _ _ s); [|apply mv_loop]; mvt
  | |- mv _ _ (fold_left variant_index _ ?s) => apply (mv_trans _ _ s); [|apply mv_variants]; mvt
  | |- mv _ _ ?b =>
      match goal with
      | H : forall K, mv K _ b |- _ => eapply mv_trans; [|apply H]; mvt
      | H : load_const _ _ = PyOk b |- _ => eapply mv_trans; [|eapply mv_load_const; exact H]; mvt
      | H : load_name _ _ = PyOk b |- _ => eapply mv_trans; [|eapply mv_load_name; exact H]; mvt
      | H : name_index _ _ = PyOk (b, _) |- _ => eapply mv_trans; [|eapply mv_name; exact H]; mvt
      | H : const_index _ _ = PyOk (b, _) |- _ => eapply mv_trans; [|eapply mv_const; exact H]; mvt
      | H : auto_cast _ _ _ = PyOk b |- _ => eapply mv_trans; [|eapply mv_auto_cast; exact H]; mvt
      | H : load_variable _ _ _ = PyOk b |- _ => eapply mv_trans; [|eapply mv_load_variable; exact H]; mvt
      | H : set_variable _ _ = PyOk b |- _ => eapply mv_trans; [|eapply mv_set_variable; exact H]; mvt
      | H : finish_assign _ _ _ _ = PyOk b |- _ => eapply mv_trans; [|eapply mv_finish; exact H]; mvt
      | H : gen _ _ _ = PyOk b |- _ => eapply mv_trans; [|eapply mv_gen; [|exact H]; assumption]; mvt
      | H : block_with (gen _) _ _ = PyOk b |- _ => eapply mv_trans; [|eapply mv_block; [|exact H]; assumption]; mvt
      | H : seqm (gen _) _ _ = PyOk b |- _ => eapply mv_trans; [|eapply mv_seq; [|exact H]; assumption]; mvt
      | H : new_label _ = (b, _) |- _ => eapply mv_trans; [|eapply mv_new_label; exact H]; mvt
      | H : patch_label _ _ = PyOk b |- _ => eapply mv_trans; [|eapply mv_patch; [exact H|nok]]; mvt
      end
  end ].
Lemma new_label_eq s s' l : new_label s = (s', l) -> l = N.of_nat (List.length (g_labels s)) /\ g_labels s' = g_labels s ++ [g_ip s] /\
  List.length (g_labels s') = Datatypes.S (List.length (g_labels s)).
Proof. intros H. injection H as <- <-. cbn. rewrite app_length. cbn. repeat split; lia. Qed.
Lemma mv_elif (K : nat -> Prop) C l x s s' : noig x = true -> (forall i, K i -> (i < List.length (g_labels s))%nat) -> gen_elif C l x s = PyOk s' -> mv K s s'.
Proof.
  intros N KK H. destruct x; try discriminate H. cbn [gen_elif] in H. cbn [noig] in N. spl. inv_gen.
  destruct (new_label_eq _ _ _ Heqp) as (-> & _ & _).
  assert (~ K (N.to_nat (N.of_nat (List.length (g_labels s))))) by (rewrite Nat2N.id; intros X; apply KK in X; lia).
  eapply mv_trans; [|eapply mv_patch; eassumption]. mvt.
Qed.
Lemma ctx_gen C x s s' : gen C x s = PyOk s' -> same_ctx s s'.
Proof. intros H. apply (proj1 (proj1 (gen_gs C x))) in H. apply H. Qed.
Lemma ctx_block C x s s' : block_with (gen C) x s = PyOk s' -> same_ctx s s'.
Proof. intros H. apply (proj2 (proj1 (gen_gs C x))) in H. apply H. Qed.
Lemma ctx_seq C l : forall s s', seqm (gen C) l s = PyOk s' -> same_ctx s s'.
Proof.
  intros s s' H. assert (X : gs O s s'); [|apply X]. eapply gs_seqm; [|apply Nat.le_0_l|exact H].
  intros y _ a b Y. apply (proj1 (proj1 (gen_gs C y))), Y.
Qed.

(** ** [wf] excludes [iguala] *)
Definition kids (Q : node -> Prop) (x : node) : Prop :=
  match x with
  | NAssign _ _ _ r _ => Q r
  | NNamed _ _ e => Q e
  | NBlock _ ch => Forall Q ch
  | NSenaoSe _ c b => Q c /\ match b with NBlock _ ch => Forall Q ch | _ => True end
  | _ => True
  end.
Section WfNoig.
Variables (S : senv) (C : gctx) (m : option N) (calls : bool).
Definition wn (x : node) : Prop := forall lp g scs, wf S C m calls lp g scs x = true -> noig x = true.
Lemma wn_seq ch : Forall wn ch -> forall lp dc g scs, wf_seq (fun g y => wf S C m calls lp g scs y) dc g ch = true -> forallb noig ch = true.
Proof.
  induction 1; intros lp dc g scs H1; cbn in *; [reflexivity|]. apply andb_prop in H1 as [H1 H2].
  rewrite (H _ _ _ H1). eapply IHForall, H2.
Qed.
Lemma wn_all l lp g scs : Forall wn l -> forallb (wf S C m calls lp g scs) l = true -> forallb noig l = true.
Proof.
  intros F H. rewrite forallb_forall in *. rewrite Forall_forall in F. intros y Hy. eapply F, H; assumption.
Qed.
Ltac wnx := repeat match goal with
  | H : Forall (fun x => wn x /\ kids wn x) ?l |- _ =>
      let A := fresh in let B := fresh in
      assert (A : Forall wn l) by (eapply Forall_impl; [|exact H]; intros ? [X _]; exact X);
      assert (B : Forall (kids wn) l) by (eapply Forall_impl; [|exact H]; intros ? [_ X]; exact X); clear H
  | H : wn _ /\ kids wn _ |- _ => destruct H
  | H : optP (fun x => wn x /\ kids wn x) ?o |- _ => destruct o; cbn [optP] in H
  | H : (_ && _)%bool = true |- _ => apply andb_prop in H as [? ?]
  | |- (_ && _)%bool = true => apply andb_true_intro; split
  | H : wn ?x, K : wf _ _ _ _ _ _ _ ?x = true |- noig ?x = true => exact (H _ _ _ K)
  | H : Forall wn ?x, K : forallb _ ?x = true |- forallb noig ?x = true => exact (wn_all _ _ _ _ H K)
  end.
Ltac kid l y Hy := rewrite forallb_forall in *; rewrite Forall_forall in *; intros y Hy;
    match goal with Q : forall x, In x l -> match x with _ => _ end = true |- _ => specialize (Q _ Hy) end;
    match goal with Q : forall x, In x l -> kids wn x |- _ => specialize (Q _ Hy) end;
    destruct y; try discriminate; cbn [kids noig] in *; repeat match goal with Q : wn _ /\ _ |- _ => destruct Q end; wnx.
Ltac nblk := match goal with |- noig ?b = true => destruct b; try discriminate; cbn [kids noig] in *; eapply wn_seq; [|eassumption]; assumption end.
Lemma wf_noig x : wn x /\ kids wn x.
Proof.
  induction x using node_ind'; (split; [intros lp g scs W; cbn [wf noig] in *; try discriminate W|]); wnx; cbn [kids]; auto.
  all: try nblk.
  - destruct k; destruct x; try discriminate W; cbn [noig];
      try match type of W with (if ?b then _ else _) = true => destruct b; try discriminate W end; wnx; auto; kid args y Hy.
  - destruct k; destruct x; try discriminate W; cbn [noig];
      try match type of W with (if ?b then _ else _) = true => destruct b; try discriminate W end; wnx; auto; kid args y Hy.
  - destruct n; try discriminate W. cbn [noig kids] in *. wnx.
  - kid elifs y Hy. nblk.
  - kid elifs y Hy. nblk.
  - split; [assumption|]. destruct x2; cbn [kids] in *; auto.
  - destruct x2; try discriminate W. wnx.
  - destruct x2; try discriminate W. wnx. cbn [kids noig] in *. eapply wn_seq; [|eassumption]; assumption.
  - destruct x3; try discriminate W; destruct (resolve _ _); try discriminate W; wnx.
  - destruct x3; try discriminate W; destruct (resolve _ _); try discriminate W; wnx.
  - destruct x3; try discriminate W; destruct (resolve _ _); try discriminate W; wnx.
  - destruct x3; try discriminate W; destruct (resolve _ _); try discriminate W; wnx.
    cbn [kids noig] in *. eapply wn_seq; [|eassumption]; assumption.
  - destruct x3; try discriminate W; destruct (resolve _ _); try discriminate W; wnx.
  - destruct x3; try discriminate W; destruct (resolve _ _); try discriminate W; wnx.
  - destruct x3; try discriminate W; destruct (resolve _ _); try discriminate W; wnx.
    cbn [kids noig] in *. eapply wn_seq; [|eassumption]; assumption.
Qed.
End WfNoig.
