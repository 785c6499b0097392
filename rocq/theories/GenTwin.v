(** The code of a tree depends only on what [same_view] mentions: two runs of
    the generator side by side. *)
From Verif Require Import Base BaseFacts Bson BsonFacts TableFacts ValueFacts Opcode Value Ast CodeGen GenFacts Spec_Code.

Definition tw (r r' a b : gst) : Prop :=
  same_view a b /\ exists new, g_ops a = g_ops r ++ new /\ g_ops b = g_ops r' ++ new.
Definition two {A} (Q : A -> A -> Prop) (x y : pyres A) : Prop := forall a b, x = PyOk a -> y = PyOk b -> Q a b.
Lemma two_ok {A} (Q : A -> A -> Prop) a b : Q a b -> two Q (PyOk a) (PyOk b).
Proof. intros H ? ? E1 E2. apply pyok_inj in E1, E2. subst. exact H. Qed.
Lemma two_err {A} (Q : A -> A -> Prop) e y : two Q (PyErr e) y.
Proof. intros ? ? E1. discriminate. Qed.
Lemma two_err_r {A} (Q : A -> A -> Prop) e y : two Q y (PyErr e).
Proof. intros ? ? _ E1. discriminate. Qed.
Lemma two_bind {A B} (Q : A -> A -> Prop) (R : B -> B -> Prop) x y k k' :
  two Q x y -> (forall a b, Q a b -> two R (k a) (k' b)) -> two R (pbind x k) (pbind y k').
Proof.
  intros H K b b' E1 E2. apply pbind_ok in E1 as (a & X & E1). apply pbind_ok in E2 as (a' & Y & E2). exact (K _ _ (H _ _ X Y) _ _ E1 E2).
Qed.

Section Twin.
Variables r r' : gst.
Notation TW := (tw r r').
Definition twi (p q : gst * N) : Prop := TW (fst p) (fst q) /\ snd p = snd q.
Ltac tr := match goal with J : tw _ _ ?a ?b |- tw _ _ _ _ =>
  destruct J as [(?E1 & ?E2 & ?E3 & ?E4 & ?E5 & ?E6 & ?E7 & ?E8 & ?E9) (?nw & ?N1 & ?N2)]; split; [repeat split; cbn; rewrite ?app_length; cbn; congruence|] end.
Lemma tw_line a b l l' : TW a b -> TW (set_line a l) (set_line b l'). Proof. intros J. tr. exists nw. auto. Qed.
Lemma tw_loop a b x y : TW a b -> TW (set_loop a x y) (set_loop b x y). Proof. intros J. tr. exists nw. auto. Qed.
Lemma tw_consts a b x : TW a b -> TW (set_consts a x) (set_consts b x). Proof. intros J. tr. exists nw. auto. Qed.
Lemma tw_names a b x : TW a b -> TW (set_names a x) (set_names b x). Proof. intros J. tr. exists nw. auto. Qed.
Lemma tw_vars a b x : TW a b -> TW (set_variants a x) (set_variants b x). Proof. intros J. tr. exists nw. auto. Qed.
Lemma tw_locals a b x : TW a b -> TW (set_locals a x) (set_locals b x). Proof. intros J. tr. exists nw. auto. Qed.
Lemma tw_reg a b x : TW a b -> TW (add_reg a x) (add_reg b x). Proof. intros J. tr. exists nw. auto. Qed.
Lemma tw_func a b x y : TW a b -> TW (add_func a x) (add_func b y). Proof. intros J. tr. exists nw. auto. Qed.
Lemma tw_enter a b x : TW a b -> TW (enter a x) (enter b x). Proof. intros J. unfold enter. tr. exists nw. auto. Qed.
Lemma tw_leave a b : TW a b -> TW (leave a) (leave b). Proof. intros J. unfold leave. tr. exists nw. auto. Qed.
Lemma tw_op a b o args : TW a b -> TW (append_op a o args) (append_op b o args).
Proof. intros J. unfold append_op. tr. exists (nw ++ [(o, args)]). cbn. rewrite N1, N2, <- !app_assoc. auto. Qed.
Lemma tw_new a b : TW a b -> twi (new_label a) (new_label b).
Proof.
  intros J. unfold new_label. split; cbn [fst snd].
  - tr. exists nw. auto.
  - destruct J as [(?E1 & ?E2 & ?E3 & ?E4 & ?E5 & ?E6 & ?E7 & ?E8 & ?E9) _]. congruence.
Qed.
Lemma tw_patch a b l : TW a b -> two TW (patch_label a l) (patch_label b l).
Proof.
  intros J. unfold patch_label. destruct (_ <? _)%N; [apply two_err|]. destruct (_ <? _)%N; [apply two_err_r|]. apply two_ok.
  destruct J as [(E1 & E2 & E3 & E4 & E5 & E6 & E7 & E8 & E9) (nw & N1 & N2)]. split; [|exists nw; auto]. repeat split; cbn; try congruence. rewrite !list_set_length. exact E9.
Qed.
Lemma two_const a b k : TW a b -> two twi (const_index a k) (const_index b k).
Proof.
  intros J. unfold const_index. pose proof J as [(_ & E & _) _]. rewrite E. destruct (table_index _ _ _) as [t i]. destruct (_ <? _)%N; [|apply two_err].
  apply two_ok. split; [apply tw_consts, J|reflexivity].
Qed.
Lemma two_name a b k : TW a b -> two twi (name_index a k) (name_index b k).
Proof.
  intros J. unfold name_index. pose proof J as [(_ & _ & _ & E & _) _]. rewrite E. destruct (table_index _ _ _) as [t i]. destruct (_ <? _)%N; [|apply two_err].
  apply two_ok. split; [apply tw_names, J|reflexivity].
Qed.
Lemma tw_variant a b v : TW a b -> TW (variant_index a v) (variant_index b v).
Proof. intros J. unfold variant_index. pose proof J as [(_ & _ & E & _) _]. rewrite E. apply tw_vars, J. Qed.
Lemma tw_variants vs : forall a b, TW a b -> TW (fold_left variant_index vs a) (fold_left variant_index vs b).
Proof. induction vs as [|v vs IH]; intros a b J; [exact J|]. cbn. apply IH, tw_variant, J. Qed.
Lemma two_tag a b v : TW a b -> two eq (variant_tag a v) (variant_tag b v).
Proof. intros J. unfold variant_tag. pose proof J as [(_ & _ & E & _) _]. rewrite E. destruct (index_of _ _ _); [apply two_ok; reflexivity|apply two_err]. Qed.
Lemma two_load_const a b k : TW a b -> two TW (load_const a k) (load_const b k).
Proof. intros J. eapply two_bind; [apply two_const, J|]. intros [x i] [y j] [H E]. cbn in *. subst j. apply two_ok, tw_op, H. Qed.
Lemma two_load_name a b k : TW a b -> two TW (load_name a k) (load_name b k).
Proof. intros J. eapply two_bind; [apply two_name, J|]. intros [x i] [y j] [H E]. cbn in *. subst j. apply two_ok, tw_op, H. Qed.
Lemma tw_view a b : TW a b -> same_view a b.
Proof. intros [J _]. exact J. Qed.
Lemma two_load_variable C a b x : TW a b -> two TW (load_variable C a x) (load_variable C b x).
Proof.
  intros J. eapply two_bind; [apply two_name, J|]. intros [s i] [t j] [H E]. cbn in *. subst j.
  destruct (negb _); [destruct (assoc _ _); [apply two_ok, tw_op, H|apply two_err]|].
  destruct (sy_global x); [apply two_ok, tw_op, H|]. pose proof (tw_view _ _ H) as (E & _). rewrite E. destruct (assoc _ _); [apply two_ok, tw_op, H|apply two_err].
Qed.
Lemma two_auto_cast C a b p : TW a b -> two TW (auto_cast C a p) (auto_cast C b p).
Proof. intros J. destruct p; [|apply two_ok, J]. eapply two_bind; [apply two_load_variable, J|]. intros s t H. apply two_ok, tw_op, H. Qed.
Lemma two_set_variable a b x : TW a b -> two TW (set_variable a x) (set_variable b x).
Proof.
  intros J. unfold set_variable. destruct (sy_global x).
  - eapply two_bind; [apply two_name, J|]. intros [s i] [t j] [H E]. cbn in *. subst j. apply two_ok, tw_op, H.
  - pose proof (tw_view _ _ J) as (E & _). unfold declare_local. rewrite E. cbn [fst].
    set (s := match assoc (sy_out x) (g_locals b) with Some _ => a | None => _ end). set (t := match assoc (sy_out x) (g_locals b) with Some _ => b | None => _ end).
    assert (H : TW s t) by (unfold s, t; destruct (assoc _ _); [exact J|apply tw_locals, J]). clearbody s t.
    pose proof (tw_view _ _ H) as (E' & _). rewrite E'. destruct (assoc _ _); [apply two_ok, tw_op, H|apply two_err].
Qed.
Lemma two_finish C a b x rhs : TW a b -> two TW (finish_assign C a x rhs) (finish_assign C b x rhs).
Proof.
  intros J. eapply two_bind; [|intros s t H; apply two_set_variable, H].
  destruct rhs; try apply two_ok, J. apply two_load_variable, J.
Qed.
Lemma two_need {A} a b (f : list scope -> option A) k k' : TW a b -> (forall x, two TW (k x) (k' x)) ->
  two TW (need (f (g_scopes a)) k) (need (f (g_scopes b)) k').
Proof. intros J K. pose proof (tw_view _ _ J) as (_ & _ & _ & _ & _ & _ & _ & E & _). rewrite E. destruct (f _); [apply K|apply two_err]. Qed.
Lemma two_seqm {A} (f : A -> gst -> pyres gst) l : (forall y, In y l -> forall a b, TW a b -> two TW (f y a) (f y b)) ->
  forall a b, TW a b -> two TW (seqm f l a) (seqm f l b).
Proof.
  induction l as [|y l IH]; intros F a b J; [apply two_ok, J|]. cbn [seqm].
  intros c d E1 E2. destruct (f y a) as [a1|] eqn:X; [|discriminate]. destruct (f y b) as [b1|] eqn:Y; [|discriminate].
  eapply IH; [intros; apply F; [right; assumption|assumption]| |exact E1|exact E2]. eapply F; [left; reflexivity|exact J|exact X|exact Y].
Qed.

Definition twp (C : gctx) (x : node) : Prop :=
  (forall a b, TW a b -> two TW (gen C x a) (gen C x b)) /\ (forall a b, TW a b -> two TW (block_with (gen C) x a) (block_with (gen C) x b)).
Definition twpp C x := twp C x /\ subs (twp C) x.
Lemma twpp_all C l : Forall (twpp C) l -> Forall (twp C) l.
Proof. intros H. eapply Forall_impl; [|exact H]. intros a [X _]. exact X. Qed.
Lemma two_seq C l a b : Forall (twp C) l -> TW a b -> two TW (seqm (gen C) l a) (seqm (gen C) l b).
Proof. intros F. apply two_seqm. intros y I. rewrite Forall_forall in F. apply F, I. Qed.

Ltac twb := repeat first [ eassumption | apply tw_line | apply tw_loop | apply tw_locals | apply tw_reg | apply tw_func | apply tw_enter | apply tw_leave | apply tw_op | apply tw_variants ].
Ltac leaf := first [ apply two_load_const; twb | apply two_load_name; twb | apply two_load_variable; twb | apply two_auto_cast; twb | apply two_set_variable; twb | apply two_finish; twb | apply tw_patch; twb
  | match goal with I : twp _ ?e |- two _ (gen _ ?e _) _ => apply (proj1 I); twb | I : twp _ ?e |- two _ (block_with _ ?e _) _ => apply (proj2 I); twb
    | I : Forall (twp _) ?l |- two _ (seqm (gen _) ?l _) _ => apply (two_seq _ _ _ _ I); twb end ].
Ltac stp := cbv zeta; first [ leaf | apply two_err | apply two_ok; twb; fail
  | match goal with
    | |- two _ (pbind (name_index ?a ?k) _) (pbind (name_index ?b ?k) _) => eapply two_bind; [apply (two_name a b k); twb|intros [? ?] [? ?] [? ?]; cbn [fst snd] in *; subst]
    | |- two _ (pbind (variant_tag ?a ?k) _) (pbind (variant_tag ?b ?k) _) => eapply two_bind; [apply (two_tag a b k); twb|intros ? ? ?; subst]
    | |- two _ (pbind _ _) (pbind _ _) => eapply (two_bind TW); [|intros ? ? ?]
    | |- two _ (let (_, _) := new_label ?a in _) (let (_, _) := new_label ?b in _) =>
        let H := fresh in assert (H : twi (new_label a) (new_label b)) by (apply tw_new; twb); destruct (new_label a), (new_label b), H; cbn [fst snd] in *; subst
    end ].
Ltac iht := repeat match goal with
  | H : optP _ ?o |- _ => destruct o; cbn [optP] in H
  | H : twpp _ ?x |- _ => destruct H as [? ?]
  | H : Forall (fun x => twpp ?C x) ?l |- _ =>
      lazymatch goal with X : Forall (twp C) l |- _ => fail | _ => pose proof (twpp_all C l H) end
  end.
Lemma elif_two C l x : twpp C x -> forall a b, TW a b -> two TW (gen_elif C l x a) (gen_elif C l x b).
Proof. intros [_ S] a b J. destruct x; try apply two_err. cbn [subs] in S. destruct S. cbn [gen_elif]. repeat stp. Qed.
Lemma bind_two C body x a b : TW a b -> two TW (gen_bind C body x a) (gen_bind C body x b).
Proof.
  intros J. unfold gen_bind. stp; [stp|]. destruct body; try apply two_err.
  apply (two_need a0 b0 (fun s => resolve (sc :: s) (fst x))); [assumption|]. intros y. stp.
Qed.
Lemma arg_two x a b : TW a b -> two TW (gen_arg x a) (gen_arg x b).
Proof. intros J. unfold gen_arg, declare_local. pose proof (tw_view _ _ J) as (E & _). rewrite E. stp. Qed.
Lemma case_two C v l x : twpp C x -> forall a b, TW a b -> two TW (gen_case C v l x a) (gen_case C v l x b).
Proof.
  intros [_ S] a b J. destruct x; try apply two_err. cbn [subs] in S. cbn [gen_case]. repeat stp.
  - destruct c; repeat stp.
  - destruct c; repeat stp. destruct args; repeat stp. apply two_seqm; [intros; apply arg_two; assumption|assumption].
Qed.

Lemma gen_two C x : twpp C x.
Proof.
  induction x using node_ind'; (split; [(split; [|try (intros a b J; apply two_err)])|]);
    try (intros a b J; apply two_err); iht;
    try exact I; try assumption; try (split; assumption).
  all: try (destruct op, nl, nr).
  all: try destruct op.
  all: try destruct k.
  all: try (match goal with |- context [NPath _ _ ?p] => destruct p end).
  all: try (match goal with p : option (sym * bool) |- _ => destruct p as [[? ?]|] end).
  all: try (intros ga gb J; cbn [gen node_line]; repeat stp; fail).
  all: intros ga gb J; cbn [gen node_line block_with].
  - apply (two_need (set_line ga ln) (set_line gb ln) (fun sc => match s with Some x => Some x | None => resolve sc name end)); [twb|]. intros y. repeat stp.
  - destruct n; try apply two_err. cbn [subs] in *. repeat stp.
  - stp; [stp|]. apply (two_need a b (fun sc => resolve sc name)); [assumption|]. intros y. stp.
  - repeat stp. apply two_seqm; [|twb]. intros y I. rewrite Forall_forall in H. apply (elif_two C _ y (H y I)).
  - repeat stp. apply two_seqm; [|twb]. intros y I. rewrite Forall_forall in H. apply (elif_two C _ y (H y I)).
  - repeat stp.
  - stp. stp. assert (EQ : g_brk g1 = g_brk g2 /\ g_cont g1 = g_cont g2) by (match goal with K : TW g1 g2 |- _ => destruct (tw_view _ _ K) as (_ & _ & _ & _ & _ & E6 & E7 & _) end; auto).
    destruct EQ as [-> ->]. destruct x2; try apply two_err. cbn [subs] in *. repeat stp.
  - destruct x3; try apply two_err. cbn [subs] in *. apply (two_need (set_line ga ln) (set_line gb ln) (fun s => resolve (sc :: s) v)); [twb|]. intros y. repeat stp.
  - destruct x3; try apply two_err. cbn [subs] in *. apply (two_need (set_line ga ln) (set_line gb ln) (fun s => resolve (sc :: s) v)); [twb|]. intros y. repeat stp.
  - stp. stp. stp. assert (EQ : g_locals g3 = g_locals g4) by (match goal with K : TW g3 g4 |- _ => apply (tw_view _ _ K) end). rewrite EQ.
    eapply (two_bind TW); [|intros ? ? ?; repeat stp].
    destruct bi; [apply two_ok; twb|]. destruct x; try apply two_err. cbn [subs] in *. repeat stp.
  - destruct (tw_view _ _ J) as (_ & _ & _ & _ & _ & E6 & E7 & _). cbn [set_line g_brk g_cont]. rewrite E6, E7. destruct (if q then _ else _); [apply two_ok; twb|apply two_err].
  - stp. cbv zeta. assert (EQ : g_regs (add_reg g (n, fs)) = g_regs (add_reg g0 (n, fs))).
    { match goal with K : TW g g0 |- _ => destruct (tw_view _ _ K) as (_ & _ & _ & _ & E5 & _) end. cbn. rewrite E5. reflexivity. }
    rewrite EQ. match goal with |- two _ (need (resolve (g_scopes ?u) n) _) (need (resolve (g_scopes ?w) n) _) => apply (two_need u w (fun s => resolve s n)); [twb|] end. intros y. repeat stp.
  - eapply (two_bind TW); [|intros ? ? ?; stp]. apply two_seqm; [|assumption]. intros y _ a b. apply (bind_two C x y).
  - destruct cs as [|c0 cs0] eqn:Ecs; [apply two_err|]. rewrite <- Ecs in *. clear Ecs. stp. eapply (two_bind TW); [|intros ? ? ?; stp].
    apply two_seqm; [|assumption]. intros y I. rewrite Forall_forall in H. apply (case_two C _ _ y (H y I)).
  - destruct cs as [|c0 cs0] eqn:Ecs; [apply two_err|]. rewrite <- Ecs in *. clear Ecs. stp. eapply (two_bind TW); [|intros ? ? ?; stp].
    apply two_seqm; [|assumption]. intros y I. rewrite Forall_forall in H. apply (case_two C _ _ y (H y I)).
Qed.
End Twin.

Theorem gen_local C x a a' b b' : same_view a a' -> gen C x a = PyOk b -> gen C x a' = PyOk b' ->
  same_view b b' /\ exists new, g_ops b = g_ops a ++ new /\ g_ops b' = g_ops a' ++ new.
Proof.
  intros V G G'. assert (J : tw a a' a a') by (split; [exact V|exists []; rewrite !app_nil_r; auto]).
  exact (proj1 (proj1 (gen_two a a' C x)) a a' J b b' G G').
Qed.
Theorem gen_grows C x a b : gen C x a = PyOk b ->
  prefix (g_ops a) (g_ops b) /\ prefix (g_consts a) (g_consts b) /\ prefix (g_names a) (g_names b) /\ prefix (g_variants a) (g_variants b) /\
  prefix (g_funcs a) (g_funcs b) /\ prefix (g_regs a) (g_regs b) /\
  (forall i, (i < List.length (g_labels a))%nat -> nth_error (g_labels b) i = nth_error (g_labels a) i).
Proof. intros G. destruct (proj1 (proj1 (gen_gs C x)) a b G) as [[h1 h2 h3 h4 h5 h6 h7 h8 h9] _]. repeat (split; [assumption|]). intros i L. apply h8; assumption. Qed.
