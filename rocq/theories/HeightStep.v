(** What one instruction does to the height of the operand stack. *)
From Verif Require Import Base BaseFacts Bson Opcode OpcodeFacts Value Ast CodeGen VM Spec_Code Spec_Height.

Section S.
Variables (E : ext) (P : program).
Definition sameish (s s' : state) (d : Z) : Prop := s_sp s' = (s_sp s + d)%Z /\ s_frames s' = s_frames s /\ s_ctx s' = s_ctx s.
Lemma push_h s v : sameish s (op_push s v) 1.
Proof. unfold op_push, sameish. destruct (_ =? _)%Z; [|destruct (_ <? _)%Z]; cbn; auto. Qed.
Lemma pop_h s v s' : op_pop s = Some (v, s') -> sameish s s' (-1).
Proof.
  unfold op_pop, sameish. destruct (_ =? _)%Z; [|destruct (_ <? _)%Z]; [destruct (vget _ _)..|]; try discriminate; intros [= <- <-]; cbn; repeat split; lia.
Qed.
Lemma same_trans s a b x y z : sameish s a x -> sameish a b y -> (x + y)%Z = z -> sameish s b z.
Proof. intros (?&?&?) (?&?&?) <-. unfold sameish. repeat split; try congruence. lia. Qed.
Definition hres (s : state) (d : Z) (r : xres) : Prop := match r with XOk s' => sameish s s' d | _ => True end.
Lemma h_pop s0 s d x k : sameish s0 s x -> (forall v s', sameish s0 s' (x - 1) -> hres s0 d (k v s')) -> hres s0 d (xpop s k).
Proof. intros S H. unfold xpop. destruct (op_pop s) as [[v s']|] eqn:Q; [|exact I]. apply H. eapply same_trans; [exact S|eapply pop_h, Q|lia]. Qed.
Lemma h_opt {A} s0 d (o : option A) k : (forall a, hres s0 d (k a)) -> hres s0 d (xopt o k).
Proof. intros H. destruct o; cbn; auto. Qed.
Lemma h_lift {A} s0 s d (o : vres A) k : (forall a, hres s0 d (k a)) -> hres s0 d (xlift s o k).
Proof. intros H. destruct o; cbn; auto. Qed.
Lemma h_val s0 s d x r : sameish s0 s x -> (x + 1)%Z = d -> hres s0 d (xval s r).
Proof. intros S H. destruct r; cbn; auto. eapply same_trans; [exact S|apply push_h|exact H]. Qed.
Lemma h_push s0 s d x v : sameish s0 s x -> (x + 1)%Z = d -> hres s0 d (XOk (op_push s v)).
Proof. intros S H. cbn. eapply same_trans; [exact S|apply push_h|exact H]. Qed.
Lemma h_refl s : sameish s s 0. Proof. unfold sameish. repeat split; lia. Qed.
Lemma h_world s0 s x w : sameish s0 s x -> sameish s0 (with_world s w) x. Proof. intros (?&?&?). unfold sameish. auto. Qed.
Lemma h_stack s0 s x vs sp y : sameish s0 s x -> (sp = s_sp s0 + y)%Z -> sameish s0 (with_stack s vs sp) y. Proof. intros (?&?&?) ?. unfold sameish. auto. Qed.
Lemma h_globs s0 s x m g : sameish s0 s x -> sameish s0 (set_globs s m g) x. Proof. intros (?&?&?). unfold sameish, set_globs. destruct m; auto. Qed.
Definition delta (o : opcode) (args : list N) : Z := (Z.of_nat (gives o args) - Z.of_nat (takes o args))%Z.
Lemma h_to s0 s x y : sameish s0 s x -> x = y -> sameish s0 s y. Proof. congruence. Qed.
Lemma h_stack' s0 s x vs sp : sameish s0 s x -> sameish s0 (with_stack s vs sp) (sp - s_sp s0). Proof. intros H. eapply h_stack; [exact H|lia]. Qed.
Lemma h_pushed s0 s x v : sameish s0 s x -> sameish s0 (op_push s v) (x + 1). Proof. intros H. eapply same_trans; [exact H|apply push_h|lia]. Qed.
Ltac arith := repeat match goal with
  | H : sameish ?a ?b _ |- _ => lazymatch a with b => fail | _ => idtac end; let K := fresh in pose proof (proj1 H) as K; clear H
  | H : (_ =? _)%N = true |- _ => apply N.eqb_eq in H
  | H : (_ =? _)%N = false |- _ => apply N.eqb_neq in H
  end; repeat match goal with
  | |- context [Nat.eqb ?a ?b] => destruct (Nat.eqb_spec a b)
  | |- context [Nat.leb ?a ?b] => destruct (Nat.leb_spec a b)
  end; cbn [s_sp with_stack with_world] in *; rewrite ?(proj1 (push_h _ _)); cbn [s_sp with_stack with_world] in *; lia.
Ltac sm := match goal with
  | |- sameish _ (op_push _ _) _ => apply h_pushed; sm
  | |- sameish _ (with_world _ _) _ => apply h_world; sm
  | |- sameish _ (set_globs _ _ _) _ => apply h_globs; sm
  | |- sameish _ (with_stack _ _ _) _ => eapply h_stack'; sm
  | H : sameish _ ?s _ |- sameish _ ?s _ => exact H
  | |- sameish ?s ?s _ => apply h_refl
  end.
Ltac hs1 := match goal with
  | |- True => exact I
  | |- hres _ _ XPanic => exact I
  | |- hres _ _ (XErr _ _) => exact I
  | |- hres _ _ (XHalt _) => exact I
  | |- hres _ _ (xopt _ _) => apply h_opt; intros ?
  | |- hres _ _ (xlift _ _ _) => apply h_lift; intros ?
  | |- hres _ _ (xpop _ _) => eapply h_pop; [sm|intros ? ? ?]
  | |- hres _ _ (xval _ _) => eapply h_val; [sm|arith]
  | |- hres _ _ (XOk (op_push _ _)) => eapply h_push; [sm|arith]
  | |- hres _ _ (XOk _) => cbn [hres]; eapply h_to; [sm|arith]
  | |- hres _ _ (if ?b then _ else _) => destruct b eqn:?
  | |- hres _ _ (let (_, _) := halloc ?a ?b in _) => destruct (halloc a b)
  | |- hres _ _ (match ?v with _ => _ end) => is_var v; destruct v
  end.
Ltac hs := repeat hs1.

(** Instructions other than jumps, calls and returns: the frames stay as they are. *)
Lemma plain_h o args s : is_jump o = false -> o <> CALL_FUNCTION -> o <> RETURN -> hres s (delta o args) (exec_op E P o args s).
Proof.
  intros J NC NR. unfold exec_op. apply h_opt. intros m.
  destruct o; try discriminate J; try contradiction; clear NC NR J; unfold delta; cbn [takes gives is_binop].
  all: generalize (nth 0 args 0%N); intros a0.
  all: try solve [hs].
  apply h_opt. intros idxvs. eapply h_pop; [sm|]. intros obj s1 S1. destruct obj; try exact I. destruct args0 as [vargs|]; [|exact I].
  eapply h_to with (y := (Z.of_nat 0 - Z.of_nat (N.to_nat a0 + 1))%Z) in S1; [|lia]. revert s1 S1. generalize (Z.of_nat 0 - Z.of_nat (N.to_nat a0 + 1))%Z. intros d. generalize 0. induction idxvs as [|iv l IH]; intros i s1 S1; [exact S1|]. hs1. hs1. hs1. apply IH.
  eapply h_stack; [exact S1|]. apply (proj1 S1).
Qed.
Lemma decodes_in code off l : decodes code off l -> forall k o a, In (k, o, a) l -> exists n, (k = off + N.of_nat n)%N /\ exists j, vm_fetch (skipn n code) = Some (o, a, j) /\ 0 < j.
Proof.
  induction 1 as [|code off o args n l F L D IH]; intros k o' a' I; [destruct I|]. destruct I as [I|I].
  - injection I as <- <- <-. exists 0. split; [lia|]. exists n. cbn. split; [exact F|lia].
  - destruct (IH _ _ _ I) as (q & -> & j & F' & J). exists (n + q). split; [lia|]. exists j. split; [|exact J].
    rewrite <- F'. f_equal. clear. revert code. induction n; intros [|x code]; cbn; auto. destruct q; reflexivity.
Qed.
Lemma fetch_size c o a n : vm_fetch c = Some (o, a, n) -> N.of_nat n = op_size o.
Proof.
  destruct c as [|b c]; cbn; [discriminate|]. destruct (opcode_of_byte b) as [o'|]; [|discriminate]. destruct (take _ _) as [[x y]|]; [|discriminate]. intros [= <- _ <-]. now rewrite op_size_kind.
Qed.

(** ** One instruction *)
Lemma jump_h o args s s' f r : is_jump o = true -> s_frames s = f :: r -> exec_op E P o args s = XOk s' ->
  s_sp s' = (s_sp s + delta o args)%Z /\ s_ctx s' = s_ctx s /\ exists f', s_frames s' = f' :: r /\ f_bp f' = f_bp f /\ f_mod f' = f_mod f /\
  (f_ip f' = nth 0 args 0%N \/ falls o = true /\ f_ip f' = f_ip f).
Proof.
  intros J F X. unfold exec_op in X. destruct (get_module _ _); [|discriminate]. cbn [xopt] in X. destruct o; try discriminate J; unfold delta; cbn [takes gives].
  - injection X as <-. unfold set_top_ip. rewrite F. cbn. split; [lia|]. split; [reflexivity|]. eexists. split; [reflexivity|]. cbn. auto.
  - unfold xpop in X. destruct (op_pop s) as [[w s1]|] eqn:Q; [|discriminate]. destruct (pop_h _ _ _ Q) as (Q1 & Q2 & Q3).
    assert (D : s' = set_top_ip s1 (nth 0 args 0%N) \/ s' = s1) by (destruct w as [| |[]| | | | | | | | |]; injection X as <-; auto). destruct D as [-> | ->].
    + unfold set_top_ip. rewrite Q2, F. cbn. split; [lia|]. split; [exact Q3|]. eexists. split; [reflexivity|]. cbn. auto.
    + rewrite Q2, F. split; [lia|]. split; [exact Q3|]. eexists. split; [reflexivity|]. auto.
Qed.
Lemma native_h n v s s1 s' : op_pop s = Some (v, s1) -> (forall f, v <> VFunc f) -> call_function E s n = XOk s' -> sameish s s' (delta CALL_FUNCTION [n]).
Proof.
  intros Q NV X. unfold call_function, xpop in X. rewrite Q in X. apply pop_h in Q. destruct v; try discriminate X; [exfalso; eapply NV; reflexivity|].
  destruct (if (0 <? Z.of_N n)%Z then slice _ _ _ else _); [|discriminate]. cbn [xopt] in X. destruct (native _ _ _ _) as [[rv w]| |]; try discriminate X. cbn [xlift] in X. injection X as <-.
  eapply h_to; [eapply h_stack', h_pushed, h_world, h_stack', Q|]. rewrite (proj1 (push_h _ _)). cbn [s_sp with_world with_stack]. unfold delta. cbn [takes gives nth]. rewrite (proj1 Q). destruct (Z.ltb_spec 0 (Z.of_N n)); lia.
Qed.
(** A call of a function of the language. *)
Lemma call_h n fn s s1 s' : op_pop s = Some (VFunc fn, s1) -> call_function E s n = XOk s' ->
  exists c, s_frames s' = c :: s_frames s /\ f_ip c = fn_start fn /\ f_mod c = fn_mod fn /\ s_ctx s' = match fn_mod fn with Some i => Some i | None => s_ctx s end /\
    (f_bp c = s_sp s - Z.of_N n \/ f_bp c = -1 /\ n = 0%N /\ s_sp s' = s_sp s - 1)%Z.
Proof.
  intros Q X. unfold call_function, xpop in X. rewrite Q in X. destruct (pop_h _ _ _ Q) as (Q1 & Q2 & Q3).
  assert (FR : forall k, s_frames (reserve s1 k) = s_frames s1 /\ s_ctx (reserve s1 k) = s_ctx s1) by (intros; split; reflexivity).
  destruct (Z.ltb_spec 0 (Z.of_N n)) as [Z0|Z0]; [|destruct (0 <? fn_locals fn)%N].
  - destruct (fn_locals fn <? n)%N; [discriminate|]. cbn [xopt] in X.
    match type of X with (if ?b then _ else _) = _ => destruct b; [discriminate|] end. injection X as <-. eexists. cbn [with_frames s_frames s_ctx s_sp f_ip f_mod f_bp].
    split; [f_equal; destruct (fn_mod fn); exact Q2|]. split; [reflexivity|]. split; [reflexivity|]. split; [destruct (fn_mod fn); [reflexivity|exact Q3]|]. left. cbn [f_bp]. lia.
  - cbn [xopt] in X. match type of X with (if ?b then _ else _) = _ => destruct b; [discriminate|] end. injection X as <-. eexists. cbn [with_frames s_frames s_ctx s_sp f_ip f_mod f_bp].
    split; [f_equal; destruct (fn_mod fn); exact Q2|]. split; [reflexivity|]. split; [reflexivity|]. split; [destruct (fn_mod fn); [reflexivity|exact Q3]|]. left. cbn [f_bp]. lia.
  - cbn [xopt] in X. match type of X with (if ?b then _ else _) = _ => destruct b; [discriminate|] end. injection X as <-. eexists. cbn [with_frames s_frames s_ctx s_sp f_ip f_mod f_bp].
    split; [f_equal; destruct (fn_mod fn); exact Q2|]. split; [reflexivity|]. split; [reflexivity|]. split; [destruct (fn_mod fn); [reflexivity|exact Q3]|]. right. split; [reflexivity|]. split; [lia|]. destruct (fn_mod fn); cbn; lia.
Qed.
Lemma return_h s s' f g r : s_frames s = f :: g :: r -> do_return s = XOk s' ->
  s_frames s' = g :: r /\ s_ctx s' = f_mod g /\ s_sp s' = (if -1 <? f_bp f then f_bp f else s_sp s)%Z.
Proof.
  intros F X. unfold do_return, xpop in X. destruct (op_pop s) as [[v s1]|] eqn:Q; [|discriminate]. destruct (pop_h _ _ _ Q) as (Q1 & Q2 & Q3). rewrite Q2, F in X. injection X as <-.
  set (t := with_frames _ _). destruct (push_h t v) as (A & B & C). cbn [with_ctx s_frames s_ctx s_sp]. split; [exact B|]. split; [reflexivity|]. rewrite A. unfold t. cbn. destruct (-1 <? f_bp f)%Z; lia.
Qed.
End S.
