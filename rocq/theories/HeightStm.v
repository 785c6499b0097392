(** Expressions leave one value, statements none. *)
From Verif Require Import Base BaseFacts Bson BsonFacts Opcode Spec_Opcode OpcodeFacts Value Ast TableFacts CodeGen VM Compile LoadFacts
  GenFacts GenRel Sim Spec_Code CodeFacts Spec_Height HeightGen.

Section S.
Variable C : gctx.
Definition pe (x : node) : Prop := is_expr x = true -> forall b c s h LH, tr b c s h LH -> okh (gen C x s) (fun s' => tr b c s' (S h) LH).
Definition pn (x : node) : Prop := match x with NNamed _ _ e => pe e | _ => True end.
Lemma tr_line b c s l h LH : tr b c s h LH -> tr b c (set_line s l) h LH.
Proof. apply tr_same; reflexivity. Qed.
Lemma tr_scopes b c s l h LH : tr b c s h LH -> tr b c (set_scopes s l) h LH.
Proof. apply tr_same; reflexivity. Qed.
Lemma tr_locals b c s l h LH : tr b c s h LH -> tr b c (set_locals s l) h LH.
Proof. apply tr_same; reflexivity. Qed.
Lemma tr_reg b c s l h LH : tr b c s h LH -> tr b c (add_reg s l) h LH.
Proof. apply tr_same; reflexivity. Qed.
Lemma tr_op' b c s o a h h' LH : tr b c s h LH -> is_jump o = false -> falls o = true -> takes o a <= h -> after o a h = h' -> tr b c (append_op s o a) h' LH.
Proof. intros T J F K <-. now apply tr_op. Qed.
Lemma seq_exprs l : Forall pe l -> forallb is_expr l = true -> forall b c s h LH, tr b c s h LH -> okh (seqm (gen C) l s) (fun s' => tr b c s' (List.length l + h) LH).
Proof.
  induction l as [|x l IH]; intros F L b c s h LH T; [exact T|]. cbn [seqm forallb] in *. inversion F; subst. apply andb_true_iff in L as [L1 L2].
  pose proof (H1 L1 _ _ _ _ _ T) as G. destruct (gen C x s); [|exact I]. eapply (IH H2 L2) in G. destruct (seqm _ _ _); [|exact I]. cbn in *. eapply tr_to; [exact G|lia].
Qed.
Lemma seq_named l : Forall pn l -> forallb (fun a => match a with NNamed _ _ e => is_expr e | _ => false end) l = true -> forall b c s h LH, tr b c s h LH ->
  okh (seqm (gen C) l s) (fun s' => tr b c s' (2 * List.length l + h) LH).
Proof.
  induction l as [|x l IH]; intros F L b c s h LH T; [exact T|]. cbn [seqm forallb] in *. inversion F; subst. apply andb_true_iff in L as [L1 L2]. destruct x; try discriminate.
  assert (G : okh (gen C (NNamed ln name x) s) (fun s' => tr b c s' (S (S h)) LH)).
  { cbn [gen node_line]. eapply okh_bind; [apply okh_name, tr_line, T|]. intros s1 T1. exact (H1 L1 _ _ _ _ _ T1). }
  destruct (gen C (NNamed ln name x) s); [|exact I]. eapply (IH H2 L2) in G. destruct (seqm _ _ _); [|exact I]. cbn [okh] in *. eapply tr_to; [exact G|cbn [List.length]; lia].
Qed.
Ltac opt := eapply tr_op'; [first [match goal with K : _ |- _ => exact K end|opt]|reflexivity|reflexivity|cbn; lia|unfold after; cbn; try reflexivity; lia].
Ltac ge := match goal with K : pe ?x |- okh (gen _ ?x _) _ => eapply K; [assumption|match goal with T : _ |- _ => exact T end] end.
Ltac bools := repeat match goal with H : (_ && _)%bool = true |- _ => apply andb_true_iff in H; destruct H end.
Ltac ihs := repeat match goal with
  | H : pe _ /\ pn _ |- _ => destruct H
  | H : Forall (fun x => pe x /\ pn x) ?l |- _ => lazymatch goal with K : Forall pe l |- _ => fail | _ =>
      assert (Forall pe l) by (eapply Forall_impl; [|exact H]; now intros ? []); assert (Forall pn l) by (eapply Forall_impl; [|exact H]; now intros ? []) end
  end.
Lemma takes_n o n k : N.to_nat (N.of_nat n) = k -> takes o [N.of_nat n] = takes o [N.of_nat k]. Proof. intros <-. now rewrite Nat2N.id. Qed.
Lemma expr_h x : pe x /\ pn x.
Proof.
  induction x using node_ind'; (split; [intros L b0 c0 s0 h LH T|]); cbn [pn]; ihs; try exact I; try assumption; try discriminate L.
  all: cbn [gen node_line is_expr] in *; bools; apply (tr_line _ _ _ ln) in T.
  - eapply okh_bind; [apply okh_const, T|]. intros s' T'. now apply okh_cast.
  - unfold need. destruct (match s with Some x => Some x | None => _ end); [|exact I]. eapply okh_bind; [apply okh_load, T|]. intros s' T'. now apply okh_cast.
  - apply okh_load, T.
  - destruct (variant_tag _ _); [|exact I]. cbn [pbind]. eapply okh_bind; [apply okh_const, T|]. intros s' T'. destruct c; [exact T'|]. cbn [okh]. opt.
  - eapply okh_bind; [ge|]. intros s' T'. destruct op; try exact I; apply okh_cast; opt.
  - assert (B : okh (let! s := gen C x1 (set_line s0 ln) in let! s1 := gen C x2 s in auto_cast C (append_op s1 (binop_code op) []) pr) (fun s' => tr b0 c0 s' (S h) LH)).
    { eapply okh_bind; [ge|]. intros s1 T1. eapply okh_bind; [ge|]. intros s2 T2. apply okh_cast. apply tr_op' with (h := S (S h)); [exact T2|destruct op; reflexivity|destruct op; reflexivity|destruct op; cbn; lia|destruct op; unfold after; cbn; lia]. }
    destruct nl, op, nr; try exact B; (eapply okh_bind; [ge|]; intros s1 T1; cbn [okh]; opt).
  - destruct k; bools.
    + eapply okh_bind; [eapply seq_exprs; eassumption|]. intros s1 T1. eapply okh_bind; [ge|]. intros s2 T2. cbn [okh].
      apply tr_op' with (h := S (List.length args + h)); [exact T2|reflexivity|reflexivity| |]; unfold after; cbn [takes gives nth]; rewrite Nat2N.id; lia.
    + eapply okh_bind; [eapply seq_named; eassumption|]. intros s1 T1. eapply okh_bind; [ge|]. intros s2 T2. apply okh_cast.
      apply tr_op' with (h := S (2 * List.length args + h)); [exact T2|reflexivity|reflexivity| |]; unfold after; cbn [takes gives nth]; rewrite Nat2N.id; lia.
    + eapply okh_bind; [eapply seq_exprs; eassumption|]. intros s1 T1. eapply okh_bind; [ge|]. intros s2 T2. apply okh_cast.
      apply tr_op' with (h := S (List.length args + h)); [exact T2|reflexivity|reflexivity| |]; unfold after; cbn [takes gives nth]; rewrite Nat2N.id; lia.
  - eapply okh_bind; [ge|]. intros s1 T1. destruct c as [[t f]|]; [|exact T1]. eapply okh_bind; [apply okh_load, T1|]. intros s2 T2. cbn [okh].
    apply tr_op' with (h := S (S h)); [exact T2|reflexivity|reflexivity|cbn; lia|destruct f; unfold after; [change (takes CAST [1%N]) with 2; change (gives CAST [1%N]) with 1|change (takes CAST [0%N]) with 2; change (gives CAST [0%N]) with 1]; lia].
  - eapply okh_bind; [ge|]. intros s1 T1. eapply okh_bind; [ge|]. intros s2 T2. cbn [okh]. apply tr_op' with (h := S (S h)); [exact T2|reflexivity|reflexivity|cbn; lia|unfold after; cbn; lia].
  - eapply okh_bind; [eapply seq_exprs; eassumption|]. intros s1 T1. cbn [okh].
    apply tr_op' with (h := List.length ps + h); [exact T1|reflexivity|reflexivity| |]; unfold after; cbn [takes gives nth]; rewrite Nat2N.id; lia.
  - eapply okh_bind; [eapply seq_exprs; eassumption|]. intros s1 T1. cbn [okh].
    apply tr_op' with (h := List.length ps + h); [exact T1|reflexivity|reflexivity| |]; unfold after; cbn [takes gives nth]; rewrite Nat2N.id; lia.
  - eapply okh_bind; [ge|]. intros s1 T1. eapply okh_bind; [apply okh_name, T1|]. intros s2 T2. cbn [okh]. apply tr_op' with (h := S (S h)); [exact T2|reflexivity|reflexivity|cbn; lia|unfold after; cbn; lia].
  - eapply okh_bind; [ge|]. intros s1 T1. destruct d as [y|]; cbn [optP] in *.
    + destruct H as [H _]. eapply okh_bind; [ge|]. intros s2 T2. cbn [okh]. apply tr_op' with (h := S (S h)); [exact T2|reflexivity|reflexivity|change (takes OP_UNWRAP [1%N]) with 2; lia|unfold after; change (takes OP_UNWRAP [1%N]) with 2; cbn [gives]; lia].
    + cbn [okh]. apply tr_op' with (h := S h); [exact T1|reflexivity|reflexivity|change (takes OP_UNWRAP [0%N]) with 1; lia|unfold after; change (takes OP_UNWRAP [0%N]) with 1; cbn [gives]; lia].
Qed.
Lemma expr_ok x b c s h LH : is_expr x = true -> tr b c s h LH -> okh (gen C x s) (fun s' => tr b c s' (S h) LH).
Proof. intros L T. now apply expr_h. Qed.

(** ** Statements *)
Definition sq (b c : option N) (k : nat) (LH : list nat) (s : gst) : Prop := exists LH', prefix LH LH' /\ tr b c s k LH'.
Definition loopok (lp : bool) (b c : option N) (k : nat) (LH : list nat) : Prop :=
  lp = true -> forall l, b = Some l \/ c = Some l -> nth_error LH (N.to_nat l) = Some k.
Lemma loopok_more lp b c k LH LH' : prefix LH LH' -> loopok lp b c k LH -> loopok lp b c k LH'.
Proof. intros P L E l H. eapply prefix_nth; [exact P|]. now apply L. Qed.
Lemma sq_more b c k LH LH' s : prefix LH LH' -> sq b c k LH' s -> sq b c k LH s.
Proof. intros P (L & Q & T). exists L. split; [eapply prefix_trans; eassumption|exact T]. Qed.
Lemma sq_in b c k LH s : tr b c s k LH -> sq b c k LH s.
Proof. intros T. exists LH. split; [apply prefix_refl|exact T]. Qed.
Lemma okh_weak r (Q R : gst -> Prop) : okh r Q -> (forall s, Q s -> R s) -> okh r R.
Proof. destruct r; cbn; auto. Qed.
Definition ps (x : node) : Prop := forall lp, is_stat lp x = true -> forall b c s k LH, tr b c s k LH -> loopok lp b c k LH -> okh (gen C x s) (sq b c k LH).
Definition pb (x : node) : Prop :=
  match x with
  | NBlock _ ch => Forall ps ch
  | NAssign _ _ _ e _ => ps e
  | NSenaoSe _ _ (NBlock _ ch) => Forall ps ch
  | _ => True
  end.
Lemma seq_stats lp l : Forall ps l -> forallb (is_stat lp) l = true -> forall b c s k LH, tr b c s k LH -> loopok lp b c k LH -> okh (seqm (gen C) l s) (sq b c k LH).
Proof.
  induction l as [|x l IH]; intros F L b c s k LH T LO; [now apply sq_in|]. cbn [seqm forallb] in *. inversion F; subst. apply andb_true_iff in L as [L1 L2].
  pose proof (H1 _ L1 _ _ _ _ _ T LO) as G. destruct (gen C x s); [|exact I]. destruct G as (LH' & P & G).
  eapply okh_weak; [eapply (IH H2 L2); [exact G|eapply loopok_more; eassumption]|]. intros s' Q. eapply sq_more; eassumption.
Qed.
Lemma seq_body l : Forall ps l -> plain_body l = true -> forall b c s k LH, tr b c s k LH -> okh (seqm (gen C) l s) (fun s' => exists k', sq b c k' LH s').
Proof.
  induction l as [|x l IH]; intros F L b c s k LH T; [exists k; now apply sq_in|]. cbn [seqm plain_body forallb] in *. inversion F; subst. apply andb_true_iff in L as [L1 L2].
  assert (G : okh (gen C x s) (fun s' => exists k', sq b c k' LH s')).
  { apply orb_true_iff in L1 as [L1|L1].
    - eapply okh_weak; [eapply H1; [exact L1|exact T|discriminate]|]. eauto.
    - eapply okh_weak; [eapply expr_ok; [exact L1|exact T]|]. intros s' T'. exists (S k). now apply sq_in. }
  destruct (gen C x s); [|exact I]. destruct G as (k' & LH' & P & G). eapply okh_weak; [eapply (IH H2 L2), G|]. intros s' [k2 Q]. exists k2. eapply sq_more; eassumption.
Qed.
Lemma finish_h b c s x rhs k LH : tr b c s (match rhs with NAssign _ _ _ _ _ => k | _ => S k end) LH -> okh (finish_assign C s x rhs) (fun s' => tr b c s' k LH).
Proof.
  intros T. unfold finish_assign. eapply okh_bind with (Q := fun s' => tr b c s' (S k) LH); [|intros s' T'; now apply okh_set]. destruct rhs; try exact T. now apply okh_load.
Qed.
Lemma assign_h lp b c s x rhs k LH : ps rhs -> match rhs with NAssign _ _ _ _ _ => is_stat lp rhs | _ => is_expr rhs end = true -> tr b c s k LH -> loopok lp b c k LH ->
  okh (let! s := gen C rhs s in finish_assign C s x rhs) (sq b c k LH).
Proof.
  intros P L T LO.
  assert (D : (exists l n y e p, rhs = NAssign l n y e p) \/ is_expr rhs = true /\ match rhs with NAssign _ _ _ _ _ => k | _ => S k end = S k) by (destruct rhs; eauto 10; right; auto).
  destruct D as [(l & n & y & e & p & ->)|[D1 D2]].
  - eapply okh_bind; [eapply P; [exact L|exact T|exact LO]|]. intros s1 (LH' & P1 & T1). eapply okh_weak; [eapply finish_h; exact T1|]. intros s2 T2. exists LH'. auto.
  - eapply okh_bind; [eapply expr_ok; [exact D1|exact T]|]. intros s1 T1. eapply okh_weak; [eapply finish_h; rewrite D2; exact T1|]. intros s2 T2. now apply sq_in.
Qed.
Lemma tr_jump b c s o l h LH h' : tr b c s h LH -> is_jump o = true -> takes o [l] <= h -> nth_error LH (N.to_nat l) = Some (after o [l] h) ->
  (falls o = true -> h' = after o [l] h) -> tr b c (append_op s o [l]) h' LH.
Proof. intros T J K N F. eapply tr_app; eauto. Qed.
Lemma tr_jif b c s l k LH : tr b c s (S k) LH -> nth_error LH (N.to_nat l) = Some k -> tr b c (append_op s JUMP_IF_FALSE [l]) k LH.
Proof. intros T N. eapply tr_jump; [exact T|reflexivity|cbn; lia|unfold after; cbn; rewrite Nat.sub_0_r, Nat.add_0_r; exact N|]. intros _. unfold after; cbn. lia. Qed.
Lemma tr_goto b c s l k LH h' : tr b c s k LH -> nth_error LH (N.to_nat l) = Some k -> tr b c (append_op s JUMP [l]) h' LH.
Proof. intros T N. eapply tr_jump; [exact T|reflexivity|cbn; lia|unfold after; cbn; rewrite Nat.sub_0_r, Nat.add_0_r; exact N|discriminate]. Qed.
Lemma tr_ret b c s k LH h' : tr b c s (S k) LH -> tr b c (append_op s RETURN []) h' LH.
Proof. intros T. eapply tr_app; [exact T|cbn; lia|discriminate|discriminate]. Qed.
Lemma tr_func b c s n i nl md k LH : tr b c s k LH -> nth_error LH (N.to_nat i) = Some 0 -> tr b c (add_func s (mkFunc n (nth (N.to_nat i) (g_labels s) 0%N) nl md)) k LH.
Proof.
  intros [[hs [h1 h2 h3 h4 h5]] BC] NL. split; [|exact BC]. exists hs. constructor; try assumption. cbn. apply Forall_app. split; [exact h5|]. constructor; [|constructor]. cbn.
  clear - h3 NL. revert NL. generalize (N.to_nat i). induction h3; intros [|j] NL; cbn in *; try discriminate; [|auto]. injection NL as ->. assumption.
Qed.
Lemma block_h lp blk : match blk with NBlock _ ch => Forall ps ch | _ => True end -> match blk with NBlock _ ch => forallb (is_stat lp) ch | _ => false end = true ->
  forall b c s k LH, tr b c s k LH -> loopok lp b c k LH -> okh (block_with (gen C) blk s) (sq b c k LH).
Proof.
  intros F L b c s k LH T LO. destruct blk; try discriminate. cbn [block_with]. eapply okh_bind; [eapply seq_stats; [exact F|exact L|apply tr_scopes, T|exact LO]|].
  intros s1 (LH' & P & T1). exists LH'. split; [exact P|]. apply tr_scopes, T1.
Qed.
Lemma elifs_h lp l0 els : Forall pb els -> forallb (fun e => match e with NSenaoSe _ c b => is_expr c && match b with NBlock _ ch => forallb (is_stat lp) ch | _ => false end | _ => false end) els = true ->
  forall b c s k LH, tr b c s k LH -> loopok lp b c k LH -> nth_error LH (N.to_nat l0) = Some k -> okh (seqm (gen_elif C l0) els s) (sq b c k LH).
Proof.
  induction els as [|x l IH]; intros F L b c s k LH T LO N; [now apply sq_in|]. cbn [seqm forallb] in *. inversion F; subst. apply andb_true_iff in L as [L1 L2]. destruct x; try discriminate.
  apply andb_true_iff in L1 as [L1 L3]. cbn [pb] in H1.
  assert (G : okh (gen_elif C l0 (NSenaoSe ln x1 x2) s) (sq b c k LH)).
  { cbn [gen_elif]. destruct (new_label s) as [s1 l1] eqn:NL. destruct (tr_new _ _ _ _ _ _ _ NL T) as [T1 N1]. pose proof (prefix_app LH [k]) as P1. pose proof (prefix_nth _ _ _ _ P1 N) as N0.
    eapply okh_bind; [eapply expr_ok; [exact L1|exact T1]|]. intros s2 T2. cbv zeta. eapply okh_bind.
    - eapply block_h; [|exact L3|apply tr_jif; [exact T2|exact N1]|eapply loopok_more; [exact P1|exact LO]]. destruct x2; try exact I. exact H1.
    - intros s3 (LH' & P & T3). cbv zeta. eapply okh_weak; [eapply okh_patch; [eapply prefix_nth; [exact P|exact N1]|eapply tr_goto; [exact T3|eapply prefix_nth; [exact P|exact N0]]]|].
      intros s4 T4. exists LH'. split; [eapply prefix_trans; eassumption|exact T4]. }
  destruct (gen_elif C l0 _ s); [|exact I]. destruct G as (LH' & P & G). eapply okh_weak; [eapply (IH H2 L2); [exact G|eapply loopok_more; eassumption|eapply prefix_nth; eassumption]|].
  intros s' Q. eapply sq_more; eassumption.
Qed.
End S.
