(** Static heights of the operand stack: statements. *)
From Verif Require Import Base BaseFacts Bson BsonFacts Opcode Spec_Opcode OpcodeFacts Value Ast TableFacts CodeGen VM Compile LoadFacts
  GenFacts GenRel Sim Spec_Code CodeFacts Spec_Height HeightGen HeightStm.

Lemma tr_loop b c b' c' s k LH : tr b c s k LH -> tr b' c' (set_loop s b' c') k LH.
Proof. intros [[hs [h1 h2 h3 h4 h5]] BC]. split; [|split; reflexivity]. exists hs. constructor; assumption. Qed.
Lemma tr_names b c s t k LH : tr b c s k LH -> tr b c (set_names s t) k LH.
Proof. apply tr_same; reflexivity. Qed.
Lemma tr_variants b c vs : forall s k LH, tr b c s k LH -> tr b c (fold_left variant_index vs s) k LH.
Proof. induction vs as [|v l IH]; intros s k LH T; [exact T|]. cbn. apply IH. unfold variant_index. eapply tr_same; [..|exact T]; reflexivity. Qed.
Ltac bools := repeat match goal with H : (_ && _)%bool = true |- _ => apply andb_true_iff in H; destruct H end.
Ltac forall_fst := repeat match goal with H : Forall (fun x => HeightStm.ps ?C x /\ _) ?l |- _ =>
    let A := fresh "FA" in let B := fresh "FB" in
    assert (A : Forall (HeightStm.ps C) l) by (eapply Forall_impl; [|exact H]; intros ? [? ?]; assumption);
    assert (B : Forall (HeightStm.pb C) l) by (eapply Forall_impl; [|exact H]; intros ? [? ?]; assumption); clear H end.
Ltac split_ihs := repeat match goal with
  | H : HeightStm.ps _ _ /\ HeightStm.pb _ _ |- _ => destruct H
  | H : optP _ ?o |- _ => destruct o; cbn [optP] in H
  end; forall_fst.
Ltac ex := first [eapply expr_ok; [eassumption|]; match goal with T : _ |- _ => exact T end].
Section T.
Context (C : gctx).
Local Notation ps := (ps C).
Local Notation pb := (pb C).
Lemma pb_block x : pb x -> match x with NBlock _ ch => Forall ps ch | _ => True end.
Proof. destruct x; auto. Qed.

Lemma se_h lp ln c th els el : Forall pb els -> pb th -> optP pb el -> is_stat lp (NSe ln c th els el) = true ->
  forall b0 c0 s k LH, tr b0 c0 s k LH -> loopok lp b0 c0 k LH -> okh (gen C (NSe ln c th els el) s) (sq b0 c0 k LH).
Proof.
  intros FE PT PE L b0 c0 s0 k LH T LO. cbn [gen node_line is_stat] in *. apply (tr_line _ _ _ ln) in T. bools.
  destruct (new_label (set_line s0 ln)) as [s1 l1] eqn:N1. destruct (tr_new _ _ _ _ _ _ _ N1 T) as [T1 K1].
  destruct (new_label s1) as [s2 l2] eqn:N2. destruct (tr_new _ _ _ _ _ _ _ N2 T1) as [T2 K2].
  pose proof (prefix_app (LH ++ [k]) [k]) as P2. pose proof (prefix_trans _ _ _ (prefix_app LH [k]) P2) as P. pose proof (prefix_nth _ _ _ _ P2 K1) as K1'. clear K1 P2.
  apply (loopok_more _ _ _ _ _ _ P) in LO. set (L2 := (LH ++ [k]) ++ [k]) in *. clearbody L2.
  eapply okh_weak; [|intros s' Q; eapply sq_more; [exact P|exact Q]]. clear P LH T T1 N1 N2.
  eapply okh_bind; [eapply expr_ok; [eassumption|exact T2]|]. intros s3 T3. cbv zeta.
  eapply okh_bind; [eapply block_h; [apply pb_block, PT|eassumption|eapply tr_jif; [exact T3|exact K2]|exact LO]|]. intros s4 (L3 & P3 & T4).
  apply (prefix_nth _ _ _ _ P3) in K1'. apply (prefix_nth _ _ _ _ P3) in K2. apply (loopok_more _ _ _ _ _ _ P3) in LO.
  eapply okh_weak; [|intros s' Q; eapply sq_more; [exact P3|exact Q]]. clear P3 L2 T2 T3.
  eapply okh_bind; [eapply okh_patch; [exact K2|eapply tr_goto; [exact T4|exact K1']]|]. intros s5 T5.
  change (okh (let! s := seqm (gen_elif C l1) els s5 in let! s6 := match el with Some b => block_with (gen C) b s | None => PyOk s end in patch_label s6 l1) (sq b0 c0 k L3)).
  eapply okh_bind; [eapply elifs_h; [exact FE|eassumption|exact T5|exact LO|exact K1']|]. intros s6 (L4 & P4 & T6).
  apply (prefix_nth _ _ _ _ P4) in K1'. apply (loopok_more _ _ _ _ _ _ P4) in LO.
  eapply okh_bind with (Q := sq b0 c0 k L4).
  - destruct el as [e|]; [|now apply sq_in]. eapply block_h; [apply pb_block, PE|eassumption|exact T6|exact LO].
  - intros s7 (L5 & P5 & T7). eapply okh_weak; [eapply okh_patch; [eapply prefix_nth; [exact P5|exact K1']|exact T7]|]. intros s8 T8. exists L5. split; [eapply prefix_trans; eassumption|exact T8].
Qed.
Lemma enquanto_h lp ln c blk : pb blk -> is_stat lp (NEnquanto ln c blk) = true ->
  forall b0 c0 s k LH, tr b0 c0 s k LH -> okh (gen C (NEnquanto ln c blk) s) (sq b0 c0 k LH).
Proof.
  intros PT L b0 c0 s0 k LH T. cbn [gen node_line is_stat] in *. apply (tr_line _ _ _ ln) in T. bools.
  destruct (new_label (set_line s0 ln)) as [s1 l1] eqn:N1. destruct (tr_new _ _ _ _ _ _ _ N1 T) as [T1 K1].
  destruct (new_label s1) as [s2 l2] eqn:N2. destruct (tr_new _ _ _ _ _ _ _ N2 T1) as [T2 K2].
  pose proof (prefix_app (LH ++ [k]) [k]) as P2. pose proof (prefix_trans _ _ _ (prefix_app LH [k]) P2) as P. pose proof (prefix_nth _ _ _ _ P2 K1) as K1'. clear K1 P2.
  set (L2 := (LH ++ [k]) ++ [k]) in *. clearbody L2.
  eapply okh_weak; [|intros s' Q; eapply sq_more; [exact P|exact Q]]. clear P LH T T1 N1 N2.
  cbv zeta. destruct blk; try exact I. cbn [HeightStm.pb] in PT.
  destruct (proj2 T2) as [EB EC]. apply (tr_loop _ _ (Some l1) (Some l2)) in T2.
  eapply okh_bind; [eapply okh_patch; [exact K2|eapply tr_scopes, T2]|]. intros s3 T3.
  eapply okh_bind; [eapply expr_ok; [eassumption|exact T3]|]. intros s4 T4. cbv zeta.
  eapply okh_bind; [eapply seq_stats; [exact PT|eassumption|eapply tr_jif; [exact T4|exact K1']|]|].
  - intros _ l [E|E]; injection E as <-; assumption.
  - intros s5 (L3 & P3 & T5). eapply okh_bind; [eapply okh_patch; [eapply prefix_nth; [exact P3|exact K1']|eapply tr_goto; [exact T5|eapply prefix_nth; [exact P3|exact K2]]]|].
    intros s6 T6. cbn [okh]. exists L3. split; [exact P3|]. rewrite EB, EC. eapply tr_loop. apply tr_scopes. exact T6.
Qed.
Lemma para_h lp ln v a z i blk : pb blk -> is_stat lp (NPara ln v a z i blk) = true ->
  forall b0 c0 s k LH, tr b0 c0 s k LH -> loopok lp b0 c0 k LH -> okh (gen C (NPara ln v a z i blk) s) (sq b0 c0 k LH).
Proof.
  intros PT L b0 c0 s0 k LH T LO. cbn [gen node_line is_stat] in *. apply (tr_line _ _ _ ln) in T. bools.
  destruct blk; try exact I. cbn [HeightStm.pb] in PT.
  unfold need. destruct (resolve _ v) as [cv|]; [|exact I].
  destruct (new_label (set_line s0 ln)) as [s1 l1] eqn:N1. destruct (tr_new _ _ _ _ _ _ _ N1 T) as [T1 K1].
  destruct (new_label s1) as [s2 l2] eqn:N2. destruct (tr_new _ _ _ _ _ _ _ N2 T1) as [T2 K2].
  pose proof (prefix_app (LH ++ [k]) [k]) as P2. pose proof (prefix_trans _ _ _ (prefix_app LH [k]) P2) as P. pose proof (prefix_nth _ _ _ _ P2 K1) as K1'. clear K1 P2.
  apply (loopok_more _ _ _ _ _ _ P) in LO. set (L2 := (LH ++ [k]) ++ [k]) in *. clearbody L2.
  eapply okh_weak; [|intros s' Q; eapply sq_more; [exact P|exact Q]]. clear P LH T T1 N1 N2. cbv zeta.
  eapply okh_bind; [eapply expr_ok; [eassumption|apply tr_scopes, T2]|]. intros s3 T3.
  eapply okh_bind; [eapply okh_set, T3|]. intros s4 T4.
  eapply okh_bind; [eapply okh_patch; [exact K2|exact T4]|]. intros s5 T5.
  eapply okh_bind; [eapply okh_load, T5|]. intros s6 T6.
  eapply okh_bind; [eapply expr_ok; [eassumption|exact T6]|]. intros s7 T7.
  assert (T8 : tr b0 c0 (append_op s7 OP_LESS []) (S k) L2) by (eapply tr_op'; [exact T7|reflexivity|reflexivity|cbn; lia|unfold after; cbn; lia]).
  eapply okh_bind; [eapply seq_stats; [exact PT|eassumption|eapply tr_jif; [exact T8|exact K1']|exact LO]|].
  intros s9 (L3 & P3 & T9). apply (prefix_nth _ _ _ _ P3) in K1'. apply (prefix_nth _ _ _ _ P3) in K2.
  eapply okh_bind with (Q := fun s => tr b0 c0 s (S k) L3).
  { destruct i; [eapply expr_ok; [eassumption|exact T9]|eapply okh_const, T9]. }
  intros s10 T10. eapply okh_bind; [eapply okh_load, T10|]. intros s11 T11.
  assert (T12 : tr b0 c0 (append_op s11 OP_ADD []) (S k) L3) by (eapply tr_op'; [exact T11|reflexivity|reflexivity|cbn; lia|unfold after; cbn; lia]).
  eapply okh_bind; [eapply okh_set, T12|]. intros s13 T13.
  eapply okh_bind; [eapply okh_patch; [exact K1'|eapply tr_goto; [exact T13|exact K2]]|]. intros s14 T14. cbn [okh]. exists L3. split; [exact P3|]. apply tr_scopes, T14.
Qed.
Lemma func_h lp ln x prm bi blk : pb blk -> is_stat lp (NFunc ln x prm bi blk) = true ->
  forall b0 c0 s k LH, tr b0 c0 s k LH -> okh (gen C (NFunc ln x prm bi blk) s) (sq b0 c0 k LH).
Proof.
  intros PT L b0 c0 s0 k LH T. cbn [gen node_line is_stat] in *. apply (tr_line _ _ _ ln) in T.
  unfold name_index. destruct (table_index _ _ _) as [t j]. destruct (_ <? _)%N; [|exact I]. cbn [pbind fst]. apply (tr_names _ _ _ t) in T.
  destruct (new_label (set_names (set_line s0 ln) t)) as [s1 l1] eqn:N1. destruct (tr_new _ _ _ _ _ _ _ N1 T) as [T1 K1].
  pose proof (tr_goto _ _ _ _ _ _ 0 T1 K1) as T1'.
  destruct (new_label (append_op s1 JUMP [l1])) as [s2 l2] eqn:N2. destruct (tr_new _ _ _ _ _ _ _ N2 T1') as [T2 K2].
  pose proof (prefix_app (LH ++ [k]) [0]) as P2. pose proof (prefix_trans _ _ _ (prefix_app LH [k]) P2) as P. pose proof (prefix_nth _ _ _ _ P2 K1) as K1'. clear K1 P2.
  set (L2 := (LH ++ [k]) ++ [0]) in *. clearbody L2.
  eapply okh_weak; [|intros s' Q; eapply sq_more; [exact P|exact Q]]. clear P LH T T1 T1' N1 N2. cbv zeta.
  match goal with |- context [set_locals s2 ?p] => generalize p; intros pp end.
  eapply okh_bind with (Q := fun s => exists k', sq b0 c0 k' L2 s).
  - destruct bi; [exists 0; apply sq_in, tr_locals, T2|]. destruct blk; try exact I. cbn [HeightStm.pb] in PT.
    eapply okh_bind; [eapply seq_body; [exact PT|exact L|apply tr_scopes, tr_locals, T2]|]. intros s3 (k' & L3 & P3 & T3). cbn [okh]. exists k', L3. split; [exact P3|]. apply tr_scopes, T3.
  - intros s3 (k' & L3 & P3 & T3). apply (prefix_nth _ _ _ _ P3) in K1'. apply (prefix_nth _ _ _ _ P3) in K2.
    eapply okh_bind; [eapply okh_const, T3|]. intros s4 T4.
    pose proof (tr_ret _ _ _ _ _ k T4) as T5. eapply okh_bind; [eapply okh_patch; [exact K1'|eapply tr_locals, T5]|]. intros s6 T6. cbn [okh]. exists L3. split; [exact P3|].
    apply tr_func; assumption.
Qed.
Lemma stat_h x : ps x /\ pb x.
Proof.
  induction x using node_ind'; (split; [intros lp L b0 c0 s0 k0 LH T LO|]); cbn [HeightStm.pb]; split_ihs; try exact I; try assumption; try discriminate L.
  all: try (eapply se_h; eassumption); try (eapply enquanto_h; eassumption); try (eapply para_h; eassumption); try (eapply func_h; eassumption).
  all: try (destruct x2; solve [exact I|assumption]).
  all: cbn [gen node_line is_stat] in *; try (apply (tr_line _ _ _ ln) in T).
  - bools. eapply okh_bind; [ex|]. intros s1 T1. eapply okh_bind; [ex|]. intros s2 T2. eapply okh_bind; [ex|]. intros s3 T3. cbn [okh]. apply sq_in.
    eapply tr_op'; [exact T3|reflexivity|reflexivity|cbn; lia|unfold after; cbn; lia].
  - bools. apply (tr_line _ _ _ gln) in T. eapply okh_bind; [ex|]. intros s1 T1. eapply okh_bind; [eapply okh_name, T1|]. intros s2 T2. eapply okh_bind; [ex|]. intros s3 T3. cbn [okh]. apply sq_in.
    eapply tr_op'; [exact T3|reflexivity|reflexivity|cbn; lia|unfold after; cbn; lia].
  - eapply assign_h; eassumption.
  - destruct n; try discriminate L. cbn [is_stat HeightStm.pb] in *. eapply assign_h; eassumption.
  - eapply okh_bind; [eapply okh_const, T|]. intros s1 T1. unfold need. destruct (resolve _ _); [|exact I]. eapply okh_weak; [eapply okh_set, T1|]. intros s2 T2. now apply sq_in.
  - eapply okh_bind; [ex|]. intros s1 T1. cbn [okh]. apply sq_in. eapply tr_ret, T1.
  - eapply okh_bind; [eapply okh_const, T|]. intros s1 T1. cbn [okh]. apply sq_in. eapply tr_ret, T1.
  - eapply okh_bind; [ex|]. intros s1 T1. cbn [okh]. apply sq_in. eapply tr_op'; [exact T1|reflexivity|reflexivity|cbn; lia|unfold after; cbn; lia].
  - destruct (proj2 T) as [EB EC]. destruct q.
    + rewrite EB. destruct b0 as [l|]; [|exact I]. cbn [okh]. apply sq_in. eapply tr_goto; [exact T|]. apply LO; auto.
    + rewrite EC. destruct c0 as [l|]; [|exact I]. cbn [okh]. apply sq_in. eapply tr_goto; [exact T|]. apply LO; auto.
  - unfold name_index. destruct (table_index _ _ _) as [t j]. destruct (_ <? _)%N; [|exact I]. cbn [pbind fst]. apply (tr_names _ _ _ t) in T. apply (tr_reg _ _ _ (n, fs)) in T.
    unfold need. destruct (resolve _ _); [|exact I]. eapply okh_weak; [eapply okh_set with (h := k0); eapply tr_op'; [exact T|reflexivity|reflexivity|cbn; lia|unfold after; cbn; lia]|]. intros s2 T2. now apply sq_in.
  - unfold name_index. destruct (table_index _ _ _) as [t j]. destruct (_ <? _)%N; [|exact I]. cbn [pbind fst okh]. apply (tr_names _ _ _ t) in T. apply sq_in. now apply tr_variants.
  - cbn [okh]. now apply sq_in.
Qed.
Lemma body_h l : plain_body l = true -> forall b c s k LH, tr b c s k LH -> okh (seqm (gen C) l s) (fun s' => exists k', sq b c k' LH s').
Proof. intros L. apply seq_body; [|exact L]. apply Forall_forall. intros x _. apply stat_h. Qed.
End T.
