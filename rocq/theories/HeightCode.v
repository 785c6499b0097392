(** Static heights of the operand stack: the code as written and decoded. *)
From Verif Require Import Base BaseFacts Bson BsonFacts Opcode Spec_Opcode OpcodeFacts Value Ast TableFacts CodeGen VM Compile LoadFacts
  GenFacts GenRel Sim Spec_Code CodeFacts Spec_Height HeightGen HeightStm HeightTop.

Lemma op_size_pos o : (0 < op_size o)%N. Proof. destruct o; reflexivity. Qed.
Fixpoint hof (ops : list instr) (hs : list nat) (t : N) {struct hs} : nat :=
  match hs with
  | [] => 0
  | h :: hs => if N.eqb t 0 then h else match ops with [] => 0 | (o, _) :: ops => hof ops hs (t - op_size o)%N end
  end.
Lemma at_hof ops hs t k : at_h ops hs t k -> hof ops hs t = k.
Proof.
  intros (pre & post & -> & -> & N). revert hs N. induction pre as [|[o a] pre IH]; intros [|h hs] N; cbn in N; try discriminate.
  - injection N as <-. reflexivity.
  - cbn [hof app ops_size]. pose proof (op_size_pos o). destruct (N.eqb_spec (op_size o + ops_size pre) 0); [lia|]. replace (op_size o + ops_size pre - op_size o)%N with (ops_size pre) by lia. apply IH, N.
Qed.
Lemma track_first hs ops h : track hs ops h -> nth_error (hs ++ [h]) 0 = Some 0.
Proof. induction 1; [reflexivity|]. rewrite nth_error_app1; [exact IHtrack|]. rewrite app_length. cbn. lia. Qed.
Lemma track_nth hs ops h : track hs ops h -> forall pre o a post, ops = pre ++ (o, a) :: post ->
  exists hh, nth_error hs (List.length pre) = Some hh /\ takes o a <= hh /\ (falls o = true -> nth_error (hs ++ [h]) (S (List.length pre)) = Some (after o a hh)).
Proof.
  induction 1 as [|hs ops h o a h' T IH K F]; intros pre o' a' post E; [destruct pre; discriminate|].
  pose proof (track_len _ _ _ T) as LN.
  destruct post as [|p post _] using rev_ind.
  - apply app_inj_tail in E as [E0 E]. injection E as <- <-. assert (LP : List.length pre = List.length hs) by (rewrite <- E0; symmetry; exact LN). exists h. rewrite LP. split; [|split; [exact K|]].
    + rewrite nth_error_app2, Nat.sub_diag by lia. reflexivity.
    + intros FF. rewrite nth_error_app2 by (rewrite app_length; cbn; lia). rewrite app_length. cbn [List.length]. replace (S (List.length hs) - (List.length hs + 1)) with 0 by lia. cbn. f_equal. now apply F.
  - rewrite app_comm_cons, app_assoc in E. apply app_inj_tail in E as [E _]. destruct (IH _ _ _ _ E) as (hh & N & K' & F').
    assert (L1 : List.length pre < List.length hs) by (apply nth_error_Some; congruence).
    exists hh. split; [rewrite nth_error_app1 by lia; exact N|]. split; [exact K'|]. intros FF. rewrite nth_error_app1 by (rewrite app_length; cbn; lia). now apply F'.
Qed.
Lemma fetch_same labels o args bs rest a n : write_op_bytes labels (o, args) = PyOk bs -> vm_fetch (bs ++ rest) = Some (o, a, n) ->
  takes o a = takes o args /\ gives o a = gives o args.
Proof.
  intros W F.
  destruct o; try (split; reflexivity); (destruct args as [|x args]; [discriminate W|]);
    unfold write_op_bytes in W; cbn [is_jump pbind op_size arg0] in W; (destruct (x <? 256)%N; [|discriminate W]); apply pyok_inj in W; subst bs;
    cbn [app vm_fetch] in F; rewrite opcode_of_value in F; cbn in F; injection F as <- _; cbn [takes gives nth]; rewrite ?N.add_0_r, ?N.mul_0_r, ?N.add_0_r; split; reflexivity.
Qed.
Lemma decode_pos labels ops : forall bs off, write_ops labels ops = PyOk bs ->
  exists l, decodes bs off l /\ forall k o a, In (k, o, a) l -> exists pre args post, ops = pre ++ (o, args) :: post /\ k = (off + ops_size pre)%N /\
    takes o a = takes o args /\ gives o a = gives o args /\ (is_jump o = true -> exists li t, arg0 args = PyOk li /\ nth_error labels (N.to_nat li) = Some t /\ a = [t]).
Proof.
  induction ops as [|[o args] ops IH]; intros bs off H; cbn [write_ops] in H.
  - apply pyok_inj in H. subst bs. exists []. split; [constructor|]. intros ? ? ? [].
  - apply pbind_ok in H as (b1 & W & H). apply pbind_ok in H as (b2 & WS & H). apply pyok_inj in H. subst bs.
    destruct (fetch_written _ _ _ _ b2 W) as (a & F & L & J). pose proof (write_op_length _ _ _ W) as LL. cbn [fst] in LL.
    destruct (IH b2 (off + N.of_nat (List.length b1))%N WS) as (l & D & Q).
    exists ((off, o, a) :: l). split. { econstructor; [exact F|rewrite app_length; lia|]. rewrite skipn_exact. exact D. }
    intros k o' a' [E|I].
    + injection E as <- <- <-. destruct (fetch_same _ _ _ _ _ _ _ W F) as [E1 E2]. exists [], args, ops. split; [reflexivity|]. split; [cbn; lia|]. split; [exact E1|]. split; [exact E2|].
      intros IJ. pose proof W as W'. unfold write_op_bytes in W'. rewrite IJ in W'. apply pbind_ok in W' as (r & HR & W'). apply pbind_ok in HR as (li & HL & HR).
      destruct (nth_error labels (N.to_nat li)) as [t|] eqn:NL; [|discriminate]. apply pyok_inj in HR. subst r. exists li, t. split; [exact HL|]. split; [exact NL|].
      assert (K : op_size o = 9%N /\ vm_argkind o = A64) by (destruct o; try discriminate IJ; split; reflexivity). destruct K as [K1 K2].
      rewrite K1 in W'. cbn [arg0 pbind] in W'. apply pbind_ok in W' as (bb & FB & W').
      assert (TB : (t < 2 ^ 64)%N). { unfold format_u64_arg in FB. destruct (t <? 2 ^ 64)%N eqn:QQ; [|discriminate]. apply N.ltb_lt, QQ. }
      assert (RA : resolve_args labels (o, [li]) = Some [t]) by (unfold resolve_args; rewrite IJ, NL; reflexivity).
      destruct (encode_ok labels o [li] [t] RA) as (bs & W2 & _ & F2); [unfold args_fit; rewrite K2; eauto|].
      assert (EQ : bs = b1). { unfold write_op_bytes in W2. rewrite IJ in W2. cbn [arg0 pbind] in W2. rewrite NL in W2. cbn [pbind] in W2. rewrite K1 in W2. cbn [arg0 pbind] in W2. rewrite FB in W2. cbn [pbind] in W2. congruence. }
      subst bs. rewrite (F2 b2) in F. congruence.
    + destruct (Q _ _ _ I) as (pre & args' & post & E & P & R). exists ((o, args) :: pre), args', post. split; [rewrite E; reflexivity|]. split; [cbn [ops_size]; lia|exact R].
Qed.
Lemma tr_init sc s : init_tables sc = PyOk s -> tr None None s 0 [].
Proof.
  intros H. unfold init_tables in H. assert (T : tr None None init_gst 0 []).
  { split; [|split; reflexivity]. exists []. constructor; cbn; try constructor. intros i o a hh N. destruct i; discriminate. }
  apply pbind_ok in H as ([u i] & C1 & H). apply pbind_ok in H as ([u' i'] & C2 & H). cbn [fst] in *.
  assert (T1 : tr None None u 0 []). { pose proof (okh_const_index None None init_gst (CText (txt "verdadeiro")) 0 [] T) as Q. rewrite C1 in Q. exact Q. }
  assert (T2 : tr None None u' 0 []). { pose proof (okh_const_index None None u (CText (txt "falso")) 0 [] T1) as Q. rewrite C2 in Q. exact Q. }
  clear C1 C2 T T1. revert u' H T2. induction sc as [|e sc IH]; intros u' H T2; cbn [seqm] in H; [apply pyok_inj in H; now subst s|].
  apply pbind_ok in H as (v & E & H). apply (IH v H).
  destruct (is_named_kind _); [|apply pyok_inj in E; now subst v]. apply pbind_ok in E as ([v' j] & E & V). apply pyok_inj in V. subst v. cbn [fst].
  unfold name_index in E. destruct (table_index _ _ _) as [t q]. destruct (_ <? _)%N; [|discriminate]. injection E as <- <-. now apply tr_names.
Qed.
Lemma module_heights C m cm : compile_module C m = PyOk cm -> mo_builtin m = true \/ plain_body (mo_body m) = true ->
  heights_ok (cm_code cm) (map fn_start (cm_funcs cm)).
Proof.
  intros H B. unfold compile_module in H. destruct (mo_builtin m).
  - apply pyok_inj in H. subst cm. cbn [cm_code cm_funcs map]. exists [(0%N, HALT, [])], (fun _ => 0).
    split; [eapply dec_op; [reflexivity|cbn; lia|constructor]|]. split; [reflexivity|]. split; [intros ? []|]. intros ? ? ? [E|[]]. injection E as <- <- <-. split; [cbn; lia|]. split; discriminate.
  - destruct B as [B|B]; [discriminate|].
    apply pbind_ok in H as (F & GF & H). apply pbind_ok in H as (code & W & H). apply pyok_inj in H. subst cm. cbn [cm_code cm_funcs].
    unfold gen_module in GF. apply pbind_ok in GF as (s0 & I & GF). apply pbind_ok in GF as (s1 & G & GF). apply pyok_inj in GF.
    pose proof (body_h C _ B None None (enter s0 (mo_scope m)) 0 [] (tr_scopes _ _ _ _ _ _ (tr_init _ _ I))) as Q. rewrite G in Q. destruct Q as (k & LH & _ & T).
    assert (TF : tr None None F 0 LH). { subst F. eapply tr_app; [apply tr_line, tr_scopes, T|cbn; lia|discriminate|discriminate]. }
    clear GF T G I. destruct TF as [[hs [h1 h2 h3 h4 h5]] _].
    destruct (decode_pos _ _ _ 0%N W) as (l & D & Q). exists l, (hof (g_ops F) (hs ++ [0])). split; [exact D|]. split; [|split].
    + apply at_hof. exists [], (g_ops F). split; [reflexivity|]. split; [reflexivity|]. apply (track_first _ _ _ h1).
    + intros e E. apply in_map_iff in E as (f & <- & E). rewrite Forall_forall in h5. apply at_hof, h5, E.
    + intros off o a IN. destruct (Q _ _ _ IN) as (pre & args & post & E & -> & ET & EG & J). rewrite N.add_0_l.
      destruct (track_nth _ _ _ h1 _ _ _ _ E) as (hh & N & K & FF).
      assert (LP : List.length pre < List.length hs) by (apply nth_error_Some; congruence).
      assert (EH : hof (g_ops F) (hs ++ [0]) (ops_size pre) = hh). { apply at_hof. exists pre, ((o, args) :: post). split; [exact E|]. split; [reflexivity|]. rewrite nth_error_app1 by exact LP. exact N. }
      rewrite EH. unfold after. rewrite ET, EG. split; [exact K|]. split.
      * intros FL. apply at_hof. exists (pre ++ [(o, args)]), post. split; [rewrite E, <- app_assoc; reflexivity|]. split; [rewrite ops_size_app; cbn; lia|]. rewrite app_length. cbn [List.length].
        rewrite Nat.add_1_r. now apply FF.
      * intros IJ. destruct (J IJ) as (li & t & A0 & NL & ->). exists t. split; [reflexivity|].
        assert (NO : nth_error (g_ops F) (List.length pre) = Some (o, args)) by (rewrite E, nth_error_app2, Nat.sub_diag by lia; reflexivity).
        destruct (h4 _ _ _ _ NO IJ N) as (l0 & -> & NH). cbn in A0. injection A0 as ->. apply at_hof.
        clear - h3 NL NH. revert NL NH. generalize (N.to_nat li). induction h3; intros [|n] NL NH; cbn in *; try discriminate; [|eauto]. injection NL as <-. injection NH as ->. assumption.
Qed.
Lemma mapm_nth {A B} (f : A -> pyres B) l r : mapm f l = PyOk r -> forall i y, nth_error r i = Some y -> exists x, nth_error l i = Some x /\ f x = PyOk y.
Proof.
  revert r. induction l as [|x l IH]; cbn; intros r H i y I; [apply pyok_inj in H; subst r; destruct i; discriminate|].
  apply pbind_ok in H as (z & E & H). apply pbind_ok in H as (zs & ES & H). apply pyok_inj in H. subst r.
  destruct i; cbn in *; [injection I as <-; eauto|]. eapply IH; eassumption.
Qed.
Lemma built_which b main imports P m vm : build b main imports = PyOk (Some P) -> get_module P m = Some vm ->
  exists C md cm, compile_module C md = PyOk cm /\ loads cm vm /\ match m with None => Some main | Some i => nth_error imports (N.to_nat i) end = Some md.
Proof.
  intros HB G. destruct (build_loads _ _ _ _ HB) as (cm & cms & CA & L1 & L2 & _). unfold compile_all in CA. apply pbind_ok in CA as (is_ & M & CA).
  apply pbind_ok in CA as (mm & MM & CA). apply pyok_inj in CA. injection CA as <- <-.
  destruct m as [i|]; cbn [get_module] in G.
  - assert (FI : exists c, nth_error is_ (N.to_nat i) = Some c /\ loads c vm).
    { clear - L2 G. revert G. generalize (N.to_nat i). induction L2; intros [|n] G; cbn in G; try discriminate; [injection G as <-; eexists; split; [reflexivity|assumption]|].
      destruct (IHL2 n G) as (c & ? & ?). exists c. split; assumption. }
    destruct FI as (c & I & L). destruct (mapm_nth _ _ _ M _ _ I) as (md & ? & CM). eauto 10.
  - injection G as <-. eauto 10.
Qed.
Lemma built_heights b main imports P m vm md : build b main imports = PyOk (Some P) -> get_module P m = Some vm ->
  match m with None => Some main | Some i => nth_error imports (N.to_nat i) end = Some md -> mo_builtin md = true \/ plain_body (mo_body md) = true ->
  heights_ok (m_code vm) (map fn_start (m_funcs vm)).
Proof.
  intros HB G E B. destruct (built_which _ _ _ _ _ _ HB G) as (C & md' & cm & CM & L & E'). assert (md' = md) by congruence. subst md'.
  rewrite (lo_code _ _ L), (lo_funcs _ _ L). eapply module_heights; eassumption.
Qed.
