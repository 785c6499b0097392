(** Proofs about the shape of compiled code and its line table. *)
From Verif Require Import Base BaseFacts Bson BsonFacts Opcode Spec_Opcode OpcodeFacts Value Ast TableFacts CodeGen VM Compile LoadFacts
  GenFacts GenRel Sim Spec_Code.

(** Offsets between instructions. *)
Definition boundary (ops : list instr) (t : N) : Prop := exists pre post, ops = pre ++ post /\ t = ops_size pre.
Lemma boundary_app ops l t : boundary ops t -> boundary (ops ++ l) t.
Proof. intros (a & b & -> & ->). exists a, (b ++ l). rewrite app_assoc. auto. Qed.
Lemma boundary_end ops : boundary ops (ops_size ops).
Proof. exists ops, []. rewrite app_nil_r. auto. Qed.
Lemma boundary_0 ops : boundary ops 0%N.
Proof. exists [], ops. auto. Qed.

Record shape (s : gst) : Prop := mkShape {
  sh_ip : ipok s;
  sh_lab : Forall (boundary (g_ops s)) (g_labels s);
  sh_fun : Forall (fun f => boundary (g_ops s) (fn_start f)) (g_funcs s)
}.
Lemma shape_same a b : g_ip b = g_ip a -> g_ops b = g_ops a -> g_labels b = g_labels a -> g_funcs b = g_funcs a -> shape a -> shape b.
Proof. intros E1 E2 E3 E4 [h1 h2 h3]. unfold ipok in h1. constructor; unfold ipok; rewrite ?E1, ?E2, ?E3, ?E4; assumption. Qed.
Lemma forall_list_set {A} (Q : A -> Prop) l i x : Q x -> Forall Q l -> Forall Q (list_set l i x).
Proof.
  intros Hx. revert i. induction l as [|y l IH]; intros i H; [destruct i; constructor|]. inversion H; subst. destruct i; constructor; auto.
Qed.
Lemma shape_kept : kept (fun _ => true) (fun a b => shape a -> shape b).
Proof.
  constructor; auto; try (intros; eapply shape_same; [..|eassumption]; reflexivity).
  - intros a k b i H. unfold const_index in H. destruct (table_index _ _ _) as [t j]. destruct (_ <? _)%N; [|discriminate]. apply pyok_inj in H. injection H as <- <-.
    apply shape_same; reflexivity.
  - intros a k b i H. unfold name_index in H. destruct (table_index _ _ _) as [t j]. destruct (_ <? _)%N; [|discriminate]. apply pyok_inj in H. injection H as <- <-.
    apply shape_same; reflexivity.
  - intros a o args [h1 h2 h3]. constructor.
    + unfold ipok in *. cbn. rewrite ops_size_app, h1. cbn. lia.
    + cbn. eapply Forall_impl; [|exact h2]. intros t. apply boundary_app.
    + cbn. eapply Forall_impl; [|exact h3]. intros t. apply boundary_app.
  - intros a [h1 h2 h3]. constructor; [exact h1| |exact h3]. cbn. apply Forall_app. split; [exact h2|]. constructor; [|constructor]. rewrite h1. apply boundary_end.
  - intros a l b H [h1 h2 h3]. unfold patch_label in H. destruct (_ <? _)%N; [discriminate|]. apply pyok_inj in H. subst b. constructor; [exact h1| |exact h3].
    cbn. apply forall_list_set; [|exact h2]. rewrite h1. apply boundary_end.
  - intros a f k E [h1 h2 h3]. constructor; [exact h1|exact h2|]. cbn. apply Forall_app. split; [exact h3|]. constructor; [|constructor]. rewrite E.
    destruct (nth_in_or_default k (g_labels a) 0%N) as [I|I]; [|rewrite I; apply boundary_0]. rewrite Forall_forall in h2. apply h2, I.
Qed.

(** Decoding what was encoded, whatever the operands. *)
Lemma fetch_written labels o args bs rest : write_op_bytes labels (o, args) = PyOk bs ->
  exists a, vm_fetch (bs ++ rest) = Some (o, a, List.length bs) /\ (0 < List.length bs)%nat /\
    (is_jump o = true -> exists l t, nth_error labels l = Some t /\ a = [t]).
Proof.
  intros H. pose proof (write_op_length _ _ _ H) as L. cbn [fst] in L.
  assert (HD : exists a, bs = op_value o :: a).
  { unfold write_op_bytes in H. apply pbind_ok in H as (r & _ & H).
    destruct o; cbn [op_size] in H; try (destruct r as [|r0 [|r1 r2]]; try discriminate H); cbn [arg0 pbind] in H;
      try (destruct (_ <? _)%N in H; [|discriminate H]); repeat (apply pbind_ok in H as (? & ? & H)); apply pyok_inj in H; subst bs; eexists; reflexivity. }
  destruct HD as (a & ->). cbn [app vm_fetch]. rewrite opcode_of_value.
  assert (LA : List.length a = argkind_size (vm_argkind o)). { rewrite op_size_kind in L. cbn [List.length] in L. lia. }
  assert (T : take (argkind_size (vm_argkind o)) (a ++ rest) = Some (a, rest)).
  { rewrite <- LA. clear. induction a; cbn; [reflexivity|]. rewrite IHa. reflexivity. }
  destruct (is_jump o) eqn:J.
  - unfold write_op_bytes in H. rewrite J in H. apply pbind_ok in H as (r & HR & H). apply pbind_ok in HR as (l & HL & HR).
    destruct (nth_error labels (N.to_nat l)) as [t|] eqn:NL; [|discriminate]. apply pyok_inj in HR. subst r.
    rewrite T. eexists. split; [|split; [cbn; lia|]].
    + cbn [List.length]. rewrite LA. reflexivity.
    + intros _. exists (N.to_nat l), t. split; [exact NL|].
      assert (K : op_size o = 9%N /\ vm_argkind o = A64) by (destruct o; try discriminate J; split; reflexivity). destruct K as [K1 K2]. rewrite K2. rewrite K1 in H. cbn [arg0 pbind] in H.
      apply pbind_ok in H as (b & FB & H). apply pyok_inj in H. injection H as ->.
      assert (RA : resolve_args labels (o, [l]) = Some [t]) by (unfold resolve_args; rewrite J, NL; reflexivity).
      assert (TB : (t < 2 ^ 64)%N). { unfold format_u64_arg in FB. destruct (t <? 2 ^ 64)%N eqn:Q; [|discriminate]. apply N.ltb_lt, Q. }
      destruct (encode_ok labels o [l] [t] RA) as (bs & W & _ & F).
      { unfold args_fit. rewrite K2. exists t. auto. }
      unfold write_op_bytes in W. rewrite J in W. cbn [arg0 pbind] in W. rewrite NL in W. cbn [pbind] in W. rewrite K1 in W. cbn [arg0 pbind] in W. rewrite FB in W. cbn [pbind] in W.
      apply pyok_inj in W. subst bs. specialize (F []). rewrite app_nil_r in F. cbn [vm_fetch] in F. rewrite opcode_of_value, K2 in F. 
      assert (T' : take (argkind_size A64) a = Some (a, [])).
      { assert (L8 : List.length a = argkind_size A64) by (rewrite LA, K2; reflexivity). rewrite <- L8. clear. induction a; cbn; [reflexivity|]. rewrite IHa. reflexivity. }
      rewrite T' in F. injection F as F _. rewrite F. reflexivity.
  - rewrite T. eexists. split; [|split; [cbn; lia|discriminate]]. cbn [List.length]. rewrite LA. reflexivity.
Qed.

(** ** A whole module's code *)
Lemma skipn_exact {A} (a b : list A) : skipn (List.length a) (a ++ b) = b.
Proof. induction a; cbn; auto. Qed.
Lemma decode_all labels ops : forall bs off, write_ops labels ops = PyOk bs ->
  exists l, decodes bs off l /\ map (fun e => snd (fst e)) l = map fst ops /\
    (forall o a k, In (k, o, a) l -> is_jump o = true -> exists j t, nth_error labels j = Some t /\ a = [t]) /\
    (forall pre post, ops = pre ++ post -> post <> [] -> instr_at l (off + ops_size pre)).
Proof.
  induction ops as [|[o args] ops IH]; intros bs off H; cbn [write_ops] in H.
  - apply pyok_inj in H. subst bs. exists []. split; [constructor|]. split; [reflexivity|]. split; [intros ? ? ? []|].
    intros pre post E N. destruct pre; [|discriminate]. cbn in E. subst post. contradiction.
  - apply pbind_ok in H as (b1 & W & H). apply pbind_ok in H as (b2 & WS & H). apply pyok_inj in H. subst bs.
    destruct (fetch_written _ _ _ _ b2 W) as (a & F & L & J). pose proof (write_op_length _ _ _ W) as LL. cbn [fst] in LL.
    destruct (IH b2 (off + N.of_nat (List.length b1))%N WS) as (l & D & M & JJ & ST).
    exists ((off, o, a) :: l). split.
    { econstructor; [exact F|rewrite app_length; lia|]. rewrite skipn_exact. exact D. }
    split; [cbn; f_equal; exact M|]. split.
    + intros o' a' k [E|I] IJ; [injection E as <- <- <-; destruct (J IJ) as (j & t & ? & ?); eauto|eapply JJ; eauto].
    + intros pre post E N. destruct pre as [|i pre].
      * exists o, a. left. cbn. rewrite N.add_0_r. reflexivity.
      * injection E as <- E. destruct (ST pre post E N) as (o2 & a2 & I). exists o2, a2. right. cbn [ops_size fst].
        replace (off + (op_size o + ops_size pre))%N with (off + N.of_nat (List.length b1) + ops_size pre)%N by lia. exact I.
Qed.
Lemma map_last {A B} (f : A -> B) l x r : map f l = r ++ [x] -> exists l' y, l = l' ++ [y] /\ f y = x.
Proof.
  intros H. destruct (List.rev l) as [|y t] eqn:E; [apply (f_equal (@List.rev _)) in E; rewrite rev_involutive in E; subst l; destruct r; discriminate|].
  apply (f_equal (@List.rev _)) in E. rewrite rev_involutive in E. cbn in E. exists (List.rev t), y. split; [exact E|].
  rewrite E, map_app in H. cbn in H. apply app_inj_tail in H as [_ H]. exact H.
Qed.
Lemma decodes_args code off l k o a : decodes code off l -> In (k, o, a) l -> List.length a = match vm_argkind o with ANone => 0%nat | A64x2 => 2%nat | _ => 1%nat end.
Proof.
  induction 1 as [|? ? ? ? ? ? F Z D IH]; intros I; [destruct I|]. destruct I as [E|I]; [|auto]. injection E as -> -> ->. clear - F.
  unfold vm_fetch in F. destruct code as [|b r]; [discriminate|]. destruct (opcode_of_byte b) as [o'|]; [|discriminate]. destruct (take _ r) as [[w r']|]; [|discriminate].
  injection F as -> <- <-. destruct (vm_argkind o); reflexivity.
Qed.

Lemma init_kept R sc s : kept (fun _ => true) R -> init_tables sc = PyOk s -> R init_gst s.
Proof.
  intros K H. unfold init_tables in H. apply pbind_ok in H as ([u i] & C1 & H). apply pbind_ok in H as ([u' i'] & C2 & H). cbn [fst] in *.
  eapply (kp_trans _ _ K); [eapply (kp_const _ _ K), C1|]. eapply (kp_trans _ _ K); [eapply (kp_const _ _ K), C2|]. clear C1 C2.
  revert u' H. induction sc as [|e sc IH]; intros u' H; cbn [seqm] in H; [apply pyok_inj in H; subst s; apply (kp_refl _ _ K)|].
  apply pbind_ok in H as (v & E & H). eapply (kp_trans _ _ K); [|apply IH; exact H].
  destruct (is_named_kind _); [|apply pyok_inj in E; subst v; apply (kp_refl _ _ K)]. apply pbind_ok in E as ([v' j] & E & V). apply pyok_inj in V. subst v. eapply (kp_name _ _ K), E.
Qed.
Lemma gen_module_kept R C m F : kept (fun _ => true) R -> gen_module C m = PyOk F -> exists s, R init_gst s /\ F = append_op s HALT [].
Proof.
  intros K H. unfold gen_module in H. apply pbind_ok in H as (s0 & I & H). apply pbind_ok in H as (s1 & G & H). apply pyok_inj in H. subst F.
  eexists. split; [|reflexivity]. eapply (kp_trans _ _ K); [eapply init_kept; eassumption|]. eapply (kp_trans _ _ K); [apply (kp_scopes _ _ K)|].
  eapply (kp_trans _ _ K); [eapply seq_kept; [exact K|exact G]|]. eapply (kp_trans _ _ K); [apply (kp_scopes _ _ K)|]. apply (kp_line _ _ K). reflexivity.
Qed.
Lemma module_code_ok C m cm : compile_module C m = PyOk cm -> code_ok (cm_code cm) (map fn_start (cm_funcs cm)).
Proof.
  unfold compile_module. destruct (mo_builtin m).
  - intros H. apply pyok_inj in H. subst cm. cbn [cm_code cm_funcs map]. exists [(0%N, HALT, [])].
    split; [|split; [exists [], 0%N; reflexivity|split; [intros ? ? ? [E|[]]; injection E as <- <- <-; discriminate|intros ? []]]].
    eapply dec_op; [reflexivity|cbn; lia|constructor].
  - intros H. apply pbind_ok in H as (F & GF & H). apply pbind_ok in H as (code & W & H). apply pyok_inj in H. subst cm. cbn [cm_code cm_funcs].
    destruct (gen_module_kept _ _ _ _ shape_kept GF) as (s & SH & ->).
    assert (S0 : shape init_gst) by (constructor; [reflexivity|constructor..]). specialize (SH S0). destruct SH as [h1 h2 h3].
    cbn [append_op set_code g_labels g_ops g_funcs] in *.
    assert (ED : forall l t, (forall pre post, (g_ops s ++ [(HALT, [])]) = pre ++ post -> post <> [] -> instr_at l (0 + ops_size pre)) -> boundary (g_ops s) t -> instr_at l t).
    { intros l t Q (pre & post & E & ->). apply (Q pre (post ++ [(HALT, [])])); [rewrite E, <- app_assoc; reflexivity|destruct post; discriminate]. }
    destruct (decode_all _ _ _ 0%N W) as (l & D & M & J & ST). exists l. split; [exact D|]. split; [|split].
    + rewrite map_app in M. destruct (map_last _ _ _ _ M) as (l' & [[k o] a] & -> & E). cbn in E. subst o. exists l', k. repeat f_equal.
      assert (L0 : List.length a = 0%nat) by (eapply (decodes_args _ _ _ k HALT a D), in_or_app; right; left; reflexivity). destruct a; [reflexivity|discriminate].
    + intros k o a I IJ. destruct (J o a k I IJ) as (j & t & N & ->). exists t. split; [reflexivity|]. apply (ED l t ST).
      rewrite Forall_forall in h2. apply h2. eapply nth_error_In, N.
    + intros e I. apply in_map_iff in I as (f & <- & I). apply (ED l _ ST). rewrite Forall_forall in h3. apply h3, I.
Qed.
Lemma mapm_in {A B} (f : A -> pyres B) l r : mapm f l = PyOk r -> forall y, In y r -> exists x, In x l /\ f x = PyOk y.
Proof.
  revert r. induction l as [|x l IH]; cbn; intros r H y I; [apply pyok_inj in H; subst r; destruct I|].
  apply pbind_ok in H as (z & E & H). apply pbind_ok in H as (zs & ES & H). apply pyok_inj in H. subst r.
  destruct I as [<-|I]; [eauto|]. destruct (IH _ ES _ I) as (w & ? & ?). eauto.
Qed.
Lemma built_modules b main imports P m vm : build b main imports = PyOk (Some P) -> get_module P m = Some vm ->
  exists C md cm, compile_module C md = PyOk cm /\ loads cm vm.
Proof.
  intros HB G. destruct (build_loads _ _ _ _ HB) as (cm & cms & CA & L1 & L2 & _). unfold compile_all in CA. apply pbind_ok in CA as (is_ & M & CA).
  apply pbind_ok in CA as (mm & MM & CA). apply pyok_inj in CA. injection CA as <- <-.
  destruct m as [i|]; cbn [get_module] in G.
  - assert (FI : exists c, In c is_ /\ loads c vm).
    { clear - L2 G. revert G. generalize (N.to_nat i). induction L2; intros [|n] G; cbn in G; try discriminate; [injection G as <-; eexists; split; [left; reflexivity|assumption]|].
      destruct (IHL2 n G) as (c & ? & ?). exists c. split; [right|]; assumption. }
    destruct FI as (c & I & L). destruct (mapm_in _ _ _ M _ I) as (md & _ & CM). eauto.
  - injection G as <-. eauto.
Qed.
Theorem jumps_ok b main imports P m vm : build b main imports = PyOk (Some P) -> get_module P m = Some vm ->
  code_ok (m_code vm) (map fn_start (m_funcs vm)).
Proof.
  intros HB G. destruct (built_modules _ _ _ _ _ _ HB G) as (C & md & cm & CM & L). rewrite (lo_code _ _ L), (lo_funcs _ _ L). eapply module_code_ok, CM.
Qed.
