(** One module: from the generator's run to what the simulation needs. *)
From Verif Require Import Base BaseFacts Bson BsonFacts Opcode Spec_Opcode OpcodeFacts Dec Float Value Spec_Value ValueFacts
  Ast Spec_Tables TableFacts VM Compile SemProg CodeGen GenFacts Sem SemWf GenLocals SimVM Sim SimRel SimFrame SimNode SimFun GenFuncs LoadFacts.

(** ** The check with fewer functions *)
Section Weak.
Variables (S S' : senv) (C : gctx) (m : option N) (calls : bool).
Hypothesis HI : se_imp S' = se_imp S.
Hypothesis HT : se_tag S' = se_tag S.
Hypothesis HFn : forall m n, se_fun S' m n = None \/ se_fun S' m n = se_fun S m n.
Definition wm (x : node) : Prop := forall lp g scs, wf S C m calls lp g scs x = true -> wf S' C m calls lp g scs x = true.
Lemma own_glob_w n x : own_glob S' m n x = own_glob S m n x. Proof. unfold own_glob. rewrite HI. reflexivity. Qed.
Lemma glob_ok_w n x : glob_ok S' C m n x = glob_ok S C m n x. Proof. unfold glob_ok. rewrite own_glob_w, HI. reflexivity. Qed.
Lemma var_ok_w g n x : var_ok S' C m g n x = var_ok S C m g n x. Proof. unfold var_ok. rewrite glob_ok_w. reflexivity. Qed.
Lemma is_some_w k n : is_some (se_fun S' k n) = true -> is_some (se_fun S k n) = true.
Proof. destruct (HFn k n) as [-> | ->]; [discriminate|auto]. Qed.
Lemma set_glob_w n x : set_glob_ok S m n x = true -> set_glob_ok S' m n x = true.
Proof.
  unfold set_glob_ok. rewrite own_glob_w. destruct (own_glob S m n x); [|discriminate]. cbn. intros H.
  destruct (is_some (se_fun S' m n)) eqn:X; [|reflexivity]. apply is_some_w in X. rewrite X in H. discriminate.
Qed.
Lemma tgt_w g n x : tgt_ok S m g n x = true -> tgt_ok S' m g n x = true.
Proof. unfold tgt_ok. destruct (glook g n); [auto|]. apply set_glob_w. Qed.
Lemma decl_w g n x : decl_ok S m g n x = true -> decl_ok S' m g n x = true.
Proof. unfold decl_ok. destruct g; [apply set_glob_w|auto]. Qed.
Lemma chain_w g r : chain_ok S' C m g r = chain_ok S C m g r.
Proof. unfold chain_ok. destruct r; try reflexivity. rewrite var_ok_w. reflexivity. Qed.
Lemma user_w n : (calls || negb (user_call S m n))%bool = true -> (calls || negb (user_call S' m n))%bool = true.
Proof.
  destruct calls; [reflexivity|]. cbn. unfold user_call. rewrite HI. destruct (se_imp S m n) as [[i n']|]; intros H.
  - destruct (is_some (se_fun S' (Some i) n')) eqn:X; [|reflexivity]. apply is_some_w in X. rewrite X in H. discriminate.
  - destruct (is_some (se_fun S' m n)) eqn:X; [|reflexivity]. apply is_some_w in X. rewrite X in H. discriminate.
Qed.
Lemma wm_seq ch : Forall wm ch -> forall lp dc g scs, wf_seq (fun g y => wf S C m calls lp g scs y) dc g ch = true ->
  wf_seq (fun g y => wf S' C m calls lp g scs y) dc g ch = true.
Proof.
  induction 1; intros lp dc g scs H1; cbn in *; [reflexivity|]. apply andb_prop in H1 as [H1 H2].
  rewrite (H _ _ _ H1). eapply IHForall, H2.
Qed.
Lemma wm_all l lp g scs : Forall wm l -> forallb (wf S C m calls lp g scs) l = true -> forallb (wf S' C m calls lp g scs) l = true.
Proof.
  intros F H. rewrite forallb_forall in *. rewrite Forall_forall in F. intros y Hy. eapply F, H; assumption.
Qed.
Ltac wmx := repeat match goal with
  | H : Forall (fun x => wm x /\ kids wm x) ?l |- _ =>
      let A := fresh in let B := fresh in
      assert (A : Forall wm l) by (eapply Forall_impl; [|exact H]; intros ? [X _]; exact X);
      assert (B : Forall (kids wm) l) by (eapply Forall_impl; [|exact H]; intros ? [_ X]; exact X); clear H
  | H : wm _ /\ kids wm _ |- _ => destruct H
  | H : optP (fun x => wm x /\ kids wm x) ?o |- _ => destruct o; cbn [optP] in H
  | H : (_ && _)%bool = true |- _ => apply andb_prop in H as [? ?]
  | |- (_ && _)%bool = true => apply andb_true_intro; split
  | H : wm ?x, K : wf S _ _ _ ?lp ?g ?scs ?x = true |- wf S' _ _ _ ?lp ?g ?scs ?x = true => exact (H _ _ _ K)
  | H : Forall wm ?x, K : forallb (wf S _ _ _ ?lp ?g ?scs) ?x = true |- forallb (wf S' _ _ _ ?lp ?g ?scs) ?x = true => exact (wm_all _ _ _ _ H K)
  | |- chain_ok S' _ _ _ _ = true => rewrite chain_w; assumption
  | |- tgt_ok S' _ _ _ _ = true => apply tgt_w; assumption
  | |- decl_ok S' _ _ _ _ = true => apply decl_w; assumption
  | |- (calls || negb (user_call S' _ _))%bool = true => apply user_w; assumption
  | |- match ?b with NBlock _ _ => _ | _ => _ end = true => destruct b; try discriminate; cbn [kids] in *; eapply wm_seq; [|eassumption]; assumption
  end.
Lemma wf_weak x : wm x /\ kids wm x.
Proof.
  induction x using node_ind'; (split; [intros lp g scs W; cbn [wf] in *; try discriminate W|]); wmx; cbn [kids]; auto.
  - match goal with |- context [eff scs ?o name] => destruct (eff scs o name); [|discriminate] end. rewrite var_ok_w. exact W.
  - rewrite var_ok_w. exact W.
  - destruct k; destruct x; try discriminate W;
      try match type of W with (if ?b then _ else _) = true => destruct b; try discriminate W end; wmx; auto.
    all: try (match goal with |- match glook ?g ?n with _ => _ end = true => destruct (glook g n); [discriminate|]; match goal with |- context [eff ?q ?o ?n] => destruct (eff q o n); [|discriminate] end; rewrite glob_ok_w; assumption end).
    rewrite forallb_forall in *. rewrite Forall_forall in *. intros y Hy.
    match goal with Q : forall x, In x args -> match x with _ => _ end = true |- _ => specialize (Q _ Hy) end.
    match goal with Q : forall x, In x args -> kids wm x |- _ => specialize (Q _ Hy) end. destruct y; try discriminate. cbn [kids] in *. wmx.
  - destruct n; try discriminate W. cbn [kids] in *. wmx.
  - destruct (resolve scs name); [|discriminate]. apply decl_w, W.
  - rewrite forallb_forall in *. rewrite Forall_forall in *. intros y Hy.
    match goal with Q : forall x, In x elifs -> match x with _ => _ end = true |- _ => specialize (Q _ Hy) end.
    match goal with Q : forall x, In x elifs -> kids wm x |- _ => specialize (Q _ Hy) end. destruct y; try discriminate. cbn [kids] in *.
    repeat match goal with Q : wm _ /\ _ |- _ => destruct Q end. wmx.
  - rewrite forallb_forall in *. rewrite Forall_forall in *. intros y Hy.
    match goal with Q : forall x, In x elifs -> match x with _ => _ end = true |- _ => specialize (Q _ Hy) end.
    match goal with Q : forall x, In x elifs -> kids wm x |- _ => specialize (Q _ Hy) end. destruct y; try discriminate. cbn [kids] in *.
    repeat match goal with Q : wm _ /\ _ |- _ => destruct Q end. wmx.
  - split; [assumption|]. destruct x2; cbn [kids] in *; auto.
  - destruct x2; try discriminate W. wmx. cbn [kids] in *. eapply wm_seq; [|eassumption]; assumption.
  - destruct x3; try discriminate W; destruct (resolve _ _); try discriminate W; wmx; try assumption. cbn [kids] in *. eapply wm_seq; [|eassumption]; assumption.
  - destruct x3; try discriminate W; destruct (resolve _ _); try discriminate W; wmx; try assumption. cbn [kids] in *. eapply wm_seq; [|eassumption]; assumption.
  - match goal with |- match resolve ?a ?b with _ => _ end = true => destruct (resolve a b); [|discriminate] end. apply set_glob_w, W.
Qed.
Lemma wf_seq_weak lp dc g scs ch : wf_seq (fun g y => wf S C m calls lp g scs y) dc g ch = true -> wf_seq (fun g y => wf S' C m calls lp g scs y) dc g ch = true.
Proof. apply wm_seq. apply Forall_forall. intros. apply wf_weak. Qed.
End Weak.

(** ** The code of one function *)
Lemma nodupb_ok l : nodupb l = true -> NoDup l.
Proof.
  induction l as [|x l IH]; intros H; [constructor|]. cbn in H. apply andb_prop in H as [H1 H2]. constructor; [|apply IH, H2].
  intros I. apply negb_true_iff in H1. rewrite <- not_true_iff_false in H1. apply H1. apply existsb_exists. exists x. split; [exact I|apply text_eqb_refl].
Qed.
Definition param_slots (ps : list (text * sym)) : list (text * N) :=
  fold_left (fun ls q => assoc_set ls (sy_out (snd q)) (N.of_nat (List.length ls))) ps [].
Lemma slots_fold (ps : list (text * sym)) : forall L, numb L -> NoDup (map fst L ++ map (fun p => sy_out (snd p)) ps) ->
  let L' := fold_left (fun ls q => assoc_set ls (sy_out (snd q)) (N.of_nat (List.length ls))) ps L in
  numb L' /\ prefix L L' /\ List.length L' = (List.length L + List.length ps)%nat /\
  forall i p, nth_error ps i = Some p -> assoc (sy_out (snd p)) L' = Some (N.of_nat (List.length L + i)).
Proof.
  induction ps as [|p ps IH]; intros L NL ND; cbn [fold_left].
  - split; [exact NL|]. split; [apply prefix_refl|]. split; [cbn; lia|]. intros [|i] q Q; discriminate.
  - assert (NA : assoc (sy_out (snd p)) L = None).
    { destruct (assoc (sy_out (snd p)) L) eqn:A; [|reflexivity]. exfalso. apply assoc_in in A. cbn [map] in ND. apply NoDup_remove_2 in ND. apply ND.
      apply in_app_iff. left. apply in_map_iff. eexists. split; [|exact A]. reflexivity. }
    rewrite (assoc_set_none _ _ _ NA). destruct (IH (L ++ [(sy_out (snd p), N.of_nat (List.length L))])) as (I1 & I2 & I3 & I4).
    + apply numb_snoc; assumption.
    + rewrite map_app, <- app_assoc. exact ND.
    + split; [exact I1|]. split; [eapply prefix_trans; [|exact I2]; eexists; reflexivity|]. rewrite app_length in *. cbn [List.length] in *. split; [lia|].
      intros [|i] q Q; cbn in Q.
      * injection Q as <-. destruct I2 as [t I2]. rewrite I2. apply assoc_app. rewrite Nat.add_0_r. apply assoc_last, NA.
      * rewrite (I4 _ _ Q). f_equal. lia.
Qed.
Lemma param_slots_ok ps : NoDup (gouts [ps]) -> numb (param_slots ps) /\ List.length (param_slots ps) = List.length ps /\
  forall i p, nth_error ps i = Some p -> assoc (sy_out (snd p)) (param_slots ps) = Some (N.of_nat i).
Proof.
  intros H. unfold gouts in H. cbn in H. rewrite app_nil_r in H. destruct (slots_fold ps [] numb_nil H) as (A & _ & B & D). split; [exact A|]. split; [exact B|exact D].
Qed.

Lemma gen_func_parts C ln x ps sc ch s1 s2 : gen C (NFunc ln x ps false (NBlock sc ch)) s1 = PyOk s2 -> ipok s1 ->
  forallb nofn ch = true -> forallb noig ch = true -> NoDup (gouts [ps]) ->
  exists sa sb sc', ipok sa /\ g_scopes sa = sc :: g_scopes s1 /\ g_locals sa = param_slots ps /\
    seqm (gen C) ch sa = PyOk sb /\ load_const (leave sb) (CText (txt "falso")) = PyOk sc' /\
    mw (fun i => (List.length (g_labels sa) <= i)%nat) (append_op sc' RETURN []) s2 /\
    g_variants s2 = g_variants s1 /\
    g_funcs s2 = g_funcs s1 ++ [mkFunc (sy_name x) (g_ip sa) (N.of_nat (List.length (g_locals sb))) (assoc (sy_mod x) (c_modules C))].
Proof.
  intros GE I NF NG ND. cbn [gen node_line] in GE. apply pbind_ok in GE as ((sn & ni) & GN & GE). cbn [fst] in GE.
  destruct (new_label sn) as [sl la] eqn:NLA. destruct (new_label_eq _ _ _ NLA) as (LA & LA1 & LA2).
  destruct (new_label (append_op sl JUMP [la])) as [sm lb] eqn:NLB. destruct (new_label_eq _ _ _ NLB) as (LB & LB1 & LB2).
  apply pbind_ok in GE as (t1 & G1 & GE). apply pbind_ok in G1 as (sb & GB & G1). apply pyok_inj in G1. subst t1.
  apply pbind_ok in GE as (sc' & GC & GE). apply pbind_ok in GE as (t3 & GP & GE). apply pyok_inj in GE.
  set (sa := enter (set_locals sm (param_slots ps)) sc). change (seqm (gen C) ch sa = PyOk sb) in GB.
  exists sa, sb, sc'.
  assert (IA : ipok sa).
  { change (ipok sm). apply (mv_ip (fun _ => False) s1 sm); [|exact I]. eapply mv_trans; [|eapply mv_new_label, NLB].
    eapply mv_trans; [|apply mv_op]. eapply mv_trans; [|eapply mv_new_label, NLA].
    eapply mv_trans; [apply mv_line|eapply mv_name, GN]. }
  split; [exact IA|]. split.
  { cbn. f_equal. transitivity (g_scopes (append_op sl JUMP [la])); [apply (gs_new_label 0 _ _ _ NLB)|]. cbn. transitivity (g_scopes sn); [apply (gs_new_label 0 _ _ _ NLA)|].
    transitivity (g_scopes (set_line s1 ln)); [apply (gs_name 0 _ _ _ _ GN)|reflexivity]. }
  split; [reflexivity|]. split; [exact GB|]. split; [exact GC|].
  assert (FX1 : fx s1 sm).
  { eapply fx_trans; [|eapply fx_new_label, NLB]. eapply fx_trans; [|fv sl; apply fx_refl]. eapply fx_trans; [|eapply fx_new_label, NLA].
    eapply fx_trans; [|eapply fx_name, GN]. fr. }
  assert (FX2 : fx sm sc').
  { eapply fx_trans; [|eapply fx_load_const, GC]. fv sb. eapply (fx_trans _ sa); [fr|]. eapply fx_seq; [|exact NF|exact GB].
    apply Forall_forall. intros. apply gen_fx. }
  assert (FX3 : fx sc' t3). { eapply fx_trans; [|eapply fx_patch, GP]. fr. }
  pose proof (fx_trans _ _ _ (fx_trans _ _ _ FX1 FX2) FX3) as [FF FV].
  (* labels *)
  assert (M1 : mv (fun i => (i < List.length (g_labels sa))%nat) sa (append_op sc' RETURN [])).
  { eapply mv_trans; [|apply mv_op]. eapply mv_trans; [|eapply mv_load_const, GC]. eapply mv_trans; [|apply mv_leave]. eapply mv_seq; eassumption. }
  assert (LEN : List.length (g_labels sa) = Datatypes.S (Datatypes.S (List.length (g_labels sn)))).
  { change (g_labels sa) with (g_labels sm). rewrite LB1, app_length. cbn. rewrite LA1, app_length. cbn. lia. }
  assert (MP : forall i, i <> N.to_nat la -> nth_error (g_labels t3) i = nth_error (g_labels sc') i).
  { intros i Hi. unfold patch_label in GP. destruct (_ <? _)%N in GP; [discriminate|]. apply pyok_inj in GP. subst t3. cbn. apply list_set_other. congruence. }
  split.
  { subst s2. unfold mw.
    assert (MX : mv (fun i => (List.length (g_labels sa) <= i)%nat) (set_locals (append_op sc' RETURN []) []) (set_locals t3 [])).
    { unfold patch_label in GP. destruct (_ <? _)%N in GP; [discriminate|]. apply pyok_inj in GP. subst t3.
      constructor; cbn; auto with gx; rewrite ?list_set_length; auto. intros i Hi _. apply list_set_other. change (List.length (g_labels sm)) with (List.length (g_labels sa)) in Hi. lia. }
    destruct MX as [h1 h2 h3 h4 h5 h6 h7 h8 h9]. constructor; cbn in *; assumption. }
  split; [subst s2; exact FV|]. subst s2.
  change (g_funcs t3 ++ [mkFunc (sy_name x) (nth (N.to_nat lb) (g_labels t3) 0%N) (N.of_nat (List.length (g_locals sc'))) (assoc (sy_mod x) (c_modules C))] =
    g_funcs s1 ++ [mkFunc (sy_name x) (g_ip sa) (N.of_nat (List.length (g_locals sb))) (assoc (sy_mod x) (c_modules C))]).
  rewrite FF. f_equal. f_equal. f_equal.
  - assert (X : nth_error (g_labels t3) (N.to_nat lb) = Some (g_ip sa)).
    { rewrite MP.
      - change (nth_error (g_labels (append_op sc' RETURN [])) (N.to_nat lb) = Some (g_ip sa)).
        assert (LBN : N.to_nat lb = List.length (g_labels (append_op sl JUMP [la]))) by lia.
        rewrite (mv_lab _ _ _ M1); [|cbn [append_op set_code g_labels] in LBN; rewrite LA1, app_length in LBN; cbn in LBN; lia..].
        change (g_labels sa) with (g_labels sm). rewrite LB1, LBN, nth_error_app2, Nat.sub_diag by lia. cbn [nth_error]. f_equal.
        change (g_ip sa) with (g_ip sm). symmetry. apply (new_label_ip _ _ _ NLB).
      - subst la lb. cbn. rewrite LA1, app_length. cbn. lia. }
    apply nth_error_nth. exact X.
  - rewrite (loc_load_const _ _ _ GC). reflexivity.
Qed.

Lemma set_variable_locals s x s' : set_variable s x = PyOk s' -> sy_global x = false -> g_locals s' <> [].
Proof.
  unfold set_variable. intros H GG. rewrite GG in H. destruct (assoc (sy_out x) (g_locals s)) as [k|] eqn:A.
  - rewrite A in H. apply pyok_inj in H. subst s'. cbn. intros X. rewrite X in A. discriminate.
  - unfold declare_local in H. cbn [fst set_locals g_locals] in H. rewrite (assoc_set_none _ _ _ A) in H. destruct (assoc _ _) in H; [|discriminate].
    apply pyok_inj in H. subst s'. cbn. destruct (g_locals s); discriminate.
Qed.
Lemma decls_nonempty scs g x : g <> [] -> decls scs g x <> [].
Proof.
  intros H. destruct x; cbn; try assumption. destruct init as [[]|]; try assumption; [destruct g; [congruence|discriminate]|].
  destruct (resolve scs name); [|assumption]. destruct g; [congruence|discriminate].
Qed.
Lemma decl_locals S C m calls lp scs ch : forall g sa sb, g <> [] -> g_scopes sa = scs ->
  wf_seq (fun g y => wf S C m calls lp g scs y) (decls scs) g ch = true ->
  existsb is_decl ch = true -> seqm (gen C) ch sa = PyOk sb -> g_locals sb <> [].
Proof.
  induction ch as [|y ch IH]; intros g sa sb NE SC W X GE; [discriminate|]. cbn [wf_seq] in W. apply andb_prop in W as [W1 W2].
  assert (NI : forallb noig ch = true) by (eapply wn_seq; [apply Forall_forall; intros; apply wf_noig|exact W2]).
  cbn [seqm] in GE. destruct (gen C y sa) as [t|] eqn:GY; [|discriminate]. cbn in X. apply orb_prop in X as [X|X].
  - pose proof (mv_loc _ _ _ (mv_seq (fun _ => False) C ch t sb NI GE)) as PR.
    enough (g_locals t <> []) by (destruct PR as [e ->]; destruct (g_locals t); [congruence|discriminate]).
    destruct y; try discriminate X. cbn [gen node_line] in GY. destruct init as [[]|]; cbn [wf] in W1; try discriminate W1.
    + apply andb_prop in W1 as [W1 _]. apply andb_prop in W1 as [W1 _]. unfold decl_ok in W1. destruct g; [congruence|].
      unfold fresh_ok in W1. apply andb_prop in W1 as [W1 _]. apply negb_true_iff in W1.
      cbn [gen node_line] in GY. inv_gen.
      match goal with HH : finish_assign _ _ _ _ = PyOk _ |- _ => unfold finish_assign in HH; apply pbind_ok in HH as (u & _ & HH); eapply set_variable_locals; eassumption end.
    + apply pbind_ok in GY as (u & GC & GY). assert (SU : g_scopes u = scs) by (rewrite <- SC; exact (sc_scopes _ _ (ctx_of_gs O _ _ (gs_load_const _ _ _ _ GC)))).
      unfold need in GY. rewrite SU in GY. destruct (resolve scs name) as [y|]; [|discriminate]. unfold decl_ok in W1. destruct g; [congruence|].
      unfold fresh_ok in W1. apply andb_prop in W1 as [W1 _]. apply negb_true_iff in W1. eapply set_variable_locals; eassumption.
  - eapply (IH _ t); [apply decls_nonempty; exact NE| |exact W2|exact X|exact GE]. rewrite (sc_scopes _ _ (ctx_gen _ _ _ _ GY)). exact SC.
Qed.

(** ** The code of a module *)
Lemma index_of_none_in v l : index_of text_eqb l v = None -> ~ In v l.
Proof.
  induction l as [|x l IH]; cbn; [tauto|]. destruct (text_eqb x v) eqn:T; [discriminate|]. destruct (index_of text_eqb l v); [discriminate|].
  intros _ [->|I]; [rewrite text_eqb_refl in T; discriminate|apply IH; auto].
Qed.
Lemma variant_new l v : ~ In v l -> fst (table_index text_eqb l v) = l ++ [v].
Proof.
  intros H. unfold table_index. destruct (index_of text_eqb l v) as [i|] eqn:I; [|reflexivity].
  exfalso. apply H. apply (index_of_some _ text_eqb_eq) in I. eapply nth_error_In, I.
Qed.
Lemma variants_fold vs : forall s, NoDup (g_variants s ++ vs) -> g_variants (fold_left variant_index vs s) = g_variants s ++ vs.
Proof.
  induction vs as [|v vs IH]; intros s ND; cbn [fold_left]; [rewrite app_nil_r; reflexivity|].
  assert (NI : ~ In v (g_variants s)). { apply NoDup_remove_2 in ND. intros X. apply ND, in_app_iff. auto. }
  assert (X : g_variants (variant_index s v) = g_variants s ++ [v]) by (unfold variant_index; cbn [set_variants g_variants]; apply variant_new, NI).
  rewrite IH; rewrite X, <- app_assoc; [reflexivity|exact ND].
Qed.
Lemma fx_variants_funcs vs : forall s, g_funcs (fold_left variant_index vs s) = g_funcs s.
Proof. induction vs as [|v vs IH]; intros s; cbn [fold_left]; [reflexivity|]. rewrite IH. reflexivity. Qed.

Definition fgen (S : senv) (C : gctx) (F : gst) (m : option N) (fd : fundef) (f : afunc) : Prop :=
  exists ps sa sb sc, forall P S' bi vm, se_imp S' = se_imp S -> se_tag S' = se_tag S ->
    (forall m n, se_fun S' m n = None \/ se_fun S' m n = se_fun S m n) ->
    modok P S' bi m C F vm -> fn_code P S' bi m fd f C F vm ps sa sb sc.

Section Mod.
Variables (S : senv) (C : gctx) (F : gst) (m : option N) (sc : scope).
Hypothesis HP : assoc (c_path C) (c_modules C) = m.

Lemma func_fgen ln x ps bsc ch s1 s2 : gen C (NFunc ln x ps false (NBlock bsc ch)) s1 = PyOk s2 -> ipok s1 -> g_scopes s1 = [sc] ->
  top_ok S C m sc (NFunc ln x ps false (NBlock bsc ch)) = true -> mv (fun _ => True) s2 F ->
  g_variants s2 = g_variants s1 /\ exists f, g_funcs s2 = g_funcs s1 ++ [f] /\ fn_name f = sy_name x /\ fgen S C F m (mkFD (map fst ps) ch) f.
Proof.
  intros GE I SC T M. cbn [top_ok] in T. repeat match goal with H : (_ && _)%bool = true |- _ => apply andb_prop in H as [? ?] end.
  rename H into TM, H3 into TD, H2 into TN, H1 into TW, H0 into TC. apply text_eqb_eq in TM. apply nodupb_ok in TD.
  assert (NI : forallb noig ch = true) by (eapply wn_seq; [apply Forall_forall; intros; apply wf_noig|exact TW]).
  destruct (gen_func_parts _ _ _ _ _ _ _ _ GE I TN NI TD) as (sa & sb & sc' & IA & SA & LA & GB & GC & MW & FV & FF).
  split; [exact FV|]. eexists. split; [exact FF|]. split; [reflexivity|].
  destruct (param_slots_ok ps TD) as (PN & PL & PA).
  assert (LX : lx sa sb). { eapply lx_seq; [|exact NI|exact GB]. apply Forall_forall. intros. apply gen_lx. }
  destruct LX as [LX1 LX2]. rewrite LA in LX1, LX2.
  exists ps, sa, sb, sc'. intros P S' bi vm E1 E2 E3 HM. constructor; try exact HM; try assumption; try reflexivity.
  - cbn. rewrite TM. exact HP.
  - assert (MW' : mw (fun i => (List.length (g_labels sa) <= i)%nat) (append_op sc' RETURN []) F).
    { eapply mw_trans; [exact MW|]. apply mw_mv. destruct M as [h1 h2 h3 h4 h5 h6 h7 h8 h9]. constructor; try assumption. intros i _. apply h7. exact Logic.I. }
    eapply fin_mw; [exact MW'| |apply (mkFin _ F F (g_locals F)); auto with gx|].
    + apply Nat.le_refl.
    + change (prefix (g_locals sc') (g_locals sb)). rewrite (loc_load_const _ _ _ GC). apply prefix_refl.
  - apply LX2, PN.
  - intros i p Q. destruct LX1 as [e ->]. apply assoc_app, PA, Q.
  - destruct LX1 as [e ->]. rewrite app_length, PL. lia.
  - rewrite SA, SC. eapply wf_seq_weak; [exact E1|exact E3|exact TW].
  - intros Z. apply orb_prop in TC as [TC|TC]; [apply orb_prop in TC as [TC|TC]|].
    + exfalso. destruct ps; [discriminate TC|]. rewrite Z in LX1. destruct LX1 as [e X]. apply (f_equal (@List.length _)) in X. rewrite app_length, PL in X. discriminate X.
    + exact TC.
    + exfalso. eapply decl_locals; [| |exact TW|exact TC|exact GB|exact Z]; [discriminate|]. rewrite SA, SC. reflexivity.
Qed.
Lemma top_funs body : forall s0 s1, seqm (gen C) body s0 = PyOk s1 -> ipok s0 -> g_scopes s0 = [sc] ->
  forallb (top_ok S C m sc) body = true -> forallb noig body = true -> mv (fun _ => True) s1 F ->
  NoDup (g_variants s0 ++ variants_of body) ->
  g_variants s1 = g_variants s0 ++ variants_of body /\
  exists fl, g_funcs s1 = g_funcs s0 ++ fl /\ map fn_name fl = fun_names body /\
    forall n fd, find_fun n body = Some fd -> exists f, In f fl /\ fn_name f = n /\ fgen S C F m fd f.
Proof.
  induction body as [|x body IH]; intros s0 s1 GE I SC T NI M ND.
  - apply pyok_inj in GE. subst s1. unfold variants_of. cbn. rewrite app_nil_r. split; [reflexivity|]. exists []. rewrite app_nil_r.
    split; [reflexivity|]. split; [reflexivity|discriminate].
  - cbn [seqm] in GE. destruct (gen C x s0) as [t|] eqn:GX; [|discriminate]. cbn [forallb] in T, NI. apply andb_prop in T as [T1 T2]. apply andb_prop in NI as [N1 N2].
    assert (M2 : mv (fun _ => True) t F). { eapply mv_trans; [|exact M]. eapply mv_seq; eassumption. }
    assert (IT : ipok t). { eapply (mv_ip (fun _ => False)); [|exact I]. eapply mv_gen; eassumption. }
    assert (ST : g_scopes t = [sc]). { rewrite (sc_scopes _ _ (ctx_gen _ _ _ _ GX)). exact SC. }
    assert (STEP : g_variants t = g_variants s0 ++ (match x with NUniao _ _ vs => vs | _ => [] end) /\
      exists fl, g_funcs t = g_funcs s0 ++ fl /\ map fn_name fl = (match fun_of x with Some (n, _) => [n] | None => [] end) /\
        forall n fd, fun_of x = Some (n, fd) -> exists f, In f fl /\ fn_name f = n /\ fgen S C F m fd f).
    { assert (OTHER : nofn x = true -> (match x with NUniao _ _ vs => vs | _ => [] end) = [] -> fun_of x = None -> g_variants t = g_variants s0 ++ (match x with NUniao _ _ vs => vs | _ => [] end) /\
        exists fl, g_funcs t = g_funcs s0 ++ fl /\ map fn_name fl = (match fun_of x with Some (n, _) => [n] | None => [] end) /\
        forall n fd, fun_of x = Some (n, fd) -> exists f, In f fl /\ fn_name f = n /\ fgen S C F m fd f).
      { intros NF -> ->. destruct (proj1 (proj1 (gen_fx C x) NF) _ _ GX) as [F1 F2]. rewrite F1, F2, app_nil_r. split; [reflexivity|]. exists []. rewrite app_nil_r.
        split; [reflexivity|]. split; [reflexivity|discriminate]. }
      destruct x; try (apply OTHER; [exact T1|reflexivity|reflexivity]); clear OTHER.
      - destruct builtin; [discriminate T1|]. destruct x; try discriminate T1. cbn [fun_of].
        destruct (func_fgen _ _ _ _ _ _ _ GX I SC T1 M2) as (V & f & FF & FN & FG). rewrite V, app_nil_r. split; [reflexivity|]. exists [f]. split; [exact FF|].
        cbn. rewrite FN. split; [reflexivity|]. intros n fd H. injection H as <- <-. exists f. auto.
      - cbn [gen node_line] in GX. apply pbind_ok in GX as ((u & i) & GN & GX). apply pyok_inj in GX. subst t. cbn [fst fun_of].
        destruct (fx_name _ _ _ _ GN) as [F1 F2]. rewrite fx_variants_funcs.
        unfold variants_of in ND. cbn [map List.concat] in ND. rewrite app_assoc in ND. apply NoDup_app_inv in ND as (ND & _).
        rewrite variants_fold by (rewrite F2; exact ND). rewrite F1, F2. split; [reflexivity|]. exists []. rewrite app_nil_r. split; [reflexivity|]. split; [reflexivity|discriminate]. }
    destruct STEP as (V & fl & F1 & F2 & F3).
    destruct (IH t s1 GE IT ST T2 N2 M) as (V' & fl' & G1 & G2 & G3).
    { rewrite V. unfold variants_of in *. cbn [map List.concat] in ND. rewrite <- app_assoc. exact ND. }
    unfold variants_of in *. cbn [map List.concat]. split; [rewrite V', V, app_assoc; reflexivity|].
    exists (fl ++ fl'). split; [rewrite G1, F1, app_assoc; reflexivity|]. split.
    + rewrite map_app, F2, G2. reflexivity.
    + intros n fd H. cbn [find_fun] in H.
      assert (REST : find_fun n body = Some fd -> exists f, In f (fl ++ fl') /\ fn_name f = n /\ fgen S C F m fd f).
      { intros X. destruct (G3 _ _ X) as (f & FI & R). exists f. split; [apply in_app_iff; auto|exact R]. }
      destruct (fun_of x) as [[n' fd']|] eqn:FO; [|apply REST, H]. destruct (text_eqb n n') eqn:TE; [|apply REST, H].
      apply text_eqb_eq in TE. subst n'. injection H as <-. destruct (F3 _ _ eq_refl) as (f & FI & R). exists f. split; [apply in_app_iff; auto|exact R].
Qed.
End Mod.
