(** Running the instruction of an operator, of indexing and of field access after
    the code of the operands; used by [Prop_Operate.v]. *)
From Verif Require Import Base BaseFacts Bson BsonFacts Opcode Spec_Opcode OpcodeFacts Value VM Ast CodeGen Compile SemProg LoadFacts GenFacts SimVM Spec_Sem Spec_Option OptionRun.

(** The machine's next step puts the value on the stack [l], moving to [ip], or
    stops with the error. *)
Definition gives_value (E : ext) (P : program) (m : option N) (ip : N) (l : list value) (s : state) (r : vres value) : Prop :=
  match r with
  | ROk u => exists s', step E P s = SNext s' /\ stands m ip (l ++ [u]) s' /\ only_moved s s'
  | RErr e => exists tr s', step E P s = SErr e tr s' /\ only_moved s s'
  | RPanic => step E P s = SPanic
  end.
(** The machine's next step leaves [l] and changes the heap, or stops with the
    error. *)
Definition gives_heap (E : ext) (P : program) (m : option N) (ip : N) (l : list value) (s : state) (r : vres (list cell)) : Prop :=
  match r with
  | ROk h => exists s' t, step E P s = SNext s' /\ stands m ip l s' /\ only_moved s t /\ s' = with_world t (set_heap (s_world s) h)
  | RErr e => exists tr s', step E P s = SErr e tr s' /\ only_moved s s'
  | RPanic => step E P s = SPanic
  end.

Section Ins.
Variables (E : ext) (P : program) (bpath : text) (main : amodule) (imports : list amodule) (m : option N).
Hypothesis HB : build bpath main imports = PyOk (Some P).
Variables (md : amodule) (F : gst).
Hypothesis MA : module_at main imports m = Some md.
Hypothesis NB : mo_builtin md = false.
Hypothesis GM : gen_module (ctx_of imports bpath md) md = PyOk F.
Notation C := (ctx_of imports bpath md).

Lemma run_val y post s l vs o args r : g_ops F = g_ops y ++ (o, args) :: post -> is_jump o = false -> args_fit o args -> stands m (ends y) (l ++ vs) s ->
  (forall A vm ip s1, get_module P (q_m A) = Some vm -> at_ A ip (l ++ vs) (s_world s) (s_globs s, s_iglobs s) s1 ->
    exists s2, exec_op E P o args s1 = xval s2 r /\ at_ A ip l (s_world s) (s_globs s, s_iglobs s) s2) ->
  gives_value E P m (ends y + op_size o) l s r.
Proof.
  intros EO J FIT ST X. pose proof (op_there P bpath main imports m HB _ _ _ _ _ _ MA NB GM EO J FIT) as FE. destruct (stands_at _ _ _ _ ST) as (A & la & Q & FR & H).
  rewrite <- Q in FE. destruct (one_step E P _ _ _ _ _ _ _ _ H FE) as (s1 & vm & H1 & G & S).
  destruct (X _ _ _ _ G H1) as (s2 & X2 & H2). rewrite X2 in S. unfold gives_value. destruct r; cbn [xval] in S.
  - eexists. split; [exact S|]. eapply at_stands; try eassumption; [apply ST|apply push_at, H2].
  - eexists _, _. split; [exact S|]. eapply at_stands; try eassumption. apply ST.
  - exact S.
Qed.
Lemma run_heap y post s l vs o args r : g_ops F = g_ops y ++ (o, args) :: post -> is_jump o = false -> args_fit o args -> stands m (ends y) (l ++ vs) s ->
  (forall A vm ip s1, get_module P (q_m A) = Some vm -> at_ A ip (l ++ vs) (s_world s) (s_globs s, s_iglobs s) s1 ->
    exists s2, exec_op E P o args s1 = xlift s2 r (fun h => XOk (with_world s2 (set_heap (s_world s) h))) /\ at_ A ip l (s_world s) (s_globs s, s_iglobs s) s2) ->
  gives_heap E P m (ends y + op_size o) l s r.
Proof.
  intros EO J FIT ST X. pose proof (op_there P bpath main imports m HB _ _ _ _ _ _ MA NB GM EO J FIT) as FE. destruct (stands_at _ _ _ _ ST) as (A & la & Q & FR & H).
  rewrite <- Q in FE. destruct (one_step E P _ _ _ _ _ _ _ _ H FE) as (s1 & vm & H1 & G & S).
  destruct (X _ _ _ _ G H1) as (s2 & X2 & H2). rewrite X2 in S. unfold gives_heap. destruct r as [h| |]; cbn [xlift] in S.
  - destruct (at_stands _ _ _ _ _ _ _ _ _ Q FR (proj1 ST) H2 ST) as [K1 K2]. eexists _, s2. split; [exact S|]. split; [exact K1|]. split; [exact K2|reflexivity].
  - eexists _, _. split; [exact S|]. eapply at_stands; try eassumption. apply ST.
  - exact S.
Qed.
Lemma code_prefix x a b t t' : gen C x a = PyOk b -> g_ops F = g_ops b ++ t -> g_names F = g_names b ++ t' -> code_of bpath main imports m x a b.
Proof. intros G Q Q'. exists md, F. repeat (split; [assumption|]). split; [exists t; exact Q|exists t'; exact Q']. Qed.
Lemma gen_grow x a b : gen C x a = PyOk b -> exists t t', g_ops b = g_ops a ++ t /\ g_names b = g_names a ++ t'.
Proof. intros G. pose proof (proj1 (proj1 (proj1 (gen_gs C x)) a b G)) as X. destruct (gx_ops _ _ _ X) as (t & H), (gx_names _ _ _ X) as (t' & H'). eauto. Qed.
End Ins.

Lemma name_at s n s' i : name_index s n = PyOk (s', i) -> nth_error (g_names s') (N.to_nat i) = Some n /\ (i < 2 ^ 16)%N /\ g_ops s' = g_ops s /\ exists t, g_names s' = g_names s ++ t.
Proof.
  intros H. pose proof (gx_names _ _ _ (proj1 (gs_name 0 _ _ _ _ H))) as PF. unfold name_index, table_index in H. destruct (index_of text_eqb (g_names s) n) as [k|] eqn:IX.
  - destruct (_ <? _)%N eqn:L; [|discriminate]. apply pyok_inj in H. injection H as <- <-. cbn. rewrite Nat2N.id. apply N.ltb_lt in L. split; [|split; [lia|split; [reflexivity|exact PF]]].
    clear - IX. revert k IX. induction (g_names s) as [|x l IH]; cbn; intros k IX; [discriminate|]. destruct (text_eqb x n) eqn:E; [injection IX as <-; apply text_eqb_eq in E; subst; reflexivity|].
    destruct (index_of text_eqb l n) as [j|]; [|discriminate]. injection IX as <-. cbn. auto.
  - destruct (_ <? _)%N eqn:L; [|discriminate]. apply pyok_inj in H. injection H as <- <-. cbn. rewrite Nat2N.id. apply N.ltb_lt in L. split; [|split; [lia|split; [reflexivity|exact PF]]].
    rewrite nth_error_app2, Nat.sub_diag by lia. reflexivity.
Qed.

Section Forms.
Variables (P : program) (bpath : text) (main : amodule) (imports : list amodule) (m : option N).
Hypothesis HB : build bpath main imports = PyOk (Some P).
Notation code := (code_of bpath main imports m).

Lemma binop_forms ln op lx rx pr a b : code (NBin ln op false false lx rx pr) a b ->
  exists y z, code lx (set_line a ln) y /\ code rx y z /\ (pr = false -> ends b = ends z + 1)%N /\
  forall E s l v w, stands m (ends z) (l ++ [v; w]) s -> gives_value E P m (ends z + 1) l s (binop v (binop_code op) w).
Proof.
  intros (md & F & MA & NB & GM & GE & (post & EO) & (npost & EN)). set (C := ctx_of imports bpath md) in *.
  assert (GE' : pbind (gen C lx (set_line a ln)) (fun s => pbind (gen C rx s) (fun s => auto_cast C (append_op s (binop_code op) []) pr)) = PyOk b) by (cbn [gen node_line] in GE; destruct op; exact GE).
  clear GE. apply pbind_ok in GE' as (y & GY & GE). apply pbind_ok in GE as (z & GZ & GE).
  assert (EB : exists t t', g_ops b = g_ops z ++ (binop_code op, []) :: t /\ g_names b = g_names z ++ t').
  { unfold auto_cast in GE. destruct pr; [|apply pyok_inj in GE; subst b; exists [], []; cbn; rewrite app_nil_r; auto]. apply pbind_ok in GE as (u & LV & GE). apply pyok_inj in GE. subst b. cbn.
    destruct (gx_ops _ _ _ (proj1 (gs_load_variable _ 0 _ _ _ LV))) as (t & ->). destruct (gx_names _ _ _ (proj1 (gs_load_variable _ 0 _ _ _ LV))) as (t' & ->). cbn. rewrite <- !app_assoc. eexists _, t'. split; reflexivity. }
  destruct EB as (t & tb & EB & EBN). rewrite EBN, <- app_assoc in EN. assert (EF : g_ops F = g_ops z ++ (binop_code op, []) :: t ++ post) by (rewrite EO, EB, <- app_assoc; reflexivity).
  exists y, z. split; [|split; [|split]].
  - destruct (gen_grow _ _ _ _ _ _ GZ) as (t' & tn & EZ & EZN). eapply code_prefix; [exact MA|exact NB|exact GM|exact GY| |]; [rewrite EF, EZ, <- app_assoc; reflexivity|]. cbn in EN. rewrite EN, EZN, <- app_assoc. reflexivity.
  - eapply code_prefix; [exact MA|exact NB|exact GM|exact GZ|exact EF|]. cbn in EN. exact EN.
  - intros ->. apply pyok_inj in GE. subst b. rewrite ends_op. destruct op; reflexivity.
  - intros E s l v w ST. replace 1%N with (op_size (binop_code op)) by (destruct op; reflexivity).
    eapply run_val; try eassumption; try (destruct op; reflexivity).
    intros A vm ip s1 G H. eapply ex_binop; eassumption.
Qed.
Lemma index_forms ln tx ix a b : code (NIndex ln tx ix) a b ->
  exists y z, code tx (set_line a ln) y /\ code ix y z /\
  forall E s l v w, stands m (ends z) (l ++ [v; w]) s -> gives_value E P m (ends b) l s (index_get E (w_heap (s_world s)) v w).
Proof.
  intros (md & F & MA & NB & GM & GE & (post & EO) & (npost & EN)). cbn [gen node_line] in GE. apply pbind_ok in GE as (y & GY & GE). apply pbind_ok in GE as (z & GZ & GE). apply pyok_inj in GE. subst b.
  assert (EF : g_ops F = g_ops z ++ (OP_INDEX_GET, []) :: post) by (rewrite EO; cbn; rewrite <- app_assoc; reflexivity).
  exists y, z. split; [|split].
  - destruct (gen_grow _ _ _ _ _ _ GZ) as (t' & tn & EZ & EZN). eapply code_prefix; [exact MA|exact NB|exact GM|exact GY| |]; [rewrite EF, EZ, <- app_assoc; reflexivity|]. cbn in EN. rewrite EN, EZN, <- app_assoc. reflexivity.
  - eapply code_prefix; [exact MA|exact NB|exact GM|exact GZ|exact EF|]. cbn in EN. exact EN.
  - intros E s l v w ST. rewrite ends_op. eapply run_val; try eassumption; try reflexivity. intros A vm ip s1 G H. eapply ex_index_get; eassumption.
Qed.
Lemma index_set_forms ln tx ix vx a b : code (NIndexSet ln tx ix vx) a b ->
  exists y z u, code tx (set_line a ln) y /\ code ix y z /\ code vx z u /\
  forall E s l v w x, stands m (ends u) (l ++ [v; w; x]) s -> gives_heap E P m (ends b) l s (index_set (w_heap (s_world s)) v w x).
Proof.
  intros (md & F & MA & NB & GM & GE & (post & EO) & (npost & EN)). cbn [gen node_line] in GE. apply pbind_ok in GE as (y & GY & GE). apply pbind_ok in GE as (z & GZ & GE). apply pbind_ok in GE as (u & GU & GE). apply pyok_inj in GE. subst b.
  assert (EF : g_ops F = g_ops u ++ (OP_INDEX_SET, []) :: post) by (rewrite EO; cbn; rewrite <- app_assoc; reflexivity).
  destruct (gen_grow _ _ _ _ _ _ GZ) as (t & tn & EZ & EZN). destruct (gen_grow _ _ _ _ _ _ GU) as (t' & tn' & EU & EUN).
  exists y, z, u. split; [|split; [|split]].
  - eapply code_prefix; [exact MA|exact NB|exact GM|exact GY| |]; [rewrite EF, EU, EZ, <- !app_assoc; reflexivity|]. cbn in EN. rewrite EN, EUN, EZN, <- !app_assoc. reflexivity.
  - eapply code_prefix; [exact MA|exact NB|exact GM|exact GZ| |]; [rewrite EF, EU, <- app_assoc; reflexivity|]. cbn in EN. rewrite EN, EUN, <- app_assoc. reflexivity.
  - eapply code_prefix; [exact MA|exact NB|exact GM|exact GU|exact EF|]. cbn in EN. exact EN.
  - intros E s l v w x ST. rewrite ends_op. eapply run_heap; try eassumption; try reflexivity. intros A vm ip s1 G H. eapply ex_index_set; eassumption.
Qed.
Lemma name_step md F y z f i s l post npost : module_at main imports m = Some md -> mo_builtin md = false -> gen_module (ctx_of imports bpath md) md = PyOk F ->
  name_index y f = PyOk (z, i) -> g_ops F = g_ops z ++ (LOAD_NAME, [i]) :: post -> g_names F = g_names z ++ npost -> stands m (ends y) l s ->
  forall E, exists s', step E P s = SNext s' /\ stands m (ends z + op_size LOAD_NAME) (l ++ [VStr f]) s' /\ only_moved s s'.
Proof.
  intros MA NB GM NI EF EN ST E. destruct (name_at _ _ _ _ NI) as (NT & LT & OE & _). assert (FIT : args_fit LOAD_NAME [i]) by (exists i; auto).
  pose proof (op_there P bpath main imports m HB _ _ _ _ _ _ MA NB GM EF eq_refl FIT) as FE. assert (EE : ends y = ends z) by (unfold ends; rewrite OE; reflexivity). rewrite EE in ST.
  destruct (stands_at _ _ _ _ ST) as (A & la & Q & FR & H). rewrite <- Q in FE. destruct (one_step E P _ _ _ _ _ _ _ _ H FE) as (s1 & vm & H1 & G & S).
  assert (NV : nth_error (m_names vm) (N.to_nat i) = Some f).
  { destruct (built_ctx _ _ _ _ _ _ HB MA) as (vm' & cm & G' & CM & L). rewrite Q in G. assert (vm' = vm) by congruence. subst vm'. rewrite (lo_names _ _ L).
    unfold compile_module in CM. rewrite NB in CM. apply pbind_ok in CM as (F' & GM' & CM). rewrite GM in GM'. apply pyok_inj in GM'. subst F'. apply pbind_ok in CM as (code & W & CM). apply pyok_inj in CM. subst cm. cbn [cm_names].
    rewrite EN. rewrite nth_error_app1; [exact NT|]. apply nth_error_Some. congruence. }
  destruct (ex_name E P A vm G _ _ _ _ _ _ _ H1 NV) as (s2 & X & H2). rewrite X in S. exists s2. split; [exact S|]. eapply at_stands; try eassumption. apply ST.
Qed.
Lemma get_forms ln tx f a b : code (NGet ln tx f) a b ->
  exists y, code tx (set_line a ln) y /\
  forall E s l v, stands m (ends y) (l ++ [v]) s -> exists s1, step E P s = SNext s1 /\ only_moved s s1 /\ gives_value E P m (ends b) l s1 (prop_get (w_heap (s_world s1)) v (VStr f)).
Proof.
  intros (md & F & MA & NB & GM & GE & (post & EO) & (npost & EN)). cbn [gen node_line] in GE. apply pbind_ok in GE as (y & GY & GE). apply pbind_ok in GE as (z & GZ & GE). apply pyok_inj in GE. subst b.
  unfold load_name in GZ. apply pbind_ok in GZ as ([z0 i] & NI & GZ). apply pyok_inj in GZ. subst z. cbn [fst snd] in *.
  destruct (name_at _ _ _ _ NI) as (NT & LT & OE & (tn & ENZ)).
  assert (EF : g_ops F = g_ops z0 ++ (LOAD_NAME, [i]) :: (GET_PROP, []) :: post) by (rewrite EO; cbn; rewrite <- !app_assoc; reflexivity).
  cbn in EN. exists y. split.
  - eapply code_prefix; [exact MA|exact NB|exact GM|exact GY| |]; [rewrite EF, OE; reflexivity|]. rewrite EN, ENZ, <- app_assoc. reflexivity.
  - intros E s l v ST. destruct (name_step _ _ _ _ _ _ _ _ _ _ MA NB GM NI EF EN ST E) as (s1 & S1 & ST1 & OM). exists s1. split; [exact S1|]. split; [exact OM|].
    rewrite ends_op. assert (EF2 : g_ops F = g_ops (append_op z0 LOAD_NAME [i]) ++ (GET_PROP, []) :: post) by (rewrite EF; cbn; rewrite <- app_assoc; reflexivity).
    rewrite <- (ends_op z0 LOAD_NAME [i]), <- app_assoc in ST1. cbn [app] in ST1. eapply (run_val E P bpath main imports m HB md F MA NB GM _ _ _ _ [v; VStr f]); try eassumption; try reflexivity.
    intros A vm ip s2 G H. eapply ex_get_prop; eassumption.
Qed.
Lemma set_forms ln gln tx f vx a b : code (NSet ln gln tx f vx) a b ->
  exists y z u, code tx (set_line (set_line a ln) gln) y /\ load_name y f = PyOk z /\ code vx z u /\
  (forall E s l v, stands m (ends y) (l ++ [v]) s -> exists s1, step E P s = SNext s1 /\ stands m (ends z) (l ++ [v; VStr f]) s1 /\ only_moved s s1) /\
  (forall E s l v x, stands m (ends u) (l ++ [v; VStr f; x]) s -> gives_heap E P m (ends b) l s (prop_set (w_heap (s_world s)) v (VStr f) x)).
Proof.
  intros (md & F & MA & NB & GM & GE & (post & EO) & (npost & EN)). cbn [gen node_line] in GE. apply pbind_ok in GE as (y & GY & GE). apply pbind_ok in GE as (z & GZ & GE). apply pbind_ok in GE as (u & GU & GE). apply pyok_inj in GE. subst b.
  pose proof GZ as GZ0. unfold load_name in GZ. apply pbind_ok in GZ as ([z0 i] & NI & GZ). apply pyok_inj in GZ. cbn [fst snd] in *.
  destruct (name_at _ _ _ _ NI) as (NT & LT & OE & (tn & ENZ)). destruct (gen_grow _ _ _ _ _ _ GU) as (t' & tn' & EU & EUN).
  assert (EF : g_ops F = g_ops u ++ (SET_PROP, []) :: post) by (rewrite EO; cbn; rewrite <- app_assoc; reflexivity). cbn in EN.
  assert (EZ : g_ops z = g_ops z0 ++ [(LOAD_NAME, [i])]) by (subst z; reflexivity). assert (EZN : g_names z = g_names z0) by (subst z; reflexivity).
  exists y, z, u. split; [|split; [exact GZ0|split; [|split]]].
  - eapply code_prefix; [exact MA|exact NB|exact GM|exact GY| |]; [rewrite EF, EU, EZ, OE, <- !app_assoc; reflexivity|]. rewrite EN, EUN, EZN, ENZ, <- !app_assoc. reflexivity.
  - eapply code_prefix; [exact MA|exact NB|exact GM|exact GU|exact EF|exact EN].
  - intros E s l v ST. assert (EF1 : g_ops F = g_ops z0 ++ (LOAD_NAME, [i]) :: t' ++ (SET_PROP, []) :: post) by (rewrite EF, EU, EZ, <- !app_assoc; reflexivity).
    assert (EN1 : g_names F = g_names z0 ++ tn' ++ npost) by (rewrite EN, EUN, EZN, <- app_assoc; reflexivity).
    destruct (name_step _ _ _ _ _ _ _ _ _ _ MA NB GM NI EF1 EN1 ST E) as (s1 & S1 & ST1 & OM). exists s1. split; [exact S1|]. split; [|exact OM].
    rewrite <- (ends_op z0 LOAD_NAME [i]), GZ, <- app_assoc in ST1. exact ST1.
  - intros E s l v x ST. rewrite ends_op. eapply (run_heap E P bpath main imports m HB md F MA NB GM _ _ _ _ [v; VStr f; x]); try eassumption; try reflexivity. intros A vm ip s1 G H. eapply ex_set_prop; eassumption.
Qed.
(** Code of several expressions, one after the other. *)
Lemma codes_prefix md F : module_at main imports m = Some md -> mo_builtin md = false -> gen_module (ctx_of imports bpath md) md = PyOk F ->
  forall xs a b t t', seqm (gen (ctx_of imports bpath md)) xs a = PyOk b -> g_ops F = g_ops b ++ t -> g_names F = g_names b ++ t' -> in_turn code xs a b.
Proof.
  intros MA NB GM. induction xs as [|x xs IH]; intros a b t t' G Q Q'; cbn [seqm] in G; [apply pyok_inj in G; subst b; constructor|].
  apply pbind_ok in G as (c & GX & G). assert (GS : gs (List.length (g_labels c)) c b) by (eapply gs_seqm; [|reflexivity|exact G]; intros y _ u v U; apply (proj1 (proj1 (gen_gs _ y)) u v U)).
  destruct (gx_ops _ _ _ (proj1 GS)) as (q & EQ), (gx_names _ _ _ (proj1 GS)) as (q' & EQ'). econstructor; [|eapply IH; eassumption].
  eapply code_prefix; [exact MA|exact NB|exact GM|exact GX| |]; [rewrite Q, EQ, <- app_assoc; reflexivity|rewrite Q', EQ', <- app_assoc; reflexivity].
Qed.
Lemma written_small md F pre n post : module_at main imports m = Some md -> mo_builtin md = false -> gen_module (ctx_of imports bpath md) md = PyOk F ->
  g_ops F = pre ++ (BUILD_STR, [n]) :: post -> (n < 256)%N.
Proof.
  intros MA NB GM EF. destruct (built_ctx _ _ _ _ _ _ HB MA) as (vm' & cm & G' & CM & L).
  unfold compile_module in CM. rewrite NB in CM. apply pbind_ok in CM as (F' & GM' & CM). rewrite GM in GM'. apply pyok_inj in GM'. subst F'. apply pbind_ok in CM as (cd & W & CM). clear CM.
  rewrite EF, write_ops_app in W. apply pbind_ok in W as (x1 & _ & W). apply pbind_ok in W as (x2 & W & _). cbn [write_ops] in W. apply pbind_ok in W as (x3 & W & _).
  unfold write_op_bytes in W. cbn [is_jump pbind op_size arg0] in W. destruct (n <? 256)%N eqn:Q; [now apply N.ltb_lt|discriminate W].
Qed.
Lemma fmt_forms ln ps a b : code (NFmt ln ps) a b ->
  exists z, in_turn code ps (set_line a ln) z /\
  forall E s l vs ts, List.length vs = List.length ps -> stands m (ends z) (l ++ vs) s -> opt_map (show E (w_heap (s_world s))) vs = Some ts ->
    exists s', step E P s = SNext s' /\ stands m (ends b) (l ++ [VStr (List.concat ts)]) s' /\ only_moved s s'.
Proof.
  intros (md & F & MA & NB & GM & GE & (post & EO) & (npost & EN)). cbn [gen node_line] in GE. apply pbind_ok in GE as (z & GZ & GE). apply pyok_inj in GE. subst b.
  assert (EF : g_ops F = g_ops z ++ (BUILD_STR, [N.of_nat (List.length ps)]) :: post) by (rewrite EO; cbn; rewrite <- app_assoc; reflexivity). cbn in EN.
  exists z. split; [eapply codes_prefix; eassumption|]. intros E s l vs ts LV ST SH. pose proof (written_small _ _ _ _ _ MA NB GM EF) as SM.
  assert (FIT : args_fit BUILD_STR [N.of_nat (List.length ps)]) by (eexists; split; [reflexivity|exact SM]).
  pose proof (op_there P bpath main imports m HB _ _ _ _ _ _ MA NB GM EF eq_refl FIT) as FE. destruct (stands_at _ _ _ _ ST) as (A & la & Q & FR & H).
  rewrite <- Q in FE. destruct (one_step E P _ _ _ _ _ _ _ _ H FE) as (s1 & vm & H1 & G & S).
  destruct (ex_build_str E P A vm G _ _ _ _ _ _ _ H1 SH) as (s2 & X & H2). rewrite LV in X. rewrite X in S. exists s2. split; [exact S|]. rewrite ends_op. eapply at_stands; try eassumption. apply ST.
Qed.
Lemma mostra_forms ln x a b : code (NMostra ln x) a b ->
  exists y, code x (set_line a ln) y /\
  forall E s l v t, stands m (ends y) (l ++ [v]) s -> show E (w_heap (s_world s)) v = Some t ->
    exists s', step E P s = SNext s' /\ stands m (ends b) l s' /\ s_world s' = emit (s_world s) (t ++ [10%N]) /\ only_moved s (with_world s' (s_world s)).
Proof.
  intros (md & F & MA & NB & GM & GE & (post & EO) & (npost & EN)). cbn [gen node_line] in GE. apply pbind_ok in GE as (y & GY & GE). apply pyok_inj in GE. subst b.
  assert (EF : g_ops F = g_ops y ++ (MOSTRA, []) :: post) by (rewrite EO; cbn; rewrite <- app_assoc; reflexivity). cbn in EN.
  exists y. split; [eapply code_prefix; eassumption|]. intros E s l v t ST SH.
  pose proof (op_there P bpath main imports m HB _ _ _ _ _ _ MA NB GM EF eq_refl eq_refl) as FE. destruct (stands_at _ _ _ _ ST) as (A & la & Q & FR & H).
  rewrite <- Q in FE. destruct (one_step E P _ _ _ _ _ _ _ _ H FE) as (s1 & vm & H1 & G & S).
  destruct (ex_mostra E P A vm G _ _ _ _ _ _ _ H1 SH) as (s2 & X & H2). rewrite X in S. exists s2. split; [exact S|]. rewrite ends_op.
  assert (H3 : at_ A (ends y + op_size MOSTRA) l (s_world s) (s_globs s, s_iglobs s) (with_world s2 (s_world s))) by (eapply world_at, H2). destruct (at_stands _ _ _ _ _ _ _ _ _ Q FR (proj1 ST) H3 ST) as [K1 K2].
  split; [exact K1|]. split; [exact (at_w _ _ _ _ _ _ H2)|exact K2].
Qed.
End Forms.
