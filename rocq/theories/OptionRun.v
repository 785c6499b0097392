(** Running the instructions of null tests and unwrapping; used by
    [Prop_Option.v]. *)
From Verif Require Import Base BaseFacts Bson BsonFacts Opcode Spec_Opcode OpcodeFacts Value VM Ast CodeGen Compile SemProg LoadFacts GenFacts SimVM Spec_Sem Spec_Option HeightCode.

Lemma nth_loads (f : amodule -> pyres cmodule) l : forall n vms is_ md, mapm f l = PyOk is_ -> Forall2 loads is_ vms -> nth_error l n = Some md ->
  exists vm cm, nth_error vms n = Some vm /\ f md = PyOk cm /\ loads cm vm.
Proof.
  induction l as [|x l IH]; intros n vms is_ md M L2 MA; [destruct n; discriminate|].
  cbn [mapm] in M. apply pbind_ok in M as (c & C & M). apply pbind_ok in M as (cs & CS & M). apply pyok_inj in M. subst is_.
  inversion L2 as [|? v ? vs L L2']; subst. destruct n as [|n]; cbn in MA |- *.
  - injection MA as ->. eauto.
  - eapply IH; eassumption.
Qed.
Lemma built_ctx b main imports P m md : build b main imports = PyOk (Some P) -> module_at main imports m = Some md ->
  exists vm cm, get_module P m = Some vm /\ compile_module (ctx_of imports b md) md = PyOk cm /\ loads cm vm.
Proof.
  intros HB MA. destruct (build_loads _ _ _ _ HB) as (cm & cms & CA & L1 & L2 & _). unfold compile_all in CA. apply pbind_ok in CA as (is_ & M & CA).
  apply pbind_ok in CA as (mm & MM & CA). apply pyok_inj in CA. injection CA as <- <-.
  destruct m as [i|]; cbn [get_module module_at] in *.
  - eapply (nth_loads (fun m => compile_module (ctx_of imports b m) m)); eassumption.
  - injection MA as ->. eauto.
Qed.

Section Ins.
Variables (E : ext) (P : program) (bpath : text) (main : amodule) (imports : list amodule) (m : option N).
Hypothesis HB : build bpath main imports = PyOk (Some P).

(** An instruction that is in the final module can be fetched. *)
Lemma op_there md F y o args post : module_at main imports m = Some md -> mo_builtin md = false ->
  gen_module (ctx_of imports bpath md) md = PyOk F -> g_ops F = g_ops y ++ (o, args) :: post -> is_jump o = false -> args_fit o args ->
  fetch_at P m (ends y) o args.
Proof.
  intros MA NB GM EO J FIT. destruct (built_ctx _ _ _ _ _ _ HB MA) as (vm & cm & G & CM & L). exists vm. split; [exact G|].
  unfold compile_module in CM. rewrite NB in CM. apply pbind_ok in CM as (F' & GM' & CM). rewrite GM in GM'. apply pyok_inj in GM'. subst F'.
  apply pbind_ok in CM as (code & W & CM). apply pyok_inj in CM. subst cm. rewrite (lo_code _ _ L). cbn [cm_code].
  rewrite EO in W. unfold ends. eapply fetch_nth; [exact W| |exact FIT]. unfold resolve_args. rewrite J. reflexivity.
Qed.
Lemma stands_at ip l s : stands m ip l s -> exists A la, q_m A = m /\ s_frames s = mkFrame (q_nm A) ip la (q_bp A) (q_fm A) :: q_fr A /\ at_ A ip l (s_world s) (s_globs s, s_iglobs s) s.
Proof.
  intros (C & (f & r & F & I) & ST). exists (mkFC m (f_name f) (f_bp f) (f_mod f) r), (f_last f). subst ip. split; [reflexivity|].
  assert (EF : s_frames s = mkFrame (f_name f) (f_ip f) (f_last f) (f_bp f) (f_mod f) :: r) by (rewrite F; destruct f; reflexivity).
  split; [exact EF|]. constructor; cbn; auto. eexists. exact EF.
Qed.
Lemma at_stands A ip ip' l l' s s' la : q_m A = m -> s_frames s = mkFrame (q_nm A) ip la (q_bp A) (q_fm A) :: q_fr A -> s_ctx s = m ->
  at_ A ip' l' (s_world s) (s_globs s, s_iglobs s) s' -> stands m ip l s -> stands m ip' l' s' /\ only_moved s s'.
Proof.
  intros Q F C [c (la' & f) st W G] _. injection G as G1 G2. split.
  - split; [congruence|]. split; [|exact st]. eexists _, _. split; [exact f|reflexivity].
  - split; [congruence|]. split; [exact W|]. split; [exact G1|]. split; [exact G2|]. eexists _, _, _. split; [exact F|]. split; [exact f|]. auto.
Qed.

Lemma one_step A ip l w G s o args : at_ A ip l w G s -> fetch_at P (q_m A) ip o args -> exists s1 vm, at_ A (ip + op_size o) l w G s1 /\ get_module P (q_m A) = Some vm /\
  step E P s = match exec_op E P o args s1 with XOk s' => SNext s' | XHalt s' => SHalt s' | XErr e s' => SErr e (trace P s') s' | XPanic => SPanic end.
Proof. intros H F. destruct (step_at E P _ _ _ _ _ _ _ _ H F) as (s1 & H1 & S). destruct F as (vm & G' & _). eauto. Qed.
Lemma run_isnull md F y post s l v : module_at main imports m = Some md -> mo_builtin md = false -> gen_module (ctx_of imports bpath md) md = PyOk F ->
  g_ops F = g_ops y ++ (OP_ISNULL, []) :: post -> stands m (ends y) (l ++ [v]) s ->
  exists s', step E P s = SNext s' /\ stands m (ends y + op_size OP_ISNULL) (l ++ [VBool (is_none v)]) s' /\ only_moved s s'.
Proof.
  intros MA NB GM EO ST. pose proof (op_there _ _ _ _ _ _ MA NB GM EO eq_refl eq_refl) as FE. destruct (stands_at _ _ _ ST) as (A & la & Q & FR & H).
  rewrite <- Q in FE. destruct (one_step _ _ _ _ _ _ _ _ H FE) as (s1 & vm & H1 & G & S).
  destruct (ex_isnull E P A vm G _ _ _ _ _ _ H1) as (s2 & X & H2). rewrite X in S. exists s2. split; [exact S|]. eapply at_stands; try eassumption. apply ST.
Qed.
Lemma run_not md F y post s l b : module_at main imports m = Some md -> mo_builtin md = false -> gen_module (ctx_of imports bpath md) md = PyOk F ->
  g_ops F = g_ops y ++ (OP_NOT, []) :: post -> stands m (ends y) (l ++ [VBool b]) s ->
  exists s', step E P s = SNext s' /\ stands m (ends y + op_size OP_NOT) (l ++ [VBool (negb b)]) s' /\ only_moved s s'.
Proof.
  intros MA NB GM EO ST. pose proof (op_there _ _ _ _ _ _ MA NB GM EO eq_refl eq_refl) as FE. destruct (stands_at _ _ _ ST) as (A & la & Q & FR & H).
  rewrite <- Q in FE. destruct (one_step _ _ _ _ _ _ _ _ H FE) as (s1 & vm & H1 & G & S).
  destruct (ex_not E P A vm G _ _ _ _ _ _ H1) as (s2 & X & H2). rewrite X in S. eexists. split; [exact S|]. eapply at_stands; try eassumption; [apply ST|apply push_at, H2].
Qed.
Lemma run_unwrap0 md F y post s l v : module_at main imports m = Some md -> mo_builtin md = false -> gen_module (ctx_of imports bpath md) md = PyOk F ->
  g_ops F = g_ops y ++ (OP_UNWRAP, [0%N]) :: post -> stands m (ends y) (l ++ [v]) s ->
  if is_none v then exists tr s', step E P s = SErr ENull tr s' /\ only_moved s s'
  else exists s', step E P s = SNext s' /\ stands m (ends y + op_size OP_UNWRAP) (l ++ [v]) s' /\ only_moved s s'.
Proof.
  intros MA NB GM EO ST. assert (FIT : args_fit OP_UNWRAP [0%N]) by (exists 0%N; split; [reflexivity|lia]).
  pose proof (op_there _ _ _ _ _ _ MA NB GM EO eq_refl FIT) as FE. destruct (stands_at _ _ _ ST) as (A & la & Q & FR & H).
  rewrite <- Q in FE. destruct (one_step _ _ _ _ _ _ _ _ H FE) as (s1 & vm & H1 & G & S).
  destruct (ex_unwrap0 E P A vm G _ _ _ _ _ _ H1) as (s2 & X & H2). rewrite X in S. destruct (is_none v).
  - eexists _, _. split; [exact S|]. eapply at_stands; try eassumption. apply ST.
  - eexists. split; [exact S|]. eapply at_stands; try eassumption; [apply ST|apply push_at, H2].
Qed.
Lemma run_unwrap1 md F y post s l v d : module_at main imports m = Some md -> mo_builtin md = false -> gen_module (ctx_of imports bpath md) md = PyOk F ->
  g_ops F = g_ops y ++ (OP_UNWRAP, [1%N]) :: post -> stands m (ends y) (l ++ [v; d]) s ->
  exists s', step E P s = SNext s' /\ stands m (ends y + op_size OP_UNWRAP) (l ++ [if is_none v then d else v]) s' /\ only_moved s s'.
Proof.
  intros MA NB GM EO ST. assert (FIT : args_fit OP_UNWRAP [1%N]) by (exists 1%N; split; [reflexivity|lia]).
  pose proof (op_there _ _ _ _ _ _ MA NB GM EO eq_refl FIT) as FE. destruct (stands_at _ _ _ ST) as (A & la & Q & FR & H).
  rewrite <- Q in FE. destruct (one_step _ _ _ _ _ _ _ _ H FE) as (s1 & vm & H1 & G & S).
  destruct (ex_unwrap1 E P A vm G _ _ _ _ _ _ _ H1) as (s2 & X & H2). rewrite X in S. eexists. split; [exact S|]. eapply at_stands; try eassumption. apply ST.
Qed.
Lemma moved_trans s1 s2 s3 : only_moved s1 s2 -> only_moved s2 s3 -> only_moved s1 s3.
Proof.
  intros (a1 & a2 & a3 & a4 & f1 & f2 & r & F1 & F2 & b1 & b2 & b3) (c1 & c2 & c3 & c4 & f3 & f4 & r' & F3 & F4 & d1 & d2 & d3).
  rewrite F2 in F3. injection F3 as <- <-. repeat (split; [congruence|]). exists f1, f4, r. repeat split; congruence.
Qed.
Lemma ends_op a o args : ends (append_op a o args) = (ends a + op_size o)%N.
Proof. unfold ends. cbn. rewrite ops_size_app. cbn. lia. Qed.

Lemma null_step ln neg nl nr lx rx pr a b : nl || nr = true ->
  code_of bpath main imports m (NBin ln (if neg : bool then BNe else BEq) nl nr lx rx pr) a b ->
  exists y, code_of bpath main imports m (if nl then rx else lx) (set_line a ln) y /\
  forall s l v, stands m (ends y) (l ++ [v]) s ->
    exists k s', many E P k s s' /\ stands m (ends b) (l ++ [VBool (xorb neg (is_none v))]) s' /\ only_moved s s'.
Proof.
  intros NN (md & F & MA & NB & GM & GE & (post & EO) & (npost & EN)). set (C := ctx_of imports bpath md) in *.
  assert (GY : exists y, gen C (if nl then rx else lx) (set_line a ln) = PyOk y /\ b = if neg then append_op (append_op y OP_ISNULL []) OP_NOT [] else append_op y OP_ISNULL []).
  { cbn [gen node_line] in GE. destruct nl, neg; try (apply pbind_ok in GE as (y & Y & GE); apply pyok_inj in GE; eauto);
      (destruct nr; [|discriminate NN]); apply pbind_ok in GE as (y & Y & GE); apply pyok_inj in GE; eauto. }
  destruct GY as (y & GY & EB). exists y.
  assert (EF : g_ops F = g_ops y ++ (OP_ISNULL, []) :: (if neg then [(OP_NOT, [])] else []) ++ post).
  { rewrite EO, EB. destruct neg; cbn; rewrite <- !app_assoc; reflexivity. }
  split. { exists md, F. repeat (split; [eassumption|]). split; [eexists; exact EF|]. exists npost; rewrite EN, EB; destruct neg; reflexivity. }
  intros s l v ST. destruct (run_isnull _ _ _ _ _ _ _ MA NB GM EF ST) as (s1 & S1 & ST1 & M1).
  rewrite <- (ends_op y OP_ISNULL []) in ST1. destruct neg; cbn [app] in EF.
  - assert (EF2 : g_ops F = g_ops (append_op y OP_ISNULL []) ++ (OP_NOT, []) :: post) by (rewrite EF; cbn; rewrite <- app_assoc; reflexivity).
    destruct (run_not _ _ _ _ _ _ _ MA NB GM EF2 ST1) as (s2 & S2 & ST2 & M2). rewrite <- (ends_op _ OP_NOT []), <- EB in ST2.
    exists 2, s2. split; [eapply many_S; [exact S1|eapply many_S; [exact S2|constructor]]|]. split; [exact ST2|eapply moved_trans; eassumption].
  - exists 1, s1. rewrite <- EB in ST1. split; [eapply many_S; [exact S1|constructor]|]. rewrite Bool.xorb_false_l. auto.
Qed.
Lemma unwrap_step ln x a b : code_of bpath main imports m (NUnwrap ln x None) a b ->
  exists y, code_of bpath main imports m x (set_line a ln) y /\
  forall s l v, stands m (ends y) (l ++ [v]) s ->
    if is_none v then exists tr s', step E P s = SErr ENull tr s' /\ only_moved s s'
    else exists s', step E P s = SNext s' /\ stands m (ends b) (l ++ [v]) s' /\ only_moved s s'.
Proof.
  intros (md & F & MA & NB & GM & GE & (post & EO) & (npost & EN)). set (C := ctx_of imports bpath md) in *. cbn [gen node_line] in GE.
  apply pbind_ok in GE as (y & GY & EB). apply pyok_inj in EB. exists y.
  assert (EF : g_ops F = g_ops y ++ (OP_UNWRAP, [0%N]) :: post) by (rewrite EO, <- EB; cbn; rewrite <- !app_assoc; reflexivity).
  split. { exists md, F. repeat (split; [eassumption|]). split; [eexists; exact EF|]. exists npost; rewrite EN, <- EB; reflexivity. }
  intros s l v ST. pose proof (run_unwrap0 _ _ _ _ _ _ _ MA NB GM EF ST) as R. rewrite <- (ends_op y OP_UNWRAP [0%N]), EB in R. exact R.
Qed.
Lemma unwrap_or_step ln x d a b : code_of bpath main imports m (NUnwrap ln x (Some d)) a b ->
  exists y z, code_of bpath main imports m x (set_line a ln) y /\ code_of bpath main imports m d y z /\
  forall s l v w, stands m (ends z) (l ++ [v; w]) s ->
    exists s', step E P s = SNext s' /\ stands m (ends b) (l ++ [if is_none v then w else v]) s' /\ only_moved s s'.
Proof.
  intros (md & F & MA & NB & GM & GE & (post & EO) & (npost & EN)). set (C := ctx_of imports bpath md) in *. cbn [gen node_line] in GE.
  apply pbind_ok in GE as (y & GY & GE). apply pbind_ok in GE as (z & GZ & EB). apply pyok_inj in EB. exists y, z.
  assert (EF : g_ops F = g_ops z ++ (OP_UNWRAP, [1%N]) :: post) by (rewrite EO, <- EB; cbn; rewrite <- !app_assoc; reflexivity).
  destruct (gx_ops _ _ _ (proj1 (proj1 (proj1 (gen_gs C d)) y z GZ))) as (p2 & EZ).
  destruct (gx_names _ _ _ (proj1 (proj1 (proj1 (gen_gs C d)) y z GZ))) as (p3 & EZ3).
  split. { exists md, F. repeat (split; [eassumption|]). split; [rewrite EF, EZ, <- app_assoc; eexists; reflexivity|]. exists (p3 ++ npost). rewrite EN, <- EB. cbn. rewrite EZ3, <- app_assoc. reflexivity. }
  split. { exists md, F. repeat (split; [eassumption|]). split; [eexists; exact EF|]. exists npost; rewrite EN, <- EB; reflexivity. }
  intros s l v w ST. pose proof (run_unwrap1 _ _ _ _ _ _ _ _ MA NB GM EF ST) as R. rewrite <- (ends_op z OP_UNWRAP [1%N]), EB in R. exact R.
Qed.
End Ins.
