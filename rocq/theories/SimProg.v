(** Whole programs: the machine does what the interpreter says. *)
From Verif Require Import Base BaseFacts Bson BsonFacts Opcode Spec_Opcode OpcodeFacts Dec Float Value Spec_Value ValueFacts
  Ast Spec_Tables TableFacts VM Compile SemProg CodeGen GenFacts Sem SemWf GenLocals SimVM Sim SimRel SimFrame SimNode SimFun GenFuncs LoadFacts SimMod.

(** ** Lists *)
Lemma mapm_forall2 {A B} (f : A -> pyres B) l : forall l', mapm f l = PyOk l' -> Forall2 (fun x y => f x = PyOk y) l l'.
Proof.
  induction l as [|x l IH]; intros l' H; cbn in H; [apply pyok_inj in H; subst; constructor|].
  apply pbind_ok in H as (y & H1 & H). apply pbind_ok in H as (ys & H2 & H). apply pyok_inj in H. subst l'. constructor; auto.
Qed.
Lemma number_from_lt l : forall i p k, assoc p (number_from i l) = Some k -> (i <= k < i + N.of_nat (List.length l))%N.
Proof.
  induction l as [|x l IH]; intros i p k; cbn [number_from assoc List.length]; [discriminate|]. destruct (text_eqb p x).
  - intros H. injection H as <-. lia.
  - intros H. apply IH in H. lia.
Qed.
Lemma number_from_nth l : forall i j p, NoDup l -> nth_error l j = Some p -> assoc p (number_from i l) = Some (i + N.of_nat j)%N.
Proof.
  induction l as [|x l IH]; intros i j p ND H; [destruct j; discriminate|]. inversion ND as [|? ? NI ND']; subst. cbn [number_from assoc].
  destruct j as [|j]; cbn in H.
  - injection H as ->. rewrite text_eqb_refl. f_equal. lia.
  - destruct (text_eqb p x) eqn:T.
    + apply text_eqb_eq in T. subst x. exfalso. apply NI. eapply nth_error_In, H.
    + rewrite (IH _ _ _ ND' H). f_equal. lia.
Qed.
Lemma number_from_none l : forall i p, ~ In p l -> assoc p (number_from i l) = None.
Proof.
  induction l as [|x l IH]; intros i p H; cbn [number_from assoc]; [reflexivity|]. destruct (text_eqb p x) eqn:T.
  - apply text_eqb_eq in T. subst x. exfalso. apply H. left. reflexivity.
  - apply IH. intros I. apply H. right. exact I.
Qed.
Lemma text_eqb_sym a b : text_eqb a b = text_eqb b a.
Proof.
  destruct (text_eqb a b) eqn:X.
  - apply text_eqb_eq in X. subst. symmetry. apply text_eqb_refl.
  - destruct (text_eqb b a) eqn:Y; [|reflexivity]. apply text_eqb_eq in Y. subst. rewrite text_eqb_refl in X. discriminate.
Qed.
Lemma index_position l v i t : index_of text_eqb l v = Some i -> position v l = Some t -> t = N.of_nat i.
Proof.
  revert i t. induction l as [|x l IH]; intros i t; cbn; [discriminate|]. rewrite (text_eqb_sym v x). destruct (text_eqb x v).
  - intros H K. injection H as <-. injection K as <-. reflexivity.
  - destruct (index_of text_eqb l v) as [j|]; [|discriminate]. destruct (position v l) as [u|]; [|discriminate]. cbn. intros H K.
    injection H as <-. injection K as <-. rewrite (IH _ _ eq_refl eq_refl). lia.
Qed.
Lemma find_name fl n f : NoDup (map fn_name fl) -> In f fl -> fn_name f = n -> find (fun f => text_eqb n (fn_name f)) fl = Some f.
Proof.
  induction fl as [|g fl IH]; cbn; intros ND I FN; [contradiction|]. inversion ND as [|? ? NI ND']; subst. destruct I as [->|I].
  - rewrite text_eqb_refl. reflexivity.
  - destruct (text_eqb (fn_name f) (fn_name g)) eqn:T; [|apply IH; auto]. apply text_eqb_eq in T. exfalso. apply NI. rewrite <- T. apply in_map, I.
Qed.
Lemma find_in fl n f : find (fun f => text_eqb n (fn_name f)) fl = Some f -> In f fl /\ fn_name f = n.
Proof. intros H. apply find_some in H as [H1 H2]. apply text_eqb_eq in H2. auto. Qed.
Lemma insert_all_other defs : forall g n, ~ In n (map fst defs) -> assoc n (insert_all g defs) = assoc n g.
Proof.
  unfold insert_all. induction defs as [|[k v] defs IH]; intros g n H; cbn [fold_left fst snd map] in *; [reflexivity|].
  rewrite IH by (intros I; apply H; right; exact I). apply assoc_set_neq. intros ->. apply H. left. reflexivity.
Qed.
Lemma insert_all_in defs : forall g n v, NoDup (map fst defs) -> In (n, v) defs -> assoc n (insert_all g defs) = Some v.
Proof.
  induction defs as [|[k u] defs IH]; intros g n v ND I; [contradiction|]. inversion ND as [|? ? NI ND']; subst.
  change (insert_all g ((k, u) :: defs)) with (insert_all (assoc_set g k u) defs). destruct I as [X|I].
  - injection X as -> ->. rewrite insert_all_other by exact NI. apply assoc_set_eq.
  - apply IH; assumption.
Qed.

(** ** Tables at the start *)
Lemma init_names (sc : scope) : forall s s', seqm (fun e s => if is_named_kind (sy_kind (snd e)) then let! p := name_index s (fst e) in PyOk (fst p) else PyOk s) sc s = PyOk s' ->
  g_funcs s' = g_funcs s /\ g_variants s' = g_variants s /\ g_scopes s' = g_scopes s /\ g_locals s' = g_locals s /\ g_ops s' = g_ops s /\ g_ip s' = g_ip s.
Proof.
  induction sc as [|e sc IH]; intros s s' H; cbn [seqm] in H; [apply pyok_inj in H; subst; auto 10|].
  destruct (is_named_kind _); [|apply IH, H].
  destruct (name_index s (fst e)) as [[u i]|] eqn:N; [|discriminate H]. cbn [pbind fst] in H. apply IH in H.
  assert (X : g_funcs u = g_funcs s /\ g_variants u = g_variants s /\ g_scopes u = g_scopes s /\ g_locals u = g_locals s /\ g_ops u = g_ops s /\ g_ip u = g_ip s).
  { unfold name_index in N. destruct (table_index _ _ _). destruct (_ <? _)%N; [|discriminate]. apply pyok_inj in N. injection N as <- <-. cbn. auto 10. }
  destruct H as (A1 & A2 & A3 & A4 & A5 & A6), X as (B1 & B2 & B3 & B4 & B5 & B6). repeat split; congruence.
Qed.
Lemma init_tables_facts sc s : init_tables sc = PyOk s ->
  g_funcs s = [] /\ g_variants s = [] /\ g_scopes s = [] /\ g_locals s = [] /\ g_ops s = [] /\ g_ip s = 0%N.
Proof.
  unfold init_tables. intros H. apply pbind_ok in H as ([u i] & C1 & H). apply pbind_ok in H as ([u' i'] & C2 & H). cbn [fst] in *.
  apply init_names in H. unfold const_index in C1, C2. destruct (table_index _ _ _) in C1. destruct (_ <? _)%N in C1; [|discriminate].
  apply pyok_inj in C1. injection C1 as <- <-. destruct (table_index _ _ _) in C2. destruct (_ <? _)%N in C2; [|discriminate].
  apply pyok_inj in C2. injection C2 as <- <-. exact H.
Qed.

(** ** Runs of the machine *)
Section Runs.
Variable E : ext.
Variable P : program.
Lemma loop_running n s s' : steps E P n s s' -> forall k, (k <= n)%nat -> loop E P k s = None.
Proof.
  induction 1 as [s|n s s1 s2 ST X IH]; intros k L; destruct k as [|k]; try reflexivity; [lia|]. cbn [loop]. rewrite ST. apply IH. lia.
Qed.
Lemma loop_end n s s' r : steps E P n s s' -> step E P s' = r -> (forall x, r <> SNext x) -> forall k, (n < k)%nat -> loop E P k s = Some r.
Proof.
  intros X ST NN. induction X as [s|n s s1 s2 S1 X IH]; intros k L; (destruct k as [|k]; [lia|]); cbn [loop].
  - rewrite ST. destruct r; try reflexivity. exfalso. eapply NN. reflexivity.
  - rewrite S1. apply IH; [exact ST|lia].
Qed.
End Runs.

Lemma forall2_len {A B} (R : A -> B -> Prop) l l' : Forall2 R l l' -> List.length l = List.length l'.
Proof. induction 1; cbn; congruence. Qed.
Lemma forall2_nth {A B} (R : A -> B -> Prop) l l' : Forall2 R l l' -> forall i x, nth_error l i = Some x -> exists y, nth_error l' i = Some y /\ R x y.
Proof. induction 1; intros i z H1; destruct i; cbn in *; try discriminate; [injection H1 as <-; eauto|eauto]. Qed.

Section Prog.
Variable E : ext.
Variable b : text.
Variable main : amodule.
Variable imports : list amodule.
Variable P : program.
Hypothesis HB : build b main imports = PyOk (Some P).
Hypothesis HO : program_ok b main imports = true.
Hypothesis HZ : sizes_ok b main imports = true.
Notation S := (senv_of main imports).
Notation ctx := (ctx_of imports b).

Lemma prog_parts : NoDup (map mo_path (main :: imports)) /\ mo_builtin main = false /\
  (exists b0 r, imports = b0 :: r /\ mo_builtin b0 = true /\ mo_path b0 = b /\ mo_name b0 = txt "embutidos") /\
  modules_ok S ctx 0 imports = true /\ module_ok S (ctx main) None main = true.
Proof.
  pose proof HO as H. unfold program_ok in H. repeat match goal with H : (_ && _)%bool = true |- _ => apply andb_prop in H as [? ?] end.
  split; [apply nodupb_ok; assumption|]. split; [apply negb_true_iff; assumption|]. split; [|split; assumption].
  destruct imports as [|b0 r]; [discriminate|]. repeat match goal with H : (_ && _)%bool = true |- _ => apply andb_prop in H as [? ?] end.
  exists b0, r. repeat match goal with H : text_eqb _ _ = true |- _ => apply text_eqb_eq in H end. auto.
Qed.
Lemma modules_ok_nth l : forall i j md, modules_ok S ctx i l = true -> nth_error l j = Some md -> mo_builtin md = false ->
  module_ok S (ctx md) (Some (i + N.of_nat j)%N) md = true.
Proof.
  induction l as [|x l IH]; intros i j md H N B; [destruct j; discriminate|]. cbn [modules_ok] in H. apply andb_prop in H as [H1 H2].
  destruct j as [|j]; cbn in N.
  - injection N as ->. rewrite B in H1. cbn in H1. replace (i + N.of_nat 0)%N with i by lia. exact H1.
  - replace (i + N.of_nat (Datatypes.S j))%N with (i + 1 + N.of_nat j)%N by lia. apply IH; assumption.
Qed.
Lemma module_at_ok m md : module_at main imports m = Some md -> mo_builtin md = false -> module_ok S (ctx md) m md = true.
Proof.
  destruct prog_parts as (_ & _ & _ & H1 & H2). destruct m as [i|]; cbn [module_at]; intros H B.
  - pose proof (modules_ok_nth _ 0 (N.to_nat i) md H1 H B) as X. rewrite N2Nat.id in X. exact X.
  - injection H as <-. exact H2.
Qed.
Lemma module_idx m md : module_at main imports m = Some md -> assoc (mo_path md) (number_from 0 (map mo_path imports)) = m.
Proof.
  destruct prog_parts as (ND & _ & _ & _ & _). cbn [map] in ND. inversion ND as [|? ? NI ND']; subst. destruct m as [i|]; cbn [module_at]; intros H.
  - rewrite (number_from_nth _ 0 (N.to_nat i) (mo_path md) ND'); [f_equal; lia|]. rewrite nth_error_map, H. reflexivity.
  - injection H as <-. apply number_from_none. exact NI.
Qed.
Lemma imports_len : List.length (p_imports P) = List.length imports.
Proof.
  destruct (build_loads _ _ _ _ HB) as (cm & cms & CA & _ & L2 & _). unfold compile_all in CA. apply pbind_ok in CA as (is_ & M & CA).
  apply pbind_ok in CA as (mm & _ & CA). apply pyok_inj in CA. injection CA as <- <-. apply mapm_forall2 in M.
  rewrite <- (forall2_len _ _ _ L2), <- (forall2_len _ _ _ M). reflexivity.
Qed.
Lemma compiled m md : module_at main imports m = Some md ->
  exists cm vm, compile_module (ctx md) md = PyOk cm /\ get_module P m = Some vm /\ loads cm vm /\
    (forall z, In (CInt z) (cm_consts cm) -> in_i64 z = true).
Proof.
  intros H. destruct (build_loads _ _ _ _ HB) as (cm & cms & CA & L1 & L2 & L3). unfold compile_all in CA. apply pbind_ok in CA as (is_ & M & CA).
  apply pbind_ok in CA as (mm & MM & CA). apply pyok_inj in CA. injection CA as <- <-. apply mapm_forall2 in M.
  destruct m as [i|]; cbn [module_at get_module] in *.
  - destruct (forall2_nth _ _ _ M _ _ H) as (c & NC & CC). destruct (forall2_nth _ _ _ L2 _ _ NC) as (v & NV & LV).
    exists c, v. repeat (split; [assumption|]). intros z. apply L3. right. eapply nth_error_In, NC.
  - injection H as <-. exists mm, (p_main P). repeat (split; [assumption|]). split; [reflexivity|]. split; [assumption|]. intros z. apply L3. left. reflexivity.
Qed.
Lemma sized m md F : module_at main imports m = Some md -> mo_builtin md = false -> gen_module (ctx md) md = PyOk F ->
  Forall fit16 (g_ops F) /\ (List.length (g_locals F) <= 256)%nat.
Proof.
  intros H B G. unfold sizes_ok in HZ. rewrite forallb_forall in HZ. specialize (HZ md). rewrite B, G in HZ. cbn [orb] in HZ.
  assert (I : In md (main :: imports)). { destruct m as [i|]; cbn in H; [right; eapply nth_error_In, H|left; congruence]. }
  apply HZ in I. apply andb_prop in I as [I1 I2]. split; [|apply Nat.leb_le, I2]. apply Forall_forall. intros x Hx. rewrite forallb_forall in I1. specialize (I1 _ Hx).
  unfold fit16b in I1. unfold fit16. intros A. rewrite A in I1. apply Forall_forall. intros a Ha. rewrite forallb_forall in I1. specialize (I1 _ Ha). lia.
Qed.

(** What is known of a module written in Amanda. *)
Record user_mod (m : option N) (md : amodule) (vm : vmodule) (F s0 s1 : gst) : Prop := mkUM {
  um_get : get_module P m = Some vm;
  um_bi : m_builtin vm = false;
  um_init : init_tables (mo_scope md) = PyOk s0;
  um_gen : seqm (gen (ctx md)) (mo_body md) (enter s0 (mo_scope md)) = PyOk s1;
  um_F : F = append_op (set_line (leave s1) 0) HALT [];
  um_ok : forall S', se_tag S' = se_tag S -> modok P S' 0 m (ctx md) F vm;
  um_loc : (List.length (g_locals F) <= 256)%nat;
  um_wf : wf_seq (fun g z => wf S (ctx md) m (match m with None => true | _ => false end) false g [mo_scope md] z) (decls [mo_scope md]) [] (mo_body md) = true;
  um_names : NoDup (map fn_name (m_funcs vm));
  um_fun : forall n fd, find_fun n (mo_body md) = Some fd -> exists f, find (fun f => text_eqb n (fn_name f)) (m_funcs vm) = Some f /\ fgen S (ctx md) F m fd f
}.
Lemma user_module m md : module_at main imports m = Some md -> mo_builtin md = false -> exists vm F s0 s1, user_mod m md vm F s0 s1.
Proof.
  intros MA B. destruct (compiled m md MA) as (cm & vm & CM & GM & LO & I64). unfold compile_module in CM. rewrite B in CM.
  apply pbind_ok in CM as (F & GF & CM). apply pbind_ok in CM as (code & WO & CM). apply pyok_inj in CM.
  destruct (sized _ _ _ MA B GF) as [F16 LOC]. pose proof (module_at_ok _ _ MA B) as MO. pose proof GF as GF'.
  unfold gen_module in GF. apply pbind_ok in GF as (s0 & IT & GF). apply pbind_ok in GF as (s1 & GB & GF). apply pyok_inj in GF.
  unfold module_ok in MO. repeat match goal with H : (_ && _)%bool = true |- _ => apply andb_prop in H as [? ?] end.
  rename H into MN, H2 into MV, H1 into MT, H0 into MW. apply nodupb_ok in MN, MV.
  assert (NI : forallb noig (mo_body md) = true) by (eapply wn_seq; [apply Forall_forall; intros; apply wf_noig|exact MW]).
  destruct (init_tables_facts _ _ IT) as (Z1 & Z2 & Z3 & Z4 & Z5 & Z6).
  assert (I0 : ipok (enter s0 (mo_scope md))) by (unfold ipok; cbn; rewrite Z6, Z5; reflexivity).
  assert (M1 : mv (fun _ => True) s1 F).
  { subst F. eapply mv_trans; [apply mv_leave|]. eapply mv_trans; [apply mv_line|apply mv_op]. }
  destruct (top_funs S (ctx md) F m (mo_scope md) (module_idx _ _ MA) (mo_body md) _ _ GB I0) as (V & fl & F1 & F2 & F3); try assumption.
  { cbn. rewrite Z3. reflexivity. }
  { cbn. rewrite Z2. exact MV. }
  cbn [enter set_scopes g_funcs g_variants] in F1, V. change (g_funcs (enter s0 (mo_scope md))) with (g_funcs s0) in F1.
  change (g_variants (enter s0 (mo_scope md))) with (g_variants s0) in V. rewrite Z1 in F1. rewrite Z2 in V. cbn [app] in F1, V.
  assert (FF : m_funcs vm = fl). { rewrite (lo_funcs _ _ LO), <- CM. cbn [cm_funcs]. rewrite <- GF, <- F1. reflexivity. }
  exists vm, F, s0, s1. constructor; try assumption.
  - rewrite (lo_bi _ _ LO), <- CM. reflexivity.
  - symmetry. exact GF.
  - intros S' ST. destruct prog_parts as (ND & BM & (b0 & r & IMP & BB & BP & BN) & _ & _). constructor.
    + exact GM.
    + rewrite (lo_code _ _ LO), <- CM. exact WO.
    + rewrite (lo_names _ _ LO), <- CM. reflexivity.
    + rewrite (lo_regs _ _ LO), <- CM. reflexivity.
    + pose proof (lo_consts _ _ LO) as X. rewrite <- CM in X. exact X.
    + intros z Hz. assert (X : in_i64 z = true) by (apply I64; rewrite <- CM; exact Hz). unfold in_i64, max_i64 in X. lia.
    + exact F16.
    + intros p i Hp. cbn [ctx_of c_modules] in Hp. apply number_from_lt in Hp. rewrite map_length in Hp. rewrite imports_len. lia.
    + cbn [ctx_of c_modules c_builtins]. rewrite IMP. cbn [map number_from assoc]. rewrite BP, text_eqb_refl. reflexivity.
    + cbn [ctx_of c_path c_builtins]. destruct (text_eqb b (mo_path md)) eqn:T; [|reflexivity]. exfalso. apply text_eqb_eq in T.
      pose proof (module_idx m md MA) as X. rewrite <- T, IMP in X. cbn [map number_from assoc] in X. rewrite BP, text_eqb_refl in X. subst m.
      cbn [module_at] in MA. rewrite IMP in MA. cbn in MA. injection MA as <-. congruence.
    + intros ->. cbn [module_at] in MA. rewrite IMP in MA. cbn in MA. injection MA as <-. congruence.
    + destruct m as [i|]; [|exact I]. rewrite imports_len. apply nth_error_Some. cbn in MA. congruence.
    + intros v i t IX TG. rewrite ST in TG. cbn [senv_of se_tag] in TG. rewrite MA in TG. rewrite <- GF in IX. change (index_of text_eqb (g_variants s1) v = Some i) in IX.
      rewrite V in IX. eapply index_position; eassumption.
  - rewrite FF, F2. exact MN.
  - intros n fd H. destruct (F3 _ _ H) as (f & FI & FN & FG). exists f. split; [|exact FG]. rewrite FF. apply find_name; [rewrite F2; exact MN|exact FI|exact FN].
Qed.

(** The functions that exist when the modules in [p] have been started. *)
Definition fofp (p : option N -> bool) (m : option N) (n : text) : option afunc :=
  if p m then
    match se_fun S m n, get_module P m with
    | Some _, Some vm => find (fun f => text_eqb n (fn_name f)) (m_funcs vm)
    | _, _ => None
    end
  else None.
Definition stage_fof (m : option N) := fofp (seen m).
Lemma stage_none st m n : se_fun (during S st) m n = None -> stage_fof st m n = None.
Proof. unfold stage_fof, fofp. cbn [during se_fun]. destruct (seen st m); [|reflexivity]. intros ->. reflexivity. Qed.
Lemma stage_fun st mm n fd : se_fun (during S st) mm n = Some fd -> exists f, stage_fof st mm n = Some f /\ fn_ok P (during S st) 0 mm fd f.
Proof.
  cbn [during se_fun]. unfold stage_fof, fofp. destruct (seen st mm) eqn:SE; [|discriminate]. intros H. rewrite H. cbn [senv_of se_fun] in H.
  destruct (module_at main imports mm) as [md|] eqn:MA; [|discriminate]. unfold module_fun in H. destruct (mo_builtin md) eqn:B; [discriminate|].
  destruct (user_module _ _ MA B) as (vm & F & s0 & s1 & UM). rewrite (um_get _ _ _ _ _ _ UM). destruct (um_fun _ _ _ _ _ _ UM _ _ H) as (f & FI & ps & sa & sb & sc & FG).
  exists f. split; [exact FI|]. exists (ctx md), F, vm, ps, sa, sb, sc. apply FG; try reflexivity.
  - intros m' n'. cbn [during se_fun]. destruct (seen st m'); auto.
  - apply (um_ok _ _ _ _ _ _ UM). reflexivity.
Qed.

(** ** Between modules *)
Definition before (st m : option N) : bool := seen st m && negb (omod_eqb st m).
Record inv (p : option N -> bool) (ty : bool) (c : cfg) (s : state) : Prop := mkInv {
  iv_var : forall i n v, k_g c i n = Some v -> assoc n (get_globs s i) = Some v;
  iv_fun : forall i n f, fofp p i n = Some f -> assoc n (get_globs s i) = Some (VFunc f);
  iv_len : List.length (s_iglobs s) = List.length (p_imports P);
  iv_ty : ty = true -> forall n t, type_named n = Some t -> assoc n (get_globs s (Some 0%N)) = Some (VType t);
  iv_vals : (256 <= List.length (s_vals s))%nat;
  iv_w : s_world s = k_w c
}.
Lemma inv_reset p ty c s : inv p ty c s -> inv p ty c (reset s).
Proof. intros [h1 h2 h3 h4 h5 h6]. constructor; auto. Qed.
Lemma inv_mono (p p' : option N -> bool) ty c s : (forall m vm, get_module P m = Some vm -> p' m = true -> p m = true) -> inv p ty c s -> inv p' ty c s.
Proof.
  intros M [h1 h2 h3 h4 h5 h6]. constructor; auto. intros i n f H. apply h2. unfold fofp in *. destruct (p' i) eqn:PI; [|discriminate].
  destruct (se_fun S i n); [|discriminate]. destruct (get_module P i) eqn:GM; [|discriminate]. rewrite (M _ _ GM PI). exact H.
Qed.
Lemma get_set_same s m g : match m with Some i => (N.to_nat i < List.length (s_iglobs s))%nat | None => True end -> get_globs (set_globs s m g) m = g.
Proof. destruct m as [i|]; cbn; [|reflexivity]. intros L. apply nth_error_nth. apply list_set_same, L. Qed.
Lemma get_set_other s m m' g : m <> m' -> get_globs (set_globs s m g) m' = get_globs s m'.
Proof.
  destruct m as [i|], m' as [j|]; cbn; intros H; try reflexivity; [|congruence].
  assert (X : nth_error (list_set (s_iglobs s) (N.to_nat i) g) (N.to_nat j) = nth_error (s_iglobs s) (N.to_nat j)).
  { apply list_set_other. intros X. apply N2Nat.inj in X. congruence. }
  revert X. generalize (list_set (s_iglobs s) (N.to_nat i) g). intros l X. destruct (nth_error (s_iglobs s) (N.to_nat j)) as [a|] eqn:Y.
  - rewrite (nth_error_nth _ _ _ X), (nth_error_nth _ _ _ Y). reflexivity.
  - rewrite !nth_overflow; [reflexivity| |]; apply nth_error_None; assumption.
Qed.
Lemma set_globs_len s m g : List.length (s_iglobs (set_globs s m g)) = List.length (s_iglobs s).
Proof. destruct m; cbn; [apply list_set_length|reflexivity]. Qed.
Lemma module_in m vm s p ty c : get_module P m = Some vm -> inv p ty c s -> match m with Some i => (N.to_nat i < List.length (s_iglobs s))%nat | None => True end.
Proof. intros G H. destruct m as [i|]; [|exact I]. rewrite (iv_len _ _ _ _ H). apply nth_error_Some. cbn in G. congruence. Qed.

(** Starting a module adds its definitions. *)
Lemma start_inv m vm ty ty' c s defs ds s0 : get_module P m = Some vm -> inv (before m) ty c s ->
  initialize E vm (get_globs s m) = Some (insert_all (get_globs s m) defs) -> start_module E s m vm = Some s0 ->
  NoDup (map fst defs) -> (forall n v, assoc n ds = Some v -> In (n, v) defs) ->
  (forall n f, stage_fof m m n = Some f -> In (n, VFunc f) defs) ->
  (ty' = true -> (ty = true /\ m <> Some 0%N) \/ (m = Some 0%N /\ forall n t, type_named n = Some t -> In (n, VType t) defs)) ->
  inv (seen m) ty' (start_globals c m ds) s0 /\
  at_ (mkFC m (txt "_inicio_") 0 None []) 0 (s_vals s) (k_w c) (s_globs s0, s_iglobs s0) s0 /\ s_vals s0 = s_vals s.
Proof.
  intros GM IV IN ST ND DS DF DT. unfold start_module in ST. rewrite IN in ST. apply some_inj in ST. subst s0.
  pose proof (module_in _ _ _ _ _ _ GM IV) as ML. pose proof IV as [h1 h2 h3 h4 h5 h6].
  set (g := insert_all (get_globs s m) defs).
  assert (GG : forall i, get_globs (init_main (with_ctx (set_globs s m g) m) vm) i = get_globs (set_globs s m g) i) by (intros [i|]; reflexivity).
  assert (VV : s_vals (init_main (with_ctx (set_globs s m g) m) vm) = s_vals s) by (destruct m; reflexivity).
  split; [|split; [|exact VV]].
  - constructor.
    + intros i n v H. cbn [start_globals k_g] in H. rewrite GG. destruct (omod_eqb m i) eqn:O.
      * apply omod_eqb_eq in O. subst i. rewrite get_set_same by exact ML. apply insert_all_in; auto.
      * rewrite get_set_other; [auto|]. intros ->. rewrite (proj2 (omod_eqb_eq i i) eq_refl) in O. discriminate.
    + intros i n f H. rewrite GG. destruct (omod_eqb m i) eqn:O.
      * apply omod_eqb_eq in O. subst i. rewrite get_set_same by exact ML. apply insert_all_in; auto.
      * rewrite get_set_other; [|intros ->; rewrite (proj2 (omod_eqb_eq i i) eq_refl) in O; discriminate]. apply h2. unfold fofp, before in *. rewrite O, andb_true_r. exact H.
    + change (List.length (s_iglobs (set_globs s m g)) = List.length (p_imports P)). rewrite set_globs_len. exact h3.
    + intros T n t H. rewrite GG. destruct (DT T) as [[T1 M]|[M D]].
      * rewrite get_set_other by exact M. auto.
      * subst m. rewrite get_set_same by exact ML. apply insert_all_in; auto.
    + rewrite VV. exact h5.
    + destruct m; exact h6.
  - constructor; cbn [q_m q_nm q_bp q_fm q_fr].
    + destruct m; reflexivity.
    + exists 0%N. assert (X : (-1 <? zlen (s_vals s) - 1)%Z = true) by (unfold zlen; lia). destruct m; cbn; rewrite X; reflexivity.
    + exists []. rewrite app_nil_r, VV. split; [reflexivity|]. destruct m; reflexivity.
    + destruct m; exact h6.
    + reflexivity.
Qed.
Lemma user_start m md vm F s0 s1 c s ty : user_mod m md vm F s0 s1 -> module_at main imports m = Some md -> mo_builtin md = false -> inv (before m) ty c s -> ty = true ->
  exists s', start_module E s m vm = Some s' /\
    here P (stage_fof m) 0 (mkFC m (txt "_inicio_") 0 None []) (g_locals F) [] (List.length (s_vals s)) [] 0 [] (start_globals c m []) s'.
Proof.
  intros UM MA BI IV T. set (defs := map (fun f => (fn_name f, VFunc f)) (m_funcs vm)).
  assert (IN : initialize E vm (get_globs s m) = Some (insert_all (get_globs s m) defs)) by (unfold initialize; rewrite (um_bi _ _ _ _ _ _ UM); reflexivity).
  assert (ST : exists s', start_module E s m vm = Some s') by (unfold start_module; rewrite IN; eexists; reflexivity).
  destruct ST as (s' & ST). exists s'. split; [exact ST|].
  destruct (start_inv m vm ty true c s defs [] s' (um_get _ _ _ _ _ _ UM) IV IN ST) as (IV' & AT & VV).
  - unfold defs. rewrite map_map. exact (um_names _ _ _ _ _ _ UM).
  - discriminate.
  - intros n f H. unfold stage_fof, fofp in H. destruct (seen m m); [|discriminate]. destruct (se_fun S m n); [|discriminate].
    rewrite (um_get _ _ _ _ _ _ UM) in H. apply find_in in H as [H1 H2]. unfold defs. apply in_map_iff. exists f. rewrite H2. auto.
  - intros _. left. split; [exact T|]. exact (mo_nb _ _ _ _ _ _ _ (um_ok _ _ _ _ _ _ UM S eq_refl)).
  - exists (s_vals s), (s_globs s', s_iglobs s'). split; [reflexivity|]. split; [|split].
    + destruct IV' as [h1 h2 h3 h4 h5 h6]. constructor.
      * intros i n v H. destruct i; [exact (h1 _ _ _ H)|exact (h1 _ _ _ H)].
      * intros i n f H. destruct i; exact (h2 _ _ _ H).
      * exact h3.
      * intros n t H. exact (h4 eq_refl _ _ H).
    + split; [constructor|constructor].
    + cbn [app]. rewrite app_nil_r. exact AT.
Qed.

(** How the machine finishes a module. *)
Definition one_ok (fuel : nat) (r : res) (f : nat -> outcome) (Q : cfg -> state -> Prop) : Prop :=
  match r with
  | Done _ c => exists n0 s, Q c s /\ forall k, f k = if (k <? n0)%nat then OutOfFuel else Finished s
  | Fail e w => exists n0 tr s, s_world s = w /\ forall k, f k = if (k <? n0)%nat then OutOfFuel else Failed e tr s
  | Fuel => forall k, (k <= fuel)%nat -> f k = OutOfFuel
  | Stuck => True
  end.
Lemma run_one_loop m vm s s' : start_module E s m vm = Some s' -> forall k, run_one E P k s m vm =
  match loop E P k s' with None => OutOfFuel | Some (SHalt x) => Finished x | Some (SErr e tr x) => Failed e tr x | Some _ => Crashed end.
Proof. intros H k. unfold run_one. rewrite H. reflexivity. Qed.

Lemma user_run fuel m md vm c s : module_at main imports m = Some md -> mo_builtin md = false -> get_module P m = Some vm -> inv (before m) true c s ->
  one_ok fuel (run_module E S fuel m md c) (fun k => run_one E P k s m vm) (inv (seen m) true).
Proof.
  intros MA BI GM IV. destruct (user_module m md MA BI) as (vm' & F & s0 & s1 & UM).
  assert (vm' = vm) by (pose proof (um_get _ _ _ _ _ _ UM); congruence). subst vm'.
  destruct (user_start _ _ _ _ _ _ _ _ _ UM MA BI IV eq_refl) as (s' & ST & H). unfold run_module. rewrite BI. unfold exec_module.
  destruct (init_tables_facts _ _ (um_init _ _ _ _ _ _ UM)) as (Z1 & Z2 & Z3 & Z4 & Z5 & Z6).
  set (A := mkFC m (txt "_inicio_") 0 None []) in *. pose proof (um_F _ _ _ _ _ _ UM) as UF. pose proof (um_wf _ _ _ _ _ _ UM) as UW.
  assert (SC0 : g_scopes (enter s0 (mo_scope md)) = [mo_scope md]) by (cbn; rewrite Z3; reflexivity).
  assert (L0 : g_locals (enter s0 (mo_scope md)) = []) by (cbn; rewrite Z4; reflexivity).
  assert (I0 : ipok (enter s0 (mo_scope md))) by (unfold ipok; cbn; rewrite Z6, Z5; reflexivity).
  assert (NI : forallb noig (mo_body md) = true) by (eapply wn_seq; [apply Forall_forall; intros; apply wf_noig|exact UW]).
  assert (M1 : mv (fun _ => True) s1 F). { rewrite UF. eapply mv_trans; [apply mv_leave|]. eapply mv_trans; [apply mv_line|apply mv_op]. }
  assert (NB : numb (g_locals F)).
  { assert (X : lx (enter s0 (mo_scope md)) s1) by (eapply lx_seq; [apply Forall_forall; intros; apply gen_lx|exact NI|exact (um_gen _ _ _ _ _ _ UM)]).
    destruct X as [_ X]. rewrite UF. cbn. apply X. rewrite L0. apply numb_nil. }
  pose proof (um_ok _ _ _ _ _ _ UM (during S m) eq_refl) as MOK.
  assert (UW' : wf_seq (fun g z => wf (during S m) (ctx md) m (match m with None => true | _ => false end) false g (g_scopes (enter s0 (mo_scope md))) z)
     (decls (g_scopes (enter s0 (mo_scope md)))) [] (mo_body md) = true).
  { rewrite SC0. eapply wf_seq_weak; [| |exact UW]; [reflexivity|]. intros mm n. cbn [during se_fun]. destruct (seen m mm); auto. }
  assert (FN : fin (List.length (g_labels (enter s0 (mo_scope md)))) s1 F (g_locals F)).
  { rewrite UF. constructor; try (cbn; apply prefix_refl || apply prefix_app); reflexivity. }
  pose proof (seq_fuel E P (during S m) (stage_fof m) 0 (stage_none m) (stage_fun m) fuel A (ctx md) F vm (g_locals F) [] (List.length (s_vals s))
    (match m with None => true | _ => false end) (mo_body md) false [] (enter s0 (mo_scope md)) s1 [] (start_globals c m []) s' MOK) as SIM.
  specialize (SIM (or_intror (conj eq_refl (Nat.le_trans _ _ _ (um_loc _ _ _ _ _ _ UM) (iv_vals _ _ _ _ IV)))) NB).
  assert (CA : (match m with None => true | _ => false end) = true -> q_fm A = q_m A) by (destruct m; [discriminate|reflexivity]).
  assert (IP0 : g_ip (enter s0 (mo_scope md)) = 0%N) by (cbn; rewrite Z6; reflexivity).
  rewrite IP0 in SIM.
  specialize (SIM CA UW' (um_gen _ _ _ _ _ _ UM) I0 FN H). cbn [A q_fr List.length q_m] in SIM. fold A in SIM.
  destruct (run_seq _ (mo_body md) (start_globals c m [])) as [o c'|e w| |]; cbn [sim] in SIM; [| |exact I|].
  - destruct SIM as (n & s2 & STP & g' & TG & NP). cbn [bind]. destruct o; try exact I. cbn [npost] in NP. destruct NP as (j & _ & loc & G & LL & GR & ER & AT).
    assert (FE : fetch_at P (q_m A) (g_ip s1) HALT []).
    { assert (FH : fin (List.length (g_labels F)) (append_op (set_line (leave s1) 0) HALT []) F (g_locals F)) by (rewrite <- UF; constructor; auto using prefix_refl).
      apply (fetch_plain P (during S m) 0 m (ctx md) F vm (set_line (leave s1) 0) HALT [] _ _ MOK FH); try reflexivity.
      apply (mv_ip (fun _ => False) (enter s0 (mo_scope md))); [|exact I0]. eapply mv_trans; [eapply mv_seq; [exact NI|exact (um_gen _ _ _ _ _ _ UM)]|].
      eapply mv_trans; [apply mv_leave|apply mv_line]. }
    destruct (step_at E P _ _ _ _ _ _ _ _ AT FE) as (s3 & AT3 & SP). assert (SP2 : step E P s2 = SHalt s3) by (rewrite SP; unfold exec_op; rewrite (at_ctx _ _ _ _ _ _ AT3); cbn [A q_m]; rewrite GM; reflexivity). clear SP. rename SP2 into SP. exists (Datatypes.S n), s3. split.
    + destruct AT3 as [a1 a2 (jj & a3 & a4) a5 a6]. subst G. destruct GR as [g1 g2 g3 g4]. constructor.
      * intros i n0 v X. apply g1 in X. destruct i; exact X.
      * intros i n0 f X. apply g2 in X. destruct i; exact X.
      * exact g3.
      * intros _ n0 t X. exact (g4 _ _ X).
      * rewrite a3, !app_length. cbn [List.length]. pose proof (iv_vals _ _ _ _ IV). lia.
      * exact a5.
    + intros k. cbn beta. rewrite (run_one_loop _ _ _ _ ST). destruct (Nat.ltb_spec k (Datatypes.S n)) as [L|L].
      * rewrite (loop_running _ _ _ _ _ STP) by lia. reflexivity.
      * rewrite (loop_end _ _ _ _ _ _ STP SP) by (solve [intros ? ?; discriminate] || lia). reflexivity.
  - destruct SIM as (n & s2 & tr & sE & STP & SP & W). cbn [bind]. exists (Datatypes.S n), tr, sE. split; [exact W|]. intros k. cbn beta. rewrite (run_one_loop _ _ _ _ ST).
    destruct (Nat.ltb_spec k (Datatypes.S n)) as [L|L].
    + rewrite (loop_running _ _ _ _ _ STP) by lia. reflexivity.
    + rewrite (loop_end _ _ _ _ _ _ STP SP) by (solve [intros ? ?; discriminate] || lia). reflexivity.
  - destruct SIM as (n & s2 & L & STP). cbn [bind]. intros k Hk. cbn beta. rewrite (run_one_loop _ _ _ _ ST), (loop_running _ _ _ _ _ STP) by lia. reflexivity.
Qed.

Lemma native_run fuel m md vm c s ty ty' : module_at main imports m = Some md -> mo_builtin md = true -> get_module P m = Some vm -> inv (before m) ty c s ->
  (ty' = true -> (ty = true /\ m <> Some 0%N) \/ (m = Some 0%N /\ mo_name md = txt "embutidos")) ->
  one_ok fuel (run_module E S fuel m md c) (fun k => run_one E P k s m vm) (inv (seen m) ty').
Proof.
  intros MA BI GM IV HT. destruct (compiled m md MA) as (cm & vm' & CM & GM' & LO & _). assert (vm' = vm) by congruence. subst vm'.
  unfold compile_module in CM. rewrite BI in CM. apply pyok_inj in CM.
  assert (B1 : m_builtin vm = true) by (rewrite (lo_bi _ _ LO), <- CM; reflexivity).
  assert (B2 : m_name vm = mo_name md) by (rewrite (lo_name _ _ LO), <- CM; reflexivity).
  assert (B3 : m_code vm = [op_value HALT]) by (rewrite (lo_code _ _ LO), <- CM; reflexivity).
  unfold run_module. rewrite BI. destruct (native_module E (mo_name md)) as [defs|] eqn:NM; [|exact I].
  assert (IN : initialize E vm (get_globs s m) = Some (insert_all (get_globs s m) defs)).
  { unfold initialize. rewrite B1, B2. change (builtin_defs E (mo_name md)) with (native_module E (mo_name md)). rewrite NM. reflexivity. }
  assert (ND : NoDup (map fst defs)).
  { apply nodupb_ok. unfold native_module in NM. destruct (text_eqb (mo_name md) (txt "embutidos")); [apply some_inj in NM; subst defs; vm_compute; reflexivity|].
    destruct (text_eqb (mo_name md) (txt "mat")); [apply some_inj in NM; subst defs; vm_compute; reflexivity|discriminate]. }
  assert (ST : exists s', start_module E s m vm = Some s') by (unfold start_module; rewrite IN; eexists; reflexivity).
  destruct ST as (s' & ST).
  destruct (start_inv m vm ty ty' c s defs defs s' GM IV IN ST ND) as (IV' & AT & VV).
  - intros n v H. apply assoc_in, H.
  - intros n f H. unfold stage_fof, fofp in H. destruct (seen m m); [|discriminate]. cbn [senv_of se_fun] in H. rewrite MA in H. unfold module_fun in H. rewrite BI in H. discriminate.
  - intros T. destruct (HT T) as [X|[X1 X2]]; [left; exact X|]. right. split; [exact X1|]. rewrite X2 in NM. unfold native_module in NM. rewrite text_eqb_refl in NM. apply some_inj in NM. subst defs.
    intros n t H. unfold type_named in H. unfold embutidos_exports. apply in_app_iff. left.
    repeat match type of H with (if text_eqb n ?x then _ else _) = _ => destruct (text_eqb n x) eqn:TE; [apply text_eqb_eq in TE; subst n; apply some_inj in H; subst t; cbn [In]; auto 10|clear TE] end. discriminate.
  - assert (FE : fetch_at P m 0 HALT []). { exists vm. split; [exact GM|]. rewrite B3. reflexivity. }
    destruct (step_at E P _ _ _ _ _ _ _ _ AT FE) as (s3 & AT3 & SP).
    assert (SP2 : step E P s' = SHalt s3) by (rewrite SP; unfold exec_op; rewrite (at_ctx _ _ _ _ _ _ AT3); cbn [q_m]; rewrite GM; reflexivity).
    exists 1%nat, s3. split.
    + destruct AT3 as [a1 a2 (jj & a3 & a4) a5 a6]. injection a6 as a6 a7. destruct IV' as [h1 h2 h3 h4 h5 h6]. 
      assert (GG : forall i, get_globs s3 i = get_globs s' i) by (intros [i|]; cbn; congruence).
      constructor.
      * intros i n v X. rewrite GG. auto.
      * intros i n f X. rewrite GG. auto.
      * rewrite a7. exact h3.
      * intros T n t X. rewrite GG. auto.
      * rewrite a3, app_length. pose proof (iv_vals _ _ _ _ IV). lia.
      * exact a5.
    + intros k. cbn beta. rewrite (run_one_loop _ _ _ _ ST). destruct k as [|k]; [reflexivity|]. cbn [loop]. rewrite SP2. reflexivity.
Qed.
Lemma stage_run fuel m md vm c s ty ty' : module_at main imports m = Some md -> get_module P m = Some vm -> inv (before m) ty c s ->
  (m = Some 0%N \/ ty = true) -> (ty' = true -> (m = Some 0%N \/ ty = true)) ->
  one_ok fuel (run_module E S fuel m md c) (fun k => run_one E P k s m vm) (inv (seen m) true).
Proof.
  intros MA GM IV T1 T2. destruct prog_parts as (_ & BM & (b0 & r & IMP & BB & BP & BN) & _ & _).
  assert (Z : m = Some 0%N -> mo_builtin md = true /\ mo_name md = txt "embutidos").
  { intros ->. cbn [module_at] in MA. rewrite IMP in MA. cbn in MA. injection MA as <-. auto. }
  destruct (mo_builtin md) eqn:B.
  - eapply native_run; try eassumption. intros _. destruct m as [[|p]|]; [right; split; [reflexivity|apply Z; reflexivity]| |]; left; (split; [destruct T1 as [X|X]; [discriminate X|exact X]|discriminate]).
  - destruct T1 as [X|X]; [apply Z in X; destruct X; discriminate|]. subst ty. apply user_run; assumption.
Qed.

Lemma one_ok_bind fuel r f Q K g Q' : one_ok fuel r f Q ->
  (forall o c s, r = Done o c -> Q c s -> one_ok fuel (K o c) (fun k => g k s) Q') ->
  one_ok fuel (bind r K) (fun k => match f k with Finished s => g k s | o => o end) Q'.
Proof.
  intros H HK. destruct r as [o c|e w| |]; cbn [bind].
  - destruct H as (n0 & s & HQ & HF). specialize (HK o c s eq_refl HQ). destruct (K o c) as [o' c'|e w| |]; cbn [one_ok] in *.
    + destruct HK as (n1 & s' & HQ' & HF'). exists (Nat.max n0 n1), s'. split; [exact HQ'|]. intros k. rewrite HF. destruct (Nat.ltb_spec k n0) as [L|L].
      * destruct (Nat.ltb_spec k (Nat.max n0 n1)); [reflexivity|lia].
      * rewrite HF'. destruct (Nat.ltb_spec k n1), (Nat.ltb_spec k (Nat.max n0 n1)); try reflexivity; lia.
    + destruct HK as (n1 & tr & s' & HQ' & HF'). exists (Nat.max n0 n1), tr, s'. split; [exact HQ'|]. intros k. rewrite HF. destruct (Nat.ltb_spec k n0) as [L|L].
      * destruct (Nat.ltb_spec k (Nat.max n0 n1)); [reflexivity|lia].
      * rewrite HF'. destruct (Nat.ltb_spec k n1), (Nat.ltb_spec k (Nat.max n0 n1)); try reflexivity; lia.
    + exact I.
    + intros k Hk. rewrite HF. destruct (k <? n0)%nat; [reflexivity|]. apply HK, Hk.
  - destruct H as (n0 & tr & s & HW & HF). exists n0, tr, s. split; [exact HW|]. intros k. rewrite HF. destruct (k <? n0)%nat; reflexivity.
  - exact I.
  - intros k Hk. cbn [one_ok] in H. rewrite H by exact Hk. reflexivity.
Qed.

Lemma imports_run fuel l : forall i ml c s, (forall j md, nth_error l j = Some md -> nth_error imports (N.to_nat i + j) = Some md) ->
  (forall j vm, nth_error ml j = Some vm -> nth_error (p_imports P) (N.to_nat i + j) = Some vm) -> List.length l = List.length ml ->
  (N.to_nat i + List.length l = List.length imports)%nat ->
  inv (before (Some i)) (0 <? i)%N c s ->
  one_ok fuel (run_modules E S fuel i l c) (fun k => run_imports E P k s i ml) (fun c s => inv (before (Some (N.of_nat (List.length imports)))) (0 <? N.of_nat (List.length imports))%N c s).
Proof.
  induction l as [|md l IH]; intros i ml c s HL HM LL LN IV; (destruct ml as [|vm ml]; [|]); try discriminate LL.
  - cbn [run_modules run_imports one_ok]. exists O, s. split; [|reflexivity]. cbn in LN. replace (N.of_nat (List.length imports)) with i by lia. exact IV.
  - cbn [run_modules run_imports].
    assert (MA : module_at main imports (Some i) = Some md). { specialize (HL O md eq_refl). rewrite Nat.add_0_r in HL. exact HL. }
    assert (GM : get_module P (Some i) = Some vm). { specialize (HM O vm eq_refl). rewrite Nat.add_0_r in HM. exact HM. }
    apply (one_ok_bind fuel _ _ (inv (seen (Some i)) true) _ (fun k s' => run_imports E P k (reset s') (i + 1) ml)).
    + eapply (stage_run _ _ _ _ _ _ _ true); try eassumption.
      * destruct i; [left; reflexivity|right; reflexivity].
      * intros _. destruct i; [left; reflexivity|right; reflexivity].
    + intros o c' s' _ IV'. apply IH.
      * intros j md' N. specialize (HL (Datatypes.S j) md' N). replace (N.to_nat (i + 1) + j)%nat with (N.to_nat i + Datatypes.S j)%nat by lia. exact HL.
      * intros j md' N. specialize (HM (Datatypes.S j) md' N). replace (N.to_nat (i + 1) + j)%nat with (N.to_nat i + Datatypes.S j)%nat by lia. exact HM.
      * cbn in LL. lia.
      * cbn in LN. lia.
      * replace (0 <? i + 1)%N with true by lia. apply inv_reset. eapply inv_mono; [|exact IV']. intros [j|] vm' _ H; unfold before, seen in *; cbn [omod_eqb] in *; [|discriminate].
        apply andb_prop in H as [H1 H2]. apply negb_true_iff in H2. lia.
Qed.

(** The machine does what the program means. *)
Theorem program_sim fuel stdin : one_ok fuel (exec_program E fuel main imports stdin) (fun k => run E P k stdin)
  (fun c s => s_world s = k_w c /\ forall m n v, k_g c m n = Some v -> assoc n (get_globs s m) = Some v).
Proof.
  unfold exec_program, run. apply (one_ok_bind fuel _ _ (fun c s => inv (before (Some (N.of_nat (List.length imports)))) (0 <? N.of_nat (List.length imports))%N c s) _ (fun k s' => run_one E P k s' None (p_main P))).
  - apply imports_run; auto.
    + symmetry. apply imports_len.
    + constructor.
      * discriminate.
      * intros i n f H. unfold fofp in H. replace (before (Some 0%N) i) with false in H; [discriminate|]. destruct i as [i|]; unfold before, seen; cbn [omod_eqb]; [|reflexivity]. destruct i; reflexivity.
      * cbn. apply repeat_length.
      * discriminate.
      * cbn [initial_state s_vals]. rewrite repeat_length. unfold default_stack_size. lia.
      * reflexivity.
  - intros o c s _ IV.
    assert (X : one_ok fuel (run_module E S fuel None main c) (fun k => run_one E P k s None (p_main P)) (inv (seen None) true)).
    { apply (stage_run fuel None main (p_main P) c s true true); try reflexivity; auto. destruct prog_parts as (_ & _ & (b0 & r & IMP & _) & _ & _).
      replace (0 <? N.of_nat (List.length imports))%N with true in IV by (rewrite IMP; cbn [List.length]; lia).
      eapply inv_mono; [|exact IV]. intros [j|] vm GM H; unfold before, seen in *; cbn [omod_eqb] in *; [|discriminate].
      assert (L : (N.to_nat j < List.length (p_imports P))%nat) by (apply nth_error_Some; cbn in GM; congruence). rewrite imports_len in L.
      apply andb_true_intro. split; [lia|apply negb_true_iff; lia]. }
    destruct (run_module E S fuel None main c) as [o' c'|e w| |]; cbn [one_ok] in *; try exact X.
    destruct X as (n0 & s' & IV' & HF). exists n0, s'. split; [split; [exact (iv_w _ _ _ _ IV')|exact (iv_var _ _ _ _ IV')]|exact HF].
Qed.
End Prog.
