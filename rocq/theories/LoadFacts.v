(** What the loader rebuilds is what the compiler produced. *)
From Verif Require Import Base BaseFacts Bson Spec_Bson BsonFacts BsonExtra Opcode Value Ast TableFacts CodeGen VM Compile SimRel.

(** The loaded form of a compiled module. *)
Record loads (cm : cmodule) (vm : vmodule) : Prop := mkLoads {
  lo_name : m_name vm = cm_name cm;
  lo_bi : m_builtin vm = cm_builtin cm;
  lo_consts : Forall2 const_ok (cm_consts cm) (m_consts vm);
  lo_names : m_names vm = cm_names cm;
  lo_code : m_code vm = cm_code cm;
  lo_map : m_srcmap vm = map as_usize (cm_map cm);
  lo_locals : m_locals vm = cm_locals cm;
  lo_funcs : m_funcs vm = cm_funcs cm;
  lo_regs : m_regs vm = cm_regs cm
}.

Ltac keys := repeat first [apply Forall_nil | apply Forall_cons; [vm_compute; repeat constructor|]].
Ltac nodup := repeat first [apply NoDup_nil | apply NoDup_cons; [vm_compute; intuition discriminate|]].
Lemma doc_wf l : NoDup (map fst l) -> Forall (fun kv => key_ok (fst kv)) l -> Forall (fun kv => bson_wf (snd kv)) l -> bson_wf (BDoc l).
Proof. intros. constructor; assumption. Qed.
Lemma map_wf {A} (f : A -> bval) l : (forall x, bson_wf (f x)) -> bson_wf (BArr (map f l)).
Proof. intros H. constructor. apply Forall_forall. intros y I. apply in_map_iff in I as (x & <- & _). apply H. Qed.
Lemma func_doc_wf f : bson_wf (func_doc f).
Proof. apply doc_wf; [nodup|keys|]. repeat (constructor; [constructor|]). constructor. Qed.
Lemma reg_doc_wf f : bson_wf (reg_doc f).
Proof. apply doc_wf; [nodup|keys|]. constructor; [constructor|]. constructor; [|constructor]. apply map_wf. constructor. Qed.
Lemma module_doc_wf m l : Forall bson_wf l -> bson_wf (BDoc (module_doc m l)).
Proof.
  intros H. apply doc_wf; [nodup|keys|]. unfold module_doc.
  repeat (constructor; [cbn [snd]; first [apply map_wf; first [exact func_doc_wf|exact reg_doc_wf|intros []; constructor|constructor]|constructor; fail|constructor; exact H|constructor]|]). constructor.
Qed.
Lemma program_doc_wf p : bson_wf (BDoc (program_doc p)).
Proof.
  apply module_doc_wf. apply Forall_forall. intros y I. apply in_map_iff in I as (x & <- & _). apply module_doc_wf. constructor.
Qed.

(** Integers of the document *)
Definition ints_ok (v : bval) : Prop := forall z, occurs_int z v -> in_i64 z = true.
Lemma dumps_ints d bs : dumps d = PyOk bs -> ints_ok (BDoc d).
Proof.
  intros H z O. destruct (in_i64 z) eqn:E; [reflexivity|]. destruct (dumps_refuses d z O E) as (e & H'). congruence.
Qed.
Lemma ints_field l k v : ints_ok (BDoc l) -> In (k, v) l -> ints_ok v.
Proof. intros H I z O. apply H. econstructor; eassumption. Qed.
Lemma ints_item l v : ints_ok (BArr l) -> In v l -> ints_ok v.
Proof. intros H I z O. apply H. econstructor; eassumption. Qed.
Lemma ints_int z : ints_ok (BInt z) -> in_i64 z = true.
Proof. intros H. apply H. constructor. Qed.

Lemma as_usize_N n : in_i64 (Z.of_N n) = true -> as_usize (Z.of_N n) = n.
Proof.
  unfold in_i64, as_usize, wrap, min_i64, max_i64. intros H. rewrite Z.mod_small; [lia|].
  change (2 ^ (8 * Z.of_nat 8))%Z with 18446744073709551616%Z. lia.
Qed.
Lemma opt_map_id {A} (f : bval -> option A) (g : A -> bval) l r : (forall x, f (g x) = Some x) -> opt_map f (map g l) = Some r -> r = l.
Proof.
  intros H. revert r. induction l as [|x l IH]; cbn; intros r E; [congruence|]. rewrite H in E.
  destruct (opt_map f (map g l)) as [ys|]; [|discriminate]. injection E as <-. rewrite (IH _ eq_refl). reflexivity.
Qed.
Lemma opt_map_idP {A} (f : bval -> option A) (g : A -> bval) l r : (forall x, In x l -> f (g x) = Some x) -> opt_map f (map g l) = Some r -> r = l.
Proof.
  revert r. induction l as [|x l IH]; cbn; intros r H E; [congruence|]. rewrite H in E by auto.
  destruct (opt_map f (map g l)) as [ys|]; [|discriminate]. injection E as <-. rewrite (IH _ ltac:(auto) eq_refl). reflexivity.
Qed.
Lemma opt_map_rel {A B C} (f : A -> option B) (g : C -> A) (R : C -> B -> Prop) l r : (forall x y, f (g x) = Some y -> R x y) -> opt_map f (map g l) = Some r -> Forall2 R l r.
Proof.
  intros H. revert r. induction l as [|x l IH]; cbn; intros r E; [injection E as <-; constructor|]. destruct (f (g x)) eqn:F; [|discriminate].
  destruct (opt_map f (map g l)) as [ys|]; [|discriminate]. injection E as <-. constructor; auto.
Qed.
Lemma load_func_doc f : ints_ok (func_doc f) -> load_func (func_doc f) = Some f.
Proof.
  intros H.
  assert (H1 : in_i64 (Z.of_N (fn_start f)) = true) by (apply ints_int; eapply ints_field; [exact H|right; left; reflexivity]).
  assert (H2 : in_i64 (Z.of_N (fn_locals f)) = true) by (apply ints_int; eapply ints_field; [exact H|right; right; left; reflexivity]).
  assert (H3 : in_i64 (match fn_mod f with Some i => Z.of_N i | None => -1 end) = true) by (apply ints_int; eapply ints_field; [exact H|right; right; right; left; reflexivity]).
  change (load_func (func_doc f)) with (Some (mkFunc (fn_name f) (as_usize (Z.of_N (fn_start f))) (as_usize (Z.of_N (fn_locals f)))
    (let m := (match fn_mod f with Some i => Z.of_N i | None => -1 end)%Z in if (0 <=? m)%Z then Some (as_usize m) else None))).
  rewrite !as_usize_N by assumption. destruct f as [n s l [i|]]; cbn [fn_name fn_start fn_locals fn_mod] in *; [|reflexivity].
  cbv zeta. replace (0 <=? Z.of_N i)%Z with true by lia. rewrite as_usize_N by assumption. reflexivity.
Qed.
Lemma load_reg_doc r : load_reg (reg_doc r) = Some r.
Proof.
  change (load_reg (reg_doc r)) with (obind (opt_map take_bstr (map BStr (snd r))) (fun fs => Some (fst r, fs))).
  destruct (opt_map take_bstr (map BStr (snd r))) as [x|] eqn:E.
  - apply opt_map_id in E; [|reflexivity]. subst x. destruct r. reflexivity.
  - exfalso. destruct r as [n fs]. cbn in E. induction fs as [|y fs IH]; cbn in *; [discriminate|]. destruct (opt_map _ _); [discriminate|auto].
Qed.
Lemma obind_ok {A B} (x : option A) (f : A -> option B) y : obind x f = Some y -> exists a, x = Some a /\ f a = Some y.
Proof. destruct x; cbn; [eauto|discriminate]. Qed.
Ltac ob H x E := apply obind_ok in H as (x & E & H).

Lemma build_module_loads m l vm : ints_ok (BDoc (module_doc m l)) -> build_module (module_doc m l) = Some vm -> loads m vm.
Proof.
  intros I H. unfold build_module in H.
  ob H cs E1. change (Some (map const_doc (cm_consts m)) = Some cs) in E1. injection E1 as <-. ob H cs E1.
  ob H ns E2. change (Some (map BStr (cm_names m)) = Some ns) in E2. injection E2 as <-. ob H ns E2.
  ob H code E3. change (Some (cm_code m) = Some code) in E3. injection E3 as <-.
  ob H el E4. change (Some (Z.of_N (cm_locals m)) = Some el) in E4. injection E4 as <-.
  ob H sm E5. change (Some (map BInt (cm_map m)) = Some sm) in E5. injection E5 as <-. ob H sm E5.
  ob H fs E6. change (Some (map func_doc (cm_funcs m)) = Some fs) in E6. injection E6 as <-. ob H fs E6.
  ob H rs E7. change (Some (map reg_doc (cm_regs m)) = Some rs) in E7. injection E7 as <-. ob H rs E7.
  ob H bi E8. change (Some (if cm_builtin m then 1 else 0)%Z = Some bi) in E8. injection E8 as <-.
  ob H n E9. change (Some (cm_name m) = Some n) in E9. injection E9 as <-. injection H as <-.
  apply opt_map_id in E2; [|reflexivity]. apply opt_map_id in E5; [|reflexivity]. apply opt_map_id in E7; [|exact load_reg_doc].
  assert (IF : ints_ok (BArr (map func_doc (cm_funcs m)))) by (eapply ints_field; [exact I|do 6 right; left; reflexivity]).
  apply opt_map_idP in E6; [|intros f Hf; apply load_func_doc; eapply ints_item; [exact IF|apply in_map, Hf]].
  subst ns sm fs rs. constructor; cbn; try reflexivity.
  - destruct (cm_builtin m); reflexivity.
  - eapply opt_map_rel; [|exact E1]. intros x y L. destruct x; cbn in L; [injection L as <-; reflexivity|exact L].
  - apply as_usize_N. apply ints_int. eapply ints_field; [exact I|do 2 right; left; reflexivity].
Qed.
Lemma consts_i64 m l z : ints_ok (BDoc (module_doc m l)) -> In (CInt z) (cm_consts m) -> in_i64 z = true.
Proof.
  intros I H. assert (IC : ints_ok (BArr (map const_doc (cm_consts m)))) by (eapply ints_field; [exact I|do 3 right; left; reflexivity]).
  apply ints_int. eapply ints_item; [exact IC|]. apply (in_map const_doc _ _ H).
Qed.

Theorem build_loads b main imports P : build b main imports = PyOk (Some P) ->
  exists cm cms, compile_all b main imports = PyOk (cm, cms) /\ loads cm (p_main P) /\ Forall2 loads cms (p_imports P) /\
    (forall m z, m = cm \/ In m cms -> In (CInt z) (cm_consts m) -> in_i64 z = true).
Proof.
  unfold build. intros H. apply pbind_ok in H as ((cm & cms) & CA & H). apply pbind_ok in H as (bs & D & H). apply pyok_inj in H.
  rewrite (dumps_load _ _ (program_doc_wf _) D) in H. pose proof (dumps_ints _ _ D) as I.
  exists cm, cms. split; [exact CA|]. unfold load_program in H.
  ob H is1 E1. change (Some (map (fun m => BDoc (module_doc m [])) cms) = Some is1) in E1. injection E1 as <-. ob H is2 E1. ob H mm E2. injection H as <-.
  cbn [p_main p_imports].
  assert (II : forall m, In m cms -> ints_ok (BDoc (module_doc m []))).
  { intros m Hm. apply (ints_item (map (fun m => BDoc (module_doc m [])) cms)); [|apply (in_map (fun m => BDoc (module_doc m []))), Hm].
    eapply ints_field; [exact I|do 9 right; left; reflexivity]. }
  split; [eapply build_module_loads; [exact I|exact E2]|]. split.
  - clear - E1 II. revert is2 E1. induction cms as [|m r IH]; cbn; intros is2 E1; [injection E1 as <-; constructor|].
    destruct (build_module (module_doc m [])) eqn:B; [|discriminate].
    destruct (opt_map _ (map _ r)) as [ys|] eqn:O; [|discriminate]. injection E1 as <-. constructor.
    + eapply build_module_loads; [apply II; left; reflexivity|exact B].
    + apply IH; [intros; apply II; right; assumption|reflexivity].
  - intros m z [->|Hm] IZ; [eapply consts_i64; [exact I|exact IZ]|eapply consts_i64; [apply II, Hm|exact IZ]].
Qed.
