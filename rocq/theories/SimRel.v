(** The relation between the interpreter's state and the machine's, and what
    the finished module says about code generated earlier. *)
From Verif Require Import Base BaseFacts Bson BsonFacts Opcode Spec_Opcode OpcodeFacts Dec Float Value Spec_Value ValueFacts
  Ast Spec_Tables TableFacts CodeGen VM GenFacts Sem SemWf GenLocals SimVM Sim.

(** ** Finished modules *)
Definition fit16 (i : instr) : Prop := vm_argkind (fst i) = A16 -> Forall (fun a => (a < 2 ^ 16)%N) (snd i).
Definition const_ok (k : ckey) (v : value) : Prop :=
  match k with CInt z => v = VInt z | CText t => const_from_str t = Some v end.
Definition arity (o : opcode) (l : list N) : Prop :=
  match vm_argkind o with ANone => l = [] | A64x2 => exists a b, l = [a; b] | _ => exists a, l = [a] end.

Lemma u64_ok a b : format_u64_arg a = PyOk b -> (a < 2 ^ 64)%N.
Proof. unfold format_u64_arg. destruct (a <? 2 ^ 64)%N eqn:E; [intros _; lia|discriminate]. Qed.
Lemma write_fit labels o args bs rargs : write_op_bytes labels (o, args) = PyOk bs ->
  resolve_args labels (o, args) = Some rargs -> arity o rargs -> fit16 (o, args) -> args_fit o rargs.
Proof.
  intros W R AR F. unfold resolve_args in R. unfold arity, args_fit, fit16 in *. cbn [fst snd] in *.
  destruct (is_jump o) eqn:J.
  - destruct o; try discriminate J; cbn [vm_argkind] in *; destruct args as [|l [|? ?]]; try discriminate R;
      destruct (nth_error labels (N.to_nat l)) as [a|] eqn:EL; try discriminate R; apply some_inj in R; subst rargs;
      exists a; (split; [reflexivity|]); unfold write_op_bytes in W; cbn [is_jump arg0 pbind] in W; rewrite EL in W; cbn [op_size arg0 pbind] in W;
      apply pbind_ok in W as (b & W & _); apply u64_ok in W; exact W.
  - apply some_inj in R. subst rargs.
    unfold write_op_bytes in W. rewrite J in W. cbn [pbind] in W.
    destruct o; try discriminate J; cbn [vm_argkind op_size] in *; try exact AR;
      try (destruct AR as (a & ->); exists a; split; [reflexivity|]; cbn [arg0 pbind] in W;
           first [ destruct (a <? 256)%N eqn:L; [lia|discriminate W]
                 | specialize (F eq_refl); inversion F; assumption
                 | apply pbind_ok in W as (b & W & _); apply u64_ok in W; exact W ]).
    destruct AR as (a & b & ->). exists a, b. split; [reflexivity|]. cbn [arg0 pbind] in W.
    apply pbind_ok in W as (x & W1 & W). apply pbind_ok in W as (y & W2 & W). apply u64_ok in W1. apply u64_ok in W2. split; assumption.
Qed.

Section Rel.
Variable E : ext.
Variable P : program.
Variable S : senv.
(** The function value behind each function name. *)
Variable fof : option N -> text -> option afunc.
(** The number of the built-in module. *)
Variable bi : N.

Record modok (m : option N) (C : gctx) (F : gst) (vm : vmodule) : Prop := mkMO {
  mo_get : get_module P m = Some vm;
  mo_write : write_ops (g_labels F) (g_ops F) = PyOk (m_code vm);
  mo_nm : m_names vm = g_names F;
  mo_rg : m_regs vm = g_regs F;
  mo_cs : Forall2 const_ok (g_consts F) (m_consts vm);
  mo_cz : forall z, In (CInt z) (g_consts F) -> (z < 2 ^ 64)%Z;
  mo_16 : Forall fit16 (g_ops F);
  mo_idx : forall p i, assoc p (c_modules C) = Some i -> (N.to_nat i < List.length (p_imports P))%nat;
  mo_bi : assoc (c_builtins C) (c_modules C) = Some bi;
  mo_bp : text_eqb (c_builtins C) (c_path C) = false;
  mo_nb : m <> Some bi;
  mo_in : match m with Some i => (N.to_nat i < List.length (p_imports P))%nat | None => True end;
  mo_tag : forall v i t, index_of text_eqb (g_variants F) v = Some i -> se_tag S m v = Some t -> t = N.of_nat i
}.

(** Generated code is part of the finished module; labels from [n] on have
    their final value. *)
Record fin (n : nat) (s F : gst) (Lf : list (text * N)) : Prop := mkFin {
  fi_ops : prefix (g_ops s) (g_ops F);
  fi_consts : prefix (g_consts s) (g_consts F);
  fi_names : prefix (g_names s) (g_names F);
  fi_regs : prefix (g_regs s) (g_regs F);
  fi_vars : prefix (g_variants s) (g_variants F);
  fi_lab : forall i, (n <= i)%nat -> (i < List.length (g_labels s))%nat -> nth_error (g_labels F) i = nth_error (g_labels s) i;
  fi_loc : prefix (g_locals s) Lf
}.
Lemma fin_mv n n' a b F Lf : mv (fun i => (n <= i)%nat) a b -> (n' <= n)%nat -> fin n' b F Lf -> fin n a F Lf.
Proof.
  intros M L H. constructor.
  - eapply prefix_trans; [apply M|apply H].
  - eapply prefix_trans; [apply M|apply H].
  - eapply prefix_trans; [apply M|apply H].
  - eapply prefix_trans; [apply M|apply H].
  - eapply prefix_trans; [apply M|apply H].
  - intros i Hi Hl. rewrite (fi_lab _ _ _ _ H) by (pose proof (mv_llen _ _ _ M); lia). apply M; assumption.
  - eapply prefix_trans; [apply M|apply H].
Qed.

Lemma op_fetch m C F vm s o args rargs : modok m C F vm -> prefix (g_ops s ++ [(o, args)]) (g_ops F) -> ipok s ->
  resolve_args (g_labels F) (o, args) = Some rargs -> arity o rargs -> fetch_at P m (g_ip s) o rargs.
Proof.
  intros M [t E1] I R AR. exists vm. split; [apply M|]. pose proof (mo_write _ _ _ _ M) as W.
  rewrite E1, <- app_assoc in W. cbn [app] in W. rewrite I. eapply fetch_nth; [exact W|exact R|].
  rewrite write_ops_app in W. apply pbind_ok in W as (x & _ & W). apply pbind_ok in W as (y & W & _).
  cbn [write_ops] in W. apply pbind_ok in W as (z & W & _). eapply write_fit; [exact W|exact R|exact AR|].
  pose proof (mo_16 _ _ _ _ M) as B. rewrite E1 in B. rewrite Forall_forall in B. apply B.
  apply in_app_iff. left. apply in_app_iff. right. left. reflexivity.
Qed.
(** An instruction that is not a jump. *)
Lemma fetch_plain m C F vm s o args n Lf : modok m C F vm -> fin n (append_op s o args) F Lf -> ipok s ->
  is_jump o = false -> arity o args -> fetch_at P m (g_ip s) o args.
Proof.
  intros M H I J AR. eapply op_fetch; [exact M|apply H|exact I| |exact AR]. unfold resolve_args. rewrite J. reflexivity.
Qed.
Lemma fetch_jump m C F vm s o l a n Lf : modok m C F vm -> fin n (append_op s o [l]) F Lf -> ipok s ->
  is_jump o = true -> nth_error (g_labels F) (N.to_nat l) = Some a -> fetch_at P m (g_ip s) o [a].
Proof.
  intros M H I J AR. eapply op_fetch; [exact M|apply H|exact I| |].
  - unfold resolve_args. rewrite J, AR. reflexivity.
  - unfold arity. destruct o; try discriminate J; cbn; eauto.
Qed.

(** ** Tables *)
Lemma table_nth {A} (eqb : A -> A -> bool) (HE : forall a b, eqb a b = true <-> a = b) l x l' i :
  table_index eqb l x = (l', i) -> nth_error l' (N.to_nat i) = Some x.
Proof.
  unfold table_index. destruct (index_of eqb l x) as [k|] eqn:I; intros H; injection H as <- <-; rewrite Nat2N.id.
  - eapply index_of_some; eassumption.
  - rewrite nth_error_app2, Nat.sub_diag by lia. reflexivity.
Qed.
Lemma const_nth s c s' i : const_index s c = PyOk (s', i) -> nth_error (g_consts s') (N.to_nat i) = Some c.
Proof.
  unfold const_index. destruct (table_index _ _ _) as [t j] eqn:T. destruct (_ <? _)%N; [|discriminate]. intros H.
  apply pyok_inj in H. injection H as <- <-. cbn. eapply table_nth; [apply ckey_eqb_eq|exact T].
Qed.
Lemma name_nth s c s' i : name_index s c = PyOk (s', i) -> nth_error (g_names s') (N.to_nat i) = Some c.
Proof.
  unfold name_index. destruct (table_index _ _ _) as [t j] eqn:T. destruct (_ <? _)%N; [|discriminate]. intros H.
  apply pyok_inj in H. injection H as <- <-. cbn. eapply table_nth; [apply text_eqb_eq|exact T].
Qed.
Lemma Forall2_nth {A B} (R : A -> B -> Prop) l l' i a : Forall2 R l l' -> nth_error l i = Some a -> exists b, nth_error l' i = Some b /\ R a b.
Proof.
  intros H. revert i. induction H; intros [|i] X; cbn in *; try discriminate; [|auto].
  injection X as ->. eauto.
Qed.
Lemma index_of_prefix {A} (eqb : A -> A -> bool) l e x i : index_of eqb l x = Some i -> index_of eqb (l ++ e) x = Some i.
Proof.
  revert i. induction l as [|y l IH]; intros i; cbn; [discriminate|]. destruct (eqb y x); [auto|].
  destruct (index_of eqb l x) as [j|]; [|discriminate]. intros H. cbn in H. injection H as <-. rewrite (IH _ eq_refl). reflexivity.
Qed.

(** ** Variables *)
Definition var_rel (Lf : list (text * N)) (loc : list value) (p : text * sym) (q : text * value) : Prop :=
  fst p = fst q /\ exists k, assoc (sy_out (snd p)) Lf = Some k /\ nth_error loc (N.to_nat k) = Some (snd q).
Definition scope_rel Lf loc := Forall2 (var_rel Lf loc).
Definition env_rel (g : gam) (l : list (list (text * value))) Lf loc : Prop :=
  Forall2 (scope_rel Lf loc) g l /\ NoDup (gouts g).

Lemma scope_assoc Lf loc sc l n : scope_rel Lf loc sc l ->
  match assoc n l with
  | Some v => exists y k, assoc n sc = Some y /\ assoc (sy_out y) Lf = Some k /\ nth_error loc (N.to_nat k) = Some v
  | None => assoc n sc = None
  end.
Proof.
  induction 1 as [|[n1 y] [n2 v] sc l (N1 & k & K1 & K2) H IH]; cbn in *; [reflexivity|]. subst n2.
  destruct (text_eqb n n1); [|exact IH]. exists y, k. repeat split; assumption.
Qed.
Lemma env_look Lf loc g l n : env_rel g l Lf loc ->
  match look l n with
  | Some v => exists y k, glook g n = Some y /\ assoc (sy_out y) Lf = Some k /\ nth_error loc (N.to_nat k) = Some v
  | None => glook g n = None
  end.
Proof.
  intros [H _]. induction H as [|sc l0 g l Hs H IH]; cbn; [reflexivity|].
  pose proof (scope_assoc _ _ _ _ n Hs) as X. destruct (assoc n l0) as [v|].
  - destruct X as (y & k & -> & X). exists y, k. auto.
  - rewrite X. exact IH.
Qed.
Lemma gouts_cons sc g : gouts (sc :: g) = map (fun p => sy_out (snd p)) sc ++ gouts g.
Proof. unfold gouts. cbn. apply map_app. Qed.
Lemma glook_in g n y : glook g n = Some y -> In (sy_out y) (gouts g).
Proof.
  induction g as [|sc g IH]; cbn [glook]; [discriminate|]. rewrite gouts_cons, in_app_iff.
  destruct (assoc n sc) as [z|] eqn:A; [|auto]. intros H. injection H as ->. left.
  apply assoc_in in A. apply in_map_iff. exists (n, y). auto.
Qed.
Lemma scope_frame Lf loc o k v sc l : numb Lf -> assoc o Lf = Some k ->
  ~ In o (map (fun p => sy_out (snd p)) sc) -> scope_rel Lf loc sc l -> scope_rel Lf (list_set loc (N.to_nat k) v) sc l.
Proof.
  intros NB K NI H. induction H as [|[n1 y] [n2 w] sc l (N1 & j & J1 & J2) H IH]; [constructor|]. cbn in *.
  constructor; [|apply IH; tauto]. split; [exact N1|]. exists j. split; [exact J1|].
  rewrite list_set_other; [exact J2|]. intros X. apply NI. left. apply N2Nat.inj in X. subst j.
  symmetry. eapply numb_inj; eassumption.
Qed.
Lemma env_frame Lf loc o k v g l : numb Lf -> assoc o Lf = Some k -> ~ In o (gouts g) ->
  Forall2 (scope_rel Lf loc) g l -> Forall2 (scope_rel Lf (list_set loc (N.to_nat k) v)) g l.
Proof.
  intros NB K NI H. induction H as [|sc l0 g l Hs H IH]; [constructor|]. rewrite gouts_cons, in_app_iff in NI.
  constructor; [|apply IH; tauto]. eapply scope_frame; eauto.
Qed.
Lemma NoDup_app_inv {A} (a b : list A) : NoDup (a ++ b) -> NoDup a /\ NoDup b /\ forall x, In x a -> ~ In x b.
Proof.
  induction a as [|x a IH]; cbn; intros H; [repeat split; auto; constructor|].
  inversion H as [|? ? N D]; subst. apply IH in D as (D1 & D2 & D3). rewrite in_app_iff in N.
  repeat split; auto; [constructor; auto|]. intros y [<-|Y]; auto.
Qed.
Lemma scope_update Lf loc sc l n v y k : numb Lf -> NoDup (map (fun p => sy_out (snd p)) sc) -> scope_rel Lf loc sc l ->
  assoc n sc = Some y -> assoc (sy_out y) Lf = Some k -> (N.to_nat k < List.length loc)%nat ->
  scope_rel Lf (list_set loc (N.to_nat k) v) sc (assoc_set l n v).
Proof.
  intros NB ND H. induction H as [|[n1 y1] [n2 w] sc l (N1 & j & J1 & J2) H IH]; cbn in *; [discriminate|]. subst n2.
  inversion ND as [|? ? NI ND']; subst. intros AS K L. destruct (text_eqb n n1) eqn:T.
  - injection AS as ->. apply text_eqb_eq in T. subst n1. constructor; [|eapply scope_frame; eauto].
    split; [reflexivity|]. exists k. split; [exact K|]. apply list_set_same, L.
  - constructor; [|apply IH; auto]. split; [reflexivity|]. exists j. split; [exact J1|].
    rewrite list_set_other; [exact J2|]. intros X. apply N2Nat.inj in X. subst j. apply NI.
    rewrite <- (numb_inj Lf (sy_out y) (sy_out y1) k NB K J1). apply assoc_in in AS. apply in_map_iff. exists (n, y). auto.
Qed.
Lemma env_update Lf loc g : forall l n v l' y k, numb Lf -> env_rel g l Lf loc -> update l n v = Some l' ->
  glook g n = Some y -> assoc (sy_out y) Lf = Some k -> (N.to_nat k < List.length loc)%nat ->
  env_rel g l' Lf (list_set loc (N.to_nat k) v).
Proof.
  intros l n v l' y k NB [H ND] U GL K L. split; [|exact ND]. revert l' U.
  induction H as [|sc l0 g l Hs H IH]; cbn [update glook] in *; [discriminate|]. rewrite gouts_cons in ND. apply NoDup_app_inv in ND as (D1 & D2 & D3).
  pose proof (scope_assoc _ _ _ _ n Hs) as X. intros l' U. destruct (assoc n l0) as [w|] eqn:A0.
  - destruct X as (y' & k' & AS & _). rewrite AS in GL. injection GL as ->. injection U as <-. constructor.
    + eapply scope_update; eauto.
    + eapply env_frame; eauto. apply D3. apply assoc_in in AS. apply in_map_iff. exists (n, y). auto.
  - rewrite X in GL. destruct (update l n v) as [l1|] eqn:UU; [|discriminate]. cbn in U. injection U as <-. constructor; [|apply IH; auto].
    eapply scope_frame; eauto. intros I. apply (D3 _ I). eapply glook_in, GL.
Qed.
Lemma update_some l n v : look l n <> None -> exists l', update l n v = Some l'.
Proof.
  induction l as [|sc l IH]; cbn; [congruence|]. destruct (assoc n sc); [eauto|]. intros H. apply IH in H as (l' & ->). cbn. eauto.
Qed.
Lemma update_none l n v : look l n = None -> update l n v = None.
Proof. induction l as [|sc l IH]; cbn; [reflexivity|]. destruct (assoc n sc); [discriminate|]. intros H. rewrite IH by exact H. reflexivity. Qed.
Lemma env_declare Lf loc sc g l0 l n v y k : numb Lf -> env_rel (sc :: g) (l0 :: l) Lf loc ->
  ~ In (sy_out y) (gouts (sc :: g)) -> assoc (sy_out y) Lf = Some k -> (N.to_nat k < List.length loc)%nat ->
  env_rel (((n, y) :: sc) :: g) (((n, v) :: l0) :: l) Lf (list_set loc (N.to_nat k) v).
Proof.
  intros NB [H ND] NI K L. inversion H as [|? ? ? ? Hs H']; subst. split.
  - rewrite gouts_cons, in_app_iff in NI. constructor; [|eapply env_frame; eauto]. constructor; [|eapply scope_frame; eauto].
    split; [reflexivity|]. exists k. split; [exact K|]. apply list_set_same, L.
  - unfold gouts in *. cbn in *. constructor; assumption.
Qed.
Lemma env_push Lf loc g l : env_rel g l Lf loc -> env_rel ([] :: g) ([] :: l) Lf loc.
Proof. intros [H ND]. split; [constructor; [constructor|exact H]|exact ND]. Qed.
Lemma env_pop Lf loc g l : env_rel g l Lf loc -> env_rel (tl g) (tl l) Lf loc.
Proof.
  intros [H ND]. destruct H as [|sc l0 g l Hs H]; cbn; [split; [constructor|exact ND]|]. split; [exact H|].
  rewrite gouts_cons in ND. apply NoDup_app_inv in ND. tauto.
Qed.

(** ** Global tables *)
Record glob_rel (kg : option N -> text -> option value) (G : globs) : Prop := mkGR {
  gr_var : forall i n v, kg i n = Some v -> assoc n (gg G i) = Some v;
  gr_fun : forall i n f, fof i n = Some f -> assoc n (gg G i) = Some (VFunc f);
  gr_len : List.length (snd G) = List.length (p_imports P);
  gr_ty : forall n ty, type_named n = Some ty -> assoc n (gg G (Some bi)) = Some (VType ty)
}.
Lemma omod_eqb_eq a b : omod_eqb a b = true <-> a = b.
Proof.
  destruct a, b; cbn; try (split; [discriminate|congruence]); [|split; reflexivity].
  rewrite N.eqb_eq. split; congruence.
Qed.
Lemma gg_gset_same G i n v : match i with Some k => (N.to_nat k < List.length (snd G))%nat | None => True end ->
  gg (gset G i n v) i = assoc_set (gg G i) n v.
Proof.
  destruct i as [k|]; cbn; [|reflexivity]. intros L. apply nth_error_nth. apply list_set_same, L.
Qed.
Lemma gg_gset_other G i j n v : i <> j -> gg (gset G i n v) j = gg G j.
Proof.
  intros H. destruct i as [k|], j as [k'|]; cbn; try reflexivity; [|congruence].
  assert (X : nth_error (list_set (snd G) (N.to_nat k) (assoc_set (gg G (Some k)) n v)) (N.to_nat k') = nth_error (snd G) (N.to_nat k')).
  { apply list_set_other. intros X. apply N2Nat.inj in X. congruence. }
  change (nth (N.to_nat k') (list_set (snd G) (N.to_nat k) (assoc_set (gg G (Some k)) n v)) [] = nth (N.to_nat k') (snd G) []).
  revert X. generalize (list_set (snd G) (N.to_nat k) (assoc_set (gg G (Some k)) n v)). intros l X.
  destruct (nth_error (snd G) (N.to_nat k')) as [a|] eqn:Y.
  - rewrite (nth_error_nth _ _ _ X), (nth_error_nth _ _ _ Y). reflexivity.
  - rewrite !nth_overflow; [reflexivity| |]; apply nth_error_None; assumption.
Qed.
Lemma glob_set kg G m n v c : glob_rel kg G -> fof m n = None -> m <> Some bi ->
  match m with Some i => (N.to_nat i < List.length (p_imports P))%nat | None => True end ->
  kg = k_g c -> glob_rel (k_g (set_global c m n v)) (gset G m n v).
Proof.
  intros H NF NB IN ->. assert (R : match m with Some k => (N.to_nat k < List.length (snd G))%nat | None => True end).
  { destruct m; [|exact I]. rewrite (gr_len _ _ H). exact IN. }
  constructor.
  - intros i n' v' K. cbn in K. destruct (omod_eqb m i) eqn:O; cbn in K.
    + apply omod_eqb_eq in O. subst i. rewrite gg_gset_same by exact R. destruct (text_eqb n n') eqn:T.
      * apply text_eqb_eq in T. subst n'. rewrite assoc_set_eq. exact K.
      * rewrite assoc_set_neq; [apply H, K|]. apply text_eqb_neq in T. congruence.
    + rewrite gg_gset_other; [apply H, K|]. intros ->. rewrite (proj2 (omod_eqb_eq i i) eq_refl) in O. discriminate.
  - intros i n' f K. destruct (omod_eqb m i) eqn:O.
    + apply omod_eqb_eq in O. subst i. rewrite gg_gset_same by exact R. rewrite assoc_set_neq; [apply (gr_fun _ _ H), K|]. congruence.
    + rewrite gg_gset_other; [apply (gr_fun _ _ H), K|]. intros ->. rewrite (proj2 (omod_eqb_eq i i) eq_refl) in O. discriminate.
  - destruct m; cbn; [rewrite list_set_length|]; apply H.
  - intros n' ty K. rewrite gg_gset_other; [apply (gr_ty _ _ H), K|]. exact NB.
Qed.
End Rel.
