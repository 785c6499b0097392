(** Which source line an instruction is attributed to (C29). *)
From Coq Require Import Sorted.
From Verif Require Import Base BaseFacts Bson Spec_Bson BsonFacts Opcode Spec_Opcode OpcodeFacts Value Ast TableFacts CodeGen VM Compile Sem SemProg LoadFacts
  GenFacts GenRel Sim SimRel Spec_VM VMFacts Spec_Code CodeFacts.

(** [em p a b]: between [a] and [b] the generator recorded offsets in order,
    under the current line of [a] or lines that satisfy [p]. *)
Definition rec_line (m : list (Z * list N)) (e : N * Z) := map_add m (snd e) (fst e).
Fixpoint offsets (o : N) (ops : list instr) : list N :=
  match ops with [] => [] | i :: r => o :: offsets (o + op_size (fst i)) r end.
Lemma offsets_app a b : forall o, offsets o (a ++ b) = offsets o a ++ offsets (o + ops_size a) b.
Proof. induction a as [|[k r] a IH]; intros o; cbn [offsets app ops_size fst]; [rewrite N.add_0_r; reflexivity|]. rewrite IH. f_equal. f_equal. f_equal. lia. Qed.
Lemma op_size_pos o : (0 < op_size o)%N.
Proof. destruct o; reflexivity. Qed.
Lemma offsets_range ops : forall o, Forall (fun x => (o <= x < o + ops_size ops)%N) (offsets o ops).
Proof.
  induction ops as [|[k r] ops IH]; intros o; cbn [offsets ops_size fst]; constructor; pose proof (op_size_pos k); [lia|].
  eapply Forall_impl; [|apply IH]. cbn. lia.
Qed.
Lemma offsets_sorted ops : forall o, StronglySorted N.lt (offsets o ops).
Proof.
  induction ops as [|[k r] ops IH]; intros o; cbn [offsets fst]; constructor; [apply IH|]. eapply Forall_impl; [|apply offsets_range]. cbn. pose proof (op_size_pos k). lia.
Qed.
Record em (p : Z -> bool) (a b : gst) : Prop := mkEm {
  em_line : g_line b = g_line a \/ p (g_line b) = true;
  em_new : exists ops l, g_ops b = g_ops a ++ ops /\ g_ip b = (g_ip a + ops_size ops)%N /\ map fst l = offsets (g_ip a) ops /\
    g_map b = fold_left rec_line l (g_map a) /\ Forall (fun e => snd e = g_line a \/ p (snd e) = true) l
}.
Lemma em_same p a b : g_ops b = g_ops a -> g_ip b = g_ip a -> g_line b = g_line a -> g_map b = g_map a -> em p a b.
Proof. intros E0 E1 E2 E3. constructor; [auto|]. exists [], []. rewrite E3, E0, app_nil_r. repeat constructor. cbn. lia. Qed.
Lemma em_kept p : kept p (em p).
Proof.
  constructor; try (intros; apply em_same; reflexivity).
  - intros a b c [h2 (o & l & h0 & h1 & h3 & h4 & h5)] [k2 (o' & l' & k0 & k1 & k3 & k4 & k5)]. constructor; [destruct k2 as [->|]; auto|].
    exists (o ++ o'), (l ++ l'). split; [rewrite k0, h0, app_assoc; reflexivity|]. split; [rewrite ops_size_app; lia|].
    split; [rewrite map_app, offsets_app, h3, k3, h1; reflexivity|]. split; [rewrite fold_left_app, <- h4; exact k4|].
    apply Forall_app. split; [exact h5|]. eapply Forall_impl; [|exact k5]. cbn. intros y [?|?]; [|auto]. destruct h2 as [h2|h2]; [left|right]; congruence.
  - intros a l P. constructor; [right; exact P|]. exists [], []. cbn. rewrite app_nil_r. repeat constructor. lia.
  - intros a k b i H. unfold const_index in H. destruct (table_index _ _ _) as [t j]. destruct (_ <? _)%N; [|discriminate]. apply pyok_inj in H. injection H as <- <-.
    apply em_same; reflexivity.
  - intros a k b i H. unfold name_index in H. destruct (table_index _ _ _) as [t j]. destruct (_ <? _)%N; [|discriminate]. apply pyok_inj in H. injection H as <- <-.
    apply em_same; reflexivity.
  - intros a o args. constructor; [auto|]. exists [(o, args)], [(g_ip a, g_line a)]. cbn [append_op set_code g_ops g_ip g_map g_line ops_size fst offsets map snd fold_left].
    split; [reflexivity|]. split; [lia|]. split; [reflexivity|]. split; [reflexivity|]. constructor; [left; reflexivity|constructor].
  - intros a l b H. unfold patch_label in H. destruct (_ <? _)%N; [discriminate|]. apply pyok_inj in H. subst b. apply em_same; reflexivity.
Qed.
Lemma em_weak (p q : Z -> bool) a b : (forall z, p z = true -> q z = true) -> em p a b -> em q a b.
Proof.
  intros W [h2 (o & l & h0 & h1 & h3 & h4 & h5)]. constructor; [destruct h2; auto|]. exists o, l. repeat (split; [assumption|]).
  eapply Forall_impl; [|exact h5]. cbn. intros y [?|?]; auto.
Qed.

(** ** Finding the statement inside the code of its module *)
Section Find.
Variables (C : gctx) (L : Z) (x : node).
Let lt := fun z => (z <? L)%Z.
Let gt := fun z => (L <? z)%Z.
Let KL := em_kept lt.
Let KG := em_kept gt.
Definition split (a b : gst) : Prop := exists u v, em lt a u /\ gen C x u = PyOk v /\ em gt v b.
Lemma split_l a a' b : em lt a a' -> split a' b -> split a b.
Proof. intros E (u & v & h1 & h2 & h3). exists u, v. split; [eapply (kp_trans _ _ KL); eassumption|]. auto. Qed.
Lemma split_r a b b' : split a b -> em gt b b' -> split a b'.
Proof. intros (u & v & h1 & h2 & h3) E. exists u, v. split; [assumption|]. split; [assumption|]. eapply (kp_trans _ _ KG); eassumption. Qed.
Lemma seq_em p l a b : Forall (fun y => lines p y = true) l -> seqm (gen C) l a = PyOk b -> em p a b.
Proof. intros F. apply (seq_kept_in _ _ (em_kept p)), forallb_forall, Forall_forall, F. Qed.
Lemma seqm_app {A} (f : A -> gst -> pyres gst) l1 l2 a b : seqm f (l1 ++ l2) a = PyOk b -> exists c, seqm f l1 a = PyOk c /\ seqm f l2 c = PyOk b.
Proof.
  revert a. induction l1 as [|y l IH]; intros a H; cbn in *; [eauto|]. destruct (f y a) as [c|] eqn:E; [|discriminate]. destruct (IH _ H) as (d & ? & ?). eauto.
Qed.
Lemma seqm_cons {A} (f : A -> gst -> pyres gst) y l a b : seqm f (y :: l) a = PyOk b -> exists c, f y a = PyOk c /\ seqm f l c = PyOk b.
Proof. cbn. destruct (f y a); [eauto|discriminate]. Qed.
Lemma elif_em p l els a b : Forall (fun y => lines p y = true) els -> seqm (gen_elif C l) els a = PyOk b -> em p a b.
Proof.
  intros F. apply (kr_seqm _ _ (em_kept p)). intros y I. eapply (elif_kr _ _ (em_kept p)); [apply gen_kr, em_kept|]. rewrite Forall_forall in F. apply F, I.
Qed.

Ltac kk K p :=
  let rec go := first [ eassumption | apply (kp_refl _ _ K) |
  lazymatch goal with
  | |- em _ _ (append_op ?s _ _) => eapply (kp_trans _ _ K); [|apply (kp_op _ _ K)]; go
  | |- em _ _ (set_line ?s _) => eapply (kp_trans _ _ K); [|apply (kp_line _ _ K); apply Z.ltb_lt; assumption]; go
  | |- em _ _ (add_func ?s _) => eapply (kp_trans _ _ K); [|eapply (kp_fun _ _ K); reflexivity]; go
  | |- em _ _ (leave ?s) => eapply (kp_trans _ _ K); [|apply (kp_scopes _ _ K)]; go
  | |- em _ _ (enter ?s _) => eapply (kp_trans _ _ K); [|apply (kp_scopes _ _ K)]; go
  | |- em _ _ (set_loop ?s _ _) => eapply (kp_trans _ _ K); [|apply (kp_loop _ _ K)]; go
  | |- em _ _ (set_locals ?s _) => eapply (kp_trans _ _ K); [|apply (kp_locals _ _ K)]; go
  | |- em _ _ ?b => 
      match goal with
      | H : load_const _ _ = PyOk b |- _ => eapply (kp_trans _ _ K); [|eapply (kr_load_const _ _ K); exact H]; clear H; go
      | H : name_index _ _ = PyOk (b, _) |- _ => eapply (kp_trans _ _ K); [|eapply (kp_name _ _ K); exact H]; clear H; go
      | H : load_variable _ _ _ = PyOk b |- _ => eapply (kp_trans _ _ K); [|eapply (kr_load_variable _ _ K); exact H]; clear H; go
      | H : set_variable _ _ = PyOk b |- _ => eapply (kp_trans _ _ K); [|eapply (kr_set_variable _ _ K); exact H]; clear H; go
      | H : new_label _ = (b, _) |- _ => eapply (kp_trans _ _ K); [|eapply (kr_new _ _ K); exact H]; clear H; go
      | H : patch_label _ _ = PyOk b |- _ => eapply (kp_trans _ _ K); [|eapply (kp_patch _ _ K); exact H]; clear H; go
      | H : gen _ ?e _ = PyOk b |- _ => eapply (kp_trans _ _ K); [|eapply (gen_kept_in _ _ K); [|exact H]; eassumption]; clear H; go
      | H : block_with (gen _) ?e _ = PyOk b |- _ => eapply (kp_trans _ _ K); [|eapply (proj2 (proj1 (gen_kr _ _ K C e) ltac:(eassumption))); exact H]; clear H; go
      | H : seqm (gen_elif _ _) _ _ = PyOk b |- _ => eapply (kp_trans _ _ K); [|eapply elif_em; [|exact H]; eassumption]; clear H; go
      | H : seqm (gen _) _ _ = PyOk b |- _ => eapply (kp_trans _ _ K); [|eapply seq_em; [|exact H]; eassumption]; clear H; go
      end
  end ] in go.

Scheme inside_ind' := Minimality for inside Sort Prop
  with within_ind' := Minimality for within Sort Prop.
Combined Scheme inside_within from inside_ind', within_ind'.

Lemma find_in : (forall l, inside L x l -> forall a b, seqm (gen C) l a = PyOk b -> split a b) /\
  (forall y, within L x y -> forall a b, gen C y a = PyOk b -> split a b).
Proof.
  apply inside_within; unfold before, after; fold lt; fold gt.
  - intros pre post F1 F2 a b H. apply seqm_app in H as (c & H1 & H). apply seqm_cons in H as (d & H2 & H).
    exists c, d. split; [eapply seq_em; eassumption|]. split; [exact H2|eapply seq_em; eassumption].
  - intros pre y post F1 W IH F2 a b H. apply seqm_app in H as (c & H1 & H). apply seqm_cons in H as (d & H2 & H).
    eapply split_l; [eapply seq_em; eassumption|]. eapply split_r; [apply IH; exact H2|eapply seq_em; eassumption].
  - intros l c sc ch els el L1 B1 I IH A1 A2 a b G. cbn [gen node_line block_with] in G. inv_gen.
    match goal with HH : seqm _ els ?p = PyOk ?q, X : new_label (set_line _ _) = (_, ?l) |- _ => change (seqm (gen_elif C l) els p = PyOk q) in HH end.
    assert (EL : em gt x3 x4). { destruct el as [e|]; [|apply pyok_inj in H3; subst x4; apply (kp_refl _ _ KG)]. specialize (A2 _ eq_refl). kk KG gt. }
    clear H3.
    match goal with HH : seqm (gen C) ch ?p = PyOk ?q |- _ => eapply (split_l _ p); [|eapply split_r; [apply IH; exact HH|]]; clear HH end.
    + kk KL lt.
    + eapply (kp_trans _ _ KG); [|eapply (kp_patch _ _ KG); exact G]. eapply (kp_trans _ _ KG); [|exact EL]. clear EL. kk KG gt.
  - intros l c th pre l' c' sc ch post el L1 B1 B2 F1 L2 B3 I IH F2 A2 a b G. cbn [gen node_line] in G. inv_gen.
    match goal with HH : seqm _ (pre ++ _) ?p = PyOk ?q, X : new_label (set_line _ _) = (_, ?l) |- _ => change (seqm (gen_elif C l) (pre ++ NSenaoSe l' c' (NBlock sc ch) :: post) p = PyOk q) in HH;
      apply seqm_app in HH as (d & Hp & HH); apply seqm_cons in HH as (d' & Hy & Hq) end.
    cbn [gen_elif block_with] in Hy. inv_gen.
    assert (EL : em gt x3 x4). { destruct el as [e|]; [|apply pyok_inj in H3; subst x4; apply (kp_refl _ _ KG)]. specialize (A2 _ eq_refl). kk KG gt. }
    clear H3.
    match goal with HH : seqm (gen C) ch ?p = PyOk ?q |- _ => eapply (split_l _ p); [|eapply split_r; [apply IH; exact HH|]]; clear HH end.
    + clear Hq EL. kk KL lt.
    + eapply (kp_trans _ _ KG); [|eapply (kp_patch _ _ KG); exact G]. eapply (kp_trans _ _ KG); [|exact EL]. clear EL Hp. kk KG gt.
  - intros l c th els sc ch L1 B1 B2 F1 I IH a b G. cbn [gen node_line block_with] in G. inv_gen.
    match goal with HH : seqm _ els ?p = PyOk ?q, X : new_label (set_line _ _) = (_, ?l) |- _ => change (seqm (gen_elif C l) els p = PyOk q) in HH end.
    match goal with HH : seqm (gen C) ch ?p = PyOk ?q |- _ => eapply (split_l _ p); [|eapply split_r; [apply IH; exact HH|]]; clear HH end.
    + kk KL lt.
    + kk KG gt.
  - intros l c sc ch L1 B1 I IH a b G. cbn [gen node_line] in G. inv_gen.
    match goal with HH : seqm (gen C) ch ?p = PyOk ?q |- _ => eapply (split_l _ p); [|eapply split_r; [apply IH; exact HH|]]; clear HH end.
    + kk KL lt.
    + kk KG gt.
  - intros l vr e1 e2 sc ch L1 B1 B2 I IH a b G. cbn [gen node_line] in G. unfold need in G. destruct (resolve _ _); [|discriminate]. inv_gen.
    match goal with HH : seqm (gen C) ch ?p = PyOk ?q |- _ => eapply (split_l _ p); [|eapply split_r; [apply IH; exact HH|]]; clear HH end.
    + kk KL lt.
    + kk KG gt.
  - intros l f ps sc ch L1 I IH a b G. cbn [gen node_line] in G. inv_gen.
    match goal with HH : seqm (gen C) ch ?p = PyOk ?q |- _ => eapply (split_l _ p); [|eapply split_r; [apply IH; exact HH|]]; clear HH end.
    + kk KL lt.
    + kk KG gt.
Qed.
End Find.

(** ** The line table *)
Definition entry_ok (E : list (N * Z)) (e : Z * list N) : Prop :=
  (exists a, snd e = [a] /\ In (a, fst e) E) \/ (exists a b, snd e = [a; b] /\ (a < b)%N /\ In (a, fst e) E /\ In (b, fst e) E).
Definition covers (e : Z * list N) (o : N) : Prop := exists a, hd_error (snd e) = Some a /\ (a <= o <= last (snd e) 0)%N.
Definition table_ok (E : list (N * Z)) (m : list (Z * list N)) : Prop :=
  Forall (entry_ok E) m /\ (forall o l, In (o, l) E -> exists e, In e m /\ fst e = l /\ covers e o).
Lemma entry_more E e x : entry_ok E e -> entry_ok (E ++ [x]) e.
Proof.
  intros [(a & ? & ?)|(a & b & ? & ? & ? & ?)]; [left|right]; [exists a|exists a, b]; repeat split; auto; apply in_or_app; auto.
Qed.
Lemma map_add_ok E m l ip : (forall o z, In (o, z) E -> (o < ip)%N) -> table_ok E m -> table_ok (E ++ [(ip, l)]) (map_add m l ip).
Proof.
  intros UP [T1 T2]. split.
  - clear T2. induction T1 as [|[z offs] m EO T1 IH]; cbn [map_add].
    + constructor; [|constructor]. left. exists ip. split; [reflexivity|]. apply in_or_app. right. left. reflexivity.
    + destruct (z =? l)%Z eqn:Q; [|constructor; [apply entry_more, EO|exact IH]]. apply Z.eqb_eq in Q. subst z. constructor.
      * assert (IN : In (ip, l) (E ++ [(ip, l)])) by (apply in_or_app; right; left; reflexivity).
        destruct EO as [(a & E1 & I1)|(a & b & E1 & AB & I1 & I2)]; cbn [fst snd] in *; subst offs.
        -- right. exists a, ip. cbn. pose proof (UP _ _ I1). split; [reflexivity|]. split; [lia|]. split; [apply in_or_app; auto|exact IN].
        -- pose proof (UP _ _ I1). pose proof (UP _ _ I2). replace (b <? ip)%N with true by (symmetry; apply N.ltb_lt; lia).
           right. exists a, ip. cbn. split; [reflexivity|]. split; [lia|]. split; [apply in_or_app; auto|exact IN].
      * eapply Forall_impl; [|exact T1]. intros e. apply entry_more.
  - intros o z I. apply in_app_or in I as [I|I]; [|destruct I as [E0|[]]].
    + destruct (T2 _ _ I) as (e & I1 & <- & CV). pose proof (UP _ _ I) as LT. clear T2 I.
      induction T1 as [|[z offs] m EO T1 IH]; [destruct I1|]. cbn [map_add]. destruct I1 as [<-|I1].
      * destruct (_ =? _)%Z eqn:Q; [|eexists; split; [left; reflexivity|auto]]. eexists. split; [left; reflexivity|]. split; [reflexivity|]. cbn [fst snd] in *.
        destruct EO as [(a & E1 & I1)|(a & b & E1 & AB & I1 & I2)]; cbn [fst snd] in *; subst offs; destruct CV as (a' & H1 & H2); cbn in H1, H2; injection H1 as <-.
        -- exists a. cbn. split; [reflexivity|lia].
        -- pose proof (UP _ _ I2). replace (b <? ip)%N with true by (symmetry; apply N.ltb_lt; lia). exists a. cbn. split; [reflexivity|lia].
      * destruct (IH I1) as (e' & I' & E' & C'). destruct (z =? l)%Z; [|exists e'; cbn; auto].
        exists e. split; [right; exact I1|auto].
    + injection E0 as <- <-. clear T2. induction T1 as [|[z offs] m EO T1 IH]; cbn [map_add].
      * eexists. split; [left; reflexivity|]. split; [reflexivity|]. exists ip. cbn. split; [reflexivity|lia].
      * destruct (z =? l)%Z eqn:Q; [|destruct IH as (e' & ? & ? & ?); exists e'; cbn; auto]. apply Z.eqb_eq in Q. subst z. eexists. split; [left; reflexivity|]. split; [reflexivity|].
        destruct EO as [(a & E1 & I1)|(a & b & E1 & AB & I1 & I2)]; cbn [fst snd] in *; subst offs; pose proof (UP _ _ I1).
        -- exists a. cbn. split; [reflexivity|lia].
        -- pose proof (UP _ _ I2). replace (b <? ip)%N with true by (symmetry; apply N.ltb_lt; lia). exists a. cbn. split; [reflexivity|lia].
Qed.

Lemma lookup_flat E L off m : table_ok E m -> (L <> 0)%Z -> In (off, L) E ->
  (forall a b l, l <> L -> l <> 0%Z -> In (a, l) E -> In (b, l) E -> (off < a \/ b < off)%N) ->
  (forall z, In z (flatten_map m) -> in_i64 z = true) ->
  offset_to_line off (map as_usize (flatten_map m)) = as_usize L.
Proof.
  intros [T1 T2] LZ IE OTH I64. destruct (T2 _ _ IE) as (e & IM & EL & CV). clear T2 IE.
  induction T1 as [|[l offs] m EO T1 IH]; [destruct IM|]. unfold flatten_map in *. cbn [filter fst]. 
  destruct (l =? 0)%Z eqn:Z0; cbn [negb].
  { apply Z.eqb_eq in Z0. destruct IM as [<-|IM]; [cbn in EL; congruence|]. apply IH; [|exact IM]. intros z I. apply I64. cbn [filter fst]. rewrite (proj2 (Z.eqb_eq _ _) Z0). exact I. }
  apply Z.eqb_neq in Z0. assert (ZB : (l =? 0)%Z = false) by (apply Z.eqb_neq; exact Z0). cbn [filter fst] in I64. rewrite ZB in I64. cbn [negb flat_map] in I64 |- *.
  assert (RT : forall z, In z (flat_map flat_entry (filter (fun e => negb (fst e =? 0)%Z) m)) -> in_i64 z = true) by (intros z I; apply I64, in_or_app; right; exact I).
  assert (AB : exists a b, flat_entry (l, offs) = [Z.of_N a; Z.of_N b; l] /\ In (a, l) E /\ In (b, l) E /\ (forall o, covers (l, offs) o <-> (a <= o <= b)%N)).
  { destruct EO as [(a & E1 & I1)|(a & b & E1 & AB & I1 & I2)]; cbn [fst snd] in *; subst offs.
    - exists a, a. repeat (split; [reflexivity || assumption|]). intros o. unfold covers. cbn. split; [intros (? & Q & ?); injection Q as <-; assumption|intros; exists a; auto].
    - exists a, b. repeat (split; [reflexivity || assumption|]). intros o. unfold covers. cbn. split; [intros (? & Q & ?); injection Q as <-; assumption|intros; exists a; auto]. }
  destruct AB as (a & b & FE & I1 & I2 & CI). rewrite FE in *. cbn [app map] in *.
  rewrite (as_usize_N a), (as_usize_N b) by (apply I64; cbn; auto). cbn [offset_to_line].
  destruct ((a <=? off) && (off <=? b))%N eqn:Q.
  - destruct (Z.eq_dec l L) as [->|N]; [reflexivity|]. exfalso. destruct (OTH a b l N Z0 I1 I2); lia.
  - destruct IM as [<-|IM]; [|apply IH; [exact RT|exact IM]]. apply CI in CV. lia.
Qed.

(** ** Errors keep the frames *)
Definition ek (f : list frame) (c : option N) (x : xres) : Prop := match x with XErr e s => e <> ERecursion -> s_frames s = f /\ s_ctx s = c | _ => True end.
Definition fc (f : list frame) (c : option N) (s : state) : Prop := s_frames s = f /\ s_ctx s = c.
Lemma fc_pop f c s v s' : fc f c s -> op_pop s = Some (v, s') -> fc f c s'.
Proof.
  intros [F C] H. split; [rewrite (pop_frames _ _ _ H); exact F|]. unfold op_pop in H. destruct (_ =? _)%Z; [|destruct (_ <? _)%Z]; try discriminate H; destruct (vget _ _); try discriminate H; injection H as _ <-; exact C.
Qed.
Lemma ek_pop f c s k : fc f c s -> (forall v s', fc f c s' -> ek f c (k v s')) -> ek f c (xpop s k).
Proof. intros F K. unfold xpop. destruct (op_pop s) as [[v s']|] eqn:O; [|exact I]. apply K. eapply fc_pop; eassumption. Qed.
Lemma ek_val f c s r : fc f c s -> ek f c (xval s r).
Proof. intros F. destruct r; cbn; auto. Qed.
Lemma ek_lift A f c s (r : vres A) k : fc f c s -> (forall a, ek f c (k a)) -> ek f c (xlift s r k).
Proof. intros F K. destruct r; cbn; auto. Qed.
Lemma ek_opt A f c (o : option A) k : (forall a, ek f c (k a)) -> ek f c (xopt o k).
Proof. intros K. destruct o; cbn; auto. Qed.
Lemma fc_stack f c s v p : fc f c s -> fc f c (with_stack s v p).
Proof. intros F. exact F. Qed.
Lemma ek_bind f c vargs : forall idxs i s, fc f c s -> ek f c
  ((fix bind (idxs : list value) (i : nat) (s : state) : xres :=
             match idxs with
             | [] => XOk s
             | iv :: r =>
                 xlift s (take_int iv) (fun idx =>
                 xopt (nth_error vargs i) (fun v =>
                 xopt (vset (s_vals s) (top_bp s + idx) v) (fun vs =>
                 bind r (S i) (with_stack s vs (s_sp s)))))
             end) idxs i s).
Proof.
  induction idxs as [|iv r IH]; intros i s F; [exact I|]. apply ek_lift; [exact F|]. intros z. apply ek_opt. intros v. apply ek_opt. intros vs. apply IH, fc_stack, F.
Qed.
Lemma exec_err E P o args s f c : fc f c s -> ek f c (exec_op E P o args s).
Proof.
  intros F. unfold exec_op. apply ek_opt. intros m.
  destruct o; cbn [is_binop];
    repeat first [ apply ek_pop; [assumption|intros ? ? ?] | apply ek_val; assumption | apply ek_lift; [assumption|intros ?] | apply ek_opt; intros ? | exact I
      | match goal with |- ek _ _ (let (_, _) := ?x in _) => destruct x | |- ek _ _ (match ?v with _ => _ end) => destruct v | |- ek _ _ (if ?b then _ else _) => destruct b
         | |- ek _ _ (let _ := _ in _) => cbv zeta end
      | (intros _; assumption) ].
  - intros N. congruence.
  - apply ek_bind. assumption.
Qed.
Lemma step_err E P s f r e tr s' m : s_frames s = f :: r -> get_module P (s_ctx s) = Some m -> step E P s = SErr e tr s' -> e <> ERecursion ->
  hd_error tr = Some (offset_to_line (f_ip f) (m_srcmap m), f_name f).
Proof.
  intros F G H N. unfold step in H. rewrite F, G in H. destruct (vm_fetch _) as [[[o args] n]|]; [|discriminate].
  match type of H with context [exec_op E P o args ?t] => pose proof (exec_err E P o args t _ _ (conj eq_refl eq_refl)) as X; destruct (exec_op E P o args t) as [|?|e0 s0|] end; try discriminate H.
  injection H as -> <- <-. destruct (X N) as [X1 X2]. cbn in X1, X2. unfold trace. rewrite X2, G, X1. reflexivity.
Qed.

(** ** Lines of a statement's instructions *)
Lemma sorted_app {A} (R : A -> A -> Prop) l1 l2 : StronglySorted R l1 -> StronglySorted R l2 -> Forall (fun x => Forall (R x) l2) l1 -> StronglySorted R (l1 ++ l2).
Proof.
  intros H1 H2 F. induction l1 as [|x l1 IH]; [exact H2|]. inversion H1; subst. inversion F; subst. cbn. constructor; [auto|]. apply Forall_app. auto.
Qed.
Lemma fold_table l : forall E m, table_ok E m -> StronglySorted N.lt (map fst (E ++ l)) -> table_ok (E ++ l) (fold_left rec_line l m).
Proof.
  induction l as [|[ip z] l IH]; intros E m T S; cbn [fold_left]; [rewrite app_nil_r; exact T|].
  replace (E ++ (ip, z) :: l) with ((E ++ [(ip, z)]) ++ l) in * by (rewrite <- app_assoc; reflexivity). apply IH; [|exact S].
  apply map_add_ok; [|exact T]. intros o z' I. rewrite <- app_assoc, map_app in S. cbn [app map fst] in S. clear - S I.
  induction E as [|[o1 z1] E IH]; [destruct I|]. cbn in S. inversion S as [|? ? S' F]; subst. destruct I as [Q|I]; [|apply IH; assumption].
  injection Q as -> ->. rewrite Forall_forall in F. apply F, in_or_app. right. left. reflexivity.
Qed.
Lemma gen_line C x u L : node_line x = Some L -> gen C x u = gen C x (set_line u L).
Proof. destruct x; cbn [node_line]; intros H; try discriminate H; injection H as <-; reflexivity. Qed.
Lemma lines_node L x l : lines (Z.eqb L) x = true -> node_line x = Some l -> (forall sc ch, x <> NBlock sc ch) -> l = L.
Proof.
  intros H N NB. destruct x; cbn [node_line] in N; try discriminate N; try (exfalso; eapply NB; reflexivity); injection N as ->; cbn [lines] in H;
    repeat match goal with H : (_ && _)%bool = true |- _ => apply andb_prop in H as [? ?] end; symmetry; apply Z.eqb_eq; assumption.
Qed.

Theorem stmt_lines C md F L x : gen_module C md = PyOk F -> inside L x (mo_body md) -> lines (Z.eqb L) x = true ->
  node_line x = Some L -> (0 < L)%Z ->
  exists u v ops post, gen C x u = PyOk v /\ g_ops v = g_ops u ++ ops /\ g_ops F = g_ops v ++ post /\
    ((forall z, In z (flatten_map (g_map F)) -> in_i64 z = true) ->
     forall pre i q, ops = pre ++ i :: q -> offset_to_line (ops_size (g_ops u ++ pre)) (map as_usize (flatten_map (g_map F))) = as_usize L).
Proof.
  intros G IN LN NL LP. unfold gen_module in G. apply pbind_ok in G as (s0 & I0 & G). apply pbind_ok in G as (s1 & G1 & G). apply pyok_inj in G.
  destruct (proj1 (find_in C L x) _ IN _ _ G1) as (u & v & E1 & GX & E2).
  assert (EI : em (fun z => (z <? L)%Z) init_gst u).
  { eapply (kp_trans _ _ (em_kept _)); [|exact E1]. eapply (kp_trans _ _ (em_kept _)); [|apply (kp_scopes _ _ (em_kept _))].
    unfold init_tables in I0. apply pbind_ok in I0 as ([t i] & C1 & I0). apply pbind_ok in I0 as ([t' i'] & C2 & I0). cbn [fst] in *.
    eapply (kp_trans _ _ (em_kept _)); [eapply (kp_const _ _ (em_kept _)), C1|]. eapply (kp_trans _ _ (em_kept _)); [eapply (kp_const _ _ (em_kept _)), C2|].
    eapply (kr_seqm _ _ (em_kept _)); [|exact I0]. intros y _ a b H. cbv beta in H. destruct (is_named_kind _); [|apply pyok_inj in H; subst b; apply (kp_refl _ _ (em_kept _))].
    apply pbind_ok in H as ([t2 j] & H & V). apply pyok_inj in V. subst b. eapply (kp_name _ _ (em_kept _)), H. }
  clear E1 I0 G1. pose proof GX as GX'. rewrite (gen_line C x u L NL) in GX. apply (gen_kept_in _ _ (em_kept (Z.eqb L))) in GX; [|exact LN].
  destruct EI as [_ (oa & la & A1 & A2 & A3 & A4 & A5)]. destruct GX as [XL (ox & lx & X1 & X2 & X3 & X4 & X5)]. destruct E2 as [_ (ob & lb & B1 & B2 & B3 & B4 & B5)].
  cbn [init_gst g_ops g_ip g_map g_line app set_line] in *.
  assert (VL : g_line v = L) by (destruct XL as [|XL]; [assumption|symmetry; apply Z.eqb_eq; exact XL]).
  exists u, v, ox, (ob ++ [(HALT, [])]). split; [exact GX'|]. split; [exact X1|]. split; [subst F; cbn; rewrite B1, <- app_assoc; reflexivity|].
  intros I64 pre i q E. rewrite E in X3. set (off := ops_size (g_ops u ++ pre)).
  assert (IPU : g_ip u = ops_size (g_ops u)) by (rewrite A2, A1; lia).
  set (EV := (la ++ lx ++ lb) ++ [(g_ip s1, 0%Z)]).
  assert (GM : g_map F = fold_left rec_line EV []).
  { subst F EV. rewrite !fold_left_app, <- A4, <- X4, <- B4. reflexivity. }
  assert (SO : map fst EV = offsets 0 ((oa ++ ox ++ ob) ++ [(HALT, [])])).
  { unfold EV. rewrite !map_app, !offsets_app, A3, X3, B3. rewrite <- E. repeat f_equal; try lia. cbn. f_equal. rewrite !ops_size_app. lia. }
  assert (T : table_ok EV (g_map F)).
  { rewrite GM. apply (fold_table EV [] []); [split; [constructor|intros ? ? []]|]. cbn [app]. rewrite SO. apply offsets_sorted. }
  apply (lookup_flat EV); [exact T|lia| | |exact I64].
  - unfold EV. apply in_or_app. left. apply in_or_app. right. apply in_or_app. left.
    assert (IO : In off (map fst lx)). { rewrite X3, offsets_app. apply in_or_app. right. cbn. left. unfold off. rewrite ops_size_app. lia. }
    apply in_map_iff in IO as ([o z] & Q & IO). cbn in Q. subst o. rewrite Forall_forall in X5. pose proof (X5 _ IO) as Q. cbn in Q.
    replace z with L in IO; [exact IO|]. destruct Q as [Q|Q]; [auto|]. symmetry. symmetry in Q. apply Z.eqb_eq. rewrite Z.eqb_sym. congruence.
  - assert (CA : forall a l, In (a, l) la -> (l < L)%Z /\ (a < g_ip u)%N).
    { intros a l I. rewrite Forall_forall in A5. pose proof (A5 _ I) as Q. cbn in Q. split; [lia|]. pose proof (offsets_range oa 0) as R. rewrite <- A3 in R. rewrite Forall_forall in R.
      specialize (R a (in_map fst _ _ I)). cbn in R. lia. }
    assert (CX : forall a l, In (a, l) lx -> l = L). { intros a l I. rewrite Forall_forall in X5. pose proof (X5 _ I) as Q. cbn in Q. lia. }
    assert (CB : forall a l, In (a, l) lb -> (L <= l)%Z /\ (g_ip v <= a)%N).
    { intros a l I. rewrite Forall_forall in B5. pose proof (B5 _ I) as Q. cbn in Q. split; [lia|]. pose proof (offsets_range ob (g_ip v)) as R. rewrite <- B3 in R. rewrite Forall_forall in R.
      specialize (R a (in_map fst _ _ I)). cbn in R. lia. }
    assert (OL : (g_ip u <= off < g_ip v)%N).
    { unfold off. rewrite ops_size_app, X2, E, ops_size_app. destruct i as [k r]. cbn [ops_size fst]. pose proof (op_size_pos k). lia. }
    intros a b l N1 N2 Ia Ib. unfold EV in Ia, Ib.
    apply in_app_or in Ia as [Ia|Ia]; [|destruct Ia as [Q|[]]; injection Q as _ <-; congruence].
    apply in_app_or in Ib as [Ib|Ib]; [|destruct Ib as [Q|[]]; injection Q as _ <-; congruence].
    apply in_app_or in Ia as [Ia|Ia]; [|apply in_app_or in Ia as [Ia|Ia]; [apply CX in Ia; congruence|apply CB in Ia; lia]].
    apply in_app_or in Ib as [Ib|Ib]; [apply CA in Ib; lia|]. apply in_app_or in Ib as [Ib|Ib]; [apply CX in Ib; congruence|]. apply CA in Ia. apply CB in Ib. lia.
Qed.

(** ** Programs *)
Lemma build_ints b main imports P m vm : build b main imports = PyOk (Some P) -> get_module P m = Some vm ->
  forall md cm, SemProg.module_at main imports m = Some md -> compile_module (ctx_of imports b md) md = PyOk cm ->
  loads cm vm /\ (forall z, In z (cm_map cm) -> in_i64 z = true).
Proof.
  intros HB G md cm MA CM. destruct (build_loads _ _ _ _ HB) as (cm' & cms & CA & L1 & L2 & _).
  assert (I : ints_ok (BDoc (program_doc (cm', cms)))).
  { unfold build in HB. rewrite CA in HB. cbn [pbind] in HB. apply pbind_ok in HB as (bs & D & _). eapply dumps_ints, D. }
  unfold compile_all in CA. apply pbind_ok in CA as (is_ & M & CA). apply pbind_ok in CA as (mm & MM & CA). apply pyok_inj in CA. injection CA as <- <-.
  assert (MI : forall m l, ints_ok (BDoc (module_doc m l)) -> forall z, In z (cm_map m) -> in_i64 z = true).
  { intros m0 l I0 z Z. apply ints_int. eapply ints_item; [|apply (in_map BInt _ _ Z)]. eapply ints_field; [exact I0|]. do 8 right. left. reflexivity. }
  destruct m as [i|]; cbn [SemProg.module_at get_module] in *.
  - assert (FI : exists c, nth_error is_ (N.to_nat i) = Some c /\ compile_module (ctx_of imports b md) md = PyOk c).
    { clear - M MA. revert M MA. unfold ctx_of. generalize (number_from 0 (map mo_path imports)). intros nf. generalize (N.to_nat i). clear i. revert is_.
      generalize imports as l. clear imports. induction l as [|x l IH]; intros is_ n M MA; [destruct n; discriminate|]. cbn [mapm] in M.
      apply pbind_ok in M as (c & E1 & M). apply pbind_ok in M as (cs & E2 & M). apply pyok_inj in M. subst is_.
      destruct n as [|n]; cbn in MA |- *; [injection MA as <-; eauto|]. eapply IH; eassumption. }
    destruct FI as (c & NC & CC). rewrite CM in CC. apply pyok_inj in CC. subst c. split.
    + clear - L2 NC G. revert NC G. generalize (N.to_nat i). induction L2; intros [|n] NC G; cbn in *; try discriminate; [congruence|eauto].
    + apply (MI cm []). eapply (ints_item (map (fun m => BDoc (module_doc m [])) is_)); [|apply (in_map (fun m => BDoc (module_doc m []))); eapply nth_error_In, NC].
      eapply ints_field; [exact I|]. do 9 right. left. reflexivity.
  - injection MA as ->. injection G as <-. rewrite CM in MM. apply pyok_inj in MM. subst mm. split; [exact L1|]. eapply MI, I.
Qed.
Lemma built_at b main imports P m md : build b main imports = PyOk (Some P) -> SemProg.module_at main imports m = Some md ->
  exists vm cm, get_module P m = Some vm /\ compile_module (ctx_of imports b md) md = PyOk cm.
Proof.
  intros HB MA. destruct (build_loads _ _ _ _ HB) as (cm' & cms & CA & L1 & L2 & _). unfold compile_all in CA. apply pbind_ok in CA as (is_ & M & CA).
  apply pbind_ok in CA as (mm & MM & CA). apply pyok_inj in CA. injection CA as <- <-. destruct m as [i|]; cbn [SemProg.module_at get_module] in *.
  - assert (FI : exists c, nth_error is_ (N.to_nat i) = Some c /\ compile_module (ctx_of imports b md) md = PyOk c).
    { clear - M MA. revert M MA. unfold ctx_of. generalize (number_from 0 (map mo_path imports)). intros nf. generalize (N.to_nat i). clear i. revert is_.
      generalize imports as l. clear imports. induction l as [|x l IH]; intros is_ n M MA; [destruct n; discriminate|]. cbn [mapm] in M.
      apply pbind_ok in M as (c & E1 & M). apply pbind_ok in M as (cs & E2 & M). apply pyok_inj in M. subst is_.
      destruct n as [|n]; cbn in MA |- *; [injection MA as <-; eauto|]. eapply IH; eassumption. }
    destruct FI as (c & NC & CC). assert (V : exists v, nth_error (p_imports P) (N.to_nat i) = Some v).
    { clear - L2 NC. revert NC. generalize (N.to_nat i). induction L2; intros [|n] NC; cbn in *; try discriminate; eauto. }
    destruct V as (v & V). eauto.
  - injection MA as ->. eauto.
Qed.

Theorem error_line b main imports P m md L x :
  build b main imports = PyOk (Some P) -> SemProg.module_at main imports m = Some md -> mo_builtin md = false ->
  inside L x (mo_body md) -> lines (Z.eqb L) x = true -> node_line x = Some L -> (0 < L < 2 ^ 63)%Z ->
  let C := ctx_of imports b md in
  exists F vm u v ops post,
    gen_module C md = PyOk F /\ get_module P m = Some vm /\ write_ops (g_labels F) (g_ops F) = PyOk (m_code vm) /\
    gen C x u = PyOk v /\ g_ops v = g_ops u ++ ops /\ g_ops F = g_ops v ++ post /\
    forall E pre i q s f r e tr s', ops = pre ++ i :: q ->
      s_ctx s = m -> s_frames s = f :: r -> f_ip f = ops_size (g_ops u ++ pre) ->
      step E P s = SErr e tr s' -> e <> ERecursion -> hd_error tr = Some (Z.to_N L, f_name f).
Proof.
  intros HB MA BI IN LN NL LP C. destruct (built_at _ _ _ _ _ _ HB MA) as (vm & cm & G & CM). destruct (build_ints _ _ _ _ _ _ HB G _ _ MA CM) as [LD I64].
  pose proof CM as CM'. unfold compile_module in CM'. rewrite BI in CM'. apply pbind_ok in CM' as (F & GF & CM'). apply pbind_ok in CM' as (code & W & CM'). apply pyok_inj in CM'.
  destruct (stmt_lines _ _ _ _ _ GF IN LN NL (proj1 LP)) as (u & v & ops & post & H1 & H2 & H3 & H4).
  exists F, vm, u, v, ops, post. split; [exact GF|]. split; [exact G|]. split; [rewrite (lo_code _ _ LD), <- CM'; exact W|]. repeat (split; [assumption|]).
  intros E pre i q s f r e tr s' EQ SC SF IP ST NR. subst m. rewrite (step_err _ _ _ _ _ _ _ _ _ SF G ST NR). rewrite (lo_map _ _ LD), <- CM'. cbn [cm_map]. rewrite IP.
  rewrite (H4 ltac:(rewrite <- CM' in I64; exact I64) _ _ _ EQ). repeat f_equal. unfold as_usize, wrap. change (2 ^ 63)%Z with 9223372036854775808%Z in LP.
  change (2 ^ (8 * Z.of_nat 8))%Z with 18446744073709551616%Z. rewrite Z.mod_small by lia. reflexivity.
Qed.
