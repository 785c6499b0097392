(** The machine seen through one frame: where it is, the live part of its
    stack, the world and the global tables.  One lemma per instruction. *)
From Verif Require Import Base BaseFacts Bson BsonFacts Opcode Spec_Opcode OpcodeFacts Dec Float Value ValueFacts
  Ast TableFacts CodeGen VM GenFacts Sem.

(** What a frame keeps while it runs. *)
Record fctx := mkFC { q_m : option N; q_nm : text; q_bp : Z; q_fm : option N; q_fr : list frame }.
(** Global tables: of the main module and of the imports. *)
Definition globs := (list (text * value) * list (list (text * value)))%type.
Definition gg (G : globs) (i : option N) : list (text * value) :=
  match i with None => fst G | Some i => nth (N.to_nat i) (snd G) [] end.
Definition gset (G : globs) (i : option N) (n : text) (v : value) : globs :=
  match i with
  | None => (assoc_set (fst G) n v, snd G)
  | Some k => (fst G, list_set (snd G) (N.to_nat k) (assoc_set (gg G i) n v))
  end.

Record at_ (A : fctx) (ip : N) (l : list value) (w : world) (G : globs) (s : state) : Prop := mkAt {
  at_ctx : s_ctx s = q_m A;
  at_fr : exists la, s_frames s = mkFrame (q_nm A) ip la (q_bp A) (q_fm A) :: q_fr A;
  at_st : exists j, s_vals s = l ++ j /\ s_sp s = (zlen l - 1)%Z;
  at_w : s_world s = w;
  at_g : (s_globs s, s_iglobs s) = G
}.

Lemma zlen_app a b : zlen (a ++ b) = (zlen a + zlen b)%Z.
Proof. unfold zlen. rewrite app_length. lia. Qed.
Lemma zlen_snoc a v : zlen (a ++ [v]) = (zlen a + 1)%Z.
Proof. rewrite zlen_app. reflexivity. Qed.
Lemma zlen_nonneg a : (0 <= zlen a)%Z.
Proof. unfold zlen. lia. Qed.
Lemma list_set_mid {A} (l : list A) x y r : list_set (l ++ x :: r) (List.length l) y = l ++ y :: r.
Proof. induction l as [|z l IH]; cbn; [reflexivity|]. rewrite IH. reflexivity. Qed.
Lemma list_set_app1 {A} (l r : list A) i y : (i < List.length l)%nat -> list_set (l ++ r) i y = list_set l i y ++ r.
Proof. revert i. induction l as [|z l IH]; intros [|i] H; cbn in *; try lia; [reflexivity|]. rewrite IH by lia. reflexivity. Qed.
Lemma list_set_app2 {A} (l r : list A) i y : list_set (l ++ r) (List.length l + i) y = l ++ list_set r i y.
Proof. induction l as [|z l IH]; cbn; [reflexivity|]. rewrite IH. reflexivity. Qed.

Lemma push_at A ip l w G s v : at_ A ip l w G s -> at_ A ip (l ++ [v]) w G (op_push s v).
Proof.
  intros [c f (j & V & P) W Gl]. unfold op_push. rewrite P, V, zlen_app.
  replace (zlen l - 1 + 1)%Z with (zlen l) by lia.
  pose proof (zlen_nonneg j). destruct j as [|x j].
  - cbn [zlen]. rewrite app_nil_r. replace (zlen l =? zlen l + zlen [])%Z with true by (unfold zlen; cbn; lia).
    constructor; try assumption. exists []. cbn. split; [rewrite app_nil_r; reflexivity|]. rewrite zlen_snoc. lia.
  - replace (zlen l =? zlen l + zlen (x :: j))%Z with false by (unfold zlen; cbn [List.length]; lia).
    replace (zlen l <? zlen l + zlen (x :: j))%Z with true by (unfold zlen; cbn [List.length]; lia).
    constructor; try assumption. exists j. cbn. split; [|rewrite zlen_snoc; lia].
    replace (Z.to_nat (zlen l)) with (List.length l) by (unfold zlen; lia). rewrite list_set_mid, <- app_assoc. reflexivity.
Qed.
Lemma removelast_snoc {A} (l : list A) x : removelast (l ++ [x]) = l.
Proof. rewrite removelast_app by discriminate. cbn. apply app_nil_r. Qed.
Lemma pop_at A ip l w G s v : at_ A ip (l ++ [v]) w G s -> exists s', op_pop s = Some (v, s') /\ at_ A ip l w G s'.
Proof.
  intros [c f (j & V & P) W Gl]. unfold op_pop. rewrite P, V, (zlen_app (l ++ [v])), !zlen_snoc.
  assert (L : (zlen l + 1 - 1 <? 0)%Z = false) by (unfold zlen; lia).
  assert (NT : Z.to_nat (zlen l + 1 - 1) = List.length l) by (unfold zlen; lia).
  destruct j as [|x j].
  - rewrite app_nil_r. change (zlen []) with 0%Z.
    replace (zlen l + 1 + 0 - 1)%Z with (zlen l + 1 - 1)%Z by lia. rewrite Z.eqb_refl.
    unfold vget. rewrite L, NT.
    rewrite nth_error_app2, Nat.sub_diag by lia. cbn [nth_error].
    eexists. split; [reflexivity|]. constructor; try assumption. exists []. cbn.
    rewrite removelast_snoc, app_nil_r. split; [reflexivity|lia].
  - replace (zlen l + 1 - 1 =? zlen l + 1 + zlen (x :: j) - 1)%Z with false by (unfold zlen; cbn [List.length]; lia).
    replace (zlen l + 1 - 1 <? zlen l + 1 + zlen (x :: j) - 1)%Z with true by (unfold zlen; cbn [List.length]; lia).
    unfold vget. rewrite L, NT. rewrite <- app_assoc. rewrite nth_error_app2, Nat.sub_diag by lia. cbn [nth_error app].
    eexists. split; [reflexivity|]. constructor; try assumption. exists (VNone :: x :: j). cbn.
    rewrite list_set_mid. split; [reflexivity|lia].
Qed.
Lemma xpop_at A ip l w G s v : at_ A ip (l ++ [v]) w G s -> exists s', (forall k, xpop s k = k v s') /\ at_ A ip l w G s'.
Proof. intros H. apply pop_at in H as (s' & H & H'). exists s'. split; [|exact H']. intros k. unfold xpop. rewrite H. reflexivity. Qed.

Lemma slice_at A ip l vs w G s : at_ A ip (l ++ vs) w G s ->
  slice (s_vals s) (s_sp s - (zlen vs - 1)) (s_sp s) = Some vs /\ (s_sp s - (zlen vs - 1) = zlen l)%Z.
Proof.
  intros [c f (j & V & P) W Gl]. rewrite P, V, zlen_app.
  replace (zlen l + zlen vs - 1 - (zlen vs - 1))%Z with (zlen l) by lia. split; [|reflexivity].
  unfold slice. rewrite !zlen_app.
  pose proof (zlen_nonneg l). pose proof (zlen_nonneg vs). pose proof (zlen_nonneg j).
  replace (_ || _ || _)%bool with false by lia.
  replace (Z.to_nat (zlen l)) with (List.length l) by (unfold zlen; lia).
  rewrite <- app_assoc, skipn_app, skipn_all, Nat.sub_diag. cbn [skipn app].
  replace (Z.to_nat (zlen l + zlen vs - 1 + 1 - zlen l)) with (List.length vs) by (unfold zlen in *; lia).
  rewrite firstn_app, firstn_all, Nat.sub_diag, firstn_O, app_nil_r. reflexivity.
Qed.
(** Cutting the stack back to [l]. *)
Lemma trunc_at A ip l vs w G s : at_ A ip (l ++ vs) w G s ->
  at_ A ip l w G (with_stack s (truncate (s_vals s) (zlen l)) (zlen l - 1)).
Proof.
  intros [c f (j & V & P) W Gl]. constructor; try assumption. exists []. cbn. split; [|reflexivity].
  rewrite V. unfold truncate. replace (Z.to_nat (zlen l)) with (List.length l) by (unfold zlen; lia).
  rewrite <- app_assoc, firstn_app, firstn_all, Nat.sub_diag, firstn_O, !app_nil_r. reflexivity.
Qed.
Lemma cut_at A ip l vs w G s : at_ A ip (l ++ vs) w G s -> at_ A ip l w G (with_stack s (s_vals s) (zlen l - 1)).
Proof.
  intros [c f (j & V & P) W Gl]. constructor; try assumption. exists (vs ++ j). cbn. split; [|reflexivity].
  rewrite V, app_assoc. reflexivity.
Qed.
Lemma drain_at A ip l vs w G s : at_ A ip (l ++ vs) w G s ->
  at_ A ip l w G (with_stack s (drain_mid (s_vals s) (zlen l) (s_sp s)) (zlen l - 1)).
Proof.
  intros [c f (j & V & P) W Gl]. constructor; try assumption. exists j. cbn. split; [|reflexivity].
  rewrite V, P. unfold drain_mid. rewrite zlen_app.
  replace (Z.to_nat (zlen l)) with (List.length l) by (unfold zlen; lia).
  replace (Z.to_nat (zlen l + zlen vs - 1 + 1)) with (List.length (l ++ vs)) by (rewrite app_length; unfold zlen; lia).
  rewrite skipn_app, skipn_all, Nat.sub_diag. cbn [skipn app].
  rewrite <- app_assoc, firstn_app, firstn_all, Nat.sub_diag, firstn_O, app_nil_r. reflexivity.
Qed.
Lemma trunc_top A ip l w G s : at_ A ip l w G s -> at_ A ip l w G (with_stack s (truncate (s_vals s) (s_sp s + 1)) (s_sp s)).
Proof.
  intros H. pose proof H as [c f (j & V & P) W Gl]. rewrite P. replace (zlen l - 1 + 1)%Z with (zlen l) by lia.
  apply (trunc_at _ _ _ []). rewrite app_nil_r. exact H.
Qed.
Lemma world_at A ip l w w' G s : at_ A ip l w G s -> at_ A ip l w' G (with_world s w').
Proof. intros [c f st W Gl]. constructor; try assumption. reflexivity. Qed.

Section Run.
Variable E : ext.
Variable P : program.

Definition fetch_at (m : option N) (ip : N) (o : opcode) (args : list N) : Prop :=
  exists vm, get_module P m = Some vm /\
    vm_fetch (skipn (N.to_nat ip) (m_code vm)) = Some (o, args, N.to_nat (op_size o)).

Lemma step_at A ip l w G s o args : at_ A ip l w G s -> fetch_at (q_m A) ip o args ->
  exists s1, at_ A (ip + op_size o) l w G s1 /\
    step E P s = match exec_op E P o args s1 with
                 | XOk s' => SNext s'
                 | XHalt s' => SHalt s'
                 | XErr e s' => SErr e (trace P s') s'
                 | XPanic => SPanic
                 end.
Proof.
  intros [c (la & f) st W Gl] (vm & GM & FE). eexists. split; [|unfold step; rewrite f, c, GM; cbn [f_ip]; rewrite FE; reflexivity].
  constructor; try assumption. cbn. rewrite N2Nat.id. eexists. reflexivity.
Qed.

(** ** Runs *)
Inductive steps : nat -> state -> state -> Prop :=
| st_0 s : steps O s s
| st_S n s s1 s2 : step E P s = SNext s1 -> steps n s1 s2 -> steps (Datatypes.S n) s s2.
Lemma steps_trans n m a b c : steps n a b -> steps m b c -> steps (n + m) a c.
Proof. induction 1; intros K; [exact K|]. cbn. econstructor; [eassumption|auto]. Qed.

(** [sim k r s Q]: from [s] the machine does what the interpreter's result [r]
    says; if [r] is unfinished, it runs at least [k] steps. *)
Definition sim (k : nat) (r : res) (s : state) (Q : out -> cfg -> state -> Prop) : Prop :=
  match r with
  | Done o c => exists n s', steps n s s' /\ Q o c s'
  | Fail e w => exists n s' tr sE, steps n s s' /\ step E P s' = SErr e tr sE /\ s_world sE = w
  | Fuel => exists n s', (k <= n)%nat /\ steps n s s'
  | Stuck => True
  end.
Lemma sim_le k k' r s Q : (k' <= k)%nat -> sim k r s Q -> sim k' r s Q.
Proof. intros L. destruct r; cbn; auto. intros (n & s' & X & Y). exists n, s'. split; [lia|exact Y]. Qed.
Lemma sim_post k r s (Q Q' : out -> cfg -> state -> Prop) : (forall o c s', Q o c s' -> Q' o c s') -> sim k r s Q -> sim k r s Q'.
Proof. intros H. destruct r; cbn; auto. intros (n & s' & X & Y). exists n, s'. auto. Qed.
Lemma sim_done k o c s (Q : out -> cfg -> state -> Prop) : Q o c s -> sim k (Done o c) s Q.
Proof. intros H. exists O, s. split; [constructor|exact H]. Qed.
Lemma sim_stepS k r s s1 Q : step E P s = SNext s1 -> sim k r s1 Q -> sim (Datatypes.S k) r s Q.
Proof.
  intros X. destruct r; cbn; auto.
  - intros (n & s' & Y & Z). exists (Datatypes.S n), s'. split; [econstructor; eassumption|exact Z].
  - intros (n & s' & tr & sE & Y & Z). exists (Datatypes.S n), s', tr, sE. split; [econstructor; eassumption|exact Z].
  - intros (n & s' & Y & Z). exists (Datatypes.S n), s'. split; [lia|econstructor; eassumption].
Qed.
Lemma sim_steps k n r s s1 Q : steps n s s1 -> sim k r s1 Q -> sim k r s Q.
Proof. induction 1; [auto|]. intros K. eapply sim_le; [|eapply sim_stepS; [eassumption|auto]]. lia. Qed.
Lemma sim_bind k r s Q Q' f : sim k r s Q -> (forall o c s', Q o c s' -> sim k (f o c) s' Q') -> sim k (bind r f) s Q'.
Proof.
  intros H K. destruct r; cbn [bind]; try exact H. destruct H as (n & s' & X & Y). eapply sim_steps; [exact X|]. apply K, Y.
Qed.
Lemma sim_bindv k r s Q Q' f : sim k r s Q -> (forall v c s', Q (OVal v) c s' -> sim k (f v c) s' Q') -> sim k (bindv r f) s Q'.
Proof. intros H K. eapply sim_bind; [exact H|]. intros o c s' X. destruct o; try exact I. apply K, X. Qed.

(** An instruction that succeeds. *)
Lemma sim_opS k r s Q A ip l w G o args A' ip' l' w' G' : at_ A ip l w G s -> fetch_at (q_m A) ip o args ->
  (forall s1, at_ A (ip + op_size o) l w G s1 -> exists s', exec_op E P o args s1 = XOk s' /\ at_ A' ip' l' w' G' s') ->
  (forall s', at_ A' ip' l' w' G' s' -> sim k r s' Q) -> sim (Datatypes.S k) r s Q.
Proof.
  intros H F X K. destruct (step_at _ _ _ _ _ _ _ _ H F) as (s1 & H1 & ST). destruct (X _ H1) as (s' & X1 & X2).
  rewrite X1 in ST. eapply sim_stepS; [exact ST|]. apply K, X2.
Qed.
Lemma sim_op k r s Q A ip l w G o args A' ip' l' w' G' : at_ A ip l w G s -> fetch_at (q_m A) ip o args ->
  (forall s1, at_ A (ip + op_size o) l w G s1 -> exists s', exec_op E P o args s1 = XOk s' /\ at_ A' ip' l' w' G' s') ->
  (forall s', at_ A' ip' l' w' G' s' -> sim k r s' Q) -> sim k r s Q.
Proof. intros H F X K. eapply sim_le; [|eapply sim_opS; eassumption]. lia. Qed.
(** An instruction that fails. *)
Lemma sim_fail k e s Q A ip l w w' G o args : at_ A ip l w G s -> fetch_at (q_m A) ip o args ->
  (forall s1, at_ A (ip + op_size o) l w G s1 -> exists s', exec_op E P o args s1 = XErr e s' /\ s_world s' = w') ->
  sim k (Fail e w') s Q.
Proof.
  intros H F X. destruct (step_at _ _ _ _ _ _ _ _ H F) as (s1 & H1 & ST). destruct (X _ H1) as (s' & X1 & X2).
  rewrite X1 in ST. exists O, s, (trace P s'), s'. split; [constructor|auto].
Qed.
(** An instruction whose result is that of an operation on values. *)
Lemma sim_val k s (Q : out -> cfg -> state -> Prop) A ip l w G o args l' r c : at_ A ip l w G s -> fetch_at (q_m A) ip o args ->
  (forall s1, at_ A (ip + op_size o) l w G s1 -> exists s', exec_op E P o args s1 = xval s' r /\ at_ A (ip + op_size o) l' w G s') ->
  (forall v s', r = ROk v -> at_ A (ip + op_size o) (l' ++ [v]) w G s' -> Q (OVal v) c s') ->
  sim k (lift w r c) s Q.
Proof.
  intros H F X K. destruct r as [v|e|]; cbn [lift]; [| |exact I].
  - eapply sim_op; [exact H|exact F| |].
    + intros s1 H1. destruct (X _ H1) as (s' & X1 & X2). eexists. split; [exact X1|]. apply push_at, X2.
    + intros s' H'. apply sim_done, K; [reflexivity|exact H'].
  - eapply sim_fail; [exact H|exact F|]. intros s1 H1. destruct (X _ H1) as (s' & X1 & X2). exists s'. split; [exact X1|apply X2].
Qed.

(** ** Effects of single instructions *)
Section Ops.
Variables (A : fctx) (vm : vmodule).
Hypothesis HM : get_module P (q_m A) = Some vm.
Ltac gm H := unfold exec_op; rewrite (at_ctx _ _ _ _ _ _ H), HM; cbn [xopt nth].

Lemma ex_const ip l w G i v s : at_ A ip l w G s -> nth_error (m_consts vm) (N.to_nat i) = Some v ->
  exists s', exec_op E P LOAD_CONST [i] s = XOk s' /\ at_ A ip (l ++ [v]) w G s'.
Proof. intros H X. gm H. rewrite X. cbn [xopt]. eexists. split; [reflexivity|apply push_at, H]. Qed.
Lemma ex_name ip l w G i v s : at_ A ip l w G s -> nth_error (m_names vm) (N.to_nat i) = Some v ->
  exists s', exec_op E P LOAD_NAME [i] s = XOk s' /\ at_ A ip (l ++ [VStr v]) w G s'.
Proof. intros H X. gm H. rewrite X. cbn [xopt]. eexists. split; [reflexivity|apply push_at, H]. Qed.
Lemma gg_at ip l w G s i : at_ A ip l w G s -> get_globs s i = gg G i.
Proof. intros [? ? ? ? <-]. destruct i; reflexivity. Qed.
Lemma ex_get_global ip l w G i n v s : at_ A ip l w G s -> nth_error (m_names vm) (N.to_nat i) = Some n ->
  assoc n (gg G (q_m A)) = Some v ->
  exists s', exec_op E P GET_GLOBAL [i] s = XOk s' /\ at_ A ip (l ++ [v]) w G s'.
Proof.
  intros H X Y. gm H. rewrite X. cbn [xopt]. rewrite (gg_at _ _ _ _ _ _ H), Y. cbn [xopt].
  eexists. split; [reflexivity|apply push_at, H].
Qed.
Lemma ex_module_def ip l w G j i n v s : at_ A ip l w G s -> nth_error (m_names vm) (N.to_nat i) = Some n ->
  (N.to_nat j < List.length (p_imports P))%nat -> assoc n (gg G (Some j)) = Some v ->
  exists s', exec_op E P LOAD_MODULE_DEF [j; i] s = XOk s' /\ at_ A ip (l ++ [v]) w G s'.
Proof.
  intros H X L Y. gm H. replace (N.of_nat (List.length (p_imports P)) <=? j)%N with false by lia.
  rewrite X. cbn [xopt]. rewrite (gg_at _ _ _ _ _ (Some j) H), Y. cbn [xopt].
  eexists. split; [reflexivity|apply push_at, H].
Qed.
Lemma ex_set_global ip l w G i n v s : at_ A ip (l ++ [v]) w G s -> nth_error (m_names vm) (N.to_nat i) = Some n ->
  exists s', exec_op E P SET_GLOBAL [i] s = XOk s' /\ at_ A ip l w (gset G (q_m A) n v) s'.
Proof.
  intros H X. gm H. rewrite X. cbn [xopt]. destruct (xpop_at _ _ _ _ _ _ _ H) as (s1 & -> & H1).
  eexists. split; [reflexivity|]. rewrite (at_ctx _ _ _ _ _ _ H1), (gg_at _ _ _ _ _ _ H1).
  destruct H1 as [c f st W Gl]. unfold set_globs, gset. destruct (q_m A) eqn:EM; constructor; cbn; try congruence; try assumption; rewrite <- Gl; reflexivity.
Qed.
Lemma ex_registo ip l w G i r s : at_ A ip l w G s -> nth_error (m_regs vm) (N.to_nat i) = Some r ->
  exists s', exec_op E P LOAD_REGISTO [i] s = XOk s' /\ at_ A ip (l ++ [VRegisto (fst r) (snd r)]) w G s'.
Proof. intros H X. gm H. rewrite X. cbn [xopt]. eexists. split; [reflexivity|apply push_at, H]. Qed.
Lemma ex_mostra ip l w G v t s : at_ A ip (l ++ [v]) w G s -> show E (w_heap w) v = Some t ->
  exists s', exec_op E P MOSTRA [] s = XOk s' /\ at_ A ip l (emit w (t ++ [10%N])) G s'.
Proof.
  intros H X. gm H. destruct (xpop_at _ _ _ _ _ _ _ H) as (s1 & -> & H1).
  unfold heap_of. rewrite (at_w _ _ _ _ _ _ H1), X. cbn [xopt]. eexists. split; [reflexivity|]. eapply world_at, H1.
Qed.
Lemma ex_isnull ip l w G v s : at_ A ip (l ++ [v]) w G s ->
  exists s', exec_op E P OP_ISNULL [] s = XOk s' /\ at_ A ip (l ++ [VBool (is_none v)]) w G s'.
Proof. intros H. gm H. destruct (xpop_at _ _ _ _ _ _ _ H) as (s1 & -> & H1). eexists. split; [reflexivity|apply push_at, H1]. Qed.
Lemma ex_invert ip l w G v s : at_ A ip (l ++ [v]) w G s ->
  exists s', exec_op E P OP_INVERT [] s = xval s' (invert v) /\ at_ A ip l w G s'.
Proof. intros H. gm H. destruct (xpop_at _ _ _ _ _ _ _ H) as (s1 & -> & H1). eexists. split; [reflexivity|exact H1]. Qed.
Lemma ex_not ip l w G v s : at_ A ip (l ++ [v]) w G s ->
  exists s', exec_op E P OP_NOT [] s = xval s' (op_not v) /\ at_ A ip l w G s'.
Proof. intros H. gm H. destruct (xpop_at _ _ _ _ _ _ _ H) as (s1 & -> & H1). eexists. split; [reflexivity|exact H1]. Qed.
Lemma ex_binop ip l w G op a b s : at_ A ip (l ++ [a; b]) w G s ->
  exists s', exec_op E P (binop_code op) [] s = xval s' (binop a (binop_code op) b) /\ at_ A ip l w G s'.
Proof.
  intros H. assert (X : exec_op E P (binop_code op) [] s = xpop s (fun r s => xpop s (fun l s => xval s (binop l (binop_code op) r)))).
  { gm H. destruct op; reflexivity. }
  rewrite X. change [a; b] with ([a] ++ [b]) in H. rewrite app_assoc in H.
  destruct (xpop_at _ _ _ _ _ _ _ H) as (s1 & -> & H1). destruct (xpop_at _ _ _ _ _ _ _ H1) as (s2 & -> & H2).
  exists s2. split; [reflexivity|exact H2].
Qed.
Lemma ex_index_get ip l w G t i s : at_ A ip (l ++ [t; i]) w G s ->
  exists s', exec_op E P OP_INDEX_GET [] s = xval s' (index_get E (w_heap w) t i) /\ at_ A ip l w G s'.
Proof.
  intros H. gm H. change [t; i] with ([t] ++ [i]) in H. rewrite app_assoc in H.
  destruct (xpop_at _ _ _ _ _ _ _ H) as (s1 & -> & H1). destruct (xpop_at _ _ _ _ _ _ _ H1) as (s2 & -> & H2).
  exists s2. unfold heap_of. rewrite (at_w _ _ _ _ _ _ H2). split; [reflexivity|exact H2].
Qed.
Lemma ex_index_set ip l w G t i v s : at_ A ip (l ++ [t; i; v]) w G s ->
  exists s', exec_op E P OP_INDEX_SET [] s = xlift s' (index_set (w_heap w) t i v) (fun h => XOk (with_world s' (set_heap w h))) /\ at_ A ip l w G s'.
Proof.
  intros H. gm H. change [t; i; v] with ([t] ++ [i] ++ [v]) in H. rewrite !app_assoc in H.
  destruct (xpop_at _ _ _ _ _ _ _ H) as (s1 & -> & H1). destruct (xpop_at _ _ _ _ _ _ _ H1) as (s2 & -> & H2).
  destruct (xpop_at _ _ _ _ _ _ _ H2) as (s3 & -> & H3).
  exists s3. unfold heap_of. rewrite (at_w _ _ _ _ _ _ H3). split; [reflexivity|exact H3].
Qed.
Lemma ex_get_prop ip l w G t f s : at_ A ip (l ++ [t; f]) w G s ->
  exists s', exec_op E P GET_PROP [] s = xval s' (prop_get (w_heap w) t f) /\ at_ A ip l w G s'.
Proof.
  intros H. gm H. change [t; f] with ([t] ++ [f]) in H. rewrite app_assoc in H.
  destruct (xpop_at _ _ _ _ _ _ _ H) as (s1 & -> & H1). destruct (xpop_at _ _ _ _ _ _ _ H1) as (s2 & -> & H2).
  exists s2. unfold heap_of. rewrite (at_w _ _ _ _ _ _ H2). split; [reflexivity|exact H2].
Qed.
Lemma ex_set_prop ip l w G t i v s : at_ A ip (l ++ [t; i; v]) w G s ->
  exists s', exec_op E P SET_PROP [] s = xlift s' (prop_set (w_heap w) t i v) (fun h => XOk (with_world s' (set_heap w h))) /\ at_ A ip l w G s'.
Proof.
  intros H. gm H. change [t; i; v] with ([t] ++ [i] ++ [v]) in H. rewrite !app_assoc in H.
  destruct (xpop_at _ _ _ _ _ _ _ H) as (s1 & -> & H1). destruct (xpop_at _ _ _ _ _ _ _ H1) as (s2 & -> & H2).
  destruct (xpop_at _ _ _ _ _ _ _ H2) as (s3 & -> & H3).
  exists s3. unfold heap_of. rewrite (at_w _ _ _ _ _ _ H3). split; [reflexivity|exact H3].
Qed.
Lemma top_ip_at ip ip' l w G s : at_ A ip l w G s -> at_ A ip' l w G (set_top_ip s ip').
Proof.
  intros [c (la & f) st W Gl]. unfold set_top_ip. rewrite f. constructor; try assumption. cbn. eexists. reflexivity.
Qed.
Lemma ex_jump ip a l w G s : at_ A ip l w G s ->
  exists s', exec_op E P JUMP [a] s = XOk s' /\ at_ A a l w G s'.
Proof. intros H. gm H. eexists. split; [reflexivity|]. eapply top_ip_at, H. Qed.
Lemma ex_jump_if ip a l w G b s : at_ A ip (l ++ [VBool b]) w G s ->
  exists s', exec_op E P JUMP_IF_FALSE [a] s = XOk s' /\ at_ A (if b then ip else a) l w G s'.
Proof.
  intros H. gm H. destruct (xpop_at _ _ _ _ _ _ _ H) as (s1 & -> & H1). destruct b.
  - exists s1. split; [reflexivity|exact H1].
  - eexists. split; [reflexivity|]. eapply top_ip_at, H1.
Qed.
Lemma ex_unwrap0 ip l w G v s : at_ A ip (l ++ [v]) w G s ->
  exists s', exec_op E P OP_UNWRAP [0%N] s = (if is_none v then XErr ENull s' else XOk (op_push s' v)) /\ at_ A ip l w G s'.
Proof. intros H. gm H. change (0 =? 1)%N with false. cbv iota. destruct (xpop_at _ _ _ _ _ _ _ H) as (s1 & -> & H1). exists s1. split; [reflexivity|exact H1]. Qed.
Lemma ex_unwrap1 ip l w G v d s : at_ A ip (l ++ [v; d]) w G s ->
  exists s', exec_op E P OP_UNWRAP [1%N] s = XOk s' /\ at_ A ip (l ++ [if is_none v then d else v]) w G s'.
Proof.
  intros H. gm H. change (1 =? 1)%N with true. cbv iota. change [v; d] with ([v] ++ [d]) in H. rewrite app_assoc in H.
  destruct (xpop_at _ _ _ _ _ _ _ H) as (s1 & -> & H1). destruct (xpop_at _ _ _ _ _ _ _ H1) as (s2 & -> & H2).
  eexists. split; [reflexivity|apply push_at, H2].
Qed.
Lemma ex_cast ip l w G v t b s : at_ A ip (l ++ [v; VType t]) w G s ->
  exists s', exec_op E P CAST [if b : bool then 1%N else 0%N] s =
    (if b then xopt (get_type v) (fun vt => if vty_eqb vt t then XOk (op_push s' v) else XErr (ECheckCast vt t) s')
     else xval s' (vcast E (w_heap w) v t)) /\ at_ A ip l w G s'.
Proof.
  intros H. gm H. change [v; VType t] with ([v] ++ [VType t]) in H. rewrite app_assoc in H.
  destruct (xpop_at _ _ _ _ _ _ _ H) as (s1 & -> & H1). cbn [take_type xlift]. destruct (xpop_at _ _ _ _ _ _ _ H1) as (s2 & -> & H2).
  exists s2. unfold heap_of. rewrite (at_w _ _ _ _ _ _ H2). destruct b; split; try reflexivity; exact H2.
Qed.
Lemma ex_build_str ip l w G vs ts s : at_ A ip (l ++ vs) w G s -> opt_map (show E (w_heap w)) vs = Some ts ->
  exists s', exec_op E P BUILD_STR [N.of_nat (List.length vs)] s = XOk s' /\ at_ A ip (l ++ [VStr (List.concat ts)]) w G s'.
Proof.
  intros H X. gm H. destruct (slice_at _ _ _ _ _ _ _ H) as (S1 & S2).
  replace (Z.of_N (N.of_nat (List.length vs))) with (zlen vs) by (unfold zlen; lia). rewrite S1. cbn [xopt].
  unfold heap_of. rewrite (at_w _ _ _ _ _ _ H), X. cbn [xopt]. eexists. split; [reflexivity|]. rewrite S2.
  apply push_at. eapply trunc_at, H.
Qed.
Lemma ex_build_vec ip l w G vs s : at_ A ip (l ++ vs) w G s ->
  exists s', exec_op E P BUILD_VEC [N.of_nat (List.length vs)] s = XOk s' /\
    at_ A ip (l ++ [VVec (snd (halloc w (CVec vs)))]) (fst (halloc w (CVec vs))) G s'.
Proof.
  intros H. gm H. destruct (slice_at _ _ _ _ _ _ _ H) as (S1 & S2).
  rewrite (at_w _ _ _ _ _ _ H).
  destruct vs as [|v vs].
  - cbn [List.length N.of_nat]. change (0 =? 0)%N with true. cbv iota. destruct (halloc w (CVec [])) as [w' loc] eqn:EH. cbn [fst snd].
    eexists. split; [reflexivity|]. apply push_at. rewrite app_nil_r in H. eapply world_at, H.
  - replace (N.of_nat (List.length (v :: vs)) =? 0)%N with false by (cbn [List.length]; lia). cbv iota.
    replace (Z.of_N (N.of_nat (List.length (v :: vs)))) with (zlen (v :: vs)) by (unfold zlen; lia). rewrite S1. cbn [xopt].
    destruct (halloc w (CVec (v :: vs))) as [w' loc] eqn:EH. cbn [fst snd]. eexists. split; [reflexivity|].
    apply trunc_top. rewrite S2. apply push_at. exact (cut_at _ _ _ _ _ _ _ (world_at _ _ _ _ w' _ _ H)).
Qed.
Fixpoint pairs_of (fs : list (text * value)) : list value :=
  match fs with [] => [] | (n, v) :: r => VStr n :: v :: pairs_of r end.
Lemma pair_up_of fs : forall acc, pair_up (pairs_of fs) acc = ROk (fold_left (fun st p => assoc_set st (fst p) (snd p)) fs acc).
Proof. induction fs as [|[n v] fs IH]; intros acc; cbn; [reflexivity|]. apply IH. Qed.
Lemma pairs_of_len fs : List.length (pairs_of fs) = (2 * List.length fs)%nat.
Proof. induction fs as [|[n v] fs IH]; cbn; [reflexivity|]. rewrite IH. lia. Qed.
Lemma ex_build_obj ip l w G rn rf fs s : at_ A ip (l ++ pairs_of fs ++ [VRegisto rn rf]) w G s ->
  exists s', exec_op E P BUILD_OBJ [N.of_nat (List.length fs)] s = XOk s' /\
    at_ A ip (l ++ [VObj (snd (halloc w (CObj rn (fields_of fs))))]) (fst (halloc w (CObj rn (fields_of fs)))) G s'.
Proof.
  intros H. gm H. rewrite app_assoc in H. destruct (xpop_at _ _ _ _ _ _ _ H) as (s1 & -> & H1).
  destruct (slice_at _ _ _ _ _ _ _ H1) as (S1 & S2). rewrite (at_w _ _ _ _ _ _ H1).
  destruct fs as [|p fs].
  - cbn [List.length N.of_nat]. change (0 =? 0)%N with true. cbv iota. change (fields_of []) with (@nil (text * value)). destruct (halloc w (CObj rn [])) as [w' loc] eqn:EH. cbn [fst snd].
    eexists. split; [reflexivity|]. apply push_at. cbn [pairs_of] in H1. rewrite app_nil_r in H1. eapply world_at, H1.
  - replace (N.of_nat (List.length (p :: fs)) =? 0)%N with false by (cbn [List.length]; lia). cbv iota.
    replace (Z.of_N (N.of_nat (List.length (p :: fs))) * 2)%Z with (zlen (pairs_of (p :: fs))) by (unfold zlen; rewrite pairs_of_len; lia).
    rewrite S1. cbn [xopt]. rewrite pair_up_of. cbn [xlift]. fold (fields_of (p :: fs)).
    destruct (halloc w (CObj rn (fields_of (p :: fs)))) as [w' loc] eqn:EH. cbn [fst snd]. eexists. split; [reflexivity|].
    apply push_at. rewrite S2. pose proof (drain_at _ _ _ _ _ _ _ H1) as D. exact (world_at _ _ _ _ w' _ _ D).
Qed.
Lemma wrap8 n : (Z.of_N n < 2 ^ 64)%Z -> wrap 8 (Z.of_N n) = n.
Proof. intros H. unfold wrap. rewrite Z.mod_small; [apply N2Z.id|]. change (8 * Z.of_nat 8)%Z with 64%Z. lia. Qed.
Lemma ex_build_variant ip l w G vs t s : at_ A ip (l ++ vs ++ [VInt (Z.of_N t)]) w G s -> (Z.of_N t < 2 ^ 64)%Z ->
  exists s', exec_op E P BUILD_VARIANT [N.of_nat (List.length vs)] s = XOk s' /\
    at_ A ip (l ++ [VVariant t (match vs with [] => None | _ => Some vs end)]) w G s'.
Proof.
  intros H L. gm H. rewrite app_assoc in H. destruct (xpop_at _ _ _ _ _ _ _ H) as (s1 & -> & H1). cbn [take_int xlift].
  rewrite wrap8 by exact L. destruct (slice_at _ _ _ _ _ _ _ H1) as (S1 & S2).
  destruct vs as [|v vs].
  - cbn [List.length N.of_nat]. change (0 =? 0)%N with true. cbv iota. eexists. split; [reflexivity|]. apply push_at. rewrite app_nil_r in H1. exact H1.
  - replace (N.of_nat (List.length (v :: vs)) =? 0)%N with false by (cbn [List.length]; lia). cbv iota.
    replace (Z.of_N (N.of_nat (List.length (v :: vs)))) with (zlen (v :: vs)) by (unfold zlen; lia).
    rewrite S1. cbn [xopt]. eexists. split; [reflexivity|]. apply push_at. rewrite S2. eapply drain_at, H1.
Qed.
Lemma ex_match_variant ip l w G a t vs s : at_ A ip (l ++ [VVariant t vs]) w G s ->
  exists s', exec_op E P MATCH_VARIANT [a] s = XOk s' /\ at_ A ip (l ++ [VBool (a =? t)%N]) w G s'.
Proof. intros H. gm H. destruct (xpop_at _ _ _ _ _ _ _ H) as (s1 & -> & H1). eexists. split; [reflexivity|]. apply push_at, H1. Qed.
(** Storing the arguments of a variant into slots. *)
Fixpoint bind_slots (loc : list value) (ks : list N) (vs : list value) : list value :=
  match ks, vs with
  | k :: ks, v :: vs => bind_slots (list_set loc (N.to_nat k) v) ks vs
  | _, _ => loc
  end.
Lemma bind_slots_length ks : forall loc vs, List.length (bind_slots loc ks vs) = List.length loc.
Proof. induction ks as [|k ks IH]; intros loc [|v vs]; cbn; try reflexivity. rewrite IH. apply list_set_length. Qed.
Lemma ex_bind_args ip base loc ops w G ks t vs s :
  at_ A ip ((base ++ loc ++ ops) ++ VVariant t (Some vs) :: map (fun k => VInt (Z.of_N k)) ks) w G s -> q_bp A = zlen base ->
  ks <> [] -> (List.length ks <= List.length vs)%nat -> Forall (fun k => (N.to_nat k < List.length loc)%nat) ks ->
  exists s', exec_op E P BIND_MATCH_ARGS [N.of_nat (List.length ks)] s = XOk s' /\
    at_ A ip (base ++ bind_slots loc ks vs ++ ops) w G s'.
Proof.
  intros H B NE LE F. gm H. clear NE.
  replace ((base ++ loc ++ ops) ++ VVariant t (Some vs) :: map (fun k => VInt (Z.of_N k)) ks)
    with (((base ++ loc ++ ops) ++ [VVariant t (Some vs)]) ++ map (fun k => VInt (Z.of_N k)) ks) in H by (rewrite <- app_assoc; reflexivity).
  destruct (slice_at _ _ _ _ _ _ _ H) as (S1 & S2).
  replace (Z.of_N (N.of_nat (List.length ks))) with (zlen (map (fun k => VInt (Z.of_N k)) ks)) by (unfold zlen; rewrite map_length; lia).
  rewrite S1. cbn [xopt]. rewrite S2. pose proof (drain_at _ _ _ _ _ _ _ H) as D.
  destruct (xpop_at _ _ _ _ _ _ _ D) as (s1 & -> & H1). clear H D S1 S2.
  assert (X : forall i loc s1, (i + List.length ks <= List.length vs)%nat -> Forall (fun k => (N.to_nat k < List.length loc)%nat) ks ->
    at_ A ip (base ++ loc ++ ops) w G s1 -> exists s',
    (fix bind (idxs : list value) (i : nat) (s : state) : xres :=
             match idxs with
             | [] => XOk s
             | iv :: r =>
                 xlift s (take_int iv) (fun idx =>
                 xopt (nth_error vs i) (fun v =>
                 xopt (vset (s_vals s) (top_bp s + idx) v) (fun vs =>
                 bind r (Datatypes.S i) (with_stack s vs (s_sp s)))))
             end) (map (fun k => VInt (Z.of_N k)) ks) i s1 = XOk s' /\
      at_ A ip (base ++ bind_slots loc ks (skipn i vs) ++ ops) w G s').
  2:{ exact (X O loc s1 LE F H1). }
  clear loc s1 LE F H1. induction ks as [|k ks IH]; intros i loc s1 LE F H1.
  - cbn. exists s1. split; [reflexivity|]. destruct (skipn i vs); exact H1.
  - cbn [map take_int xlift]. apply Forall_cons_iff in F as (Fk & F).
    destruct (nth_error vs i) as [v|] eqn:V; [|exfalso; apply nth_error_None in V; cbn [List.length] in LE; lia].
    cbn [xopt]. destruct H1 as [c (la & f) (j & Vs & Pp) W Gl].
    assert (T : top_bp s1 = zlen base) by (unfold top_bp; rewrite f; exact B). rewrite T, Vs.
    unfold vset. pose proof (zlen_nonneg base). pose proof (zlen_nonneg ops). pose proof (zlen_nonneg j).
    replace (_ || _)%bool with false by (rewrite !zlen_app; unfold zlen in *; lia). cbn [xopt].
    replace (Z.to_nat (zlen base + Z.of_N k)) with (List.length base + N.to_nat k)%nat by (unfold zlen; lia).
    rewrite <- !app_assoc, list_set_app2, list_set_app1 by lia.
    assert (SK : skipn i vs = v :: skipn (Datatypes.S i) vs).
    { clear - V. revert i V. induction vs as [|x vs IH]; intros [|i] V; cbn in V; try discriminate; [injection V as ->; reflexivity|]. cbn [skipn]. rewrite (IH i V). reflexivity. }
    rewrite SK. cbn [bind_slots].
    apply IH; [cbn [List.length] in LE; lia|eapply Forall_impl; [|exact F]; intros q Hq; rewrite list_set_length; exact Hq|].
    constructor; cbn; eauto. exists j. rewrite <- !app_assoc. split; [reflexivity|]. rewrite Pp, !zlen_app. unfold zlen. rewrite list_set_length. reflexivity.
Qed.
(** Local variables. *)
Lemma ex_get_local ip base loc ops w G k v s : at_ A ip (base ++ loc ++ ops) w G s -> q_bp A = zlen base ->
  nth_error loc (N.to_nat k) = Some v ->
  exists s', exec_op E P GET_LOCAL [k] s = XOk s' /\ at_ A ip ((base ++ loc ++ ops) ++ [v]) w G s'.
Proof.
  intros H B X. gm H. destruct H as [c (la & f) (j & V & Pp) W Gl] eqn:EH. clear EH.
  assert (T : top_bp s = zlen base) by (unfold top_bp; rewrite f; exact B). rewrite T, V.
  assert (Y : vget ((base ++ loc ++ ops) ++ j) (Z.of_N k + zlen base) = Some v).
  { unfold vget. pose proof (zlen_nonneg base). replace (_ <? 0)%Z with false by lia.
    replace (Z.to_nat (Z.of_N k + zlen base)) with (List.length base + N.to_nat k)%nat by (unfold zlen; lia).
    rewrite <- !app_assoc, nth_error_app2 by lia. replace (List.length base + N.to_nat k - List.length base)%nat with (N.to_nat k) by lia.
    apply nth_error_prefix, X. }
  rewrite Y. cbn [xopt]. eexists. split; [reflexivity|]. apply push_at. constructor; eauto.
Qed.
Lemma ex_set_local ip base loc ops w G k v s : at_ A ip ((base ++ loc ++ ops) ++ [v]) w G s -> q_bp A = zlen base ->
  (N.to_nat k < List.length loc)%nat ->
  exists s', exec_op E P SET_LOCAL [k] s = XOk s' /\ at_ A ip (base ++ list_set loc (N.to_nat k) v ++ ops) w G s'.
Proof.
  intros H B X. gm H. destruct (xpop_at _ _ _ _ _ _ _ H) as (s1 & -> & [c (la & f) (j & V & Pp) W Gl]).
  assert (T : top_bp s1 = zlen base) by (unfold top_bp; rewrite f; exact B). rewrite T, V.
  unfold vset. pose proof (zlen_nonneg base). pose proof (zlen_nonneg ops). pose proof (zlen_nonneg j).
  replace (_ || _)%bool with false by (rewrite !zlen_app; unfold zlen in *; lia). cbn [xopt].
  eexists. split; [reflexivity|]. constructor; cbn; eauto.
  exists j. rewrite Pp.
  replace (Z.to_nat (Z.of_N k + zlen base)) with (List.length base + N.to_nat k)%nat by (unfold zlen; lia).
  rewrite <- !app_assoc, list_set_app2, list_set_app1 by lia. split; [reflexivity|].
  rewrite !zlen_app. unfold zlen. rewrite list_set_length. reflexivity.
Qed.
(** Native functions. *)
Lemma ex_native ip l w G vs b s : at_ A ip (l ++ vs ++ [VNative b]) w G s ->
  exists s', (match native E b vs w with
    | ROk (v, w') => exec_op E P CALL_FUNCTION [N.of_nat (List.length vs)] s = XOk s' /\ at_ A ip (l ++ [v]) w' G s'
    | RErr e => exec_op E P CALL_FUNCTION [N.of_nat (List.length vs)] s = XErr e s' /\ s_world s' = w
    | RPanic => True end).
Proof.
  intros H. assert (X : exec_op E P CALL_FUNCTION [N.of_nat (List.length vs)] s = call_function E s (N.of_nat (List.length vs))) by (gm H; reflexivity).
  rewrite X. unfold call_function. rewrite app_assoc in H. destruct (xpop_at _ _ _ _ _ _ _ H) as (s1 & -> & H1).
  replace (Z.of_N (N.of_nat (List.length vs))) with (zlen vs) by (unfold zlen; lia).
  destruct (slice_at _ _ _ _ _ _ _ H1) as (S1 & S2).
  assert (ST : (if (0 <? zlen vs)%Z then (s_sp s1 - (zlen vs - 1))%Z else (s_sp s1 + 1)%Z) = zlen l).
  { rewrite S2. destruct (0 <? zlen vs)%Z eqn:Z0; [reflexivity|]. pose proof (zlen_nonneg vs). lia. }
  rewrite ST.
  assert (SL : (if (0 <? zlen vs)%Z then slice (s_vals s1) (zlen l) (s_sp s1) else Some []) = Some vs).
  { destruct (0 <? zlen vs)%Z eqn:Z0; [rewrite <- S1, S2; reflexivity|]. destruct vs; [reflexivity|]. unfold zlen in Z0. cbn [List.length] in Z0. lia. }
  rewrite SL. cbn [xopt s_world with_stack]. rewrite (at_w _ _ _ _ _ _ H1).
  destruct (native E b vs w) as [[v w']|e|]; cbn [xlift].
  - eexists. split; [reflexivity|]. apply trunc_top, push_at. exact (world_at _ _ _ _ w' _ _ (cut_at _ _ _ _ _ _ _ H1)).
  - eexists. split; [reflexivity|]. cbn. apply H1.
  - exists s1. exact I.
Qed.

(** Calling a function written in Amanda. *)
Lemma ex_call ip l w G vs f s : at_ A ip (l ++ vs ++ [VFunc f]) w G s ->
  (List.length vs <= N.to_nat (fn_locals f))%nat -> (fn_mod f = None -> q_m A = None) ->
  (exists s', (recursion_limit <= Datatypes.S (List.length (q_fr A)))%nat /\
     exec_op E P CALL_FUNCTION [N.of_nat (List.length vs)] s = XErr ERecursion s' /\ s_world s' = w) \/
  (exists s' la bp loc, (Datatypes.S (List.length (q_fr A)) < recursion_limit)%nat /\
     exec_op E P CALL_FUNCTION [N.of_nat (List.length vs)] s = XOk s' /\
     at_ (mkFC (fn_mod f) (fn_name f) bp (fn_mod f) (mkFrame (q_nm A) ip la (q_bp A) (q_fm A) :: q_fr A))
         (fn_start f) (l ++ loc) w G s' /\
     (N.to_nat (fn_locals f) <= List.length loc)%nat /\ prefix vs loc /\
     (bp = zlen l \/ bp = (-1)%Z /\ fn_locals f = 0%N /\ loc = [])).
Proof.
  intros H L FM. assert (X : exec_op E P CALL_FUNCTION [N.of_nat (List.length vs)] s = call_function E s (N.of_nat (List.length vs))) by (gm H; reflexivity).
  rewrite X. unfold call_function. rewrite app_assoc in H. destruct (xpop_at _ _ _ _ _ _ _ H) as (s1 & -> & H1).
  replace (Z.of_N (N.of_nat (List.length vs))) with (zlen vs) by (unfold zlen; lia).
  destruct (slice_at _ _ _ _ _ _ _ H1) as (S1 & S2). clear S1. rewrite S2.
  pose proof H1 as [c (la & fr) (j & V & Pp) W Gl].
  assert (LZ : zlen vs = Z.of_nat (List.length vs)) by reflexivity.
  assert (K : exists bp s2 loc, (let '(bp, so) := (if (0 <? zlen vs)%Z
        then (zlen l, if (fn_locals f <? N.of_nat (Datatypes.length vs))%N then None else Some (reserve s1 (fn_locals f - N.of_nat (Datatypes.length vs))))
        else if (0 <? fn_locals f)%N then ((s_sp s1 + 1)%Z, Some (reserve s1 (fn_locals f))) else ((-1)%Z, Some s1)) in (bp, so)) = (bp, Some s2) /\
      at_ A ip (l ++ loc) w G s2 /\ s_frames s2 = s_frames s1 /\ (N.to_nat (fn_locals f) <= List.length loc)%nat /\ prefix vs loc /\
      (bp = zlen l \/ bp = (-1)%Z /\ fn_locals f = 0%N /\ loc = [])).
  { destruct vs as [|v0 vs0] eqn:EV.
    - replace (0 <? zlen [])%Z with false by reflexivity. rewrite app_nil_r in V, Pp.
      destruct (0 <? fn_locals f)%N eqn:L0.
      + exists (s_sp s1 + 1)%Z, (reserve s1 (fn_locals f)), (j ++ repeat VNone (N.to_nat (fn_locals f))).
        split; [reflexivity|]. split; [|split; [reflexivity|split; [rewrite app_length, repeat_length; lia|split; [eexists; reflexivity|left; rewrite Pp; lia]]]].
        constructor; cbn; eauto. exists []. rewrite V, app_nil_r, <- !app_assoc. split; reflexivity.
      + exists (-1)%Z, s1, []. split; [reflexivity|]. split; [exact H1|]. split; [reflexivity|].
        split; [cbn; lia|]. split; [exists []; reflexivity|right]. repeat split; lia.
    - rewrite <- EV in *. clear EV v0 vs0. replace (0 <? zlen vs)%Z with (negb (List.length vs =? 0)%nat) by lia.
      destruct (List.length vs =? 0)%nat eqn:EN.
      + apply Nat.eqb_eq in EN. apply length_zero_iff_nil in EN. subst vs. cbn [negb]. rewrite app_nil_r in V, Pp.
        destruct (0 <? fn_locals f)%N eqn:L0.
        * exists (s_sp s1 + 1)%Z, (reserve s1 (fn_locals f)), (j ++ repeat VNone (N.to_nat (fn_locals f))).
          split; [reflexivity|]. split; [|split; [reflexivity|split; [rewrite app_length, repeat_length; lia|split; [eexists; reflexivity|left; rewrite Pp; lia]]]].
          constructor; cbn; eauto. exists []. rewrite V, app_nil_r, <- !app_assoc. split; reflexivity.
        * exists (-1)%Z, s1, []. split; [reflexivity|]. split; [exact H1|]. split; [reflexivity|].
          split; [cbn; lia|]. split; [exists []; reflexivity|right]. repeat split; lia.
      + cbn [negb]. replace (fn_locals f <? N.of_nat (List.length vs))%N with false by lia.
        set (nn := (fn_locals f - N.of_nat (List.length vs))%N).
        exists (zlen l), (reserve s1 nn), (vs ++ j ++ repeat VNone (N.to_nat nn)).
        split; [reflexivity|]. split; [|split; [reflexivity|split; [rewrite !app_length, repeat_length; unfold nn; lia|split; [apply prefix_app|left; reflexivity]]]].
        constructor; cbn; eauto. exists []. rewrite V, app_nil_r, <- !app_assoc. split; reflexivity. }
  destruct K as (bp & s2 & loc & K & H2 & FR & LL & PF & BP).
  destruct (if (0 <? zlen vs)%Z then _ else _) as [bp' so]. injection K as -> ->. cbn [xopt].
  set (s3 := match fn_mod f with Some i => with_ctx s2 (Some i) | None => s2 end).
  assert (F3 : s_frames s3 = s_frames s1) by (unfold s3; destruct (fn_mod f); cbn; exact FR).
  assert (W3 : s_world s3 = w) by (unfold s3; destruct (fn_mod f); cbn; apply H2).
  rewrite F3, fr. cbn [List.length].
  destruct (Nat.leb recursion_limit (Datatypes.S (List.length (q_fr A)))) eqn:RL.
  - left. exists s3. split; [apply Nat.leb_le in RL; exact RL|]. split; [reflexivity|exact W3].
  - right. eexists _, la, bp, loc. apply Nat.leb_gt in RL. split; [exact RL|]. split; [reflexivity|].
    split; [|split; [exact LL|split; [exact PF|exact BP]]].
    destruct H2 as [c2 fr2 st2 W2 G2]. constructor; cbn.
    + unfold s3. destruct (fn_mod f); [reflexivity|]. rewrite c2. apply FM. reflexivity.
    + eexists. reflexivity.
    + unfold s3. destruct (fn_mod f); exact st2.
    + exact W3.
    + unfold s3. destruct (fn_mod f); exact G2.
Qed.
End Ops.

(** Returning. *)
Lemma ex_return A B vmod ip ip0 la l rest w G v s : get_module P (q_m B) = Some vmod ->
  at_ B ip ((l ++ rest) ++ [v]) w G s ->
  q_fr B = mkFrame (q_nm A) ip0 la (q_bp A) (q_fm A) :: q_fr A -> q_fm A = q_m A ->
  (q_bp B = zlen l \/ q_bp B = (-1)%Z /\ rest = []) ->
  exists s', exec_op E P RETURN [] s = XOk s' /\ at_ A ip0 (l ++ [v]) w G s'.
Proof.
  intros GM H F FM BP. unfold exec_op. rewrite (at_ctx _ _ _ _ _ _ H), GM. cbn [xopt].
  unfold do_return. destruct (xpop_at _ _ _ _ _ _ _ H) as (s1 & -> & [c (la1 & fr) (j & V & Pp) W Gl]).
  rewrite fr, F. cbn [f_bp f_mod]. eexists. split; [reflexivity|].
  assert (Hc : at_ (mkFC (q_m B) (q_nm A) (q_bp A) (q_fm A) (q_fr A)) ip0 l w G
    (with_frames (with_stack s1 (s_vals s1) (if (-1 <? q_bp B)%Z then (q_bp B - 1)%Z else s_sp s1)) (mkFrame (q_nm A) ip0 la (q_bp A) (q_fm A) :: q_fr A))).
  { constructor; cbn; eauto. exists (rest ++ j). rewrite V, app_assoc. split; [reflexivity|].
    destruct BP as [-> | [-> ->]].
    - pose proof (zlen_nonneg l). replace (-1 <? zlen l)%Z with true by lia. reflexivity.
    - change (-1 <? -1)%Z with false. cbv iota. rewrite Pp, app_nil_r. reflexivity. }
  apply (push_at _ _ _ _ _ _ v) in Hc. destruct Hc as [c' f' st' W' G']. constructor; cbn in *; auto.
Qed.
End Run.
