(** Function bodies, loops and the induction on the interpreter's fuel. *)
From Verif Require Import Base BaseFacts Bson BsonFacts Opcode Spec_Opcode OpcodeFacts Dec Float Value Spec_Value ValueFacts
  Ast Spec_Tables TableFacts CodeGen VM GenFacts Sem SemWf GenLocals SimVM Sim SimRel SimFrame Compile SemProg SimNode.

Section Fun.
Variable E : ext.
Variable P : program.
Variable S : senv.
Variable fof : option N -> text -> option afunc.
Variable bi : N.
Hypothesis HF : forall m n, se_fun S m n = None -> fof m n = None.

(** The machine's function [f] holds the code generated for [fd]. *)
Record fn_code (mm : option N) (fd : fundef) (f : afunc) (C : gctx) (F : gst) (vm : vmodule) (ps : list (text * sym)) (sa sb sc : gst) : Prop := mkFnCode {
  fc_mod : modok P S bi mm C F vm;
  fc_fm : fn_mod f = mm;
  fc_start : fn_start f = g_ip sa;
  fc_gen : seqm (gen C) (fd_body fd) sa = PyOk sb;
  fc_ip : ipok sa;
  fc_end : load_const (leave sb) (CText (txt "falso")) = PyOk sc;
  fc_fin : fin (List.length (g_labels sa)) (append_op sc RETURN []) F (g_locals sb);
  fc_loc : fn_locals f = N.of_nat (List.length (g_locals sb));
  fc_par : map fst ps = fd_params fd;
  fc_numb : numb (g_locals sb);
  fc_nd : NoDup (gouts [ps]);
  fc_slot : forall i p, nth_error ps i = Some p -> assoc (sy_out (snd p)) (g_locals sb) = Some (N.of_nat i);
  fc_len : (List.length ps <= List.length (g_locals sb))%nat;
  fc_wf : wf_seq (fun g y => wf S C mm true false g (g_scopes sa) y) (decls (g_scopes sa)) [[]; ps] (fd_body fd) = true;
  fc_clean : g_locals sb = [] -> lclean (fd_body fd) = true
}.
Definition fn_ok mm fd f : Prop := exists C F vm ps sa sb sc, fn_code mm fd f C F vm ps sa sb sc.
Hypothesis HFun : forall mm n fd, se_fun S mm n = Some fd -> exists f, fof mm n = Some f /\ fn_ok mm fd f.

(** Loops, in any frame. *)
Definition loops_ok (n : nat) : Prop := forall A C F vm Lf base nloc calls,
  modok P S bi (q_m A) C F vm -> (Lf = [] \/ q_bp A = zlen base /\ (List.length Lf <= nloc)%nat) -> numb Lf ->
  (calls = true -> q_fm A = q_m A) ->
  (forall ln cnd b, NSk E P S fof bi A C F Lf base nloc calls n (fun x c => exec E S n (Again x) (q_m A) (Datatypes.S (List.length (q_fr A))) c) (NEnquanto ln cnd b)) /\
  (forall x, TSk E P S fof bi A C F Lf base nloc calls n (fun x c => exec E S n (Test x) (q_m A) (Datatypes.S (List.length (q_fr A))) c) x).

Lemma params_rel vs loc Lf ps : forall k, (forall i p, nth_error ps i = Some p -> assoc (sy_out (snd p)) Lf = Some (N.of_nat (k + i))) ->
  List.length vs = List.length ps -> (forall i v, nth_error vs i = Some v -> nth_error loc (k + i) = Some v) ->
  scope_rel Lf loc ps (List.combine (map fst ps) vs).
Proof.
  revert vs. induction ps as [|p ps IH]; intros [|v vs] k HS L HV; try discriminate L; [constructor|]. cbn.
  constructor.
  - split; [reflexivity|]. exists (N.of_nat k). cbn. split.
    + rewrite (HS O p eq_refl). f_equal. lia.
    + rewrite Nat2N.id. rewrite <- (HV O v eq_refl). f_equal. lia.
  - apply (IH vs (Datatypes.S k)).
    + intros i q Q. rewrite (HS (Datatypes.S i) q Q). f_equal. lia.
    + cbn in L. lia.
    + intros i w W. rewrite <- (HV (Datatypes.S i) w W). f_equal. lia.
Qed.

Lemma body_step n : loops_ok n -> body_ok E P S fof bi (exec E S n) n -> body_ok E P S fof bi (exec E S (Datatypes.S n)) (Datatypes.S n).
Proof.
  intros HL HB mm nm fd SF. destruct (HFun _ _ _ SF) as (f & FO & C & F & vm & ps & sa & sb & sc & FC).
  exists f. split; [exact FO|]. split; [apply FC|]. split.
  { rewrite <- (fc_par _ _ _ _ _ _ _ _ _ _ FC), map_length, (fc_loc _ _ _ _ _ _ _ _ _ _ FC), Nat2N.id. apply FC. }
  split; [exists vm; apply (mo_get _ _ _ _ _ _ _ (fc_mod _ _ _ _ _ _ _ _ _ _ FC))|].
  destruct FC as [HM FM FS FG FI FE FF FL FP FN FD FK FZ FW FCl].
  intros bp fr l loc vs c G s B H GR KL LV PV LE BP.
  change (exec E S (Datatypes.S n) (Body (fd_body fd)) mm (Datatypes.S (List.length fr)) c) with
    (popr (run_seq (ev E S (exec E S n) mm (Datatypes.S (List.length fr))) (fd_body fd) (push_scope c []))).
  assert (HS : g_locals sb = [] \/ q_bp B = zlen l /\ (List.length (g_locals sb) <= List.length loc)%nat).
  { destruct BP as [BP|(BP & L0 & _)]; [right; split; [exact BP|lia]|left]. rewrite FL in L0. destruct (g_locals sb); [reflexivity|cbn in L0; lia]. }
  assert (HCC : true = true -> q_fm B = q_m B) by reflexivity.
  destruct (HL B C F vm (g_locals sb) l (List.length loc) true HM HS FN HCC) as [HA HT].
  assert (H0 : here P fof bi B (g_locals sb) l (List.length loc) [[]; ps] (g_ip sa) [] (push_scope c []) s).
  { exists loc, G. split; [reflexivity|]. split; [exact GR|]. split.
    - cbn [push_scope k_l set_l]. rewrite KL, <- FP. apply env_push. split.
      + constructor; [|constructor]. apply (params_rel vs loc (g_locals sb) ps O).
        * exact FK.
        * rewrite LV, <- FP, map_length. reflexivity.
        * intros i v V. destruct PV as [t ->]. cbn [Nat.add]. rewrite nth_error_app1; [exact V|]. apply nth_error_Some. congruence.
      + exact FD.
    - rewrite app_nil_r. rewrite <- FS. exact H. }
  assert (NI : forallb noig (fd_body fd) = true) by (eapply wn_seq; [apply Forall_forall; intros; apply wf_noig|exact FW]).
  assert (MV : mv (fun _ => False) sa sb) by (eapply mv_seq; eassumption).
  assert (I2 : ipok sb) by (eapply mv_ip; eassumption).
  assert (MC : mv (fun _ => False) (leave sb) sc) by (eapply mv_load_const; eassumption).
  eapply sim_then; [eapply (pop_post E P fof bi B F (g_locals sb) l (List.length loc));
    eapply (seq_sim E P S fof bi B C F (g_locals sb) l (List.length loc) true n (exec E S n)) with (s1 := sa) (s2 := sb) (lp := false);
     [|exact FW|reflexivity|exact FG|exact FI| |exact H0]|].
  2:{ eapply fin_mv; [|apply Nat.le_refl|exact FF].
      eapply mv_trans; [apply (mv_leave _ sb)|]. eapply mv_trans; [eapply mv_load_const, FE|apply mv_op]. }
  1:{ apply Forall_forall. intros x _. eapply (node_sim E P S fof bi HF B C F vm (g_locals sb) l (List.length loc) true HM HS FN HCC n (exec E S n)); eauto. }
  intros o c' s' X.
  assert (CLN : (bp = zlen l -> False) -> loc = [] /\ lclean (fd_body fd) = true /\ bp = (-1)%Z).
  { intros NB. destruct BP as [BP|(BP & L0 & L1)]; [contradiction|]. split; [exact L1|]. split; [|exact BP]. apply FCl. rewrite FL in L0. destruct (g_locals sb); [reflexivity|cbn in L0; lia]. }
  assert (FIN : forall j v ip c2 s2 o2, (lclean (fd_body fd) = true -> j = []) -> fetch_at P mm ip RETURN [] -> (o2 = ORet v \/ o2 = ONorm /\ v = VBool false) ->
     here P fof bi B (g_locals sb) l (List.length loc) [ps] ip (j ++ [v]) c2 s2 -> bpost P fof bi B l o2 c2 s2).
  { intros j v ip c2 s2 o2 J FR OO (loc' & G' & LL & GR' & ER & H'). exists v, (loc' ++ j), ip, G'. split; [exact OO|]. split; [exact GR'|].
    split; [exact FR|]. split; [ateq H'|]. destruct (Z.eq_dec bp (zlen l)) as [Y|Y]; [left; exact Y|right].
    destruct (CLN Y) as (L0 & CL & BB). split; [exact BB|]. rewrite (J CL). subst loc. destruct loc'; [reflexivity|discriminate LL]. }
  destruct o; cbn in X.
  - destruct X as (j & J & X).
    assert (I3 : ipok sc) by (eapply mv_ip; [exact MC|exact I2]).
    assert (FF' : fin (List.length (g_labels sa)) sc F (g_locals sb)).
    { eapply fin_mv; [apply (mv_op _ sc RETURN [])|apply Nat.le_refl|exact FF]. }
    eapply sim_reach; [eapply (r_const E P S fof bi B C F vm (g_locals sb) l (List.length loc) HM); [exact FE|exact FF'|exact I2| |exact X]|].
    { intros v' K. apply falso_const, K. }
    cbn beta. intros s2 Y. apply sim_done. eapply FIN; [exact J| |right; split; reflexivity|exact Y].
    eapply (fetch_plain P S bi mm C F vm sc RETURN []); [exact HM|exact FF|exact I3|reflexivity|reflexivity].
  - destruct X. discriminate.
  - destruct X. discriminate.
  - destruct X. discriminate.
  - apply sim_done. destruct X as (j & ip & J & FR & X). eapply FIN; [exact J|exact FR|left; reflexivity|exact X].
Qed.
Theorem fuel_sim n : loops_ok n /\ body_ok E P S fof bi (exec E S n) n.
Proof.
  induction n as [|n [HL HB]].
  - split.
    + intros A C F vm Lf base nloc calls HM HS HN HC. split.
      * intros ln cnd b lp g scs s1 s2 st c s _ _ _ _ _ _. exists O, s. split; [lia|constructor].
      * intros x ln nm a b i sc ch -> lp g scs s1 s2 st c s cv al _ _ _ _ _ _ _ _. exists O, s. split; [lia|constructor].
    + intros mm nm fd SF. destruct (HFun _ _ _ SF) as (f & FO & C & F & vm & ps & sa & sb & sc & FC).
      exists f. split; [exact FO|]. split; [apply FC|]. split.
      { rewrite <- (fc_par _ _ _ _ _ _ _ _ _ _ FC), map_length, (fc_loc _ _ _ _ _ _ _ _ _ _ FC), Nat2N.id. apply FC. }
      split; [exists vm; apply (mo_get _ _ _ _ _ _ _ (fc_mod _ _ _ _ _ _ _ _ _ _ FC))|].
      intros. exists O, s. split; [lia|constructor].
  - split; [|apply body_step; assumption].
    intros A C F vm Lf base nloc calls HM HS HN HC. destruct (HL A C F vm Lf base nloc calls HM HS HN HC) as [HA HT]. split.
    + intros ln cnd b. exact (again_step E P S fof bi HF A C F vm Lf base nloc calls HM HS HN HC n (exec E S n) HB HA HT ln cnd b).
    + intros x. exact (test_step E P S fof bi HF A C F vm Lf base nloc calls HM HS HN HC n (exec E S n) HB HA HT x).
Qed.

(** The top-level statements of a module, in the frame [A]. *)
Theorem seq_fuel n A C F vm Lf base nloc calls l lp g s1 s2 st c s :
  modok P S bi (q_m A) C F vm -> (Lf = [] \/ q_bp A = zlen base /\ (List.length Lf <= nloc)%nat) -> numb Lf ->
  (calls = true -> q_fm A = q_m A) ->
  wf_seq (fun g y => wf S C (q_m A) calls lp g (g_scopes s1) y) (decls (g_scopes s1)) g l = true ->
  seqm (gen C) l s1 = PyOk s2 -> ipok s1 -> fin (List.length (g_labels s1)) s2 F Lf ->
  here P fof bi A Lf base nloc g (g_ip s1) st c s ->
  sim E P (Datatypes.S n) (run_seq (ev E S (exec E S n) (q_m A) (Datatypes.S (List.length (q_fr A)))) l c) s
    (lpost P fof bi A F Lf base nloc g (lclean l) lp (g_brk s1) (g_cont s1) (g_ip s2) st).
Proof.
  intros HM HS HN HC W GE I FI H. destruct (fuel_sim n) as [HL HB]. destruct (HL A C F vm Lf base nloc calls HM HS HN HC) as [HA HT].
  eapply (seq_sim E P S fof bi A C F Lf base nloc calls n (exec E S n)); [|exact W|reflexivity|exact GE|exact I|exact FI|exact H].
  apply Forall_forall. intros x _. exact (proj1 (node_sim E P S fof bi HF A C F vm Lf base nloc calls HM HS HN HC n (exec E S n) HB HA HT x)).
Qed.

(** One node, in the frame [A]. *)
Theorem node_fuel n A C F vm Lf base nloc calls x lp g s1 s2 st c s :
  modok P S bi (q_m A) C F vm -> (Lf = [] \/ q_bp A = zlen base /\ (List.length Lf <= nloc)%nat) -> numb Lf ->
  (calls = true -> q_fm A = q_m A) ->
  wf S C (q_m A) calls lp g (g_scopes s1) x = true ->
  gen C x s1 = PyOk s2 -> ipok s1 -> fin (List.length (g_labels s1)) s2 F Lf ->
  here P fof bi A Lf base nloc g (g_ip s1) st c s ->
  sim E P (Datatypes.S n) (ev E S (exec E S n) (q_m A) (Datatypes.S (List.length (q_fr A))) x c) s
    (npost P fof bi A F Lf base nloc g (decls (g_scopes s1) g x) (clean x) (negb (is_stmt x)) lp (g_brk s1) (g_cont s1) (g_ip s2) st).
Proof.
  intros HM HS HN HC W GE I FI H. destruct (fuel_sim n) as [HL HB]. destruct (HL A C F vm Lf base nloc calls HM HS HN HC) as [HA HT].
  apply (proj1 (node_sim E P S fof bi HF A C F vm Lf base nloc calls HM HS HN HC n (exec E S n) HB HA HT x)); auto.
Qed.
End Fun.
