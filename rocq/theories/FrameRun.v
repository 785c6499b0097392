(** Executions inside one frame do not touch what was on the stack before. *)
From Verif Require Import Base BaseFacts Bson Opcode OpcodeFacts Value ValueFacts Ast CodeGen VM Spec_Code Spec_Height HeightStep HeightRun Spec_Frame FrameStep.

Definition mapped (vm : vmodule) (l : list (N * opcode * list N)) (h : N -> nat) : Prop :=
  height_map (m_code vm) (map fn_start (m_funcs vm)) l h /\ (forall k o args, In (k, o, args) l -> falls o = true -> instr_at l (k + op_size o)%N) /\
  (forall k o args, In (k, o, args) l -> is_jump o = true -> exists t, args = [t] /\ instr_at l t) /\ (forall e, In e (map fn_start (m_funcs vm)) -> instr_at l e).
Section R.
Variables (E : ext) (P : program).
Lemma ret_args c a n : vm_fetch c = Some (RETURN, a, n) -> a = [].
Proof. destruct c as [|b c]; cbn; [discriminate|]. destruct (opcode_of_byte b) as [o'|]; [|discriminate]. destruct (take _ _) as [[x y]|]; [|discriminate]. intros H. injection H as -> <- _. reflexivity. Qed.
Lemma own_stays s s' : stays_own E P s s' -> stays E P s s'.
Proof.
  induction 1; [constructor|eapply st_step; eassumption|eapply st_call; try eassumption].
  match goal with H : entered P _ |- _ => destruct H as (f & r & vm & F & C & _) end. unfold at_home. rewrite F. exact C.
Qed.
Lemma fetch_at m l h f o args n : mapped m l h -> instr_at l (f_ip f) -> vm_fetch (skipn (N.to_nat (f_ip f)) (m_code m)) = Some (o, args, n) -> takes o args <= h (f_ip f).
Proof.
  intros ((DC & _ & _ & HX) & _) (o0 & a0 & IN) V. destruct (decodes_in _ _ _ DC _ _ _ IN) as (q & K & j & V' & _). rewrite N.add_0_l in K. rewrite K, Nat2N.id, V' in V. injection V as -> -> ->. apply (HX _ _ _ IN).
Qed.
Lemma step_kept k s s1 f r m o args n : step E P s = SNext s1 -> ~ leaves P s -> s_frames s = f :: r -> get_module P (s_ctx s) = Some m ->
  vm_fetch (skipn (N.to_nat (f_ip f)) (m_code m)) = Some (o, args, n) -> (k <= s_sp s + 1 - Z.of_nat (takes o args))%Z ->
  o <> BIND_MATCH_ARGS -> (o = SET_LOCAL -> k <= f_bp f)%Z -> kept k (s_vals s) (s_vals s1).
Proof.
  intros ST NL F G V L NB SL. destruct (step_fetch _ _ _ _ ST) as (f0 & r0 & m0 & o' & args' & n' & F0 & G0 & V0 & X). rewrite F in F0. injection F0 as <- <-. rewrite G in G0. injection G0 as <-. rewrite V in V0. injection V0 as <- <- <-.
  set (t := with_frames s _) in X. assert (NR : o <> RETURN).
  { intros ->. apply NL. exists f, r, m, n. split; [exact F|]. split; [exact G|]. rewrite V. rewrite (ret_args _ _ _ V). reflexivity. }
  destruct (opcode_dec o CALL_FUNCTION) as [->|NC].
  - unfold exec_op in X. cbn [t with_frames s_ctx] in X. rewrite G in X. cbn [xopt] in X. cbn [takes] in L.
    assert (K : kres k t (call_function E t (nth 0 args 0%N))) by (apply call_k; cbn [t with_frames s_sp]; lia). fold t in X. rewrite X in K. exact K.
  - assert (K : kres k t (exec_op E P o args t)) by (apply plain_k; auto). rewrite X in K. exact K.
Qed.
Lemma ret_kept k s s1 f g r : step E P s = SNext s1 -> leaves P s -> s_frames s = f :: g :: r -> (k <= s_sp s)%Z -> (0 <= f_bp f -> k <= f_bp f)%Z ->
  kept k (s_vals s) (s_vals s1) /\ exists v t, op_pop s = Some (v, t) /\ (0 <= s_sp s -> f_bp f <= s_sp s -> nth_error (s_vals s1) (Z.to_nat (s_sp s1)) = Some v)%Z.
Proof.
  intros ST (f0 & r0 & m & n & F0 & G & V) F L B. rewrite F in F0. injection F0 as <- <-.
  destruct (step_fetch _ _ _ _ ST) as (f1 & r1 & m1 & o & a & q & F1 & G1 & V1 & X). rewrite F in F1. injection F1 as <- <-. rewrite G in G1. injection G1 as <-. rewrite V in V1. injection V1 as <- <- <-.
  unfold exec_op in X. cbn [with_frames s_ctx] in X. rewrite G in X. cbn [xopt] in X. match type of X with do_return ?S = _ => set (t := S) in X end.
  destruct (op_pop t) as [[v t1]|] eqn:Q; [|unfold do_return, xpop in X; rewrite Q in X; discriminate X]. destruct (pop_frames' _ _ _ _ Q) as (t' & Q').
  destruct (return_k k t s1 _ g r v t1 eq_refl X Q L B) as (K1 & K2). split; [exact K1|]. exists v, t'. split; [exact Q'|]. exact K2.
Qed.
Lemma call_higher s s1 : step E P s = SNext s1 -> enters P s -> (s_sp s - 1 <= s_sp s1)%Z.
Proof.
  intros ST (args & fn & t & (f & r & m & n & F & G & V) & Q).
  destruct (step_fetch _ _ _ _ ST) as (f1 & r1 & m1 & o & a & q & F1 & G1 & V1 & X). rewrite F in F1. injection F1 as <- <-. rewrite G in G1. injection G1 as <-. rewrite V in V1. injection V1 as <- <- <-.
  unfold exec_op in X. cbn [with_frames s_ctx] in X. rewrite G in X. cbn [xopt] in X.
  eapply (pop_frames _ (mkFrame (f_name f) (f_ip f + N.of_nat n) (f_ip f) (f_bp f) (f_mod f) :: r)) in Q. exact (call_sp _ _ _ _ _ _ Q X).
Qed.
Hypothesis MAPS : forall m vm, get_module P m = Some vm -> exists l h, mapped vm l h.
(** What a call, up to its return, does. *)
Lemma call_whole s s1 t s2 f r vm l h base : enters P s -> step E P s = SNext s1 -> entered P s1 -> stays_own E P s1 t -> leaves P t -> (0 <= frame_bp s1 \/ s_sp t = s_sp s1 + 1)%Z -> step E P t = SNext s2 ->
  (forall f r vm l h base k, s_frames s1 = f :: r -> s_ctx s1 = f_mod f -> get_module P (s_ctx s1) = Some vm -> mapped vm l h -> instr_at l (f_ip f) -> (-1 <= base)%Z -> s_sp s1 = (base + Z.of_nat (h (f_ip f)))%Z ->
     (k <= base + 1)%Z -> (0 <= f_bp f -> k <= f_bp f)%Z -> kept k (s_vals s1) (s_vals t)) ->
  s_frames s = f :: r -> s_ctx s = f_mod f -> get_module P (s_ctx s) = Some vm -> mapped vm l h -> instr_at l (f_ip f) -> (-1 <= base)%Z -> s_sp s = (base + Z.of_nat (h (f_ip f)))%Z ->
  exists f' args n, vm_fetch (skipn (N.to_nat (f_ip f)) (m_code vm)) = Some (CALL_FUNCTION, args, n) /\ s_frames s2 = f' :: r /\ f_bp f' = f_bp f /\ f_mod f' = f_mod f /\ s_ctx s2 = f_mod f /\ f_ip f' = (f_ip f + op_size CALL_FUNCTION)%N /\
    s_sp s2 = (s_sp s - Z.of_N (nth 0 args 0%N))%Z /\ kept (s_sp s2) (s_vals s) (s_vals s2) /\ exists v t', op_pop t = Some (v, t') /\ nth_error (s_vals s2) (Z.to_nat (s_sp s2)) = Some v.
Proof.
  intros EN ST ENT SO LV CD RT IH F C G MP IN BS SP.
  destruct (step_call _ _ _ _ _ _ ST EN F) as (args & n & c & f' & fn & (m' & G' & V) & F1 & B1 & M1 & I1 & _ & BP). rewrite G in G'. injection G' as <-.
  pose proof (fetch_at _ _ _ _ _ _ _ MP IN V) as TK. cbn [takes] in TK.
  destruct ENT as (c' & r' & vm' & F1' & C1 & G1 & IE). rewrite F1 in F1'. injection F1' as <- <-. destruct (MAPS _ _ G1) as (l' & h' & MP'). pose proof MP' as (HM' & NX' & JX' & IE'). pose proof HM' as (_ & _ & H0 & _).
  pose proof (call_higher _ _ ST EN) as HI. rewrite <- C1 in G1.
  destruct (stays_height E P s1 t (own_stays _ _ SO) c (f' :: r) vm' (map fn_start (m_funcs vm')) l' h' (s_sp s1)) as (c2 & F2 & B2 & C2 & I2 & S2); auto; [lia|rewrite (H0 _ IE); lia|].
  destruct (step_ret _ _ _ _ _ _ _ RT LV F2) as (F3 & C3 & S3).
  assert (TR : 1 <= h' (f_ip c2)).
  { destruct LV as (f0 & r0 & m0 & n0 & F0 & G0 & V0). rewrite F2 in F0. injection F0 as <- <-. rewrite C2, G1 in G0. injection G0 as <-. exact (fetch_at _ _ _ _ _ _ _ MP' I2 V0). }
  set (na := nth 0 args 0%N) in *. unfold frame_bp in CD. rewrite F1 in CD. rewrite B2 in S3.
  assert (S4 : s_sp s2 = (s_sp s - Z.of_N na)%Z) by (rewrite S3; destruct (Z.ltb_spec (-1) (f_bp c)); destruct BP as [BP|(BP & BN & BS1)]; lia).
  assert (BK : (0 <= f_bp c -> s_sp s - Z.of_N na <= f_bp c)%Z) by (destruct BP as [BP|(BP & BN & BS1)]; lia).
  destruct (ret_kept (s_sp s - Z.of_N na)%Z _ _ _ _ _ RT LV F2) as (K3 & v & t' & Q & K4); [lia|rewrite B2; exact BK|].
  exists f', args, n. split; [exact V|]. split; [exact F3|]. split; [exact B1|]. split; [exact M1|]. split; [congruence|]. split; [exact I1|]. split; [exact S4|]. split.
  - rewrite S4. eapply kept_trans; [|eapply kept_trans; [|exact K3]].
    + eapply (step_kept _ s s1 f r vm CALL_FUNCTION args n); try eassumption; [|cbn [takes]; fold na; lia|discriminate|discriminate].
      intros (f0 & r0 & m0 & n0 & F0 & G0 & V0). rewrite F in F0. injection F0 as <- <-. rewrite G in G0. injection G0 as <-. congruence.
    + eapply (IH c (f' :: r) vm' l' h' (s_sp s1)); auto; try lia. rewrite (H0 _ IE). lia.
  - exists v, t'. split; [exact Q|]. apply K4; [lia|]. rewrite B2. destruct BP as [BP|(BP & _)]; lia.
Qed.
Lemma own_kept s s' : stays_own E P s s' -> forall f r vm l h base k, s_frames s = f :: r -> s_ctx s = f_mod f -> get_module P (s_ctx s) = Some vm -> mapped vm l h ->
  instr_at l (f_ip f) -> (-1 <= base)%Z -> s_sp s = (base + Z.of_nat (h (f_ip f)))%Z -> (k <= base + 1)%Z -> (0 <= f_bp f -> k <= f_bp f)%Z -> kept k (s_vals s) (s_vals s').
Proof.
  induction 1 as [s|s s1 s2 NE NL WO ST H IH|s s1 t s2 s3 EN ST ENT H1 IH1 LV CD RT H2 IH2]; intros f r vm l h base k F C G MP IN BS SP KB KF.
  - apply kept_refl.
  - destruct (step_in _ _ _ _ _ _ _ ST NE NL F G) as (o & args & n & f' & V & C1 & F1 & B1 & M1 & S1 & Q). pose proof (fetch_at _ _ _ _ _ _ _ MP IN V) as TK.
    assert (FE : fetches P s o args) by (exists f, r, vm, n; auto).
    eapply kept_trans.
    { eapply (step_kept k s s1 f r vm o args n); try eassumption; [lia|intros ->; exact (proj1 WO _ FE)|]. intros ->. apply KF. pose proof (proj2 WO _ FE) as W. unfold frame_bp in W. rewrite F in W. exact W. }
    pose proof MP as (HM & NX & JX & IE). pose proof HM as (DC & _ & _ & HX). destruct IN as (o0 & a0 & IN). destruct (decodes_in _ _ _ DC _ _ _ IN) as (q & K & j & V' & _). rewrite N.add_0_l in K. rewrite K, Nat2N.id, V' in V. injection V as -> -> ->.
    destruct (HX _ _ _ IN) as (TK' & FL & JP).
    assert (Q' : instr_at l (f_ip f') /\ h (f_ip f') = after o args (h (f_ip f))).
    { destruct Q as [[Q1 Q2]|[Q1 Q2]]; rewrite Q2; [split; [eapply NX; eassumption|now apply FL]|]. destruct (JX _ _ _ IN Q1) as (t & -> & IT). destruct (JP Q1) as (t' & E' & HT). injection E' as <-. cbn. auto. }
    destruct Q' as [I1 H'].
    eapply (IH f' r vm l h base); try assumption; try congruence. { rewrite S1, SP, H'. unfold after, delta. lia. } rewrite B1. exact KF.
  - destruct (call_whole s s1 t s2 f r vm l h base EN ST ENT H1 LV CD RT IH1 F C G MP IN BS SP) as (f' & args & n & V & F3 & B3 & M3 & C3 & I3 & S3 & K3 & _).
    pose proof (fetch_at _ _ _ _ _ _ _ MP IN V) as TK. cbn [takes] in TK.
    eapply kept_trans with (b := s_vals s2). { intros j v L HN. apply K3; [lia|exact HN]. }
    pose proof MP as (HM & NX & JX & IE). pose proof HM as (DC & _ & _ & HX). destruct IN as (o0 & a0 & IN). destruct (decodes_in _ _ _ DC _ _ _ IN) as (q & K & j & V' & _). rewrite N.add_0_l in K. rewrite K, Nat2N.id, V' in V. injection V as -> -> ->.
    destruct (HX _ _ _ IN) as (TK' & FL & _). specialize (FL eq_refl). pose proof (NX _ _ _ IN eq_refl) as IN1.
    eapply (IH2 f' r vm l h base); try assumption; try congruence; try (rewrite I3; assumption). { rewrite S3, SP, I3, FL. unfold after. cbn [takes gives]. lia. } rewrite B3. exact KF.
Qed.
End R.
