(** The height of the operand stack is that of the program point. *)
From Verif Require Import Base BaseFacts Bson Opcode OpcodeFacts Value Ast CodeGen VM Spec_Code Spec_Height HeightStep.

Lemma opcode_dec (a b : opcode) : {a = b} + {a <> b}. Proof. decide equality. Defined.
Section R.
Variables (E : ext) (P : program).
Lemma step_fetch s s1 : step E P s = SNext s1 -> exists f r m o args n, s_frames s = f :: r /\ get_module P (s_ctx s) = Some m /\
  vm_fetch (skipn (N.to_nat (f_ip f)) (m_code m)) = Some (o, args, n) /\
  exec_op E P o args (with_frames s (mkFrame (f_name f) (f_ip f + N.of_nat n) (f_ip f) (f_bp f) (f_mod f) :: r)) = XOk s1.
Proof.
  unfold step. intros H. destruct (s_frames s) as [|f r] eqn:F; [discriminate|]. destruct (get_module P (s_ctx s)) as [m|] eqn:G; [|discriminate].
  destruct (vm_fetch _) as [[[o args] n]|] eqn:V; [|discriminate]. destruct (exec_op _ _ _ _ _) eqn:X; try discriminate. injection H as <-. exists f, r, m, o, args, n. auto.
Qed.
Lemma pop_frames s fs v s' : op_pop s = Some (v, s') -> op_pop (with_frames s fs) = Some (v, with_frames s' fs).
Proof.
  unfold op_pop. cbn [with_frames s_vals s_sp]. destruct (_ =? _)%Z; [|destruct (_ <? _)%Z]; [destruct (vget _ _)..|]; try discriminate; intros [= <- <-]; reflexivity.
Qed.
Lemma pop_frames' s fs v s' : op_pop (with_frames s fs) = Some (v, s') -> exists t, op_pop s = Some (v, t).
Proof.
  unfold op_pop. cbn [with_frames s_vals s_sp]. destruct (_ =? _)%Z; [|destruct (_ <? _)%Z]; [destruct (vget _ _)..|]; try discriminate; intros [= <- <-]; eauto.
Qed.
(** *** A step inside the frame *)
Lemma step_in s s1 f r m : step E P s = SNext s1 -> ~ enters P s -> ~ leaves P s -> s_frames s = f :: r -> get_module P (s_ctx s) = Some m ->
  exists o args n f', vm_fetch (skipn (N.to_nat (f_ip f)) (m_code m)) = Some (o, args, n) /\ s_ctx s1 = s_ctx s /\ s_frames s1 = f' :: r /\ f_bp f' = f_bp f /\ f_mod f' = f_mod f /\
    s_sp s1 = (s_sp s + delta o args)%Z /\ (falls o = true /\ f_ip f' = (f_ip f + op_size o)%N \/ is_jump o = true /\ f_ip f' = nth 0 args 0%N).
Proof.
  intros ST NE NL F G. destruct (step_fetch _ _ ST) as (f0 & r0 & m0 & o & args & n & F0 & G0 & V & X). rewrite F in F0. injection F0 as <- <-. rewrite G in G0. injection G0 as <-.
  pose proof (fetch_size _ _ _ _ V) as SZ. set (f1 := mkFrame _ _ _ _ _) in X.
  exists o, args, n. destruct (is_jump o) eqn:J.
  - destruct (jump_h E P o args (with_frames s (f1 :: r)) s1 f1 r J eq_refl X) as (A & B & f' & C & D & D' & Q). exists f'. split; [exact V|]. split; [exact B|]. split; [exact C|]. split; [exact D|]. split; [exact D'|]. split; [exact A|].
    destruct Q as [Q|[Q1 Q]]; [right; auto|left]. split; [exact Q1|]. rewrite Q, <- SZ. reflexivity.
  - destruct (opcode_dec o RETURN) as [->|NR].
    { exfalso. apply NL. unfold leaves. exists f, r, m, n. split; [exact F|]. split; [exact G|]. rewrite V. f_equal. f_equal. f_equal.
      clear - V. destruct (skipn _ _) as [|b c]; cbn in V; [discriminate|]. destruct (opcode_of_byte b) as [o'|]; [|discriminate]. destruct (take _ _) as [[x y]|]; [|discriminate]. injection V as -> <- _. reflexivity. }
    assert (SM : sameish (with_frames s (f1 :: r)) s1 (delta o args)).
    { destruct (opcode_dec o CALL_FUNCTION) as [->|NC].
      - unfold exec_op in X. cbn [with_frames s_ctx] in X. rewrite G in X. cbn [xopt] in X. destruct (op_pop (with_frames s (f1 :: r))) as [[v t]|] eqn:Q; [|unfold call_function, xpop in X; rewrite Q in X; discriminate].
        assert (AS : delta CALL_FUNCTION args = delta CALL_FUNCTION [nth 0 args 0%N]) by reflexivity. rewrite AS. eapply native_h; [exact Q| |exact X]. intros fn ->.
        apply NE. destruct (pop_frames' _ _ _ _ Q) as (t' & Q'). exists args, fn, t'. split; [|exact Q']. exists f, r, m, n. auto.
      - pose proof (plain_h E P o args (with_frames s (f1 :: r)) J NC NR) as H. rewrite X in H. exact H. }
    destruct SM as (A & B & C). exists f1. split; [exact V|]. split; [exact C|]. split; [exact B|]. split; [reflexivity|]. split; [reflexivity|]. split; [exact A|]. left. split; [|cbn; lia].
    destruct o; try reflexivity; try discriminate J; try contradiction. exfalso. unfold exec_op in X. cbn [with_frames s_ctx] in X. rewrite G in X. discriminate X.
Qed.
Lemma step_call s s1 f r : step E P s = SNext s1 -> enters P s -> s_frames s = f :: r ->
  exists args n c f' fn, (exists m, get_module P (s_ctx s) = Some m /\ vm_fetch (skipn (N.to_nat (f_ip f)) (m_code m)) = Some (CALL_FUNCTION, args, n)) /\
    s_frames s1 = c :: f' :: r /\ f_bp f' = f_bp f /\ f_mod f' = f_mod f /\ f_ip f' = (f_ip f + op_size CALL_FUNCTION)%N /\ f_ip c = fn_start fn /\
    (f_bp c = s_sp s - Z.of_N (nth 0 args 0%N) \/ f_bp c = -1 /\ nth 0 args 0%N = 0%N /\ s_sp s1 = s_sp s - 1)%Z.
Proof.
  intros ST (args & fn & t & (f0 & r0 & m & n & F0 & G & V) & Q) F. rewrite F in F0. injection F0 as <- <-.
  destruct (step_fetch _ _ ST) as (f1 & r1 & m1 & o & a & k & F1 & G1 & V1 & X). rewrite F in F1. injection F1 as <- <-. rewrite G in G1. injection G1 as <-. rewrite V in V1. injection V1 as <- <- <-.
  pose proof (fetch_size _ _ _ _ V) as SZ. unfold exec_op in X. cbn [with_frames s_ctx] in X. rewrite G in X. cbn [xopt] in X. apply (pop_frames _ (mkFrame (f_name f) (f_ip f + N.of_nat n) (f_ip f) (f_bp f) (f_mod f) :: r)) in Q.
  destruct (call_h E _ _ _ _ _ Q X) as (c & A & B & C & D & H). exists args, n, c. eexists. exists fn. split; [exists m; auto|]. split; [exact A|]. split; [reflexivity|]. split; [reflexivity|].
  split; [cbn [f_ip]; lia|]. split; [exact B|]. exact H.
Qed.
Lemma step_ret s s1 f g r : step E P s = SNext s1 -> leaves P s -> s_frames s = f :: g :: r ->
  s_frames s1 = g :: r /\ s_ctx s1 = f_mod g /\ s_sp s1 = (if -1 <? f_bp f then f_bp f else s_sp s)%Z.
Proof.
  intros ST (f0 & r0 & m & n & F0 & G & V) F. rewrite F in F0. injection F0 as <- <-.
  destruct (step_fetch _ _ ST) as (f1 & r1 & m1 & o & a & k & F1 & G1 & V1 & X). rewrite F in F1. injection F1 as <- <-. rewrite G in G1. injection G1 as <-. rewrite V in V1. injection V1 as <- <- <-.
  unfold exec_op in X. cbn [with_frames s_ctx] in X. rewrite G in X. cbn [xopt] in X. match type of X with do_return ?S = _ => destruct (return_h S s1 _ g r eq_refl X)  as (A & B & C) end. auto.
Qed.
(** *** Executions inside the frame: what they keep whatever the code is *)
Lemma stays_keep s s' : stays E P s s' -> forall f r, s_frames s = f :: r -> s_ctx s = f_mod f -> get_module P (s_ctx s) <> None ->
  exists f', s_frames s' = f' :: r /\ f_bp f' = f_bp f /\ f_mod f' = f_mod f /\ s_ctx s' = s_ctx s.
Proof.
  induction 1 as [s|s s1 s2 NE NL ST H IH|s s1 t s2 s3 EN ST AH H1 IH1 LV CD RT H2 IH2]; intros f r F C G.
  - exists f. auto.
  - destruct (get_module P (s_ctx s)) as [m|] eqn:GM; [|contradiction].
    destruct (step_in _ _ _ _ _ ST NE NL F GM) as (o & args & n & f' & _ & C1 & F1 & B1 & M1 & _). destruct (IH f' r F1) as (f2 & A & B & D & D'); [congruence|rewrite C1, GM; discriminate|].
    exists f2. repeat split; congruence.
  - destruct (step_call _ _ _ _ ST EN F) as (args & n & c & f' & fn & _ & F1 & B1 & M1 & _). unfold at_home in AH. rewrite F1 in AH.
    assert (LT : exists c2, s_frames t = c2 :: f' :: r).
    { destruct (get_module P (s_ctx s1)) eqn:G1; [destruct (IH1 c _ F1 AH) as (c2 & ? & _); [congruence|eauto]|].
      inversion H1; subst; [eauto| |].
      - match goal with K : step E P s1 = SNext _ |- _ => apply step_fetch in K as (? & ? & ? & ? & ? & ? & ? & K & _); congruence end.
      - match goal with K : step E P s1 = SNext _ |- _ => apply step_fetch in K as (? & ? & ? & ? & ? & ? & ? & K & _); congruence end. }
    destruct LT as (c2 & F2). destruct (step_ret _ _ _ _ _ RT LV F2) as (F3 & C3 & _). destruct (IH2 f' r F3) as (f2 & A & B & D & D'); [exact C3|rewrite C3, M1, <- C; exact G|].
    exists f2. repeat split; try congruence.
Qed.
(** *** With the heights of the module's code *)
Lemma stays_height s s' : stays E P s s' -> forall f r m entries l h base, s_frames s = f :: r -> s_ctx s = f_mod f -> get_module P (s_ctx s) = Some m ->
  height_map (m_code m) entries l h -> (forall k o args, In (k, o, args) l -> falls o = true -> instr_at l (k + op_size o)%N) ->
  (forall k o args, In (k, o, args) l -> is_jump o = true -> exists t, args = [t] /\ instr_at l t) ->
  instr_at l (f_ip f) -> (-1 <= base)%Z -> s_sp s = (base + Z.of_nat (h (f_ip f)))%Z ->
  exists f', s_frames s' = f' :: r /\ f_bp f' = f_bp f /\ s_ctx s' = s_ctx s /\ instr_at l (f_ip f') /\ s_sp s' = (base + Z.of_nat (h (f_ip f')))%Z.
Proof.
  induction 1 as [s|s s1 s2 NE NL ST H IH|s s1 t s2 s3 EN ST AH H1 IH1 LV CD RT H2 IH2]; intros f r m entries l h base F C G HM NX JX IN BS SP.
  - exists f. auto.
  - destruct (step_in _ _ _ _ _ ST NE NL F G) as (o & args & n & f' & V & C1 & F1 & B1 & M1 & S1 & Q).
    pose proof HM as HM'. destruct HM' as (DC & _ & _ & HX). destruct IN as (o0 & a0 & IN). destruct (decodes_in _ _ _ DC _ _ _ IN) as (k & K & j & V' & _). rewrite N.add_0_l in K. rewrite K, Nat2N.id, V' in V. injection V as -> -> ->.
    destruct (HX _ _ _ IN) as (TK & FL & JP).
    assert (Q' : instr_at l (f_ip f') /\ h (f_ip f') = after o args (h (f_ip f))).
    { destruct Q as [[Q1 Q2]|[Q1 Q2]]; rewrite Q2; [split; [eapply NX; eassumption|now apply FL]|]. destruct (JX _ _ _ IN Q1) as (t & -> & IT). destruct (JP Q1) as (t' & E' & HT). injection E' as <-. cbn. auto. }
    destruct Q' as [I1 H'].
    destruct (IH f' r m entries l h base F1) as (f2 & A & B & D & I2 & S2); try assumption; try congruence.
    { rewrite S1, SP, H'. unfold after, delta. lia. }
    exists f2. repeat split; congruence.
  - destruct (step_call _ _ _ _ ST EN F) as (args & n & c & f' & fn & (m' & G' & V) & F1 & B1 & M1 & I1 & _ & BP). rewrite G in G'. injection G' as <-.
    pose proof HM as HM'. destruct HM' as (DC & _ & _ & HX). destruct IN as (o0 & a0 & IN). destruct (decodes_in _ _ _ DC _ _ _ IN) as (k & K & j & V' & _). rewrite N.add_0_l in K. rewrite K, Nat2N.id, V' in V. injection V as -> -> ->.
    destruct (HX _ _ _ IN) as (TK & FL & _). specialize (FL eq_refl). pose proof (NX _ _ _ IN eq_refl) as IN1.
    unfold at_home in AH. rewrite F1 in AH.
    assert (LT : exists c2, s_frames t = c2 :: f' :: r /\ f_bp c2 = f_bp c).
    { destruct (get_module P (s_ctx s1)) eqn:G1; [destruct (stays_keep _ _ H1 c _ F1 AH) as (c2 & ? & ? & _); [congruence|eauto]|].
      inversion H1; subst; [eauto| |].
      - match goal with K : step E P s1 = SNext _ |- _ => apply step_fetch in K as (? & ? & ? & ? & ? & ? & ? & K & _); congruence end.
      - match goal with K : step E P s1 = SNext _ |- _ => apply step_fetch in K as (? & ? & ? & ? & ? & ? & ? & K & _); congruence end. }
    destruct LT as (c2 & F2 & B2). destruct (step_ret _ _ _ _ _ RT LV F2) as (F3 & C3 & S3).
    destruct (IH2 f' r m entries l h base F3) as (f2 & A & B & D & I2 & S2); try assumption; try congruence.
    { rewrite S3, I1, FL. unfold after. unfold frame_bp in CD. rewrite F1 in CD. rewrite B2. cbn [takes gives] in *. set (na := nth 0 args 0%N) in *. clearbody na.
      destruct (Z.ltb_spec (-1) (f_bp c)); destruct BP as [BP|(BP & BN & BS1)]; lia. }
    exists f2. repeat split; congruence.
Qed.

Lemma decodes_det code off l : decodes code off l -> forall l', decodes code off l' -> l = l'.
Proof.
  induction 1 as [|code off o args n l F L D IH]; intros l' D'; inversion D'; subst; auto; try discriminate.
  match goal with H : vm_fetch code = Some _ |- _ => rewrite F in H; injection H as <- <- <- end. f_equal. now apply IH.
Qed.
Lemma decodes_next code off l : decodes code off l -> forall k o a, In (k, o, a) l -> (exists l', l = l' ++ [(k, o, a)]) \/ instr_at l (k + op_size o)%N.
Proof.
  induction 1 as [|code off o args n l F L D IH]; intros k o' a' I; [destruct I|]. destruct I as [I|I].
  - injection I as <- <- <-. pose proof (fetch_size _ _ _ _ F) as SZ. rewrite <- SZ. inversion D; subst; [left; exists []; reflexivity|]. right. eexists _, _. right. left. reflexivity.
  - destruct (IH _ _ _ I) as [(l' & ->)|(o2 & a2 & I2)]; [left; exists ((off, o, args) :: l'); reflexivity|right; exists o2, a2; right; exact I2].
Qed.
Lemma code_next code entries l h : code_ok code entries -> height_map code entries l h ->
  (forall k o args, In (k, o, args) l -> falls o = true -> instr_at l (k + op_size o)%N) /\
  (forall k o args, In (k, o, args) l -> is_jump o = true -> exists t, args = [t] /\ instr_at l t) /\
  instr_at l 0%N /\ (forall e, In e entries -> instr_at l e).
Proof.
  intros (l0 & D0 & (l1 & k1 & LST) & J & EN) (D & _). rewrite (decodes_det _ _ _ D0 _ D) in *. split; [|split; [exact J|split; [|exact EN]]].
  - intros k o args I FL. destruct (decodes_next _ _ _ D _ _ _ I) as [(l' & E')|H]; [|exact H]. rewrite E' in LST. apply app_inj_tail in LST as [_ LST]. injection LST as -> -> ->. discriminate.
  - inversion D; subst; [destruct l1; discriminate|]. eexists _, _. left. reflexivity.
Qed.
End R.

(** ** Whole modules *)
From Verif Require Import Compile CodeFacts HeightCode SemProg.
Lemma home_run b main imports P m md vm : build b main imports = PyOk (Some P) -> get_module P m = Some vm -> module_at main imports m = Some md ->
  mo_builtin md = true \/ plain_body (mo_body md) = true ->
  exists l h, height_map (m_code vm) (map fn_start (m_funcs vm)) l h /\
  forall E s s' f r base, s_frames s = f :: r -> s_ctx s = m -> f_mod f = m -> instr_at l (f_ip f) -> (-1 <= base)%Z -> s_sp s = (base + Z.of_nat (h (f_ip f)))%Z ->
  stays E P s s' ->
  exists f', s_frames s' = f' :: r /\ f_bp f' = f_bp f /\ s_ctx s' = m /\ instr_at l (f_ip f') /\ s_sp s' = (base + Z.of_nat (h (f_ip f')))%Z /\
    forall o args, fetches P s' o args -> takes o args <= h (f_ip f').
Proof.
  intros HB G MA B. pose proof (jumps_ok _ _ _ _ _ _ HB G) as CO. destruct (built_heights _ _ _ _ _ _ _ HB G MA B) as (l & h & HM). exists l, h. split; [exact HM|].
  intros E s s' f r base F C FM IN BS SP ST. destruct (code_next _ _ _ _ CO HM) as (NX & JX & _). subst m.
  destruct (stays_height E P s s' ST f r vm (map fn_start (m_funcs vm)) l h base) as (f' & A & B' & D & I & S); try assumption; try congruence. exists f'. split; [exact A|]. split; [exact B'|]. split; [exact D|]. split; [exact I|]. split; [exact S|].
  intros o args (f2 & r2 & m2 & n & F2 & G2 & V). rewrite A in F2. injection F2 as <- <-. rewrite D, G in G2. injection G2 as <-.
  destruct HM as (DC & _ & _ & HX). destruct I as (o0 & a0 & I). destruct (decodes_in _ _ _ DC _ _ _ I) as (k & K & j & V' & _). rewrite N.add_0_l in K. rewrite K, Nat2N.id, V' in V. injection V as -> -> ->.
  now apply (HX _ _ _ I).
Qed.
Lemma same_point b main imports P m md vm : build b main imports = PyOk (Some P) -> get_module P m = Some vm -> module_at main imports m = Some md ->
  mo_builtin md = true \/ plain_body (mo_body md) = true ->
  forall E s0 f0 r, s_frames s0 = f0 :: r -> s_ctx s0 = m -> f_mod f0 = m -> f_ip f0 = 0%N \/ In (f_ip f0) (map fn_start (m_funcs vm)) -> (-1 <= s_sp s0)%Z ->
  (forall s, stays E P s0 s -> exists f, s_frames s = f :: r /\ (forall o args, fetches P s o args -> Z.of_nat (takes o args) <= s_sp s - s_sp s0)%Z) /\
  (forall s t f g, stays E P s0 s -> stays E P s0 t -> s_frames s = f :: r -> s_frames t = g :: r -> f_ip f = f_ip g -> s_sp s = s_sp t).
Proof.
  intros HB G MA B E s0 f0 r F C M EN BS. destruct (home_run _ _ _ _ _ _ _ HB G MA B) as (l & h & HM & H). pose proof (jumps_ok _ _ _ _ _ _ HB G) as CO.
  destruct (code_next _ _ _ _ CO HM) as (_ & _ & I0 & IE). destruct HM as (_ & H0 & HE & _).
  assert (Z0 : instr_at l (f_ip f0) /\ h (f_ip f0) = 0) by (destruct EN as [->|EN]; auto). destruct Z0 as [Z1 Z2].
  assert (K : forall s, stays E P s0 s -> exists f, s_frames s = f :: r /\ s_sp s = (s_sp s0 + Z.of_nat (h (f_ip f)))%Z /\ forall o args, fetches P s o args -> takes o args <= h (f_ip f)).
  { intros s ST. destruct (H E s0 s f0 r (s_sp s0) F C M Z1 BS) as (f & A & _ & _ & _ & S & T); [rewrite Z2; lia|exact ST|]. exists f. auto. }
  split.
  - intros s ST. destruct (K s ST) as (f & A & S & T). exists f. split; [exact A|]. intros o args FE. specialize (T _ _ FE). lia.
  - intros s t f g ST TT A A' EQ. destruct (K s ST) as (f1 & A1 & S1 & _). destruct (K t TT) as (g1 & A2 & S2 & _). assert (f1 = f) by congruence. assert (g1 = g) by congruence. subst. rewrite S1, S2, EQ. reflexivity.
Qed.
