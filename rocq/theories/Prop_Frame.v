(** C06 for every compiled program of the plain statements and expressions (any
    depth of calls, recursion included): what a call leaves alone.  The words used
    are in [Spec_Frame.v] and [Spec_Height.v]. *)
From Verif Require Import Base BaseFacts Bson BsonFacts Opcode OpcodeFacts Value ValueFacts Ast CodeGen VM Compile CodeFacts SemProg LoadFacts GenFacts Spec_Code Spec_Height HeightStep HeightCode HeightRun Spec_Frame FrameStep FrameRun
  Ex_Prog Spec_Sem Prop_Height.

Lemma loaded_from b main imports P m vm : build b main imports = PyOk (Some P) -> get_module P m = Some vm -> exists md, module_at main imports m = Some md.
Proof.
  intros HB G. destruct m as [i|]; [|exists main; reflexivity]. cbn [get_module module_at] in *.
  destruct (build_loads _ _ _ _ HB) as (cm & cms & CA & L1 & L2 & _). unfold compile_all in CA. apply pbind_ok in CA as (is_ & M & CA).
  apply pbind_ok in CA as (mm & MM & CA). apply pyok_inj in CA. injection CA as <- <-.
  assert (LE : List.length is_ = List.length imports).
  { clear - M. revert is_ M. generalize imports at 2 3. intros l. induction l as [|x l IH]; intros is_ M; cbn [mapm] in M; [apply pyok_inj in M; subst; reflexivity|].
    apply pbind_ok in M as (c & _ & M). apply pbind_ok in M as (cs & M & X). apply pyok_inj in X. subst is_. cbn. f_equal. now apply IH. }
  assert (L3 : List.length is_ = List.length (p_imports P)) by (clear - L2; induction L2; cbn; congruence). destruct (nth_error imports (N.to_nat i)) as [md|] eqn:Q; [eauto|]. apply nth_error_None in Q. assert (K : nth_error (p_imports P) (N.to_nat i) <> None) by congruence. apply nth_error_Some in K. lia.
Qed.
Lemma built_mapped b main imports P : build b main imports = PyOk (Some P) ->
  (forall m md, module_at main imports m = Some md -> mo_builtin md = true \/ plain_body (mo_body md) = true) ->
  forall m vm, get_module P m = Some vm -> exists l h, mapped vm l h /\ instr_at l 0%N.
Proof.
  intros HB PL m vm G. destruct (loaded_from _ _ _ _ _ _ HB G) as (md & MA). destruct (built_heights _ _ _ _ _ _ _ HB G MA (PL _ _ MA)) as (l & h & HM).
  destruct (code_next _ _ _ _ (jumps_ok _ _ _ _ _ _ HB G) HM) as (A & B & C & D). exists l, h. split; [exact (conj HM (conj A (conj B D)))|exact C].
Qed.

(** The machine is about to call a function of the language ([enters]) with [n]
    arguments, somewhere in the execution of a module or of a function ([s0]: its
    beginning).  The function runs and returns.  Then every value that was on the
    stack below the arguments -- the caller's variables, the operands it is in the
    middle of computing with, and everything of its own callers -- is as it was; the
    arguments and the function are gone; the value returned, [v], is on top; and
    the caller goes on after the call with its variables where they were, in its
    module.

    Missing: bodies outside [plain_body]; [stays_own] asks of the functions called
    that they start where their module has a function, and that those without
    parameters and variables write none and leave only their answer (the last is
    not always so: [C06_operands_refuted]). *)
Theorem C06_undisturbed_partial : forall builtins main imports P,
  build builtins main imports = PyOk (Some P) ->
  (forall m md, module_at main imports m = Some md -> mo_builtin md = true \/ plain_body (mo_body md) = true) ->
  forall E s0 f0 s args fn s' s1 t s2 v t' f r,
  (s_frames s0 = f0 :: r /\ at_home s0 /\ f_ip f0 = 0%N \/ entered P s0 /\ s_frames s0 = f0 :: r) -> get_module P (s_ctx s0) <> None -> (-1 <= s_sp s0)%Z -> stays E P s0 s ->
  s_frames s = f :: r -> fetches P s CALL_FUNCTION args -> op_pop s = Some (VFunc fn, s') ->
  step E P s = SNext s1 -> entered P s1 -> stays_own E P s1 t -> leaves P t -> (0 <= frame_bp s1 \/ s_sp t = s_sp s1 + 1)%Z ->
  op_pop t = Some (v, t') -> step E P t = SNext s2 ->
  let n := Z.of_N (nth 0 args 0%N) in
  keeps (s_sp s - n) s s2 /\ s_sp s2 = (s_sp s - n)%Z /\ nth_error (s_vals s2) (Z.to_nat (s_sp s2)) = Some v /\
  exists f', s_frames s2 = f' :: r /\ f_ip f' = (f_ip f + op_size CALL_FUNCTION)%N /\ f_bp f' = f_bp f /\ f_mod f' = f_mod f /\ s_ctx s2 = s_ctx s.
Proof.
  intros b main imports P HB PL E s0 f0 s args fn s' s1 t s2 v t' f r BEG GM BS ST F FE Q ST1 ENT SO LV CD QT ST2 n.
  pose proof (built_mapped _ _ _ _ HB PL) as MAPS. assert (MAPS' : forall m vm, get_module P m = Some vm -> exists l h, mapped vm l h) by (intros m vm G; destruct (MAPS _ _ G) as (l & h & X & _); eauto).
  destruct (get_module P (s_ctx s0)) as [vm|] eqn:G; [|contradiction].
  destruct (MAPS _ _ G) as (l & h & MP & I0). pose proof MP as (HM & NX & JX & IE). pose proof HM as (_ & Z0 & HE & _).
  assert (B0 : s_frames s0 = f0 :: r /\ s_ctx s0 = f_mod f0 /\ instr_at l (f_ip f0) /\ h (f_ip f0) = 0).
  { destruct BEG as [(A & B & C)|((c & r' & vm' & A & B & C & D) & A')].
    - split; [exact A|]. unfold at_home in B. rewrite A in B. rewrite C. auto.
    - rewrite A in A'. injection A' as <- <-. rewrite B, C in G. injection G as ->. auto. }
  destruct B0 as (F0 & C0 & I1 & H0).
  destruct (stays_height E P s0 s ST f0 r vm (map fn_start (m_funcs vm)) l h (s_sp s0) F0 C0 G HM NX JX I1 BS) as (f2 & F2 & B2 & C2 & I2 & S2); [rewrite H0; lia|].
  rewrite F in F2. injection F2 as <-.
  destruct (stays_keep E P _ _ ST f0 r F0 C0) as (f2 & F2 & _ & M2 & _); [congruence|]. rewrite F in F2. injection F2 as <-.
  assert (G2 : get_module P (s_ctx s) = Some vm) by congruence. assert (CF : s_ctx s = f_mod f) by congruence.
  assert (EN : enters P s) by (exists args, fn, s'; auto).
  destruct (call_whole E P MAPS' s s1 t s2 f r vm l h (s_sp s0) EN ST1 ENT SO LV CD ST2) as (f' & args' & k & V & F3 & B3 & M3 & C3 & I3 & S3 & K3 & v' & t2 & QT' & TOP); try assumption.
  { intros. eapply (own_kept E P MAPS'); eassumption. }
  assert (args' = args) as ->. { destruct FE as (f4 & r4 & m4 & n4 & F4 & G4 & V4). rewrite F in F4. injection F4 as <- <-. rewrite G2 in G4. injection G4 as <-. congruence. }
  rewrite QT in QT'. injection QT' as <- _. fold n in S3. split; [rewrite <- S3; exact K3|]. split; [exact S3|]. split; [exact TOP|].
  exists f'. split; [exact F3|]. split; [exact I3|]. split; [exact B3|]. split; [exact M3|]. congruence.
Qed.
Print Assumptions C06_undisturbed_partial.

(** The arguments of a call, in any state of any program: they stay where they
    are, the function called has them as its first variables, in order, and it
    begins at its first instruction in the module it belongs to. *)
Theorem C06_parameters : forall E P s args fn s' s1 f r,
  s_frames s = f :: r -> fetches P s CALL_FUNCTION args -> op_pop s = Some (VFunc fn, s') -> step E P s = SNext s1 ->
  let n := N.to_nat (nth 0 args 0%N) in
  exists c f', s_frames s1 = c :: f' :: r /\ f_ip c = fn_start fn /\ f_mod c = fn_mod fn /\ s_ctx s1 = match fn_mod fn with Some i => Some i | None => s_ctx s end /\
    f_bp f' = f_bp f /\ f_mod f' = f_mod f /\ (f_ip f < f_ip f')%N /\ s_world s1 = s_world s /\ s_globs s1 = s_globs s /\ s_iglobs s1 = s_iglobs s /\
    forall i v, i < n -> nth_error (s_vals s) (Z.to_nat (s_sp s) - n + i) = Some v -> (Z.of_nat n <= s_sp s)%Z ->
      nth_error (s_vals s1) (Z.to_nat (f_bp c) + i) = Some v.
Proof.
  intros E P s args fn s' s1 f r F (f0 & r0 & m & n & F0 & G & V) Q ST na. rewrite F in F0. injection F0 as <- <-.
  destruct (step_fetch _ _ _ _ ST) as (f1 & r1 & m1 & o & a & k & F1 & G1 & V1 & X). rewrite F in F1. injection F1 as <- <-. rewrite G in G1. injection G1 as <-. rewrite V in V1. injection V1 as <- <- <-.
  unfold exec_op in X. cbn [with_frames s_ctx] in X. rewrite G in X. cbn [xopt] in X. set (t := with_frames s _) in X. apply (pop_frames _ (s_frames t)) in Q. change (with_frames s (s_frames t)) with t in Q.
  pose proof (call_all _ _ _ _ _ _ Q X) as (KA & W1 & W2 & W3). destruct (call_h E _ _ _ _ _ Q X) as (c & A & B & C & D & H).
  pose proof (fetch_size _ _ _ _ V) as SZ. exists c. eexists. split; [exact A|]. split; [exact B|]. split; [exact C|]. split; [exact D|]. split; [reflexivity|]. split; [reflexivity|].
  split; [cbn [f_ip]; rewrite SZ; cbn; lia|]. split; [exact W1|]. split; [exact W2|]. split; [exact W3|].
  intros i v I NV L. apply KA. { cbn [t with_frames s_sp]. destruct H as [H|(H & H' & _)]; [cbn [t with_frames s_sp] in H|]; unfold na in *; lia. }
  cbn [t with_frames s_vals]. rewrite <- NV. f_equal. destruct H as [H|(_ & H & _)]; [cbn [t with_frames s_sp] in H|]; unfold na in *; lia.
Qed.
Print Assumptions C06_parameters.

(** ** A call in the middle of a sum *)
Definition writes_ownb (P : program) (s : state) : bool :=
  match s_frames s, get_module P (s_ctx s) with
  | f :: _, Some m => match vm_fetch (skipn (N.to_nat (f_ip f)) (m_code m)) with Some (BIND_MATCH_ARGS, _, _) => false | Some (SET_LOCAL, _, _) => (0 <=? frame_bp s)%Z | _ => true end
  | _, _ => true
  end.
Definition enteredb (P : program) (s : state) : bool :=
  match s_frames s with
  | f :: _ => at_homeb s && match get_module P (f_mod f) with Some vm => existsb (N.eqb (f_ip f)) (map fn_start (m_funcs vm)) | None => false end
  | [] => false
  end.
Lemma writes_ownb_ok P s : writes_ownb P s = true -> writes_own P s.
Proof.
  unfold writes_ownb, writes_own, fetches. intros H. split.
  - intros a (f & r & m & n & F & G & V). rewrite F, G, V in H. discriminate.
  - intros a (f & r & m & n & F & G & V). rewrite F, G, V in H. now apply Z.leb_le.
Qed.
Lemma at_homeb_ok s : at_homeb s = true -> at_home s.
Proof. unfold at_homeb, at_home. destruct (s_frames s); [discriminate|]. destruct (s_ctx s), (f_mod f); try discriminate; [intros H; apply N.eqb_eq in H; congruence|reflexivity]. Qed.
Lemma enteredb_ok P s : enteredb P s = true -> entered P s.
Proof.
  unfold enteredb, entered. destruct (s_frames s) as [|f r] eqn:F; [discriminate|]. intros H. apply andb_true_iff in H as [H1 H2]. apply at_homeb_ok in H1. unfold at_home in H1. rewrite F in H1.
  destruct (get_module P (f_mod f)) as [vm|] eqn:G; [|discriminate]. apply existsb_exists in H2 as (x & I & X). apply N.eqb_eq in X. subst x. exists f, r, vm. auto.
Qed.
(** Up to the return of the function, the calls in it included. *)
Fixpoint own_end (P : program) (n : nat) (s : state) : option state :=
  match n with
  | O => None
  | Datatypes.S n =>
      if leavesb P s then Some s else
      match step e0 P s with
      | SNext s1 =>
          if entersb P s then
            match own_end P n s1 with
            | Some t => if enteredb P s1 && leavesb P t && ((0 <=? frame_bp s1) || (s_sp t =? s_sp s1 + 1))%Z then
                          match step e0 P t with SNext s2 => own_end P n s2 | _ => None end
                        else None
            | None => None
            end
          else if writes_ownb P s then own_end P n s1 else None
      | _ => Some s
      end
  end.
Lemma own_end_stays P n : forall s t, own_end P n s = Some t -> stays_own e0 P s t.
Proof.
  induction n as [|n IH]; intros s t H; [discriminate|]. cbn [own_end] in H. destruct (leavesb P s) eqn:L; [injection H as <-; constructor|].
  destruct (step e0 P s) as [s1| | |] eqn:ST; try (injection H as <-; constructor).
  assert (NL : ~ leaves P s) by (rewrite <- leavesb_ok; congruence).
  destruct (entersb P s) eqn:EN.
  - destruct (own_end P n s1) as [u|] eqn:T1; [|discriminate]. destruct (_ && _ && _)%bool eqn:Q; [|discriminate]. destruct (step e0 P u) as [s2| | |] eqn:SU; try discriminate.
    apply andb_true_iff in Q as [Q Q3]. apply andb_true_iff in Q as [Q1 Q2]. eapply so_call; [apply entersb_ok, EN|exact ST|apply enteredb_ok, Q1|apply IH, T1|apply leavesb_ok, Q2| |exact SU|apply IH, H].
    apply orb_true_iff in Q3 as [Q3|Q3]; [left; now apply Z.leb_le|right; now apply Z.eqb_eq].
  - destruct (writes_ownb P s) eqn:W; [|discriminate]. eapply so_step; [rewrite <- entersb_ok; congruence|exact NL|apply writes_ownb_ok, W|exact ST|apply IH, H].
Qed.
(** Up to the first call. *)
Fixpoint to_call (P : program) (n : nat) (s : state) : option state :=
  match n with
  | O => None
  | Datatypes.S n => if entersb P s then Some s else if leavesb P s then None else match step e0 P s with SNext s1 => to_call P n s1 | _ => None end
  end.
Lemma to_call_stays P n : forall s t, to_call P n s = Some t -> stays e0 P s t /\ enters P t.
Proof.
  induction n as [|n IH]; intros s t H; [discriminate|]. cbn [to_call] in H. destruct (entersb P s) eqn:EN; [injection H as <-; split; [constructor|now apply entersb_ok]|].
  destruct (leavesb P s) eqn:L; [discriminate|]. destruct (step e0 P s) as [s1| | |] eqn:ST; try discriminate. destruct (IH _ _ H) as (A & B). split; [|exact B].
  eapply st_step; [rewrite <- entersb_ok; congruence|rewrite <- leavesb_ok; congruence|exact ST|exact A].
Qed.
(** <<
    1 func dobro(b: int): int
    2   retorna b + b
      fim
    3 func soma(a: int, b: int): int
    4   t: int = a + dobro(b)
    5   retorna t
      fim
    6 mostra 10 + soma(2, 3)
    >> *)
Definition dobro_ : sym := gfun "dobro".
Definition db_ : sym := lvar "b" "_r10_".
Definition prog_pending : amodule := program_of [dobro_; soma_]
  [ NFunc 1 dobro_ [(txt "b", db_)] false (NBlock (scope_of [db_]) [NRet 2 (Some (bin 2 BAdd (var 2 db_) (var 2 db_)))]);
    NFunc 3 soma_ [(txt "a", pa_); (txt "b", pb_)] false (NBlock (scope_of [pa_; pb_; t_])
      [decl 4 t_ "int" (bin 4 BAdd (var 4 pa_) (call 4 dobro_ [var 4 pb_])); NRet 5 (Some (var 5 t_))]);
    NMostra 6 (bin 6 BAdd (num 6 "10") (call 6 soma_ [num 6 "2"; num 6 "3"])) ].
Definition live (s : state) (n : nat) : list value := skipn (Z.to_nat (s_sp s + 1) - n) (firstn (Z.to_nat (s_sp s + 1)) (s_vals s)).
(** Before the call and after the return: the height, and the values on top. *)
Definition call_seen (main : amodule) : option (Z * list value * (Z * list value)) :=
  match start_of main with
  | Some (P, s0) =>
      match to_call P 100 s0 with
      | Some s =>
          match step e0 P s with
          | SNext s1 =>
              match own_end P 100 s1 with
              | Some t => match step e0 P t with
                          | SNext s2 => if enteredb P s1 && leavesb P t && (0 <=? frame_bp s1)%Z && at_homeb s0 && (-1 <=? s_sp s0)%Z && N.eqb (match s_frames s0 with [f] => f_ip f | _ => 1%N end) 0
                                        then Some (s_sp s, live s 3, (s_sp s2, live s2 2)) else None
                          | _ => None end
              | None => None end
          | _ => None end
      | None => None end
  | None => None end.
Lemma call_seen_ok main a l b : call_seen main = Some (a, l, b) -> exists P s0 f0 s s1 t s2, build emb_path main [emb] = PyOk (Some P) /\
  s_frames s0 = [f0] /\ at_home s0 /\ f_ip f0 = 0%N /\ (-1 <= s_sp s0)%Z /\ stays e0 P s0 s /\ enters P s /\ step e0 P s = SNext s1 /\ entered P s1 /\ stays_own e0 P s1 t /\
  leaves P t /\ (0 <= frame_bp s1)%Z /\ step e0 P t = SNext s2 /\ (s_sp s, live s 3, (s_sp s2, live s2 2)) = (a, l, b).
Proof.
  unfold call_seen, start_of. unfold built. destruct (build emb_path main [emb]) as [[P|]|] eqn:HB; try discriminate.
  destruct (run_imports _ _ _ _ _ _) as [s9| | |]; try discriminate. destruct (start_module _ _ _ _) as [s0|]; [|discriminate].
  destruct (to_call P 100 s0) as [s|] eqn:TC; [|discriminate]. destruct (step e0 P s) as [s1| | |] eqn:ST; try discriminate. destruct (own_end P 100 s1) as [t|] eqn:OE; [|discriminate].
  destruct (step e0 P t) as [s2| | |] eqn:ST2; try discriminate. destruct (_ && _ && _ && _ && _ && _)%bool eqn:Q; [|discriminate]. intros H. apply some_inj in H.
  repeat (apply andb_true_iff in Q as [Q ?H]). destruct (to_call_stays _ _ _ _ TC) as (A & B). destruct (s_frames s0) as [|f0 [|g r]] eqn:F0; try (exfalso; discriminate).
  exists P, s0, f0, s, s1, t, s2. split; [reflexivity|]. split; [exact F0|]. split; [now apply at_homeb_ok|]. split; [now apply N.eqb_eq|]. split; [now apply Z.leb_le|]. split; [exact A|]. split; [exact B|]. split; [exact ST|].
  split; [now apply enteredb_ok|]. split; [eapply own_end_stays, OE|]. split; [now apply leavesb_ok|]. split; [now apply Z.leb_le|]. split; [exact ST2|exact H].
Qed.
(** The ten waits on the stack while [soma], and in it [dobro], runs. *)
Example C06_undisturbed_case : plain_body (mo_body prog_pending) = true /\ mo_builtin emb = true /\
  exists P s0 f0 s s1 t s2 fn, build emb_path prog_pending [emb] = PyOk (Some P) /\
  s_frames s0 = [f0] /\ at_home s0 /\ f_ip f0 = 0%N /\ (-1 <= s_sp s0)%Z /\ stays e0 P s0 s /\ enters P s /\ step e0 P s = SNext s1 /\ entered P s1 /\ stays_own e0 P s1 t /\
  leaves P t /\ (0 <= frame_bp s1)%Z /\ step e0 P t = SNext s2 /\
  (s_sp s, live s 3, (s_sp s2, live s2 2)) = (259%Z, [VInt 2; VInt 3; VFunc fn], (257%Z, [VInt 10; VInt 8])).
Proof.
  split; [reflexivity|]. split; [reflexivity|].
  destruct (call_seen_ok prog_pending 259%Z [VInt 2; VInt 3; VFunc (mkFunc (txt "soma") 30 3 None)] (257%Z, [VInt 10; VInt 8])) as (P & s0 & f0 & s & s1 & t & s2 & H); [vm_compute; reflexivity|].
  exists P, s0, f0, s, s1, t, s2, (mkFunc (txt "soma") 30 3 None). exact H.
Qed.
