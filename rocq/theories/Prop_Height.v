(** C35: the operand stack stays balanced.  The words used are in
    [Spec_Height.v]. *)
From Verif Require Import Base Bson Opcode Value Ast CodeGen VM Compile SemProg Spec_Code Spec_Height Ex_Prog HeightCode HeightRun.

(** ** The height is a function of the program point *)
(** A module whose statements leave nothing (expressions as statements only at
    the outermost level of the module or of a function): each instruction of its
    code can be given one height such that the operands it takes are there and
    all ways of going on, to the next instruction or by a jump, agree with it.
    Missing: pattern matching (false: C35_iguala_refuted), and expression
    statements inside loops and
    branches, for which it is false (C35_expression_statement_refuted). *)
Theorem C35_points_partial : forall builtins main imports P m md vm,
  build builtins main imports = PyOk (Some P) -> module_at main imports m = Some md -> get_module P m = Some vm ->
  mo_builtin md = true \/ plain_body (mo_body md) = true ->
  heights_ok (m_code vm) (map fn_start (m_funcs vm)).
Proof. intros b main imports P m md vm HB MA G B. exact (built_heights b main imports P m vm md HB G MA B). Qed.
Print Assumptions C35_points_partial.

(** ** Executions *)
(** From the beginning of such a module, or of one of its functions, in any
    state: as long as the execution is in that frame -- calls of functions are
    taken as a whole -- no instruction takes more operands than the frame has
    put on the stack, and whenever the execution comes to a program point the
    height is the one it had there before. *)
Theorem C35_same_point_partial : forall builtins main imports P m md vm,
  build builtins main imports = PyOk (Some P) -> module_at main imports m = Some md -> get_module P m = Some vm ->
  mo_builtin md = true \/ plain_body (mo_body md) = true ->
  forall E s0 f0 r, s_frames s0 = f0 :: r -> at_home s0 -> s_ctx s0 = m ->
  f_ip f0 = 0%N \/ In (f_ip f0) (map fn_start (m_funcs vm)) -> (-1 <= s_sp s0)%Z ->
  (forall s, stays E P s0 s -> exists f, s_frames s = f :: r /\
     forall o args, fetches P s o args -> (Z.of_nat (takes o args) <= s_sp s - s_sp s0)%Z) /\
  (forall s t f g, stays E P s0 s -> stays E P s0 t -> s_frames s = f :: r -> s_frames t = g :: r ->
     f_ip f = f_ip g -> s_sp s = s_sp t).
Proof.
  intros b main imports P m md vm HB MA G B E s0 f0 r F AH C EN BS. unfold at_home in AH. rewrite F in AH.
  eapply same_point; try eassumption. congruence.
Qed.
Print Assumptions C35_same_point_partial.

(** *** A whole run of [prog1] (a recursive function called in a loop, then a
    counting loop) is such an execution. *)
Definition leavesb (P : program) (s : state) : bool :=
  match s_frames s, get_module P (s_ctx s) with
  | f :: _, Some m => match vm_fetch (skipn (N.to_nat (f_ip f)) (m_code m)) with Some (RETURN, [], _) => true | _ => false end
  | _, _ => false
  end.
Definition entersb (P : program) (s : state) : bool :=
  match s_frames s, get_module P (s_ctx s) with
  | f :: _, Some m =>
      match vm_fetch (skipn (N.to_nat (f_ip f)) (m_code m)), op_pop s with Some (CALL_FUNCTION, _, _), Some (VFunc _, _) => true | _, _ => false end
  | _, _ => false
  end.
Definition at_homeb (s : state) : bool :=
  match s_frames s with f :: _ => match s_ctx s, f_mod f with None, None => true | Some a, Some b => N.eqb a b | _, _ => false end | [] => false end.
Lemma leavesb_ok P s : leavesb P s = true <-> leaves P s.
Proof.
  unfold leavesb, leaves, fetches. split.
  - destruct (s_frames s) as [|f r] eqn:F; [discriminate|]. destruct (get_module P (s_ctx s)) as [m|] eqn:G; [|discriminate]. destruct (vm_fetch _) as [[[o a] n]|] eqn:V; [|discriminate].
    intros H. destruct o; try discriminate H. destruct a; [|discriminate H]. exists f, r, m, n. auto.
  - intros (f & r & m & n & -> & -> & ->). reflexivity.
Qed.
Lemma entersb_ok P s : entersb P s = true <-> enters P s.
Proof.
  unfold entersb, enters, fetches. split.
  - destruct (s_frames s) as [|f r] eqn:F; [discriminate|]. destruct (get_module P (s_ctx s)) as [m|] eqn:G; [|discriminate]. destruct (vm_fetch _) as [[[o a] n]|] eqn:V; [|discriminate].
    intros H. destruct o; try discriminate H. destruct (op_pop s) as [[[] s']|] eqn:Q; try discriminate H. exists a, f0, s'. split; [|reflexivity]. exists f, r, m, n. auto.
  - intros (a & fn & s' & (f & r & m & n & -> & -> & ->) & ->). reflexivity.
Qed.
Fixpoint to_end (P : program) (n : nat) (s : state) : option state :=
  match n with
  | O => None
  | Datatypes.S n =>
      if leavesb P s then Some s else
      match step e0 P s with
      | SNext s1 =>
          if entersb P s then
            match to_end P n s1 with
            | Some t => if at_homeb s1 && leavesb P t && ((0 <=? frame_bp s1) || (s_sp t =? s_sp s1 + 1))%Z then
                          match step e0 P t with SNext s2 => to_end P n s2 | _ => None end
                        else None
            | None => None
            end
          else to_end P n s1
      | _ => Some s
      end
  end.
Lemma to_end_stays P n : forall s t, to_end P n s = Some t -> stays e0 P s t.
Proof.
  induction n as [|n IH]; intros s t H; [discriminate|]. cbn [to_end] in H. destruct (leavesb P s) eqn:L; [injection H as <-; constructor|].
  destruct (step e0 P s) as [s1| | |] eqn:ST; try (injection H as <-; constructor).
  assert (NL : ~ leaves P s) by (rewrite <- leavesb_ok; congruence).
  destruct (entersb P s) eqn:EN.
  - destruct (to_end P n s1) as [u|] eqn:T1; [|discriminate]. destruct (_ && _ && _)%bool eqn:Q; [|discriminate]. destruct (step e0 P u) as [s2| | |] eqn:SU; try discriminate.
    apply andb_true_iff in Q as [Q Q3]. apply andb_true_iff in Q as [Q1 Q2]. eapply st_call; [apply entersb_ok, EN|exact ST| |apply IH, T1|apply leavesb_ok, Q2| |exact SU|apply IH, H].
    + unfold at_homeb in Q1. unfold at_home. destruct (s_frames s1); [discriminate|]. destruct (s_ctx s1), (f_mod f); try discriminate; [apply N.eqb_eq in Q1; congruence|reflexivity].
    + apply orb_true_iff in Q3 as [Q3|Q3]; [left; now apply Z.leb_le|right; now apply Z.eqb_eq].
  - eapply st_step; [rewrite <- entersb_ok; congruence|exact NL|exact ST|apply IH, H].
Qed.
Definition start_of (main : amodule) : option (program * state) :=
  match built main [emb] with
  | Some P =>
      match run_imports e0 P 100 (initial_state P []) 0 (p_imports P) with
      | Finished s => match start_module e0 s None (p_main P) with Some s0 => Some (P, s0) | None => None end
      | _ => None
      end
  | None => None
  end.
Definition whole (main : amodule) : option (list N * Z * Z) :=
  match start_of main with
  | Some (P, s0) => match to_end P 400 s0 with Some t => Some (map f_ip (s_frames t), s_sp s0, s_sp t) | None => None end
  | None => None
  end.
Lemma whole_stays main ips a z : whole main = Some (ips, a, z) -> exists P s0 t, start_of main = Some (P, s0) /\ stays e0 P s0 t /\ map f_ip (s_frames t) = ips /\ s_sp s0 = a /\ s_sp t = z.
Proof.
  unfold whole. destruct (start_of main) as [[P s0]|]; [|discriminate]. destruct (to_end P 400 s0) as [t|] eqn:T; [|discriminate].
  intros [= <- <- <-]. exists P, s0, t. split; [reflexivity|]. split; [eapply to_end_stays, T|]. auto.
Qed.
(** The run stops at the division by zero (instruction 168) with its two
    operands on the stack. *)
Example C35_same_point_case : plain_body (mo_body prog1) = true /\ plain_body (mo_body prog2) = true /\ plain_body (mo_body prog_grow) = false /\
  option_map (fun x => at_homeb (snd x)) (start_of prog1) = Some true /\
  exists P s0 t, start_of prog1 = Some (P, s0) /\ stays e0 P s0 t /\ map f_ip (s_frames t) = [168%N] /\ s_sp s0 = 255%Z /\ s_sp t = 257%Z.
Proof. repeat (split; [vm_compute; reflexivity|]). apply whole_stays. vm_compute. reflexivity. Qed.
(** Code that adds without operands has no heights. *)
Example C35_points_near : ~ heights_ok [op_value OP_ADD; op_value HALT] [].
Proof.
  intros (l & h & D & H0 & _ & H). inversion D as [|code off o args n l' F L D']; subst. vm_compute in F. injection F as <- <- <-.
  destruct (H 0%N OP_ADD [] (or_introl eq_refl)) as (K & _). rewrite H0 in K. cbn in K. lia.
Qed.
