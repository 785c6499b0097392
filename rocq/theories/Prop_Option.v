(** C27 for every operand, of whatever form and value, in every program that is
    compiled.  The words used are in [Spec_Option.v]. *)
From Verif Require Import Base BaseFacts Bson BsonFacts Opcode Spec_Opcode Value Ast GenFacts LineFacts CodeGen VM Compile SemProg Spec_Sem Spec_Option Ex_Prog OptionRun.

(** [x == nulo], [nulo == x] and, with [neg], [x != nulo], [nulo != x] ([nl], [nr]:
    the left or the right side is [nulo]): after the code of [x] the machine
    tests the value [x] left, whatever it is. *)
Theorem C27_null_test : forall builtins main imports P m ln neg nl nr lx rx pr a b,
  build builtins main imports = PyOk (Some P) -> nl || nr = true ->
  code_of builtins main imports m (NBin ln (if neg : bool then BNe else BEq) nl nr lx rx pr) a b ->
  exists y, code_of builtins main imports m (if nl then rx else lx) (set_line a ln) y /\
  forall E s l v, stands m (ends y) (l ++ [v]) s ->
    exists k s' t, many E P k s s' /\ stands m (ends b) (l ++ [VBool t]) s' /\ only_moved s s' /\
      (neg = false -> (t = true <-> v = VNone)) /\ (neg = true -> (t = true <-> v <> VNone)).
Proof.
  intros bp main imports P m ln neg nl nr lx rx pr a b HB NN CO.
  destruct (null_step e0 P bp main imports m HB ln neg nl nr lx rx pr a b NN CO) as (y & CY & _). exists y. split; [exact CY|].
  intros E s l v ST. destruct (null_step E P bp main imports m HB ln neg nl nr lx rx pr a b NN CO) as (y' & CY' & Q).
  assert (y' = y). { destruct CY as (md & F & MA & _ & _ & G & _), CY' as (md' & F' & MA' & _ & _ & G' & _). rewrite MA in MA'. injection MA' as <-. rewrite G in G'. now apply pyok_inj in G'. } subst y'.
  destruct (Q s l v ST) as (k & s' & M & ST' & OM). exists k, s', (xorb neg (is_none v)). repeat (split; [assumption|]).
  split; intros ->; destruct v; cbn; split; intros; congruence.
Qed.
Print Assumptions C27_null_test.

(** [x.valor]: the value of [x], or the null-reference error. *)
Theorem C27_unwrap : forall builtins main imports P m ln x a b,
  build builtins main imports = PyOk (Some P) -> code_of builtins main imports m (NUnwrap ln x None) a b ->
  exists y, code_of builtins main imports m x (set_line a ln) y /\
  forall E s l v, stands m (ends y) (l ++ [v]) s ->
    (v = VNone -> exists trace s', step E P s = SErr ENull trace s' /\ only_moved s s') /\
    (v <> VNone -> exists s', step E P s = SNext s' /\ stands m (ends b) (l ++ [v]) s' /\ only_moved s s').
Proof.
  intros bp main imports P m ln x a b HB CO.
  destruct (unwrap_step e0 P bp main imports m HB ln x a b CO) as (y & CY & _). exists y. split; [exact CY|].
  intros E s l v ST. destruct (unwrap_step E P bp main imports m HB ln x a b CO) as (y' & CY' & Q).
  assert (y' = y). { destruct CY as (md & F & MA & _ & _ & G & _), CY' as (md' & F' & MA' & _ & _ & G' & _). rewrite MA in MA'. injection MA' as <-. rewrite G in G'. now apply pyok_inj in G'. } subst y'.
  specialize (Q s l v ST). split; intros H; [subst v; exact Q|]. destruct v; solve [exact Q|congruence].
Qed.
Print Assumptions C27_unwrap.

(** [x.valor_ou(d)]: the value of [x], or that of [d], which has been evaluated in
    any case. *)
Theorem C27_unwrap_or : forall builtins main imports P m ln x d a b,
  build builtins main imports = PyOk (Some P) -> code_of builtins main imports m (NUnwrap ln x (Some d)) a b ->
  exists y z, code_of builtins main imports m x (set_line a ln) y /\ code_of builtins main imports m d y z /\
  forall E s l v w, stands m (ends z) (l ++ [v; w]) s ->
    exists s' u, step E P s = SNext s' /\ stands m (ends b) (l ++ [u]) s' /\ only_moved s s' /\
      (v = VNone -> u = w) /\ (v <> VNone -> u = v).
Proof.
  intros bp main imports P m ln x d a b HB CO.
  destruct (unwrap_or_step e0 P bp main imports m HB ln x d a b CO) as (y & z & CY & CZ & _). exists y, z. split; [exact CY|]. split; [exact CZ|].
  intros E s l v w ST. destruct (unwrap_or_step E P bp main imports m HB ln x d a b CO) as (y' & z' & CY' & CZ' & Q).
  assert (y' = y). { destruct CY as (md & F & MA & _ & _ & G & _), CY' as (md' & F' & MA' & _ & _ & G' & _). rewrite MA in MA'. injection MA' as <-. rewrite G in G'. now apply pyok_inj in G'. } subst y'.
  assert (z' = z). { destruct CZ as (md & F & MA & _ & _ & G & _), CZ' as (md' & F' & MA' & _ & _ & G' & _). rewrite MA in MA'. injection MA' as <-. rewrite G in G'. now apply pyok_inj in G'. } subst z'.
  destruct (Q s l v w ST) as (s' & S & ST' & OM). exists s', (if is_none v then w else v). repeat (split; [assumption|]). split; intros H; [now subst v|]. destruct v; solve [reflexivity|congruence].
Qed.
Print Assumptions C27_unwrap_or.

(** ** A case
    <<
    1 x: int? = nulo
    2 mostra x != nulo
    3 mostra x.valor_ou(7)
    4 mostra x.valor
    >> *)
Definition prog_nulo : amodule := program_of [x_]
  [ decl 1 x_ "int" (NConst 1 KNulo (txt "nulo") false);
    NMostra 2 (NBin 2 BNe false true (var 2 x_) (NConst 2 KNulo (txt "nulo") false) false);
    NMostra 3 (NUnwrap 3 (var 3 x_) (Some (num 3 "7")));
    NMostra 4 (NUnwrap 4 (var 4 x_) None) ].
(** The generator after the first [i] statements. *)
Definition gen_upto (md : amodule) (i : nat) : pyres gst :=
  let! s := init_tables (mo_scope md) in seqm (gen (ctx_of [emb] emb_path md)) (firstn i (mo_body md)) (enter s (mo_scope md)).
Lemma shown_code md F i ln x : mo_builtin md = false -> gen_module (ctx_of [emb] emb_path md) md = PyOk F -> nth_error (mo_body md) i = Some (NMostra ln x) ->
  exists a b, gen_upto md i = PyOk a /\ code_of emb_path md [emb] None x (set_line a ln) b.
Proof.
  intros NB GM N. pose proof GM as GM0. set (C := ctx_of [emb] emb_path md) in *. unfold gen_module in GM0. apply pbind_ok in GM0 as (s0 & I & GM0). apply pbind_ok in GM0 as (s1 & G & GM0). apply pyok_inj in GM0.
  assert (EB : mo_body md = firstn i (mo_body md) ++ NMostra ln x :: skipn (Datatypes.S i) (mo_body md)).
  { clear - N. revert N. generalize (mo_body md). induction i; intros [|y l] N; cbn in *; try discriminate; [injection N as ->; reflexivity|]. now rewrite <- IHi. }
  rewrite EB in G. apply seqm_app in G as (a & GA & G). cbn [seqm] in G. apply pbind_ok in G as (b' & GB & G). cbn [gen node_line] in GB. apply pbind_ok in GB as (b & GX & GB). apply pyok_inj in GB.
  exists a, b. split; [unfold gen_upto; rewrite I; exact GA|]. exists md, F. repeat (split; [solve [assumption|reflexivity]|]).
  assert (GS : gs (List.length (g_labels b')) b' s1). { eapply gs_seqm; [|reflexivity|exact G]. intros y _ u v U. apply (proj1 (proj1 (gen_gs C y)) u v U). }
  destruct (gx_ops _ _ _ (proj1 GS)) as (t & ET). destruct (gx_names _ _ _ (proj1 GS)) as (t2 & ET2). subst F b'. cbn in *. rewrite ET, ET2. split; eexists; rewrite <- ?app_assoc; reflexivity.
Qed.
Lemma stat_code md F i x : mo_builtin md = false -> gen_module (ctx_of [emb] emb_path md) md = PyOk F -> nth_error (mo_body md) i = Some x ->
  exists a b, gen_upto md i = PyOk a /\ code_of emb_path md [emb] None x a b.
Proof.
  intros NB GM N. pose proof GM as GM0. set (C := ctx_of [emb] emb_path md) in *. unfold gen_module in GM0. apply pbind_ok in GM0 as (s0 & I & GM0). apply pbind_ok in GM0 as (s1 & G & GM0). apply pyok_inj in GM0.
  assert (EB : mo_body md = firstn i (mo_body md) ++ x :: skipn (Datatypes.S i) (mo_body md)).
  { clear - N. revert N. generalize (mo_body md). induction i; intros [|y l] N; cbn in *; try discriminate; [injection N as ->; reflexivity|]. now rewrite <- IHi. }
  rewrite EB in G. apply seqm_app in G as (a & GA & G). cbn [seqm] in G. apply pbind_ok in G as (b & GX & G).
  exists a, b. split; [unfold gen_upto; rewrite I; exact GA|]. exists md, F. repeat (split; [solve [assumption|reflexivity]|]).
  assert (GS : gs (List.length (g_labels b)) b s1). { eapply gs_seqm; [|reflexivity|exact G]. intros y _ u v U. apply (proj1 (proj1 (gen_gs C y)) u v U). }
  destruct (gx_ops _ _ _ (proj1 GS)) as (t & ET). destruct (gx_names _ _ _ (proj1 GS)) as (t2 & ET2). subst F. cbn in *. rewrite ET, ET2. split; eexists; rewrite <- ?app_assoc; reflexivity.
Qed.
Fixpoint after_steps (P : program) (n : nat) (s : state) : option state :=
  match n with O => Some s | Datatypes.S n => match step e0 P s with SNext s1 => after_steps P n s1 | _ => None end end.
Lemma after_many P n : forall s t, after_steps P n s = Some t -> many e0 P n s t.
Proof. induction n; cbn; intros s t H; [injection H as <-; constructor|]. destruct (step e0 P s) as [s1| | |] eqn:S; try discriminate. econstructor; eauto. Qed.
Definition start_of_main (main : amodule) : option (program * state) :=
  match build emb_path main [emb] with
  | PyOk (Some P) =>
      match run_imports e0 P 100 (initial_state P []) 0 (p_imports P) with
      | Finished s => match start_module e0 s None (p_main P) with Some s0 => Some (P, s0) | None => None end
      | _ => None
      end
  | _ => None
  end.
(** What the machine has after [n] steps: the position and the values above the
    256 the stack begins with. *)
Definition spot (main : amodule) (n : nat) : option (N * list value) :=
  match start_of_main main with
  | Some (P, s0) =>
      match after_steps P n s0 with
      | Some s => match s_ctx s, s_frames s with
                  | None, f :: _ => if (s_sp s =? zlen (s_vals s) - 1)%Z && (256 <=? List.length (s_vals s)) then Some (f_ip f, skipn 256 (s_vals s)) else None
                  | _, _ => None
                  end
      | None => None
      end
  | None => None
  end.
Lemma spot_stands main n ip vs : spot main n = Some (ip, vs) -> exists P s0 s l, build emb_path main [emb] = PyOk (Some P) /\ main_start e0 P [] s0 /\ many e0 P n s0 s /\ stands None ip (l ++ vs) s.
Proof.
  unfold spot, start_of_main. destruct (build emb_path main [emb]) as [[P|]|]; try discriminate. destruct (run_imports _ _ _ _ _ _) as [s1| | |] eqn:RI; try discriminate.
  destruct (start_module _ _ _ _) as [s0|] eqn:SM; [|discriminate]. destruct (after_steps P n s0) as [s|] eqn:AS; [|discriminate].
  destruct (s_ctx s) eqn:CX; [discriminate|]. destruct (s_frames s) as [|f r] eqn:FR; [discriminate|]. destruct (_ && _) eqn:Q; [|discriminate]. intros [= <- <-].
  apply andb_true_iff in Q as [Q _]. apply Z.eqb_eq in Q.
  exists P, s0, s, (firstn 256 (s_vals s)). split; [reflexivity|]. split; [exists 100, s1; auto|]. split; [apply after_many, AS|].
  split; [exact CX|]. split; [exists f, r; auto|]. exists []. rewrite firstn_skipn, app_nil_r. auto.
Qed.
Lemma nulo_code i ln x : nth_error (mo_body prog_nulo) i = Some (NMostra ln x) -> exists a b, gen_upto prog_nulo i = PyOk a /\ code_of emb_path prog_nulo [emb] None x (set_line a ln) b.
Proof. intros N. destruct (gen_module (ctx_of [emb] emb_path prog_nulo) prog_nulo) as [F|] eqn:GM; [|vm_compute in GM; discriminate GM]. exact (shown_code prog_nulo F i ln x eq_refl GM N). Qed.
(** Where the code of the operands of the statement [i] ends. *)
Definition end_of (main : amodule) (i : nat) (ln : Z) (xs : list node) : option N :=
  match gen_upto main i with
  | PyOk a => match seqm (gen (ctx_of [emb] emb_path main)) xs (set_line (set_line a ln) ln) with PyOk y => Some (ends y) | _ => None end
  | _ => None
  end.
Example C27_null_test_case : exists a b P s0 k s l ip,
  build emb_path prog_nulo [emb] = PyOk (Some P) /\
  code_of emb_path prog_nulo [emb] None (NBin 2 BNe false true (var 2 x_) (NConst 2 KNulo (txt "nulo") false) false) a b /\
  end_of prog_nulo 1 2 [var 2 x_] = Some ip /\ main_start e0 P [] s0 /\ many e0 P k s0 s /\ stands None ip (l ++ [VNone]) s.
Proof.
  destruct (nulo_code 1 2 _ eq_refl) as (a & b & _ & CO). destruct (spot_stands prog_nulo 3 9%N [VNone]) as (P & s0 & s & l & HB & MS & MN & ST); [vm_compute; reflexivity|].
  exists (set_line a 2), b, P, s0, 3, s, l, 9%N. repeat (split; [solve [assumption|vm_compute; reflexivity]|]). exact ST.
Qed.
Example C27_unwrap_or_case : exists a b P s0 k s l ip,
  build emb_path prog_nulo [emb] = PyOk (Some P) /\ code_of emb_path prog_nulo [emb] None (NUnwrap 3 (var 3 x_) (Some (num 3 "7"))) a b /\
  end_of prog_nulo 2 3 [var 3 x_; num 3 "7"] = Some ip /\ main_start e0 P [] s0 /\ many e0 P k s0 s /\ stands None ip (l ++ [VNone; VInt 7]) s.
Proof.
  destruct (nulo_code 2 3 _ eq_refl) as (a & b & _ & CO). destruct (spot_stands prog_nulo 8 18%N [VNone; VInt 7]) as (P & s0 & s & l & HB & MS & MN & ST); [vm_compute; reflexivity|].
  exists (set_line a 3), b, P, s0, 8, s, l, 18%N. repeat (split; [solve [assumption|vm_compute; reflexivity]|]). exact ST.
Qed.
Example C27_unwrap_case : exists a b P s0 k s l ip,
  build emb_path prog_nulo [emb] = PyOk (Some P) /\ code_of emb_path prog_nulo [emb] None (NUnwrap 4 (var 4 x_) None) a b /\
  end_of prog_nulo 3 4 [var 4 x_] = Some ip /\ main_start e0 P [] s0 /\ many e0 P k s0 s /\ stands None ip (l ++ [VNone]) s.
Proof.
  destruct (nulo_code 3 4 _ eq_refl) as (a & b & _ & CO). destruct (spot_stands prog_nulo 11 24%N [VNone]) as (P & s0 & s & l & HB & MS & MN & ST); [vm_compute; reflexivity|].
  exists (set_line a 4), b, P, s0, 11, s, l, 24%N. repeat (split; [solve [assumption|vm_compute; reflexivity]|]). exact ST.
Qed.
