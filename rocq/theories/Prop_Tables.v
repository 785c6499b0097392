(** C07 (recursion limit), C16 (literals), C30 (variant tags), C31 (tables). *)
From Verif Require Import Base Bson Dec Float Opcode Value VM Ast CodeGen Spec_Value Spec_VM Spec_Tables VMFacts TableFacts.
Local Open Scope Z_scope.

(** ** C07 *)
(** From the start of any module, no execution ever holds more than 1000 frames. *)
Theorem C07_bounded E P s i m s0 s' : start_module E s i m = Some s0 -> reaches E P s0 s' ->
  (List.length (s_frames s') <= 1000)%nat.
Proof.
  intros St R. refine (reaches_frames E P s0 s' R _). unfold start_module in St.
  destruct (initialize E m (get_globs s i)); [|discriminate]. injection St as <-. unfold recursion_limit. cbn. lia.
Qed.
Print Assumptions C07_bounded.
(** A call of a program function is accepted below the limit and is the
    recursion error at the limit. *)
Theorem C07_call E P s f n : next_op P s CALL_FUNCTION [n] -> top s (VFunc f) -> (n <= fn_locals f)%N ->
  ((List.length (s_frames s) < 1000)%nat ->
     exists s', step E P s = SNext s' /\ List.length (s_frames s') = S (List.length (s_frames s))) /\
  ((1000 <= List.length (s_frames s))%nat -> exists tr s', step E P s = SErr ERecursion tr s').
Proof. exact (call_limit E P s f n). Qed.
Print Assumptions C07_call.
(** A program whose main module is [loop: GET_GLOBAL f; CALL_FUNCTION 0] runs
    into the limit. *)
Definition C07_module : vmodule :=
  mkModule (txt "m") false [] [txt "f"]
    [op_value GET_GLOBAL; 0; 0; op_value CALL_FUNCTION; 0]%N
    [] 0 [mkFunc (txt "f") 0 0 None] [].
Example C07_ex : exists E s0 tr s',
  start_module E (initial_state (mkProgram C07_module []) []) None C07_module = Some s0 /\
  loop E (mkProgram C07_module []) 2000 s0 = Some (SErr ERecursion tr s') /\
  List.length (s_frames s') = 1000%nat.
Proof.
  exists (mkExt (fun _ => []) (fun _ => []) (fun _ _ => f_zero) f_zero false). eexists _, _, _.
  split; [vm_compute; reflexivity|]. split; [vm_compute; reflexivity|]. vm_compute. reflexivity.
Qed.
Example C07_call_ex : exists P s f, next_op P s CALL_FUNCTION [0%N] /\ top s (VFunc f) /\ (0 <= fn_locals f)%N.
Proof.
  exists (mkProgram (mkModule [] false [] [] [op_value CALL_FUNCTION; 0]%N [] 0 [] []) []),
         (mkState None [mkFrame [] 0 0 0 None] [VFunc (mkFunc [] 0 0 None)] 0 (mkWorld [] [] []) [] []),
         (mkFunc [] 0 0 None).
  split; [|split; [|cbn; lia]].
  - eexists _, _, _, _. repeat split.
  - eexists. reflexivity.
Qed.

(** ** C16 *)
Theorem C16_int t : digits t -> fits (digits_number 0 t) -> const_from_str t = Some (VInt (digits_number 0 t)).
Proof. exact (const_int t). Qed.
Print Assumptions C16_int.
Theorem C16_text q s : (q = 34 \/ q = 39)%N -> const_from_str (q :: s ++ [q]) = Some (VStr s).
Proof. exact (const_text q s). Qed.
Print Assumptions C16_text.
(** A literal [digits . digits] is the double its decimal value rounds to. *)
Theorem C16_real a b : digits a -> digits b ->
  exists f, parse_f64 (a ++ 46%N :: b) = Some f /\ const_from_str (a ++ 46%N :: b) = Some (VF64 f).
Proof. exact (const_real a b). Qed.
Print Assumptions C16_real.
Theorem C16_keywords :
  const_from_str (txt "verdadeiro") = Some (VBool true) /\ const_from_str (txt "falso") = Some (VBool false) /\
  const_from_str (txt "nulo") = Some VNone.
Proof. repeat split. Qed.
Print Assumptions C16_keywords.
Example C16_ex : digits (txt "0042") /\ fits (digits_number 0 (txt "0042")) /\ digits_number 0 (txt "0042") = 42 /\
  const_from_str (txt "'007'") = Some (VStr (txt "007")) /\ const_from_str (txt "0.1") = Some (VF64 (f_of_decimal false 1 (-1))).
Proof.
  split; [split; [discriminate|]; repeat (constructor; [cbn; lia|]); constructor|]. split; [unfold fits; cbn; lia|].
  split; [reflexivity|]. split; vm_compute; reflexivity.
Qed.
(** Text pieces of f-strings carry no quotes, so they do not stay text: f"007{x}"
    prints 7, f"falso{x}" a boolean, a piece starting with a non-ASCII letter
    stops the VM. *)
Theorem C16_fstring_refuted :
  const_from_str (txt "007") = Some (VInt 7) /\ const_from_str (txt "falso") = Some (VBool false) /\
  const_from_str [225; 32]%N = None.
Proof. repeat split. Qed.
Print Assumptions C16_fstring_refuted.

(** ** C30 *)
(** Tags of the variants of a program are different for different variants, and
    every declared variant has one. *)
Theorem C30_tags decls : let s := fold_left variant_index decls init_gst in
  (forall v, In v decls -> exists i, variant_tag s v = PyOk i) /\
  (forall a b i, variant_tag s a = PyOk i -> variant_tag s b = PyOk i -> a = b).
Proof.
  split; [intros v H; exact (variant_declared decls init_gst v (or_intror H))|].
  intros a b i. exact (variant_tag_inj _ a b i).
Qed.
Print Assumptions C30_tags.
Example C30_ex : variant_tag (fold_left variant_index [txt "A"; txt "B"] init_gst) (txt "B") = PyOk 1%N.
Proof. reflexivity. Qed.

(** ** C31 *)
Theorem C31_constants ks s' is : requests const_index init_gst ks = PyOk (s', is) ->
  Forall2 (fun k i => nth_error (g_consts s') (N.to_nat i) = Some k /\ (i < 2 ^ 16 - 1)%N) ks is /\
  (forall a b i j k l, nth_error ks a = Some k -> nth_error ks b = Some l ->
     nth_error is a = Some i -> nth_error is b = Some j -> (k = l <-> i = j)).
Proof.
  intros R. pose proof (requests_spec const_index g_consts const_index_spec _ _ _ _ R (NoDup_nil _)) as (_ & _ & F).
  exact (conj F (requests_inj const_index g_consts const_index_spec _ _ _ _ R (NoDup_nil _))).
Qed.
Print Assumptions C31_constants.
Theorem C31_names ks s' is : requests name_index init_gst ks = PyOk (s', is) ->
  Forall2 (fun k i => nth_error (g_names s') (N.to_nat i) = Some k /\ (i < 2 ^ 16 - 1)%N) ks is /\
  (forall a b i j k l, nth_error ks a = Some k -> nth_error ks b = Some l ->
     nth_error is a = Some i -> nth_error is b = Some j -> (k = l <-> i = j)).
Proof.
  intros R. pose proof (requests_spec name_index g_names name_index_spec _ _ _ _ R (NoDup_nil _)) as (_ & _ & F).
  exact (conj F (requests_inj name_index g_names name_index_spec _ _ _ _ R (NoDup_nil _))).
Qed.
Print Assumptions C31_names.
Theorem C31_refuses s k :
  (exists p, const_index s k = PyOk p) \/
  (const_index s k = PyErr AssertErr /\ (2 ^ 16 - 1 <= N.of_nat (List.length (g_consts s)))%N).
Proof. exact (const_index_refuse s k). Qed.
Print Assumptions C31_refuses.
Example C31_ex : exists s', requests const_index init_gst [CText (txt "1"); CInt 1; CText (txt "1")] = PyOk (s', [0; 1; 0]%N).
Proof. eexists. vm_compute. reflexivity. Qed.
