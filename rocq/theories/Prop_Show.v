(** C11 (values of conversions), C30 (union values at run time), C42 (what
    [mostra] prints). *)
From Coq Require Import Floats.SpecFloat.
From Verif Require Import Base Bson Dec Float Opcode Value VM Ast CodeGen Types Spec_Value Spec_Tables Spec_Types Spec_VM Spec_Show SimVM TableFacts ShowFacts.
Local Open Scope Z_scope.

(** ** C42 *)
(** [mostra] writes the text of the value and a line end; it crashes exactly on
    values that have no text. *)
Theorem C42_mostra E P s v : next_op P s MOSTRA [] -> on_top s [v] ->
  (forall t, prints E (w_heap (s_world s)) v t ->
     exists s', step E P s = SNext s' /\ w_out (s_world s') = w_out (s_world s) ++ t ++ [10%N] /\
       w_heap (s_world s') = w_heap (s_world s)) /\
  ((forall t, ~ prints E (w_heap (s_world s)) v t) -> step E P s = SPanic).
Proof. exact (run_mostra E P s v). Qed.
Print Assumptions C42_mostra.
(** A value has at most one text. *)
Theorem C42_one_text E h v t u : prints E h v t -> prints E h v u -> t = u.
Proof. intros H K. apply show_iff in H. apply show_iff in K. congruence. Qed.
Print Assumptions C42_one_text.
Definition ext0 : ext := mkExt (fun _ => []) (fun _ => []) (fun _ _ => f_zero) f_zero false.
Definition one_op (o : opcode) (args : list N) : program :=
  mkProgram (mkModule (txt "m") false [] [] (op_value o :: args) [] 0 [] []) [].
Definition stopped (vs : list value) (bp : Z) (h : heap) : state :=
  mkState None [mkFrame (txt "f") 0 0 bp None] vs (zlen vs - 1) (mkWorld h [] []) [] [].
Example C42_case : exists h v t, next_op (one_op MOSTRA []) (stopped [v] 0 h) MOSTRA [] /\ on_top (stopped [v] 0 h) [v] /\
  prints ext0 h v t /\ t = txt "[1, [verdadeiro, -20], a]".
Proof.
  exists [CVec [VInt 1; VVec 1; VStr (txt "a")]; CVec [VBool true; VInt (-20)]], (VVec 0). eexists. split.
  { repeat eexists; reflexivity. }
  split; [exists [], []; split; reflexivity|]. split; [|reflexivity]. apply show_iff. reflexivity.
Qed.
(** A vector that contains itself has no text. *)
Theorem C42_cycle_refuted E P s : w_heap (s_world s) = [CVec [VVec 0]] -> next_op P s MOSTRA [] -> on_top s [VVec 0] ->
  step E P s = SPanic.
Proof.
  intros H N T. apply (proj2 (run_mostra E P s (VVec 0) N T)). rewrite H. intros t X. apply show_iff in X. discriminate X.
Qed.
Print Assumptions C42_cycle_refuted.
Example C42_cycle_case : next_op (one_op MOSTRA []) (stopped [VVec 0] 0 [CVec [VVec 0]]) MOSTRA [] /\
  on_top (stopped [VVec 0] 0 [CVec [VVec 0]]) [VVec 0].
Proof. split; [repeat eexists; reflexivity|]. exists [], []. split; reflexivity. Qed.

(** ** C11 *)
(** The value an accepted conversion between basic types gives (missing: other
    types, see C11_indef_refuted and C11_option_refuted). *)
Theorem C11_values_partial E h p q t v : basic p -> basic q -> val_prim v p -> p <> q -> vty_of q = Some t ->
  check_cast (TyPrim p) (TyPrim q) = PyOk true -> forall r, vcast E h v t = r <-> converts E h v q r.
Proof. exact (cast_value E h p q t v). Qed.
Print Assumptions C11_values_partial.
(** An [int] of less than 53 bits is not changed by going through [real]. *)
Theorem C11_int_real_int E h z : - 2 ^ 53 < z < 2 ^ 53 ->
  exists f, vcast E h (VInt z) TyReal = ROk (VF64 f) /\ vcast E h (VF64 f) TyInt = ROk (VInt z).
Proof.
  intros H. exists (f_of_Z z). split; [reflexivity|]. cbn. rewrite (to_i64_clamped _ _ (small_part z H)). unfold clamped. do 2 f_equal. lia.
Qed.
Print Assumptions C11_int_real_int.
Example C11_values_case : check_cast (TyPrim TReal) (TyPrim TInt) = PyOk true /\ val_prim (VF64 (f_of_me (-7) (-1))) TReal /\
  converts ext0 [] (VF64 (f_of_me (-7) (-1))) TInt (ROk (VInt (-3))) /\
  converts ext0 [] (VStr (txt "+12")) TInt (ROk (VInt 12)) /\
  converts ext0 [] (VStr (txt "1 2")) TInt (RErr (ENotInt (txt "1 2"))).
Proof.
  split; [reflexivity|]. split; [eexists; reflexivity|]. split; [|split].
  - apply (cv_real_int ext0 [] _ (-3)). vm_compute. repeat split; discriminate.
  - apply (C11_values_partial ext0 [] TTexto TInt TyInt); unfold basic; auto; try discriminate; try reflexivity. eexists. reflexivity.
  - apply (C11_values_partial ext0 [] TTexto TInt TyInt); unfold basic; auto; try discriminate; try reflexivity. eexists. reflexivity.
Qed.

(** ** C30 *)
(** Building a value of variant [b], testing it against variant [a] and taking
    its arguments out again, in a program that declares the variants [decls]. *)
Theorem C30_round_trip E P decls a b ta tb args : let g := fold_left variant_index decls init_gst in
  variant_tag g a = PyOk ta -> variant_tag g b = PyOk tb -> Z.of_nat (List.length decls) < 2 ^ 16 ->
  exists v,
    (forall s, next_op P s BUILD_VARIANT [N.of_nat (List.length args)] -> on_top s (args ++ [VInt (Z.of_N tb)]) ->
       exists s', step E P s = SNext s' /\ on_top s' [v]) /\
    (forall s, next_op P s MATCH_VARIANT [ta] -> on_top s [v] ->
       exists s' r, step E P s = SNext s' /\ on_top s' [VBool r] /\ (r = true <-> a = b)) /\
    (forall s ks, next_op P s BIND_MATCH_ARGS [N.of_nat (List.length ks)] -> on_top s (v :: map (fun k => VInt (Z.of_N k)) ks) ->
       ks <> [] -> NoDup ks -> List.length ks = List.length args -> Forall (is_slot s (1 + List.length ks)) ks ->
       exists s', step E P s = SNext s' /\ forall i k x, nth_error ks i = Some k -> nth_error args i = Some x -> slot s' k = Some x).
Proof.
  cbv zeta. intros Ta Tb L. exists (VVariant tb (match args with [] => None | _ => Some args end)).
  split; [|split].
  - intros s N T. apply run_build; [exact N|exact T|]. pose proof (tag_small decls b tb Tb).
    lia.
  - intros s N T. destruct (run_match E P s ta _ _ N T) as (s' & St & T'). exists s', (ta =? tb)%N. split; [exact St|]. split; [exact T'|].
    rewrite N.eqb_eq. split; [|intros ->; congruence].
    intros ->. exact (variant_tag_inj _ a b tb Ta Tb).
  - intros s ks N T NE ND LE F. destruct args as [|x args]; [destruct ks; [contradiction|discriminate LE]|].
    apply (run_bind E P s ks tb (x :: args) N T NE ND); [lia|exact F].
Qed.
Print Assumptions C30_round_trip.
Example C30_case : exists s, next_op (one_op BIND_MATCH_ARGS [2%N]) s BIND_MATCH_ARGS [2%N] /\
  on_top s (VVariant 1 (Some [VInt 7; VInt 8]) :: map (fun k => VInt (Z.of_N k)) [1%N; 0%N]) /\
  Forall (is_slot s (1 + 2)) [1%N; 0%N] /\
  exists s', step ext0 (one_op BIND_MATCH_ARGS [2%N]) s = SNext s' /\ slot s' 0 = Some (VInt 8) /\ slot s' 1 = Some (VInt 7).
Proof.
  exists (stopped [VNone; VNone; VVariant 1 (Some [VInt 7; VInt 8]); VInt 1; VInt 0] 0 []). split; [repeat eexists; reflexivity|].
  split; [exists [VNone; VNone], []; split; reflexivity|]. split; [|eexists; split; [reflexivity|split; reflexivity]].
  repeat constructor; cbn; lia.
Qed.
