(** C08, C09, C23, C26, C32 and C42 in programs: what an operator, an index, a field, a format string or a [mostra]
    written in the source does, in every compiled program and for operands of any form.  The
    words used are in [Spec_Option.v] and [Spec_Value.v]. *)
From Verif Require Import Base BaseFacts Bson BsonFacts Opcode Spec_Opcode Float Value ValueFacts Ast CodeGen VM Compile SemProg Spec_Value Spec_Sem Spec_Option Ex_Prog OptionRun OperateRun
  Prop_Value Prop_Heap Prop_Option Spec_Show ShowFacts.

(** The machine's next step takes the operands away, leaves [u] on the stack [l]
    and does nothing else; or it stops with the error. *)
Definition leaves_value (E : ext) (P : program) (m : option N) (ip : N) (l : list value) (u : value) (s : state) : Prop :=
  exists s', step E P s = SNext s' /\ stands m ip (l ++ [u]) s' /\ only_moved s s'.
Definition stops_with (E : ext) (P : program) (e : errmsg) (s : state) : Prop :=
  exists trace s', step E P s = SErr e trace s' /\ only_moved s s'.

(** ** C08: [l + r], [l - r], [l * r] on integers *)
Definition int_op (op : bop) (a b : Z) : option Z :=
  match op with BAdd => Some (a + b) | BSub => Some (a - b) | BMul => Some (a * b) | _ => None end%Z.
Theorem C08_compiled : forall builtins main imports P m ln op lx rx pr a b,
  build builtins main imports = PyOk (Some P) -> code_of builtins main imports m (NBin ln op false false lx rx pr) a b ->
  exists y z, code_of builtins main imports m lx (set_line a ln) y /\ code_of builtins main imports m rx y z /\ (pr = false -> ends b = ends z + 1)%N /\
  forall E s l i j, fits i -> fits j -> stands m (ends z) (l ++ [VInt i; VInt j]) s ->
    (forall k, int_op op i j = Some k ->
       (fits k -> leaves_value E P m (ends z + 1) l (VInt k) s) /\ (~ fits k -> stops_with E P EArith s)) /\
    (op = BFloorDiv -> j <> 0%Z -> fits (Z.quot i j) -> leaves_value E P m (ends z + 1) l (VInt (Z.quot i j)) s) /\
    (op = BMod -> j <> 0%Z -> ~ (i = - 2 ^ 63 /\ j = -1)%Z -> leaves_value E P m (ends z + 1) l (VInt (Z.rem i j)) s) /\
    (op = BFloorDiv \/ op = BDiv -> j = 0%Z -> stops_with E P EDivZero s) /\
    (op = BMod -> j = 0%Z -> stops_with E P EModZero s).
Proof.
  intros bp main imports P m ln op lx rx pr a b HB CO. destruct (binop_forms P bp main imports m HB ln op lx rx pr a b CO) as (y & z & CY & CZ & EB & R).
  exists y, z. split; [exact CY|]. split; [exact CZ|]. split; [exact EB|]. intros E s l i j Fi Fj ST. pose proof (R E s l _ _ ST) as Q. unfold leaves_value, stops_with.
  destruct (C08_add_sub_mul i j Fi Fj) as ((A1 & A2) & (S1 & S2) & (M1 & M2)).
  split; [|split; [|split; [|split]]].
  - intros k K. destruct op; try discriminate K; injection K as <-; split; intros FK.
    + rewrite (A1 FK) in Q. exact Q.
    + rewrite (A2 FK) in Q. exact Q.
    + rewrite (S1 FK) in Q. exact Q.
    + rewrite (S2 FK) in Q. exact Q.
    + rewrite (M1 FK) in Q. exact Q.
    + rewrite (M2 FK) in Q. exact Q.
  - intros -> NZ FK. destruct (C08_floordiv i j Fi Fj NZ) as (D & _). rewrite (D FK) in Q. exact Q.
  - intros -> NZ NM. rewrite (C08_rem i j Fi Fj NZ NM) in Q. exact Q.
  - intros O ->. destruct (C08_zero_divisor i Fi) as (Z1 & _ & Z3). destruct O as [-> | ->]; [rewrite Z1 in Q|rewrite Z3 in Q]; exact Q.
  - intros -> ->. destruct (C08_zero_divisor i Fi) as (_ & Z2 & _). rewrite Z2 in Q. exact Q.
Qed.
Print Assumptions C08_compiled.

(** ** C09: comparisons and logic *)
Theorem C09_compiled : forall builtins main imports P m ln op lx rx pr a b,
  build builtins main imports = PyOk (Some P) -> code_of builtins main imports m (NBin ln op false false lx rx pr) a b ->
  exists y z, code_of builtins main imports m lx (set_line a ln) y /\ code_of builtins main imports m rx y z /\ (pr = false -> ends b = ends z + 1)%N /\
  forall E s l v w, stands m (ends z) (l ++ [v; w]) s ->
    (forall i j, v = VInt i -> w = VInt j -> is_comparison op = true -> exists t, leaves_value E P m (ends z + 1) l (VBool t) s /\ (t = true <-> int_rel op i j)) /\
    (forall x' y', v = VF64 x' -> w = VF64 y' -> is_comparison op = true -> exists t, leaves_value E P m (ends z + 1) l (VBool t) s /\ (t = true <-> real_rel op x' y')) /\
    (forall i x', v = VInt i -> w = VF64 x' -> is_comparison op = true -> exists t, leaves_value E P m (ends z + 1) l (VBool t) s /\ (t = true <-> real_rel op (f_of_Z i) x')) /\
    (forall x' j, v = VF64 x' -> w = VInt j -> is_comparison op = true -> exists t, leaves_value E P m (ends z + 1) l (VBool t) s /\ (t = true <-> real_rel op x' (f_of_Z j))) /\
    (forall p q, v = VStr p -> w = VStr q -> op = BEq -> exists t, leaves_value E P m (ends z + 1) l (VBool t) s /\ (t = true <-> p = q)) /\
    (forall p q, v = VStr p -> w = VStr q -> op = BNe -> exists t, leaves_value E P m (ends z + 1) l (VBool t) s /\ (t = true <-> p <> q)) /\
    (forall p q, v = VBool p -> w = VBool q -> op = BAnd -> leaves_value E P m (ends z + 1) l (VBool (p && q)) s) /\
    (forall p q, v = VBool p -> w = VBool q -> op = BOr -> leaves_value E P m (ends z + 1) l (VBool (p || q)) s).
Proof.
  intros bp main imports P m ln op lx rx pr a b HB CO. destruct (binop_forms P bp main imports m HB ln op lx rx pr a b CO) as (y & z & CY & CZ & EB & R).
  exists y, z. split; [exact CY|]. split; [exact CZ|]. split; [exact EB|]. intros E s l v w ST. pose proof (R E s l _ _ ST) as Q. unfold leaves_value.
  repeat split; intros p q -> ->; intros O.
  - destruct (C09_int op p q O) as (t & T & I). rewrite T in Q. exists t. split; [exact Q|exact I].
  - destruct (C09_real op p q O) as (t & T & I). rewrite T in Q. exists t. split; [exact Q|exact I].
  - destruct (C09_mixed op p q O) as (T1 & _). destruct (C09_real op (f_of_Z p) q O) as (t & T & I). rewrite T1, T in Q. exists t. split; [exact Q|exact I].
  - destruct (C09_mixed op q p O) as (_ & T1). destruct (C09_real op p (f_of_Z q) O) as (t & T & I). rewrite T1, T in Q. exists t. split; [exact Q|exact I].
  - subst op. destruct (C09_text p q) as ((t & T & I) & _). rewrite T in Q. exists t. split; [exact Q|exact I].
  - subst op. destruct (C09_text p q) as (_ & (t & T & I)). rewrite T in Q. exists t. split; [exact Q|exact I].
  - subst op. destruct (C09_bool p q) as (T & _). rewrite T in Q. exact Q.
  - subst op. destruct (C09_bool p q) as (_ & T & _). rewrite T in Q. exact Q.
Qed.
Print Assumptions C09_compiled.

(** ** C23: [t[i]] and [t[i] = x] *)
Theorem C23_read_compiled : forall builtins main imports P m ln tx ix a b,
  build builtins main imports = PyOk (Some P) -> code_of builtins main imports m (NIndex ln tx ix) a b ->
  exists y z, code_of builtins main imports m tx (set_line a ln) y /\ code_of builtins main imports m ix y z /\
  forall E s l r i vs, stands m (ends z) (l ++ [VVec r; VInt i]) s -> nth_error (w_heap (s_world s)) r = Some (CVec vs) ->
    (forall v, (0 <= i)%Z -> nth_error vs (Z.to_nat i) = Some v -> leaves_value E P m (ends b) l v s) /\
    (~ (0 <= i < Z.of_nat (List.length vs))%Z -> stops_with E P EIdxNegVec s \/ stops_with E P (EIdxVec (Z.of_nat (List.length vs)) i) s).
Proof.
  intros bp main imports P m ln tx ix a b HB CO. destruct (index_forms P bp main imports m HB ln tx ix a b CO) as (y & z & CY & CZ & R).
  exists y, z. split; [exact CY|]. split; [exact CZ|]. intros E s l r i vs ST H. pose proof (R E s l _ _ ST) as Q. destruct (C23_read E _ r vs i H) as (K1 & K2). split.
  - intros v I N. rewrite (K1 v I N) in Q. exact Q.
  - intros O. destruct (K2 O) as (e & X & D). rewrite X in Q. destruct D as [-> | ->]; [left|right]; exact Q.
Qed.
Print Assumptions C23_read_compiled.
Theorem C23_write_compiled : forall builtins main imports P m ln tx ix vx a b,
  build builtins main imports = PyOk (Some P) -> code_of builtins main imports m (NIndexSet ln tx ix vx) a b ->
  exists y z u, code_of builtins main imports m tx (set_line a ln) y /\ code_of builtins main imports m ix y z /\ code_of builtins main imports m vx z u /\
  forall E s l r i x vs, stands m (ends u) (l ++ [VVec r; VInt i; x]) s -> nth_error (w_heap (s_world s)) r = Some (CVec vs) ->
    ((0 <= i < Z.of_nat (List.length vs))%Z ->
       exists s' t h' vs', step E P s = SNext s' /\ stands m (ends b) l s' /\ only_moved s t /\ s' = with_world t (set_heap (s_world s) h') /\
         same_elsewhere (w_heap (s_world s)) h' r /\ nth_error h' r = Some (CVec vs') /\ List.length vs' = List.length vs /\
         nth_error vs' (Z.to_nat i) = Some x /\ forall j, j <> Z.to_nat i -> nth_error vs' j = nth_error vs j) /\
    (~ (0 <= i < Z.of_nat (List.length vs))%Z -> exists e, stops_with E P e s).
Proof.
  intros bp main imports P m ln tx ix vx a b HB CO. destruct (index_set_forms P bp main imports m HB ln tx ix vx a b CO) as (y & z & u & CY & CZ & CU & R).
  exists y, z, u. split; [exact CY|]. split; [exact CZ|]. split; [exact CU|]. intros E s l r i x vs ST H. pose proof (R E s l _ _ _ ST) as Q. destruct (C23_write _ r vs i x H) as (K1 & K2). split.
  - intros I. destruct (K1 I) as (h' & vs' & X & K). rewrite X in Q. destruct Q as (s' & t & Q1 & Q2 & Q3 & Q4). exists s', t, h', vs'. repeat (split; [assumption|]). exact K.
  - intros O. destruct (K2 O) as (e & X). rewrite X in Q. exists e. exact Q.
Qed.
Print Assumptions C23_write_compiled.

(** ** C26: [t.f] and [t.f = x] *)
Theorem C26_read_compiled : forall builtins main imports P m ln tx f a b,
  build builtins main imports = PyOk (Some P) -> code_of builtins main imports m (NGet ln tx f) a b ->
  exists y, code_of builtins main imports m tx (set_line a ln) y /\
  forall E s l r reg fields v, stands m (ends y) (l ++ [VObj r]) s -> nth_error (w_heap (s_world s)) r = Some (CObj reg fields) -> assoc f fields = Some v ->
    exists s', many E P 2 s s' /\ stands m (ends b) (l ++ [v]) s' /\ only_moved s s'.
Proof.
  intros bp main imports P m ln tx f a b HB CO. destruct (get_forms P bp main imports m HB ln tx f a b CO) as (y & CY & R). exists y. split; [exact CY|].
  intros E s l r reg fields v ST H AS. destruct (R E s l _ ST) as (s1 & S1 & OM & Q). assert (W : s_world s1 = s_world s) by apply OM.
  rewrite W in Q. unfold prop_get in Q. rewrite H in Q. cbn in Q. rewrite AS in Q. destruct Q as (s2 & S2 & ST2 & OM2).
  exists s2. split; [eapply many_S; [exact S1|eapply many_S; [exact S2|constructor]]|]. split; [exact ST2|eapply moved_trans; eassumption].
Qed.
Print Assumptions C26_read_compiled.
(** The field is named after its object's code and before the code of the value.
    Afterwards the field has the value, through whatever alias it is read, and
    nothing else has changed. *)
Theorem C26_write_compiled : forall builtins main imports P m ln gln tx f vx a b,
  build builtins main imports = PyOk (Some P) -> code_of builtins main imports m (NSet ln gln tx f vx) a b ->
  exists y z u, code_of builtins main imports m tx (set_line (set_line a ln) gln) y /\ code_of builtins main imports m vx z u /\
  (forall E s l v, stands m (ends y) (l ++ [v]) s -> exists s1, step E P s = SNext s1 /\ stands m (ends z) (l ++ [v; VStr f]) s1 /\ only_moved s s1) /\
  (forall E s l r reg fields x, stands m (ends u) (l ++ [VObj r; VStr f; x]) s -> nth_error (w_heap (s_world s)) r = Some (CObj reg fields) ->
    exists s' t h' fields', step E P s = SNext s' /\ stands m (ends b) l s' /\ only_moved s t /\ s' = with_world t (set_heap (s_world s) h') /\
      same_elsewhere (w_heap (s_world s)) h' r /\ nth_error h' r = Some (CObj reg fields') /\ assoc f fields' = Some x /\
      forall g, g <> f -> assoc g fields' = assoc g fields).
Proof.
  intros bp main imports P m ln gln tx f vx a b HB CO. destruct (set_forms P bp main imports m HB ln gln tx f vx a b CO) as (y & z & u & CY & _ & CU & R1 & R2).
  exists y, z, u. split; [exact CY|]. split; [exact CU|]. split; [exact R1|]. intros E s l r reg fields x ST H. pose proof (R2 E s l _ _ ST) as Q.
  destruct (C26_write _ r reg fields f x H) as (h' & X & SE & _). rewrite X in Q. destruct Q as (s' & t & Q1 & Q2 & Q3 & Q4). exists s', t, h', (assoc_set fields f x). repeat (split; [assumption|]).
  unfold prop_set in X. cbn in X. rewrite H in X. injection X as <-.
  split; [apply list_set_eq; apply nth_error_Some; congruence|]. split; [apply assoc_set_eq|]. intros g N. apply assoc_set_neq. exact N.
Qed.
Print Assumptions C26_write_compiled.

(** ** C32: format strings *)
(** The parts are evaluated from left to right; then the value is the text made of
    their printed forms in that order, each as [mostra] would print it. *)
Theorem C32_compiled : forall builtins main imports P m ln ps a b,
  build builtins main imports = PyOk (Some P) -> code_of builtins main imports m (NFmt ln ps) a b ->
  exists z, in_turn (code_of builtins main imports m) ps (set_line a ln) z /\
  forall E s l vs ts, List.length vs = List.length ps -> stands m (ends z) (l ++ vs) s ->
    Forall2 (prints E (w_heap (s_world s))) vs ts -> leaves_value E P m (ends b) l (VStr (List.concat ts)) s.
Proof.
  intros bp main imports P m ln ps a b HB CO. destruct (fmt_forms P bp main imports m HB ln ps a b CO) as (z & CZ & R).
  exists z. split; [exact CZ|]. intros E s l vs ts LV ST SH. eapply R; [exact LV|exact ST|].
  clear - SH. induction SH as [|v t vs ts V _ IH]; [reflexivity|]. cbn [opt_map]. rewrite (proj2 (show_iff _ _ _ _) V), IH. reflexivity.
Qed.
Print Assumptions C32_compiled.

(** ** C42: [mostra x] *)
(** The printed form of the value and a line end are added to the output; the
    heap and the input stay as they are. *)
Theorem C42_compiled : forall builtins main imports P m ln x a b,
  build builtins main imports = PyOk (Some P) -> code_of builtins main imports m (NMostra ln x) a b ->
  exists y, code_of builtins main imports m x (set_line a ln) y /\
  forall E s l v t, stands m (ends y) (l ++ [v]) s -> prints E (w_heap (s_world s)) v t ->
    exists s', step E P s = SNext s' /\ stands m (ends b) l s' /\
      w_out (s_world s') = w_out (s_world s) ++ t ++ [10%N] /\ w_heap (s_world s') = w_heap (s_world s) /\ w_in (s_world s') = w_in (s_world s) /\
      only_moved s (with_world s' (s_world s)).
Proof.
  intros bp main imports P m ln x a b HB CO. destruct (mostra_forms P bp main imports m HB ln x a b CO) as (y & CY & R).
  exists y. split; [exact CY|]. intros E s l v t ST SH. destruct (R E s l v t ST (proj2 (show_iff _ _ _ _) SH)) as (s' & S & ST' & W & OM).
  exists s'. split; [exact S|]. split; [exact ST'|]. rewrite W. auto.
Qed.
Print Assumptions C42_compiled.

(** ** A case
    <<
    1 v: [int] = [int: 7, 8]
    2 mostra 10 - 4
    3 mostra 3 <= 4
    4 v[1] = 9
    5 mostra v[1]
    6 registo P
        n: int
      fim
    7 p: P = P(n: 1)
    8 p.n = 2
    9 mostra p.n
    10 mostra f"{5}{v}{6}"
    >> *)
Definition v_ : sym := gvar "v".
Definition P_ : sym := mkSym (txt "P") (txt "P") true main_path KOther.
Definition p_ : sym := gvar "p".
Definition prog_operate : amodule := program_of [v_; P_; p_]
  [ decl 1 v_ "[int]" (NList 1 [num 1 "7"; num 1 "8"]);
    NMostra 2 (bin 2 BSub (num 2 "10") (num 2 "4"));
    NMostra 3 (bin 3 BLe (num 3 "3") (num 3 "4"));
    NIndexSet 4 (var 4 v_) (num 4 "1") (num 4 "9");
    NMostra 5 (NIndex 5 (var 5 v_) (num 5 "1"));
    NRegisto 6 (txt "P") [txt "n"];
    decl 7 p_ "P" (NCall 7 CType (var 7 P_) [NNamed 7 (txt "n") (num 7 "1")] false);
    NSet 8 8 (var 8 p_) (txt "n") (num 8 "2");
    NMostra 9 (NGet 9 (var 9 p_) (txt "n"));
    NMostra 10 (NFmt 10 [num 10 "5"; var 10 v_; num 10 "6"]) ].
(** At the end of the operands' code, in the run of the program. *)
Lemma operate_at i x ln xs n ip vs : nth_error (mo_body prog_operate) i = Some x -> end_of prog_operate i ln xs = Some ip -> spot prog_operate n = Some (ip, vs) ->
  exists P s0 s l, build emb_path prog_operate [emb] = PyOk (Some P) /\ (exists a b, code_of emb_path prog_operate [emb] None x a b) /\
    (forall ln' y, x = NMostra ln' y -> exists a b, code_of emb_path prog_operate [emb] None y a b) /\
    main_start e0 P [] s0 /\ many e0 P n s0 s /\ stands None ip (l ++ vs) s.
Proof.
  intros N _ SP. destruct (spot_stands _ _ _ _ SP) as (P & s0 & s & l & HB & MS & MN & ST). exists P, s0, s, l. split; [exact HB|].
  destruct (gen_module (ctx_of [emb] emb_path prog_operate) prog_operate) as [F|] eqn:GM; [|vm_compute in GM; discriminate GM].
  split. { destruct (stat_code prog_operate F i x eq_refl GM N) as (a & b & _ & K). eauto. }
  split. { intros ln' y ->. destruct (shown_code prog_operate F i ln' y eq_refl GM N) as (a & b & _ & K). eauto. }
  auto.
Qed.
Example C08_compiled_case : exists P s0 s l a b, build emb_path prog_operate [emb] = PyOk (Some P) /\
  code_of emb_path prog_operate [emb] None (bin 2 BSub (num 2 "10") (num 2 "4")) a b /\ end_of prog_operate 1 2 [num 2 "10"; num 2 "4"] = Some 17%N /\
  main_start e0 P [] s0 /\ many e0 P 6 s0 s /\ stands None 17 (l ++ [VInt 10; VInt 4]) s.
Proof.
  destruct (operate_at 1 _ 2 [num 2 "10"; num 2 "4"] 6 17%N [VInt 10; VInt 4] eq_refl eq_refl eq_refl) as (P & s0 & s & l & HB & _ & K & R).
  destruct (K _ _ eq_refl) as (a & b & CO). exists P, s0, s, l, a, b. split; [exact HB|]. split; [exact CO|]. split; [vm_compute; reflexivity|exact R].
Qed.
Example C09_compiled_case : exists P s0 s l a b, build emb_path prog_operate [emb] = PyOk (Some P) /\
  code_of emb_path prog_operate [emb] None (bin 3 BLe (num 3 "3") (num 3 "4")) a b /\ end_of prog_operate 2 3 [num 3 "3"; num 3 "4"] = Some 25%N /\
  main_start e0 P [] s0 /\ many e0 P 10 s0 s /\ stands None 25 (l ++ [VInt 3; VInt 4]) s.
Proof.
  destruct (operate_at 2 _ 3 [num 3 "3"; num 3 "4"] 10 25%N [VInt 3; VInt 4] eq_refl eq_refl eq_refl) as (P & s0 & s & l & HB & _ & K & R).
  destruct (K _ _ eq_refl) as (a & b & CO). exists P, s0, s, l, a, b. split; [exact HB|]. split; [exact CO|]. split; [vm_compute; reflexivity|exact R].
Qed.
Example C23_write_compiled_case : exists P s0 s l a b, build emb_path prog_operate [emb] = PyOk (Some P) /\
  code_of emb_path prog_operate [emb] None (NIndexSet 4 (var 4 v_) (num 4 "1") (num 4 "9")) a b /\ end_of prog_operate 3 4 [var 4 v_; num 4 "1"; num 4 "9"] = Some 36%N /\
  main_start e0 P [] s0 /\ many e0 P 15 s0 s /\ stands None 36 (l ++ [VVec 0; VInt 1; VInt 9]) s.
Proof.
  destruct (operate_at 3 _ 4 [var 4 v_; num 4 "1"; num 4 "9"] 15 36%N [VVec 0; VInt 1; VInt 9] eq_refl eq_refl eq_refl) as (P & s0 & s & l & HB & (a & b & CO) & _ & R).
  exists P, s0, s, l, a, b. split; [exact HB|]. split; [exact CO|]. split; [vm_compute; reflexivity|exact R].
Qed.
Example C23_read_compiled_case : exists P s0 s l a b, build emb_path prog_operate [emb] = PyOk (Some P) /\
  code_of emb_path prog_operate [emb] None (NIndex 5 (var 5 v_) (num 5 "1")) a b /\ end_of prog_operate 4 5 [var 5 v_; num 5 "1"] = Some 43%N /\
  main_start e0 P [] s0 /\ many e0 P 18 s0 s /\ stands None 43 (l ++ [VVec 0; VInt 1]) s.
Proof.
  destruct (operate_at 4 _ 5 [var 5 v_; num 5 "1"] 18 43%N [VVec 0; VInt 1] eq_refl eq_refl eq_refl) as (P & s0 & s & l & HB & _ & K & R).
  destruct (K _ _ eq_refl) as (a & b & CO). exists P, s0, s, l, a, b. split; [exact HB|]. split; [exact CO|]. split; [vm_compute; reflexivity|exact R].
Qed.
Example C26_read_compiled_case : exists P s0 s l a b, build emb_path prog_operate [emb] = PyOk (Some P) /\
  code_of emb_path prog_operate [emb] None (NGet 9 (var 9 p_) (txt "n")) a b /\ end_of prog_operate 8 9 [var 9 p_] = Some 78%N /\
  main_start e0 P [] s0 /\ many e0 P 32 s0 s /\ stands None 78 (l ++ [VObj 1]) s.
Proof.
  destruct (operate_at 8 _ 9 [var 9 p_] 32 78%N [VObj 1] eq_refl eq_refl eq_refl) as (P & s0 & s & l & HB & _ & K & R).
  destruct (K _ _ eq_refl) as (a & b & CO). exists P, s0, s, l, a, b. split; [exact HB|]. split; [exact CO|]. split; [vm_compute; reflexivity|exact R].
Qed.
(** Before the name is loaded (68) and before the field is set (74). *)
Example C26_write_compiled_case : exists P s0 s l a b, build emb_path prog_operate [emb] = PyOk (Some P) /\
  code_of emb_path prog_operate [emb] None (NSet 8 8 (var 8 p_) (txt "n") (num 8 "2")) a b /\ end_of prog_operate 7 8 [var 8 p_] = Some 68%N /\
  main_start e0 P [] s0 /\ many e0 P 28 s0 s /\ stands None 68 (l ++ [VObj 1]) s.
Proof.
  destruct (operate_at 7 _ 8 [var 8 p_] 28 68%N [VObj 1] eq_refl eq_refl eq_refl) as (P & s0 & s & l & HB & (a & b & CO) & _ & R).
  exists P, s0, s, l, a, b. split; [exact HB|]. split; [exact CO|]. split; [vm_compute; reflexivity|exact R].
Qed.
Example C26_write_compiled_case2 : spot prog_operate 30 = Some (74%N, [VObj 1; VStr (txt "n"); VInt 2]).
Proof. vm_compute. reflexivity. Qed.
(** [f"{5}{v}{6}"]. *)
Example C32_compiled_case : exists P s0 s l a b, build emb_path prog_operate [emb] = PyOk (Some P) /\
  code_of emb_path prog_operate [emb] None (NFmt 10 [num 10 "5"; var 10 v_; num 10 "6"]) a b /\ end_of prog_operate 9 10 [num 10 "5"; var 10 v_; num 10 "6"] = Some 92%N /\
  main_start e0 P [] s0 /\ many e0 P 38 s0 s /\ stands None 92 (l ++ [VInt 5; VVec 0; VInt 6]) s /\
  Forall2 (prints e0 [CVec [VInt 7; VInt 9]]) [VInt 5; VVec 0; VInt 6] [txt "5"; txt "[7, 9]"; txt "6"].
Proof.
  destruct (operate_at 9 _ 10 [num 10 "5"; var 10 v_; num 10 "6"] 38 92%N [VInt 5; VVec 0; VInt 6] eq_refl eq_refl eq_refl) as (P & s0 & s & l & HB & _ & K & R1 & R2 & R3).
  destruct (K _ _ eq_refl) as (a & b & CO). exists P, s0, s, l, a, b. split; [exact HB|]. split; [exact CO|]. split; [vm_compute; reflexivity|]. split; [exact R1|]. split; [exact R2|]. split; [exact R3|].
  repeat (constructor; [apply show_iff; reflexivity|]). constructor.
Qed.
(** [mostra f"{5}{v}{6}"], with the text of the format string on the stack. *)
Example C42_compiled_case : exists P s0 s l a b, build emb_path prog_operate [emb] = PyOk (Some P) /\
  code_of emb_path prog_operate [emb] None (NMostra 10 (NFmt 10 [num 10 "5"; var 10 v_; num 10 "6"])) a b /\
  main_start e0 P [] s0 /\ many e0 P 39 s0 s /\ stands None 94 (l ++ [VStr (txt "5[7, 9]6")]) s /\ prints e0 [CVec [VInt 7; VInt 9]] (VStr (txt "5[7, 9]6")) (txt "5[7, 9]6").
Proof.
  destruct (operate_at 9 _ 10 [NFmt 10 [num 10 "5"; var 10 v_; num 10 "6"]] 39 94%N [VStr (txt "5[7, 9]6")] eq_refl eq_refl eq_refl) as (P & s0 & s & l & HB & (a & b & CO) & _ & R1 & R2 & R3).
  exists P, s0, s, l, a, b. split; [exact HB|]. split; [exact CO|]. split; [exact R1|]. split; [exact R2|]. split; [exact R3|]. apply show_iff. reflexivity.
Qed.
