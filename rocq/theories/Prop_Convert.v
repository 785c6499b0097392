(** C11 in programs: what a conversion does in every compiled program. *)
From Verif Require Import Base BaseFacts Bson BsonFacts Opcode Spec_Opcode OpcodeFacts Value VM Ast CodeGen Types Compile SemProg LoadFacts GenFacts SimVM Spec_Sem Spec_Option Spec_Types Spec_Show TypeFacts ShowFacts OptionRun OperateRun Ex_Prog Prop_Option.

(** The code of [x como T] is the code of [x], an instruction that loads [T], and
    [CAST]; whatever value [v] and type lie on the stack then, one step follows. *)
Lemma convert_forms bp main imports P m ln x t fi a b :
  build bp main imports = PyOk (Some P) -> code_of bp main imports m (NConv ln x (Some (t, fi))) a b ->
  exists md y z, module_at main imports m = Some md /\ code_of bp main imports m x (set_line a ln) y /\ load_variable (ctx_of imports bp md) y t = PyOk z /\
  forall E s l v tv, stands m (ends z) (l ++ [v; VType tv]) s ->
    forall r, (if fi : bool then match get_type v with Some vt => if vty_eqb vt tv then ROk v else RErr (ECheckCast vt tv) | None => RPanic end
               else vcast E (w_heap (s_world s)) v tv) = r -> gives_value E P m (ends b) l s r.
Proof.
  intros HB (md & F & MA & NB & GM & GE & (post & EO) & (npost & EN)). cbn [gen node_line] in GE.
  apply pbind_ok in GE as (y & GY & GE). apply pbind_ok in GE as (z & GZ & EB). apply pyok_inj in EB. exists md, y, z. split; [exact MA|].
  assert (EF : g_ops F = g_ops z ++ (CAST, [if fi then 1%N else 0%N]) :: post) by (rewrite EO, <- EB; cbn; rewrite <- !app_assoc; reflexivity).
  split.
  { destruct (gx_ops _ _ _ (proj1 (gs_load_variable _ 0 _ _ _ GZ))) as (p & EP). destruct (gx_names _ _ _ (proj1 (gs_load_variable _ 0 _ _ _ GZ))) as (p' & EP').
    eapply code_prefix; try eassumption. - rewrite EF, EP, <- app_assoc. reflexivity. - rewrite EN, <- EB. cbn. rewrite EP', <- app_assoc. reflexivity. }
  split; [exact GZ|]. intros E s l v tv ST r ER. rewrite <- EB, ends_op.
  eapply (run_val E P bp main imports m HB md F MA NB GM); [exact EF|reflexivity|destruct fi; eexists; (split; [reflexivity|cbn; lia])|exact ST|].
  intros A vm ip s1 G H1. destruct (ex_cast E P A vm G ip l _ _ v tv fi _ H1) as (s2 & X & H2). exists s2. split; [|exact H2]. rewrite X, <- ER.
  destruct fi; [|reflexivity]. destruct (get_type v) as [vt|]; [|reflexivity]. cbn [xopt]. destruct (vty_eqb vt tv); reflexivity.
Qed.

(** A value whose static type is [indef] is tested: the step keeps it when its
    type is the one asked for, and otherwise stops with the error that names both
    types. *)
Theorem C11_checked_compiled : forall builtins main imports P m ln x t a b,
  build builtins main imports = PyOk (Some P) -> code_of builtins main imports m (NConv ln x (Some (t, true))) a b ->
  exists md y z, module_at main imports m = Some md /\ code_of builtins main imports m x (set_line a ln) y /\
  load_variable (ctx_of imports builtins md) y t = PyOk z /\
  forall E s l v p q tp tq, val_prim v p -> vty_of p = Some tp -> vty_of q = Some tq -> stands m (ends z) (l ++ [v; VType tq]) s ->
    (p = q -> exists s', step E P s = SNext s' /\ stands m (ends b) (l ++ [v]) s' /\ only_moved s s') /\
    (p <> q -> exists trace s', step E P s = SErr (ECheckCast tp tq) trace s' /\ only_moved s s').
Proof.
  intros bp main imports P m ln x t a b HB CO. destruct (convert_forms _ _ _ _ _ _ _ _ _ _ _ HB CO) as (md & y & z & MA & CY & LZ & Q).
  exists md, y, z. repeat (split; [assumption|]). intros E s l v p q tp tq VP TP TQ ST. pose proof (Q E s l v tq ST _ eq_refl) as R. cbv beta iota in R.
  destruct p; cbn in VP, TP; try contradiction; destruct VP as (u & ->); injection TP as <-;
    destruct q; cbn in TQ; try discriminate TQ; injection TQ as <-; cbn in R;
    (split; intros PQ; [try discriminate PQ; exact R|try (exfalso; apply PQ; reflexivity); exact R]).
Qed.
Print Assumptions C11_checked_compiled.

(** Otherwise the step gives what the conversion of that value gives: the value of
    the type asked for, or the error for texts that are not numbers. *)
Theorem C11_compiled : forall builtins main imports P m ln x t a b,
  build builtins main imports = PyOk (Some P) -> code_of builtins main imports m (NConv ln x (Some (t, false))) a b ->
  exists md y z, module_at main imports m = Some md /\ code_of builtins main imports m x (set_line a ln) y /\
  load_variable (ctx_of imports builtins md) y t = PyOk z /\
  forall E s l v p q tq, basic p -> basic q -> p <> q -> check_cast (TyPrim p) (TyPrim q) = PyOk true ->
    val_prim v p -> vty_of q = Some tq -> stands m (ends z) (l ++ [v; VType tq]) s ->
    (forall u, converts E (w_heap (s_world s)) v q (ROk u) -> exists s', step E P s = SNext s' /\ stands m (ends b) (l ++ [u]) s' /\ only_moved s s') /\
    (forall e, converts E (w_heap (s_world s)) v q (RErr e) -> exists trace s', step E P s = SErr e trace s' /\ only_moved s s').
Proof.
  intros bp main imports P m ln x t a b HB CO. destruct (convert_forms _ _ _ _ _ _ _ _ _ _ _ HB CO) as (md & y & z & MA & CY & LZ & Q).
  exists md, y, z. repeat (split; [assumption|]). intros E s l v p q tq BP BQ PQ CC VP TQ ST.
  split; intros u K; apply (cast_value E (w_heap (s_world s)) p q tq v BP BQ VP PQ TQ CC) in K; exact (Q E s l v tq ST _ K).
Qed.
Print Assumptions C11_compiled.

(** The theorems at work, in the run of
    <<
    1 mostra 5 como texto
    2 d: indef = 7
    3 mostra d como int
    4 mostra d como texto
    >> *)
Definition d_ : sym := gvar "d".
Definition type_ (n : String.string) : sym := mkSym (txt n) (txt n) true emb_path KOther.
Definition prog_convert : amodule := program_of [d_]
  [ NMostra 1 (NConv 1 (num 1 "5") (Some (type_ "texto", false)));
    decl 2 d_ "indef" (num 2 "7");
    NMostra 3 (NConv 3 (var 3 d_) (Some (type_ "int", true)));
    NMostra 4 (NConv 4 (var 4 d_) (Some (type_ "texto", true))) ].
(** Where the code of [x] and the loading of the type [t] end, in statement [i]. *)
Definition type_end (i : nat) (ln : Z) (x : node) (t : sym) : option N :=
  match gen_upto prog_convert i with
  | PyOk a => match gen (ctx_of [emb] emb_path prog_convert) x (set_line (set_line a ln) ln) with
              | PyOk y => match load_variable (ctx_of [emb] emb_path prog_convert) y t with PyOk z => Some (ends z) | _ => None end
              | _ => None
              end
  | _ => None
  end.
Lemma convert_at i ln x t fi n ip vs : nth_error (mo_body prog_convert) i = Some (NMostra ln (NConv ln x (Some (t, fi)))) -> spot prog_convert n = Some (ip, vs) ->
  exists P s0 s l a b, build emb_path prog_convert [emb] = PyOk (Some P) /\ gen_upto prog_convert i = PyOk a /\
    code_of emb_path prog_convert [emb] None (NConv ln x (Some (t, fi))) (set_line a ln) b /\
    main_start e0 P [] s0 /\ many e0 P n s0 s /\ stands None ip (l ++ vs) s.
Proof.
  intros N SP. destruct (spot_stands _ _ _ _ SP) as (P & s0 & s & l & HB & MS & MN & ST).
  destruct (gen_module (ctx_of [emb] emb_path prog_convert) prog_convert) as [F|] eqn:GM; [|vm_compute in GM; discriminate GM].
  destruct (shown_code prog_convert F i ln _ eq_refl GM N) as (a & b & G & K). exists P, s0, s, l, a, b. auto 10.
Qed.
Example C11_compiled_case : exists P s0 s l a b, build emb_path prog_convert [emb] = PyOk (Some P) /\ gen_upto prog_convert 0 = PyOk a /\
  code_of emb_path prog_convert [emb] None (NConv 1 (num 1 "5") (Some (type_ "texto", false))) (set_line a 1) b /\
  type_end 0 1 (num 1 "5") (type_ "texto") = Some 20%N /\ main_start e0 P [] s0 /\ many e0 P 2 s0 s /\ stands None 20 (l ++ [VInt 5; VType TyTexto]) s /\
  basic TInt /\ basic TTexto /\ check_cast (TyPrim TInt) (TyPrim TTexto) = PyOk true /\ converts e0 (w_heap (s_world s)) (VInt 5) TTexto (ROk (VStr (txt "5"))).
Proof.
  destruct (convert_at 0 1 (num 1 "5") (type_ "texto") false 2 20%N [VInt 5; VType TyTexto] eq_refl eq_refl) as (P & s0 & s & l & a & b & H1 & H2 & H3 & H4 & H5 & H6).
  exists P, s0, s, l, a, b. repeat (split; [assumption|]). split; [vm_compute; reflexivity|]. repeat (split; [assumption|]).
  split; [left; reflexivity|]. split; [right; right; right; reflexivity|]. split; [reflexivity|]. constructor. apply show_iff. reflexivity.
Qed.
(** [d como int] with 7 in [d] (the value is kept), then [d como texto] (the error). *)
Example C11_checked_compiled_case : exists P s0 s0' s s' l l' a b a' b', build emb_path prog_convert [emb] = PyOk (Some P) /\
  gen_upto prog_convert 2 = PyOk a /\ code_of emb_path prog_convert [emb] None (NConv 3 (var 3 d_) (Some (type_ "int", true))) (set_line a 3) b /\
  gen_upto prog_convert 3 = PyOk a' /\ code_of emb_path prog_convert [emb] None (NConv 4 (var 4 d_) (Some (type_ "texto", true))) (set_line a' 4) b' /\
  type_end 2 3 (var 3 d_) (type_ "int") = Some 49%N /\ type_end 3 4 (var 4 d_) (type_ "texto") = Some 72%N /\ main_start e0 P [] s0 /\ main_start e0 P [] s0' /\
  many e0 P 8 s0 s /\ stands None 49 (l ++ [VInt 7; VType TyInt]) s /\ many e0 P 12 s0' s' /\ stands None 72 (l' ++ [VInt 7; VType TyTexto]) s' /\ val_prim (VInt 7) TInt.
Proof.
  destruct (convert_at 2 3 (var 3 d_) (type_ "int") true 8 49%N [VInt 7; VType TyInt] eq_refl eq_refl) as (P & s0 & s & l & a & b & H1 & H2 & H3 & H4 & H5 & H6).
  destruct (convert_at 3 4 (var 4 d_) (type_ "texto") true 12 72%N [VInt 7; VType TyTexto] eq_refl eq_refl) as (P' & s0' & s' & l' & a' & b' & K1 & K2 & K3 & K4 & K5 & K6).
  rewrite H1 in K1. injection K1 as <-.
  exists P, s0, s0', s, s', l, l', a, b, a', b'. repeat (split; [assumption|]). split; [vm_compute; reflexivity|]. split; [vm_compute; reflexivity|]. repeat (split; [assumption|]). eexists; reflexivity.
Qed.
