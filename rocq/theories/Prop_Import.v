(** C28: imports.  Loading a program ends; every module it reaches is loaded, and
    once; a program whose imports go round in a circle is never run. *)
From Coq Require Import Relations.
From Verif Require Import Lexer Base Dec Bson Value VM Ast CodeGen Compile Types BaseFacts Syntax Parser Sym Check Front
  Opcode BsonFacts BsonFacts Spec_Lex LexFacts LoadFacts SimProg ImportFacts Spec_Import ImportLoad Prop_Parse Prop_Front Ex_Front.
Local Open Scope Z_scope.

(** The analysis of a program whose files are some list of files ends. *)
Theorem C28_terminates : forall F U files fuel p, python_tables U -> library_imports_nothing F U ->
  only_files F files -> (List.length files < fuel)%nat -> front F U fuel p <> FFuel.
Proof.
  intros F U files fuel p HU HL HO Hf. unfold front, analyse.
  assert (HP : False \/ forall src, Parser.parse U src <> PFuel).
  { right. intros src E. pose proof (C41_total U src HU) as H. rewrite E in H. exact H. }
  pose proof (does_analyse F U HL False HP files fuel p (or_intror (conj HO Hf))) as H. unfold does in H.
  destruct (run_frontend F U fuel p (start_sst F)) as [m s|? ?| |]; [|discriminate|discriminate|contradiction].
  destruct (lmap _ _); try discriminate; destruct (lower_module _ p m); try discriminate; destruct (build _ _ _) as [[?|]|]; discriminate.
Qed.
Print Assumptions C28_terminates.

Lemma analysed F U fuel p m s : library_imports_nothing F U -> analyse F U fuel p = COk m s ->
  inv F U s /\ ready F U s p.
Proof.
  intros HL H. pose proof (does_analyse F U HL True (or_introl I) [] fuel p (or_introl I)) as D. unfold does in D. unfold analyse in H. rewrite H in D. exact D.
Qed.
Lemma front_analyse F U fuel p prog : front F U fuel p = FProgram prog -> exists m s, analyse F U fuel p = COk m s /\
  exists imports main, lmap (fun q => match assoc q (so_mods (sst_st s)) with Some i => lower_module (sst_st s) q i | None => LCrash end) (so_imports (sst_st s)) = Front.LOk imports /\
    build (builtins_path F) main imports = PyOk (Some prog).
Proof.
  unfold front. destruct (analyse F U fuel p) as [m s|? ?| |]; try discriminate. intros H. exists m, s. split; [reflexivity|].
  destruct (lmap _ _) as [imports| |]; try discriminate; destruct (lower_module _ p m) as [main| |]; try discriminate.
  destruct (build _ main imports) as [[pr|]|] eqn:E; try discriminate. injection H as <-. eauto.
Qed.

Lemma grounded_down F U q : grounded F U q -> forall r, clos_refl_trans _ (uses F U) q r -> grounded F U r.
Proof.
  intros G r H. apply clos_rt_rt1n in H. induction H as [|q' y z Hy H IH]; [exact G|]. apply IH. destruct G as [G]. apply G. exact Hy.
Qed.
Lemma grounded_loop F U q : grounded F U q -> ~ clos_trans _ (uses F U) q q.
Proof.
  induction 1 as [q G IH]. intros H. apply clos_trans_t1n in H. inversion H as [E|y z Hy H2]; subst.
  - apply (IH q H0). apply t_step. exact H0.
  - apply (IH y Hy). apply clos_t1n_trans in H2. eapply t_trans; [exact H2|]. apply t_step. exact Hy.
Qed.

(** A program that is run has no circle in its imports: no module that it
    imports, directly or not, imports itself, directly or not. *)
Theorem C28_acyclic : forall F U fuel p prog, library_imports_nothing F U -> front F U fuel p = FProgram prog ->
  forall q, clos_refl_trans _ (uses F U) p q -> ~ clos_trans _ (uses F U) q q.
Proof.
  intros F U fuel p prog HL H q Hq. apply front_analyse in H as (m & s & HA & _). destruct (analysed F U fuel p m s HL HA) as (_ & G & _).
  apply grounded_loop. exact (grounded_down F U p G q Hq).
Qed.
Print Assumptions C28_acyclic.

(** A circle is reported, or found in a program that fails otherwise. *)
Theorem C28_cycle_rejected : forall F U files fuel p q, python_tables U -> library_imports_nothing F U ->
  only_files F files -> (List.length files < fuel)%nat ->
  clos_refl_trans _ (uses F U) p q -> clos_trans _ (uses F U) q q ->
  (exists path line, front F U fuel p = FError path line) \/ front F U fuel p = FCrash.
Proof.
  intros F U files fuel p q HU HL HO Hf Hq Hc. unfold front.
  assert (HP : False \/ forall src, Parser.parse U src <> PFuel).
  { right. intros src E. pose proof (C41_total U src HU) as H. rewrite E in H. exact H. }
  pose proof (does_analyse F U HL False HP files fuel p (or_intror (conj HO Hf))) as H. unfold does in H. unfold analyse.
  destruct (run_frontend F U fuel p (start_sst F)) as [m s|? ?| |]; [|eauto|auto|contradiction].
  destruct H as (_ & G & _). destruct (grounded_loop F U q (grounded_down F U p G q Hq) Hc).
Qed.
Print Assumptions C28_cycle_rejected.

(** The modules the machine is given: one for each file of a list without
    repetition, in which every file that the program reaches is. *)
Definition module_name (q : text) : text := drop_ama (snd (path_split q)).
Lemma lmap_forall2 {A B} (f : A -> lres B) l : forall l', lmap f l = Front.LOk l' -> Forall2 (fun x y => f x = Front.LOk y) l l'.
Proof.
  induction l as [|x l IH]; intros l'; cbn [lmap]; unfold lbind.
  - intros H. injection H as <-. constructor.
  - destruct (f x) eqn:E; try discriminate. destruct (lmap f l) eqn:E2; try discriminate. intros H. injection H as <-. constructor; auto.
Qed.
Lemma lower_name st q i m : lower_module st q i = Front.LOk m -> mo_name m = module_name q.
Proof.
  unfold lower_module, lbind. destruct (lsome (mi_scope i)); try discriminate. destruct (mi_builtin i); [intros H; injection H as <-; reflexivity|].
  destruct (lseq _ _ _) as [[? ?]| |]; try discriminate. intros H. injection H as <-. reflexivity.
Qed.
Lemma compile_name C m cm : compile_module C m = PyOk cm -> cm_name cm = mo_name m.
Proof.
  unfold compile_module. destruct (mo_builtin m); [intros H; injection H as <-; reflexivity|]. unfold pbind.
  destruct (gen_module C m); [|discriminate]. destruct (write_ops _ _); [|discriminate]. intros H. injection H as <-. reflexivity.
Qed.
Lemma forall2_join {A B C} (P : A -> B -> Prop) (Q : B -> C -> Prop) (R : A -> C -> Prop) l1 l2 l3 :
  (forall a b c, P a b -> Q b c -> R a c) -> Forall2 P l1 l2 -> Forall2 Q l2 l3 -> Forall2 R l1 l3.
Proof.
  intros H H1. revert l3. induction H1 as [|a b l1 l2 Hab H1 IH]; intros l3 H2; inversion H2; subst; constructor; eauto.
Qed.
Theorem C28_once : forall F U fuel p prog, library_imports_nothing F U -> front F U fuel p = FProgram prog ->
  exists files, NoDup files /\
    (forall q, clos_trans _ (uses F U) p q -> In q files) /\
    Forall2 (fun q m => m_name m = module_name q) files (p_imports prog).
Proof.
  intros F U fuel p prog HL H. apply front_analyse in H as (m & s & HA & imports & main & EL & EB).
  destruct (analysed F U fuel p m s HL HA) as ((N & _ & L) & G & Lp).
  exists (so_imports (sst_st s)). split; [exact N|]. split.
  - assert (Hin : forall q, clos_trans _ (uses F U) p q -> lo (sst_st s) q = true).
    { intros q Hq. apply clos_trans_tn1 in Hq. induction Hq as [q Hq|q r Hqr Hq IH]; [auto|]. apply L in IH as [[_ IH] _]. auto. }
    intros q Hq. apply L. auto.
  - destruct (build_loads _ _ _ _ EB) as (cm & cms & CA & _ & L2 & _). unfold compile_all in CA. apply pbind_ok in CA as (is_ & M & CA).
    apply pbind_ok in CA as (mm & MM & CA). apply pyok_inj in CA. injection CA as <- <-.
    apply lmap_forall2 in EL. apply mapm_forall2 in M.
    eapply forall2_join with (P := fun q cm => cm_name cm = module_name q); [|eapply forall2_join; [|exact EL|exact M]|exact L2].
    + cbn. intros a b c E HLd. rewrite (lo_name _ _ HLd). exact E.
    + cbn. intros a b c E1 E2. rewrite (compile_name _ _ _ E2). destruct (assoc a _); [|discriminate]. eapply lower_name; eauto.
Qed.
Print Assumptions C28_once.

(** ** The hypotheses hold for the project's own library *)
Definition diamond : list (text * text) :=
  [(txt "/repo/c.ama", lines ["mostra 3"]%string);
   (txt "/repo/b.ama", lines ["usa ""c.ama"""; "mostra 2"]%string);
   (txt "/repo/a.ama", lines ["usa ""c"" => m"; "usa ""b.ama"""; "mostra 1"]%string);
   (txt "/repo/main.ama", lines ["usa ""a"""; "usa ""b"" => n"; "mostra 0"]%string)].
Definition ring : list (text * text) :=
  [(txt "/repo/b.ama", lines ["usa ""a.ama"" => n"; "mostra 2"]%string);
   (txt "/repo/a.ama", lines ["usa ""b.ama"" => m"; "mostra 1"]%string);
   (txt "/repo/main.ama", lines ["usa ""a"""; "mostra 0"]%string)].

Example alphabet_ok : python_tables alphabet.
Proof.
  intros c Hc. cbn. split.
  - intros E. apply N.eqb_eq in E as ->. split; reflexivity.
  - intros E. split; [reflexivity|exact E].
Qed.
Example library_ok files : library_imports_nothing (env_of files) alphabet.
Proof.
  intros src m st E H. replace (f_text (env_of files) (builtins_path (env_of files))) with (Some embutidos) in E by (vm_compute; reflexivity).
  injection E as <-. revert H. vm_compute. intros H. injection H as <- <-. reflexivity.
Qed.
Example files_ok files : only_files (env_of files) (txt "/repo/std/embutidos.ama" :: map fst files).
Proof.
  intros q H. cbn [f_isfile f_abs env_of] in *. set (p := abs_path q) in *. clearbody p. cbn [assoc] in H.
  destruct (text_eqb p (txt "/repo/std/embutidos.ama")) eqn:E; [apply text_eqb_eq in E; left; symmetry; exact E|right].
  induction files as [|[k v] files IH]; cbn [assoc] in H; [discriminate|]. destruct (text_eqb p k) eqn:E2; [apply text_eqb_eq in E2; left; symmetry; exact E2|].
  right. apply IH. exact H.
Qed.
Example C28_terminates_case : front (env_of diamond) alphabet 6 main_file <> FFuel.
Proof. apply (C28_terminates _ _ _ _ _ alphabet_ok (library_ok _) (files_ok _)). cbn. lia. Qed.
(** Four modules for the three files and the built-ins, though [c] is named twice
    and [b] twice. *)
Example C28_once_case : exists prog, front (env_of diamond) alphabet 6 main_file = FProgram prog /\
  map m_name (p_imports prog) = [txt "embutidos"; txt "a"; txt "c"; txt "b"].
Proof.
  destruct (front (env_of diamond) alphabet 6 main_file) as [prog| | | |] eqn:E; [|vm_compute in E; discriminate E ..].
  exists prog. split; [reflexivity|].
  enough (H : match front (env_of diamond) alphabet 6 main_file with FProgram prog => map m_name (p_imports prog) | _ => [] end = [txt "embutidos"; txt "a"; txt "c"; txt "b"])
    by (rewrite E in H; exact H).
  vm_compute. reflexivity.
Qed.
(** Two modules that import each other. *)
Lemma ring_uses : uses (env_of ring) alphabet (txt "main.ama") (txt "/repo/a.ama") /\
  uses (env_of ring) alphabet (txt "/repo/a.ama") (txt "/repo/b.ama") /\ uses (env_of ring) alphabet (txt "/repo/b.ama") (txt "/repo/a.ama").
Proof.
  split; [|split]; unfold uses; do 6 eexists; (split; [vm_compute; reflexivity|]); (split; [vm_compute; reflexivity|]); (split; [left; reflexivity|vm_compute; reflexivity]).
Qed.
Example C28_cycle_case : front (env_of ring) alphabet 6 main_file = FError (txt "/repo/b.ama") 1 /\
  clos_refl_trans _ (uses (env_of ring) alphabet) main_file (txt "/repo/a.ama") /\
  clos_trans _ (uses (env_of ring) alphabet) (txt "/repo/a.ama") (txt "/repo/a.ama").
Proof.
  split; [vm_compute; reflexivity|]. destruct ring_uses as (U1 & U2 & U3). split; [apply rt_step; exact U1|].
  eapply t_trans; apply t_step; eassumption.
Qed.
