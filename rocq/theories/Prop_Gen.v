(** C43: the pass after the analysis.

    [Prop_Total.v] is about the analyser.  Here: the code generator has code for
    every tree of the language of the reference interpreter ([Sem.v],
    [SemProg.program_ok]) that [Spec_Gen.coded_all] admits. *)
From Verif Require Import Base BaseFacts Utf8 Bson Value VM Ast Opcode CodeGen Compile GenFacts Sem SemWf SemProg SimMod SimProg Spec_Bson BsonFacts Spec_Gen GenTotal Ex_Prog.

Lemma program_parts builtins main imports m md : program_ok builtins main imports = true -> module_at main imports m = Some md -> mo_builtin md = false ->
  module_ok (senv_of main imports) (ctx_of imports builtins md) m md = true /\
  (exists i, assoc builtins (number_from 0 (map mo_path imports)) = Some i) /\ mo_path md <> builtins.
Proof.
  intros P M B. unfold program_ok in P. rewrite !andb_true_iff in P. destruct P as [[[[ND NB] L] MS] MM].
  destruct imports as [|b imports]; [discriminate|]. rewrite !andb_true_iff in L. destruct L as [[BB BP] BN]. apply text_eqb_eq in BP.
  split; [|split].
  - destruct m as [i|]; cbn in M.
    + pose proof (modules_ok_nth builtins main (b :: imports) (b :: imports) 0 (N.to_nat i) md MS M B) as X.
      rewrite N2Nat.id in X. exact X.
    + injection M as <-. exact MM.
  - cbn. rewrite BP, text_eqb_refl. eauto.
  - rewrite <- BP. intros E. apply nodupb_ok in ND. cbn in ND. inversion ND as [|? ? N1 N2]; subst. inversion N2 as [|? ? N3 N4]; subst.
    destruct m as [i|]; cbn in M.
    + destruct (N.to_nat i) as [|j]; cbn in M; [injection M as <-; congruence|]. apply N3. rewrite <- E. apply in_map. eapply nth_error_In, M.
    + injection M as <-. apply N1. left. now symmetry.
Qed.

(** C43 (partial): in a program that the reference interpreter covers, the
    generator goes through every module, whatever its length and nesting, except
    that it stops with an error when a table of constants or names is full, or
    the code is too long for 64-bit addresses. *)
Theorem C43_generator_partial : forall builtins main imports m md,
  program_ok builtins main imports = true -> module_at main imports m = Some md -> mo_builtin md = false -> coded_all [] (mo_body md) = true ->
  (exists s, gen_module (ctx_of imports builtins md) md = PyOk s) \/
  gen_module (ctx_of imports builtins md) md = PyErr AssertErr \/ gen_module (ctx_of imports builtins md) md = PyErr ValueErr.
Proof.
  intros builtins main imports m md P M B CO. destruct (program_parts _ _ _ _ _ P M B) as (MO & BK & NB).
  pose proof (module_good (senv_of main imports) (ctx_of imports builtins md) m BK NB md MO CO) as H.
  destruct (gen_module _ md) as [s|e]; [eauto|]. destruct H as [->| ->]; auto.
Qed.
Print Assumptions C43_generator_partial.

Lemma mapm_ok {A B} (f : A -> pyres B) l : (forall x, In x l -> exists y, f x = PyOk y) -> exists ys, mapm f l = PyOk ys.
Proof.
  induction l as [|x l IH]; intros H; cbn; [eauto|]. destruct (H x (or_introl eq_refl)) as [y ->]. destruct IH as [ys ->]; [intros z Z; apply H; now right|]. cbn. eauto.
Qed.
Lemma module_written builtins main imports m md : program_ok builtins main imports = true -> module_at main imports m = Some md ->
  (mo_builtin md = false -> coded_all [] (mo_body md) = true /\ has_room (gen_module (ctx_of imports builtins md) md)) ->
  exists cm, compile_module (ctx_of imports builtins md) md = PyOk cm.
Proof.
  intros P M H. unfold compile_module. destruct (mo_builtin md) eqn:B; [eauto|]. destruct (H eq_refl) as [CO R].
  destruct (program_parts _ _ _ _ _ P M B) as (MO & BK & NB).
  pose proof (module_good (senv_of main imports) (ctx_of imports builtins md) m BK NB md MO CO) as G.
  destruct (gen_module _ md) as [s|e]; cbn in G, R; [|destruct R, G; contradiction]. cbn [pbind].
  destruct (sane_writes s G (proj1 R) (proj2 R)) as [b ->]. cbn. eauto.
Qed.
(** C43 (partial): such a program is generated, encoded and written, with no
    exception, when the format of the program file has room for it.
    Missing: [iguala] and block expressions, which [program_ok] excludes. *)
Theorem C43_written_partial : forall builtins main imports,
  program_ok builtins main imports = true ->
  (forall md, In md (main :: imports) -> mo_builtin md = false -> coded_all [] (mo_body md) = true /\ has_room (gen_module (ctx_of imports builtins md) md)) ->
  (forall p, compile_all builtins main imports = PyOk p -> doc_has_room (program_doc p)) ->
  exists p bs, compile_all builtins main imports = PyOk p /\ dumps (program_doc p) = PyOk bs.
Proof.
  intros builtins main imports P H D.
  assert (C : exists p, compile_all builtins main imports = PyOk p).
  { unfold compile_all. destruct (mapm_ok (fun m => compile_module (ctx_of imports builtins m) m) imports) as [cs ->].
    - intros md I. destruct (In_nth_error _ _ I) as [i E]. apply (module_written builtins main imports (Some (N.of_nat i)) md P).
      + cbn. rewrite Nat2N.id. exact E.
      + apply H. now right.
    - cbn [pbind]. destruct (module_written builtins main imports None main P eq_refl) as [c ->]; [apply H; now left|]. cbn. eauto. }
  destruct C as [p C]. destruct (D p C) as [D1 D2]. destruct (dumps_total _ D1 D2) as [bs W]. eauto.
Qed.
Print Assumptions C43_written_partial.

Example C43_generator_ex : program_ok emb_path prog1 [emb] = true /\ coded_all [] (mo_body prog1) = true /\ mo_builtin prog1 = false.
Proof. vm_compute. auto. Qed.

(** The limits, computed. *)
Definition roomb (r : pyres gst) : bool :=
  match r with
  | PyOk s => (g_ip s <? 2 ^ 64)%N && forallb (fun i => match op_size (fst i) with
      | 2%N => forallb (fun a => (a <? 256)%N) (snd i)
      | 3%N => true
      | _ => is_jump (fst i) || forallb (fun a => (a <? 2 ^ 64)%N) (snd i)
      end) (g_ops s)
  | PyErr _ => false
  end.
Lemma below n l : forallb (fun a => (a <? n)%N) l = true -> Forall (fun a => (a < n)%N) l.
Proof. intros H. apply Forall_forall. intros x I. rewrite forallb_forall in H. apply N.ltb_lt. auto. Qed.
Lemma roomb_ok r : roomb r = true -> has_room r.
Proof.
  destruct r as [s|]; [|discriminate]. cbn [roomb has_room]. rewrite andb_true_iff, N.ltb_lt. intros [A B]. split; [exact A|].
  apply Forall_forall. intros i I. rewrite forallb_forall in B. specialize (B i I). unfold in_width.
  destruct (fst i) eqn:E; cbn [op_size is_jump orb] in *; auto; try (now apply below); right; now apply below.
Qed.
Fixpoint fitsb (v : bval) : bool :=
  match v with
  | BDouble _ | BBytes _ => true
  | BStr t => forallb scalar t
  | BInt z => in_i64 z
  | BDoc l => forallb (fun kv => forallb scalar (fst kv) && fitsb (snd kv)) l
  | BArr l => forallb fitsb l
  end.
Lemma scalars t : forallb scalar t = true -> Forall (fun c => scalar c = true) t.
Proof. intros H. apply Forall_forall, forallb_forall, H. Qed.
Lemma fitsb_ok v : fitsb v = true -> bson_fits v.
Proof.
  induction v as [b|t|l IH|l IH|b|i] using bval_ind'; cbn; intros H; constructor; try assumption; try (now apply scalars).
  - apply Forall_forall. intros x I. rewrite forallb_forall in H. specialize (H x I). apply andb_true_iff in H as [H _]. now apply scalars.
  - rewrite Forall_forall in *. intros x I. rewrite forallb_forall in H. specialize (H x I). apply andb_true_iff in H as [_ H]. now apply IH.
  - rewrite Forall_forall in *. intros x I. rewrite forallb_forall in H. auto.
Qed.
Definition doc_roomb (d : list (text * bval)) : bool := fitsb (BDoc d) && (total_items d <? 2 ^ 31)%N.
Lemma doc_roomb_ok d : doc_roomb d = true -> doc_has_room d.
Proof. unfold doc_roomb. rewrite andb_true_iff, N.ltb_lt. intros [A B]. split; [now apply fitsb_ok|exact B]. Qed.
Definition all_room (builtins : text) (main : amodule) (imports : list amodule) : bool :=
  forallb (fun md => mo_builtin md || coded_all [] (mo_body md) && roomb (gen_module (ctx_of imports builtins md) md)) (main :: imports) &&
  match compile_all builtins main imports with PyOk p => doc_roomb (program_doc p) | PyErr _ => true end.
Lemma all_room_ok builtins main imports : all_room builtins main imports = true ->
  (forall md, In md (main :: imports) -> mo_builtin md = false -> coded_all [] (mo_body md) = true /\ has_room (gen_module (ctx_of imports builtins md) md)) /\
  (forall p, compile_all builtins main imports = PyOk p -> doc_has_room (program_doc p)).
Proof.
  unfold all_room. rewrite andb_true_iff. intros [A B]. split.
  - intros md I N. rewrite forallb_forall in A. specialize (A md I). rewrite N in A. cbn [orb] in A. apply andb_true_iff in A as [A1 A2]. split; [exact A1|now apply roomb_ok].
  - intros p E. rewrite E in B. now apply doc_roomb_ok.
Qed.
(** The hypotheses hold of a program with a recursive function and nested loops. *)
Example C43_written_ex : program_ok emb_path prog1 [emb] = true /\ all_room emb_path prog1 [emb] = true.
Proof. vm_compute. auto. Qed.

(** Both conditions of [coded] are needed: the generator stops at a unary plus
    with an exception, and the analyser lets it pass. *)
Definition plus_prog : amodule := mkAMod (txt "p.ama") (txt "p") false [] [NMostra 1 (NUn 1 UPlus (num 1 "1") false)].
Theorem C43_unary_plus_refuted : program_ok emb_path plus_prog [emb] = true /\ gen_module (ctx_of [emb] emb_path plus_prog) plus_prog = PyErr NotImplementedErr.
Proof. vm_compute. auto. Qed.

From Verif Require Import Types Sym Check Front Spec_AcceptProg Ex_Front Lexer Prop_Accept.
(** From the text on: a text that is analysed without error or exception, to
    trees as above, does not end in an exception. *)
Theorem C43_text_partial : forall F U fuel file main imports,
  trees F U fuel file = Some (main, imports) -> program_ok (builtins_path F) main imports = true ->
  (forall md, In md (main :: imports) -> mo_builtin md = false ->
    coded_all [] (mo_body md) = true /\ has_room (gen_module (ctx_of imports (builtins_path F) md) md)) ->
  (forall p, compile_all (builtins_path F) main imports = PyOk p -> doc_has_room (program_doc p)) ->
  front F U fuel file <> FCrash.
Proof.
  intros F U fuel file main imports T P H D. destruct (C43_written_partial _ _ _ P H D) as (p & bs & C & W).
  unfold front. unfold trees in T. destruct (analyse F U fuel file) as [m s| | |]; try discriminate.
  destruct (lmap _ _) as [is_| |]; try discriminate. destruct (lower_module _ _ _) as [mm| |]; try discriminate. injection T as -> ->.
  unfold build. rewrite C. cbn [pbind]. rewrite W. cbn [pbind]. destruct (load_doc bs) as [d| |]; try discriminate. destruct (load_program d); discriminate.
Qed.
Print Assumptions C43_text_partial.
(** The sample text of [Prop_Accept.v], with the limits computed ([all_room_ok]). *)
Example C43_text_ex :
  match trees sample_env alphabet 20 main_file with
  | Some (main, imports) => program_ok (builtins_path sample_env) main imports && all_room (builtins_path sample_env) main imports
  | None => false
  end = true.
Proof. vm_compute. reflexivity. Qed.
