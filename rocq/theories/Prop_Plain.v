(** C43: the analyser and exceptions.

    [Prop_Crash.v] and [Prop_Front.v] show texts on which the analyser fails with an
    exception instead of an error message.  Here: on every text of the plain
    language ([Spec_Plain.v]) it accepts or gives an error of a file and a line. *)
From Verif Require Import Base BaseFacts Bson Value VM Ast CodeGen Compile Types Syntax Parser Sym Check Front Spec_Accept Spec_Plain PlainBase PlainStep PlainTop Ex_Front Lexer.
From Coq Require Import String Lia.

(** The symbols of the library outside the fragment. *)
Definition outside (st : store) : list nat :=
  filter (fun i => match nth_error (so_syms st) i with Some x => negb (simple_sym st x) | None => false end) (seq 0 (List.length (so_syms st))).
Lemma outside_in : forall st i, In i (outside st) <-> exists x, nth_error (so_syms st) i = Some x /\ simple_sym st x = false.
Proof.
  intros st i. unfold outside. rewrite filter_In, in_seq. split.
  - intros [_ H]. destruct (nth_error (so_syms st) i) as [x|]; [|discriminate]. apply negb_true_iff in H. eauto.
  - intros (x & X & H). rewrite X, H. split; [|reflexivity]. assert (i < List.length (so_syms st))%nat by (apply nth_error_Some; congruence). lia.
Qed.
Lemma var_simple : forall st i, primitive_var st i = true -> var_ok (outside st) st i.
Proof.
  intros st i H. unfold primitive_var in H. destruct (nth_error (so_syms st) i) as [x|] eqn:X; [|discriminate]. destruct (s_kind x) eqn:KD; try discriminate. split; [|eauto].
  rewrite outside_in. intros (y & Y & S). rewrite X in Y. injection Y as <-. unfold simple_sym in S. rewrite KD in S. congruence.
Qed.
Lemma ready_wf : forall R V s, library_ready s = true ->
  wf R V (cx_global (sst_cx s)) (cx_ty (sst_cx s)) (List.length (so_scopes (sst_st s))) (outside (sst_st s)) (sst_st s)
  /\ cx_scope (sst_cx s) = cx_global (sst_cx s) /\ cx_func (sst_cx s) = None.
Proof.
  intros R V s H. unfold library_ready in H. rewrite !andb_true_iff in H. destruct H as [[[[H1 H2] H3] H4] H5]. apply Nat.eqb_eq in H1. destruct (cx_func (sst_cx s)); [discriminate|].
  destruct (nth_error (so_scopes (sst_st s)) (cx_global (sst_cx s))) as [top|] eqn:TOP; [|discriminate]. rewrite !andb_true_iff in H3. destruct H3 as [[H3 H6] H7].
  destruct (sc_up top) eqn:UP; [discriminate|]. destruct (nth_error (so_scopes (sst_st s)) (cx_ty (sst_cx s))) as [types|] eqn:TY; [|discriminate].
  destruct (sc_up types) eqn:UP2; [discriminate|]. destruct (sc_syms types) eqn:SY; [|discriminate]. destruct (so_prims (sst_st s)) eqn:PR; [|discriminate].
  rewrite forallb_forall in H6, H7. split; [|auto]. constructor.
  - intros i x X NE. assert (S : simple_sym (sst_st s) x = true). { destruct (simple_sym (sst_st s) x) eqn:E; [reflexivity|]. exfalso. apply NE, outside_in. eauto. }
    unfold simple_sym in S. unfold sym_ok. destruct (s_kind x); try discriminate; auto.
    + destruct t; try discriminate. exact I.
    + apply andb_true_iff in S. destruct S as [S1 S2]. destruct ret; try discriminate. split; [exact I|]. rewrite forallb_forall in S2. rewrite Forall_forall. intros q Q. apply var_simple. auto.
  - intros k x LE X. exfalso. assert (k < List.length (so_scopes (sst_st s)))%nat by (apply nth_error_Some; congruence). lia.
  - exists top. split; [exact TOP|split; [exact UP|split]].
    + intros n i A. specialize (H6 _ (assoc_in _ _ _ A)). cbn [fst snd] in H6. destruct (nth_error (so_syms (sst_st s)) i) as [x|] eqn:X; [|discriminate]. apply andb_true_iff in H6. destruct H6 as [N S].
      apply text_eqb_eq in N. split; [exists x; auto|]. intros UN IN. rewrite UN in S. cbn in S. apply outside_in in IN. destruct IN as (y & Y & SY2). rewrite X in Y. injection Y as <-. congruence.
    + intros n FN. apply negb_false_iff in FN. apply existsb_exists in FN. destruct FN as (m & IN & EQ). apply text_eqb_eq in EQ. subst m. specialize (H7 _ IN).
      destruct (assoc n (sc_syms top)) as [i|]; [|discriminate]. exists i. split; [reflexivity|]. destruct (nth_error (so_syms (sst_st s)) i) as [x|] eqn:X; [|discriminate]. destruct (s_kind x) eqn:KD; try discriminate.
      split; [|eauto]. rewrite outside_in. intros (y & Y & S). rewrite X in Y. injection Y as <-. unfold simple_sym in S. rewrite KD in S. discriminate.
  - exists types. auto.
  - rewrite PR. intros p l [].
  - split; [lia|split; apply nth_error_Some; congruence].
  - intros i IN. apply outside_in in IN. destruct IN as (x & X & _). apply nth_error_Some. congruence.
Qed.

(** C43 (partial).  [m] is what the parser reads in the file [p], [s1] the state in
    which the analyser starts with the library loaded.
    Missing: texts outside the plain language; the passes after the analysis. *)
Theorem C43_analyser_partial : forall F U fuel p m s0 s1 R V,
  f_order F [] = [] ->
  parse_file F U p (start_sst F) = COk m s0 ->
  start_analyzer F U (visit_usa F U fuel) p s0 = COk tt s1 -> library_ready s1 = true ->
  forallb (plain_top R V) (sm_children m) = true ->
  (exists body s2, visit_all F (visit_usa F U fuel) (sm_children m) s1 = COk body s2) \/
  (exists file line, visit_all F (visit_usa F U fuel) (sm_children m) s1 = CErr file line).
Proof.
  intros F U fuel p m s0 s1 R V OR _ _ L P. destruct (ready_wf R V s1 L) as (W & SC & FN).
  pose proof (all_ok F (visit_usa F U fuel) OR R V _ _ _ _ _ P (sst_st s1) W) as H. unfold K in H.
  specialize (H (conj (un_top _ _ _) (conj (un_top _ _ _) I)) s1 eq_refl). destruct (visit_all _ _ _ s1); eauto; exfalso; apply H; repeat split; auto.
Qed.
Print Assumptions C43_analyser_partial.

Local Open Scope string_scope.
Definition plain_case (R V : bool) (ls : list string) : bool :=
  let F := env_of [(txt "/repo/main.ama", lines ls)] in
  match parse_file F alphabet main_file (start_sst F) with
  | COk m s0 =>
      match start_analyzer F alphabet (visit_usa F alphabet 20) main_file s0 with
      | COk _ s1 => library_ready s1 && forallb (plain_top R V) (sm_children m)
      | _ => false
      end
  | _ => false
  end.
(** Records, methods, functions, vectors and loops. *)
Definition market : list string :=
  ["registo Fruta"; " nome: texto"; " preco: real"; " quantos: int"; "fim";
   "met Fruta::total(alvo, desconto: real): real"; " retorna alvo.preco * alvo.quantos - desconto"; "fim";
   "met texto::repete(alvo, n: int): texto"; " retorna f""{alvo}{n}"""; "fim";
   "func maior(v: [int]): int"; " m: int = v[0]"; " para i de 1..tam(v) faca"; "  se v[i] > m entao"; "   m = v[i]"; "  fim"; " fim"; " retorna m"; "fim";
   "f: Fruta = Fruta(nome: ""manga"", preco: 2.5, quantos: 4)";
   "f.quantos = f.quantos + 1";
   "mostra f.total(0.5)"; "mostra f.nome.repete(3)";
   "v: [int] = [int: 3, 9, 4]"; "anexa(v, 12)"; "mostra maior(v)"; "mostra vec(int, 2 + 1)";
   "escolha f.quantos + 0:"; " caso 5:"; "  mostra ""cinco"""; " senao:"; "  mostra 0"; "fim"].
Example C43_market : plain_case true true market = true /\ see1 market = Prints (says ["12.0"; "manga3"; "12"; "[0, 0, 0]"; "cinco"]).
Proof. split; vm_compute; reflexivity. Qed.
(** Without records and vectors, conditions are of any form. *)
Definition collatz : list string :=
  ["func passo(n: int): int"; " par: bool = n % 2 == 0"; " se par entao"; "  retorna n // 2"; " senao"; "  retorna 3 * n + 1"; " fim"; "fim";
   "n: int = 6"; "k: int"; "enquanto n != 1 faca"; " n = passo(n)"; " k += 1"; "fim"; "mostra k"; "t: texto = n :> texto"; "mostra t"].
Example C43_collatz : plain_case false false collatz = true /\ see1 collatz = Prints (says ["8"; "1"]).
Proof. split; vm_compute; reflexivity. Qed.
(** Texts of the plain language that are rejected. *)
Example C43_errors :
  plain_case true true ["registo A"; " x: int"; "fim"; "mostra A(x: ""um"")"] = true /\ see1 ["registo A"; " x: int"; "fim"; "mostra A(x: ""um"")"] = Rejected main_file 4 /\
  plain_case true true ["x: B = 1"] = true /\ see1 ["x: B = 1"] = Rejected main_file 1.
Proof. repeat split; vm_compute; reflexivity. Qed.
