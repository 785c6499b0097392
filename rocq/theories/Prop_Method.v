(** C36: a call [t.m(...)] is a call of the method [m] of the type of [t]. *)
From Verif Require Import Lexer Base Dec Bson Value VM Ast CodeGen Compile Types BaseFacts Syntax Parser Sym Exhaust Check Front AcceptBase AcceptFrame Spec_Method MethodBase MethodVisit MethodMain MethodLoad Ex_Front.
From Coq Require Import String.
Local Open Scope chk_scope.
Local Open Scope list_scope.

(** Every call of a member in the tree of an accepted program has been given a
    method declared with that name for the declared type of its target, in
    whatever module that type was declared; the only other calls of members are
    those of functions of modules and the calls of fields.  [body] is the checked
    tree, of which the rewriting of transform.py makes the tree code is generated
    from. *)
Theorem C36_dispatch_partial : forall F U fuel p mi s,
  run_frontend F U fuel p (start_sst F) = COk mi s ->
  exists src m q s0 body s1,
    f_text F p = Some src /\ parse U src = POk m q /\
    visit_all F (visit_usa F U fuel) (sm_children m) s0 = COk body s1 /\
    mapc trans body s1 = COk (mi_body mi) s /\
    Forall (dispatched (sst_st s)) (flat_map member_calls body).
Proof.
  intros F U fuel p mi s H. unfold run_frontend, cbind at 1 in H.
  destruct (parse_file F U p (start_sst F)) as [m s0|? ?| |] eqn:E0; try discriminate.
  unfold cbind in H at 1. unfold parse_file in E0. destruct (f_text F p) as [src|] eqn:ET; [|discriminate]. destruct (parse U src) as [m' q| | |] eqn:EP; try discriminate.
  injection E0 as <- <-.
  pose proof (start_ok F U (visit_usa F U fuel) (f_visit_usa F U fuel) p (start_sst F) (init_good F)) as S.
  destruct (start_analyzer F U (visit_usa F U fuel) p (start_sst F)) as [[] s0|? ?| |]; try discriminate.
  destruct S as (G & _ & c & O & C).
  unfold visit_module in H. unfold cbind at 1, gcx at 1 in H. unfold cbind at 1 in H.
  match type of H with match ?b s0 with _ => _ end = _ => destruct (b s0) as [b0 s0'|? ?| |] eqn:EB; try discriminate end.
  assert (s0' = s0). { destruct (find _ _); [destruct (text_eqb _ _); [|discriminate]|]; injection EB as _ <-; reflexivity. } subst s0'.
  unfold cbind at 1 in H. pose proof (visit_all_ok F (visit_usa F U fuel) (f_visit_usa F U fuel) c (sm_children m') s0 G O C I) as V.
  destruct (visit_all F (visit_usa F U fuel) (sm_children m') s0) as [body s1|? ?| |] eqn:EV; try discriminate.
  destruct V as (G1 & R1 & O1 & C1 & Q1).
  unfold cbind at 1 in H. assert (FT : fine (mapc trans body)) by (apply f_mapc; intros; apply f_trans). specialize (FT c s1 G1 O1 C1 I).
  destruct (mapc trans body s1) as [body2 s2|? ?| |] eqn:EM; try discriminate. destruct FT as (G2 & R2 & _).
  unfold cbind, gcx in H. injection H as <- <-. cbn [mi_body].
  exists src, m', q, s0, body, s1. split; [reflexivity|]. split; [exact EP|]. split; [exact EV|]. split; [exact EM|].
  apply (Forall_impl _ (P := dispatched (sst_st s1))). { intros x Hx. exact (st_dispatched x _ _ Hx R2). }
  rewrite Forall_flat_map. exact Q1.
Qed.
Print Assumptions C36_dispatch_partial.

(** A tree keeps its type when it is rewritten, or is left without one. *)
Lemma trans_ty x s y s' : trans x s = COk y s' -> tx_ty y = tx_ty x \/ tx_ty y = CPrim TUnknown.
Proof.
  destruct x; cbn [trans]; unfold trans_call, trans_get, rename_into, opcao_ty; intros H.
  all: repeat (cbv beta zeta in H; match type of H with
    | cbind ?m ?f ?s = COk _ _ => unfold cbind at 1 in H; destruct (m s) as [? ?|? ?| |]; [|discriminate|discriminate|discriminate]
    | (match ?o with _ => _ end) ?s = COk _ _ => destruct o; try discriminate
    | cret _ _ = COk _ _ => injection H as <- <-
    | crash _ = COk _ _ => discriminate
    end); auto.
  right. unfold trans_escolha. repeat match goal with |- context [match ?o with _ => _ end] => destruct o end; reflexivity.
Qed.

(** The call becomes a call of the method with the target as its first argument
    and the written arguments after it, in order, under the name the method goes
    by then.  ([valor] and [valor_ou] of an [Opcao] are not calls: they are
    rewritten to instructions.) *)
Theorem C36_target_first_partial : forall ln i l a m t0 args t pr s y s',
  trans (TCall ln i (TGet l a m t0) args t pr) s = COk y s' ->
  (forall p, tx_ty a <> CMod p) -> m <> txt "valor" -> m <> txt "valor_ou" ->
  exists a' s1 args' s2,
    trans a s = COk a' s1 /\ mapc trans args s1 = COk args' s2 /\ List.length args' = List.length args /\
    forall x, nth_error (so_syms (sst_st s2)) i = Some x -> s_prop x = true ->
      exists n x', y = TCall ln i (TVar ln n None (CPrim TUnknown) false) (a' :: args') (CPrim TUnknown) false /\
                   nth_error (so_syms (sst_st s')) i = Some x' /\ s_name x' = n /\ (forall k, called x k -> called x' k).
Proof.
  intros ln i l a m t0 args t pr s y s' H HM N1 N2.
  assert (B1 : text_eqb m (txt "valor") = false). { destruct (text_eqb m (txt "valor")) eqn:E; [destruct N1; apply text_eqb_eq, E|reflexivity]. }
  assert (B2 : text_eqb m (txt "valor_ou") = false). { destruct (text_eqb m (txt "valor_ou")) eqn:E; [destruct N2; apply text_eqb_eq, E|reflexivity]. }
  cbn [trans] in H. unfold cbind at 1 in H.
  unfold cbind at 1 in H. destruct (trans a s) as [a' s1|? ?| |] eqn:EA; try discriminate.
  assert (TA : forall p, tx_ty a' <> CMod p). { intros p E. destruct (trans_ty _ _ _ _ EA) as [E2|E2]; [apply (HM p)|]; congruence. }
  assert (EG : trans_get l a' m t0 s1 = COk (TGet l a' m t0) s1).
  { unfold trans_get. destruct (tx_ty a') eqn:ET; try (exfalso; exact (TA _ eq_refl)); try (exfalso; eapply TA; exact ET).
    all: unfold opcao_ty, cbind, gst; rewrite B1; rewrite Bool.andb_false_r; reflexivity. }
  rewrite EG in H. unfold cbind at 1 in H. destruct (mapc trans args s1) as [args' s2|? ?| |] eqn:EM; try discriminate.
  exists a', s1, args', s2. split; [reflexivity|]. split; [exact EM|]. split.
  { clear - EM. revert s1 args' s2 EM. induction args as [|b args IH]; intros s1 args' s2 EM; cbn [mapc] in EM; [injection EM as <- <-; reflexivity|].
    unfold cbind at 1 in EM. destruct (trans b s1) as [b' s3|? ?| |]; try discriminate. unfold cbind at 1 in EM. destruct (mapc trans args s3) as [bs s4|? ?| |] eqn:E2; try discriminate.
    injection EM as <- <-. cbn. f_equal. eapply IH, E2. }
  intros x EX PX. unfold trans_call in H. unfold cbind at 1 in H. unfold sym_at at 1 in H. unfold cbind at 1, gst at 1 in H. rewrite EX in H. cbn [must] in H. unfold cret at 1 in H.
  unfold cbind at 1, gcx at 1 in H. cbv zeta in H. rewrite PX in H. cbn [negb andb] in H.
  unfold cbind at 1, opcao_ty at 1, gst at 1 in H. rewrite B2 in H. rewrite Bool.andb_false_r in H.
  destruct (s_kind x) as [| |tg r ps| | | | |] eqn:K; try discriminate. unfold cbind at 1 in H.
  match type of H with match ?b s2 with _ => _ end = _ => destruct (b s2) as [[] s3|? ?| |] eqn:EB; try discriminate end.
  assert (E3 : exists x3, nth_error (so_syms (sst_st s3)) i = Some x3 /\ s_name x3 = s_name x).
  { destruct (assoc (txt "alvo") ps) as [j|].
    - injection EB as <-. cbn [sst_st so_syms with_syms]. rewrite nth_upd, Nat.eqb_refl, EX. eexists. split; reflexivity.
    - unfold new_var, new_sym, gcx, cbind, gst, mst, cret in EB. cbn [sst_st sst_cx] in EB. injection EB as <-. cbn [sst_st so_syms with_syms].
      rewrite nth_upd, Nat.eqb_refl, nth_error_app1 by (apply nth_error_Some; congruence). rewrite EX. eexists. split; reflexivity. }
  destruct E3 as (x3 & E3 & N3). unfold cbind at 1 in H. destruct (negb _).
  - unfold rename_into in H. unfold cbind at 1 in H. unfold sym_at at 1, gst at 1 in H. unfold cbind at 1 in H. rewrite E3 in H. cbn [must] in H. unfold cret at 1 in H.
    unfold cbind, gcx, upd_sym, define, mst, cret in H. cbn [sst_st sst_cx] in H. injection H as <- <-. eexists _, (s_set_names (s_mod x ++ txt "::" ++ s_name x3) x3). split; [reflexivity|].
    cbn [sst_st so_syms with_syms with_scopes]. rewrite nth_upd, Nat.eqb_refl, E3. split; [reflexivity|]. split; [reflexivity|]. intros k Hk.
    apply called_prefix. destruct Hk as [Hk|Hk]; [left; congruence|right; rewrite N3; exact Hk].
  - unfold cret in H. injection H as <- <-. exists (s_name x), x3. split; [reflexivity|]. split; [exact E3|]. split; [exact N3|].
    intros k [Hk|Hk]; [left; congruence|right; rewrite N3; exact Hk].
Qed.
Print Assumptions C36_target_first_partial.

(** A program with two records and a method of each; one method calls the other
    on a field of its target. *)
Definition shop : list String.string :=
  ["registo Item"; " preco: int"; "fim"; "registo Cesto"; " item: Item"; " n: int"; "fim";
   "met Item::custo(alvo, desc: int): int"; " retorna alvo.preco - desc"; "fim";
   "met Cesto::total(alvo, desc: int): int"; " retorna alvo.n * alvo.item.custo(desc)"; "fim";
   "c: Cesto = Cesto(item: Item(preco: 10), n: 3)";
   "mostra c.total(4)"; "mostra c.item.custo(1)"]%string.
Example C36_shop : see1 shop = Prints (says ["18"; "9"]%string).
Proof. vm_compute. reflexivity. Qed.
(** The calls of members in its tree, with the methods they were given and the
    types these were declared for: the hypothesis of [C36_dispatch_partial] holds
    and its conclusion speaks of three calls. *)
Definition shop_calls : option (list (text * text * cty * cty)) :=
  let F := env_of [(txt "/repo/main.ama", lines shop)] in
  match parse alphabet (lines shop) with
  | POk m _ =>
      match (start_analyzer F alphabet (visit_usa F alphabet 20) (txt "/repo/main.ama") ;;; visit_all F (visit_usa F alphabet 20) (sm_children m)) (start_sst F) with
      | COk body s =>
          Some (flat_map (fun c => let '(a, m, i) := c in
            match nth_error (so_syms (sst_st s)) i with
            | Some x => match s_kind x with SMet tg _ _ => [(m, s_name x, tx_ty a, tg)] | _ => [] end
            | None => []
            end) (flat_map member_calls body))
      | _ => None
      end
  | _ => None
  end.
Example C36_shop_calls : exists item cesto,
  shop_calls = Some [(txt "custo", txt "custo", CReg item, CReg item); (txt "total", txt "total", CReg cesto, CReg cesto);
                     (txt "custo", txt "custo", CReg item, CReg item)] /\ item <> cesto.
Proof. vm_compute. do 2 eexists. split; [reflexivity|discriminate]. Qed.
Example C36_shop_accepted : exists mi s,
  let F := env_of [(txt "/repo/main.ama", lines shop)] in run_frontend F alphabet 20 (txt "/repo/main.ama") (start_sst F) = COk mi s.
Proof. vm_compute. do 2 eexists. reflexivity. Qed.

(** A method [tam] is checked as the function [tam]: a call with an argument of
    the wrong type is accepted, and the method gets it. *)
Theorem C36_tam_refuted :
  see1 ["registo A"; " x: int"; "fim"; "met A::tam(alvo, n: int): int"; " retorna n + alvo.x"; "fim";
        "a: A = A(x: 1)"; "mostra a.tam(""abc"")"]%string = Panics.
Proof. vm_compute. reflexivity. Qed.
Print Assumptions C36_tam_refuted.

(** A method called by its bare name, without a target, is accepted; the machine
    panics. *)
Theorem C36_bare_name_refuted :
  see1 ["registo A"; " x: int"; "fim"; "met A::nome(alvo, n: int): int"; " retorna alvo.x + n"; "fim";
        "mostra A(x: 1).nome(2)"; "mostra nome(5)"]%string = Panics.
Proof. vm_compute. reflexivity. Qed.
Print Assumptions C36_bare_name_refuted.

(** Inside [escolha] a member call is not rewritten (transform.py:66-107 does not
    go into the cases): the target is not passed, and the machine panics. *)
Theorem C36_escolha_refuted :
  see1 ["registo A"; " x: int"; "fim"; "met A::m(alvo): int"; " retorna alvo.x"; "fim"; "a: A = A(x: 3)"; "mostra a.m()";
        "escolha 1:"; " caso 1:"; "  mostra a.m()"; "fim"]%string = Panics /\
  see1 ["registo A"; " x: int"; "fim"; "met A::m(alvo): int"; " retorna alvo.x"; "fim"; "a: A = A(x: 3)"; "mostra a.m()";
        "se 1 == 1 entao"; "  mostra a.m()"; "fim"]%string = Prints (says ["3"; "3"]%string).
Proof. split; vm_compute; reflexivity. Qed.
Print Assumptions C36_escolha_refuted.
