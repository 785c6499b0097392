(** C37: generic records substitute their type argument consistently.
    /repo/amanda/compiler/types/core.py:560-680, symbols/core.py:20-25, 65-111. *)
From Coq Require Import Lia.
From Verif Require Import Base Dec Bson Value Ast Types Syntax Lexer Parser Sym Exhaust Check Front Ex_Front Spec_Generic.
Local Open Scope string_scope.

(** ** Two types are equal exactly when they are the same type *)

Lemma text_eqb_true a b : text_eqb a b = true <-> a = b.
Proof. unfold text_eqb. destruct (list_eq_dec N.eq_dec a b); split; congruence. Qed.
Lemma assoc_head {A} k (v : A) l : assoc k ((k, v) :: l) = Some v.
Proof. cbn. unfold text_eqb. destruct (list_eq_dec N.eq_dec k k); congruence. Qed.
Lemma assoc_skip {A} k k' (v : A) l : k <> k' -> assoc k ((k', v) :: l) = assoc k l.
Proof. intros N. cbn. unfold text_eqb. destruct (list_eq_dec N.eq_dec k k'); congruence. Qed.

Definition all_eq (args' : list (text * ty)) := fix all (l : list (text * ty)) : bool :=
  match l with
  | [] => true
  | (n, t) :: r => match assoc n args' with Some t' => ty_eqb t t' | None => false end && all r
  end.
Lemma ty_eqb_con g l g' l' : ty_eqb (TyCon g l) (TyCon g' l') = ty_eqb g g' && all_eq l' l.
Proof. reflexivity. Qed.

(** Comparing argument lists with the same keys compares them one by one. *)
Lemma all_eq_pairs l' : NoDup (map fst l') -> forall l, map fst l = map fst l' ->
  (all_eq l' l = true <-> Forall2 (fun a b => ty_eqb (snd a) (snd b) = true) l l').
Proof.
  intros ND l E.
  assert (G : forall l'' l, map fst l = map fst l'' -> (forall k v, In (k, v) l'' -> assoc k l' = Some v) ->
              (all_eq l' l = true <-> Forall2 (fun a b => ty_eqb (snd a) (snd b) = true) l l'')).
  { clear l E. induction l'' as [| [k v] l'' IH]; intros [| [k1 v1] l] E Ha; try discriminate E; cbn.
    - split; constructor.
    - injection E as -> E. rewrite (Ha k v (or_introl eq_refl)). rewrite andb_true_iff, (IH l E); [| intros; apply Ha; now right].
      split; intros H.
      + constructor; tauto.
      + inversion H; subst; cbn in *. tauto. }
  apply G; [exact E |]. clear -ND. induction l' as [| [k v] l' IH]; intros k1 v1 I; [destruct I |].
  inversion ND as [| ? ? Hn ND']; subst. destruct I as [I | I].
  - injection I as <- <-. apply assoc_head.
  - rewrite assoc_skip; [now apply IH |]. intros ->. apply Hn. apply (in_map fst) in I. exact I.
Qed.

Fixpoint csize (t : cty) : nat :=
  match t with
  | CVec e => S (csize e)
  | CCon g l => S (csize g + fold_right (fun a n => csize (snd a) + n) 0 l)
  | _ => 1
  end%nat.
Lemma csize_in k t g l : In (k, t) l -> (csize t < csize (CCon g l))%nat.
Proof.
  intros I. cbn [csize]. enough (csize t <= fold_right (fun a n => csize (snd a) + n) 0 l)%nat by lia.
  induction l as [| [k1 t1] l IH]; [destruct I |]. cbn. destruct I as [I | I]; [injection I as -> ->; lia | specialize (IH I); lia].
Qed.

Lemma name_of st i x : nth_error (so_syms st) i = Some x ->
  match nth_error (so_syms st) i with Some x => s_name x | None => [] end = s_name x.
Proof. intros ->. reflexivity. Qed.

Lemma keys_strip st (l : list (text * cty)) : map fst (map (fun a => (fst a, strip st (snd a))) l) = map fst l.
Proof. rewrite map_map. reflexivity. Qed.

Theorem C37_equality_partial : forall st, named_apart st -> forall a b, built st a -> built st b ->
  (ty_eqb (strip st a) (strip st b) = true <-> a = b).
Proof.
  intros st AP. assert (R : forall i j tp tp', a_record st i tp -> a_record st j tp' ->
    (ty_eqb (strip st (CReg i)) (strip st (CReg j)) = true <-> i = j)).
  { intros i j tp tp' Hi Hj. pose proof Hi as (x & f & ms & E1 & K1). pose proof Hj as (y & f' & ms' & E2 & K2).
    cbn. rewrite E1, E2. rewrite text_eqb_true. split; intros H; [| congruence].
    eapply AP; [exact E1 | exact E2 | exact H |]. left. split; eauto. }
  enough (G : forall n a b, (csize a < n)%nat -> built st a -> built st b -> (ty_eqb (strip st a) (strip st b) = true <-> a = b)) by
    (intros a b; apply (G (S (csize a)) a b); lia).
  induction n as [| n IH]; intros a b L Ba Bb; [lia |].
  destruct Ba as [p | e Be | i tp Hi | i Hi | v | p | r tp l Hr Hl ND Hall]; destruct Bb as [q | e' Be' | j tp' Hj | j Hj | w | q | r' tp' l' Hr' Hl' ND' Hall'];
    try (cbn; split; intros; discriminate).
  - cbn. split; intros H; [| injection H as ->; destruct q; reflexivity].
    f_equal. destruct p, q; try discriminate; reflexivity.
  - cbn [strip ty_eqb]. rewrite (IH e e'); [| cbn in L; lia | assumption | assumption]. split; congruence.
  - rewrite (R i j tp tp' Hi Hj). split; congruence.
  - pose proof Hi as (x & vs & ms & tps & E1 & K1). pose proof Hj as (y & vs' & ms' & tps' & E2 & K2).
    cbn. rewrite E1, E2, text_eqb_true. split; intros H; [| congruence].
    f_equal. eapply AP; [exact E1 | exact E2 | exact H |]. right. tauto.
  - cbn. rewrite text_eqb_true. split; congruence.
  - cbn. rewrite text_eqb_true. split; congruence.
  - cbn [strip]. rewrite ty_eqb_con, andb_true_iff. fold (strip st (CReg r)). fold (strip st (CReg r')). rewrite (R r r' tp tp' Hr Hr').
    split.
    + intros [-> H]. f_equal. destruct Hr as (x & f & ms & E1 & K1). destruct Hr' as (y & f' & ms' & E2 & K2).
      rewrite E1 in E2. injection E2 as <-. rewrite K1 in K2. injection K2 as <- <- <-.
      rewrite all_eq_pairs in H by (rewrite ?keys_strip; congruence).
      clear ND ND' K1 E1. revert l' Hl' Hall' H. subst tp.
      assert (In_l : forall k t, In (k, t) l -> (csize t < n)%nat).
      { intros k t I. pose proof (csize_in k t (CReg r') l I). lia. }
      clear L. induction l as [| [k t] l IHl]; intros [| [k' t'] l'] Hl' Hall' H; try discriminate; [reflexivity |].
      cbn in H, Hl'. inversion H as [| ? ? ? ? H1 H2]; subst. injection Hl' as -> Hl'. cbn in H1.
      inversion Hall; inversion Hall'; subst; cbn in *.
      rewrite IH in H1; [| apply (In_l k); now left | assumption | assumption]. subst t'. f_equal.
      apply IHl; auto. intros k0 t0 I; apply (In_l k0); now right.
    + intros H. injection H as <- <-. split; [reflexivity |].
      rewrite all_eq_pairs by (rewrite ?keys_strip; congruence).
      assert (In_l : forall k t, In (k, t) l -> (csize t < n)%nat).
      { intros k t I. pose proof (csize_in k t (CReg r) l I). lia. }
      clear L Hl Hl' Hall'. induction l as [| [k t] l IHl]; cbn; constructor.
      * cbn. inversion Hall; subst. apply IH; auto. apply (In_l k); now left.
      * inversion Hall; subst. apply IHl; auto. intros k0 t0 I; apply (In_l k0); now right.
Qed.
Print Assumptions C37_equality_partial.

(** A program with a generic record [C[T]] and a record [P]: [C[[P]]] and
    [C[int]] are types built from it, and differ. *)
Definition two_records : store :=
  mkStore [mkSymbol (txt "C") (txt "C") true false [] false (SReg 0 [] [txt "T"]);
           mkSymbol (txt "x") (txt "x") false true [] false (SVar (CVar (txt "T")));
           mkSymbol (txt "v") (txt "v") false true [] false (SVar (CVec (CVar (txt "T"))));
           mkSymbol (txt "P") (txt "P") true false [] false (SReg 1 [] [])]
          [mkScope [(txt "x", 1%nat); (txt "v", 2%nat)] None; mkScope [] None] [] None [] [].
Example C37_equality_case :
  named_apart two_records /\ built two_records (CCon (CReg 0) [(txt "T", CVec (CReg 3))]) /\
  built two_records (CCon (CReg 0) [(txt "T", CPrim TInt)]) /\
  ty_eqb (strip two_records (CCon (CReg 0) [(txt "T", CVec (CReg 3))])) (strip two_records (CCon (CReg 0) [(txt "T", CPrim TInt)])) = false.
Proof.
  assert (A : a_record two_records 0 [txt "T"]) by (repeat eexists).
  split; [| split; [| split; [| reflexivity]]].
  - intros i j x y Ei Ej N [[[tp Ri] [tp' Rj]] | [Ui Uj]].
    + destruct i as [| [| [| [| i]]]]; destruct j as [| [| [| [| j]]]]; cbn in Ei, Ej; try reflexivity; try (destruct i; discriminate); try (destruct j; discriminate);
        injection Ei as <-; injection Ej as <-; cbn in N; try discriminate N;
        repeat match goal with H : a_record _ _ _ |- _ => destruct H as (? & ? & ? & ? & ?); cbn in *; congruence end.
    + destruct Ui as (x' & vs & ms & tp & E & K). destruct i as [| [| [| [| i]]]]; cbn in E; try (destruct i; discriminate); injection E as <-; discriminate K.
  - apply (BCon _ _ [txt "T"]); [exact A | reflexivity | repeat constructor; intros [] |].
    repeat constructor. apply (BReg _ 3 []). repeat eexists.
  - apply (BCon _ _ [txt "T"]); [exact A | reflexivity | repeat constructor; intros [] |]. repeat constructor.
Qed.

(** Two records of different modules that have the same name are one type for the
    analyser, so an int variable can hold a text. *)
Theorem C37_same_name_refuted :
  (exists st i j, i <> j /\ a_record st i [] /\ a_record st j [] /\ ty_eqb (strip st (CReg i)) (strip st (CReg j)) = true) /\
  see [(txt "/repo/a.ama", lines ["registo P"; " x: int"; "fim"; "func f(p: P): int"; " retorna p.x"; "fim"]);
       (txt "/repo/main.ama", lines ["usa ""a.ama"" => a"; "registo P"; " x: texto"; "fim"; "q: P = P(x: ""oi"")";
                                     "n: int = a.f(q)"; "mostra n"])] (txt "/repo/main.ama") [] 4000 = Prints (says ["oi"]).
Proof.
  split; [| vm_compute; reflexivity].
  exists (mkStore [mkSymbol (txt "P") [] true false (txt "a.ama") false (SReg 0 [] []);
                   mkSymbol (txt "P") [] true false (txt "main.ama") false (SReg 0 [] [])] [] [] None [] []), 0%nat, 1%nat.
  split; [discriminate |]. split; [repeat eexists |]. split; [repeat eexists | reflexivity].
Qed.
Print Assumptions C37_same_name_refuted.
Theorem C13_same_name_refuted :
  see [(txt "/repo/a.ama", lines ["registo P"; " x: int"; "fim"; "func f(p: P): int"; " retorna p.x + 1"; "fim"]);
       (txt "/repo/main.ama", lines ["usa ""a.ama"" => a"; "registo P"; " x: texto"; "fim"; "q: P = P(x: ""oi"")"; "mostra a.f(q)"])]
      (txt "/repo/main.ama") [] 4000 = Panics.
Proof. vm_compute. reflexivity. Qed.
Print Assumptions C13_same_name_refuted.

(** ** Fields *)

Local Open Scope chk_scope.
Lemma mentions_not_args args t : (forall n, ~ mentions n t) -> subst args t = t.
Proof.
  enough (G : forall k t, (csize t < k)%nat -> (forall n, ~ mentions n t) -> subst args t = t) by
    (apply (G (S (csize t)) t); lia).
  clear t. induction k as [| k IH]; intros t L N; [lia |]. destruct t as [p | e | i | i | g l | n | p]; try reflexivity; cbn [subst].
  - rewrite IH; [reflexivity | cbn in L; lia |]. intros m Hm. apply (N m). now constructor.
  - rewrite (IH g); [| cbn in L; lia | intros m Hm; apply (N m); now constructor].
    f_equal. rewrite <- (map_id l) at 2. apply map_ext_in. intros [k1 t1] I. cbn.
    rewrite IH; [reflexivity | | intros m Hm; apply (N m); now apply (MArg m g l k1 t1)].
    pose proof (csize_in k1 t1 g l I). lia.
  - destruct (N n). constructor.
Qed.

Lemma nth_error_old {A} (l e : list A) i x : nth_error l i = Some x -> nth_error (l ++ e)%list i = Some x.
Proof. intros H. rewrite nth_error_app1; [exact H |]. apply nth_error_Some. congruence. Qed.
Lemma nth_error_new {A} (l : list A) x : nth_error (l ++ [x])%list (List.length l) = Some x.
Proof. rewrite nth_error_app2, Nat.sub_diag by lia. reflexivity. Qed.
Lemma has_type_old st e i t : has_type st i t -> has_type (with_syms st (so_syms st ++ e)%list) i t.
Proof. intros (y & E & K). exists y. split; [cbn; now apply nth_error_old | exact K]. Qed.

(** A state in which only symbols were added. *)
Definition adds (s s' : sst) : Prop :=
  sst_cx s' = sst_cx s /\ exists e, sst_st s' = with_syms (sst_st s) (so_syms (sst_st s) ++ e)%list.
Lemma with_syms_id st : with_syms st (so_syms st ++ [])%list = st.
Proof. rewrite app_nil_r. now destruct st. Qed.
Lemma adds_refl s : adds s s.
Proof. split; [reflexivity |]. exists []. now rewrite with_syms_id. Qed.
Lemma adds_trans a b c : adds a b -> adds b c -> adds a c.
Proof.
  intros [C1 [e1 E1]] [C2 [e2 E2]]. split; [congruence |]. exists (e1 ++ e2)%list. rewrite E2, E1. unfold with_syms. cbn. now rewrite app_assoc.
Qed.
Lemma adds_type s s' i t : adds s s' -> has_type (sst_st s) i t -> has_type (sst_st s') i t.
Proof. intros [_ [e ->]]. apply has_type_old. Qed.

(** The type of a bound variable: the argument of the parameter, if the type is
    a parameter, and the declared type otherwise. *)
Definition top_subst (args : list (text * cty)) (t : cty) : cty :=
  match t with CVar n => match assoc n args with Some a => a | None => t end | _ => t end.
Lemma bind_var_type args i t s : has_type (sst_st s) i t -> (forall n, t = CVar n -> assoc n args <> None) ->
  exists j s', bind_var args i s = COk j s' /\ adds s s' /\ has_type (sst_st s') j (top_subst args t).
Proof.
  intros (y & E & K) Ha. unfold bind_var, sym_at, cbind, gst. rewrite E. cbn. rewrite K.
  destruct t as [p | e | k | k | g l | n | p]; try (exists i, s; split; [reflexivity | split; [apply adds_refl | now exists y]]).
  destruct (assoc n args) as [a |] eqn:A; [| destruct (Ha n eq_refl A)]. cbn. rewrite A.
  eexists _, _. split; [reflexivity |]. split.
  - split; [reflexivity |]. eexists. reflexivity.
  - eexists. cbn. split; [apply nth_error_new | reflexivity].
Qed.

Lemma top_shallow args t : shallow t -> top_subst args t = subst args t.
Proof.
  intros [[n ->] | N]; [reflexivity |]. rewrite mentions_not_args by assumption.
  destruct t; try reflexivity. destruct (N name). constructor.
Qed.

Lemma field_symbol r n t s : field (sst_st s) r n t -> exists i, get_property (CReg r) n s = COk (Some i) s /\ has_type (sst_st s) i t.
Proof.
  intros (x & f & ms & tp & i & E & K & G & H). exists i. split; [| exact H].
  cbn [get_property]. unfold sym_at, cbind, gst. rewrite E. cbn. rewrite K. now rewrite G.
Qed.
Lemma type_kind st i t y : has_type st i t -> nth_error (so_syms st) i = Some y -> s_kind y = SVar t.
Proof. intros (y' & E & K) E'. congruence. Qed.

Lemma field_type args r n t s : field (sst_st s) r n t -> (forall m, t = CVar m -> assoc m args <> None) ->
  exists j s', get_property (CCon (CReg r) args) n s = COk (Some j) s' /\ adds s s' /\ has_type (sst_st s') j (top_subst args t).
Proof.
  intros F A. destruct (field_symbol r n t s F) as (i & G & H).
  destruct (bind_var_type args i t s H A) as (j & s' & B & Ad & Ht).
  exists j, s'. split; [| tauto]. change (get_property (CCon (CReg r) args) n) with
    (o <- get_property (CReg r) n ;; match o with None => cret None | Some i => j <- bind_sym args i ;; cret (Some j) end).
  unfold cbind at 1. rewrite G. destruct H as (y & E & K).
  assert (Q : bind_sym args i s = COk j s').
  { unfold bind_sym, sym_at. unfold cbind at 1. unfold cbind at 1. unfold gst. rewrite E. cbn [must cret]. rewrite K. exact B. }
  unfold cbind. now rewrite Q.
Qed.

(** The field [n] of a record [r] applied to [args] has its declared type with
    the parameters replaced, when that type is a parameter or mentions none. *)
Theorem C37_field_partial : forall args r n t s,
  field (sst_st s) r n t -> shallow t -> (forall m, mentions m t -> assoc m args <> None) ->
  exists j s', get_property (CCon (CReg r) args) n s = COk (Some j) s' /\ has_type (sst_st s') j (subst args t) /\
    forall i u, has_type (sst_st s) i u -> has_type (sst_st s') i u.
Proof.
  intros args r n t s F S A. destruct (field_type args r n t s F) as (j & s' & G & Ad & H).
  - intros m ->. apply A. constructor.
  - exists j, s'. rewrite <- top_shallow by assumption. split; [exact G |]. split; [exact H |].
    intros i u. now apply adds_type.
Qed.
Print Assumptions C37_field_partial.

(** A parameter inside the declared type is never replaced. *)
Theorem C37_inner_refuted : forall args r n t s,
  field (sst_st s) r n t -> ~ shallow t ->
  exists j s', get_property (CCon (CReg r) args) n s = COk (Some j) s' /\ has_type (sst_st s') j t.
Proof.
  intros args r n t s F S. destruct (field_type args r n t s F) as (j & s' & G & Ad & H).
  - intros m ->. destruct S. left. now exists m.
  - exists j, s'. split; [exact G |]. destruct t; try exact H. destruct S. left. now exists name.
Qed.
Print Assumptions C37_inner_refuted.
Example C37_field_case :
  let s := mkSst two_records (mkCx 0 0 0 0%Z false None None false [] 0) in
  field (sst_st s) 0 (txt "x") (CVar (txt "T")) /\ shallow (CVar (txt "T")) /\
  field (sst_st s) 0 (txt "v") (CVec (CVar (txt "T"))) /\ ~ shallow (CVec (CVar (txt "T"))) /\
  subst [(txt "T", CPrim TInt)] (CVec (CVar (txt "T"))) = CVec (CPrim TInt).
Proof.
  split; [repeat eexists |]. split; [left; now eexists |]. split; [repeat eexists |]. split; [| reflexivity].
  intros [[n E] | N]; [discriminate E |]. apply (N (txt "T")). repeat constructor.
Qed.

(** ** Methods *)

Lemma mapc_cons {A B} (f : A -> M B) x r : mapc f (x :: r) = (y <- f x ;; ys <- mapc f r ;; cret (y :: ys)).
Proof. reflexivity. Qed.
Lemma cbind_ok {A B} (m : M A) (f : A -> M B) s a s' : m s = COk a s' -> cbind m f s = f a s'.
Proof. intros H. unfold cbind. now rewrite H. Qed.

Lemma params_bound args : forall ps ts s, Forall2 (fun (p : text * nat) u => has_type (sst_st s) (snd p) u) ps ts ->
  (forall t m, In t ts -> t = CVar m -> assoc m args <> None) ->
  exists ps' s', mapc (fun p => j <- bind_var args (snd p) ;; cret (fst p, j)) ps s = COk ps' s' /\ adds s s' /\
    map fst ps' = map fst ps /\ Forall2 (fun (p : text * nat) u => has_type (sst_st s') (snd p) u) ps' (map (top_subst args) ts).
Proof.
  induction ps as [| [k i] ps IH]; intros ts s H A; inversion H as [| ? t ? ts' H1 H2]; subst.
  - exists [], s. split; [reflexivity |]. split; [apply adds_refl |]. split; [reflexivity | constructor].
  - destruct (bind_var_type args i t s H1) as (j & s1 & B & Ad & Ht); [intros m Em; apply (A t m); [now left | exact Em] |].
    destruct (IH ts' s1) as (ps' & s2 & B2 & Ad2 & N & H').
    { clear -H2 Ad. induction H2; constructor; auto. now apply (adds_type s s1). }
    { intros u m I; apply A; now right. }
    exists ((k, j) :: ps'), s2. split.
    + rewrite mapc_cons. erewrite cbind_ok; [| erewrite cbind_ok by exact B; reflexivity].
      erewrite cbind_ok by exact B2. reflexivity.
    + split; [eapply adds_trans; eassumption |]. split; [cbn; now f_equal |]. cbn. constructor; [| exact H'].
      cbn. now apply (adds_type s1 s2).
Qed.

Lemma not_generic st ps ts : Forall2 (fun (p : text * nat) u => has_type st (snd p) u) ps ts -> has_generic st ps = false ->
  forall t n, In t ts -> t <> CVar n.
Proof.
  unfold has_generic. induction 1 as [| [k i] t ps ts H H2 IH]; intros E u n I; [destruct I |].
  cbn in E. apply orb_false_iff in E. destruct E as [E1 E2]. destruct H as (y & Ey & K). cbn in Ey. rewrite Ey, K in E1.
  destruct I as [<- | I]; [intros ->; discriminate E1 | now apply IH].
Qed.

(** The method [n] of a record [r] applied to [args] takes and returns its
    declared types with the parameters replaced, for shallow types. *)
Theorem C37_method_partial : forall args r n ts t s,
  method (sst_st s) r n ts t -> (forall u, In u (t :: ts) -> shallow u) ->
  (forall u m, In u (t :: ts) -> mentions m u -> assoc m args <> None) ->
  exists j s', get_property (CCon (CReg r) args) n s = COk (Some j) s' /\
    method_type (sst_st s') j (map (subst args) ts) (subst args t).
Proof.
  intros args r n ts t s (x & f & ms & tp & i & E & K & G & As & (y & tgt & ps & Ey & Ky & Hps)) Sh A.
  assert (Q : map (subst args) ts = map (top_subst args) ts).
  { apply map_ext_in. intros u I. symmetry. apply top_shallow, Sh. now right. }
  assert (Q' : subst args t = top_subst args t) by (symmetry; apply top_shallow, Sh; now left). rewrite Q, Q'.
  assert (R : forall s1, exists r', (match t with CVar n => must (assoc n args) | _ => cret t end) s1 = COk r' s1 /\ r' = top_subst args t).
  { intros s1. destruct t; try (eexists; split; reflexivity). cbn.
    destruct (assoc name args) as [a |] eqn:Ea; [eexists; split; reflexivity |].
    destruct (A (CVar name) name (or_introl eq_refl) (MHere _) Ea). }
  assert (Params : exists ps' s1, (if has_generic (sst_st s) ps || is_cvar t then mapc (fun p => j <- bind_var args (snd p) ;; cret (fst p, j)) ps else cret ps) s
             = COk ps' s1 /\ adds s s1 /\ Forall2 (fun (p : text * nat) u => has_type (sst_st s1) (snd p) u) ps' (map (top_subst args) ts)).
  { destruct (has_generic (sst_st s) ps || is_cvar t)%bool eqn:D.
    - destruct (params_bound args ps ts s Hps) as (ps' & s1 & B & Ad & _ & H).
      + intros u m I ->. apply (A (CVar m) m); [now right | constructor].
      + now exists ps', s1.
    - apply orb_false_iff in D. destruct D as [D _]. exists ps, s. split; [reflexivity |]. split; [apply adds_refl |].
      pose proof (not_generic _ _ _ Hps D) as NG. clear -Hps NG. induction Hps as [| p u ps ts H H2 IH]; cbn; constructor.
      + replace (top_subst args u) with u; [exact H |]. destruct u; try reflexivity. destruct (NG (CVar name) name (or_introl eq_refl) eq_refl).
      + apply IH. intros; apply NG; now right. }
  destruct Params as (ps' & s1 & B & Ad & H). destruct (R s1) as (r' & Er & ->).
  eexists _, _. split.
  - cbn [get_property]. unfold bind_sym, new_sym, sym_at. unfold cbind at 1. unfold cbind at 1. unfold cbind at 1. unfold gst at 1.
    rewrite E. cbn [must cret]. rewrite K. unfold gst at 1. rewrite G, As.
    unfold cbind at 1. unfold cbind at 1. unfold cbind at 1. unfold gst at 1. rewrite Ey. cbn [must cret]. rewrite Ky.
    unfold cbind at 1. unfold gst at 1. unfold cbind at 1. rewrite B. unfold cbind at 1. rewrite Er.
    unfold cbind, gst, mst, cret. reflexivity.
  - eexists _, _, _. cbn. split; [apply nth_error_new |]. split; [reflexivity |].
    match goal with |- context [(so_syms (sst_st s1) ++ ?e)%list] => generalize e end. intros e. clear -H. induction H; constructor; auto. apply has_type_old. assumption.
Qed.
Print Assumptions C37_method_partial.
Example C37_method_case :
  let st := mkStore [mkSymbol (txt "C") (txt "C") true false [] false (SReg 0 [(txt "f", 2%nat)] [txt "T"]);
                     mkSymbol (txt "y") (txt "y") false false [] false (SVar (CVar (txt "T")));
                     mkSymbol (txt "f") (txt "f") false true [] false (SMet (CReg 0) (CVar (txt "T")) [(txt "y", 1%nat)])]
                    [mkScope [] None] [] None [] [] in
  method st 0 (txt "f") [CVar (txt "T")] (CVar (txt "T")).
Proof. do 5 eexists. split; [reflexivity |]. split; [reflexivity |]. split; [reflexivity |]. split; [reflexivity |].
  do 3 eexists. split; [reflexivity |]. split; [reflexivity |]. constructor; [| constructor]. eexists. split; reflexivity. Qed.
(** The theorem at work on a whole program: [f] of a [C[texto]] returns a text. *)
Example C37_method_program :
  see1 ["registo C[T]"; " x: T"; "fim"; "met[T] C[T]::f(alvo, y: T): T"; " retorna y"; "fim"; "func g(c: C[texto]): texto"; " retorna c.f(""b"")"; "fim"; "mostra 1"]
  = Prints (says ["1"]).
Proof. vm_compute. reflexivity. Qed.
