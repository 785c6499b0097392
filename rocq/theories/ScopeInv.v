(** The analyser's scopes while it visits the statements of a function or
    module: they list the declarations seen, and the names under which local
    variables are stored are all different. *)
From Verif Require Import Base BaseFacts Dec Bson Value Ast Types Syntax Sym Exhaust Check Front Spec_Accept Spec_Scope GenLocals ValueFacts AcceptBase AcceptTypes AcceptFrame AcceptStep AcceptExpr ScopeExpr.
Local Open Scope chk_scope.

(** ** Storage names *)
Lemma dec_one d : (d <= 9)%nat -> exists c, dec_nat d = [c].
Proof. intros H. do 10 (destruct d as [|d]; [eexists; reflexivity|]). lia. Qed.
Lemma out_inj d k d' k' : (d <= 9)%nat -> (d' <= 9)%nat -> out_name d k = out_name d' k' -> d = d' /\ k = k'.
Proof.
  intros D D' E. unfold out_name in E. apply app_inv_head in E. destruct (dec_one d D) as (c & EC). destruct (dec_one d' D') as (c' & EC').
  rewrite EC, EC' in E. cbn [app] in E. injection E as -> E. apply app_inv_tail in E. rewrite <- EC' in EC. unfold dec_nat in *.
  apply dec_N_inj in E, EC. lia.
Qed.

Lemma Forall2_imp0 {A B} (Q Q' : A -> B -> Prop) l m : (forall a b, Q a b -> Q' a b) -> Forall2 Q l m -> Forall2 Q' l m.
Proof. intros H. induction 1; constructor; auto. Qed.
(** ** Growing stores *)
Record ext (st st' : store) : Prop := mkExt {
  x_syms : exists l, so_syms st' = so_syms st ++ l;
  x_scopes : forall k c, nth_error (so_scopes st) k = Some c -> exists c', nth_error (so_scopes st') k = Some c' /\ sc_up c' = sc_up c /\
    forall n i, assoc n (sc_syms c) = Some i -> assoc n (sc_syms c') = Some i
}.
Lemma ext_refl st : ext st st.
Proof. constructor; [exists []; rewrite app_nil_r; reflexivity|eauto 6]. Qed.
Lemma ext_trans a b c : ext a b -> ext b c -> ext a c.
Proof.
  intros [(l1 & E1) G1] [(l2 & E2) G2]. constructor; [exists (l1 ++ l2); rewrite E2, E1, app_assoc; reflexivity|].
  intros k s H. destruct (G1 _ _ H) as (s1 & H1 & U1 & A1). destruct (G2 _ _ H1) as (s2 & H2 & U2 & A2). exists s2. split; [assumption|]. split; [congruence|]. auto.
Qed.
Lemma frame_ext w st st' : frame w st st' -> ext st st'.
Proof. intros [(l & E & _) _ G _]. constructor; [eauto|exact G]. Qed.
Lemma ext_sym st st' i x : ext st st' -> nth_error (so_syms st) i = Some x -> nth_error (so_syms st') i = Some x.
Proof. intros [(l & ->) _] H. apply nth_old. exact H. Qed.
Lemma ext_get st st' sc n i : ext st st' -> scope_get st sc n = Some i -> scope_get st' sc n = Some i.
Proof.
  intros [_ G] H. unfold scope_get in *. destruct (nth_error (so_scopes st) sc) as [c|] eqn:E; [|discriminate H].
  destruct (G _ _ E) as (c' & E' & _ & A). rewrite E'. auto.
Qed.
Lemma ext_slot st st' i : ext st st' -> (i < List.length (so_syms st))%nat -> slot st' i = slot st i.
Proof.
  intros X LT. unfold slot. destruct (nth_error (so_syms st) i) as [x|] eqn:E; [rewrite (ext_sym _ _ _ _ X E); reflexivity|]. apply nth_error_None in E. lia.
Qed.
Lemma ext_inside st st' L sc : ext st st' -> inside st L sc -> inside st' L sc.
Proof.
  intros [_ G]. unfold inside. destruct L as [|l L]; [auto|]. destruct (nth_error (so_scopes st) sc) as [c|] eqn:E; [|intros []].
  destruct (G _ _ E) as (c' & E' & U' & _). rewrite E', U'. auto.
Qed.

Section Inv.
Variable gl : nat.
Variable path : text.
(** A local variable stored under the [k]-th name of the depth [d]. *)
Definition loc_sym (st : store) (d k : nat) (n : text) (i : nat) : Prop :=
  exists x t, nth_error (so_syms st) i = Some x /\ s_name x = n /\ s_kind x = SVar t /\ s_mod x = path /\ s_global x = false /\ s_out x = out_name d k.
Definition table (st : store) (d : nat) (c : scopeo) (ns : list (text * nat)) : Prop :=
  (forall n, assoc n ns = assoc n (sc_syms c)) /\
  exists ks, Forall2 (fun e k => loc_sym st d k (fst e) (snd e)) ns ks /\ Forall (fun k => (k < List.length (sc_syms c))%nat) ks.
Inductive sch (st : store) : nat -> list level -> Prop :=
| sch_top c ns : nth_error (so_scopes st) gl = Some c -> sc_up c = None -> (forall n, assoc n ns = assoc n (sc_syms c)) -> sch st gl [mkLevel gl ns]
| sch_in sc c up ns L : nth_error (so_scopes st) sc = Some c -> sc_up c = Some up -> (up < sc)%nat -> sch st up L ->
    table st (List.length L) c ns -> sch st sc (mkLevel sc ns :: L).
Lemma sch_scope st sc L : sch st sc L -> exists ns r, L = mkLevel sc ns :: r.
Proof. intros []; eauto. Qed.
Lemma sch_some st sc L : sch st sc L -> exists c, nth_error (so_scopes st) sc = Some c.
Proof. intros []; eauto. Qed.
Lemma sch_lt st sc L : sch st sc L -> (sc < List.length (so_scopes st))%nat.
Proof. intros C. destruct (sch_some _ _ _ C) as (c & E). apply nth_error_Some. congruence. Qed.
Lemma sch_ge st sc L : sch st sc L -> (gl <= sc)%nat.
Proof. induction 1; lia. Qed.
Lemma sch_resolve st sc L n : sch st sc L -> resolve_sc st sc n = look L n.
Proof.
  intros C. unfold resolve_sc. pose proof (sch_lt _ _ _ C) as LT. assert (LT' : (sc < S (List.length (so_scopes st)))%nat) by lia. clear LT.
  revert LT'. generalize (S (List.length (so_scopes st))) as f. induction C as [c ns E U A|sc c up ns L E U LT C IH [A _]]; intros f LF; (destruct f as [|f]; [lia|]); cbn [resolve_in look lv_names]; rewrite E, A.
  - rewrite U. destruct (assoc n (sc_syms c)); reflexivity.
  - destruct (assoc n (sc_syms c)); [reflexivity|]. rewrite U. apply IH. lia.
Qed.
Lemma loc_ext st st' d k n i : ext st st' -> loc_sym st d k n i -> loc_sym st' d k n i.
Proof. intros X (x & t & E & H). exists x, t. split; [eapply ext_sym; eassumption|exact H]. Qed.
Lemma table_ext st st' d c ns : ext st st' -> table st d c ns -> table st' d c ns.
Proof. intros X (A & ks & FA & B). split; [exact A|]. exists ks. split; [|exact B]. eapply Forall2_imp0; [|exact FA]. intros e k H. eapply loc_ext; eassumption. Qed.
Lemma sch_frame w st st' sc L : frame w st st' -> (forall k, (k <= sc)%nat -> ~ w k) -> sch st sc L -> sch st' sc L.
Proof.
  intros FR W C. pose proof (frame_ext _ _ _ FR) as X. induction C as [c ns E U A|sc c up ns L E U LT C IH T].
  - apply sch_top with (c := c); auto. rewrite (f_keep _ _ _ FR); [exact E|apply nth_error_Some; congruence|apply W; lia].
  - apply sch_in with (c := c) (up := up); auto.
    + rewrite (f_keep _ _ _ FR); [exact E|apply nth_error_Some; congruence|apply W; lia].
    + apply IH. intros k LE. apply W. lia.
    + eapply table_ext; eassumption.
Qed.
(** Every live local, with its storage name. *)
Definition cnt (st : store) (sc : nat) : nat := match nth_error (so_scopes st) sc with Some c => List.length (sc_syms c) | None => 0%nat end.
Lemma locals_cons l r : r <> [] -> locals (l :: r) = map snd (lv_names l) ++ locals r.
Proof. intros NE. unfold locals. destruct r; [congruence|]. cbn [removelast flat_map]. rewrite map_app. reflexivity. Qed.
Lemma sch_ne st sc L : sch st sc L -> L <> [].
Proof. intros []; discriminate. Qed.
Lemma sch_locals st sc L j : sch st sc L -> In j (locals L) -> exists d k n, loc_sym st d k n j /\
  ((d < pred (List.length L))%nat \/ (d = pred (List.length L) /\ (k < cnt st sc)%nat)).
Proof.
  induction 1 as [c ns E U A|sc c up ns L E U LT C IH (A & ks & FA & FB)]; intros I.
  - destruct I.
  - rewrite locals_cons in I by (eapply sch_ne; exact C). apply in_app_iff in I as [I|I].
    + cbn [lv_names] in I. apply in_map_iff in I as (e & <- & I). cbn [List.length pred]. revert I. clear A. induction FA as [|e' k ns ks HE FA IHF]; intros I; [destruct I|].
      inversion FB as [|? ? HK FB']; subst. destruct I as [->|I].
      * exists (List.length L), k, (fst e). split; [exact HE|]. right. split; [reflexivity|]. unfold cnt. rewrite E. exact HK.
      * apply IHF; assumption.
    + destruct (IH I) as (d & k & n & HL & HD). exists d, k, n. split; [exact HL|]. left. cbn [List.length pred]. pose proof (sch_ne _ _ _ C). destruct L; [congruence|]. cbn in *. lia.
Qed.
Lemma fresh_slot st stf sc L i x : sch st sc L -> (List.length L <= 10)%nat -> ext st stf -> nth_error (so_syms stf) i = Some x ->
  s_out x = out_name (pred (List.length L)) (cnt st sc) -> ~ In (slot stf i) (map (slot stf) (locals L)).
Proof.
  intros C LE X EX OX I. apply in_map_iff in I as (j & ES & IJ). destruct (sch_locals _ _ _ _ C IJ) as (d & k & n & HL & HD).
  destruct (loc_ext _ _ _ _ _ _ X HL) as (y & t & EY & _ & _ & _ & _ & OY). unfold slot in ES. rewrite EX, EY in ES. injection ES as ES. rewrite OX, OY in ES.
  apply out_inj in ES as [-> ->]; lia.
Qed.

Record sinv (L : list level) (s : sst) : Prop := mkSinv {
  v_path : cx_module (sst_cx s) = path;
  v_yield : noyield s;
  v_reg : cx_reg (sst_cx s) = false;
  v_depth : cx_depth (sst_cx s) = pred (List.length L);
  v_chain : sch (sst_st s) (cx_scope (sst_cx s)) L
}.
Lemma sinv_step L s s' : sinv L s -> step nowhere s s' -> sinv L s'.
Proof.
  intros [A B R C D] [FR (ln & CX)]. constructor; rewrite ?CX; unfold noyield in *; rewrite ?CX; cbn [reline sst_cx cx_module cx_yield cx_reg cx_depth cx_scope]; auto.
  eapply sch_frame; [exact FR| |exact D]. intros k _ [].
Qed.
Lemma sinv_line L s ln : sinv L s -> sinv L (reline s ln).
Proof. intros [A B R C D]. constructor; auto. Qed.
Lemma sinv_resolve L s n : sinv L s -> resolve_sc (sst_st s) (cx_scope (sst_cx s)) n = look L n.
Proof. intros I. apply sch_resolve. apply I. Qed.
(** A new local of the current level. *)
Lemma sch_bind st st' sc ns r n i t x : sch st sc (mkLevel sc ns :: r) -> r <> [] -> scope_get st sc n = None ->
  ext st st' -> nth_error (so_syms st') i = Some x -> s_name x = n -> s_kind x = SVar t -> s_mod x = path -> s_global x = false ->
  s_out x = out_name (List.length r) (cnt st sc) -> so_scopes st' = upd (so_scopes st) sc (bind_in n i) ->
  sch st' sc (mkLevel sc ((n, i) :: ns) :: r).
Proof.
  intros C NE FREE X EX NX KX MX GX OX SC. inversion C as [|? c up ? ? E U LT C' (A & ks & FA & FB)]; subst; [congruence|].
  assert (E' : nth_error (so_scopes st') sc = Some (bind_in (s_name x) i c)) by (rewrite SC, nth_upd, Nat.eqb_refl, E; reflexivity).
  unfold scope_get in FREE. rewrite E in FREE. assert (ES : assoc_set (sc_syms c) (s_name x) i = sc_syms c ++ [(s_name x, i)]) by (apply assoc_set_none; exact FREE).
  assert (KEEP : forall k L, (k < sc)%nat -> sch st k L -> sch st' k L).
  { intros k L LTK CK. induction CK as [c1 ns1 E1 U1 A1|k c1 up1 ns1 L1 E1 U1 LT1 CK IHK T1].
    - apply sch_top with (c := c1); auto. rewrite SC, nth_upd. destruct (gl =? sc)%nat eqn:EQ; [apply Nat.eqb_eq in EQ; lia|exact E1].
    - apply sch_in with (c := c1) (up := up1); auto; [|apply IHK; lia|eapply table_ext; eassumption].
      rewrite SC, nth_upd. destruct (k =? sc)%nat eqn:EQ; [apply Nat.eqb_eq in EQ; lia|exact E1]. }
  apply sch_in with (c := bind_in (s_name x) i c) (up := up); [exact E'|exact U|exact LT|apply KEEP; assumption|].
  unfold bind_in. split; cbn [sc_syms].
  - intros m. cbn [assoc]. rewrite ES. destruct (text_eqb m (s_name x)) eqn:EM.
    + apply text_eqb_eq in EM. subst m. rewrite <- ES, assoc_set_eq. reflexivity.
    + rewrite A, <- ES. symmetry. apply assoc_set_neq. intros ->. rewrite text_eqb_refl in EM. discriminate EM.
  - exists (cnt st sc :: ks). split; [|constructor].
    + constructor; [|eapply Forall2_imp0; [|exact FA]; intros; eapply loc_ext; eassumption]. exists x, t. cbn [fst snd]. auto 10.
    + unfold cnt. rewrite E, ES, app_length. cbn. lia.
    + eapply Forall_impl; [|exact FB]. cbn. intros k HK. rewrite ES, app_length. lia.
Qed.
End Inv.
