(** Proofs about the constant, name and variant tables and about literals. *)
From Coq Require Import Decimal DecimalPos Permutation.
From Verif Require Import Base BaseFacts Bson Dec Float Opcode Value VM Ast CodeGen Spec_Value ValueFacts Spec_Tables.

Lemma ckey_eqb_eq a b : ckey_eqb a b = true <-> a = b.
Proof.
  destruct a, b; cbn; rewrite ?Z.eqb_eq, ?text_eqb_eq; split; congruence.
Qed.

Section Table.
Context {A : Type} (eqb : A -> A -> bool) (Heq : forall a b, eqb a b = true <-> a = b).
Lemma index_of_some l x i : index_of eqb l x = Some i -> nth_error l i = Some x.
Proof.
  revert i; induction l as [|y l IH]; intros i; cbn; [discriminate|].
  destruct (eqb y x) eqn:E; [intros X; injection X as <-; apply Heq in E as ->; reflexivity|].
  destruct (index_of eqb l x); [|discriminate]. intros X; injection X as <-. cbn. auto.
Qed.
Lemma index_of_none l x : index_of eqb l x = None -> ~ In x l.
Proof.
  induction l as [|y l IH]; cbn; [tauto|]. destruct (eqb y x) eqn:E; [discriminate|].
  destruct (index_of eqb l x); [discriminate|]. intros _ [->|H]; [|apply IH; auto].
  assert (eqb x x = true) by (apply Heq; reflexivity). congruence.
Qed.
Lemma table_index_spec l x l' i : table_index eqb l x = (l', i) -> NoDup l ->
  nth_error l' (N.to_nat i) = Some x /\ NoDup l' /\ (exists e, l' = l ++ e) /\ (forall y, In y l' -> In y l \/ y = x).
Proof.
  unfold table_index. intros T ND. destruct (index_of eqb l x) as [k|] eqn:E; injection T as <- <-.
  - rewrite Nnat.Nat2N.id. split; [apply index_of_some, E|]. split; [assumption|].
    split; [exists []; rewrite app_nil_r; reflexivity|auto].
  - rewrite Nnat.Nat2N.id. split; [rewrite nth_error_app2, Nat.sub_diag by lia; reflexivity|].
    apply index_of_none in E. split; [|split; [eexists; reflexivity|]].
    + apply Permutation.Permutation_NoDup with (l := x :: l); [apply Permutation.Permutation_cons_append|].
      constructor; assumption.
    + intros y Hy. apply in_app_iff in Hy as [Hy|[<-|[]]]; auto.
Qed.
End Table.

Lemma nth_error_prefix {A} (l e : list A) i x : nth_error l i = Some x -> nth_error (l ++ e) i = Some x.
Proof. intros H. rewrite nth_error_app1; [assumption|]. apply nth_error_Some. congruence. Qed.

Section Req.
Context {A : Type} (req : gst -> A -> pyres (gst * N)) (tab : gst -> list A).
Hypothesis Hreq : forall s k s' i, req s k = PyOk (s', i) -> NoDup (tab s) ->
  nth_error (tab s') (N.to_nat i) = Some k /\ NoDup (tab s') /\ (exists e, tab s' = tab s ++ e) /\ (i < 2 ^ 16 - 1)%N.
Lemma requests_spec ks : forall s s' is, requests req s ks = PyOk (s', is) -> NoDup (tab s) ->
  NoDup (tab s') /\ (exists e, tab s' = tab s ++ e) /\
  Forall2 (fun k i => nth_error (tab s') (N.to_nat i) = Some k /\ (i < 2 ^ 16 - 1)%N) ks is.
Proof.
  induction ks as [|k ks IH]; intros s s' is H ND; cbn in H.
  - injection H as <- <-. split; [assumption|]. split; [exists []; rewrite app_nil_r; reflexivity|constructor].
  - destruct (req s k) as [[s1 i]|] eqn:R; [|discriminate].
    destruct (requests req s1 ks) as [[s2 is']|] eqn:Q; [|discriminate]. injection H as <- <-.
    destruct (Hreq _ _ _ _ R ND) as (N1 & ND1 & (e & E1) & B).
    destruct (IH _ _ _ Q ND1) as (ND2 & (e2 & E2) & F).
    split; [assumption|]. split; [exists (e ++ e2); rewrite E2, E1, app_assoc; reflexivity|].
    constructor; [|assumption]. split; [rewrite E2; apply nth_error_prefix, N1|assumption].
Qed.
Lemma requests_inj ks s s' is : requests req s ks = PyOk (s', is) -> NoDup (tab s) ->
  forall a b i j k l, nth_error ks a = Some k -> nth_error ks b = Some l ->
    nth_error is a = Some i -> nth_error is b = Some j -> (k = l <-> i = j).
Proof.
  intros R ND a b i j k l Ha Hb Ia Ib.
  destruct (requests_spec _ _ _ _ R ND) as (ND' & _ & F).
  assert (G : forall a k i, nth_error ks a = Some k -> nth_error is a = Some i -> nth_error (tab s') (N.to_nat i) = Some k).
  { clear -F. intros a. revert ks is F. induction a as [|a IH]; intros ks is F k i Hk Hi; destruct F as [|x y ks is P F]; try discriminate; cbn in *.
    - injection Hk as ->. injection Hi as ->. apply P.
    - eapply IH; eauto. }
  pose proof (G _ _ _ Ha Ia) as G1. pose proof (G _ _ _ Hb Ib) as G2. split.
  - intros <-. assert (N.to_nat i = N.to_nat j); [|lia].
    apply (proj1 (NoDup_nth_error (tab s')) ND'); [apply nth_error_Some; congruence|congruence].
  - intros ->. congruence.
Qed.
End Req.

Lemma const_index_spec s k s' i : const_index s k = PyOk (s', i) -> NoDup (g_consts s) ->
  nth_error (g_consts s') (N.to_nat i) = Some k /\ NoDup (g_consts s') /\ (exists e, g_consts s' = g_consts s ++ e) /\ (i < 2 ^ 16 - 1)%N.
Proof.
  unfold const_index. destruct (table_index ckey_eqb (g_consts s) k) as [t j] eqn:T. destruct (j <? 2 ^ 16 - 1)%N eqn:B; [|discriminate].
  intros X; injection X as <- <-. intros ND. destruct (table_index_spec _ ckey_eqb_eq _ _ _ _ T ND) as (N1 & ND1 & E & _).
  cbn [g_consts set_consts]. apply N.ltb_lt in B. auto.
Qed.
Lemma name_index_spec s k s' i : name_index s k = PyOk (s', i) -> NoDup (g_names s) ->
  nth_error (g_names s') (N.to_nat i) = Some k /\ NoDup (g_names s') /\ (exists e, g_names s' = g_names s ++ e) /\ (i < 2 ^ 16 - 1)%N.
Proof.
  unfold name_index. destruct (table_index text_eqb (g_names s) k) as [t j] eqn:T. destruct (j <? 2 ^ 16 - 1)%N eqn:B; [|discriminate].
  intros X; injection X as <- <-. intros ND. destruct (table_index_spec _ text_eqb_eq _ _ _ _ T ND) as (N1 & ND1 & E & _).
  cbn [g_names set_names]. apply N.ltb_lt in B. auto.
Qed.
(** A request is refused exactly when it would need an index past the limit. *)
Lemma const_index_refuse s k :
  (exists p, const_index s k = PyOk p) \/
  (const_index s k = PyErr AssertErr /\ (2 ^ 16 - 1 <= N.of_nat (List.length (g_consts s)))%N).
Proof.
  unfold const_index, table_index. destruct (index_of ckey_eqb (g_consts s) k) as [i|] eqn:E.
  - destruct (N.of_nat i <? 2 ^ 16 - 1)%N eqn:B; [eauto|]. right. split; [reflexivity|].
    apply index_of_some in E; [|apply ckey_eqb_eq].
    assert (i < List.length (g_consts s))%nat by (apply nth_error_Some; congruence). lia.
  - destruct (_ <? _)%N eqn:B; [eauto|]. right. split; [reflexivity|]. lia.
Qed.

Lemma variants_NoDup vids : forall s, NoDup (g_variants s) -> NoDup (g_variants (fold_left variant_index vids s)).
Proof.
  induction vids as [|v r IH]; intros s ND; [exact ND|]. cbn. apply IH. unfold variant_index.
  destruct (table_index text_eqb (g_variants s) v) as [t i] eqn:T. cbn.
  apply (table_index_spec _ text_eqb_eq _ _ _ _ T ND).
Qed.
Lemma variant_tag_inj s a b i : variant_tag s a = PyOk i -> variant_tag s b = PyOk i -> a = b.
Proof.
  unfold variant_tag. destruct (index_of text_eqb (g_variants s) a) eqn:A; [|discriminate].
  destruct (index_of text_eqb (g_variants s) b) eqn:B; [|discriminate]. intros X Y. injection X as <-. injection Y as Y.
  apply (index_of_some _ text_eqb_eq) in A, B. assert (n = n0) by lia. congruence.
Qed.
Lemma variant_declared vids : forall s v, In v (g_variants s) \/ In v vids -> exists i, variant_tag (fold_left variant_index vids s) v = PyOk i.
Proof.
  assert (G : forall vids s v, In v (g_variants s) \/ In v vids -> In v (g_variants (fold_left variant_index vids s))).
  { induction vids0 as [|x r IH]; intros s v H; cbn; [destruct H as [H|[]]; exact H|]. apply IH.
    unfold variant_index, table_index. destruct (index_of text_eqb (g_variants s) x) eqn:X; cbn.
    - apply index_of_some in X; [|apply text_eqb_eq]. destruct H as [H|[<-|H]]; auto. left. eapply nth_error_In, X.
    - rewrite in_app_iff. cbn in *. tauto. }
  intros s v H. apply G in H. unfold variant_tag. destruct (index_of text_eqb _ v) eqn:I; [eauto|].
  apply index_of_none in I; [contradiction|apply text_eqb_eq].
Qed.

(** ** Literals *)
Local Open Scope Z_scope.
Lemma uint_acc u acc : Zpos (Pos.of_uint_acc u acc) = digits_number (Zpos acc) (uint_txt u).
Proof. revert acc; induction u; intros acc; cbn [Pos.of_uint_acc uint_txt digits_number]; [reflexivity|..]; rewrite IHu; f_equal; lia. Qed.
Lemma uint_number u : Z.of_N (N.of_uint u) = digits_number 0 (uint_txt u).
Proof.
  unfold N.of_uint. induction u; cbn [Pos.of_uint uint_txt digits_number]; [reflexivity|exact IHu|..];
    cbn [Z.of_N]; rewrite uint_acc; reflexivity.
Qed.
Lemma digits_uint t : Forall (fun c => (48 <= c <= 57)%N) t -> exists u, txt_uint t = Some u /\ uint_txt u = t.
Proof.
  induction 1 as [|c t H F (u & E & T)]; [exists Decimal.Nil; auto|]. cbn. rewrite E.
  repeat match goal with |- context [(c =? ?k)%N] => destruct (c =? k)%N eqn:?; [eexists; split; [reflexivity|]; cbn; f_equal; [lia|assumption]|] end.
  lia.
Qed.
Lemma parse_digits_number t : digits t -> option_map Z.of_N (parse_digits t) = Some (digits_number 0 t).
Proof.
  intros [Ne F]. destruct (digits_uint t F) as (u & E & T). unfold parse_digits.
  destruct t; [congruence|]. rewrite E. cbn [option_map]. rewrite uint_number, T. reflexivity.
Qed.
Lemma digit_lit_head t : digits t -> exists c r, t = c :: r /\ (48 <= c <= 57)%N.
Proof. intros [Ne F]. destruct t as [|c r]; [congruence|]. inversion F; eauto. Qed.
Lemma keyword_first t c r k d ks : t = c :: r -> txt k = d :: ks -> c <> d -> text_eqb t (txt k) = false.
Proof. intros -> -> N. apply text_eqb_neq. congruence. Qed.

Lemma const_int t : digits t -> fits (digits_number 0 t) -> const_from_str t = Some (VInt (digits_number 0 t)).
Proof.
  intros D F. pose proof (digit_lit_head t D) as (c & r & E & B). unfold const_from_str.
  rewrite (keyword_first t c r "verdadeiro" 118%N _ E eq_refl) by lia.
  rewrite (keyword_first t c r "falso" 102%N _ E eq_refl) by lia.
  rewrite (keyword_first t c r "nulo" 110%N _ E eq_refl) by lia.
  pose proof (parse_digits_number t D) as P. apply in_i64_fits in F.
  unfold parse_i64. rewrite E in P |- *. replace (c =? 45)%N with false by lia. replace (c =? 43)%N with false by lia.
  rewrite P. rewrite <- E, F. reflexivity.
Qed.

Lemma parse_i64_head c r : (c = 34 \/ c = 39)%N -> parse_i64 (c :: r) = None.
Proof.
  intros H. unfold parse_i64. replace (c =? 45)%N with false by lia. replace (c =? 43)%N with false by lia.
  unfold parse_digits. cbn [txt_uint]. destruct (txt_uint r); [|reflexivity].
  destruct H as [-> | ->]; reflexivity.
Qed.
Lemma parse_f64_head c r : (c = 34 \/ c = 39)%N -> parse_f64 (c :: r) = None.
Proof.
  intros H. unfold parse_f64. replace (c =? 45)%N with false by lia. replace (c =? 43)%N with false by lia.
  assert (L : lower c = c) by (unfold lower; destruct H as [-> | ->]; reflexivity).
  cbn [map]. rewrite L.
  assert (K : forall k d ks, txt k = d :: ks -> (d <> 34 /\ d <> 39)%N -> text_eqb (c :: map lower r) (txt k) = false)
    by (intros k d ks -> N; apply text_eqb_neq; intuition congruence).
  rewrite (K "inf"%string 105%N _ eq_refl) by lia. rewrite (K "infinity"%string 105%N _ eq_refl) by lia.
  rewrite (K "nan"%string 110%N _ eq_refl) by lia. cbn [orb].
  cbn [span_digits]. replace (is_digit c) with false by (unfold is_digit; lia).
  replace (c =? 46)%N with false by lia. reflexivity.
Qed.
Lemma const_text q s : (q = 34 \/ q = 39)%N -> const_from_str (q :: s ++ [q]) = Some (VStr s).
Proof.
  intros H. unfold const_from_str.
  rewrite (keyword_first _ q (s ++ [q]) "verdadeiro" 118%N _ eq_refl eq_refl) by lia.
  rewrite (keyword_first _ q (s ++ [q]) "falso" 102%N _ eq_refl eq_refl) by lia.
  rewrite (keyword_first _ q (s ++ [q]) "nulo" 110%N _ eq_refl eq_refl) by lia.
  rewrite parse_i64_head, parse_f64_head by assumption.
  replace (128 <=? q)%N with false by lia. replace (is_quote q) with true by (unfold is_quote; lia).
  rewrite rev_app_distr. cbn. replace (128 <=? q)%N with false by lia. rewrite rev_involutive. reflexivity.
Qed.
(** A real literal, digits '.' digits, is read as a real. *)
Lemma txt_uint_bad a c b : (c < 48 \/ 57 < c)%N -> txt_uint (a ++ c :: b) = None.
Proof.
  intros H. induction a as [|x a IH]; cbn.
  - destruct (txt_uint b); [|reflexivity].
    repeat match goal with |- context [(c =? ?k)%N] => replace (c =? k)%N with false by lia end. reflexivity.
  - rewrite IH. reflexivity.
Qed.
Lemma span_digits_app a b : Forall (fun c => (48 <= c <= 57)%N) a -> (match b with c :: _ => (c < 48 \/ 57 < c)%N | [] => True end) ->
  span_digits (a ++ b) = (a, b).
Proof.
  intros F H. induction F as [|c a Hc F IH].
  - destruct b as [|c b]; [reflexivity|]. cbn. replace (is_digit c) with false by (unfold is_digit; lia). reflexivity.
  - cbn. replace (is_digit c) with true by (unfold is_digit; lia). rewrite IH. reflexivity.
Qed.
Lemma const_real a b : digits a -> digits b ->
  exists f, parse_f64 (a ++ 46%N :: b) = Some f /\ const_from_str (a ++ 46%N :: b) = Some (VF64 f).
Proof.
  intros Da Db. pose proof (digit_lit_head a Da) as (c & r & E & B).
  assert (Pf : exists f, parse_f64 (a ++ 46%N :: b) = Some f).
  { unfold parse_f64. rewrite E. cbn [app]. replace (c =? 45)%N with false by lia. replace (c =? 43)%N with false by lia.
    assert (L : lower c = c) by (unfold lower; replace (65 <=? c)%N with false by lia; reflexivity).
    cbn [map]. rewrite L.
    assert (K : forall k d ks l, txt k = d :: ks -> (57 < d)%N -> text_eqb (c :: l) (txt k) = false)
      by (intros k d ks l -> N; apply text_eqb_neq; intros X; injection X; lia).
    rewrite (K "inf"%string 105%N _ _ eq_refl) by lia. rewrite (K "infinity"%string 105%N _ _ eq_refl) by lia.
    rewrite (K "nan"%string 110%N _ _ eq_refl) by lia. cbn [orb].
    change (c :: r ++ 46%N :: b) with ((c :: r) ++ 46%N :: b). rewrite <- E.
    destruct Da as [_ Fa]. destruct Db as [Nb Fb].
    rewrite span_digits_app by (try assumption; left; reflexivity). cbv zeta iota beta.
    change (46 =? 46)%N with true. cbv iota. pose proof (span_digits_app b [] Fb I) as S. rewrite app_nil_r in S. rewrite S.
    rewrite E. cbn [parse_exp]. cbv zeta. repeat match goal with |- context [if ?x then _ else _] => destruct x end; eauto. }
  destruct Pf as (f & Pf). exists f. split; [assumption|]. unfold const_from_str.
  assert (E' : a ++ 46%N :: b = c :: (r ++ 46%N :: b)) by (rewrite E; reflexivity).
  rewrite (keyword_first _ c _ "verdadeiro" 118%N _ E' eq_refl) by lia.
  rewrite (keyword_first _ c _ "falso" 102%N _ E' eq_refl) by lia.
  rewrite (keyword_first _ c _ "nulo" 110%N _ E' eq_refl) by lia.
  rewrite Pf. replace (parse_i64 (a ++ 46%N :: b)) with (@None Z); [reflexivity|].
  unfold parse_i64. rewrite E'. replace (c =? 45)%N with false by lia. replace (c =? 43)%N with false by lia.
  rewrite <- E'. unfold parse_digits. rewrite E'. rewrite <- E'. rewrite txt_uint_bad by lia. reflexivity.
Qed.
