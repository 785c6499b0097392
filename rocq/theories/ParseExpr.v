(** Proofs for C17 and C20: the parser reads back every written expression. *)
From Verif Require Import Base Lexer Spec_Lex LexFacts LexAll Syntax Parser ParseFacts ParseTotal Spec_Parse.
Local Open Scope Z_scope.
Local Open Scope parse_scope.

Definition word_of (t : token) : word := (t_kind t, t_lex t).
Definition words (ts : list token) : list word := map word_of ts.
Definition good (rest : list token) (e : ending) : Prop := rest <> [] \/ exists t, e = EEof t.

Definition parses {A} (m : P A) (ws : list word) (F : tk -> Prop) (Q : A -> Prop) : Prop :=
  forall ts rest e, words ts = ws -> good rest e -> F (kind (rest, e)) ->
    exists a, m (ts ++ rest, e) = POk a (rest, e) /\ Q a.

(** The kind that follows [ws], which is read before something in [F]. *)
Definition meets (ws : list word) (F G : tk -> Prop) : Prop :=
  match ws with w :: _ => G (fst w) | [] => forall k, F k -> G k end.

Lemma good_app ts rest e : good rest e -> good (ts ++ rest) e.
Proof. intros [H|H]; [left|now right]. destruct ts; [exact H|discriminate]. Qed.
Lemma meets_kind ts rest e ws F G : words ts = ws -> meets ws F G -> F (kind (rest, e)) -> G (kind (ts ++ rest, e)).
Proof. intros <- H HF. destruct ts as [|t ts]; [now apply H|exact H]. Qed.

Lemma parses_ret {A} (a : A) F (Q : A -> Prop) : Q a -> parses (ret a) [] F Q.
Proof. intros H ts rest e Ht _ _. destruct ts; [|discriminate]. exists a. auto. Qed.
Lemma parses_bind {A B} (m : P A) (f : A -> P B) ws1 ws2 F1 F2 Q1 Q2 :
  parses m ws1 F1 Q1 -> meets ws2 F2 F1 -> (forall a, Q1 a -> parses (f a) ws2 F2 Q2) ->
  parses (bind m f) (ws1 ++ ws2) F2 Q2.
Proof.
  intros Hm Hk Hf ts rest e Ht Hg HF. unfold words in Ht.
  destruct (map_eq_app _ _ _ _ Ht) as (ts1 & ts2 & -> & E1 & E2).
  destruct (Hm ts1 (ts2 ++ rest) e E1 (good_app _ _ _ Hg) (meets_kind _ _ _ _ _ _ E2 Hk HF)) as (a & Ea & Qa).
  destruct (Hf a Qa ts2 rest e E2 Hg HF) as (b & Eb & Qb). exists b. split; [|assumption].
  unfold bind. now rewrite <- app_assoc, Ea.
Qed.
Lemma parses_mono {A} (m : P A) ws (F F' : tk -> Prop) (Q Q' : A -> Prop) :
  parses m ws F Q -> (forall k, F' k -> F k) -> (forall a, Q a -> Q' a) -> parses m ws F' Q'.
Proof. intros H HF HQ ts rest e Ht Hg Hk. destruct (H ts rest e Ht Hg (HF _ Hk)) as (a & Ea & Qa). eauto. Qed.
Lemma parses_consume w F : parses (consume (fst w)) [w] F (fun t => word_of t = w).
Proof.
  intros ts rest e Ht Hg _. destruct ts as [|t [|? ?]]; try discriminate. injection Ht as <-.
  exists t. split; [|reflexivity]. unfold consume, kind, look_tok, bind, next, ret. cbn [fst snd app].
  unfold word_of. cbn [fst]. rewrite tk_eqb_refl. destruct rest as [|t' r]; [|reflexivity].
  destruct Hg as [Hg|[t0 ->]]; [now destruct Hg|reflexivity].
Qed.
Lemma parses_next {A} w ws (f : token -> P A) F Q :
  (forall t, word_of t = w -> parses (f t) ws F Q) -> parses (bind (consume (fst w)) f) (w :: ws) F Q.
Proof.
  intros H. change (w :: ws) with ([w] ++ ws). apply (parses_bind _ _ [w] ws (fun _ => True) F (fun t => word_of t = w)).
  - apply parses_consume.
  - destruct ws; cbn; auto.
  - exact H.
Qed.
Lemma parses_look {A} w ws (f : token -> P A) F Q :
  (forall t, word_of t = w -> parses (f t) (w :: ws) F Q) -> parses (bind look f) (w :: ws) F Q.
Proof.
  intros H ts rest e Ht Hg Hk. destruct ts as [|t ts]; [discriminate|]. injection Ht as Hw Ht.
  destruct (H t Hw (t :: ts) rest e) as (a & Ea & Qa); auto.
  - unfold words in *. cbn. now rewrite Hw, Ht.
  - exists a. split; assumption.
Qed.
Lemma parses_is {A} k w ws (f : bool -> P A) F Q :
  parses (f (tk_eqb (fst w) k)) (w :: ws) F Q -> parses (bind (is k) f) (w :: ws) F Q.
Proof.
  intros H ts rest e Ht Hg Hk. destruct (H ts rest e Ht Hg Hk) as (a & Ea & Qa). exists a. split; [|assumption].
  destruct ts as [|t ts]; [discriminate|]. injection Ht as Hw Ht. unfold bind, is, kind, look_tok. cbn [fst app].
  subst w. exact Ea.
Qed.
Lemma parses_is_hd {A} k w ws ws0 (f : bool -> P A) F Q : ws0 = w :: ws ->
  parses (f (tk_eqb (fst w) k)) ws0 F Q -> parses (bind (is k) f) ws0 F Q.
Proof. intros ->. apply parses_is. Qed.
Lemma parses_is_end {A} k (f : bool -> P A) (F : tk -> Prop) Q :
  (forall k', F k' -> tk_eqb k' k = false) -> parses (f false) [] F Q -> parses (bind (is k) f) [] F Q.
Proof.
  intros Hn H ts rest e Ht Hg Hk. destruct (H ts rest e Ht Hg Hk) as (a & Ea & Qa). exists a. split; [|assumption].
  destruct ts; [|discriminate]. unfold bind, is. cbn [app] in *. now rewrite (Hn _ Hk).
Qed.
Lemma parses_skip {A} ws (f : P A) F Q :
  meets ws F (fun k => k <> TNewline) -> parses f ws F Q -> parses (skip_newlines ;;; f) ws F Q.
Proof.
  intros Hm H ts rest e Ht Hg Hk. destruct (H ts rest e Ht Hg Hk) as (a & Ea & Qa). exists a. split; [|assumption].
  pose proof (meets_kind ts rest e ws F _ Ht Hm Hk) as Hn. unfold bind, skip_newlines. cbn [fst snd].
  unfold kind, look_tok in Hn. cbn [fst snd] in Hn. destruct (ts ++ rest) as [|t r]; [exact Ea|].
  cbn [skip_nl]. destruct (tk_eqb (t_kind t) TNewline) eqn:E; [apply tk_eqb_true in E; contradiction|exact Ea].
Qed.
Lemma parses_next_nl {A} w ws (f : token -> P A) F Q : fst w <> TNewline ->
  (forall t, word_of t = w -> parses (f t) ws F Q) -> parses (bind (consume_nl (fst w)) f) (w :: ws) F Q.
Proof.
  intros Hn H. intros ts rest e Ht Hg Hk. destruct (parses_next w ws f F Q H ts rest e Ht Hg Hk) as (a & Ea & Qa).
  exists a. split; [|assumption]. rewrite <- Ea. unfold bind, consume_nl, bind, skip_newlines.
  destruct ts as [|t ts]; [discriminate|]. injection Ht as Hw Ht. cbn [fst snd app skip_nl].
  destruct (tk_eqb (t_kind t) TNewline) eqn:E; [|reflexivity]. apply tk_eqb_true in E. subst w. contradiction.
Qed.

(** ** Loops *)
Inductive loops {A} (c : tk -> bool) (body : A -> P A) : nat -> A -> pst -> A -> pst -> Prop :=
| lp_end a s : c (kind s) = false -> loops c body 0 a s a s
| lp_step a s a1 s1 k a' s' : c (kind s) = true -> body a s = POk a1 s1 -> loops c body k a1 s1 a' s' ->
    loops c body (S k) a s a' s'.
Lemma while_loops {A} c (body : A -> P A) k a s a' s' : loops c body k a s a' s' -> forall n, (k <= n)%nat ->
  while n c body a s = POk a' s'.
Proof.
  induction 1 as [a s Hc|a s a1 s1 k a' s' Hc Hb Hl IH]; intros n Hn.
  - destruct n; cbn [while]; now rewrite Hc.
  - destruct n as [|n]; [lia|]. cbn [while]. rewrite Hc. unfold bind. rewrite Hb. apply IH. lia.
Qed.

(** A list read by a loop, one item a round. *)
Lemma parses_loop {A B} c (body : list A -> P (list A)) (wsf : B -> list word) (Q : B -> A -> Prop) (F : tk -> Prop) :
  (forall k, F k -> c k = false) ->
  forall (l : list B) acc,
  (forall b l1 l2 acc, l = l1 ++ b :: l2 ->
     exists w ws, wsf b = w :: ws /\ c (fst w) = true /\
     parses (body acc) (wsf b) (fun k => match l2 with b' :: _ => match wsf b' with w' :: _ => k = fst w' | [] => True end | [] => F k end)
       (fun acc' => exists a, acc' = acc ++ [a] /\ Q b a)) ->
  parses (loop c body acc) (flat_map wsf l) F (fun acc' => exists r, acc' = acc ++ r /\ Forall2 Q l r).
Proof.
  intros HF l acc Hb ts rest e Ht Hg Hk.
  assert (exists k r s', (k <= List.length ts)%nat /\ s' = (rest, e) /\ loops c body k acc (ts ++ rest, e) (acc ++ r) s' /\ Forall2 Q l r)
    as (k & r & s' & Hkn & -> & Hl & F2).
  { revert acc ts Hb Ht. induction l as [|b l IH]; intros acc ts Hb Ht.
    - destruct ts; [|discriminate]. exists 0%nat, [], (rest, e). rewrite app_nil_r. repeat split; auto. constructor. now apply HF.
    - cbn [flat_map] in Ht. unfold words in Ht. destruct (map_eq_app _ _ _ _ Ht) as (t1 & t2 & -> & E1 & E2).
      destruct (Hb b [] l acc eq_refl) as (w & ws & Ew & Hc & Hp).
      destruct (Hp t1 (t2 ++ rest) e E1 (good_app _ _ _ Hg)) as (acc' & Ea & a & -> & Qa).
      { destruct l as [|b' l].
        - destruct t2; [exact Hk|discriminate].
        - destruct (Hb b' [b] l acc eq_refl) as (w' & ws' & Ew' & _). rewrite Ew'. cbn [flat_map] in E2. rewrite Ew' in E2.
          destruct t2 as [|u t2]; [discriminate|]. injection E2 as E2 _. now subst w'. }
      destruct (IH (acc ++ [a]) t2) as (k & r & s' & Hkn & -> & Hl & F2); auto.
      { intros b0 l1 l2 acc0 El. apply (Hb b0 (b :: l1) l2 acc0). now rewrite El. }
      rewrite Ew in E1. destruct t1 as [|u t1]; [discriminate|]. injection E1 as Eu _.
      exists (S k), (a :: r), (rest, e). repeat split.
      + cbn [List.length app]. rewrite app_length. lia.
      + econstructor; [|rewrite <- app_assoc; exact Ea|].
        * subst w. exact Hc.
        * replace (acc ++ a :: r) with ((acc ++ [a]) ++ r) by now rewrite <- app_assoc. exact Hl.
      + now constructor. }
  exists (acc ++ r). split; [|eauto]. unfold loop. apply (while_loops _ _ _ _ _ _ _ Hl). cbn. rewrite app_length. lia.
Qed.

(** An operand, then a loop extending it. *)
Definition chains {A} (m0 : P A) (c : tk -> bool) (body : A -> P A) (ws : list word) (F : tk -> Prop) (Q : A -> Prop) : Prop :=
  forall ts rest e, words ts = ws -> good rest e -> F (kind (rest, e)) ->
    exists x, Q x /\ forall k a' s', (k <= List.length rest)%nat -> loops c body k x (rest, e) a' s' ->
      bind m0 (loop c body) (ts ++ rest, e) = POk a' s'.
Lemma chain_base {A} (m0 : P A) c body ws F Q : parses m0 ws F Q -> chains m0 c body ws F Q.
Proof.
  intros H ts rest e Ht Hg Hk. destruct (H ts rest e Ht Hg Hk) as (a & Ea & Qa). exists a. split; [assumption|].
  intros k a' s' Hn Hl. unfold bind. rewrite Ea. unfold loop. apply (while_loops _ _ _ _ _ _ _ Hl). cbn. lia.
Qed.
Lemma chain_step {A} (m0 : P A) c body ws1 w ws2 F1 F2 Q1 Q2 :
  chains m0 c body ws1 F1 Q1 -> F1 (fst w) -> c (fst w) = true ->
  (forall x, Q1 x -> parses (body x) (w :: ws2) F2 Q2) -> chains m0 c body (ws1 ++ w :: ws2) F2 Q2.
Proof.
  intros H HF Hc Hb ts rest e Ht Hg Hk. unfold words in Ht.
  destruct (map_eq_app _ _ _ _ Ht) as (t1 & t2 & -> & E1 & E2). destruct t2 as [|u t2]; [discriminate|]. injection E2 as Eu E2.
  destruct (H t1 ((u :: t2) ++ rest) e E1) as (x & Qx & Hx); [left; discriminate|subst w; exact HF|].
  destruct (Hb x Qx (u :: t2) rest e) as (y & Ey & Qy); auto.
  { unfold words. cbn. now rewrite Eu, E2. }
  exists y. split; [assumption|]. intros k a' s' Hn Hl. rewrite <- app_assoc. apply (Hx (S k)).
  - cbn. rewrite app_length. lia.
  - econstructor; [|exact Ey|exact Hl]. subst w. exact Hc.
Qed.
Lemma chain_parses {A} (m0 : P A) c body ws (F F' : tk -> Prop) Q : chains m0 c body ws F Q ->
  (forall k, F' k -> F k /\ c k = false) -> parses (bind m0 (loop c body)) ws F' Q.
Proof.
  intros H HF ts rest e Ht Hg Hk. destruct (HF _ Hk) as [H1 H2]. destruct (H ts rest e Ht Hg H1) as (x & Qx & Hx).
  exists x. split; [|assumption]. apply (Hx 0%nat); [lia|]. now constructor.
Qed.

(** ** Separated lists *)
Lemma sep_cons s a l : sep s (a :: l) = a ++ flat_map (fun b => s :: b) l.
Proof.
  revert a. induction l as [|b l IH]; intros a.
  - cbn. now rewrite app_nil_r.
  - cbn [flat_map]. rewrite <- app_comm_cons, <- IH. reflexivity.
Qed.

(** ** Types *)
Fixpoint ty_ind' (Pt : ty -> Prop)
  (H1 : forall n ds args q, Forall Pt args -> Pt (TyName n ds args q))
  (H2 : forall el q, Pt el -> Pt (TyList el q)) (t : ty) : Pt t :=
  match t with
  | TyName n ds args q =>
      H1 n ds args q ((fix go (l : list ty) : Forall Pt l :=
                         match l with [] => Forall_nil Pt | a :: l' => Forall_cons a (ty_ind' Pt H1 H2 a) (go l') end) args)
  | TyList el q => H2 el q (ty_ind' Pt H1 H2 el)
  end.

Definition FT (k : tk) : Prop := one_of [TDot; TLbracket; TQmark] k = false.
Definition w_q : word := lit TQmark (txt "?").
Definition q_words (q : bool) : list word := if q then [w_q] else [].

Lemma parses_maybe q : parses is_maybe (q_words q) FT (fun b => b = q).
Proof.
  unfold is_maybe, q_words. destruct q.
  - apply parses_is. cbv iota. apply (parses_next w_q []). intros _ _. now apply parses_ret.
  - apply parses_is_end; [|now apply parses_ret]. intros k Hk. destruct k; try reflexivity; discriminate.
Qed.

Fixpoint tag {B} (l : list B) : list (B * bool) :=
  match l with [] => [] | [a] => [(a, false)] | a :: l' => (a, true) :: tag l' end.
Definition tag_words {B} (f : B -> list word) (p : B * bool) : list word := f (fst p) ++ (if snd p then [w_comma] else []).
Lemma tag_sep {B} (f : B -> list word) l : flat_map (tag_words f) (tag l) = sep w_comma (map f l).
Proof.
  induction l as [|a l IH]; [reflexivity|]. destruct l as [|b l].
  - cbn [tag flat_map map sep]. unfold tag_words. cbn [fst snd]. now rewrite !app_nil_r.
  - change (tag (a :: b :: l)) with ((a, true) :: tag (b :: l)). cbn [flat_map]. rewrite IH. unfold tag_words. cbn [fst snd].
    now rewrite <- app_assoc.
Qed.
Lemma tag_last {B} (l : list B) : forall l1 b l2, tag l = l1 ++ (b, false) :: l2 -> l2 = [].
Proof.
  induction l as [|a l IH]; intros l1 b l2 H; [destruct l1; discriminate|]. destruct l as [|a' l].
  - cbn in H. destruct l1 as [|? l1]; [now injection H|]. destruct l1; discriminate.
  - change (tag (a :: a' :: l)) with ((a, true) :: tag (a' :: l)) in H. destruct l1 as [|p l1]; [discriminate|].
    injection H as _ H. eauto.
Qed.
Lemma tag_fst {B} (l : list B) : map fst (tag l) = l.
Proof. induction l as [|a l IH]; [reflexivity|]. destruct l; [reflexivity|]. cbn in *. now rewrite IH. Qed.

Lemma show_ty_head t : exists w ws, show_ty t = w :: ws /\ (fst w = TIdent \/ fst w = TLbracket).
Proof. destruct t; cbn; eauto. Qed.
Lemma Forall2_fst {B A} (Q : B -> A -> Prop) (l : list (B * bool)) r :
  Forall2 (fun p a => Q (fst p) a) l r -> Forall2 Q (map fst l) r.
Proof. induction 1; cbn; constructor; auto. Qed.

Lemma flat_in {B} (f : B -> list word) b l : In b l -> (List.length (f b) <= List.length (flat_map f l))%nat.
Proof. induction l as [|a l IH]; cbn; intros []; rewrite app_length; [subst; lia|specialize (IH H); lia]. Qed.

Section Types.
Variable U : uni.

Definition gwords (args : list ty) : list word :=
  match args with [] => [] | _ => w_lbr :: sep w_comma (map show_ty args) ++ [w_rbr] end.

Lemma parses_generic N args : (List.length (gwords args) <= S N)%nat ->
  Forall (fun t => forall N, (List.length (show_ty t) <= N)%nat -> parses (type_ (run U N)) (show_ty t) FT (fun y => shape_ty y = t)) args ->
  parses (generic_args (run U (S N))) (gwords args) (fun k => k <> TLbracket)
    (fun g => match g with None => [] | Some l => map shape_ty l end = args).
Proof.
  intros HN H. unfold generic_args, gwords. destruct args as [|t0 args].
  - apply parses_is_end; [|now apply parses_ret]. intros k Hk. destruct (tk_eqb k TLbracket) eqn:E; [apply tk_eqb_true in E; contradiction|reflexivity].
  - set (l := t0 :: args) in *. apply parses_is. cbn [fst]. cbv iota. apply (parses_next w_lbr). intros _ _.
    assert (exists w ws, sep w_comma (map show_ty l) ++ [w_rbr] = w :: ws /\ (fst w = TIdent \/ fst w = TLbracket)) as (w & ws & Ew & Hw).
    { destruct (show_ty_head t0) as (w & ws & E & Hw). unfold l. cbn [map]. rewrite sep_cons, E. cbn. eauto. }
    apply (parses_is_hd _ _ _ _ _ _ _ Ew). replace (tk_eqb (fst w) TRbracket) with false by (destruct Hw as [-> | ->]; reflexivity).
    apply (parses_bind _ _ _ _ (fun k => k = TRbracket) _ (fun r => map shape_ty r = l)).
    + rewrite <- tag_sep.
      eapply parses_mono with (F := fun k => k = TRbracket) (Q := fun acc' => exists r, acc' = [] ++ r /\ Forall2 (fun p y => shape_ty y = fst p) (tag l) r).
      * apply parses_loop; [intros k ->; reflexivity|]. intros [t b] l1 l2 acc El.
        assert (Hin : In (t, b) (tag l)) by (rewrite El; apply in_or_app; right; now left).
        assert (Ht : In t l) by (rewrite <- (tag_fst l); apply in_map_iff; exists (t, b); auto).
        destruct (show_ty_head t) as (w1 & ws1 & E1 & Hw1). 
        exists w1, (ws1 ++ (if b then [w_comma] else [])). split; [unfold tag_words; cbn [fst snd]; now rewrite E1|].
        split; [destruct Hw1 as [-> | ->]; reflexivity|]. unfold tag_words at 1. cbn [fst snd].
        rewrite Forall_forall in H.
        assert (Hlen : (List.length (show_ty t) <= N)%nat).
        { pose proof (flat_in (tag_words show_ty) (t, b) (tag l) Hin) as L. rewrite tag_sep in L. unfold tag_words in L. cbn [fst snd] in L.
          rewrite app_length in L. change (List.length (w_lbr :: sep w_comma (map show_ty l) ++ [w_rbr]) <= S N)%nat in HN. cbn [List.length] in HN. rewrite app_length in HN. lia. }
        eapply parses_bind with (F1 := FT) (Q1 := fun y => shape_ty y = t).
        -- exact (H t Ht N Hlen).
        -- destruct b; [reflexivity|]. cbn. apply tag_last in El. subst l2. intros k ->. reflexivity.
        -- intros y Hy. destruct b.
           ++ apply parses_is. apply (parses_bind _ _ [w_comma] [] (fun _ => True) _ (fun _ => True)).
              ** apply (parses_next w_comma []). intros _ _. now apply parses_ret.
              ** cbn. auto.
              ** intros _ _. apply parses_ret. exists y. auto.
           ++ apply tag_last in El. subst l2. apply parses_is_end; [intros k ->; reflexivity|].
              apply (parses_bind _ _ [] [] (fun _ => True) _ (fun _ => True)); [now apply parses_ret|cbn; auto|].
              intros _ _. apply parses_ret. exists y. auto.
      * auto.
      * intros a (r & -> & F2). cbn [app]. rewrite <- (tag_fst l). clear -F2. induction F2; cbn; congruence.
    + reflexivity.
    + intros r Hr. apply (parses_next w_rbr []). intros _ _. now apply parses_ret.
Qed.

Lemma lex_name t n : word_of t = w_name n -> lex_text t = n.
Proof. intros H. unfold word_of, w_name, lit in H. injection H as _ H. unfold lex_text. now rewrite H. Qed.

Lemma parses_type : forall t N, (List.length (show_ty t) <= N)%nat ->
  parses (type_ (run U N)) (show_ty t) FT (fun y => shape_ty y = t).
Proof.
  induction t as [n ds args q IH|el q IH] using ty_ind'; intros N HN.
  - cbn [show_ty] in *. change (match args with [] => [] | _ => w_lbr :: sep w_comma (map show_ty args) ++ [w_rbr] end) with (gwords args) in *.
    change (if q then [lit TQmark (txt "?")] else []) with (q_words q) in *.
    destruct N as [|N]; [cbn in HN; lia|]. cbn [List.length] in HN. rewrite !app_length in HN.
    apply parses_look. intros t0 Et0.
    assert (Ek : t_kind t0 = TIdent) by (now injection Et0). rewrite Ek.
    apply (parses_next (w_name n)). intros t1 Et1. pose proof (lex_name _ _ Et1) as Hn1.
    assert (Tail : forall K, (forall g qq, match g with None => [] | Some l => map shape_ty l end = args -> shape_ty (K g qq) = TyName n ds args qq) ->
      parses (g <- generic_args (run U (S N)) ;; qq <- is_maybe ;; ret (K g qq)) (gwords args ++ q_words q) FT (fun y => shape_ty y = TyName n ds args q)).
    { intros K HK. eapply parses_bind; [apply parses_generic; [lia|exact IH]| |].
      - destruct q; [discriminate|]. cbn. intros k Hk ->. discriminate.
      - intros g Hg. cbn beta. rewrite <- (app_nil_r (q_words q)). eapply parses_bind; [apply parses_maybe|cbn; auto|].
        intros b ->. apply parses_ret. now apply HK. }
    destruct ds as [|d ds].
    + cbn [flat_map app].
      assert (Hd : forall g, parses g (gwords args ++ q_words q) FT (fun y => shape_ty y = TyName n [] args q) ->
         parses (d <- is TDot ;; (if d then type_path (run U (S N)) t1 else g)) (gwords args ++ q_words q) FT (fun y => shape_ty y = TyName n [] args q)).
      { intros g Hg. destruct args as [|a args]; [destruct q|]; [apply parses_is; exact Hg| |apply parses_is; exact Hg].
        apply parses_is_end; [|exact Hg]. intros k Hk. destruct k; try reflexivity; discriminate. }
      apply Hd. apply Tail. intros g qq Hg. cbn. now rewrite Hn1, Hg.
    + cbn [flat_map app]. apply parses_is. cbv iota. unfold type_path.
      change (w_dot :: w_name d :: flat_map (fun d0 => [w_dot; w_name d0]) ds ++ gwords args ++ q_words q)
        with ((flat_map (fun d0 => [w_dot; w_name d0]) (d :: ds)) ++ gwords args ++ q_words q).
      eapply parses_bind with (F1 := fun k => k <> TDot) (Q1 := fun cs => cs = n :: d :: ds).
      * eapply parses_mono with (F := fun k => k <> TDot) (Q := fun acc' => exists r, acc' = [lex_text t1] ++ r /\ Forall2 (fun (p : text) (y : text) => y = p) (d :: ds) r).
        -- apply parses_loop.
           ++ intros k Hk. destruct k; try reflexivity. contradiction.
           ++ intros b l1 l2 acc _. exists w_dot, [w_name b]. split; [reflexivity|]. split; [reflexivity|].
              apply (parses_next w_dot). intros _ _. apply (parses_next (w_name b)). intros t2 Et2. apply parses_ret.
              exists (lex_text t2). split; [reflexivity|now apply lex_name].
        -- auto.
        -- intros a (r & -> & F2). cbn [app]. rewrite Hn1. f_equal. clear -F2. induction F2; congruence.
      * destruct args as [|a args]; [destruct q|]; cbn; try discriminate. intros k Hk ->. discriminate.
      * intros cs ->. apply Tail. intros g qq Hg. cbn. now rewrite Hg.
  - cbn [show_ty] in *. change (if q then [lit TQmark (txt "?")] else []) with (q_words q) in *.
    destruct N as [|N]; [cbn in HN; lia|]. cbn [List.length] in HN. rewrite !app_length in HN. cbn [List.length] in HN.
    apply parses_look. intros t0 Et0. assert (Ek : t_kind t0 = TLbracket) by (now injection Et0). rewrite Ek.
    apply (parses_next w_lbr). intros _ _.
    eapply parses_bind; [apply (IH N); lia|reflexivity|]. intros y Hy.
    apply (parses_next w_rbr). intros _ _. rewrite <- (app_nil_r (q_words q)).
    eapply parses_bind; [apply parses_maybe|cbn; auto|]. intros b ->. apply parses_ret. cbn. now rewrite Hy.
Qed.
End Types.

(** ** Expressions *)
Section ExInd.
Variable Pe : ex -> Prop.
Hypotheses (H1 : forall a, Pe (EAtom a)) (H2 : forall o e, Pe e -> Pe (EUn o e))
  (H3 : forall o a b, Pe a -> Pe b -> Pe (EBin o a b)) (H4 : forall e t, Pe e -> Pe (ECast e t))
  (H5 : forall f args, Pe f -> Forall (fun p => Pe (snd p)) args -> Pe (ECall f args))
  (H6 : forall e i, Pe e -> Pe i -> Pe (EIndex e i)) (H7 : forall e n, Pe e -> Pe (EField e n))
  (H8 : forall t l, Forall Pe l -> Pe (EList t l)).
Fixpoint ex_ind' (e : ex) : Pe e :=
  match e with
  | EAtom a => H1 a
  | EUn o a => H2 o a (ex_ind' a)
  | EBin o a b => H3 o a b (ex_ind' a) (ex_ind' b)
  | ECast a t => H4 a t (ex_ind' a)
  | ECall f args =>
      H5 f args (ex_ind' f)
        ((fix go (l : list (option text * ex)) : Forall (fun p => Pe (snd p)) l :=
            match l with [] => Forall_nil _ | p :: l' => Forall_cons p (ex_ind' (snd p)) (go l') end) args)
  | EIndex a i => H6 a i (ex_ind' a) (ex_ind' i)
  | EField a n => H7 a n (ex_ind' a)
  | EList t l =>
      H8 t l ((fix go (l : list ex) : Forall Pe l :=
                 match l with [] => Forall_nil _ | a :: l' => Forall_cons a (ex_ind' a) (go l') end) l)
  end.
End ExInd.

Definition arg_words (p : option text * ex) : list word :=
  match fst p with Some n => w_name n :: w_colon :: show 0 (snd p) | None => show 0 (snd p) end.
Definition body (e : ex) : list word :=
  match e with
  | EAtom a => show_atom a
  | EUn o a => un_word o :: show 4 a
  | EBin o a b => show (bin_level o) a ++ bin_word o :: show (S (bin_level o)) b
  | ECast a t => show 6 a ++ lit TCast (txt ":>") :: show_ty t
  | ECall f args => show 6 f ++ w_lpar :: sep w_comma (map arg_words args) ++ [w_rpar]
  | EIndex a i => show 6 a ++ w_lbr :: show 0 i ++ [w_rbr]
  | EField a n => show 6 a ++ [w_dot; w_name n]
  | EList t l => w_lbr :: show_ty t ++ w_colon :: sep w_comma (map (show 0) l) ++ [w_rbr]
  end.
Lemma show_eq n e : show n e = if (level e <? n)%nat then w_lpar :: body e ++ [w_rpar] else body e.
Proof. destruct e; reflexivity. Qed.
Lemma show_0 e : show 0 e = body e.
Proof. now rewrite show_eq. Qed.

Definition blocked (n : nat) : list tk :=
  match n with
  | 0 => [TDoubleColon; TLpar; TDot; TLbracket; TCast; TQmark; TStar; TDoubleSlash; TSlash; TModulo; TE; TPlus; TMinus; TOu;
          TGreater; TGreaterEq; TLess; TLessEq; TDoubleEqual; TNotEqual]
  | 1 => [TDoubleColon; TLpar; TDot; TLbracket; TCast; TQmark; TStar; TDoubleSlash; TSlash; TModulo; TE; TPlus; TMinus; TOu;
          TGreater; TGreaterEq; TLess; TLessEq]
  | 2 => [TDoubleColon; TLpar; TDot; TLbracket; TCast; TQmark; TStar; TDoubleSlash; TSlash; TModulo; TE; TPlus; TMinus; TOu]
  | 3 => [TDoubleColon; TLpar; TDot; TLbracket; TCast; TQmark; TStar; TDoubleSlash; TSlash; TModulo; TE]
  | 4 | 5 => [TDoubleColon; TLpar; TDot; TLbracket; TCast; TQmark]
  | 6 => [TDoubleColon; TLpar; TDot; TLbracket]
  | _ => [TDoubleColon]
  end%nat.
Definition FE (n : nat) (k : tk) : Prop := one_of (blocked n) k = false.

Lemma body_head e : forall n, (5 <= n)%nat -> exists w ws, show n e = w :: ws /\ ~ In (fst w) [TPlus; TMinus; TNao].
Proof.
  assert (L : forall e n, (level e <? n)%nat = true -> exists w ws, show n e = w :: ws /\ ~ In (fst w) [TPlus; TMinus; TNao]).
  { intros e0 n E. rewrite show_eq, E. eexists _, _. split; [reflexivity|]. cbn. intuition discriminate. }
  induction e using ex_ind'; intros m Hm;
    match goal with |- context [show _ ?e] => destruct (level e <? m)%nat eqn:El; [now apply L|] end;
    apply Nat.ltb_ge in El; cbn [level] in El; try lia.
  - rewrite show_eq. cbn [level body]. replace (7 <? m)%nat with false by (symmetry; apply Nat.ltb_ge; lia).
    destruct a; cbn; eexists _, _; (split; [reflexivity|]); cbn; intuition discriminate.
  - destruct o; cbn in El; lia.
  - destruct (IHe 6%nat ltac:(lia)) as (w & ws & E & H). rewrite show_eq. cbn [level body]. replace (5 <? m)%nat with false by (symmetry; apply Nat.ltb_ge; lia).
    rewrite E. eexists _, _. split; [reflexivity|exact H].
  - destruct (IHe 6%nat ltac:(lia)) as (w & ws & E & H'). rewrite show_eq. cbn [level body]. replace (6 <? m)%nat with false by (symmetry; apply Nat.ltb_ge; lia).
    rewrite E. eexists _, _. split; [reflexivity|exact H'].
  - destruct (IHe1 6%nat ltac:(lia)) as (w & ws & E & H'). rewrite show_eq. cbn [level body]. replace (6 <? m)%nat with false by (symmetry; apply Nat.ltb_ge; lia).
    rewrite E. eexists _, _. split; [reflexivity|exact H'].
  - destruct (IHe 6%nat ltac:(lia)) as (w & ws & E & H'). rewrite show_eq. cbn [level body]. replace (6 <? m)%nat with false by (symmetry; apply Nat.ltb_ge; lia).
    rewrite E. eexists _, _. split; [reflexivity|exact H'].
  - rewrite show_eq. cbn [level body]. replace (7 <? m)%nat with false by (symmetry; apply Nat.ltb_ge; lia).
    eexists _, _. split; [reflexivity|]. cbn. intuition discriminate.
Qed.

Section Exprs.
Variable U : uni.

Definition Qe (e : ex) (x : sx) : Prop := shape x = Some e.

Definition bbody (operand : P sx) (e : sx) : P sx :=
  t <- look ;; op <- consume (t_kind t) ;; r <- operand ;; ret (XBin op e r).
Definition cbody (R : rec) (e : sx) : P sx :=
  t <- look ;;
  match t_kind t with
  | TLpar => consume TLpar ;;; l <- args R ;; consume TRpar ;;; ret (XCall e l)
  | TLbracket => consume TLbracket ;;; i <- r_eq R ;; tok <- consume TRbracket ;; ret (XIndex tok e i)
  | _ => consume TDot ;;; i <- consume TIdent ;; ret (XGet e i)
  end.
Definition post (R : rec) : P sx := bind (primary U R (r_pat R)) (loop (one_of [TLpar; TDot; TLbracket]) (cbody R)).

Definition at_level (R : rec) (n : nat) (ws : list word) (Q : sx -> Prop) : Prop :=
  match n with
  | 0 => chains (comparison U R) (one_of [TDoubleEqual; TNotEqual]) (bbody (comparison U R)) ws (FE 1) Q
  | 1 => chains (addition U R) (one_of [TGreater; TGreaterEq; TLess; TLessEq]) (bbody (addition U R)) ws (FE 2) Q
  | 2 => chains (term U R) (one_of [TPlus; TMinus; TOu]) (bbody (term U R)) ws (FE 3) Q
  | 3 => chains (unary U R) (one_of [TStar; TDoubleSlash; TSlash; TModulo; TE]) (bbody (unary U R)) ws (FE 4) Q
  | 4 => forall m, (List.length ws <= m)%nat -> parses (unary_ U R m) ws (FE 4) Q
  | 5 => parses (call U R) ws (FE 5) Q
  | 6 => chains (primary U R (r_pat R)) (one_of [TLpar; TDot; TLbracket]) (cbody R) ws (FE 7) Q
  | _ => parses (primary U R (r_pat R)) ws (FE 7) Q
  end%nat.

Ltac by_kind := let k := fresh "k" in let H := fresh "H" in intros k H; destruct k; first [discriminate H | split; reflexivity | reflexivity].

Lemma level_post R ws Q : at_level R 6 ws Q -> parses (post R) ws (FE 6) Q.
Proof. intros H. eapply chain_parses; [exact H|]. by_kind. Qed.
Lemma bind_assoc {A B C} (m : P A) (f : A -> P B) (g : B -> P C) s :
  bind m (fun a => bind (f a) g) s = bind (bind m f) g s.
Proof. unfold bind. destruct (m s); reflexivity. Qed.
Lemma call_post R : forall s, call U R s = bind (post R) (fun e => c <- is TCast ;;
  if c then tok <- consume TCast ;; y <- type_ R ;; ret (XConv tok e y) else ret e) s.
Proof.
  intros s. rewrite <- (bind_assoc (primary U R (r_pat R)) (loop (one_of [TLpar; TDot; TLbracket]) (cbody R))). reflexivity.
Qed.

Lemma level_0 R ws Q : at_level R 0 ws Q -> parses (equality U R) ws (FE 0) Q.
Proof. intros H. eapply chain_parses; [exact H|]. by_kind. Qed.
Lemma level_1 R ws Q : at_level R 1 ws Q -> parses (comparison U R) ws (FE 1) Q.
Proof. intros H. eapply chain_parses; [exact H|]. by_kind. Qed.
Lemma level_2 R ws Q : at_level R 2 ws Q -> parses (addition U R) ws (FE 2) Q.
Proof. intros H. eapply chain_parses; [exact H|]. by_kind. Qed.
Lemma level_3 R ws Q : at_level R 3 ws Q -> parses (term U R) ws (FE 3) Q.
Proof. intros H. eapply chain_parses; [exact H|]. by_kind. Qed.
Lemma level_4 R ws Q : at_level R 4 ws Q -> parses (unary U R) ws (FE 4) Q.
Proof.
  intros H ts rest e Ht Hg Hk. unfold unary. cbn [fst]. apply (H (S (List.length (ts ++ rest)))); auto.
  subst ws. unfold words. rewrite map_length, app_length. lia.
Qed.

(** Down one level: nothing is added. *)
Lemma level_down R n ws Q : (n < 7)%nat -> at_level R (S n) ws Q ->
  (n = 4%nat -> exists w ws', ws = w :: ws' /\ ~ In (fst w) [TPlus; TMinus; TNao]) -> at_level R n ws Q.
Proof.
  intros Hn H Hu. destruct n as [|[|[|[|[|[|[|n]]]]]]]; try lia.
  - apply chain_base. now apply level_1.
  - apply chain_base. now apply level_2.
  - apply chain_base. now apply level_3.
  - apply chain_base. now apply level_4.
  - destruct (Hu eq_refl) as (w & ws' & -> & Hw). intros m _. cbn [at_level] in H.
    assert (G : parses (t <- look ;; call U R) (w :: ws') (FE 4) Q).
    { apply parses_look. intros _ _. exact H. }
    intros ts rest e Ht Hg Hk. destruct (G ts rest e Ht Hg Hk) as (a & Ea & Qa). exists a. split; [|assumption].
    destruct ts as [|t ts]; [discriminate|]. injection Ht as Et Ht. rewrite <- Ea.
    destruct m; cbn [unary_]; unfold bind, look, look_tok; cbn [fst app];
      (replace (one_of [TPlus; TMinus; TNao] (t_kind t)) with false; [reflexivity|]);
      symmetry; (destruct (one_of _ _) eqn:Eo; [|reflexivity]); apply one_of_in in Eo; subst w; contradiction.
  - intros ts rest e Ht Hg Hk.
    assert (G : parses (bind (post R) (fun e => c <- is TCast ;;
      if c then tok <- consume TCast ;; y <- type_ R ;; ret (XConv tok e y) else ret e)) ws (FE 5) Q).
    { rewrite <- (app_nil_r ws). eapply parses_bind; [apply level_post; exact H| |].
      - cbn. by_kind.
      - intros a Qa. apply parses_is_end; [by_kind|]. now apply parses_ret. }
    destruct (G ts rest e Ht Hg Hk) as (a & Ea & Qa). exists a. split; [|assumption]. now rewrite call_post.
  - apply chain_base. exact H.
Qed.

Lemma level_7_down R ws Q : at_level R 7 ws Q -> (exists w ws', ws = w :: ws' /\ ~ In (fst w) [TPlus; TMinus; TNao]) ->
  forall n, (n <= 7)%nat -> at_level R n ws Q.
Proof.
  intros H Hu n Hn. remember (7 - n)%nat as d eqn:Ed. revert n Hn Ed.
  induction d as [|d IH]; intros n Hn Ed; [replace n with 7%nat by lia; exact H|].
  apply level_down; [lia|apply IH; lia|auto].
Qed.

(** What is shown for each expression. *)
Definition reads_back (e : ex) : Prop :=
  forall n N, (n <= 7)%nat -> (List.length (show n e) <= N)%nat -> at_level (run U N) n (show n e) (Qe e).

Definition own (e : ex) : Prop :=
  forall N, (List.length (body e) <= N)%nat -> at_level (run U N) (level e) (body e) (Qe e).

Lemma level_le7 e : (level e <= 7)%nat.
Proof. destruct e; cbn; try lia. destruct o; cbn; lia. Qed.

Lemma own_down e : own e -> forall n N, (n <= level e)%nat -> (List.length (body e) <= N)%nat -> at_level (run U N) n (body e) (Qe e).
Proof.
  intros H n N Hn HN. specialize (H N HN). pose proof (level_le7 e) as Hl.
  remember (level e - n)%nat as d eqn:Ed. revert n Hn Ed.
  induction d as [|d IH]; intros n Hn Ed; [replace n with (level e) by lia; exact H|].
  apply level_down; [lia|apply IH; lia|]. intros ->. destruct (body_head e 5%nat (le_n _)) as (w & ws & E & Hw).
  rewrite show_eq in E. replace (level e <? 5)%nat with false in E by (symmetry; apply Nat.ltb_ge; lia). eauto.
Qed.

Lemma own_reads e : own e -> reads_back e.
Proof.
  intros H n N Hn HN. rewrite show_eq in *. destruct (level e <? n)%nat eqn:El.
  - apply level_7_down; [|eexists _, _; split; [reflexivity|cbn; intuition discriminate]|assumption].
    cbn [List.length] in HN. rewrite app_length in HN. cbn [List.length] in HN. destruct N as [|N]; [lia|].
    cbn [at_level]. unfold primary. apply parses_look. intros t Et. assert (Ek : t_kind t = TLpar) by now injection Et. rewrite Ek.
    apply (parses_next w_lpar). intros _ _. eapply parses_bind.
    + apply level_0. apply (own_down e H 0 N); lia.
    + reflexivity.
    + intros x Qx. apply (parses_next w_rpar []). intros _ _. now apply parses_ret.
  - apply Nat.ltb_ge in El. now apply own_down.
Qed.

Lemma bin_ops o : one_of (match bin_level o with 0 => [TDoubleEqual; TNotEqual] | 1 => [TGreater; TGreaterEq; TLess; TLessEq]
  | 2 => [TPlus; TMinus; TOu] | _ => [TStar; TDoubleSlash; TSlash; TModulo; TE] end)%nat (fst (bin_word o)) = true.
Proof. destruct o; reflexivity. Qed.
Lemma bin_follow o : FE (S (bin_level o)) (fst (bin_word o)).
Proof. destruct o; reflexivity. Qed.

Lemma parses_bbody o a b operand F : parses operand (show (S (bin_level o)) b) F (Qe b) -> forall x, Qe a x ->
  parses (bbody operand x) (bin_word o :: show (S (bin_level o)) b) F (Qe (EBin o a b)).
Proof.
  intros H x Qx. unfold bbody. apply parses_look. intros t Et.
  assert (Ek : t_kind t = fst (bin_word o)) by (rewrite <- Et; reflexivity). rewrite Ek.
  apply parses_next. intros op Eop. rewrite <- (app_nil_r (show _ b)).
  eapply parses_bind; [exact H|cbn; auto|]. intros y Qy. apply parses_ret. unfold Qe in *. cbn [shape].
  replace (bin_of (t_kind op)) with (Some o).
  - cbn [obind]. now rewrite Qx, Qy.
  - assert (Ek' : t_kind op = fst (bin_word o)) by (rewrite <- Eop; reflexivity). rewrite Ek'. destruct o; reflexivity.
Qed.

Lemma own_bin o a b : reads_back a -> reads_back b -> own (EBin o a b).
Proof.
  intros Ha Hb N HN. cbn [body level] in *. rewrite app_length in HN. cbn [List.length] in HN.
  pose proof (bin_ops o) as Ho. pose proof (bin_follow o) as Hf. pose proof (parses_bbody o a b) as Pb.
  assert (La : (bin_level o <= 7)%nat) by (destruct o; cbn; lia). assert (Lb : (S (bin_level o) <= 7)%nat) by (destruct o; cbn; lia).
  specialize (Ha _ N La ltac:(lia)). specialize (Hb _ N Lb ltac:(lia)).
  destruct (bin_level o) as [|[|[|[|l]]]] eqn:El; [| | | |destruct o; discriminate];
    (eapply chain_step; [exact Ha|exact Hf|exact Ho|]); apply Pb.
  - now apply level_1.
  - now apply level_2.
  - now apply level_3.
  - now apply level_4.
Qed.

Lemma own_un o a : reads_back a -> own (EUn o a).
Proof.
  intros Ha N HN. cbn [body level] in *. cbn [List.length] in HN. intros m Hm. cbn [List.length] in Hm.
  destruct m as [|m]; [lia|]. cbn [unary_]. apply parses_look. intros t Et.
  assert (Ek : t_kind t = fst (un_word o)) by (rewrite <- Et; reflexivity). rewrite Ek.
  replace (one_of [TPlus; TMinus; TNao] (fst (un_word o))) with true by (destruct o; reflexivity).
  apply parses_next. intros op Eop. rewrite <- (app_nil_r (show 4 a)). specialize (Ha 4%nat N ltac:(lia) ltac:(lia)). cbn [at_level] in Ha.
  eapply parses_bind; [apply Ha; lia|cbn; auto|]. intros x Qx. apply parses_ret. unfold Qe in *. cbn [shape].
  replace (un_of (t_kind op)) with (Some o).
  - cbn [obind]. now rewrite Qx.
  - assert (Ek' : t_kind op = fst (un_word o)) by (rewrite <- Eop; reflexivity). rewrite Ek'. destruct o; reflexivity.
Qed.

Lemma own_cast a t : reads_back a -> own (ECast a t).
Proof.
  intros Ha N HN. cbn [body level] in *. rewrite app_length in HN. cbn [List.length] in HN.
  specialize (Ha 6%nat N ltac:(lia) ltac:(lia)). cbn [at_level]. intros ts rest e Ht Hg Hk.
  assert (G : parses (bind (post (run U N)) (fun e => c <- is TCast ;;
      if c then tok <- consume TCast ;; y <- type_ (run U N) ;; ret (XConv tok e y) else ret e)) (show 6 a ++ lit TCast (txt ":>") :: show_ty t) (FE 5) (Qe (ECast a t))).
  { eapply parses_bind; [apply level_post; exact Ha|reflexivity|]. intros x Qx. apply parses_is. cbv iota.
    apply (parses_next (lit TCast (txt ":>"))). intros tok _. rewrite <- (app_nil_r (show_ty t)).
    eapply parses_bind; [apply parses_type; lia| |].
    - cbn. by_kind.
    - intros y <-. apply parses_ret. unfold Qe in *. cbn [shape]. now rewrite Qx. }
  destruct (G ts rest e Ht Hg Hk) as (x & Ex & Qx). exists x. split; [|assumption]. now rewrite call_post.
Qed.

Lemma own_field a n : reads_back a -> own (EField a n).
Proof.
  intros Ha N HN. cbn [body level] in *. rewrite app_length in HN. cbn [List.length] in HN.
  specialize (Ha 6%nat N ltac:(lia) ltac:(lia)). eapply chain_step; [exact Ha|reflexivity|reflexivity|].
  intros x Qx. unfold cbody. apply parses_look. intros t Et. assert (Ek : t_kind t = TDot) by now injection Et. rewrite Ek.
  apply (parses_next w_dot). intros _ _. apply (parses_next (w_name n) []). intros i Ei. apply parses_ret.
  unfold Qe in *. cbn [shape]. now rewrite Qx, (lex_name _ _ Ei).
Qed.

Lemma own_index a i : reads_back a -> reads_back i -> own (EIndex a i).
Proof.
  intros Ha Hi N HN. cbn [body level] in *. rewrite app_length in HN. cbn [List.length] in HN. rewrite app_length in HN. cbn [List.length] in HN.
  specialize (Ha 6%nat N ltac:(lia) ltac:(lia)). eapply chain_step; [exact Ha|reflexivity|reflexivity|].
  intros x Qx. unfold cbody. apply parses_look. intros t Et. assert (Ek : t_kind t = TLbracket) by now injection Et. rewrite Ek.
  apply (parses_next w_lbr). intros _ _. destruct N as [|N]; [lia|]. eapply parses_bind.
  - apply level_0. apply (Hi 0%nat N); lia.
  - reflexivity.
  - intros y Qy. apply (parses_next w_rbr []). intros tok _. apply parses_ret. unfold Qe in *. cbn [shape]. now rewrite Qx, Qy.
Qed.

Lemma body_ne e : exists w ws, show 0 e = w :: ws /\ ~ In (fst w) [TNewline; TRpar; TRbracket; TComma; TColon; TEof].
Proof.
  assert (A : forall n, exists w ws, show n e = w :: ws /\ ~ In (fst w) [TNewline; TRpar; TRbracket; TComma; TColon; TEof]); [|apply A].
  assert (L : forall e n, (level e <? n)%nat = true -> exists w ws, show n e = w :: ws /\ ~ In (fst w) [TNewline; TRpar; TRbracket; TComma; TColon; TEof]).
  { intros e0 n E. rewrite show_eq, E. eexists _, _. split; [reflexivity|]. cbn. intuition discriminate. }
  induction e using ex_ind'; intros m;
    match goal with |- context [show _ ?e] => destruct (level e <? m)%nat eqn:El; [now apply L|] end;
    rewrite show_eq, El; cbn [body].
  - destruct a; cbn; eexists _, _; (split; [reflexivity|]); cbn; intuition discriminate.
  - eexists _, _. split; [reflexivity|]. destruct o; cbn; intuition discriminate.
  - destruct (IHe1 (bin_level o)) as (w & ws & E & H). rewrite E. eexists _, _. split; [reflexivity|exact H].
  - destruct (IHe 6%nat) as (w & ws & E & H'). rewrite E. eexists _, _. split; [reflexivity|exact H'].
  - destruct (IHe 6%nat) as (w & ws & E & H'). rewrite E. eexists _, _. split; [reflexivity|exact H'].
  - destruct (IHe1 6%nat) as (w & ws & E & H'). rewrite E. eexists _, _. split; [reflexivity|exact H'].
  - destruct (IHe 6%nat) as (w & ws & E & H'). rewrite E. eexists _, _. split; [reflexivity|exact H'].
  - eexists _, _. split; [reflexivity|]. cbn. intuition discriminate.
Qed.

Definition shape_arg (a : sx) : option (option text * ex) :=
  match a with
  | XNamed n v => obind (shape v) (fun v => Some (Some (lex_text n), v))
  | _ => obind (shape a) (fun v => Some (None, v))
  end.
Lemma shape_arg_none x e : shape x = Some e -> shape_arg x = Some (None, e).
Proof. intros H. unfold shape_arg. destruct x; try (now rewrite H); discriminate. Qed.
Lemma shape_name x n : shape x = Some (EAtom (AName n)) -> exists t, x = XVar t /\ lex_text t = n.
Proof.
  intros H. destruct x; cbn [shape] in H; try discriminate;
    repeat match goal with H : obind ?o _ = _ |- _ => destruct o eqn:?; cbn [obind] in H; [|discriminate] end; try discriminate.
  - unfold atom_of in *. destruct (t_kind t), (t_lex t); congruence.
  - injection H as H. eauto.
  - destruct tl; discriminate.
Qed.

Lemma parses_arg N p : reads_back (snd p) -> (List.length (arg_words p) <= N)%nat ->
  parses (arg (run U (S N))) (arg_words p) (fun k => k = TComma \/ k = TRpar) (fun a => shape_arg a = Some p).
Proof.
  intros H HN. destruct p as [[n|] e]; unfold arg_words in *; cbn [fst snd] in *; unfold arg.
  - change (w_name n :: w_colon :: show 0 e) with ([w_name n] ++ w_colon :: show 0 e).
    cbn [List.length] in HN. eapply parses_bind.
    + apply level_0. change [w_name n] with (show 0 (EAtom (AName n))). apply level_7_down; [|cbn; eexists _, _; split; [reflexivity|cbn; intuition discriminate]|lia].
      cbn [at_level]. cbn [show level]. unfold primary. apply parses_look. intros t Et. assert (Ek : t_kind t = TIdent) by now injection Et. rewrite Ek.
      apply (parses_next (w_name n) []). intros _ _. apply parses_is_end; [by_kind|]. apply parses_ret.
      instantiate (1 := Qe (EAtom (AName n))). unfold Qe. cbn [shape]. now rewrite (lex_name _ _ Et).
    + reflexivity.
    + intros x Qx. destruct (shape_name _ _ Qx) as (t & -> & Ht). apply parses_is. cbv iota.
      apply (parses_next w_colon). intros _ _. rewrite <- (app_nil_r (show 0 e)). eapply parses_bind.
      * apply level_0. apply (H 0%nat N); lia.
      * cbn. intros k [-> | ->]; reflexivity.
      * intros v Qv. apply parses_ret. cbn. unfold Qe in Qv. rewrite Qv. cbn. now rewrite Ht.
  - rewrite <- (app_nil_r (show 0 e)). eapply parses_bind.
    + apply level_0. apply (H 0%nat N); lia.
    + cbn. intros k [-> | ->]; reflexivity.
    + intros x Qx. apply parses_is_end; [intros k [-> | ->]; reflexivity|]. apply shape_arg_none in Qx.
      destruct x; now apply parses_ret.
Qed.

Lemma all_shape {A B} (f : A -> option B) l r : Forall2 (fun b a => f a = Some b) r l -> all f l = Some r.
Proof. induction 1 as [|b a r l E F IH]; [reflexivity|]. cbn. rewrite E. cbn. now rewrite IH. Qed.

Lemma arg_head p : exists w ws, arg_words p = w :: ws /\ ~ In (fst w) [TNewline; TRpar; TRbracket; TComma; TColon; TEof].
Proof.
  destruct p as [[n|] e]; unfold arg_words; cbn [fst snd]; [|apply body_ne].
  eexists _, _. split; [reflexivity|]. cbn. intuition discriminate.
Qed.

Lemma parses_args N l : Forall (fun p => reads_back (snd p)) l -> (List.length (sep w_comma (map arg_words l)) <= N)%nat ->
  parses (args (run U (S N))) (sep w_comma (map arg_words l)) (fun k => k = TRpar) (fun r => all shape_arg r = Some l).
Proof.
  intros H HN. unfold args. destruct l as [|p l].
  - cbn [map sep]. apply parses_skip; [cbn; intros k ->; discriminate|].
    intros ts rest e Ht Hg Hk. destruct ts; [|discriminate]. cbn [app]. exists []. split; [|reflexivity].
    assert (Sk : skip_newlines (rest, e) = POk tt (rest, e)).
    { unfold skip_newlines. cbn [fst snd]. unfold kind, look_tok in Hk. cbn [fst snd] in Hk. destruct rest as [|t r]; [reflexivity|].
      cbn [skip_nl]. rewrite Hk. reflexivity. }
    unfold bind, is. rewrite Hk. cbn [tk_eqb]. change (tk_eqb TRpar TRpar) with true. cbv iota. unfold ret. rewrite Sk.
    unfold loop. cbn [fst while]. rewrite Hk. change (one_of [TComma] TRpar) with false. cbv iota. now rewrite Sk.
  - cbn [map] in *. rewrite sep_cons in *. rewrite app_length in HN. inversion H as [|? ? Hp Hl]; subst.
    destruct (arg_head p) as (w & ws & Ew & Hw).
    assert (Hws : arg_words p ++ flat_map (fun b => w_comma :: b) (map arg_words l) = w :: ws ++ flat_map (fun b => w_comma :: b) (map arg_words l)) by now rewrite Ew.
    apply parses_skip; [rewrite Hws; intros E; apply Hw; rewrite E; now left|].
    apply (parses_is_hd _ _ _ _ _ _ _ Hws).
    replace (tk_eqb (fst w) TRpar) with false by (symmetry; destruct (tk_eqb (fst w) TRpar) eqn:E; [|reflexivity]; apply tk_eqb_true in E; exfalso; apply Hw; rewrite E; cbn; auto).
    eapply parses_bind with (F1 := fun k => k = TComma \/ k = TRpar) (Q1 := fun r => exists a, r = [a] /\ shape_arg a = Some p).
    + rewrite <- (app_nil_r (arg_words p)). eapply parses_bind; [apply parses_arg; [exact Hp|lia]|cbn; auto|].
      intros a Qa. apply parses_ret. eauto.
    + destruct l; cbn; auto.
    + intros r (a & -> & Qa). apply parses_skip; [destruct l; cbn; [intros k ->|]; discriminate|].
      rewrite <- (app_nil_r (flat_map _ _)). eapply parses_bind with (F1 := fun k => k = TRpar)
        (Q1 := fun r => all shape_arg r = Some (p :: l)).
      * eapply parses_mono with (F := fun k => k = TRpar)
          (Q := fun acc' => exists r, acc' = [a] ++ r /\ Forall2 (fun p a => shape_arg a = Some p) l r).
        -- replace (flat_map (fun b => w_comma :: b) (map arg_words l)) with (flat_map (fun p => w_comma :: arg_words p) l)
             by (clear; induction l; cbn; congruence).
           apply parses_loop; [intros k ->; reflexivity|]. intros b l1 l2 acc El. exists w_comma, (arg_words b).
           split; [reflexivity|]. split; [reflexivity|].
           apply (parses_next_nl w_comma); [discriminate|]. intros _ _. destruct (arg_head b) as (w1 & ws1 & E1 & Hw1).
           apply parses_skip; [rewrite E1; intros E; apply Hw1; rewrite E; now left|].
           rewrite <- (app_nil_r (arg_words b)).
           assert (Hin : In b l) by (rewrite El; apply in_or_app; right; now left).
           eapply parses_bind.
           ++ apply parses_arg; [rewrite Forall_forall in Hl; now apply Hl|].
              assert (L : (List.length (w_comma :: arg_words b) <= List.length (flat_map (fun b => w_comma :: b) (map arg_words l)))%nat).
              { apply (flat_in (fun b => w_comma :: b)). now apply in_map. }
              cbn [List.length] in L. lia.
           ++ cbn. destruct l2 as [|b' l2]; cbn; intros k ->; auto.
           ++ intros x Qx. apply parses_skip; [cbn; destruct l2; cbn; intros k ->; discriminate|]. apply parses_ret. eauto.
        -- auto.
        -- intros r (r' & -> & F2). apply all_shape. now constructor.
      * cbn. auto.
      * intros r Qr. apply parses_skip; [cbn; intros k ->; discriminate|]. now apply parses_ret.
Qed.

Lemma own_call f l : reads_back f -> Forall (fun p => reads_back (snd p)) l -> own (ECall f l).
Proof.
  intros Hf Hl N HN. cbn [body level] in *. rewrite app_length in HN. cbn [List.length] in HN. rewrite app_length in HN. cbn [List.length] in HN.
  specialize (Hf 6%nat N ltac:(lia) ltac:(lia)). eapply chain_step; [exact Hf|reflexivity|reflexivity|].
  intros x Qx. unfold cbody. apply parses_look. intros t Et. assert (Ek : t_kind t = TLpar) by now injection Et. rewrite Ek.
  apply (parses_next w_lpar). intros _ _. destruct N as [|N]; [lia|]. eapply parses_bind.
  - apply parses_args; [exact Hl|lia].
  - reflexivity.
  - intros r Qr. apply (parses_next w_rpar []). intros _ _. apply parses_ret. unfold Qe in *. cbn [shape]. rewrite Qx. cbn [obind].
    change (all _ r) with (all shape_arg r). now rewrite Qr.
Qed.

Lemma own_list t l : Forall reads_back l -> own (EList t l).
Proof.
  intros Hl N HN. cbn [body level] in *. cbn [List.length] in HN. rewrite app_length in HN. cbn [List.length] in HN. rewrite app_length in HN.
  cbn [List.length] in HN. destruct N as [|N]; [lia|]. cbn [at_level]. unfold primary. apply parses_look. intros t0 Et.
  assert (Ek : t_kind t0 = TLbracket) by now injection Et. rewrite Ek.
  apply (parses_next w_lbr). intros tok _. destruct (show_ty_head t) as (w & ws & Ew & Hw).
  apply parses_skip; [rewrite Ew; cbn; destruct Hw as [-> | ->]; discriminate|].
  eapply parses_bind; [apply parses_type; lia|reflexivity|]. intros y <-.
  apply (parses_next w_colon). intros _ _. destruct l as [|e l].
  - cbn [map sep app]. apply parses_is. cbv iota.
    apply (parses_bind _ _ [] [w_rbr] (fun _ => True) _ (fun r => r = [])); [now apply parses_ret|exact I|]. intros r ->.
    apply (parses_next_nl w_rbr []); [discriminate|]. intros _ _. apply parses_ret. reflexivity.
  - cbn [map] in *. rewrite sep_cons in *. rewrite app_length in HN. inversion Hl as [|? ? He Hl']; subst.
    destruct (body_ne e) as (w1 & ws1 & E1 & Hw1).
    assert (Hws : (show 0 e ++ flat_map (fun b => w_comma :: b) (map (show 0) l)) ++ [w_rbr] = w1 :: (ws1 ++ flat_map (fun b => w_comma :: b) (map (show 0) l)) ++ [w_rbr])
      by now rewrite E1.
    apply (parses_is_hd _ _ _ _ _ _ _ Hws).
    replace (tk_eqb (fst w1) TRbracket) with false by (symmetry; destruct (tk_eqb (fst w1) TRbracket) eqn:E; [|reflexivity]; apply tk_eqb_true in E; exfalso; apply Hw1; rewrite E; cbn; auto).
    eapply parses_bind with (F1 := fun k => k = TRbracket) (Q1 := fun r => all shape r = Some (e :: l)).
    + apply parses_skip; [rewrite E1; intros E; apply Hw1; rewrite E; now left|].
      eapply parses_bind; [apply level_0; apply (He 0%nat N); lia|destruct l; [intros k ->|]; reflexivity|].
      intros x Qx.
      eapply parses_mono with (F := fun k => k = TRbracket)
          (Q := fun acc' => exists r, acc' = [x] ++ r /\ Forall2 (fun e x => shape x = Some e) l r).
      * replace (flat_map (fun b => w_comma :: b) (map (show 0) l)) with (flat_map (fun p => w_comma :: show 0 p) l)
             by (clear; induction l; cbn; congruence).
        apply parses_loop; [intros k ->; reflexivity|]. intros b l1 l2 acc El. exists w_comma, (show 0 b).
        split; [reflexivity|]. split; [reflexivity|].
        apply (parses_next_nl w_comma); [discriminate|]. intros _ _. destruct (body_ne b) as (w2 & ws2 & E2 & Hw2).
        apply parses_skip; [rewrite E2; intros E; apply Hw2; rewrite E; now left|].
        rewrite <- (app_nil_r (show 0 b)).
        assert (Hin : In b l) by (rewrite El; apply in_or_app; right; now left).
        eapply parses_bind.
        -- apply level_0. rewrite Forall_forall in Hl'. apply (Hl' b Hin 0%nat N); [lia|].
           assert (L : (List.length (w_comma :: show 0 b) <= List.length (flat_map (fun b => w_comma :: b) (map (show 0) l)))%nat).
           { apply (flat_in (fun b => w_comma :: b)). now apply in_map. }
           cbn [List.length] in L. lia.
        -- cbn. destruct l2 as [|b' l2]; cbn; intros k ->; reflexivity.
        -- intros z Qz. apply parses_skip; [cbn; destruct l2; cbn; intros k ->; discriminate|]. apply parses_ret. eauto.
      * auto.
      * intros r (r' & -> & F2). apply all_shape. now constructor.
    + reflexivity.
    + intros r Qr. apply (parses_next_nl w_rbr []); [discriminate|]. intros _ _. apply parses_ret. unfold Qe. cbn [shape]. now rewrite Qr.
Qed.

Lemma own_atom a : own (EAtom a).
Proof.
  intros N HN. cbn [body level at_level] in *. unfold primary.
  destruct a; cbn [show_atom];
    try (match goal with |- parses _ [?w] _ _ =>
      apply (parses_look w []); intros t Et;
      let Ek := fresh in assert (Ek : t_kind t = fst w) by (rewrite <- Et; reflexivity); rewrite Ek;
      apply (parses_next w []); intros _ _; apply parses_ret; unfold Qe; cbn [shape]; unfold atom_of; rewrite Ek;
      injection Et as _ Et; try rewrite Et; reflexivity end).
  - apply parses_look. intros t Et. assert (Ek : t_kind t = TIdent) by now injection Et. rewrite Ek.
    apply (parses_next (w_name n) []). intros _ _. apply parses_is_end; [by_kind|]. apply parses_ret. unfold Qe. cbn [shape]. now rewrite (lex_name _ _ Et).
  - apply parses_look. intros t Et. assert (Ek : t_kind t = TIdent) by now injection Et. rewrite Ek.
    apply (parses_next (w_name n)). intros _ _.
    apply (parses_is_hd TDoubleColon (lit TDoubleColon (txt "::")) (w_name m :: flat_map (fun d => [lit TDoubleColon (txt "::"); w_name d]) l)); [reflexivity|].
    cbv iota. rewrite <- (app_nil_r (flat_map _ _)). eapply parses_bind.
    + apply parses_loop with (F := FE 7) (Q := fun n t => lex_text t = n); [by_kind|].
      intros b l1 l2 acc _. exists (lit TDoubleColon (txt "::")), [w_name b]. split; [reflexivity|]. split; [reflexivity|].
      apply (parses_next (lit TDoubleColon (txt "::"))). intros _ _. apply (parses_next (w_name b) []). intros t2 Et2. apply parses_ret.
      exists t2. split; [reflexivity|now apply lex_name].
    + cbn. auto.
    + intros r (r' & -> & F2). cbn [app]. inversion F2 as [|? t2 ? r2 E2 F2']; subst. apply parses_ret. unfold Qe. cbn [shape].
      rewrite (lex_name _ _ Et). do 3 f_equal. clear -F2'. induction F2'; cbn; congruence.
  - apply parses_look. intros t Et. assert (Ek : t_kind t = TAlvo) by now injection Et. rewrite Ek.
    apply (parses_next (lit TAlvo (txt "alvo")) []). intros _ _. apply parses_ret. reflexivity.
Qed.

Theorem all_read_back e : reads_back e.
Proof.
  induction e using ex_ind'; apply own_reads.
  - apply own_atom.
  - now apply own_un.
  - now apply own_bin.
  - now apply own_cast.
  - now apply own_call.
  - now apply own_index.
  - now apply own_field.
  - now apply own_list.
Qed.

Theorem parses_equality e N : (List.length (show 0 e) <= N)%nat -> parses (equality U (run U N)) (show 0 e) (FE 0) (Qe e).
Proof. intros H. apply level_0. apply all_read_back; [lia|assumption]. Qed.
End Exprs.
