From Verif Require Import Base Lexer Spec_Lex LexFacts.
Local Open Scope Z_scope.

(** ** Every text: the lexer ends and only moves forward *)
Definition eaten (rest rest' : text) : Prop := exists c, c <> [] /\ rest = c ++ rest'.

Lemma eaten_len a b : eaten a b -> (List.length b < List.length a)%nat.
Proof. intros (c & Hc & ->). rewrite app_length. destruct c; [congruence|cbn; lia]. Qed.
Lemma eaten_cons c r : eaten (c :: r) r.
Proof. exists [c]. split; [discriminate|reflexivity]. Qed.
Lemma eaten_more c r r' : eaten r r' -> eaten (c :: r) r'.
Proof. intros (x & Hx & ->). exists (c :: x). split; [discriminate|reflexivity]. Qed.
Lemma eaten_trans a b c : eaten a b -> eaten b c -> eaten a c.
Proof. intros (x & Hx & ->) (y & Hy & ->). exists (x ++ y). split; [destruct x; [congruence|discriminate]|now rewrite app_assoc]. Qed.
Lemma eaten_app g a b : eaten a b -> eaten (g ++ a) b.
Proof. induction g; [auto|]. intros H. apply eaten_more. auto. Qed.

Lemma escape_suffix char seq hit res rest pos hit' res' rest' pos' :
  escape_seq char seq (hit, res, rest, pos) = (hit', res', rest', pos') ->
  (hit' = hit /\ rest' = rest) \/ (hit' = true /\ eaten rest rest').
Proof.
  destruct rest as [|x [|y b]]; cbn; intros H; try (injection H as <- <- <- <-; now left).
  destruct (N.eqb y char); injection H as <- <- <- <-; [right|left]; split; auto.
  apply eaten_more, eaten_cons.
Qed.

Lemma string_loop_eaten q : forall fuel rest res pos b r p,
  string_loop fuel q res rest pos = SDone b r p -> eaten rest r.
Proof.
  induction fuel as [|fuel IH]; intros rest res pos b r0 p H; [discriminate|].
  destruct rest as [|c r]; [discriminate|]. cbn [string_loop] in H.
  destruct (N.eqb c q); [injection H as <- <- <-; apply eaten_cons|].
  destruct (N.eqb c BSL); [|apply eaten_more; eauto].
  match type of H with context[escape_seq 110 NL ?s] => destruct (escape_seq 110 NL s) as [[[h1 res1] rest1] pos1] eqn:E1 end.
  match type of H with context[escape_seq SQ SQ ?s] => destruct (escape_seq SQ SQ s) as [[[h2 res2] rest2] pos2] eqn:E2 end.
  match type of H with context[escape_seq DQ DQ ?s] => destruct (escape_seq DQ DQ s) as [[[h3 res3] rest3] pos3] eqn:E3 end.
  destruct h3; [|apply eaten_more; eauto].
  apply escape_suffix in E1, E2, E3. apply IH in H.
  destruct E1 as [[-> ->]|[_ L1]], E2 as [[-> ->]|[_ L2]], E3 as [[? ->]|[_ L3]]; try discriminate;
    eauto 6 using eaten_trans.
Qed.

Lemma string_total kind line pos q r :
  (exists t s', string kind line pos q r = LTok t s' /\ eaten r (lx_rest s')) \/
  exists p, string kind line pos q r = LErr InvalidString line p.
Proof.
  unfold string.
  destruct (string_loop_total q (S (List.length r)) r [] (adv r pos) ltac:(lia)) as [(b & r0 & p & E & _)|[p E]];
    rewrite E; [left|right; eauto].
  eexists _, _. split; [reflexivity|]. cbn. eapply string_loop_eaten; eauto.
Qed.

Section All.
Variable U : uni.
Hypothesis HU : python_tables U.

(** A run of digits Python's [int] or [float] refuses. *)
Definition bad_number (s : text) : Prop :=
  exists a w b, s = a ++ w ++ b /\ forallb (is_digit U) w = true /\
    ((exists c, In c w /\ digit_val U c = None) \/ ~ within_limit U w).

Lemma bad_number_app g s : bad_number s -> bad_number (g ++ s).
Proof. intros (a & w & b & -> & H). exists (g ++ a), w, b. now rewrite <- app_assoc. Qed.

Lemma digits_val_none w : forall acc, digits_val U acc w = None -> exists c, In c w /\ digit_val U c = None.
Proof.
  induction w as [|c w IH]; intros acc; cbn; [discriminate|]. destruct (digit_val U c) eqn:E.
  - intros H. destruct (IH _ H) as (x & ? & ?). eauto.
  - intros _. exists c. auto.
Qed.

Lemma py_int_none w : py_int U w = None -> (exists c, In c w /\ digit_val U c = None) \/ ~ within_limit U w.
Proof.
  unfold py_int, within_limit. destruct (u_limit U) as [m|].
  - destruct (Nat.ltb_spec m (List.length w)); [right; lia|]. intros H1. left. eapply digits_val_none; eauto.
  - intros H. left. eapply digits_val_none; eauto.
Qed.

Definition moves (rest : text) (res : lexres) : Prop :=
  match res with
  | LTok t s' => t_kind t = TEof \/ (t_kind t <> TEof /\ eaten rest (lx_rest s'))
  | LErr _ _ _ => True
  | LCrash => bad_number rest
  | LFuel => False
  end.

Lemma moves_word line pos c rest : word_char U c -> moves (c :: rest) (identifier U line pos (c :: rest)).
Proof.
  intros Hc. unfold identifier. destruct (eat _ (c :: rest) pos) as [[w r] p] eqn:E.
  destruct (eat_spec _ _ _ _ _ _ E) as (E1 & Hf & Hst). cbn [moves t_kind lx_rest].
  right. split.
  - destruct (lookup_tk w keywords) eqn:El; [|discriminate]. apply lookup_in, keywords_shape in El. tauto.
  - exists w. split; [|exact E1]. intros ->. cbn in E1. rewrite <- E1 in Hst. cbn in Hst. apply word_charb in Hc. congruence.
Qed.

Lemma moves_int line w r p : w <> [] -> forallb (is_digit U) w = true -> moves (w ++ r) (intres U line w r p).
Proof.
  intros Hw Hf. unfold intres. destruct (py_int U w) eqn:E; cbn.
  - right. split; [discriminate|]. exists w. auto.
  - exists [], w, r. split; [reflexivity|]. split; [assumption|]. now apply py_int_none.
Qed.

Lemma moves_number line pos c rest : is_digit U c = true -> moves (c :: rest) (number U line pos (c :: rest)).
Proof.
  intros Hc. rewrite number_eq. destruct (eat (is_digit U) (c :: rest) pos) as [[w r] p] eqn:E.
  destruct (eat_spec _ _ _ _ _ _ E) as (E1 & Hf & Hst).
  assert (Hw : w <> []) by (intros ->; cbn in E1; rewrite <- E1 in Hst; cbn in Hst; congruence).
  rewrite E1. destruct r as [|x [|y r]]; try (now apply moves_int).
  destruct (N.eqb x DOTC && is_digit U y)%bool eqn:Ex; [|now apply moves_int].
  destruct (eat (is_digit U) (y :: r) (adv (y :: r) p)) as [[w2 r2] p2] eqn:E2.
  destruct (eat_spec _ _ _ _ _ _ E2) as (E3 & Hf2 & Hst2).
  destruct (float_ok U w w2) eqn:Ef; cbn [moves t_kind lx_rest].
  - right. split; [discriminate|]. exists (w ++ x :: w2). split; [destruct w; discriminate|].
    now rewrite E3, <- app_assoc.
  - unfold float_ok in Ef. destruct (digits_val U 0 w) eqn:Ea.
    + destruct (digits_val U 0 w2) eqn:Eb; [discriminate|].
      exists (w ++ [x]), w2, r2. rewrite E3, <- !app_assoc. split; [reflexivity|]. split; [assumption|].
      left. eapply digits_val_none; eauto.
    + exists [], w, (x :: y :: r). split; [reflexivity|]. split; [assumption|]. left. eapply digits_val_none; eauto.
Qed.

Lemma moves_dispatch line rest pos : moves rest (dispatch U line rest pos).
Proof.
  unfold dispatch. destruct rest as [|c r]; [now left|].
  destruct (N.eqb c NL).
  { destruct r as [|d r]; [now left|]. right. split; [discriminate|apply eaten_cons]. }
  assert (St : forall kind p q r', kind = TString \/ kind = TFormat -> moves r' (string kind line p q r')).
  { intros kind p q r' Hk. destruct (string_total kind line p q r') as [(t & s' & E & He)|[p0 E]].
    - pose proof E as E0. unfold string in E0. destruct (string_loop _ _ _ _ _); try discriminate.
      apply ltok_inj in E0 as [<- _]. rewrite E. cbn [moves t_kind]. right. split; [destruct Hk as [-> | ->]; discriminate|exact He].
    - rewrite E. exact I. }
  destruct (N.eqb c SQ || N.eqb c DQ)%bool eqn:Eq.
  { specialize (St TString pos c r (or_introl eq_refl)).
    destruct (string_total TString line pos c r) as [(t & s' & E & He)|[p0 E]]; rewrite E in *; [|exact I].
    cbn [moves] in *. destruct St as [?|[? ?]]; [now left|right]. split; [assumption|now apply eaten_more]. }
  destruct (is_alpha U c || N.eqb c USC)%bool eqn:Ew.
  { assert (Hc : word_char U c).
    { apply orb_true_iff in Ew as [Ew|Ew]; [|right; now apply N.eqb_eq].
      left. now apply (alpha_facts U HU). }
    destruct r as [|q r]; [now apply moves_word|].
    destruct (N.eqb c 102 && (N.eqb q DQ || N.eqb q SQ))%bool; [|now apply moves_word].
    specialize (St TFormat (adv (q :: r) pos) q r (or_intror eq_refl)).
    destruct (string_total TFormat line (adv (q :: r) pos) q r) as [(t & s' & E & He)|[p0 E]]; rewrite E in *; [|exact I].
    cbn [moves] in *. destruct St as [?|[? ?]]; [now left|right]. split; [assumption|now apply eaten_more, eaten_more]. }
  destruct (is_digit U c) eqn:Ed; [now apply moves_number|].
  unfold common_toks.
  assert (One : moves (c :: r) match from_char [c] with
    | Some k => LTok (mkTok k (LText [c]) line pos) (mkLex line (adv r pos) r)
    | None => LErr InvalidSymbol line (adv r pos) end).
  { destruct (from_char [c]) as [k|] eqn:E; [|exact I]. apply lookup_in, symbols_shape in E.
    cbn [moves t_kind lx_rest]. right. split; [tauto|apply eaten_cons]. }
  destruct (is_ambiguous c); [|exact One]. destruct r as [|d r]; [exact One|].
  destruct (from_char [c; d]) as [k|] eqn:E; [|exact One]. apply lookup_in, symbols_shape in E.
  cbn [moves t_kind lx_rest]. right. split; [tauto|apply eaten_more, eaten_cons].
Qed.

Lemma moves_token s : moves (lx_rest s) (get_token U s).
Proof.
  rewrite get_token_two. destruct (skip U (lx_rest s) (lx_pos s)) as [r p] eqn:E.
  destruct (skip_spec U _ _ _ _ E) as (g & -> & _).
  pose proof (moves_dispatch (lx_line s) r p) as M. destruct (dispatch U (lx_line s) r p); cbn in *; auto.
  - destruct M as [?|[? ?]]; [now left|right]. split; [assumption|now apply eaten_app].
  - now apply bad_number_app.
Qed.

Lemma tokens_total : forall fuel s, (List.length (lx_rest s) < fuel)%nat ->
  let '(ts, e) := tokens U fuel s in
  e <> EFuel /\ (e = ECrash -> bad_number (lx_rest s)) /\
  exists chunks rest, lx_rest s = List.concat chunks ++ rest /\ List.length chunks = List.length ts /\
    Forall (fun c => c <> []) chunks.
Proof.
  induction fuel as [|fuel IH]; intros s Hl; [lia|]. cbn [tokens].
  pose proof (moves_token s) as M. destruct (get_token U s) as [t s'|e l p| |]; cbn [moves] in M.
  - destruct (tk_eqb (t_kind t) TEof) eqn:Et.
    + split; [discriminate|]. split; [discriminate|]. exists [], (lx_rest s). auto.
    + destruct M as [M|[_ M]]; [rewrite M in Et; discriminate|].
      specialize (IH s' ltac:(apply eaten_len in M; lia)).
      destruct (tokens U fuel s') as [ts e]. destruct IH as (H1 & H2 & chunks & rest & H3 & H4 & H5).
      destruct M as (c & Hc & Hs). split; [assumption|]. split.
      * intros He. rewrite Hs. apply bad_number_app; auto.
      * exists (c :: chunks), rest. cbn. split; [now rewrite Hs, H3, <- app_assoc|]. split; [lia|now constructor].
  - split; [discriminate|]. split; [discriminate|]. exists [], (lx_rest s). auto.
  - split; [discriminate|]. split; [auto|]. exists [], (lx_rest s). auto.
  - contradiction.
Qed.

(** ** The lexer finds exactly the tokens the text consists of *)
Definition one_line (i : item) : Prop := i_written i = [NL] \/ ~ In NL (i_written i).

Lemma steps_line l k v w : one_line (mkItem k v w l) -> l + line_ends w = steps l w.
Proof.
  unfold one_line, steps, line_ends. cbn. intros [-> | H]; [reflexivity|].
  destruct (text_eqb w [NL]) eqn:E.
  - apply text_eqb_eq in E. subst w. exfalso. apply H. now left.
  - rewrite (proj1 (count_occ_not_In N.eq_dec w NL) H). cbn. lia.
Qed.

Lemma tokens_complete l src its : reads U l src its -> forall fuel s,
  lx_rest s = src -> (List.length src < fuel)%nat -> ~ slips src ->
  exists ts e, tokens U fuel s = (ts, EEof e) /\ Forall2 says ts its /\
    (lx_line s = l -> Forall one_line its -> Forall2 (fun t i => t_line t = i_line i) ts its).
Proof.
  induction 1 as [l g Hg|l g Hg|l g k v w rest its Hg Hsp Hst Hr IH]; intros fuel s Hs Hl Hf;
    (destruct fuel as [|fuel]; [lia|]); cbn [tokens]; rewrite get_token_two, Hs.
  - destruct (skip_app U g [] (lx_pos s) Hg I) as [p E]. rewrite app_nil_r in E. rewrite E. cbn.
    eexists _, _. split; [reflexivity|]. split; [constructor|intros; constructor].
  - destruct (skip_app U g [NL] (lx_pos s) Hg) as [p E]; [split; [intros [? _]; congruence|discriminate]|].
    rewrite E. cbn. eexists _, _. split; [reflexivity|]. split; [constructor|intros; constructor].
  - destruct (spells_head U HU k v w Hsp) as (Hk & c & r & Ew & Hb & Hh).
    destruct (skip_app U g (w ++ rest) (lx_pos s) Hg) as [p E]; [subst w; split; assumption|]. rewrite E.
    assert (Hf1 : slip_free (w ++ rest)) by (now apply (slip_free_app g)).
    destruct (spells_step U HU (lx_line s) k v w rest p Hsp Hst Hf1) as (t & s' & -> & E1 & E2 & E3 & E4 & E5).
    rewrite E1. unfold tk_eqb. destruct (tk_eq_dec k TEof) as [|_]; [contradiction|].
    destruct (IH fuel s' E4) as (ts & e & -> & F & L).
    + rewrite !app_length in Hl. subst w. cbn in Hl. lia.
    + now apply slip_free_app in Hf1.
    + exists (t :: ts), e. split; [reflexivity|]. split; [constructor; [now split|assumption]|].
      intros Hline Ho. constructor; [cbn; congruence|]. apply L; [|now inversion Ho].
      rewrite E5, Hline. symmetry. apply steps_line with k v. now inversion Ho.
Qed.

Lemma tokens_sound : forall fuel s ts e, ~ slips (lx_rest s) -> tokens U fuel s = (ts, EEof e) ->
  forall l, exists its, reads U l (lx_rest s) its /\ Forall2 says ts its.
Proof.
  induction fuel as [|fuel IH]; intros s ts e Hf H l; [discriminate|]. cbn [tokens] in H.
  rewrite get_token_two in H. destruct (skip U (lx_rest s) (lx_pos s)) as [r p] eqn:E.
  destruct (skip_spec U _ _ _ _ E) as (g & Eg & Hg & Hsol). rewrite Eg in *.
  destruct (dispatch U (lx_line s) r p) as [t s'| | |] eqn:Ed; try discriminate.
  pose proof (slip_free_app _ _ Hf) as Hf1.
  destruct (dispatch_spec U HU _ _ _ _ _ Hf1 Ed) as [[Hk Hr]|(w & rest' & -> & Hsp & Hst & _ & Hr & _)].
  - rewrite Hk in H. cbn in H. injection H as <- <-. exists []. split; [|constructor].
    destruct Hr as [-> | ->]; [rewrite app_nil_r; now constructor|now constructor].
  - destruct (spells_head U HU _ _ _ Hsp) as (Hk & _). unfold tk_eqb in H.
    destruct (tk_eq_dec (t_kind t) TEof) as [|_]; [contradiction|].
    destruct (tokens U fuel s') as [ts' e'] eqn:Et. injection H as <- ->. subst rest'.
    destruct (IH s' ts' e (slip_free_app _ _ Hf1) Et (l + line_ends w)) as (its & Hits & F).
    exists (mkItem (t_kind t) (t_lex t) w l :: its). split; [now constructor|].
    constructor; [now split|assumption].
Qed.

(** ** Writing the same tokens with other spaces *)
Lemma slips_mid a w b : slips w -> slips (a ++ w ++ b).
Proof.
  intros (a' & e & x & y & b' & -> & H). exists (a ++ a'), e, x, y, (b' ++ b). split; [|exact H].
  rewrite <- !app_assoc. reflexivity.
Qed.

Lemma slips_tail w : slips (w ++ [NL; NL]) -> slips w.
Proof.
  intros (a & e & x & y & b & E & Hx & H).
  assert (Hy : y <> NL) by (destruct H as [[_ [-> | ->]]|[_ ->]]; discriminate).
  assert (E' : w ++ [NL; NL] = (a ++ [BSL; e; x; y]) ++ b) by (rewrite E, <- app_assoc; reflexivity).
  apply app_eq_app in E' as (l & [[-> Eb]|[Ea Eb]]).
  - destruct l as [|z l].
    + rewrite app_nil_r. exists a, e, x, y, []. auto.
    + exists a, e, x, y, (z :: l). rewrite <- app_assoc. auto.
  - destruct l as [|z l].
    + rewrite app_nil_r in Ea. exists a, e, x, y, []. auto.
    + exfalso. destruct (exists_last (l := z :: l)) as (l0 & y0 & El); [discriminate|].
      rewrite El in Ea, Eb. rewrite app_assoc in Ea. change [BSL; e; x; y] with ([BSL; e; x] ++ [y]) in Ea.
      rewrite app_assoc in Ea. apply app_inj_tail in Ea as [_ ->].
      assert (In y0 [NL; NL]) as Hin by (rewrite Eb; apply in_or_app; left; apply in_or_app; right; now left).
      cbn in Hin. destruct Hin as [?|[?|[]]]; congruence.
Qed.

Lemma nl_not_word : ~ word_char U NL.
Proof. intros [H|H]; discriminate. Qed.

Lemma stops_nl k v w : spells U k v w -> stops U k w [NL; NL].
Proof.
  intros Hs.
  assert (K : (w = [NL] -> [NL; NL] <> []) /\
      (head_is (word_start U) w ->
         ~ head_is (word_char U) [NL; NL] /\ ~ (w = [102%N] /\ head_is (fun c => c = SQ \/ c = DQ) [NL; NL])) /\
      (forall c d r k', w = [c] -> [NL; NL] = d :: r -> ~ In ([c; d], k') symbols)).
  { split; [discriminate|]. split.
    - intros _. split.
      + intros (c & r & E & H). injection E as <- <-. exact (nl_not_word H).
      + intros [_ (c & r & E & H)]. injection E as <- <-. destruct H; discriminate.
    - intros c d r k' _ E Hin. injection E as <- <-.
      assert (T : forallb (fun p => match fst p with [_; d] => negb (N.eqb d NL) | _ => true end) symbols = true)
        by (vm_compute; reflexivity).
      rewrite forallb_forall in T. specialize (T _ Hin). discriminate. }
  destruct k; try exact K; try exact I.
  - split.
    + intros (c & r & E & H). injection E as <- <-. discriminate.
    + intros (c & r & E & H). discriminate.
  - intros (c & r & E & H). injection E as <- <-. discriminate.
Qed.

Lemma spells_fun k v k' v' w : ~ slips w -> spells U k v w -> spells U k' v' w -> k = k' /\ v = v'.
Proof.
  intros Hs H1 H2.
  assert (Hf : slip_free (w ++ [NL; NL])) by (intros H; apply Hs; now apply slips_tail).
  destruct (spells_step U HU 0 k v w [NL; NL] 0 H1 (stops_nl _ _ _ H1) Hf) as (t & s & E & A & B & _).
  destruct (spells_step U HU 0 k' v' w [NL; NL] 0 H2 (stops_nl _ _ _ H2) Hf) as (t' & s' & E' & A' & B' & _).
  rewrite E in E'. apply ltok_inj in E' as [-> _]. split; congruence.
Qed.

Lemma reads_same l l' s s' its its' : reads U l s its -> reads U l' s' its' ->
  map i_written its = map i_written its' -> ~ slips s ->
  Forall2 (fun i j => i_kind i = i_kind j /\ i_val i = i_val j) its its'.
Proof.
  intros H. revert l' s' its'. induction H as [l g Hg|l g Hg|l g k v w rest its Hg Hsp Hst Hr IH]; intros l' s' its' H' E Hf.
  - destruct its'; [constructor|discriminate].
  - destruct its'; [constructor|discriminate].
  - inversion H' as [| |l0 g' k' v' w' rest' its0 Hg' Hsp' Hst' Hr']; subst; try discriminate.
    cbn in E. injection E as <- E.
    assert (Hw : ~ slips w) by (intros Hx; apply Hf; now apply slips_mid).
    constructor; [cbn; now apply spells_fun with w|].
    eapply IH; eauto. intros Hx. apply Hf. rewrite app_assoc.
    destruct Hx as (a & e & x & y & b & -> & Hx). exists ((g ++ w) ++ a), e, x, y, b. now rewrite <- !app_assoc.
Qed.
End All.

(** ** No literal ends in a backslash *)
Lemma escape_last char seq hit res rest pos hit' res' rest' pos' :
  escape_seq char seq (hit, res, rest, pos) = (hit', res', rest', pos') ->
  (hit' = hit /\ res' = res /\ rest' = rest) \/ (hit' = true /\ last res' 0%N = seq).
Proof.
  destruct rest as [|x [|y b]]; cbn; intros H; try (injection H as <- <- <- <-; now left).
  destruct (N.eqb y char); injection H as <- <- <- <-; [right|left]; auto. split; [reflexivity|apply last_last].
Qed.

Lemma string_loop_last q : q = SQ \/ q = DQ -> forall fuel rest res pos b r p,
  (last res 0%N = BSL -> match rest with [] => True | c :: _ => c <> q end) ->
  string_loop fuel q res rest pos = SDone b r p -> last b 0%N <> BSL.
Proof.
  intros Hq. induction fuel as [|fuel IH]; intros rest res pos b r0 p Hi H; [discriminate|].
  destruct rest as [|c r]; [discriminate|]. cbn [string_loop] in H.
  destruct (N.eqb_spec c q) as [->|Hc].
  { injection H as <- <- <-. intros E. now apply Hi in E. }
  destruct (N.eqb_spec c BSL) as [->|Hb].
  - match type of H with context[escape_seq 110 NL ?s] => destruct (escape_seq 110 NL s) as [[[h1 res1] rest1] pos1] eqn:E1 end.
    match type of H with context[escape_seq SQ SQ ?s] => destruct (escape_seq SQ SQ s) as [[[h2 res2] rest2] pos2] eqn:E2 end.
    match type of H with context[escape_seq DQ DQ ?s] => destruct (escape_seq DQ DQ s) as [[[h3 res3] rest3] pos3] eqn:E3 end.
    pose proof E2 as E2'. pose proof E3 as E3'.
    apply escape_last in E1, E2, E3. destruct h3.
    + apply IH in H; [exact H|]. intros L. exfalso.
      destruct E3 as [(H3 & -> & ->)|[_ E3]]; [|rewrite E3 in L; discriminate].
      destruct E2 as [(H2 & -> & ->)|[_ E2]]; [|rewrite E2 in L; discriminate].
      destruct E1 as [(H1 & -> & ->)|[_ E1]]; [congruence|rewrite E1 in L; discriminate].
    + apply IH in H; [exact H|]. intros _. destruct r as [|d r]; [exact I|]. intros ->.
      destruct E1 as [(H1 & -> & ->)|[H1 _]].
      * destruct E2 as [(H2 & -> & ->)|[H2 _]].
        -- destruct Hq as [-> | ->].
           ++ cbn in E2'. injection E2' as E2'. congruence.
           ++ cbn in E3'. injection E3' as E3'. congruence.
        -- subst h2. destruct E3 as [(? & _)|[? _]]; congruence.
      * subst h1. destruct E2 as [(-> & _)|[-> _]]; destruct E3 as [(? & _)|[? _]]; congruence.
  - apply IH in H; [exact H|]. rewrite last_last. congruence.
Qed.

Lemma text_token_source U line rest pos t s' : dispatch U line rest pos = LTok t s' -> t_kind t = TString ->
  exists p q r, (q = SQ \/ q = DQ) /\ string TString line p q r = LTok t s'.
Proof.
  intros H Hk. unfold dispatch in H. destruct rest as [|c r]; [apply ltok_inj in H as [<- _]; discriminate|].
  destruct (N.eqb c NL).
  { destruct r; apply ltok_inj in H as [<- _]; discriminate. }
  destruct (N.eqb c SQ || N.eqb c DQ)%bool eqn:Eq.
  { apply orb_true_iff in Eq. rewrite !N.eqb_eq in Eq. eauto. }
  assert (Id : forall p r0, identifier U line p r0 = LTok t s' -> False).
  { intros p r0 Hi. unfold identifier in Hi. destruct (eat _ r0 p) as [[w r1] p1]. apply ltok_inj in Hi as [<- _].
    cbn [t_kind] in Hk. destruct (lookup_tk w keywords) eqn:E; [|discriminate]. apply lookup_in, keywords_shape in E.
    destruct E as (_ & _ & _ & E & _). contradiction. }
  destruct (is_alpha U c || N.eqb c USC)%bool.
  { destruct r as [|q r]; [now apply Id in H|].
    destruct (N.eqb c 102 && (N.eqb q DQ || N.eqb q SQ))%bool; [|now apply Id in H].
    exfalso. unfold string in H. destruct (string_loop _ _ _ _ _); try discriminate.
    apply ltok_inj in H as [<- _]. discriminate. }
  destruct (is_digit U c).
  { exfalso. rewrite number_eq in H. destruct (eat (is_digit U) (c :: r) pos) as [[w r0] p].
    assert (Hi : intres U line w r0 p = LTok t s' -> False).
    { unfold intres. destruct (py_int U w); [|discriminate]. intros E. apply ltok_inj in E as [<- _]. discriminate. }
    destruct r0 as [|x [|y r0]]; auto. destruct (N.eqb x DOTC && is_digit U y)%bool; auto.
    destruct (eat (is_digit U) (y :: r0) (adv (y :: r0) p)) as [[w2 r2] p2]. destruct (float_ok U w w2); [|discriminate].
    apply ltok_inj in H as [<- _]. discriminate. }
  exfalso. unfold common_toks in H.
  assert (One : match from_char [c] with
    | Some k => LTok (mkTok k (LText [c]) line pos) (mkLex line (adv r pos) r)
    | None => LErr InvalidSymbol line (adv r pos) end = LTok t s' -> False).
  { destruct (from_char [c]) as [k|] eqn:E; [|discriminate]. apply lookup_in, symbols_shape in E. intros E'.
    apply ltok_inj in E' as [<- _]. cbn in Hk. destruct E as (_ & _ & _ & E & _). contradiction. }
  destruct (is_ambiguous c); auto. destruct r as [|d r]; auto.
  destruct (from_char [c; d]) as [k|] eqn:E; auto. apply lookup_in, symbols_shape in E.
  apply ltok_inj in H as [<- _]. cbn in Hk. destruct E as (_ & _ & _ & E & _). contradiction.
Qed.

Lemma text_token_last U : forall fuel s ts e t q body, tokens U fuel s = (ts, e) -> In t ts ->
  t_kind t = TString -> t_lex t = LText (q :: body ++ [q]) -> last body 0%N <> BSL.
Proof.
  induction fuel as [|fuel IH]; intros s ts e t q body H Hin Hk Hl; cbn [tokens] in H.
  - injection H as <- <-. destruct Hin.
  - rewrite get_token_two in H. destruct (skip U (lx_rest s) (lx_pos s)) as [r p].
    destruct (dispatch U (lx_line s) r p) as [t0 s0| | |] eqn:Ed; try (injection H as <- <-; now destruct Hin).
    destruct (tk_eqb (t_kind t0) TEof); [injection H as <- <-; now destruct Hin|].
    destruct (tokens U fuel s0) as [ts0 e0] eqn:Et. injection H as <- <-. destruct Hin as [->|Hin]; [|eauto].
    destruct (text_token_source _ _ _ _ _ _ Ed Hk) as (p0 & q0 & r0 & Hq & Hs). unfold string in Hs.
    destruct (string_loop (S (List.length r0)) q0 [] r0 (adv r0 p0)) as [b r' p'| |] eqn:El; try discriminate.
    apply ltok_inj in Hs as [<- <-]. cbn in Hl. injection Hl as <- Hl. apply app_inj_tail in Hl as [<- _].
    refine (string_loop_last q0 Hq _ _ _ _ _ _ _ _ El). discriminate.
Qed.
