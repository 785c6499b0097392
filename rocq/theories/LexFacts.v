From Verif Require Import Base Lexer Spec_Lex.
Local Open Scope Z_scope.

(** ** Loops *)
Definition stops_at (p : N -> bool) (r : text) : Prop :=
  match r with [] => True | c :: _ => p c = false end.

Lemma eat_spec p rest : forall pos w r pos', eat p rest pos = (w, r, pos') ->
  rest = w ++ r /\ forallb p w = true /\ stops_at p r.
Proof.
  induction rest as [|c rest IH]; intros pos w r pos' H; cbn in H.
  - injection H as <- <- <-. repeat split.
  - destruct (p c) eqn:E.
    + destruct (eat p rest (adv rest pos)) as [[w1 r1] p1] eqn:E1. injection H as <- <- <-.
      destruct (IH _ _ _ _ E1) as (-> & Hf & Hs). cbn. rewrite E, Hf. auto.
    + injection H as <- <- <-. cbn. auto.
Qed.

Lemma eat_app p w r : forall pos, forallb p w = true -> stops_at p r ->
  exists pos', eat p (w ++ r) pos = (w, r, pos').
Proof.
  induction w as [|c w IH]; intros pos Hf Hs; cbn in *.
  - destruct r as [|c r]; cbn in *; [eauto|]. rewrite Hs. eauto.
  - apply andb_true_iff in Hf as [-> Hf]. destruct (IH (adv (w ++ r) pos) Hf Hs) as [p' ->]. eauto.
Qed.

Lemma eat_len p rest pos w r pos' : eat p rest pos = (w, r, pos') ->
  List.length rest = (List.length w + List.length r)%nat.
Proof. intros H. destruct (eat_spec _ _ _ _ _ _ H) as (-> & _). now rewrite app_length. Qed.

(** ** Texts *)
Section Dec.
Variable q : N.
(** The decoder one would write. *)
Fixpoint dec (rest : text) : option (text * text) :=
  match rest with
  | [] => None
  | c :: r =>
      if N.eqb c q then Some ([], r)
      else if N.eqb c BSL then
        match r with
        | d :: r' =>
            if N.eqb d 110 then option_map (fun '(b, t) => (NL :: b, t)) (dec r')
            else if N.eqb d SQ then option_map (fun '(b, t) => (SQ :: b, t)) (dec r')
            else if N.eqb d DQ then option_map (fun '(b, t) => (DQ :: b, t)) (dec r')
            else option_map (fun '(b, t) => (BSL :: b, t)) (dec r)
        | [] => None
        end
      else option_map (fun '(b, t) => (c :: b, t)) (dec r)
  end.
End Dec.

Definition slip_free (s : text) : Prop := ~ slips s.

Lemma slip_free_app a b : slip_free (a ++ b) -> slip_free b.
Proof.
  intros H (a' & e & x & y & b' & -> & Hx). apply H.
  exists (a ++ a'), e, x, y, b'. now rewrite <- app_assoc.
Qed.
Lemma slip_free_cons c b : slip_free (c :: b) -> slip_free b.
Proof. apply (slip_free_app [c]). Qed.
Lemma slip_n x y b : slip_free (BSL :: 110%N :: x :: y :: b) -> y = SQ \/ y = DQ -> x = BSL.
Proof.
  intros H Hy. destruct (N.eq_dec x BSL) as [|Hx]; [assumption|]. exfalso. apply H.
  exists [], 110%N, x, y, b. cbn. auto.
Qed.
Lemma slip_s x b : slip_free (BSL :: SQ :: x :: DQ :: b) -> x = BSL.
Proof.
  intros H. destruct (N.eq_dec x BSL) as [|Hx]; [assumption|]. exfalso. apply H.
  exists [], SQ, x, DQ, b. cbn. auto.
Qed.

Definition esc3 res rest pos :=
  escape_seq DQ DQ (escape_seq SQ SQ (escape_seq 110 NL (false, res, rest, pos))).

Lemma dec_bsl_n q r : q = SQ \/ q = DQ -> dec q (BSL :: 110%N :: r) = option_map (fun '(b, t) => (NL :: b, t)) (dec q r).
Proof. intros [-> | ->]; reflexivity. Qed.
Lemma dec_bsl_s q r : q = SQ \/ q = DQ -> dec q (BSL :: SQ :: r) = option_map (fun '(b, t) => (SQ :: b, t)) (dec q r).
Proof. intros [-> | ->]; reflexivity. Qed.
Lemma dec_bsl_d q r : q = SQ \/ q = DQ -> dec q (BSL :: DQ :: r) = option_map (fun '(b, t) => (DQ :: b, t)) (dec q r).
Proof. intros [-> | ->]; reflexivity. Qed.

Definition prep (a : text) (o : option (text * text)) := option_map (fun '(b, t) => (a ++ b, t)) o.
Lemma prep_prep a b o : prep a (prep b o) = prep (a ++ b) o.
Proof. destruct o as [[x y]|]; cbn; [now rewrite app_assoc|reflexivity]. Qed.

(** The last test alone. *)
Lemma esc_d q hit res r pos : q = SQ \/ q = DQ -> (forall x b, r = x :: DQ :: b -> x = BSL) ->
  exists add r' pos', escape_seq DQ DQ (hit, res, r, pos) =
     ((hit || match add with [] => false | _ => true end)%bool, res ++ add, r', pos') /\
    dec q r = prep add (dec q r') /\ (List.length r' <= List.length r)%nat /\
    (exists p, r = p ++ r').
Proof.
  intros Hq Hx.
  destruct r as [|x [|y b]].
  - exists [], [], pos. cbn. rewrite app_nil_r, orb_false_r. repeat split; [lia|now exists []].
  - exists [], [x], pos. unfold escape_seq. rewrite app_nil_r, orb_false_r. split; [reflexivity|].
    split; [destruct (dec q [x]) as [[? ?]|]; reflexivity|]. split; [lia|now exists []].
  - unfold escape_seq. destruct (N.eqb_spec y DQ) as [->|Hy].
    + rewrite (Hx x b eq_refl) in *. exists [DQ], b, (adv b (adv (DQ :: b) pos)).
      rewrite orb_true_r. split; [reflexivity|]. rewrite dec_bsl_d by assumption.
      split; [reflexivity|]. split; [cbn; lia|now exists [BSL; DQ]].
    + exists [], (x :: y :: b), pos. rewrite app_nil_r, orb_false_r. split; [reflexivity|].
      split; [destruct (dec q (x :: y :: b)) as [[? ?]|]; reflexivity|]. split; [lia|now exists []].
Qed.

Lemma esc3_spec q res r pos : q = SQ \/ q = DQ -> slip_free (BSL :: r) ->
  (exists add r' pos', esc3 res (BSL :: r) pos = (true, res ++ add, r', pos') /\ add <> [] /\
     dec q (BSL :: r) = prep add (dec q r') /\ (List.length r' < S (List.length r))%nat /\
     (exists p, BSL :: r = p ++ r')) \/
  (exists res' rest' pos', esc3 res (BSL :: r) pos = (false, res', rest', pos') /\
     dec q (BSL :: r) = prep [BSL] (dec q r)).
Proof.
  intros Hq Hs. unfold esc3.
  destruct r as [|d r].
  { right. exists res, [BSL], pos. split; [reflexivity|]. destruct Hq as [-> | ->]; reflexivity. }
  destruct (N.eqb_spec d 110) as [->|Hn].
  { (* \n, then perhaps more *)
    left. change (escape_seq 110 NL (false, res, BSL :: 110%N :: r, pos)) with (true, res ++ [NL], r, adv r (adv (110%N :: r) pos)).
    assert (Hslip := Hs).
    assert (K : exists add r1 pos1, escape_seq SQ SQ (true, res ++ [NL], r, adv r (adv (110%N :: r) pos)) =
        (true, res ++ NL :: add, r1, pos1) /\ dec q r = prep add (dec q r1) /\
        (List.length r1 <= List.length r)%nat /\ (exists p, r = p ++ r1) /\
        (forall x b, r1 = x :: DQ :: b -> x = BSL)).
    { destruct r as [|x [|y b]].
      - exists [], [], (adv [] (adv [110%N] pos)). cbn. repeat split; try lia; [now exists []|discriminate].
      - exists [], [x], (adv [x] (adv [110%N; x] pos)). split; [reflexivity|].
        split; [destruct (dec q [x]) as [[? ?]|]; reflexivity|].
        repeat split; [lia|now exists []|discriminate].
      - unfold escape_seq at 1. destruct (N.eqb_spec y SQ) as [->|Hy].
        + assert (x = BSL) as -> by (eapply slip_n; [exact Hslip|auto]).
          exists [SQ], b, (adv b (adv (SQ :: b) (adv (BSL :: SQ :: b) (adv (110%N :: BSL :: SQ :: b) pos)))).
          split; [now rewrite <- app_assoc|]. rewrite dec_bsl_s by assumption. split; [reflexivity|].
          split; [cbn; lia|]. split; [now exists [BSL; SQ]|].
          intros x b' ->. apply slip_s with b'. now apply slip_free_cons, slip_free_cons in Hslip.
        + exists [], (x :: y :: b), (adv (x :: y :: b) (adv (110%N :: x :: y :: b) pos)).
          split; [reflexivity|].
          split; [destruct (dec q (x :: y :: b)) as [[? ?]|]; reflexivity|].
          repeat split; [lia|now exists []|].
          intros x' b' E. assert (y = DQ) by congruence. assert (x' = x) as -> by congruence. subst y.
          eapply slip_n; [exact Hslip|auto]. }
    destruct K as (add & r1 & pos1 & -> & Hd & Hl & (p & Hp) & Hx).
    destruct (esc_d q true (res ++ NL :: add) r1 pos1 Hq Hx) as (add2 & r2 & pos2 & E3 & Hd2 & Hl2 & (p2 & Hp2)).
    exists (NL :: add ++ add2), r2, pos2.
    split; [etransitivity; [exact E3|]; cbn [orb]; now rewrite <- app_assoc|]. split; [discriminate|].
    split; [rewrite dec_bsl_n, Hd, Hd2, prep_prep by assumption; destruct (dec q r2) as [[? ?]|]; reflexivity|].
    split; [cbn; lia|]. exists (BSL :: 110%N :: p ++ p2). rewrite Hp, Hp2. cbn. now rewrite <- app_assoc. }
  replace (escape_seq 110 NL (false, res, BSL :: d :: r, pos)) with (false, res, BSL :: d :: r, pos)
    by (unfold escape_seq; apply N.eqb_neq in Hn; now rewrite Hn).
  destruct (N.eqb_spec d SQ) as [->|Hsq].
  { left.
    replace (escape_seq SQ SQ (false, res, BSL :: SQ :: r, pos))
      with (true, res ++ [SQ], r, adv r (adv (SQ :: r) pos)) by reflexivity.
    destruct (esc_d q true (res ++ [SQ]) r (adv r (adv (SQ :: r) pos)) Hq) as (add2 & r2 & pos2 & E3 & Hd2 & Hl2 & (p2 & Hp2)).
    { intros x b ->. eapply slip_s; exact Hs. }
    exists (SQ :: add2), r2, pos2. split; [etransitivity; [exact E3|]; cbn [orb]; now rewrite <- app_assoc|]. split; [discriminate|].
    split; [rewrite dec_bsl_s, Hd2 by assumption; destruct (dec q r2) as [[? ?]|]; reflexivity|].
    split; [cbn; lia|]. exists (BSL :: SQ :: p2). now rewrite Hp2. }
  replace (escape_seq SQ SQ (false, res, BSL :: d :: r, pos)) with (false, res, BSL :: d :: r, pos)
    by (unfold escape_seq; apply N.eqb_neq in Hsq; now rewrite Hsq).
  destruct (N.eqb_spec d DQ) as [->|Hdq].
  { left. exists [DQ], r, (adv r (adv (DQ :: r) pos)). split; [reflexivity|]. split; [discriminate|].
    rewrite dec_bsl_d by assumption. split; [reflexivity|]. split; [cbn; lia|]. now exists [BSL; DQ]. }
  right. exists res, (BSL :: d :: r), pos.
  apply N.eqb_neq in Hn, Hsq, Hdq.
  split; [unfold escape_seq; now rewrite Hn, Hsq, Hdq|].
  change (dec q (BSL :: d :: r)) with
      (if N.eqb BSL q then Some ([], d :: r) else
       if N.eqb d 110 then option_map (fun '(b, t) => (NL :: b, t)) (dec q r)
       else if N.eqb d SQ then option_map (fun '(b, t) => (SQ :: b, t)) (dec q r)
       else if N.eqb d DQ then option_map (fun '(b, t) => (DQ :: b, t)) (dec q r)
       else option_map (fun '(b, t) => (BSL :: b, t)) (dec q (d :: r))).
  rewrite Hn, Hsq, Hdq. destruct Hq as [-> | ->]; reflexivity.
Qed.

Lemma string_loop_dec q : q = SQ \/ q = DQ -> forall fuel rest res pos,
  (List.length rest < fuel)%nat -> slip_free rest ->
  match dec q rest with
  | Some (b, r') => exists p, string_loop fuel q res rest pos = SDone (res ++ b) r' p
  | None => exists p, string_loop fuel q res rest pos = SErr p
  end.
Proof.
  intros Hq. induction fuel as [|fuel IH]; intros rest res pos Hl Hs; [lia|].
  destruct rest as [|c r]; [cbn; eauto|].
  cbn [string_loop]. destruct (N.eqb_spec c q) as [->|Hcq].
  { cbn [dec]. rewrite N.eqb_refl. rewrite app_nil_r. eauto. }
  destruct (N.eqb_spec c BSL) as [->|Hcb].
  - fold (esc3 res (BSL :: r) pos).
    destruct (esc3_spec q res r pos Hq Hs) as
      [(add & r' & pos' & -> & Hadd & -> & Hlen & (p & Hp)) | (res' & rest' & pos' & -> & ->)].
    + assert (Hs' : slip_free r') by (rewrite Hp in Hs; now apply slip_free_app in Hs).
      specialize (IH r' (res ++ add) pos' ltac:(cbn in Hl; lia) Hs').
      destruct (dec q r') as [[b t]|]; cbn [prep option_map]; [|assumption].
      now rewrite app_assoc.
    + specialize (IH r (res ++ [BSL]) (adv r pos) ltac:(cbn in Hl; lia) (slip_free_cons _ _ Hs)).
      destruct (dec q r) as [[b t]|]; cbn [prep option_map]; [|assumption].
      destruct IH as [p0 E]. exists p0. rewrite E. now rewrite <- app_assoc.
  - specialize (IH r (res ++ [c]) (adv r pos) ltac:(cbn in Hl; lia) (slip_free_cons _ _ Hs)).
    cbn [dec]. apply N.eqb_neq in Hcq, Hcb. rewrite ?Hcq, ?Hcb.
    destruct (dec q r) as [[b t]|]; cbn [option_map]; [|assumption].
    destruct IH as [p0 E]. exists p0. rewrite E. now rewrite <- app_assoc.
Qed.

Lemma quoted_dec q raw body rest : q = SQ \/ q = DQ -> quoted q raw body ->
  dec q (raw ++ q :: rest) = Some (body, rest).
Proof.
  intros Hq H. induction H as [|r b H IH|r b H IH|r b H IH|c r b H1 H2 H3 H IH|c r b Hc Hb H IH]; cbn [app].
  - cbn [dec]. now rewrite N.eqb_refl.
  - rewrite dec_bsl_n, IH by assumption. reflexivity.
  - rewrite dec_bsl_s, IH by assumption. reflexivity.
  - rewrite dec_bsl_d, IH by assumption. reflexivity.
  - cbn [app] in IH. change (dec q (BSL :: c :: r ++ q :: rest)) with
      (if N.eqb BSL q then Some ([], c :: r ++ q :: rest) else
       if N.eqb c 110 then option_map (fun '(b, t) => (NL :: b, t)) (dec q (r ++ q :: rest))
       else if N.eqb c SQ then option_map (fun '(b, t) => (SQ :: b, t)) (dec q (r ++ q :: rest))
       else if N.eqb c DQ then option_map (fun '(b, t) => (DQ :: b, t)) (dec q (r ++ q :: rest))
       else option_map (fun '(b, t) => (BSL :: b, t)) (dec q (c :: r ++ q :: rest))).
    rewrite IH. apply N.eqb_neq in H1, H2, H3. rewrite H1, H2, H3.
    destruct Hq as [-> | ->]; reflexivity.
  - cbn [dec]. apply N.eqb_neq in Hc, Hb. rewrite Hc, Hb, IH. reflexivity.
Qed.

Lemma dec_quoted q : q = SQ \/ q = DQ -> forall n rest body rest', (List.length rest < n)%nat ->
  dec q rest = Some (body, rest') -> exists raw, rest = raw ++ q :: rest' /\ quoted q raw body.
Proof.
  intros Hq. induction n as [|n IH]; intros rest body rest' Hl H; [lia|].
  destruct rest as [|c r]; [discriminate|]. cbn [dec] in H.
  destruct (N.eqb_spec c q) as [->|Hc].
  { injection H as <- <-. exists []. split; [reflexivity|constructor]. }
  destruct (N.eqb_spec c BSL) as [->|Hb].
  - destruct r as [|d r]; [discriminate|].
    destruct (N.eqb_spec d 110) as [->|H1].
    { destruct (dec q r) as [[b t]|] eqn:E; [|discriminate]. injection H as <- <-.
      destruct (IH r b t ltac:(cbn in Hl; lia) E) as (raw & -> & Hq').
      exists (BSL :: 110%N :: raw). split; [reflexivity|now constructor]. }
    destruct (N.eqb_spec d SQ) as [->|H2].
    { destruct (dec q r) as [[b t]|] eqn:E; [|discriminate]. injection H as <- <-.
      destruct (IH r b t ltac:(cbn in Hl; lia) E) as (raw & -> & Hq').
      exists (BSL :: SQ :: raw). split; [reflexivity|now constructor]. }
    destruct (N.eqb_spec d DQ) as [->|H3].
    { destruct (dec q r) as [[b t]|] eqn:E; [|discriminate]. injection H as <- <-.
      destruct (IH r b t ltac:(cbn in Hl; lia) E) as (raw & -> & Hq').
      exists (BSL :: DQ :: raw). split; [reflexivity|now constructor]. }
    destruct (dec q (d :: r)) as [[b t]|] eqn:E; [|discriminate]. injection H as <- <-.
    destruct (IH (d :: r) b t ltac:(cbn in Hl; cbn; lia) E) as (raw & Hr & Hq').
    destruct raw as [|d' raw].
    { exfalso. cbn in Hr. assert (d = q) by congruence. destruct Hq; congruence. }
    assert (d' = d) as -> by (cbn in Hr; congruence).
    exists (BSL :: d :: raw). split; [cbn in *; now rewrite Hr|now constructor].
  - destruct (dec q r) as [[b t]|] eqn:E; [|discriminate]. injection H as <- <-.
    destruct (IH r b t ltac:(cbn in Hl; lia) E) as (raw & -> & Hq').
    exists (c :: raw). split; [reflexivity|now constructor].
Qed.

(** Whatever the text, the loop ends, and what it leaves is a part of the input. *)
Lemma escape_len char seq s : let '(_, _, rest, _) := s in let '(_, _, rest', _) := escape_seq char seq s in
  (List.length rest' <= List.length rest)%nat.
Proof. destruct s as [[[h r] rest] p]. destruct rest as [|x [|y b]]; cbn; try lia. destruct (N.eqb y char); cbn; lia. Qed.

Lemma escape_hit char seq hit res rest pos hit' res' rest' pos' :
  escape_seq char seq (hit, res, rest, pos) = (hit', res', rest', pos') ->
  (hit' = hit /\ rest' = rest) \/ (hit' = true /\ (S (List.length rest') < List.length rest)%nat) .
Proof.
  destruct rest as [|x [|y b]]; cbn; intros H; try (injection H as <- <- <- <-; now left).
  destruct (N.eqb y char); injection H as <- <- <- <-; [right|left]; split; auto; cbn; lia.
Qed.

Lemma string_loop_total q : forall fuel rest res pos, (List.length rest < fuel)%nat ->
  (exists b r p, string_loop fuel q res rest pos = SDone b r p /\ (List.length r < List.length rest)%nat) \/
  exists p, string_loop fuel q res rest pos = SErr p.
Proof.
  induction fuel as [|fuel IH]; intros rest res pos Hl; [lia|].
  destruct rest as [|c r]; [right; cbn; eauto|]. cbn [string_loop].
  destruct (N.eqb c q); [left; do 3 eexists; split; [reflexivity|cbn; lia]|].
  cbn in Hl.
  assert (Lift : forall res' pos', (exists b r0 p, string_loop fuel q res' r pos' = SDone b r0 p /\ (List.length r0 < List.length (c :: r))%nat) \/
     exists p, string_loop fuel q res' r pos' = SErr p).
  { intros res' pos'. destruct (IH r res' pos' ltac:(lia)) as [(b & r0 & p & E & L)|E]; [left|now right].
    exists b, r0, p. split; [exact E|cbn; lia]. }
  destruct (N.eqb c BSL); [|apply Lift].
  match goal with |- context[escape_seq 110 NL ?s] => destruct (escape_seq 110 NL s) as [[[h1 res1] rest1] pos1] eqn:E1 end.
  match goal with |- context[escape_seq SQ SQ ?s] => destruct (escape_seq SQ SQ s) as [[[h2 res2] rest2] pos2] eqn:E2 end.
  match goal with |- context[escape_seq DQ DQ ?s] => destruct (escape_seq DQ DQ s) as [[[h3 res3] rest3] pos3] eqn:E3 end.
  destruct h3; [|apply Lift].
  apply escape_hit in E1, E2, E3.
  assert (L : (List.length rest3 < List.length (c :: r))%nat).
  { destruct E1 as [[-> ->]|[_ L1]], E2 as [[-> ->]|[_ L2]], E3 as [[? ->]|[_ L3]]; try discriminate; cbn in *; lia. }
  cbn in L.
  destruct (IH rest3 res3 pos3 ltac:(lia)) as [(b & r0 & p & E & L')|E]; [left|now right].
  exists b, r0, p. split; [exact E|cbn; lia].
Qed.

(** ** [get_token] in two steps *)
Section Tok.
Variable U : uni.
Hypothesis HU : python_tables U.

Definition skip (rest : text) (pos : Z) : text * Z :=
  let '(rest, pos) :=
    match rest with
    | c :: _ => if N.eqb c HASH then comment rest pos else (rest, pos)
    | [] => (rest, pos)
    end in
  match rest with
  | c :: _ => if negb (N.eqb c NL) && is_space U c then whitespace U rest pos else (rest, pos)
  | [] => (rest, pos)
  end.

Definition dispatch (line : Z) (rest : text) (pos : Z) : lexres :=
  match rest with
  | [] => LTok (mkTok TEof (LText []) line pos) (mkLex line pos [])
  | c :: r =>
      if N.eqb c NL then
        match r with
        | [] => LTok (mkTok TEof (LText []) line (pos - 1)) (mkLex line pos [])
        | _ :: _ => LTok (mkTok TNewline (LText (txt "\n")) line pos) (mkLex (line + 1) (adv r 1) r)
        end
      else if N.eqb c SQ || N.eqb c DQ then string TString line pos c r
      else if is_alpha U c || N.eqb c USC then
        match r with
        | q :: r' =>
            if N.eqb c 102 && (N.eqb q DQ || N.eqb q SQ)
            then string TFormat line (adv r pos) q r'
            else identifier U line pos rest
        | [] => identifier U line pos rest
        end
      else if is_digit U c then number U line pos rest
      else common_toks line pos c r
  end.

Lemma get_token_two s : get_token U s = let '(r, p) := skip (lx_rest s) (lx_pos s) in dispatch (lx_line s) r p.
Proof.
  unfold get_token, skip. destruct s as [l p rest]. cbn [lx_rest lx_pos lx_line].
  destruct rest as [|c r]; [reflexivity|]. destruct (N.eqb c HASH); [|reflexivity].
  destruct (comment (c :: r) p) as [r1 p1]. destruct r1; reflexivity.
Qed.

(** *** Blanks and comments *)
Definition solid (r : text) : Prop :=
  match r with [] => True | c :: _ => ~ blank U c /\ c <> HASH end.

Lemma blankb c : (negb (N.eqb c NL) && is_space U c)%bool = true <-> blank U c.
Proof.
  unfold blank. rewrite andb_true_iff, negb_true_iff, N.eqb_neq. reflexivity.
Qed.

Lemma not_in_nl w : forallb (fun c => negb (N.eqb c NL)) w = true <-> ~ In NL w.
Proof.
  rewrite forallb_forall. split.
  - intros H Hin. specialize (H _ Hin). now rewrite N.eqb_refl in H.
  - intros H x Hx. apply negb_true_iff, N.eqb_neq. intros ->. auto.
Qed.

Lemma comment_spec rest pos r p : comment rest pos = (r, p) ->
  exists c, rest = c ++ r /\ ~ In NL c /\ (r = [] \/ exists r', r = NL :: r').
Proof.
  unfold comment. destruct (eat _ rest pos) as [[w r0] p0] eqn:E. intros H. injection H as <- <-.
  destruct (eat_spec _ _ _ _ _ _ E) as (-> & Hf & Hs). exists w. split; [reflexivity|].
  split; [now apply not_in_nl|]. destruct r0 as [|c r0]; [now left|right]. cbn in Hs.
  apply negb_false_iff, N.eqb_eq in Hs. subst c. eauto.
Qed.

Lemma comment_app c r pos : ~ In NL c -> (r = [] \/ exists r', r = NL :: r') ->
  exists p, comment (c ++ r) pos = (r, p).
Proof.
  intros Hc Hr. unfold comment.
  destruct (eat_app (fun c => negb (N.eqb c NL)) c r pos) as [p ->].
  - now apply not_in_nl.
  - destruct Hr as [-> | [r' ->]]; cbn; auto.
  - eauto.
Qed.

Lemma forall_blank w : forallb (fun c => negb (N.eqb c NL) && is_space U c) w = true <-> Forall (blank U) w.
Proof.
  rewrite forallb_forall, Forall_forall. split; intros H x Hx; apply blankb; auto.
Qed.

Lemma whitespace_spec rest pos r p : whitespace U rest pos = (r, p) ->
  exists g, rest = g ++ r /\ gap U g r /\ solid r.
Proof.
  unfold whitespace. destruct (eat _ rest pos) as [[w r0] p0] eqn:E.
  destruct (eat_spec _ _ _ _ _ _ E) as (-> & Hf & Hs). apply forall_blank in Hf.
  destruct r0 as [|c r0].
  - intros H. injection H as <- <-. exists w. split; [reflexivity|]. split; [now constructor|exact I].
  - cbn in Hs. assert (Hb : ~ blank U c) by (rewrite <- blankb, Hs; discriminate).
    destruct (N.eqb_spec c HASH) as [->|Hh].
    + intros H. destruct (comment_spec _ _ _ _ H) as (cc & Hcc & Hnl & Hr).
      destruct cc as [|h cc].
      { cbn in Hcc. subst r. destruct Hr as [|[? ?]]; discriminate. }
      assert (h = HASH) as -> by (cbn in Hcc; congruence).
      exists (w ++ HASH :: cc). split; [now rewrite Hcc, <- app_assoc|].
      split; [constructor; auto; intros Hin; apply Hnl; now right|].
      destruct Hr as [-> | [r' ->]]; [exact I|]. split; [intros [? ?]; congruence|discriminate].
    + intros H. injection H as <- <-. exists w. split; [reflexivity|]. split; [now constructor|now split].
Qed.

Lemma skip_spec rest pos r p : skip rest pos = (r, p) ->
  exists g, rest = g ++ r /\ gap U g r /\ solid r.
Proof.
  unfold skip. destruct rest as [|c rest].
  { intros H. injection H as <- <-. exists []. split; [reflexivity|]. split; [now constructor|exact I]. }
  destruct (N.eqb_spec c HASH) as [->|Hh].
  - destruct (comment (HASH :: rest) pos) as [r1 p1] eqn:E.
    destruct (comment_spec _ _ _ _ E) as (cc & Hcc & Hnl & Hr). intros H.
    destruct cc as [|h cc].
    { cbn in Hcc. subst r1. destruct Hr as [|[? ?]]; discriminate. }
    assert (h = HASH) as -> by (cbn in Hcc; congruence).
    assert (G : gap U (HASH :: cc) r1).
    { apply (gap_comment U []); [constructor|intros Hin; apply Hnl; now right|exact Hr]. }
    destruct Hr as [-> | [r' ->]].
    + injection H as <- <-. exists (HASH :: cc). split; [assumption|]. split; [assumption|exact I].
    + cbn in H. injection H as <- <-. exists (HASH :: cc). split; [assumption|]. split; [assumption|].
      split; [intros [? ?]; congruence|discriminate].
  - destruct (negb (N.eqb c NL) && is_space U c)%bool eqn:E.
    + apply whitespace_spec.
    + intros H. injection H as <- <-. exists []. split; [reflexivity|]. split; [now constructor|].
      split; [rewrite <- blankb, E; discriminate|assumption].
Qed.

Lemma space_not_hash : is_space U HASH = false. Proof. reflexivity. Qed.

Lemma solid_stops r : solid r -> stops_at (fun c => negb (N.eqb c NL) && is_space U c) r.
Proof.
  destruct r as [|c r]; [trivial|]. intros [H _]. cbn. rewrite <- blankb in H. now apply not_true_is_false in H.
Qed.

Lemma skip_app g r pos : gap U g r -> solid r -> exists p, skip (g ++ r) pos = (r, p).
Proof.
  intros Hg Hr. unfold skip. destruct Hg as [b rest Hb | b c rest Hb Hc Hrest].
  - destruct b as [|x b]; cbn [app].
    + destruct rest as [|c rest]; [eauto|]. destruct Hr as [H1 H2]. apply N.eqb_neq in H2. rewrite H2.
      rewrite <- blankb in H1. apply not_true_is_false in H1. rewrite H1. eauto.
    + pose proof (Forall_inv Hb) as Hx.
      assert (x <> HASH) as Hh by (intros ->; destruct Hx as [_ Hx]; now rewrite space_not_hash in Hx).
      apply N.eqb_neq in Hh. rewrite Hh. apply blankb in Hx. rewrite Hx.
      unfold whitespace. change (x :: b ++ rest) with ((x :: b) ++ rest).
      apply forall_blank in Hb. destruct (eat_app _ _ rest pos Hb (solid_stops _ Hr)) as [p ->].
      destruct rest as [|c rest]; [eauto|]. destruct Hr as [_ H2]. apply N.eqb_neq in H2. rewrite H2. eauto.
  - assert (Sh : stops_at (fun c => negb (N.eqb c NL) && is_space U c) (HASH :: c ++ rest)).
    { reflexivity. }
    assert (Hc' : ~ In NL (HASH :: c)) by (intros [H|H]; [discriminate|auto]).
    destruct b as [|x b]; cbn [app].
    + rewrite N.eqb_refl. change (HASH :: c ++ rest) with ((HASH :: c) ++ rest).
      destruct (comment_app _ _ pos Hc' Hrest) as [p ->].
      destruct rest as [|d rest]; [eauto|]. destruct Hrest as [|[r' H]]; [discriminate|].
      assert (d = NL) as -> by congruence. cbn. eauto.
    + pose proof (Forall_inv Hb) as Hx.
      assert (x <> HASH) as Hh by (intros ->; destruct Hx as [_ Hx]; now rewrite space_not_hash in Hx).
      apply N.eqb_neq in Hh. rewrite Hh. apply blankb in Hx. rewrite Hx.
      unfold whitespace. rewrite <- app_assoc. change (x :: b ++ (HASH :: c) ++ rest) with ((x :: b) ++ HASH :: c ++ rest).
      apply forall_blank in Hb. destruct (eat_app _ _ (HASH :: c ++ rest) pos Hb Sh) as [p ->].
      rewrite N.eqb_refl. change (HASH :: c ++ rest) with ((HASH :: c) ++ rest).
      apply comment_app; assumption.
Qed.

(** *** Tables *)
Lemma text_eqb_eq a b : text_eqb a b = true <-> a = b.
Proof. unfold text_eqb. destruct (list_eq_dec N.eq_dec a b); split; congruence. Qed.

Lemma lookup_in t l k : lookup_tk t l = Some k -> In (t, k) l.
Proof.
  induction l as [|[a b] l IH]; cbn; [discriminate|].
  destruct (text_eqb a t) eqn:E; [|auto]. apply text_eqb_eq in E. intros H. left. congruence.
Qed.
Lemma lookup_none t l : lookup_tk t l = None -> forall k, ~ In (t, k) l.
Proof.
  induction l as [|[a b] l IH]; cbn; [auto|].
  destruct (text_eqb a t) eqn:E; [discriminate|]. intros H k [Hk|Hk]; [|eapply IH; eauto].
  assert (a = t) as -> by congruence. rewrite (proj2 (text_eqb_eq t t) eq_refl) in E. discriminate.
Qed.
Lemma symbols_lookup w k : In (w, k) symbols -> from_char w = Some k.
Proof.
  intros H.
  assert (K : forallb (fun p => match from_char (fst p) with Some k => tk_eqb k (snd p) | None => false end) symbols = true)
    by (vm_compute; reflexivity).
  rewrite forallb_forall in K. specialize (K _ H). cbn [fst snd] in K. destruct (from_char w) as [k'|]; [|discriminate].
  unfold tk_eqb in K. destruct (tk_eq_dec k' k); congruence.
Qed.
Lemma keywords_lookup w k : In (w, k) keywords -> lookup_tk w keywords = Some k.
Proof.
  intros H.
  assert (K : forallb (fun p => match lookup_tk (fst p) keywords with Some k => tk_eqb k (snd p) | None => false end) keywords = true)
    by (vm_compute; reflexivity).
  rewrite forallb_forall in K. specialize (K _ H). cbn [fst snd] in K. destruct (lookup_tk w keywords) as [k'|]; [|discriminate].
  unfold tk_eqb in K. destruct (tk_eq_dec k' k); congruence.
Qed.

(** A symbol's shape, by inspection of the table. *)
Definition symc (c : N) : bool :=
  (c <? 128)%N && negb (ascii_space c) && negb (N.eqb c HASH) && negb (N.eqb c NL) && negb (N.eqb c SQ)
  && negb (N.eqb c DQ) && negb (ascii_alpha c) && negb (N.eqb c USC) && negb (ascii_digit c).
Lemma symbols_shape w k : In (w, k) symbols ->
  k <> TEof /\ k <> TInteger /\ k <> TReal /\ k <> TString /\ k <> TFormat /\
  ((exists c, w = [c] /\ symc c = true) \/ (exists c d, w = [c; d] /\ symc c = true /\ is_ambiguous c = true)).
Proof.
  intros H.
  assert (K : forallb (fun p => negb (existsb (tk_eqb (snd p)) [TEof; TInteger; TReal; TString; TFormat]) &&
     match fst p with [c] => symc c | [c; _] => symc c && is_ambiguous c | _ => false end)%bool symbols = true)
    by (vm_compute; reflexivity).
  rewrite forallb_forall in K. specialize (K _ H). cbn [fst snd] in K.
  apply andb_true_iff in K as [K1 K2].
  assert (N5 : forall x, In x [TEof; TInteger; TReal; TString; TFormat] -> k <> x).
  { intros x Hx ->. apply negb_true_iff in K1. apply not_true_iff_false in K1. apply K1. apply existsb_exists.
    exists x. split; [assumption|]. unfold tk_eqb. destruct (tk_eq_dec x x); congruence. }
  do 5 (split; [apply N5; cbn; tauto|]).
  destruct w as [|c [|d [|? ?]]]; try discriminate; [left; eauto|right].
  apply andb_true_iff in K2 as [? ?]. eauto.
Qed.

Definition kwc (c : N) : bool := (c <? 128)%N && ascii_alpha c.
Lemma keywords_shape w k : In (w, k) keywords ->
  k <> TEof /\ k <> TInteger /\ k <> TReal /\ k <> TString /\ k <> TFormat /\ k <> TIdent /\
  w <> [] /\ forallb kwc w = true /\ w <> [102%N].
Proof.
  intros H.
  assert (K : forallb (fun p => negb (existsb (tk_eqb (snd p)) [TEof; TInteger; TReal; TString; TFormat; TIdent]) &&
     match fst p with [] => false | _ => forallb kwc (fst p) && negb (text_eqb (fst p) [102%N]) end)%bool keywords = true)
    by (vm_compute; reflexivity).
  rewrite forallb_forall in K. specialize (K _ H). cbn [fst snd] in K.
  apply andb_true_iff in K as [K1 K2].
  assert (N5 : forall x, In x [TEof; TInteger; TReal; TString; TFormat; TIdent] -> k <> x).
  { intros x Hx ->. apply negb_true_iff in K1. apply not_true_iff_false in K1. apply K1. apply existsb_exists.
    exists x. split; [assumption|]. unfold tk_eqb. destruct (tk_eq_dec x x); congruence. }
  do 6 (split; [apply N5; cbn; tauto|]).
  destruct w as [|c w]; [discriminate|]. split; [discriminate|]. apply andb_true_iff in K2 as [? K2].
  split; [assumption|]. intros E. rewrite E in K2. discriminate.
Qed.

(** *** Character classes *)
Lemma alpha_facts c : is_alpha U c = true ->
  c <> NL /\ c <> SQ /\ c <> DQ /\ c <> HASH /\ is_digit U c = false /\ is_space U c = false /\ is_alnum U c = true.
Proof.
  unfold is_alpha, is_digit, is_space, is_alnum. destruct (N.ltb_spec c 128) as [L|L].
  - intros H. rewrite H. unfold ascii_alpha, ascii_digit, ascii_space, between, NL, SQ, DQ, HASH in *. lia.
  - intros H. destruct (HU c L) as [H1 H2]. destruct (H2 H) as [-> ->].
    destruct (u_space U c) eqn:E; [destruct (H1 eq_refl); congruence|].
    unfold NL, SQ, DQ, HASH. repeat split; try lia.
Qed.
Lemma digit_facts c : is_digit U c = true ->
  c <> NL /\ c <> SQ /\ c <> DQ /\ c <> HASH /\ c <> USC /\ is_alpha U c = false /\ is_space U c = false.
Proof.
  unfold is_alpha, is_digit, is_space. destruct (N.ltb_spec c 128) as [L|L].
  - unfold ascii_alpha, ascii_digit, ascii_space, between, NL, SQ, DQ, HASH, USC. lia.
  - intros H. destruct (HU c L) as [H1 H2].
    destruct (u_alpha U c) eqn:E; [destruct (H2 eq_refl); congruence|].
    destruct (u_space U c) eqn:E'; [destruct (H1 eq_refl); congruence|].
    unfold NL, SQ, DQ, HASH, USC. repeat split; lia.
Qed.
Lemma usc_facts : is_space U USC = false /\ is_digit U USC = false /\ is_alpha U USC = false.
Proof. repeat split. Qed.
Lemma symc_facts c : symc c = true ->
  c <> NL /\ c <> SQ /\ c <> DQ /\ c <> HASH /\ c <> USC /\ is_alpha U c = false /\ is_digit U c = false /\ is_space U c = false.
Proof.
  unfold symc, is_alpha, is_digit, is_space. destruct (N.ltb_spec c 128) as [L|L]; [|discriminate].
  unfold ascii_alpha, ascii_digit, ascii_space, between, NL, SQ, DQ, HASH, USC. lia.
Qed.
Lemma kwc_facts c : kwc c = true -> is_alpha U c = true /\ is_alnum U c = true.
Proof. unfold kwc, is_alpha, is_alnum. destruct (c <? 128)%N; [|discriminate]. cbn. intros ->. auto. Qed.

Lemma word_start_facts c : word_start U c ->
  c <> NL /\ c <> SQ /\ c <> DQ /\ c <> HASH /\ is_digit U c = false /\ is_space U c = false /\ word_char U c.
Proof.
  intros [H| ->].
  - destruct (alpha_facts c H) as (? & ? & ? & ? & ? & ? & ?). repeat split; auto. now left.
  - repeat split; try discriminate. now right.
Qed.
Lemma word_startb c : (is_alpha U c || N.eqb c USC)%bool = true <-> word_start U c.
Proof. unfold word_start. now rewrite orb_true_iff, N.eqb_eq. Qed.
Lemma word_charb c : (is_alnum U c || N.eqb c USC)%bool = true <-> word_char U c.
Proof. unfold word_char. now rewrite orb_true_iff, N.eqb_eq. Qed.
Lemma word_not_quote c : word_char U c -> c <> SQ /\ c <> DQ.
Proof. intros [H| ->]; [|split; discriminate]. split; intros ->; discriminate. Qed.
Lemma forall_word w : forallb (fun c => is_alnum U c || N.eqb c USC) w = true <-> Forall (word_char U) w.
Proof. rewrite forallb_forall, Forall_forall. split; intros H x Hx; apply word_charb; auto. Qed.

(** *** Numbers *)
Lemma digits_val_spec w : forall acc z, digits_val U acc w = Some z <->
  exists ds, Forall2 (fun c d => digit_val U c = Some d) w ds /\ z = fold_left (fun a d => a * 10 + d) ds acc.
Proof.
  induction w as [|c w IH]; intros acc z; cbn [digits_val].
  - split.
    + intros H. injection H as <-. exists []. split; [constructor|reflexivity].
    + intros (ds & H & ->). inversion H. reflexivity.
  - destruct (digit_val U c) as [d|] eqn:E.
    + rewrite IH. split.
      * intros (ds & H & ->). exists (d :: ds). split; [now constructor|reflexivity].
      * intros (ds & H & ->). inversion H as [|? d' ? ds' H1 H2 E1 E2]. subst.
        assert (d' = d) as -> by congruence. exists ds'. auto.
    + split; [discriminate|]. intros (ds & H & _). inversion H; congruence.
Qed.

Lemma digits_split w ds : digits U w ds <->
  forallb (is_digit U) w = true /\ Forall2 (fun c d => digit_val U c = Some d) w ds.
Proof.
  unfold digits. split.
  - intros H. induction H as [|c d w ds [H1 H2] H IH]; [split; [reflexivity|constructor]|].
    destruct IH as [A B]. cbn. rewrite H1, A. split; [reflexivity|now constructor].
  - intros [A B]. revert A. induction B as [|c d w ds H B IH]; cbn; intros A; constructor.
    + apply andb_true_iff in A as [A1 A2]. auto.
    + apply andb_true_iff in A as [A1 A2]. auto.
Qed.

Lemma py_int_spec w z : forallb (is_digit U) w = true ->
  (py_int U w = Some z <-> within_limit U w /\ exists ds, digits U w ds /\ z = decimal ds).
Proof.
  intros Hw. unfold py_int, within_limit, decimal. destruct (u_limit U) as [m|].
  - destruct (Nat.ltb_spec m (List.length w)).
    + split; [discriminate|]. intros [? _]. lia.
    + rewrite digits_val_spec. split.
      * intros (ds & A & B). split; [lia|]. exists ds. split; [now apply digits_split|assumption].
      * intros (_ & ds & A & B). exists ds. split; [now apply digits_split in A as [_ A]|assumption].
  - rewrite digits_val_spec. split.
    + intros (ds & A & B). split; [trivial|]. exists ds. split; [now apply digits_split|assumption].
    + intros (_ & ds & A & B). exists ds. split; [now apply digits_split in A as [_ A]|assumption].
Qed.

Lemma float_ok_spec a b : forallb (is_digit U) a = true -> forallb (is_digit U) b = true ->
  (float_ok U a b = true <-> (exists da, digits U a da) /\ exists db, digits U b db).
Proof.
  intros Ha Hb. unfold float_ok. split.
  - destruct (digits_val U 0 a) as [x|] eqn:E1; [|discriminate]. destruct (digits_val U 0 b) as [y|] eqn:E2; [|discriminate].
    apply digits_val_spec in E1 as (da & H1 & _). apply digits_val_spec in E2 as (db & H2 & _). intros _.
    split; eexists; apply digits_split; eauto.
  - intros [[da H1] [db H2]]. apply digits_split in H1 as [_ H1]. apply digits_split in H2 as [_ H2].
    rewrite (proj2 (digits_val_spec a 0 _)) by (exists da; split; [exact H1|reflexivity]).
    rewrite (proj2 (digits_val_spec b 0 _)) by (exists db; split; [exact H2|reflexivity]). reflexivity.
Qed.

(** [number] with its four copies of the integer case folded. *)
Definition intres line (w r : text) p : lexres :=
  match py_int U w with
  | Some z => LTok (mkTok TInteger (LInt z) line (p - (Z.of_nat (List.length w) + 1))) (mkLex line p r)
  | None => LCrash
  end.
Lemma number_eq line pos rest :
  number U line pos rest =
  let '(w, r, p) := eat (is_digit U) rest pos in
  match r with
  | c :: ((d :: _) as r1) =>
      if (N.eqb c DOTC && is_digit U d)%bool then
        let '(w2, r2, p2) := eat (is_digit U) r1 (adv r1 p) in
        if float_ok U w w2
        then LTok (mkTok TReal (LReal (w ++ DOTC :: w2)) line (p2 - (Z.of_nat (List.length (w ++ DOTC :: w2)) + 1))) (mkLex line p2 r2)
        else LCrash
      else intres line w r p
  | _ => intres line w r p
  end.
Proof.
  unfold number, intres. destruct (eat (is_digit U) rest pos) as [[w r] p].
  destruct r as [|c [|d r]]; try reflexivity.
  - destruct (N.eqb c DOTC); reflexivity.
  - destruct (N.eqb c DOTC); cbn [andb]; [|reflexivity]. destruct (is_digit U d); reflexivity.
Qed.

(** *** One token *)
Definition steps (line : Z) (w : text) : Z := if text_eqb w [NL] then line + 1 else line.
Definition gives (line : Z) (k : tk) (v : lexeme) (w rest : text) (res : lexres) : Prop :=
  exists t s', res = LTok t s' /\ t_kind t = k /\ t_lex t = v /\ t_line t = line /\
    lx_rest s' = rest /\ lx_line s' = steps line w.

Lemma steps_not line w c r : w = c :: r -> c <> NL -> steps line w = line.
Proof. intros -> H. unfold steps. destruct (text_eqb (c :: r) [NL]) eqn:E; [|reflexivity]. apply text_eqb_eq in E. congruence. Qed.

Lemma spells_head k v w : spells U k v w -> k <> TEof /\ exists c r, w = c :: r /\ ~ blank U c /\ c <> HASH.
Proof.
  intros H.
  assert (F : forall c, is_space U c = false -> ~ blank U c) by (intros c Hc [_ Hb]; congruence).
  destruct H as [|k w H|k w H|c w H1 H2 H3|w ds H1 H2 H3|a b da db H1 H2 H3 H4|q raw body H1 H2|q raw body H1 H2].
  - split; [discriminate|]. exists NL, []. split; [reflexivity|]. split; [intros [? _]; congruence|discriminate].
  - destruct (symbols_shape w k H) as (? & _ & _ & _ & _ & [(c & -> & Hc)|(c & d & -> & Hc & _)]);
      (split; [assumption|]); destruct (symc_facts c Hc) as (? & ? & ? & ? & ? & ? & ? & ?); eauto 8.
  - destruct (keywords_shape w k H) as (? & _ & _ & _ & _ & _ & Hn & Hf & _). split; [assumption|].
    destruct w as [|c w]; [congruence|]. cbn in Hf. apply andb_true_iff in Hf as [Hf _].
    destruct (kwc_facts c Hf) as [Ha _]. destruct (alpha_facts c Ha) as (? & ? & ? & ? & ? & ? & ?). eauto 8.
  - split; [discriminate|]. destruct (word_start_facts c H1) as (? & ? & ? & ? & ? & ? & ?). eauto 8.
  - split; [discriminate|]. destruct H2 as [|c d w ds [Hd _] _]; [congruence|].
    destruct (digit_facts c Hd) as (? & ? & ? & ? & ? & ? & ?). eauto 8.
  - split; [discriminate|]. destruct H3 as [|c d w ds [Hd _] _]; [congruence|].
    destruct (digit_facts c Hd) as (? & ? & ? & ? & ? & ? & ?). exists c, (w ++ DOTC :: b). cbn [app]. auto 8.
  - split; [discriminate|]. exists q, (raw ++ [q]). split; [reflexivity|].
    destruct H1 as [-> | ->]; (split; [apply F; reflexivity|discriminate]).
  - split; [discriminate|]. exists 102%N, (q :: raw ++ [q]). split; [reflexivity|].
    split; [apply F; reflexivity|discriminate].
Qed.

Lemma neqb a b : a <> b -> N.eqb a b = false.
Proof. apply N.eqb_neq. Qed.

Lemma dispatch_word line c w rest pos : word_start U c -> Forall (word_char U) w ->
  ~ head_is (word_char U) rest ->
  ~ (c :: w = [102%N] /\ head_is (fun c => c = SQ \/ c = DQ) rest) ->
  gives line (match lookup_tk (c :: w) keywords with Some k => k | None => TIdent end)
    (LText (c :: w)) (c :: w) rest (dispatch line ((c :: w) ++ rest) pos).
Proof.
  intros Hc Hw Hr Hf. destruct (word_start_facts c Hc) as (H1 & H2 & H3 & _ & H5 & _ & Hwc).
  assert (HI : gives line (match lookup_tk (c :: w) keywords with Some k => k | None => TIdent end)
    (LText (c :: w)) (c :: w) rest (identifier U line pos ((c :: w) ++ rest))).
  { unfold identifier.
    destruct (eat_app (fun c => is_alnum U c || N.eqb c USC) (c :: w) rest pos) as [p E].
    - apply forall_word. now constructor.
    - destruct rest as [|d rest]; [exact I|]. cbn. apply not_true_is_false. rewrite word_charb. intros Hd.
      apply Hr. exists d, rest. auto.
    - rewrite E. eexists _, _. split; [reflexivity|]. cbn [t_kind t_lex t_line lx_rest lx_line].
      repeat split. symmetry. eapply steps_not; [reflexivity|assumption]. }
  unfold dispatch. cbn [app]. rewrite (neqb c NL), (neqb c SQ), (neqb c DQ) by assumption. cbn [orb].
  apply word_startb in Hc. rewrite Hc.
  cbn [app] in HI. destruct (w ++ rest) as [|q r'] eqn:E; [exact HI|].
  destruct (N.eqb_spec c 102) as [->|]; [|exact HI]. cbn [andb].
  destruct (N.eqb q DQ || N.eqb q SQ)%bool eqn:Eq; [|exact HI]. exfalso.
  apply orb_true_iff in Eq. rewrite !N.eqb_eq in Eq.
  destruct w as [|x w].
  - cbn in E. apply Hf. split; [reflexivity|]. exists q, r'. tauto.
  - cbn in E. assert (x = q) as -> by congruence. pose proof (Forall_inv Hw) as Hx.
    apply word_not_quote in Hx. tauto.
Qed.

Lemma dispatch_string kind line q raw body rest pos : q = SQ \/ q = DQ -> quoted q raw body ->
  slip_free ((raw ++ [q]) ++ rest) -> forall w, steps line w = line ->
  gives line kind (LText (q :: body ++ [q])) w rest (string kind line pos q ((raw ++ [q]) ++ rest)).
Proof.
  intros Hq Hd Hs w Hw. unfold string. rewrite <- app_assoc in *. cbn [app] in *.
  pose proof (string_loop_dec q Hq (S (List.length (raw ++ q :: rest))) (raw ++ q :: rest) []
     (adv (raw ++ q :: rest) pos) ltac:(lia) Hs) as H.
  rewrite (quoted_dec q raw body rest Hq Hd) in H. destruct H as [p ->].
  eexists _, _. split; [reflexivity|]. cbn [t_kind t_lex t_line lx_rest lx_line]. auto.
Qed.

Lemma dispatch_number line k v w rest pos : spells U k v w -> stops U k w rest -> k = TInteger \/ k = TReal ->
  gives line k v w rest (dispatch line (w ++ rest) pos).
Proof.
  intros H Hst Hk.
  assert (G : forall c w', is_digit U c = true -> dispatch line (c :: w') pos = number U line pos (c :: w')).
  { intros c w' Hc. destruct (digit_facts c Hc) as (H1 & H2 & H3 & H4 & H5 & H6 & H7).
    unfold dispatch. rewrite (neqb c NL), (neqb c SQ), (neqb c DQ), (neqb c USC), H6, Hc by assumption. reflexivity. }
  destruct H as [|k w H|k w H|c w H1 H2 H3|w ds H1 H2 H3|a b da db H1 H2 H3 H4|q raw body H1 H2|q raw body H1 H2];
    try (destruct Hk; discriminate).
  - exfalso. destruct (symbols_shape w k H) as (? & ? & ? & _). destruct Hk; contradiction.
  - exfalso. destruct (keywords_shape w k H) as (? & ? & ? & _). destruct Hk; contradiction.
  - destruct Hst as [S1 S2]. pose proof (proj1 (digits_split w ds) H2) as [Hd _].
    destruct w as [|c w]; [congruence|].
    assert (Hc : is_digit U c = true) by (cbn in Hd; now apply andb_true_iff in Hd).
    destruct (digit_facts c Hc) as (Hnl & _).
    change ((c :: w) ++ rest) with (c :: w ++ rest). rewrite G by assumption.
    change (c :: w ++ rest) with ((c :: w) ++ rest). rewrite number_eq.
    destruct (eat_app (is_digit U) (c :: w) rest pos Hd) as [p ->].
    { destruct rest as [|d rest]; [exact I|]. cbn. apply not_true_is_false. intros Hx. apply S1. exists d, rest. auto. }
    assert (Hi : gives line TInteger (LInt (decimal ds)) (c :: w) rest (intres line (c :: w) rest p)).
    { unfold intres. rewrite (proj2 (py_int_spec (c :: w) (decimal ds) Hd)) by (split; [assumption|eauto]).
      eexists _, _. split; [reflexivity|]. cbn [t_kind t_lex t_line lx_rest lx_line]. repeat split.
      symmetry. eapply steps_not; [reflexivity|assumption]. }
    destruct rest as [|x [|y rest]]; try exact Hi.
    destruct (N.eqb_spec x DOTC) as [->|]; [|exact Hi]. destruct (is_digit U y) eqn:Ey; [|exact Hi].
    exfalso. apply S2. exists y, rest. auto.
  - cbn in Hst. pose proof (proj1 (digits_split a da) H3) as [Ha _]. pose proof (proj1 (digits_split b db) H4) as [Hb _].
    destruct a as [|c a]; [congruence|]. destruct b as [|e b]; [congruence|].
    assert (Hc : is_digit U c = true) by (cbn in Ha; now apply andb_true_iff in Ha).
    assert (He : is_digit U e = true) by (cbn in Hb; now apply andb_true_iff in Hb).
    destruct (digit_facts c Hc) as (Hnl & _).
    rewrite <- app_assoc. cbn [app]. rewrite G by assumption.
    change (c :: a ++ DOTC :: e :: b ++ rest) with ((c :: a) ++ DOTC :: (e :: b) ++ rest). rewrite number_eq.
    destruct (eat_app (is_digit U) (c :: a) (DOTC :: (e :: b) ++ rest) pos Ha) as [p ->]; [reflexivity|].
    cbn [app]. rewrite N.eqb_refl, He. cbn [andb].
    change (e :: b ++ rest) with ((e :: b) ++ rest).
    destruct (eat_app (is_digit U) (e :: b) rest (adv ((e :: b) ++ rest) p) Hb) as [p2 ->].
    { destruct rest as [|d rest]; [exact I|]. cbn. apply not_true_is_false. intros Hx. apply Hst. exists d, rest. auto. }
    rewrite (proj2 (float_ok_spec (c :: a) (e :: b) Ha Hb)) by eauto.
    eexists _, _. split; [reflexivity|]. cbn [t_kind t_lex t_line lx_rest lx_line app]. repeat split.
    symmetry. eapply steps_not; [reflexivity|assumption].
Qed.

Lemma stops_word k w rest : spells U k (LText w) w -> stops U k w rest ->
  k <> TInteger -> k <> TReal -> k <> TString -> k <> TFormat ->
  (w = [NL] -> rest <> []) /\
  (head_is (word_start U) w ->
     ~ head_is (word_char U) rest /\ ~ (w = [102%N] /\ head_is (fun c => c = SQ \/ c = DQ) rest)) /\
  (forall c d r k', w = [c] -> rest = d :: r -> ~ In ([c; d], k') symbols).
Proof. intros _ H N1 N2 N3 N4. destruct k; try exact H; congruence. Qed.

Lemma spells_step line k v w rest pos : spells U k v w -> stops U k w rest -> slip_free (w ++ rest) ->
  gives line k v w rest (dispatch line (w ++ rest) pos).
Proof.
  intros H Hst Hs. pose proof H as H0.
  destruct H as [|k w H|k w H|c w H1 H2 H3|w ds H1 H2 H3|a b da db H1 H2 H3 H4|q raw body H1 H2|q raw body H1 H2].
  - cbn in Hst. destruct Hst as [Hne _]. specialize (Hne eq_refl). cbn [app dispatch].
    change (N.eqb NL NL) with true. cbn iota. destruct rest as [|x rest]; [congruence|].
    eexists _, _. split; [reflexivity|]. cbn [t_kind t_lex t_line lx_rest lx_line]. auto.
  - destruct (symbols_shape w k H) as (N0 & N1 & N2 & N3 & N4 & Hw).
    apply (stops_word _ _ _ H0) in Hst; [|assumption..]. destruct Hst as (_ & _ & Hst).
    assert (G : forall c w', symc c = true -> dispatch line (c :: w') pos = common_toks line pos c w').
    { intros c w' Hc. destruct (symc_facts c Hc) as (E1 & E2 & E3 & E4 & E5 & E6 & E7 & E8).
      unfold dispatch. rewrite (neqb c NL), (neqb c SQ), (neqb c DQ), (neqb c USC), E6, E7 by assumption. reflexivity. }
    destruct Hw as [(c & -> & Hc)|(c & d & -> & Hc & Ha)].
    + cbn [app]. rewrite G by assumption. unfold common_toks. rewrite (symbols_lookup _ _ H).
      destruct (symc_facts c Hc) as (E1 & _).
      assert (R : gives line k (LText [c]) [c] rest (LTok (mkTok k (LText [c]) line pos) (mkLex line (adv rest pos) rest))).
      { eexists _, _. split; [reflexivity|]. cbn [t_kind t_lex t_line lx_rest lx_line]. repeat split.
        symmetry. eapply steps_not; [reflexivity|assumption]. }
      destruct (is_ambiguous c); [|exact R]. destruct rest as [|d r]; [exact R|].
      destruct (from_char [c; d]) as [k'|] eqn:E; [|exact R]. exfalso.
      apply lookup_in in E. exact (Hst c d r k' eq_refl eq_refl E).
    + cbn [app]. rewrite G by assumption. unfold common_toks. rewrite Ha, (symbols_lookup _ _ H).
      destruct (symc_facts c Hc) as (E1 & _).
      eexists _, _. split; [reflexivity|]. cbn [t_kind t_lex t_line lx_rest lx_line]. repeat split.
      symmetry. eapply steps_not; [reflexivity|assumption].
  - destruct (keywords_shape w k H) as (N0 & N1 & N2 & N3 & N4 & _ & Hn & Hf & Hf1).
    apply (stops_word _ _ _ H0) in Hst; [|assumption..]. destruct Hst as (_ & Hst & _).
    destruct w as [|c w]; [congruence|].
    assert (Hc : word_start U c).
    { left. cbn in Hf. apply andb_true_iff in Hf as [Hf _]. now apply kwc_facts. }
    assert (Hw : Forall (word_char U) w).
    { cbn in Hf. apply andb_true_iff in Hf as [_ Hf]. apply Forall_forall. intros x Hx.
      rewrite forallb_forall in Hf. left. now apply kwc_facts, Hf. }
    destruct Hst as [S1 S2]; [exists c, w; auto|].
    pose proof (dispatch_word line c w rest pos Hc Hw S1 S2) as R.
    rewrite (keywords_lookup _ _ H) in R. exact R.
  - apply (stops_word _ _ _ H0) in Hst; [|discriminate..]. destruct Hst as (_ & Hst & _).
    destruct Hst as [S1 S2]; [exists c, w; auto|].
    pose proof (dispatch_word line c w rest pos H1 H2 S1 S2) as R.
    destruct (lookup_tk (c :: w) keywords) as [k'|] eqn:E; [|exact R].
    apply lookup_in in E. now apply H3 in E.
  - apply dispatch_number; auto.
  - apply dispatch_number; auto.
  - cbn [app] in Hs. apply slip_free_cons in Hs.
    assert (E : dispatch line ((q :: raw ++ [q]) ++ rest) pos = string TString line pos q ((raw ++ [q]) ++ rest))
      by (destruct H1 as [-> | ->]; reflexivity).
    rewrite E. apply dispatch_string; auto.
    eapply steps_not; [reflexivity|]. destruct H1 as [-> | ->]; discriminate.
  - cbn [app] in Hs. apply slip_free_cons, slip_free_cons in Hs.
    assert (E : dispatch line ((102%N :: q :: raw ++ [q]) ++ rest) pos =
                string TFormat line (adv (q :: (raw ++ [q]) ++ rest) pos) q ((raw ++ [q]) ++ rest))
      by (destruct H1 as [-> | ->]; reflexivity).
    rewrite E. apply dispatch_string; auto.
Qed.

(** *** The converse *)
Lemma ltok_inj t s t' s' : LTok t s = LTok t' s' -> t = t' /\ s = s'.
Proof. intros H. now inversion H. Qed.

Lemma identifier_spec line pos c rest t s' : word_start U c ->
  ~ (c = 102%N /\ head_is (fun c => c = SQ \/ c = DQ) rest) ->
  identifier U line pos (c :: rest) = LTok t s' ->
  exists w rest', c :: rest = w ++ rest' /\ spells U (t_kind t) (t_lex t) w /\ stops U (t_kind t) w rest' /\
    t_line t = line /\ lx_rest s' = rest' /\ lx_line s' = steps line w.
Proof.
  intros Hc Hq H. unfold identifier in H. destruct (word_start_facts c Hc) as (Hnl & _ & _ & _ & _ & _ & Hwc).
  destruct (eat _ (c :: rest) pos) as [[w r] p] eqn:E.
  destruct (eat_spec _ _ _ _ _ _ E) as (E1 & Hf & Hst).
  destruct w as [|c' w].
  { exfalso. cbn in E1. rewrite <- E1 in Hst. cbn in Hst. apply word_charb in Hwc. congruence. }
  assert (c' = c) as -> by (cbn in E1; congruence).
  apply ltok_inj in H as [<- <-]. cbn [t_kind t_lex t_line lx_rest lx_line].
  exists (c :: w), r. split; [assumption|].
  pose proof Hf as Hf'. cbn in Hf'. apply andb_true_iff in Hf' as [_ Hfw]. apply forall_word in Hfw.
  assert (St : forall k, spells U k (LText (c :: w)) (c :: w) -> k <> TInteger -> k <> TReal -> k <> TString -> k <> TFormat ->
     stops U k (c :: w) r).
  { intros k Hk N1 N2 N3 N4.
    assert (K : (c :: w = [NL] -> r <> []) /\
      (head_is (word_start U) (c :: w) ->
         ~ head_is (word_char U) r /\ ~ (c :: w = [102%N] /\ head_is (fun c => c = SQ \/ c = DQ) r)) /\
      (forall c' d r' k', c :: w = [c'] -> r = d :: r' -> ~ In ([c'; d], k') symbols)).
    { split; [congruence|]. split.
      - intros _. split.
        + intros (d & r' & -> & Hd). cbn in Hst. apply word_charb in Hd. congruence.
        + intros [Ew Hr]. apply Hq. injection Ew as -> ->. split; [reflexivity|]. cbn in E1. injection E1 as ->. exact Hr.
      - intros c' d r' k' Ew Er Hin. destruct (symbols_shape _ _ Hin) as (_ & _ & _ & _ & _ & [(x & Ex & _)|(x & y & Ex & Hx & _)]); [discriminate|].
        injection Ex as <- <-. injection Ew as <- ->. destruct (symc_facts c Hx) as (_ & _ & _ & _ & Hu & Ha & _ & _).
        destruct Hc; congruence. }
    destruct k; try exact K; congruence. }
  destruct (lookup_tk (c :: w) keywords) as [k|] eqn:El.
  - apply lookup_in in El. assert (Sp : spells U k (LText (c :: w)) (c :: w)) by (now apply sp_keyword).
    destruct (keywords_shape _ _ El) as (? & ? & ? & ? & ? & _). split; [exact Sp|]. split; [now apply St|].
    repeat split. symmetry. eapply steps_not; [reflexivity|assumption].
  - assert (Sp : spells U TIdent (LText (c :: w)) (c :: w)) by (apply sp_name; auto; now apply lookup_none).
    split; [exact Sp|]. split; [now apply St|].
    repeat split. symmetry. eapply steps_not; [reflexivity|assumption].
Qed.

Lemma number_spec line pos c rest t s' : is_digit U c = true ->
  number U line pos (c :: rest) = LTok t s' ->
  exists w rest', c :: rest = w ++ rest' /\ spells U (t_kind t) (t_lex t) w /\ stops U (t_kind t) w rest' /\
    t_line t = line /\ lx_rest s' = rest' /\ lx_line s' = steps line w.
Proof.
  intros Hc H. destruct (digit_facts c Hc) as (Hnl & _). rewrite number_eq in H.
  destruct (eat (is_digit U) (c :: rest) pos) as [[w r] p] eqn:E.
  destruct (eat_spec _ _ _ _ _ _ E) as (E1 & Hf & Hst).
  destruct w as [|c' w].
  { exfalso. cbn in E1. rewrite <- E1 in Hst. cbn in Hst. congruence. }
  assert (c' = c) as -> by (cbn in E1; congruence).
  assert (Hi : ~ (exists d r', r = DOTC :: d :: r' /\ is_digit U d = true) -> intres line (c :: w) r p = LTok t s' ->
    exists w0 rest', c :: rest = w0 ++ rest' /\ spells U (t_kind t) (t_lex t) w0 /\ stops U (t_kind t) w0 rest' /\
    t_line t = line /\ lx_rest s' = rest' /\ lx_line s' = steps line w0).
  { intros Hn Hi. unfold intres in Hi. destruct (py_int U (c :: w)) as [z|] eqn:Ez; [|discriminate].
    apply (py_int_spec _ _ Hf) in Ez as (Hl & ds & Hds & ->). apply ltok_inj in Hi as [<- <-].
    exists (c :: w), r. split; [assumption|]. cbn [t_kind t_lex t_line lx_rest lx_line].
    split; [constructor; auto; discriminate|]. split.
    - cbn. split; [|assumption]. intros (d & r' & -> & Hd). cbn in Hst. congruence.
    - repeat split. symmetry. eapply steps_not; [reflexivity|assumption]. }
  destruct r as [|x [|y r]].
  - apply Hi; [|exact H]. intros (? & ? & ? & _). discriminate.
  - apply Hi; [|exact H]. intros (? & ? & ? & _). discriminate.
  - destruct (N.eqb_spec x DOTC) as [->|Hx].
    + destruct (is_digit U y) eqn:Ey; cbn [andb] in H.
      * destruct (eat (is_digit U) (y :: r) (adv (y :: r) p)) as [[w2 r2] p2] eqn:E2.
        destruct (eat_spec _ _ _ _ _ _ E2) as (E3 & Hf2 & Hst2).
        destruct w2 as [|y' w2].
        { exfalso. cbn in E3. rewrite <- E3 in Hst2. cbn in Hst2. congruence. }
        destruct (float_ok U (c :: w) (y' :: w2)) eqn:Ef; [|discriminate].
        apply (float_ok_spec _ _ Hf Hf2) in Ef as [[da Hda] [db Hdb]]. apply ltok_inj in H as [<- <-].
        exists ((c :: w) ++ DOTC :: y' :: w2), r2. cbn [t_kind t_lex t_line lx_rest lx_line].
        split; [rewrite E1, E3, <- app_assoc; reflexivity|]. split.
        { apply (sp_real U (c :: w) (y' :: w2) da db); auto; discriminate. }
        split; [cbn; intros (d & r' & -> & Hd); cbn in Hst2; congruence|].
        repeat split. symmetry. eapply steps_not; [reflexivity|assumption].
      * apply Hi; [|exact H]. intros (d & r' & Er & Hd). congruence.
    + cbn [andb] in H. apply Hi; [|exact H]. intros (d & r' & Er & Hd). congruence.
Qed.

Lemma string_spec kind line pos q r t s' : q = SQ \/ q = DQ -> slip_free r ->
  string kind line pos q r = LTok t s' ->
  exists raw body rest', r = raw ++ q :: rest' /\ quoted q raw body /\ t_kind t = kind /\
    t_lex t = LText (q :: body ++ [q]) /\ t_line t = line /\ lx_rest s' = rest' /\ lx_line s' = line.
Proof.
  intros Hq Hs H. unfold string in H.
  pose proof (string_loop_dec q Hq (S (List.length r)) r [] (adv r pos) ltac:(lia) Hs) as D.
  destruct (dec q r) as [[b r']|] eqn:E.
  - destruct D as [p D]. rewrite D in H. apply ltok_inj in H as [<- <-].
    destruct (dec_quoted q Hq (S (List.length r)) r b r' ltac:(lia) E) as (raw & -> & Hd).
    exists raw, b, r'. cbn [t_kind t_lex t_line lx_rest lx_line app]. auto 10.
  - destruct D as [p D]. rewrite D in H. discriminate.
Qed.

Lemma dispatch_spec line rest pos t s' : slip_free rest -> dispatch line rest pos = LTok t s' ->
  (t_kind t = TEof /\ (rest = [] \/ rest = [NL])) \/
  exists w rest', rest = w ++ rest' /\ spells U (t_kind t) (t_lex t) w /\ stops U (t_kind t) w rest' /\
    t_line t = line /\ lx_rest s' = rest' /\ lx_line s' = steps line w.
Proof.
  intros Hs H. unfold dispatch in H. destruct rest as [|c r].
  { apply ltok_inj in H as [<- <-]. left. auto. }
  destruct (N.eqb_spec c NL) as [->|Hnl].
  { destruct r as [|d r].
    - apply ltok_inj in H as [<- <-]. left. auto.
    - apply ltok_inj in H as [<- <-]. right. exists [NL], (d :: r). cbn [t_kind t_lex t_line lx_rest lx_line app].
      split; [reflexivity|]. split; [constructor|]. split; [|auto].
      cbn. split; [discriminate|]. split.
      + intros (c & w & E & Hc). injection E as <- <-. destruct (word_start_facts NL Hc) as (? & _). congruence.
      + intros c d' r' k' E1 E2 Hin. injection E1 as <-. destruct (symbols_shape _ _ Hin) as (_ & _ & _ & _ & _ & [(x & Ex & _)|(x & y & Ex & Hx & _)]); [discriminate|].
        injection Ex as <- <-. discriminate. }
  destruct (N.eqb c SQ || N.eqb c DQ)%bool eqn:Eq.
  { apply orb_true_iff in Eq. rewrite !N.eqb_eq in Eq.
    destruct (string_spec _ _ _ _ _ _ _ Eq (slip_free_cons _ _ Hs) H) as (raw & body & rest' & -> & Hd & E1 & E2 & E3 & E4 & E5).
    right. exists (c :: raw ++ [c]), rest'. rewrite E1, E2. split; [cbn; now rewrite <- app_assoc|].
    split; [now constructor|]. split; [exact I|]. repeat split; auto. rewrite E5. symmetry. eapply steps_not; [reflexivity|assumption]. }
  destruct (is_alpha U c || N.eqb c USC)%bool eqn:Ew.
  { apply word_startb in Ew. destruct r as [|q r].
    { right. eapply identifier_spec; eauto. intros [_ (? & ? & ? & _)]. discriminate. }
    destruct (N.eqb_spec c 102) as [->|Hf]; cbn [andb] in H.
    - destruct (N.eqb q DQ || N.eqb q SQ)%bool eqn:Eqq.
      + apply orb_true_iff in Eqq. rewrite !N.eqb_eq in Eqq. apply or_comm in Eqq.
        destruct (string_spec _ _ _ _ _ _ _ Eqq (slip_free_cons _ _ (slip_free_cons _ _ Hs)) H) as (raw & body & rest' & -> & Hd & E1 & E2 & E3 & E4 & E5).
        right. exists (102%N :: q :: raw ++ [q]), rest'. rewrite E1, E2. split; [cbn; now rewrite <- app_assoc|].
        split; [now constructor|]. split; [exact I|]. repeat split; auto.
      + right. eapply identifier_spec; eauto. intros [_ (? & ? & E & Hq)]. injection E as <- <-.
        apply orb_false_iff in Eqq as [A B]. apply N.eqb_neq in A, B. tauto.
    - right. eapply identifier_spec; eauto. intros [? _]. congruence. }
  destruct (is_digit U c) eqn:Ed.
  { right. eapply number_spec; eauto. }
  right.
  assert (Nw : forall k w', spells U k (LText w') w' -> k <> TInteger -> k <> TReal -> k <> TString -> k <> TFormat ->
      forall d, w' = c :: d -> forall r', ((forall c0 d0 r0 k', w' = [c0] -> r' = d0 :: r0 -> ~ In ([c0; d0], k') symbols) -> stops U k w' r')).
  { intros k w' _ N1 N2 N3 N4 d E r' Hx.
    assert (K : (w' = [NL] -> r' <> []) /\
      (head_is (word_start U) w' ->
         ~ head_is (word_char U) r' /\ ~ (w' = [102%N] /\ head_is (fun c => c = SQ \/ c = DQ) r')) /\
      (forall c d r k', w' = [c] -> r' = d :: r -> ~ In ([c; d], k') symbols)).
    { split; [congruence|]. split; [|exact Hx].
      intros (c0 & w0 & E0 & Hc0). assert (c0 = c) as -> by congruence.
      apply word_startb in Hc0. congruence. }
    destruct k; try exact K; congruence. }
  unfold common_toks in H.
  assert (One : (forall d r0 k', r = d :: r0 -> ~ In ([c; d], k') symbols) ->
    match from_char [c] with
    | Some k => LTok (mkTok k (LText [c]) line pos) (mkLex line (adv r pos) r)
    | None => LErr InvalidSymbol line (adv r pos) end = LTok t s' ->
    exists w rest', c :: r = w ++ rest' /\ spells U (t_kind t) (t_lex t) w /\ stops U (t_kind t) w rest' /\
    t_line t = line /\ lx_rest s' = rest' /\ lx_line s' = steps line w).
  { intros Hm H1. destruct (from_char [c]) as [k|] eqn:E; [|discriminate]. apply ltok_inj in H1 as [<- <-].
    apply lookup_in in E. destruct (symbols_shape _ _ E) as (? & ? & ? & ? & ? & _).
    cbn [t_kind t_lex t_line lx_rest lx_line]. exists [c], r. split; [reflexivity|].
    assert (Sp : spells U k (LText [c]) [c]) by now apply sp_symbol.
    split; [exact Sp|]. split.
    { apply (Nw k [c] Sp) with (d := []); auto. intros c0 d0 r0 k' E0 Er. injection E0 as <-. now apply Hm with r0. }
    repeat split. symmetry. eapply steps_not; [reflexivity|assumption]. }
  destruct (is_ambiguous c) eqn:Ea.
  - destruct r as [|d r]; [apply One; [discriminate|exact H]|].
    destruct (from_char [c; d]) as [k|] eqn:E.
    + apply ltok_inj in H as [<- <-]. apply lookup_in in E. destruct (symbols_shape _ _ E) as (? & ? & ? & ? & ? & _).
      cbn [t_kind t_lex t_line lx_rest lx_line]. exists [c; d], r. split; [reflexivity|].
      assert (Sp : spells U k (LText [c; d]) [c; d]) by now apply sp_symbol.
      split; [exact Sp|]. split; [apply (Nw k [c; d] Sp) with (d := [d]); auto; discriminate|].
      repeat split. symmetry. eapply steps_not; [reflexivity|assumption].
    + apply One; [|exact H]. intros d' r0 k' Er. injection Er as <- <-. now apply lookup_none.
  - apply One; [|exact H]. intros d r0 k' -> Hin.
    destruct (symbols_shape _ _ Hin) as (_ & _ & _ & _ & _ & [(x & Ex & _)|(x & y & Ex & _ & Hx)]); [discriminate|].
    injection Ex as <- <-. congruence.
Qed.
End Tok.
