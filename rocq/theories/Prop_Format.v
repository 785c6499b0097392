(** C44: format strings. *)
From Verif Require Import Base Lexer Spec_Lex LexFacts LexAll Prop_Lex Syntax Parser ParseFacts ParseTotal Spec_Parse ParseExpr ParseLine Prop_Parse Spec_Format.
Local Open Scope Z_scope.
Local Open Scope parse_scope.

Section Format.
Variable U : uni.
Hypothesis HU : python_tables U.

Lemma written_tokens src ws : ~ slips src -> written U src ws ->
  exists ts e, tokenise U src = (ts, EEof e) /\ words ts = ws /\ (lwt ts <= List.length src)%nat /\ t_kind e = TEof.
Proof.
  intros Hs (items & Hr & Hw).
  destruct (tokens_complete U HU 1 src items Hr (S (List.length src)) (start src) eq_refl (Nat.lt_succ_diag_r _) Hs) as (ts & e & E & F & _).
  pose proof (tokens_wt U HU (S (List.length src)) (start src)) as Wt. rewrite E in Wt. cbn [fst start lx_rest] in Wt.
  exists ts, e. split; [exact E|]. split; [|split; [exact Wt|eapply tokens_eof; exact E]].
  subst ws. clear -F. induction F as [|t i ts is [A B] F IH]; [reflexivity|]. cbn. unfold word_of. rewrite A, B. f_equal. exact IH.
Qed.
Lemma lwt_len ts : (List.length ts <= lwt ts)%nat.
Proof. induction ts as [|t ts IH]; cbn [List.length lwt]; [lia|]. pose proof (twt_pos t). lia. Qed.

Variable n : nat.
Notation R := (run U (S n)).

(** The closing brace ends the expression. *)
Lemma to_brace_src src rest : ~ In close_brace src -> to_brace (src ++ close_brace :: rest) = Some (src, rest).
Proof.
  induction src as [|c src IH]; intros H; cbn.
  - reflexivity.
  - destruct (N.eqb_spec c RBRC) as [->|Hc]; [exfalso; apply H; now left|].
    rewrite IH; [reflexivity|]. intros Hi. apply H. now right.
Qed.

Lemma lstrip_split s : exists a, s = a ++ lstrip U s /\ Forall (fun c => is_space U c = true) a.
Proof.
  induction s as [|c s (a & E & F)]; [exists []; auto|]. cbn. destruct (is_space U c) eqn:Ec.
  - exists (c :: a). split; [cbn; congruence|]. now constructor.
  - exists []. auto.
Qed.

Lemma fstr_expr_reads token src e s : piece_ok U (PExpr src e) -> (List.length src <= n)%nat ->
  exists x, fstr_expr U R token src s = POk x s /\ shape x = Some e.
Proof.
  intros (Hne & Hb & Hs & Hw & Ho & Hf) HN.
  destruct (written_tokens src _ Hs Hw) as (ts & fin & E & Ew & Wt & Hk).
  assert (HL : (List.length (show 0 e) <= n)%nat).
  { rewrite <- Ew. unfold words. rewrite map_length. pose proof (lwt_len ts). lia. }
  destruct (parses_whole (equality U (run U n)) (show 0 e) (Qe e)) with (ts := ts) (t := fin) as (x & Ex & Qx); auto.
  { intros t1 rest e1 H1 H2 H3. apply (parses_equality U e n HL); auto. unfold at_eof in H3. rewrite H3. reflexivity. }
  exists x. split; [|exact Qx]. unfold fstr_expr.
  destruct (lstrip_split src) as (a & Ea & Fa).
  destruct (lstrip U src) as [|c r] eqn:El.
  - exfalso. rewrite app_nil_r in Ea. subst a. apply Exists_exists in Hne as (c & Hi & Hc).
    rewrite Forall_forall in Fa. rewrite (Fa c Hi) in Hc. discriminate.
  - destruct (N.eqb_spec c 102) as [->|Hc]; cbn [andb].
    + destruct r as [|q r].
      * rewrite E. replace (pull ts (EEof fin)) with (POk tt (ts, EEof fin)) by (destruct ts; reflexivity).
        change (r_eq R (ts, EEof fin)) with (equality U (run U n) (ts, EEof fin)). now rewrite Ex.
      * destruct (Hf a q r Ea Fa) as [H1 H2]. rewrite (proj2 (N.eqb_neq _ _) H1), (proj2 (N.eqb_neq _ _) H2). cbn [orb].
        rewrite E. replace (pull ts (EEof fin)) with (POk tt (ts, EEof fin)) by (destruct ts; reflexivity).
        change (r_eq R (ts, EEof fin)) with (equality U (run U n) (ts, EEof fin)). now rewrite Ex.
    + rewrite E. replace (pull ts (EEof fin)) with (POk tt (ts, EEof fin)) by (destruct ts; reflexivity).
      change (r_eq R (ts, EEof fin)) with (equality U (run U n) (ts, EEof fin)). now rewrite Ex.
Qed.

(** Literal characters are collected one by one. *)
Lemma fmt_text token w : forall fuel cur parts has rest s, (List.length (piece_text (PText w) ++ rest) < fuel)%nat ->
  exists fuel', (List.length rest < fuel')%nat /\
    fmt_loop U R fuel token cur parts has (piece_text (PText w) ++ rest) s = fmt_loop U R fuel' token (cur ++ w) parts has rest s.
Proof.
  induction w as [|c w IH]; intros fuel cur parts has rest s H.
  - exists fuel. split; [exact H|]. cbn. now rewrite app_nil_r.
  - destruct fuel as [|fuel]; [lia|]. cbn [piece_text flat_map] in *. destruct (N.eqb_spec c open_brace) as [->|Hc].
    + destruct (IH fuel (cur ++ [open_brace]) parts has rest s) as (f' & Hf & E).
      { cbn [piece_text]. cbn [app List.length] in H. lia. }
      exists f'. split; [exact Hf|]. rewrite <- app_assoc in E. cbn [app] in E. rewrite <- E. reflexivity.
    + destruct (IH fuel (cur ++ [c]) parts has rest s) as (f' & Hf & E).
      { cbn [piece_text]. cbn [app List.length] in H. lia. }
      exists f'. split; [exact Hf|]. rewrite <- app_assoc in E. cbn [app] in E. rewrite <- E.
      cbn [app fmt_loop]. unfold LBRC. change 123%N with open_brace. rewrite (proj2 (N.eqb_neq _ _) Hc). reflexivity.
Qed.

Lemma flush_is token w : w <> [] -> exists x, flush token w = [x] /\ piece_is (PText w) x.
Proof. destruct w as [|c w]; [contradiction|]. intros _. eexists. split; [reflexivity|]. cbn. eexists. split; reflexivity. Qed.

Definition is_expr (p : piece) : bool := match p with PExpr _ _ => true | _ => false end.
Definition starts_text (l : list piece) : Prop := match l with PText _ :: _ => True | _ => False end.
Definition pending (cur : text) (l : list piece) : list piece := match cur with [] => l | _ => PText cur :: l end.

Lemma fmt_pieces token l : forall fuel cur parts has s,
  Forall (piece_ok U) l -> apart l -> (cur <> [] -> ~ starts_text l) ->
  (List.length (flat_map piece_text l) < fuel)%nat -> (List.length (flat_map piece_text l) <= n)%nat ->
  exists xs, fmt_loop U R fuel token cur parts has (flat_map piece_text l) s = POk (parts ++ xs, has || existsb is_expr l) s /\
             Forall2 piece_is (pending cur l) xs.
Proof.
  induction l as [|p l IH]; intros fuel cur parts has s Hok Hap Hst Hf Hn.
  - destruct fuel as [|fuel]; [cbn in Hf; lia|]. exists (flush token cur). cbn. rewrite orb_false_r. split; [reflexivity|].
    destruct cur as [|c cur]; cbn; [constructor|]. constructor; [|constructor]. eexists. split; reflexivity.
  - inversion Hok as [|? ? Hp Hl]; subst. destruct p as [w|src e].
    + assert (cur = []) as -> by (destruct cur; [reflexivity|exfalso; apply Hst; [discriminate|exact Logic.I]]).
      cbn [flat_map] in *. destruct (fmt_text token w fuel [] parts has (flat_map piece_text l) s Hf) as (f' & Hf' & E).
      cbn [app] in E. rewrite E. rewrite app_length in Hn.
      destruct (IH f' w parts has s Hl) as (xs & Ex & Fx).
      * destruct l as [|[|] l]; cbn in Hap |- *; auto; contradiction.
      * intros _. destruct l as [|[|] l]; cbn in Hap |- *; auto.
      * exact Hf'.
      * lia.
      * exists xs. rewrite Ex. split; [reflexivity|]. cbn [pending]. destruct w; [contradiction Hp; reflexivity|]. exact Fx.
    + destruct fuel as [|fuel]; [lia|]. cbn [flat_map] in *. rewrite app_length in Hf, Hn.
      assert (Hlen : List.length (piece_text (PExpr src e)) = S (S (List.length src))).
      { cbn. rewrite app_length. cbn. lia. }
      destruct (fstr_expr_reads token src e s Hp) as (x & Ex & Sx); [lia|].
      destruct (IH fuel [] (parts ++ flush token cur ++ [x]) true s Hl) as (xs & El & Fl); try lia.
      * destruct l as [|[|] l]; exact Hap.
      * intros A; contradiction A; reflexivity.
      * exists (flush token cur ++ x :: xs). split.
        -- replace (piece_text (PExpr src e) ++ flat_map piece_text l) with (open_brace :: src ++ close_brace :: flat_map piece_text l) by (cbn; now rewrite <- app_assoc). cbn [fmt_loop].
           change (N.eqb open_brace LBRC) with true. cbv iota.
           destruct Hp as (Hne & Hb & Hs & Hw & Ho & Hfm).
           assert (Hd : forall d r, src ++ close_brace :: flat_map piece_text l = d :: r -> N.eqb d LBRC = false).
           { intros d r Ed. apply N.eqb_neq. intros ->. destruct src as [|c src]; [inversion Hne|]. cbn in Ed. injection Ed as -> _.
             now apply Ho. }
           pose proof (to_brace_src src (flat_map piece_text l) Hb) as Et.
           destruct (src ++ close_brace :: flat_map piece_text l) as [|d r] eqn:Ed; [destruct src; discriminate|].
           rewrite (Hd d r eq_refl), Et. unfold bind. rewrite Ex, El. cbn [existsb is_expr orb]. rewrite orb_true_r.
           rewrite <- !app_assoc. reflexivity.
        -- destruct cur as [|c cur]; cbn [pending flush app].
           ++ constructor; [exact Sx|exact Fl].
           ++ constructor; [eexists; split; reflexivity|]. constructor; [exact Sx|exact Fl].
Qed.

Lemma inner_body q b : inner (q :: b ++ [q]) = b.
Proof. unfold inner. cbn [tl]. apply removelast_last. Qed.

Lemma parses_format q l : Forall (piece_ok U) l -> apart l -> has_expr l -> (List.length (flat_map piece_text l) <= n)%nat ->
  parses (primary U R (r_pat R)) [lit TFormat (q :: flat_map piece_text l ++ [q])] (FE 7)
    (fun x => exists t xs, x = XFmt t xs /\ Forall2 piece_is l xs).
Proof.
  intros Hok Hap (src & e & Hin) Hn ts rest fin Ht Hg Hk.
  destruct ts as [|t [|t2 ts]]; try discriminate. injection Ht as Hkd Hlx.
  destruct (fmt_pieces t l (S (List.length (flat_map piece_text l))) [] [] false (rest, fin) Hok Hap) as (xs & Ex & Fx); try lia.
  { intros A; contradiction A; reflexivity. }
  exists (XFmt t xs). split; [|exists t, xs; auto].
  unfold primary, bind at 1, look, look_tok. cbn [fst app]. rewrite Hkd. cbv iota.
  unfold parse_format_str.
  assert (Ec : consume TFormat (t :: rest, fin) = POk t (rest, fin)).
  { unfold consume, kind, look_tok. cbn [fst snd]. rewrite Hkd, tk_eqb_refl. unfold bind, next. cbn [fst snd].
    destruct Hg as [Hg|(te & ->)]; destruct rest; try reflexivity; contradiction. }
  unfold bind at 1. rewrite Ec. cbv zeta.
  assert (El : lex_text t = q :: flat_map piece_text l ++ [q]) by (unfold lex_text; now rewrite Hlx).
  rewrite El, inner_body. unfold bind. rewrite Ex. cbn [app orb].
  replace (existsb is_expr l) with true; [reflexivity|]. symmetry. apply existsb_exists. exists (PExpr src e). auto.
Qed.
End Format.

(** Whatever the spaces and comments around it, a format string is read as its
    pieces, in the order written: the text with its doubled opening braces
    halved, and each expression as C17 reads it.  Stated for a format string
    that is shown; missing from the full property: format strings elsewhere. *)
Theorem C44_format_partial : forall U src q l, python_tables U -> ~ slips src ->
  Forall (piece_ok U) l -> apart l -> has_expr l -> written U src (format_words q l) ->
  exists m s t0 t xs, parse U src = POk m s /\ sm_annots m = [] /\ sm_children m = [XMostra t0 (XFmt t xs)] /\ Forall2 piece_is l xs.
Proof.
  intros U src q l HU Hs Hok Hap Hex Hw.
  destruct (written_tokens U HU src _ Hs Hw) as (ts & fin & E & Ew & Wt & Hk).
  assert (Hlen : (List.length (flat_map piece_text l) <= List.length src)%nat).
  { destruct ts as [|t0 [|t1 [|t2 ts]]]; try discriminate. unfold words, format_words in Ew. cbn [map] in Ew. injection Ew as _ _ K L.
    cbn [lwt] in Wt. unfold twt in Wt. rewrite K in Wt. change (tk_eqb TFormat TFormat) with true in Wt. cbv iota in Wt.
    unfold lex_text in Wt. rewrite L in Wt. cbn [List.length] in Wt. rewrite app_length in Wt. lia. }
  set (N := List.length src) in *.
  assert (W : whole (module_ U (run U (S N))) (format_words q l) (fun m => sm_annots m = [] /\ exists t0 t xs, sm_children m = [XMostra t0 (XFmt t xs)] /\ Forall2 piece_is l xs)).
  { unfold format_words. apply (whole_module U _ _ _ (fun ch => exists t0 t xs, ch = [XMostra t0 (XFmt t xs)] /\ Forall2 piece_is l xs)); [cbn; intuition discriminate|].
    unfold statement. apply whole_look. intros tok Et. assert (Ek : t_kind tok = TMostra) by now injection Et. rewrite Ek.
    apply (whole_next (lit TMostra (txt "mostra"))). intros t0 _.
    change [lit TFormat (q :: flat_map piece_text l ++ [q])] with ([lit TFormat (q :: flat_map piece_text l ++ [q])] ++ []).
    eapply whole_bind with (F1 := FE 0) (Q1 := fun x => exists t xs, x = XFmt t xs /\ Forall2 piece_is l xs).
    - apply level_0. apply level_7_down; [| |lia].
      + exact (parses_format U HU N q l Hok Hap Hex Hlen).
      + eexists _, _. split; [reflexivity|]. cbn. intuition discriminate.
    - cbn. intros k ->. reflexivity.
    - intros x (t & xs & -> & Fx). apply whole_end_stmt. exists t0, t, xs. auto. }
  destruct (W ts fin Ew Hk) as (m & Em & Am & t0 & t & xs & Cm & Fx).
  exists m, ([], EEof fin), t0, t, xs. split; [|auto].
  unfold parse. rewrite E. unfold parse_tokens.
  replace (pull ts (EEof fin)) with (POk tt (ts, EEof fin)) by (destruct ts; reflexivity). exact Em.
Qed.
Print Assumptions C44_format_partial.

(** [mostra f'a{{b {x + 1}{y}.'] *)
Definition sf44 : text := txt "mostra f'a{{b { x+ 1}{y}.'  # f".
Definition lf44 : list piece :=
  [PText (txt "a{b "); PExpr (txt " x+ 1") (EBin BAdd (nm "x") (EAtom (AInt 1))); PExpr (txt "y") (nm "y"); PText (txt ".")].
Lemma written_by_run s ws : forallb (fun c => negb (N.eqb c BSL)) s = true ->
  (exists ts e, tokenise tables0 s = (ts, EEof e) /\ words ts = ws) -> written tables0 s ws.
Proof. intros Hb (ts & e & E & <-). exact (written_of tables0 s ts e tables0_ok (no_slip s Hb) E). Qed.
Ltac by_run := apply written_by_run; [reflexivity|]; eexists _, _; split; vm_compute; reflexivity.
Example C44_format_ex : Forall (piece_ok tables0) lf44 /\ apart lf44 /\ has_expr lf44 /\ written tables0 sf44 (format_words SQ lf44).
Proof.
  split; [|split; [|split]].
  - assert (A : forall src e c, In c src -> is_space tables0 c = false -> ~ In close_brace src -> forallb (fun c => negb (N.eqb c BSL)) src = true ->
      written tables0 src (show 0 e) -> hd_error src <> Some open_brace -> ~ In SQ src -> ~ In DQ src -> piece_ok tables0 (PExpr src e)).
    { intros src e c Hi Hc Hb Hs Hw Ho H1 H2. split; [apply Exists_exists; eauto|]. split; [assumption|]. split; [now apply no_slip|].
      split; [assumption|]. split; [assumption|]. intros a q b -> _. split; intros ->; [apply H1|apply H2]; apply in_or_app; right; right; now left. }
    apply Forall_cons; [discriminate|]. apply Forall_cons; [|apply Forall_cons; [|apply Forall_cons; [discriminate|constructor]]].
    + apply (A _ _ 43%N); try reflexivity; try (cbn; tauto); try (cbn; intuition discriminate); by_run.
    + apply (A _ _ 121%N); try reflexivity; try (cbn; tauto); try (cbn; intuition discriminate); by_run.
  - exact Logic.I.
  - eexists _, _. right. left. reflexivity.
  - by_run.
Qed.

(** What follows the expression between the braces is not looked at: parse.py
    1151-1193 reads one expression and forgets the rest.  The text
    [mostra f'{1 2}'] is parsed, although no expression is written [1 2], and
    reads as [mostra f'{1}']. *)
Theorem C44_format_rest_refuted : exists m s t0 t x,
  parse tables0 (txt "mostra f'{1 2}'") = POk m s /\ sm_children m = [XMostra t0 (XFmt t [x])] /\
  shape x = Some (EAtom (AInt 1)) /\ ~ exists e, written tables0 (txt "1 2") (show 0 e).
Proof.
  eexists _, _, _, _, _. split; [vm_compute; reflexivity|]. split; [reflexivity|]. split; [reflexivity|].
  intros (e & H). destruct (C17_read_back tables0 (txt "1 2") (LExpr e) tables0_ok (no_slip (txt "1 2") eq_refl) Logic.I H) as (m & s & x & E & _).
  vm_compute in E. discriminate.
Qed.
Print Assumptions C44_format_rest_refuted.

(** A closing brace inside a text inside the braces ends the expression: the
    text [mostra f'{"}"}'] is refused although ["}"] is an expression. *)
Theorem C44_format_brace_refuted :
  (exists e, written tables0 (txt """}""") (show 0 e)) /\ exists l c, parse tables0 (txt "mostra f'{""}""}'") = PErr l c.
Proof.
  split; [exists (EAtom (AText (txt """}"""))); by_run|]. eexists _, _. vm_compute. reflexivity.
Qed.
Print Assumptions C44_format_brace_refuted.
