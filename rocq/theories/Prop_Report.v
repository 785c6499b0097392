(** C45: what is quoted when a program is rejected. *)
From Verif Require Import Lexer Base Syntax Parser Sym Check Front Spec_Lex ParseFacts ParseTotal Prop_Lex Report Ex_Front.
From Coq Require Import String.
Local Open Scope Z_scope.
Local Open Scope list_scope.

(** [w] is line number [l] of [src], with its line end if it has one. *)
Definition line_of (src : text) (l : Z) (w : text) : Prop :=
  exists before after, src = before ++ w ++ after /\ line_ends before = l - 1 /\
    (before = [] \/ exists b, before = b ++ [NL]) /\
    exists v, ~ In NL v /\ (w = v ++ [NL] \/ (w = v /\ v <> [] /\ after = [])).
(** [c] is [w] without the spaces around it. *)
Definition trimmed (U : uni) (w c : text) : Prop :=
  exists a b, w = a ++ c ++ b /\ Forall (fun x => is_space U x = true) (a ++ b) /\
    (forall x r, c = x :: r -> is_space U x = false) /\ (forall x r, c = r ++ [x] -> is_space U x = false).

Lemma lstrip_spec U s : exists a, s = a ++ lstrip U s /\ Forall (fun x => is_space U x = true) a /\ forall x r, lstrip U s = x :: r -> is_space U x = false.
Proof.
  induction s as [|c s IH]; [exists []; cbn; split; [reflexivity|]; split; [constructor|discriminate]|]. cbn. destruct (is_space U c) eqn:E.
  - destruct IH as (a & H & A & N). exists (c :: a). cbn. rewrite <- H. auto.
  - exists []. cbn. split; [reflexivity|]. split; [constructor|]. intros x r H. congruence.
Qed.
Lemma strip_trimmed U s : trimmed U s (strip U s).
Proof.
  unfold strip. destruct (lstrip_spec U s) as (a & E & A & N). destruct (lstrip_spec U (rev (lstrip U s))) as (b & E' & B & M).
  set (m := lstrip U s) in *. set (c := lstrip U (rev m)) in *.
  assert (Em : m = rev c ++ rev b) by (rewrite <- rev_app_distr, <- E', rev_involutive; reflexivity).
  exists a, (rev b). split; [congruence|]. split; [apply Forall_app; split; [exact A|]; now apply Forall_rev|]. split.
  - intros x r H. rewrite H in Em. eapply N. rewrite Em. reflexivity.
  - intros x r H. eapply M. rewrite <- (rev_involutive c), H, rev_app_distr. reflexivity.
Qed.
Lemma line_ends_cons c r : line_ends (c :: r) = (if N.eqb c NL then 1 else 0) + line_ends r.
Proof. unfold line_ends. cbn [count_occ]. destruct (N.eq_dec c NL) as [->|H]; [cbn [N.eqb]; rewrite N.eqb_refl; lia|]. apply N.eqb_neq in H. rewrite H. lia. Qed.
Lemma file_lines_nil t : file_lines t = [] -> t = [].
Proof. destruct t as [|c r]; [auto|]. cbn. destruct (N.eqb c NL); [discriminate|]. destruct (file_lines r); discriminate. Qed.
Lemma file_lines_nth : forall t n w, nth_error (file_lines t) n = Some w -> line_of t (Z.of_nat n + 1) w.
Proof.
  induction t as [|c r IH]; intros n w H; [destruct n; discriminate|]. cbn [file_lines] in H. destruct (N.eqb c NL) eqn:E.
  - apply N.eqb_eq in E. subst c. destruct n as [|n].
    + injection H as <-. exists [], r. split; [reflexivity|]. split; [reflexivity|]. split; [auto|]. exists []. split; [auto|]. left. reflexivity.
    + destruct (IH _ _ H) as (b & a & -> & L & Hb & V). exists (NL :: b), a. split; [reflexivity|]. rewrite line_ends_cons, L. split; [cbn [N.eqb]; rewrite N.eqb_refl; lia|].
      split; [|exact V]. right. destruct Hb as [->|[b' ->]]; [exists []|exists (NL :: b')]; reflexivity.
  - assert (NE : c <> NL) by (apply N.eqb_neq; exact E).
    destruct (file_lines r) as [|l ls] eqn:FL.
    + apply file_lines_nil in FL. subst r. destruct n as [|n]; [|destruct n; discriminate]. injection H as <-. exists [], []. split; [reflexivity|]. split; [reflexivity|]. split; [auto|].
      exists [c]. split; [intros [X|[]]; congruence|]. right. split; [reflexivity|]. split; [discriminate|reflexivity].
    + destruct n as [|n].
      * injection H as <-. destruct (IH O l eq_refl) as (b & a & E1 & L & Hb & v & NV & V).
        assert (b = []) as ->. { destruct Hb as [|[b' ->]]; [auto|]. rewrite line_ends_app in L. pose proof (line_ends_pos b'). change (line_ends [NL]) with 1 in L. lia. }
        exists [], a. split; [cbn in *; congruence|]. split; [reflexivity|]. split; [auto|]. exists (c :: v). split; [intros [X|X]; [congruence|contradiction]|].
        destruct V as [->|(-> & V1 & V2)]; [left; reflexivity|right]. split; [reflexivity|]. split; [discriminate|exact V2].
      * destruct (IH (S n) w H) as (b & a & -> & L & Hb & V). exists (c :: b), a. split; [reflexivity|]. rewrite line_ends_cons, E, L. split; [lia|]. split; [|exact V].
        right. destruct Hb as [->|[b' ->]]; [cbn in L; lia|]. exists (c :: b'). reflexivity.
Qed.
Lemma file_lines_count t : t <> [] -> Z.of_nat (List.length (file_lines t)) = 1 + inner_ends t.
Proof.
  induction t as [|c r IH]; [congruence|]. intros _. destruct r as [|d r].
  - cbn. destruct (N.eqb c NL); reflexivity.
  - specialize (IH ltac:(discriminate)). change (inner_ends (c :: d :: r)) with (line_ends (c :: removelast (d :: r))). rewrite line_ends_cons. fold (inner_ends (d :: r)).
    cbn [file_lines] in *. set (fl := if N.eqb d NL then _ else _) in *. destruct (N.eqb c NL).
    + cbn [List.length]. lia.
    + destruct fl as [|l ls] eqn:F; [subst fl; destruct (N.eqb d NL); [discriminate|destruct (file_lines r); discriminate]|]. cbn [List.length] in *. lia.
Qed.

(** Every syntax error is reported: the line is one of the file, and what is
    quoted is that line without the spaces around it.  The assertion in the
    reporter never fails. *)
Theorem C45_syntax_partial : forall U src l c, python_tables U -> parse U src = PErr l c ->
  exists context w, throw_error U src l = Some context /\ line_of src l w /\ trimmed U w context.
Proof.
  intros U src l c HU H. pose proof (parse_total U HU src) as T. rewrite H in T.
  assert (NE : src <> []) by (intros ->; discriminate H).
  pose proof (file_lines_count src NE) as FC. unfold throw_error. destruct (l <? 1) eqn:L; [apply Z.ltb_lt in L; lia|].
  destruct (nth_error (file_lines src) (Z.to_nat (l - 1))) as [w|] eqn:E.
  - exists (strip U w), w. split; [reflexivity|]. split; [|apply strip_trimmed].
    replace l with (Z.of_nat (Z.to_nat (l - 1)) + 1) at 1 by lia. now apply file_lines_nth.
  - apply nth_error_None in E. lia.
Qed.
Print Assumptions C45_syntax_partial.
Definition bad45 : text := lines ["mostra 1"; "  se x  "; "fim"]%string.
Example C45_syntax_ex : exists l c, parse alphabet bad45 = PErr l c /\ throw_error alphabet bad45 l = Some (txt "se x").
Proof. eexists _, _. split; vm_compute; reflexivity. Qed.
(** At the very end of a text the last line is quoted. *)
Example C45_end_ex : exists c, parse alphabet (lines ["se verdadeiro entao"; "mostra 1"]%string) = PErr 2 c.
Proof. eexists. vm_compute. reflexivity. Qed.

(** An error of meaning inside a format string is reported at the wrong line: the
    names in it are counted from line 1 again. *)
Definition rep (src : list String.string) : report := report_of alphabet (env_of [(txt "/repo/main.ama", lines src)]) 20 main_file.
Theorem C45_format_line_refuted : rep ["a: int = 1"; "mostra a"; "mostra f'{b}'"]%string = Quotes main_file 1 (txt "a: int = 1").
Proof. vm_compute. reflexivity. Qed.
Print Assumptions C45_format_line_refuted.
Example C45_other_line : rep ["a: int = 1"; "mostra a"; "mostra b"]%string = Quotes main_file 3 (txt "mostra b").
Proof. vm_compute. reflexivity. Qed.
(** With line ends written in the format string the line does not even exist, and
    the compiler stops with a failing assertion instead of the message. *)
Theorem C45_assertion_refuted : rep ["mostra f'{tam(\n\nb)}'"]%string = Assertion.
Proof. vm_compute. reflexivity. Qed.
Print Assumptions C45_assertion_refuted.
