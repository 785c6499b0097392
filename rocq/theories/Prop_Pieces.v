(** C16 for the text pieces of format strings: which stay the text that is
    written, and which do not.  The loader gets a piece without quotes and has to
    guess its type from its characters (binload.rs:40-67). *)
From Verif Require Import Base BaseFacts Dec Float Bson Opcode Value VM.

(** A character a number cannot begin with. *)
Definition plain_start (c : N) : Prop := ~ (48 <= c <= 57)%N /\ c <> 43%N /\ c <> 45%N /\ c <> 46%N.
Lemma digit_start c r : plain_start c -> txt_uint (c :: r) = None.
Proof. intros (H & _). cbn [txt_uint]. destruct (txt_uint r); [|reflexivity]. repeat match goal with |- context [(?a =? ?b)%N] => destruct (N.eqb_spec a b); [lia|] end. reflexivity. Qed.
Lemma not_i64 c r : plain_start c -> parse_i64 (c :: r) = None.
Proof.
  intros H. pose proof (digit_start c r H) as D. destruct H as (_ & P & M & _). unfold parse_i64, parse_digits. rewrite D. destruct (N.eqb_spec c 45); [contradiction|]. destruct (N.eqb_spec c 43); [contradiction|]. reflexivity.
Qed.
(** What Rust reads as a number although it has no digit. *)
Definition named_number (t : text) : Prop := let w := map lower t in w = txt "inf" \/ w = txt "infinity" \/ w = txt "nan".
Lemma not_f64 c r : plain_start c -> ~ named_number (c :: r) -> parse_f64 (c :: r) = None.
Proof.
  intros (D & P & M & O) NN. unfold parse_f64. destruct (N.eqb_spec c 45); [contradiction|]. destruct (N.eqb_spec c 43); [contradiction|].
  destruct (text_eqb (map lower (c :: r)) (txt "inf")) eqn:E1; [exfalso; apply NN; left; now apply text_eqb_eq|].
  destruct (text_eqb (map lower (c :: r)) (txt "infinity")) eqn:E2; [exfalso; apply NN; right; left; now apply text_eqb_eq|].
  destruct (text_eqb (map lower (c :: r)) (txt "nan")) eqn:E3; [exfalso; apply NN; right; right; now apply text_eqb_eq|].
  cbn [orb]. assert (S : span_digits (c :: r) = ([], c :: r)).
  { cbn [span_digits]. unfold is_digit. destruct (N.leb_spec 48 c), (N.leb_spec c 57); try reflexivity. lia. }
  rewrite S. destruct (N.eqb_spec c 46); [contradiction|]. reflexivity.
Qed.

(** A piece that begins with an ASCII character a number cannot begin with and no
    quote, and is none of six words, is the text written. *)
Theorem C16_pieces_partial : forall c r, (c < 128)%N -> plain_start c -> c <> 34%N -> c <> 39%N ->
  ~ In (c :: r) [txt "verdadeiro"; txt "falso"; txt "nulo"] -> ~ named_number (c :: r) -> const_from_str (c :: r) = Some (VStr (c :: r)).
Proof.
  intros c r A PS Q1 Q2 KW NN. unfold const_from_str. cbn [In] in KW.
  destruct (text_eqb (c :: r) (txt "verdadeiro")) eqn:E1; [exfalso; apply KW; left; symmetry; now apply text_eqb_eq|].
  destruct (text_eqb (c :: r) (txt "falso")) eqn:E2; [exfalso; apply KW; right; left; symmetry; now apply text_eqb_eq|].
  destruct (text_eqb (c :: r) (txt "nulo")) eqn:E3; [exfalso; apply KW; right; right; left; symmetry; now apply text_eqb_eq|].
  rewrite (not_i64 c r PS), (not_f64 c r PS NN). destruct (N.leb_spec 128 c); [lia|]. unfold is_quote.
  destruct (N.eqb_spec c 34); [contradiction|]. destruct (N.eqb_spec c 39); [contradiction|]. reflexivity.
Qed.
Print Assumptions C16_pieces_partial.
Example C16_pieces_case : const_from_str (txt "Total: ") = Some (VStr (txt "Total: ")) /\ plain_start 84 /\ ~ named_number (txt "Total: ").
Proof. split; [reflexivity|]. split; [unfold plain_start; lia|]. intros [H|[H|H]]; discriminate H. Qed.

(** Every piece that begins with a character outside ASCII stops the loader: no
    format string with a piece like ["Área: "] can be run. *)
Theorem C16_accent_refuted : forall c r, (128 <= c)%N -> const_from_str (c :: r) = None.
Proof.
  intros c r A. assert (PS : plain_start c) by (unfold plain_start; lia).
  assert (NN : ~ named_number (c :: r)).
  { assert (L : lower c = c) by (unfold lower; destruct (N.leb_spec 65 c), (N.leb_spec c 90); try reflexivity; lia).
    intros [H|[H|H]]; cbn [map] in H; rewrite L in H; apply (f_equal (hd 0%N)) in H; cbn [hd] in H; subst c; vm_compute in A; apply A; reflexivity. }
  assert (D : forall k, text_eqb (c :: r) k = true -> hd 0%N k = c) by (intros k H; apply text_eqb_eq in H; now subst k).
  unfold const_from_str.
  destruct (text_eqb (c :: r) (txt "verdadeiro")) eqn:E1; [apply D in E1; vm_compute in E1; lia|].
  destruct (text_eqb (c :: r) (txt "falso")) eqn:E2; [apply D in E2; vm_compute in E2; lia|].
  destruct (text_eqb (c :: r) (txt "nulo")) eqn:E3; [apply D in E3; vm_compute in E3; lia|].
  rewrite (not_i64 c r PS), (not_f64 c r PS NN). destruct (N.leb_spec 128 c); [reflexivity|lia].
Qed.
Print Assumptions C16_accent_refuted.

(** A piece that begins with a quote loses its first and its last character,
    whatever the last one is. *)
Theorem C16_quote_refuted : forall q r d, (q = 34 \/ q = 39)%N -> (d < 128)%N -> const_from_str (q :: r ++ [d]) = Some (VStr r).
Proof.
  intros q r d Q D. assert (PS : plain_start q) by (unfold plain_start; lia).
  assert (NN : ~ named_number (q :: r ++ [d])).
  { intros H. unfold named_number in H. cbn [map] in H. destruct Q as [-> | ->]; destruct H as [H|[H|H]]; discriminate H. }
  unfold const_from_str. rewrite (not_i64 q _ PS), (not_f64 q _ PS NN).
  assert (K : forall k, hd 0%N k <> q -> text_eqb (q :: r ++ [d]) k = false).
  { intros k H. destruct (text_eqb (q :: r ++ [d]) k) eqn:X; [|reflexivity]. apply text_eqb_eq in X. subst k. contradiction. }
  rewrite !K by (vm_compute; destruct Q; subst q; discriminate). destruct (N.leb_spec 128 q); [lia|].
  replace (is_quote q) with true by (destruct Q as [-> | ->]; reflexivity). rewrite rev_app_distr. cbn [rev app]. destruct (N.leb_spec 128 d); [lia|]. now rewrite rev_involutive.
Qed.
Print Assumptions C16_quote_refuted.
Example C16_quote_case : const_from_str (txt "'a', ") = Some (VStr (txt "a',")).
Proof. reflexivity. Qed.
