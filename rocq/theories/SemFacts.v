(** Facts about the interpreter of [Sem.v]. *)
From Verif Require Import Base BaseFacts Value ValueFacts Ast Spec_Value Spec_Tables Sem SemWf Spec_Sem.

Lemma bind_done r f o c : bind r f = Done o c -> exists o1 c1, r = Done o1 c1 /\ f o1 c1 = Done o c.
Proof. destruct r; cbn; try discriminate. eauto. Qed.
Lemma bindv_done r f o c : bindv r f = Done o c -> exists v c1, r = Done (OVal v) c1 /\ f v c1 = Done o c.
Proof. unfold bindv. intros H. apply bind_done in H as (o1 & c1 & H1 & H). destruct o1; try discriminate. eauto. Qed.
Lemma promote_done pr r o c : promote pr r = Done o c -> exists o1, r = Done o1 c /\ match o with OVal _ => exists v, o1 = OVal v | o => o1 = o end.
Proof.
  unfold promote. destruct pr; [|intros ->; exists o; destruct o; eauto]. intros H. apply bindv_done in H as (v & c1 & -> & H).
  destruct v; try discriminate. injection H as <- <-. eauto.
Qed.
Lemma lift_done w r c o c' : lift w r c = Done o c' -> c' = c /\ exists v, r = ROk v /\ o = OVal v.
Proof. destruct r; cbn; try discriminate. intros H. injection H as <- <-. eauto. Qed.

(** A jump or an end of a sequence is never a value. *)
Definition isval (o : out) : bool := match o with OVal _ => true | _ => false end.
Definition noval (r : res) : Prop := forall o c, r = Done o c -> isval o = false.
Lemma seq_noval f l : forall c, noval (run_seq f l c).
Proof.
  induction l as [|y l IH]; intros c o c' H; cbn in H; [injection H as <- <-; reflexivity|].
  apply bind_done in H as (o1 & c1 & _ & H). destruct o1; try (injection H as <- <-; reflexivity); eapply IH, H.
Qed.
Lemma popr_noval r : noval r -> noval (popr r).
Proof. intros N o c H. unfold popr in H. apply bind_done in H as (o1 & c1 & -> & H). injection H as <- <-. eapply N. reflexivity. Qed.
Lemma block_noval f b c : noval (run_block f b c).
Proof. destruct b; cbn; try (intros ? ?; discriminate). apply popr_noval, seq_noval. Qed.
Lemma elifs_noval f k l : (forall c, noval (k c)) -> forall c, noval (run_elifs f k l c).
Proof.
  intros K. induction l as [|y l IH]; intros c; cbn; [apply K|]. destruct y; try (intros ? ?; discriminate). intros o c' H.
  apply bindv_done in H as (v & c1 & _ & H). destruct v; try discriminate. destruct b; [eapply block_noval, H|eapply IH, H].
Qed.

Section Keep.
Variable E : ext.
Variable S : senv.
Lemma again_noval rec m d x : (forall c, noval (rec (Again x) m d c)) -> (forall c, noval (rec (Test x) m d c)) -> is_stmt x = true -> forall c, noval (ev E S rec m d x c).
Proof.
  intros HA HT ST c o c' H. destruct x; try discriminate ST; cbn [ev] in H.
  all: repeat match goal with
    | H : bindv _ _ = Done _ _ |- _ => apply bindv_done in H as (? & ? & _ & H); cbv beta in H
    | H : bind _ _ = Done _ _ |- _ => apply bind_done in H as (? & ? & ? & H); cbv beta in H
    | H : run_block _ _ _ = Done _ _ |- _ => exact (block_noval _ _ _ _ _ H)
    | H : Done _ _ = Done _ _ |- _ => injection H as <- <-
    | H : write_var _ _ _ _ = Done _ _ |- _ => unfold write_var in H
    | H : declare _ _ _ _ = Done _ _ |- _ => unfold declare in H
    | H : match ?x with _ => _ end = Done _ _ |- _ => destruct x; try discriminate H
    | |- isval _ = false => reflexivity
    end.
  all: try (eapply HA; eassumption); try (eapply HT; eassumption).
  all: try (eapply elifs_noval; [|eassumption]; intros ?; destruct el; [apply block_noval|intros ? ? X; injection X as <- <-; reflexivity]).
  all: try (match goal with H : run_block _ _ _ = Done (OVal _) _ |- _ => pose proof (block_noval _ _ _ _ _ H); discriminate end).
destruct quebra; reflexivity.
Qed.
Lemma exec_noval n : forall m d x c, (is_stmt x = true -> noval (exec E S n (Again x) m d c)) /\ noval (exec E S n (Test x) m d c).
Proof.
  induction n as [|n IH]; intros m d x c; [split; [intros _|]; intros o c' H; discriminate H|]. split.
  - intros ST. cbn [exec]. apply again_noval; [|intros; apply IH|exact ST]. intros. apply IH, ST.
  - cbn [exec]. intros o c' H. unfold para_round in H. destruct x; try discriminate H.
    repeat match goal with
    | H : bindv _ _ = Done _ _ |- _ => apply bindv_done in H as (? & ? & _ & H); cbv beta in H
    | H : bind _ _ = Done _ _ |- _ => apply bind_done in H as (? & ? & ? & H); cbv beta in H
    | H : Done _ _ = Done _ _ |- _ => injection H as <- <-
    | H : match ?x with _ => _ end = Done _ _ |- _ => destruct x; try discriminate H
    | |- isval _ = false => reflexivity
    end.
    all: try (eapply IH; eassumption).
    match goal with H : run_block _ _ _ = Done (OVal _) _ |- _ => pose proof (block_noval _ _ _ _ _ H); discriminate end.
Qed.
Lemma stmt_noval n m d x c : is_stmt x = true -> noval (ev E S (exec E S n) m d x c).
Proof. intros ST. apply again_noval; [intros; apply exec_noval, ST|intros; apply exec_noval|exact ST]. Qed.

(** Leaving or repeating a loop never goes beyond that loop. *)
Definition isjump (o : out) : bool := match o with OBrk | OCont => true | _ => false end.
Lemma para_nojump n : forall m d x c o c', exec E S n (Test x) m d c = Done o c' -> isjump o = false.
Proof.
  induction n as [|n IH]; intros m d x c o c' H; [discriminate|]. cbn [exec] in H. unfold para_round in H. destruct x; try discriminate H.
  repeat match goal with
    | H : bindv _ _ = Done _ _ |- _ => apply bindv_done in H as (? & ? & _ & H); cbv beta in H
    | H : bind _ _ = Done _ _ |- _ => apply bind_done in H as (? & ? & ? & H); cbv beta in H
    | H : Done _ _ = Done _ _ |- _ => injection H as <- <-
    | H : match ?x with _ => _ end = Done _ _ |- _ => destruct x; try discriminate H
    | |- isjump _ = false => reflexivity
    end; eapply IH; eassumption.
Qed.
Lemma enquanto_nojump ln cnd b m d n : forall c o c', exec E S n (Again (NEnquanto ln cnd b)) m d c = Done o c' -> isjump o = false.
Proof.
  induction n as [|n IH]; intros c o c' H; [discriminate|]. cbn [exec ev] in H.
  repeat match goal with
    | H : bindv _ _ = Done _ _ |- _ => apply bindv_done in H as (? & ? & _ & H); cbv beta in H
    | H : bind _ _ = Done _ _ |- _ => apply bind_done in H as (? & ? & ? & H); cbv beta in H
    | H : Done _ _ = Done _ _ |- _ => injection H as <- <-
    | H : match ?x with _ => _ end = Done _ _ |- _ => destruct x; try discriminate H
    | |- isjump _ = false => reflexivity
    end; eapply IH; eassumption.
Qed.
Lemma loop_nojump n m d x c o c' : match x with NEnquanto _ _ _ | NPara _ _ _ _ _ _ => True | _ => False end ->
  ev E S (exec E S n) m d x c = Done o c' -> isjump o = false.
Proof.
  intros HX H. destruct x; try contradiction.
  - eapply (enquanto_nojump _ _ _ m d (Datatypes.S n)). exact H.
  - cbn [ev] in H. apply bindv_done in H as (v & c1 & _ & H). eapply para_nojump, H.
Qed.

(** Expressions change nothing but what [R] allows. *)
Variable R : cfg -> cfg -> Prop.
Hypothesis Rr : forall c, R c c.
Hypothesis Rt : forall a b c, R a b -> R b c -> R a c.
Hypothesis Ra : forall c x, R c (set_w c (fst (halloc (k_w c) x))).
Variable ok : node -> bool.
Variables (n : nat) (m : option N) (d : nat).
Notation EV := (ev E S (exec E S n) m d).
Definition keeps (x : node) : Prop := ok x = true -> forall v c c', EV x c = Done (OVal v) c' -> R c c'.
Lemma args_keep l : Forall keeps l -> forallb ok l = true -> forall c k v c', run_args EV l c k = Done (OVal v) c' -> exists vs c1, R c c1 /\ k vs c1 = Done (OVal v) c'.
Proof.
  induction 1 as [|x l H HL IH]; intros O c k v c' X; cbn in X; [exists [], c; auto|]. cbn in O. apply andb_prop in O as [O1 O2].
  apply bindv_done in X as (u & c1 & X1 & X). apply (IH O2) in X as (vs & c2 & X2 & X). exists (u :: vs), c2. split; [|exact X]. eapply Rt; [eapply H; eauto|exact X2].
Qed.
Lemma fields_keep l : (forall ln nm e, ok (NNamed ln nm e) = true -> ok e = true) -> Forall (fun x => match x with NNamed _ _ e => keeps e | _ => True end) l -> forallb ok l = true ->
  forall c k v c', run_fields EV l c k = Done (OVal v) c' -> exists vs c1, R c c1 /\ k vs c1 = Done (OVal v) c'.
Proof.
  intros ON. induction 1 as [|x l H HL IH]; intros O c k v c' X; cbn in X; [exists [], c; auto|]. cbn in O. apply andb_prop in O as [O1 O2]. destruct x; try discriminate X.
  apply bindv_done in X as (u & c1 & X1 & X). apply (IH O2) in X as (vs & c2 & X2 & X). exists ((name, u) :: vs), c2. split; [|exact X]. eapply Rt; [eapply H; [eapply ON, O1|exact X1]|exact X2].
Qed.
(** What [ok] must guarantee: it is inherited by sub-expressions, and calls are
    fine. *)
Record heredity : Prop := mkHer {
  he_un : forall ln op e pr, ok (NUn ln op e pr) = true -> ok e = true;
  he_bin : forall ln op nl nr l r pr, ok (NBin ln op nl nr l r pr) = true -> ok l = true /\ ok r = true;
  he_named : forall ln nm e, ok (NNamed ln nm e) = true -> ok e = true;
  he_conv : forall ln e t, ok (NConv ln e t) = true -> ok e = true;
  he_index : forall ln t i, ok (NIndex ln t i) = true -> ok t = true /\ ok i = true;
  he_fmt : forall ln ps, ok (NFmt ln ps) = true -> forallb ok ps = true;
  he_list : forall ln ps, ok (NList ln ps) = true -> forallb ok ps = true;
  he_get : forall ln t f, ok (NGet ln t f) = true -> ok t = true;
  he_field : forall ln t f, ok (NField ln t f) = true -> ok t = true;
  he_unwrap : forall ln o dv, ok (NUnwrap ln o dv) = true -> ok o = true /\ match dv with Some e => ok e = true | None => True end;
  he_args : forall ln k f args pr, ok (NCall ln k f args pr) = true -> forallb ok args = true;
  he_call : forall ln f args pr vs t c v c', ok (NCall ln CFunction f args pr) = true ->
     call_any E (exec E S n) d t vs c = Done (OVal v) c' -> R c c'
}.
Hypothesis HE : heredity.
Theorem expr_keeps x : keeps x /\ match x with NNamed _ _ e => keeps e | _ => True end.
Proof.
  induction x using node_ind'; (split; [|try exact I; try (destruct IHx; assumption)]).
  all: repeat match goal with
    | H : Forall _ _ |- _ => apply Forall_and_inv in H as [? ?]
    | H : optP _ _ |- _ => let dv := fresh in match type of H with optP _ ?o => destruct o as [dv|]; cbn [optP] in H; [destruct H|clear H] end
    | H : keeps _ /\ _ |- _ => destruct H
    end.
  all: intros O v0 k0 c' X.
  all: try (exfalso; assert (Y : isval (OVal v0) = false) by (eapply stmt_noval; [|exact X]; reflexivity); discriminate Y).
  all: cbn [ev] in X; try discriminate X.
  - apply promote_done in X as (o & X & _). destruct (lit_value _ _); [|discriminate]. injection X as _ <-. apply Rr.
  - apply promote_done in X as (o & X & _). unfold read_var in X. destruct (var_value _ _ _ _); [|discriminate]. injection X as _ <-. apply Rr.
  - unfold read_var in X. destruct (var_value _ _ _ _); [|discriminate]. injection X as _ <-. apply Rr.
  - destruct (se_tag _ _ _); [|discriminate]. destruct c; [discriminate|]. injection X as _ <-. apply Rr.
  - apply promote_done in X as (o & X & _). apply bindv_done in X as (u & c1 & X1 & X). apply lift_done in X as [-> _]. eapply H; [eapply he_un, O; apply HE|exact X1].
  - apply promote_done in X as (o & X & _). apply bindv_done in X as (u & c1 & X1 & X). apply bindv_done in X as (u2 & c2 & X2 & X).
    destruct (he_bin HE _ _ _ _ _ _ _ O) as [O1 O2].
    assert (c' = c2). { destruct (_ && _)%bool; [injection X as _ <-; reflexivity|]. apply lift_done in X as [-> _]. reflexivity. } subst c'.
    eapply Rt; [eapply H1|eapply H]; eassumption.
  - pose proof (he_args HE _ _ _ _ _ O) as OA. destruct k.
    + destruct x; try discriminate X. match type of X with (if ?p then _ else _) = _ => destruct p; [|discriminate X] end. destruct (se_tag _ _ _); [|discriminate].
      apply args_keep in X as (vs & c1 & R1 & X); [|assumption|exact OA]. injection X as _ <-. exact R1.
    + destruct x; try discriminate X. match type of X with (if ?p then _ else _) = _ => destruct p; [discriminate X|] end. apply promote_done in X as (o & X & Y). destruct Y as (u & ->).
      apply fields_keep in X as (vs & c1 & R1 & X); [|apply HE|assumption|exact OA]. destruct (look _ _); [discriminate|]. destruct (global_value _ _ _ _) as [[]|]; try discriminate.
      destruct (halloc _ _) as [w l] eqn:HA in X. injection X as _ <-. eapply Rt; [exact R1|]. replace w with (fst (halloc (k_w c1) (CObj name0 (fields_of vs)))) by (rewrite HA; reflexivity). apply Ra.
    + destruct x; try discriminate X. match type of X with (if ?p then _ else _) = _ => destruct p; [discriminate X|] end. apply promote_done in X as (o & X & Y). destruct Y as (u & ->).
      apply args_keep in X as (vs & c1 & R1 & X); [|assumption|exact OA]. destruct (call_target _ _ _ _); [|discriminate]. eapply Rt; [exact R1|]. eapply (he_call HE); eassumption.
  - destruct c as [[t ck]|].
    + apply bindv_done in X as (u & c1 & X1 & X). assert (c' = c1).
      { destruct (type_named _); [|discriminate]. destruct ck; [destruct (get_type u); [|discriminate]; destruct (vty_eqb _ _); [|discriminate]; injection X as _ <-; reflexivity|].
        apply lift_done in X as [-> _]. reflexivity. } subst c'. eapply H; [eapply he_conv, O; apply HE|exact X1].
    + apply bindv_done in X as (u & c1 & X1 & X). injection X as _ <-. eapply H; [eapply he_conv, O; apply HE|exact X1].
  - apply bindv_done in X as (u & c1 & X1 & X). apply bindv_done in X as (u2 & c2 & X2 & X). apply lift_done in X as [-> _].
    destruct (he_index HE _ _ _ O) as [O1 O2]. eapply Rt; [eapply H1|eapply H]; eassumption.
  - apply args_keep in X as (vs & c1 & R1 & X); [|assumption|eapply he_fmt, O; apply HE]. destruct (show_all _ _ _); [|discriminate]. injection X as _ <-. exact R1.
  - apply args_keep in X as (vs & c1 & R1 & X); [|assumption|eapply he_list, O; apply HE]. destruct (halloc _ _) as [w l] eqn:HA in X. injection X as _ <-.
    eapply Rt; [exact R1|]. replace w with (fst (halloc (k_w c1) (CVec vs))) by (rewrite HA; reflexivity). apply Ra.
  - apply bindv_done in X as (u & c1 & X1 & X). apply lift_done in X as [-> _]. eapply H; [eapply he_get, O; apply HE|exact X1].
  - apply bindv_done in X as (u & c1 & X1 & X). apply lift_done in X as [-> _]. eapply H; [eapply he_field, O; apply HE|exact X1].
  - destruct (he_unwrap HE _ _ _ O) as [O1 O2]. apply bindv_done in X as (u & c1 & X1 & X). apply bindv_done in X as (u2 & c2 & X2 & X). injection X as _ <-.
    eapply Rt; [eapply H2|eapply H]; eassumption.
  - destruct (he_unwrap HE _ _ _ O) as [O1 O2]. apply bindv_done in X as (u & c1 & X1 & X). destruct (is_none u); [discriminate|]. injection X as _ <-. eapply H; eassumption.
Qed.
End Keep.

(** Evaluating an expression leaves the local variables alone, whatever it
    calls. *)
Theorem expr_locals E S n m d x v c c' : ev E S (exec E S n) m d x c = Done (OVal v) c' -> k_l c' = k_l c.
Proof.
  intros H. symmetry. refine (proj1 (expr_keeps E S (fun c c' => k_l c = k_l c') _ _ _ (fun _ => true) n m d _ x) eq_refl v c c' H); try congruence; try reflexivity.
  assert (FT : forall l : list node, forallb (fun _ => true) l = true) by (induction l; auto).
  constructor; auto; try (intros; destruct dv; auto).
  intros ln f args pr vs t c0 v0 c1 _ X. destruct t; cbn [call_any] in X.
  - unfold call_user in X. destruct (negb _); [discriminate|]. destruct (_ <=? _)%nat; [discriminate|]. apply bind_done in X as (o & c2 & _ & X).
    destruct o; try discriminate; injection X as _ <-; reflexivity.
  - destruct (native _ _ _ _) as [[? ?]| |]; try discriminate. injection X as _ <-. reflexivity.
Qed.
(** One that calls no function changes nothing at all. *)
Theorem pure_unchanged E S n m d x v c c' : pure x = true -> ev E S (exec E S n) m d x c = Done (OVal v) c' -> unchanged c c'.
Proof.
  intros O H. refine (proj1 (expr_keeps E S unchanged _ _ _ pure n m d _ x) O v c c' H).
  - intros k. repeat split; auto. exists []. symmetry. apply app_nil_r.
  - intros a b k (A1 & A2 & A3 & A4 & t & A5) (B1 & B2 & B3 & B4 & t' & B5). repeat split; try congruence. exists (t ++ t'). rewrite B5, A5, app_assoc. reflexivity.
  - intros k x0. repeat split; auto. exists [x0]. reflexivity.
  - constructor; cbn [pure]; intros; try assumption.
    + apply andb_prop in H0. exact H0.
    + apply andb_prop in H0. exact H0.
    + apply andb_prop in H0 as [? ?]. destruct dv; auto.
    + destruct k; [assumption|assumption|discriminate].
    + discriminate.
Qed.

(** An expression that finishes has a value. *)
Lemma args_val f l : forall c k o c', run_args f l c k = Done o c' -> exists vs c1, k vs c1 = Done o c'.
Proof. induction l as [|x l IH]; intros c k o c' H; cbn in H; [eauto|]. apply bindv_done in H as (v & c1 & _ & H). apply IH in H as (vs & c2 & H). eauto. Qed.
Lemma fields_val f l : forall c k o c', run_fields f l c k = Done o c' -> exists vs c1, k vs c1 = Done o c'.
Proof.
  induction l as [|x l IH]; intros c k o c' H; cbn in H; [eauto|]. destruct x; try discriminate H.
  apply bindv_done in H as (v & c1 & _ & H). apply IH in H as (vs & c2 & H). eauto.
Qed.
Theorem expr_val E S rec m d x c o c' : is_stmt x = false -> ev E S rec m d x c = Done o c' -> exists v, o = OVal v.
Proof.
  intros NS X. destruct x; try discriminate NS; cbn [ev] in X; try discriminate X.
  all: repeat match goal with
    | H : promote _ _ = Done _ _ |- _ => apply promote_done in H as (? & H & ?)
    | H : bindv _ _ = Done _ _ |- _ => apply bindv_done in H as (? & ? & _ & H); cbv beta in H
    | H : lift _ _ _ = Done _ _ |- _ => apply lift_done in H as (_ & ? & _ & ->)
    | H : run_args _ _ _ _ = Done _ _ |- _ => apply args_val in H as (? & ? & H); cbv beta in H
    | H : run_fields _ _ _ _ = Done _ _ |- _ => apply fields_val in H as (? & ? & H); cbv beta in H
    | H : Done _ _ = Done _ _ |- _ => injection H as <- <-
    | H : call_any _ _ _ _ _ _ = Done _ _ |- _ => unfold call_any in H
    | H : call_user _ _ _ _ _ _ = Done _ _ |- _ => unfold call_user in H
    | H : read_var _ _ _ _ = Done _ _ |- _ => unfold read_var in H
    | H : bind _ _ = Done _ _ |- _ => apply bind_done in H as (? & ? & _ & H); cbv beta in H
    | H : match ?x with _ => _ end = Done _ _ |- _ => destruct x; try discriminate H
    | H : match ?x with _ => _ end |- _ => destruct x; try discriminate H
    | H : exists _, _ = _ |- _ => destruct H as [? H]
    end.
  all: try (eexists; reflexivity); try congruence; eauto.
Qed.

(** ** More fuel *)
Definition upto (r r' : res) : Prop := r = Fuel \/ r' = r.
Lemma upto_refl r : upto r r. Proof. right. reflexivity. Qed.
Lemma upto_bind r r' f f' : upto r r' -> (forall o c, upto (f o c) (f' o c)) -> upto (bind r f) (bind r' f').
Proof. intros [->| ->] H; [left; reflexivity|]. destruct r; cbn; try apply upto_refl. apply H. Qed.
Lemma upto_bindv r r' f f' : upto r r' -> (forall v c, upto (f v c) (f' v c)) -> upto (bindv r f) (bindv r' f').
Proof. intros H K. apply upto_bind; [exact H|]. intros [] c; try apply upto_refl. apply K. Qed.
Lemma upto_promote pr r r' : upto r r' -> upto (promote pr r) (promote pr r').
Proof. intros H. destruct pr; [|exact H]. apply upto_bindv; [exact H|]. intros. apply upto_refl. Qed.
Lemma upto_popr r r' : upto r r' -> upto (popr r) (popr r').
Proof. intros H. apply upto_bind; [exact H|]. intros. apply upto_refl. Qed.
Section Mono.
Variables (f f' : node -> cfg -> res).
Definition up (x : node) : Prop := forall c, upto (f x c) (f' x c).
Lemma up_seq l : Forall up l -> forall c, upto (run_seq f l c) (run_seq f' l c).
Proof.
  induction 1 as [|x l H _ IH]; intros c; [apply upto_refl|]. cbn. apply upto_bind; [apply H|]. intros [] c1; try apply upto_refl; apply IH.
Qed.
Lemma up_args l : Forall up l -> forall c k k', (forall vs c, upto (k vs c) (k' vs c)) -> upto (run_args f l c k) (run_args f' l c k').
Proof. induction 1 as [|x l H _ IH]; intros c k k' K; cbn; [apply K|]. apply upto_bindv; [apply H|]. intros v c1. apply IH. intros. apply K. Qed.
Lemma up_fields l : Forall (fun x => match x with NNamed _ _ e => up e | _ => True end) l -> forall c k k', (forall vs c, upto (k vs c) (k' vs c)) -> upto (run_fields f l c k) (run_fields f' l c k').
Proof.
  induction 1 as [|x l H _ IH]; intros c k k' K; cbn; [apply K|]. destruct x; try apply upto_refl. apply upto_bindv; [apply H|]. intros v c1. apply IH. intros. apply K.
Qed.
Definition upb (b : node) : Prop := match b with NBlock _ ch => Forall up ch | _ => True end.
Lemma up_block b : upb b -> forall c, upto (run_block f b c) (run_block f' b c).
Proof. destruct b; cbn; intros H k0; try apply upto_refl. apply upto_popr, up_seq, H. Qed.
Lemma up_elifs l k k' : Forall (fun x => match x with NSenaoSe _ c b => up c /\ upb b | _ => True end) l -> (forall c, upto (k c) (k' c)) -> forall c, upto (run_elifs f k l c) (run_elifs f' k' l c).
Proof.
  intros H K. induction H as [|x l H _ IH]; intros c; cbn; [apply K|]. destruct x; try apply upto_refl. destruct H as [H1 H2].
  apply upto_bindv; [apply H1|]. intros [] c1; try apply upto_refl. destruct b; [apply up_block, H2|apply IH].
Qed.
End Mono.
Section MonoE.
Variable E : ext.
Variable S : senv.
Variables (rec rec' : recfun) (m : option N) (d : nat).
Hypothesis HR : forall it m d c, upto (rec it m d c) (rec' it m d c).
Notation U := (up (ev E S rec m d) (ev E S rec' m d)).
Notation UB := (upb (ev E S rec m d) (ev E S rec' m d)).
Definition ukids (x : node) : Prop :=
  match x with NNamed _ _ e => U e | NSenaoSe _ c b => U c /\ UB b | NBlock _ ch => Forall U ch | NAssign _ _ _ r _ => U r | _ => True end.
Lemma ukids_b x : ukids x -> UB x. Proof. destruct x; cbn; auto. Qed.
Lemma up_call t vs c : upto (call_any E rec d t vs c) (call_any E rec' d t vs c).
Proof.
  destruct t; cbn; [|apply upto_refl]. unfold call_user. destruct (negb _); [apply upto_refl|]. destruct (_ <=? _)%nat; [apply upto_refl|].
  apply upto_bind; [apply HR|]. intros. apply upto_refl.
Qed.
Lemma ev_up x : U x /\ ukids x.
Proof.
  induction x using node_ind'.
  all: repeat match goal with
    | H : Forall _ _ |- _ => apply Forall_and_inv in H as [? ?]
    | H : optP _ ?o |- _ => let dv := fresh "dv" in destruct o as [dv|]; cbn [optP] in H; [destruct H|clear H]
    | H : U _ /\ _ |- _ => destruct H
    end.
  all: (split; [intros k0; cbn [ev]|cbn [ukids]; auto using ukids_b]).
  all: repeat match goal with
    | |- upto ?x ?x => apply upto_refl
    | |- upto (promote _ _) (promote _ _) => apply upto_promote
    | H : U ?x |- upto (ev _ _ rec _ _ ?x ?c) _ => apply H
    | |- upto (bindv _ _) (bindv _ _) => apply upto_bindv; [|intros]
    | |- upto (bind _ _) (bind _ _) => apply upto_bind; [|intros]
    | |- upto (run_args _ _ _ _) _ => apply up_args; [assumption|intros]
    | |- upto (run_fields _ _ _ _) _ => apply up_fields; [|intros]
    | |- upto (run_block _ _ _) _ => apply up_block, ukids_b; assumption
    | |- upto (run_elifs _ _ _ _) _ => apply up_elifs; [|intros]
    | |- upto (call_any _ _ _ _ _ _) _ => apply up_call
    | |- upto (rec _ _ _ _) _ => apply HR
    | |- upto (match ?x with _ => _ end) _ => destruct x; try apply upto_refl
    end.
  all: try (eapply Forall_impl; [|eassumption]; intros [] K; try exact I; exact K || (cbn in K; destruct K; auto using ukids_b)).
  all: try (match goal with H : ukids (NAssign _ _ _ ?r _) |- upto (ev _ _ rec _ _ ?r ?c) _ => apply H end).
  all: try match goal with H : U ?x |- upto (match ?x with _ => _ end) _ => idtac end.
Qed.
End MonoE.
Lemma exec_up E S n : forall n', (n <= n')%nat -> forall it m d c, upto (exec E S n it m d c) (exec E S n' it m d c).
Proof.
  induction n as [|n IH]; intros n' L it m d c; [left; reflexivity|]. destruct n' as [|n']; [lia|].
  assert (H : forall it m d c, upto (exec E S n it m d c) (exec E S n' it m d c)) by (apply IH; lia). cbn [exec]. destruct it.
  - apply ev_up, H.
  - unfold para_round. pose proof (fun y => proj1 (ev_up E S (exec E S n) (exec E S n') m d H y)) as UU.
    destruct x; try apply upto_refl.
    repeat match goal with
    | |- upto ?x ?x => apply upto_refl
    | |- upto (bindv _ _) (bindv _ _) => apply upto_bindv; [|intros]
    | |- upto (bind _ _) (bind _ _) => apply upto_bind; [|intros]
    | |- upto (ev _ _ _ _ _ _ _) _ => apply UU
    | |- upto (run_block _ _ _) _ => apply up_block; match goal with |- upb _ _ ?b => destruct b; cbn; auto; apply Forall_forall; intros; apply UU end
    | |- upto (exec _ _ _ _ _ _ _) _ => apply H
    | |- upto (match ?x with _ => _ end) _ => destruct x; try apply upto_refl
    end.
  - apply upto_popr, up_seq, Forall_forall. intros. apply ev_up, H.
Qed.
Lemma ev_more E S n n' m d x c r : (n <= n')%nat -> ev E S (exec E S n) m d x c = r -> r <> Fuel -> ev E S (exec E S n') m d x c = r.
Proof. intros L H NF. destruct (proj1 (ev_up E S (exec E S n) (exec E S n') m d (exec_up E S n n' L) x) c) as [X|X]; congruence. Qed.
Lemma block_more E S n n' m d x c r : (n <= n')%nat -> run_block (ev E S (exec E S n) m d) x c = r -> r <> Fuel -> run_block (ev E S (exec E S n') m d) x c = r.
Proof.
  intros L H NF. destruct (up_block (ev E S (exec E S n) m d) (ev E S (exec E S n') m d) x) with (c := c) as [X|X]; [|congruence|congruence].
  destruct x; cbn; auto. apply Forall_forall. intros. apply ev_up, exec_up, L.
Qed.
Lemma seq_more E S n n' m d x c r : (n <= n')%nat -> run_seq (ev E S (exec E S n) m d) x c = r -> r <> Fuel -> run_seq (ev E S (exec E S n') m d) x c = r.
Proof.
  intros L H NF. destruct (up_seq (ev E S (exec E S n) m d) (ev E S (exec E S n') m d) x) with (c := c) as [X|X]; [|congruence|congruence].
  apply Forall_forall. intros. apply ev_up, exec_up, L.
Qed.

(** ** Counting loops *)
Lemma rounds_exec E S k m d ln n start stop inc blk c zs c' : rounds S (ev E S (exec E S k) m d) m n stop inc blk c zs c' ->
  exec E S (Datatypes.S (k + List.length zs)) (Test (NPara ln n start stop inc blk)) m d c = Done ONorm (pop_scope c').
Proof.
  induction 1 as [c i s c1 V F LE|c i s c1 c2 z c3 i' c4 zs c' V F LT B I V' RG W R IH].
  - cbn [exec para_round]. rewrite Nat.add_0_r. unfold read_var. rewrite V. cbn [bindv bind]. rewrite F. cbn [bindv bind].
    change (sem_binop BLt (VInt i) (VInt s)) with (ROk (VBool (i <? s)%Z)). replace (i <? s)%Z with false by lia. reflexivity.
  - set (x := NPara ln n start stop inc blk) in *. assert (L : (k <= k + List.length (i :: zs))%nat) by lia.
    change (exec E S (Datatypes.S (k + List.length (i :: zs))) (Test x) m d c) with (para_round E S (exec E S (k + List.length (i :: zs))) m d x c).
    unfold para_round, x. fold x. unfold read_var at 1. rewrite V. cbn [bindv bind].
    rewrite (ev_more _ _ _ _ _ _ _ _ _ L F) by discriminate. cbn [bindv bind].
    change (sem_binop BLt (VInt i) (VInt s)) with (ROk (VBool (i <? s)%Z)). replace (i <? s)%Z with true by lia. cbn [lift bindv bind].
    rewrite (block_more _ _ _ _ _ _ _ _ _ L B) by discriminate. cbn [bind].
    assert (X : match inc with Some e => ev E S (exec E S (k + List.length (i :: zs))) m d e c2 | None => Done (OVal (VInt 1)) c2 end = Done (OVal (VInt z)) c3).
    { destruct inc as [e|]; [apply (ev_more _ _ _ _ _ _ _ _ _ L I); discriminate|destruct I as [-> ->]; reflexivity]. }
    rewrite X. cbn [bindv bind]. unfold read_var. rewrite V'. cbn [bindv bind].
    change (sem_binop BAdd (VInt z) (VInt i')) with (in_range (z + i')). unfold in_range. rewrite (Z.add_comm z i'). replace ((- 2 ^ 63 <=? i' + z) && (i' + z <? 2 ^ 63))%Z with true by lia.
    cbn [lift bindv bind]. rewrite W. cbn [bind]. cbn [List.length]. rewrite Nat.add_succ_r. exact IH.
Qed.
Lemma range_nil a b k : (0 < k)%Z -> (b <= a)%Z -> range a b k = [].
Proof. intros K L. unfold range. replace (Z.to_nat ((b - a + k - 1) / k)) with O; [reflexivity|]. assert ((b - a + k - 1) / k < 1)%Z by (apply Z.div_lt_upper_bound; lia). lia. Qed.
Lemma range_cons a b k : (0 < k)%Z -> (a < b)%Z -> range a b k = a :: range (a + k) b k.
Proof.
  intros K L. unfold range. assert (X : ((b - a + k - 1) / k = 1 + (b - (a + k) + k - 1) / k)%Z).
  { replace (b - a + k - 1)%Z with ((b - (a + k) + k - 1) + 1 * k)%Z by lia. rewrite Z.div_add by lia. lia. }
  assert (Y : (0 <= (b - (a + k) + k - 1) / k)%Z) by (apply Z.div_pos; lia).
  rewrite X. rewrite Z2Nat.inj_add by lia. change (Z.to_nat 1) with 1%nat. cbn [Nat.add seq map]. f_equal; [lia|].
  rewrite <- seq_shift, map_map. apply map_ext. intros j. lia.
Qed.
Lemma update_look l n v l' : update l n v = Some l' -> look l' n = Some v.
Proof.
  revert l'. induction l as [|sc l IH]; intros l' H; cbn in H; [discriminate|]. destruct (assoc n sc) eqn:A.
  - injection H as <-. cbn. rewrite assoc_set_eq. reflexivity.
  - destruct (update l n v) as [l2|]; [|discriminate]. injection H as <-. cbn. rewrite A. apply IH. reflexivity.
Qed.
Lemma look_update l n v u : look l n = Some u -> exists l', update l n v = Some l'.
Proof.
  induction l as [|sc l IH]; cbn; [discriminate|]. destruct (assoc n sc); [eauto|]. intros H. destruct (IH H) as [l' ->]. cbn. eauto.
Qed.
(** Fixed bounds and a body that leaves the counter alone. *)
Lemma rounds_range S f m n stop inc blk b k : (0 < k)%Z ->
  (forall c, f stop c = Done (OVal (VInt b)) c) ->
  match inc with Some e => forall c, f e c = Done (OVal (VInt k)) c | None => k = 1%Z end ->
  (forall c c2 u, run_block f blk c = Done ONorm c2 -> look (k_l c) n = Some u -> look (k_l c2) n = Some u) ->
  forall c zs c' a, rounds S f m n stop inc blk c zs c' -> look (k_l c) n = Some (VInt a) -> zs = range a b k.
Proof.
  intros K HS HI HB c zs c' a R. revert a.
  induction R as [c i s c1 V F LE|c i s c1 c2 z c3 i' c4 zs c' V F LT B I V' RG W R IH]; intros a A.
  - unfold var_value in V. rewrite A in V. injection V as <-. rewrite HS in F. injection F as <- <-. symmetry. apply range_nil; lia.
  - unfold var_value in V. rewrite A in V. injection V as <-. rewrite HS in F. injection F as <- <-. rewrite range_cons by lia. f_equal.
    assert (Z3 : z = k /\ c3 = c2). { destruct inc as [e|]; [rewrite HI in I; injection I as <- <-; auto|destruct I as [-> ->]; auto]. } destruct Z3 as [-> ->].
    pose proof (HB _ _ _ B A) as A2. unfold var_value in V'. rewrite A2 in V'. injection V' as <-. apply IH.
    unfold write_var in W. destruct (look_update _ _ (VInt (a + k)) _ A2) as [l' U]. rewrite U in W. injection W as <-. cbn. eapply update_look, U.
Qed.
