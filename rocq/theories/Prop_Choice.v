(** C21: [escolha].  [Prop_Front.v] has a program in which the examined
    expression is evaluated once for each case (C21_examined_once_refuted); here:
    the block that runs, whenever evaluating it again changes nothing. *)
From Verif Require Import Base BaseFacts Dec Bson Value Ast Types Syntax Sym Exhaust Check Front Sem Spec_Value ValueFacts Ex_Front.
From Coq Require Import String.
Local Open Scope chk_scope.

(** ** Specification *)
(** What the compiler makes of one case: the value it names, the examined
    expression, its block. *)
Record row := mkRow { r_case : node; r_subject : node; r_block : node }.
Definition row_of (st : store) (lex : nat) (e : tx) (cb : tx * tx) (r : row) : Prop :=
  exists c0 c1 c2 c3, lower st lex (fst cb) c0 = LOk (r_case r, c1) /\ lower st lex e c1 = LOk (r_subject r, c2) /\ lower st lex (snd cb) c2 = LOk (r_block r, c3).
(** Equality of two integers or two texts. *)
Definition equals (a b : value) : option bool :=
  match a, b with
  | VInt x, VInt y => Some (x =? y)%Z
  | VStr s, VStr t => Some (if list_eq_dec N.eq_dec s t then true else false)
  | _, _ => None
  end.
(** The block of the first case whose value equals [v]. *)
Inductive chosen (v : value) : list value -> list row -> option node -> Prop :=
| ch_none : chosen v [] [] None
| ch_here w ws r rs : equals w v = Some true -> chosen v (w :: ws) (r :: rs) (Some (r_block r))
| ch_later w ws r rs b : equals w v = Some false -> chosen v ws rs b -> chosen v (w :: ws) (r :: rs) b.
Definition still (E : ext) (S : senv) (rec : recfun) (m : option N) (d : nat) (c : cfg) (x : node) (v : value) : Prop :=
  ev E S rec m d x c = Done (OVal v) c.

(** ** Proofs *)
Lemma eq_step E S rec m d c ln a b w v t : still E S rec m d c a w -> still E S rec m d c b v -> equals w v = Some t ->
  ev E S rec m d (NBin ln BEq false false a b false) c = Done (OVal (VBool t)) c.
Proof.
  unfold still. intros A B Q. cbn [ev promote orb andb]. rewrite A. cbn [bindv bind]. rewrite B. cbn [bindv bind].
  destruct w, v; try discriminate Q; cbn [equals] in Q; injection Q as <-.
  - reflexivity.
  - cbn. destruct (list_eq_dec N.eq_dec t0 t1) as [->|NE]; [rewrite text_eqb_refl; reflexivity|]. destruct (text_eqb t0 t1) eqn:T; [apply text_eqb_eq in T; contradiction|reflexivity].
Qed.
Section Run.
Variable E : ext.
Variable S : senv.
Variable rec : recfun.
Variable m : option N.
Variable d : nat.
Notation ev := (ev E S rec m d).
Definition elif_of (ln : Z) (r : row) : node := NSenaoSe ln (NBin ln BEq false false (r_case r) (r_subject r) false) (r_block r).
Lemma elifs_run k ln v c ws rs b : chosen v ws rs b -> Forall (fun r => still E S rec m d c (r_subject r) v) rs -> Forall2 (fun r w => still E S rec m d c (r_case r) w) rs ws ->
  run_elifs ev k (map (elif_of ln) rs) c = match b with Some b => run_block ev b c | None => k c end.
Proof.
  induction 1 as [|w ws r rs Q|w ws r rs b Q CH IH]; intros A B; [reflexivity| |]; inversion A as [|x0 l0 A1 A2]; subst; inversion B as [|x1 y1 l1 l2 B1 B2]; subst; cbn [map elif_of run_elifs];
    rewrite (eq_step _ _ _ _ _ _ ln _ _ _ _ _ B1 A1 Q); cbn [bindv bind]; [reflexivity|apply IH; assumption].
Qed.
End Run.
Lemma se_eq E S rec m d ln q th l el c : ev E S rec m d (NSe ln q th l el) c =
  bindv (ev E S rec m d q c) (fun v c => match v with
    | VBool true => run_block (ev E S rec m d) th c
    | VBool false => run_elifs (ev E S rec m d) (fun c => match el with Some b => run_block (ev E S rec m d) b c | None => Done ONorm c end) l c
    | _ => Stuck end).
Proof. reflexivity. Qed.
Lemma lower_case st lex ln e c cur n cur' : is_nulo (tx_ty e) = false -> is_nulo (tx_ty c) = false -> lower st lex (TBin ln BEq c e t_false false) cur = LOk (n, cur') ->
  exists a b c1, lower st lex c cur = LOk (a, c1) /\ lower st lex e c1 = LOk (b, cur') /\ n = NBin ln BEq false false a b false.
Proof.
  intros N1 N2 L. cbn [lower] in L. rewrite N1, N2 in L. destruct (lower st lex c cur) as [[a c1]| |]; try discriminate L. cbn [lbind] in L.
  destruct (lower st lex e c1) as [[b c2]| |] eqn:L2; try discriminate L. cbn [lbind] in L. injection L as <- <-. exists a, b, c1. auto.
Qed.
Lemma lower_elifs st lex ln e (r : list (tx * tx)) : is_nulo (tx_ty e) = false -> Forall (fun p => is_nulo (tx_ty (fst p)) = false) r -> forall cur ns cur',
  lseq (lower st lex) (map (fun p => TSenaoSe ln (TBin ln BEq (fst p) e t_false false) (snd p)) r) cur = LOk (ns, cur') ->
  exists rs, Forall2 (row_of st lex e) r rs /\ ns = map (elif_of ln) rs.
Proof.
  intros NE. induction 1 as [|[c b] r N FA IH]; intros cur ns cur' L; cbn [map lseq] in L; [injection L as <- _; exists []; auto|]. cbn [fst snd] in *.
  match type of L with lbind ?y _ = _ => destruct y as [[n1 c1]| |] eqn:L1; try discriminate L end. cbn [lbind] in L.
  match type of L with lbind ?y _ = _ => destruct y as [[n2 c2]| |] eqn:L2; try discriminate L end. cbn [lbind] in L. injection L as <- _.
  destruct (IH _ _ _ L2) as (rs & FR & ->). change (lbind (lower st lex (TBin ln BEq c e t_false false) cur) (fun p => let '(c0, cur0) := p in lbind (lower st lex b cur0) (fun p => let '(b0, cur1) := p in LOk (NSenaoSe ln c0 b0, cur1))) = LOk (n1, c1)) in L1.
  destruct (lower st lex (TBin ln BEq c e t_false false) cur) as [[nc c3]| |] eqn:LC; try discriminate L1. cbn [lbind] in L1.
  destruct (lower st lex b c3) as [[nb c4]| |] eqn:LB; try discriminate L1. cbn [lbind] in L1. injection L1 as <- _.
  destruct (lower_case _ _ _ _ _ _ _ _ NE N LC) as (a & s & c5 & A1 & A2 & ->). exists (mkRow a s nb :: rs). split; [constructor; [|exact FR]|reflexivity].
  exists cur, c5, c3, c4. auto.
Qed.

(** ** C21 *)
(** The compiled [escolha], when the examined expression and the values of the
    cases (integers or texts) can be evaluated without effect: it is the block of
    the first case with an equal value, the default block if there is none, or
    nothing - and then it is over. *)
Theorem C21_first_case_partial : forall st lex ln e cases df cur nd cur',
  is_nulo (tx_ty e) = false -> Forall (fun p => is_nulo (tx_ty (fst p)) = false) cases ->
  lower st lex (trans_escolha ln e cases df) cur = LOk (nd, cur') ->
  exists rows dn, Forall2 (row_of st lex e) cases rows /\
    (match df with Some b => exists c1 c2 n, lower st lex b c1 = LOk (n, c2) /\ dn = Some n | None => dn = None end) /\
    forall E S rec m d c v ws b,
      Forall (fun r => still E S rec m d c (r_subject r) v) rows ->
      Forall2 (fun r w => still E S rec m d c (r_case r) w) rows ws ->
      chosen v ws rows b ->
      ev E S rec m d nd c =
      match b, dn with
      | Some b, _ | None, Some b => run_block (ev E S rec m d) b c
      | None, None => Done ONorm c
      end.
Proof.
  intros st lex ln e cases df cur nd cur' NE NC L. destruct cases as [|[c0 b0] r].
  - destruct df as [b|]; cbn [trans_escolha] in L.
    + cbn [lower lseq lopt lbind] in L. destruct (lower st lex b cur) as [[n c2]| |] eqn:LB; try discriminate L. cbn [lbind] in L. injection L as <- _.
      exists [], (Some n). split; [constructor|]. split; [eauto 10|]. intros. inversion H0; subst. inversion H1; subst. reflexivity.
    + cbn [lower] in L. injection L as <- _. exists [], None. split; [constructor|]. split; [reflexivity|]. intros. inversion H0; subst. inversion H1; subst. reflexivity.
  - inversion NC as [|x l N1 N2]; subst. cbn [fst] in N1. cbn [trans_escolha] in L.
    change (lbind (lower st lex (TBin ln BEq c0 e t_false false) cur) (fun p => let '(c, cur) := p in lbind (lower st lex b0 cur) (fun p => let '(th, cur) := p in
      lbind (lseq (lower st lex) (map (fun p => TSenaoSe ln (TBin ln BEq (fst p) e t_false false) (snd p)) r) cur) (fun p => let '(elifs, cur) := p in
      lbind (lopt (lower st lex) df cur) (fun p => let '(el, cur) := p in LOk (NSe ln c th elifs el, cur))))) = LOk (nd, cur')) in L.
    destruct (lower st lex (TBin ln BEq c0 e t_false false) cur) as [[nc c1]| |] eqn:LC; try discriminate L. cbn [lbind] in L.
    destruct (lower st lex b0 c1) as [[nb c2]| |] eqn:LB; try discriminate L. cbn [lbind] in L.
    destruct (lseq (lower st lex) _ c2) as [[ns c3]| |] eqn:LS; try discriminate L. cbn [lbind] in L.
    destruct (lopt (lower st lex) df c3) as [[dn c4]| |] eqn:LD; try discriminate L. cbn [lbind] in L. injection L as <- _.
    destruct (lower_case _ _ _ _ _ _ _ _ NE N1 LC) as (a & s & c5 & A1 & A2 & ->). destruct (lower_elifs _ _ _ _ _ NE N2 _ _ _ LS) as (rs & FR & ->).
    exists (mkRow a s nb :: rs), dn. split; [constructor; [exists cur, c5, c1, c2; auto|exact FR]|]. split.
    + destruct df as [b|]; cbn [lopt] in LD; [|injection LD as <- _; reflexivity]. destruct (lower st lex b c3) as [[n c6]| |] eqn:LE; try discriminate LD. cbn [lbind] in LD. injection LD as <- _. eauto 10.
    + intros E S rec m d c v ws b A B CH. rewrite se_eq. inversion A as [|x0 l0 P1 P2]; subst. inversion B as [|x1 y1 l1 l2 Q1 Q2]; subst. cbn [r_case r_subject] in *.
      inversion CH as [|w ws0 r0 rs0 QE|w ws0 r0 rs0 b1 QE CH']; subst; rewrite (eq_step _ _ _ _ _ _ ln _ _ _ _ _ Q1 P1 QE); cbn [bindv bind]; [reflexivity|].
      rewrite (elifs_run E S rec m d _ ln v c _ _ b CH' P2 Q2). destruct b; [reflexivity|]. destruct dn; reflexivity.
Qed.
Print Assumptions C21_first_case_partial.

(** The hypotheses met: an [escolha] read from its text, checked and compiled in
    the state after the library; and the whole program run. *)
Local Open Scope string_scope.
Definition choice_src : list String.string :=
  ["x: int = 4"; "escolha x:"; " caso 3:"; "  mostra 1"; " caso 2 + 2:"; "  mostra 2"; " caso 4:"; "  mostra 3"; " senao:"; "  mostra 9"; "fim"].
Example C21_first_case_program : see1 choice_src = Prints (says ["2"]).
Proof. vm_compute. reflexivity. Qed.
Definition int_tx (z : string) : tx := TConst 1 Ast.KInt (txt z) (CPrim TInt) false.
Definition out_tx (z : string) : tx := TBlock 0 [TMostra 1 (int_tx z)].
Definition demo_store : store := mkStore [] [mkScope [] None] [] None [] [].
Example C21_first_case_case : exists nd cur', lower demo_store 0 (trans_escolha 1 (int_tx "4") [(int_tx "3", out_tx "1"); (int_tx "4", out_tx "2"); (int_tx "4", out_tx "3")] (Some (out_tx "9"))) (Some 0%nat) = LOk (nd, cur') /\
  exists w, run_block (ev e1 (mkSE (fun _ _ => None) (fun _ _ => None) (fun _ _ => None)) (fun _ _ _ _ => Sem.Stuck) None 0) (NBlock [] [NMostra 1 (NConst 1 Ast.KInt (txt "2") false)]) w = 
    ev e1 (mkSE (fun _ _ => None) (fun _ _ => None) (fun _ _ => None)) (fun _ _ _ _ => Sem.Stuck) None 0 nd w /\ w = mkCfg (mkWorld [] [] []) (fun _ _ => None) [].
Proof. do 2 eexists. split; [vm_compute; reflexivity|]. eexists. split; [|reflexivity]. vm_compute. reflexivity. Qed.
