(** C14: where the checker's test for [retorna] is right.

    [Prop_Front.v] has two accepted functions whose end is reached
    (C14_loop_refuted, C14_elif_refuted); here: those are the only ways, apart
    from [iguala]. *)
From Verif Require Import Base BaseFacts Dec Bson Value Ast Types Syntax Sym Exhaust Check Front Sem Spec_Typing Spec_Accept AcceptBase AcceptTypes AcceptFrame AcceptStep AcceptDecl AcceptTop TypeSound Ex_Front.
From Coq Require Import String.
Local Open Scope chk_scope.

(** ** Specification *)
(** The [retorna]s that the checker counts are on every way through: none of
    them is inside a loop or an [iguala], and where both ends of a conditional
    return, so does each [senaose] between them. *)
Fixpoint straight (x : sx) : bool :=
  match x with
  | XBlock l => forallb straight l
  | XSe _ _ th l (Some el) =>
      negb (has_return th && has_return el) ||
      (straight th && straight el &&
       forallb (fun e => match e with XSenaoSe _ _ b => has_return b && straight b | _ => false end) l)
  | XEnquanto _ _ b | XPara _ _ _ _ _ b => negb (has_return b)
  | XIguala _ _ _ => false
  | _ => true
  end.

(** ** Proofs *)
Fixpoint sure (x : sx) : bool :=
  match x with
  | XRet _ _ => true
  | XBlock l => existsb sure l
  | XSe _ _ th l (Some el) => sure th && forallb sure l && sure el
  | XSenaoSe _ _ b => sure b
  | _ => false
  end.
Lemma sure_of : forall x, has_return x = true -> straight x = true -> sure x = true.
Proof.
  fix IH 1. intros x H S. destruct x; cbn [has_return straight sure] in *; try discriminate; auto.
  - destruct el as [el|]; [|discriminate H]. rewrite H in S. cbn [negb orb] in S. rewrite !andb_true_iff in S. destruct S as [[S1 S2] S3]. apply andb_prop in H as [H1 H2].
    rewrite (IH _ H1 S1), (IH _ H2 S2). rewrite andb_true_r. cbn [andb]. clear - IH S3. induction elifs as [|e r IHr]; [reflexivity|]. cbn [forallb] in *. apply andb_prop in S3 as [S3 S4].
    rewrite (IHr S4), andb_true_r. destruct e; try discriminate S3. apply andb_prop in S3 as [A B]. exact (IH _ A B).
  - rewrite H in S. discriminate S.
  - rewrite H in S. discriminate S.
  - clear - IH H S. induction ch as [|e r IHr]; [discriminate H|]. cbn [forallb existsb] in *. apply andb_prop in S as [S1 S2]. destruct (has_return e) eqn:E.
    + rewrite (IH _ E S1). reflexivity.
    + rewrite (IHr H S2). apply orb_true_r.
Qed.
Ltac first_line H := cbn [Check.visit] in H; apply cbind_inv in H as (?u & ?s0 & ?L & H).
Tactic Notation "next" simple_intropattern(a) ident(Q) := let s1 := fresh "s" in apply cbind_inv in Q as (a & s1 & ?H & Q).
Section Visit.
Variable F : front_env.
Variable usa : smode -> text -> M unit.
Notation visit := (visit F usa).
Definition Av (x : sx) : Prop := forall p sc again s r s', sure x = true -> visit x p sc again s = COk r s' -> always (fst r) = true.
Lemma mapc_all again l : Forall Av l -> forall s ts s', mapc (fun c => r <- visit c PNone None again ;; cret (fst r)) l s = COk ts s' ->
  (existsb sure l = true -> existsb always ts = true) /\ (forallb sure l = true -> forallb always ts = true).
Proof.
  induction 1 as [|x l X FA IH]; intros s ts s' H; cbn [mapc] in H.
  - apply cret_inv in H as [-> _]. auto.
  - next t H. next r H0. apply cret_inv in H0 as [-> ->]. next ts1 H. apply cret_inv in H as [-> ->]. destruct (IH _ _ _ H0) as [I1 I2]. cbn [existsb forallb]. split; intros S.
    + destruct (sure x) eqn:SX; [rewrite (X _ _ _ _ _ _ SX H1); reflexivity|]. rewrite (I1 S). apply orb_true_r.
    + apply andb_prop in S as [S1 S2]. rewrite (X _ _ _ _ _ _ S1 H1), (I2 S2). reflexivity.
Qed.
Lemma visit_sure : forall x, Av x.
Proof.
  induction x using sx_ind'; intros p0 sc again s rr s' SU V; try discriminate SU.
  - first_line V. next f V. apply gcx_inv in H0 as [-> ->]. destruct (cx_func _) as [f|]; [|discriminate V]. next x V. next ft V. destruct o as [e|].
    + destruct (is_vazio ft); [discriminate V|]. next y V. next ?w V. next rv V. next ?w V. next ok V. destruct (negb ok); [discriminate V|]. apply cret_inv in V as [-> _]. reflexivity.
    + destruct (negb _); [discriminate V|]. next y V. next ?w V. apply cret_inv in V as [-> _]. reflexivity.
  - cbn [sure] in SU. destruct o as [el|]; [|discriminate SU]. rewrite !andb_true_iff in SU. destruct SU as [[S1 S2] S3].
    first_line V. next rc V. next g V. destruct (negb _); [discriminate V|]. next rt V. next ts V. next ro V. apply cret_inv in V as [-> _]. next re H5. apply cret_inv in H5 as [-> ->].
    cbn [fst always]. rewrite (IHx2 _ _ _ _ _ _ S1 H3). match goal with M : mapc _ _ _ = _ |- _ => destruct (mapc_all _ _ H _ _ _ M) as [_ M2]; rewrite (M2 S2) end. cbn [andb].
    match goal with E : Check.visit _ _ el _ _ _ _ = _ |- _ => exact (H0 _ _ _ _ _ _ S3 E) end.
  - first_line V. next rc V. destruct (tx_ty (fst rc)) as [[]|?|?|?|? ?|?|?]; try discriminate V. next rb V. apply cret_inv in V as [-> _]. cbn [fst always]. eapply IHx2; eassumption.
  - first_line V. next b V. next ts V. next ?w V. apply cret_inv in V as [-> _]. cbn [fst always sure] in *. match goal with M : mapc _ _ _ = _ |- _ => destruct (mapc_all _ _ H _ _ _ M) as [M1 _] end. auto.
Qed.
End Visit.
Lemma trans_always : forall x s y s', always x = true -> trans x s = COk y s' -> always y = true.
Proof.
  fix IH 1. intros x s y s' A H. destruct x; try discriminate A; cbn [trans] in H.
  - destruct e as [e|]; [next e0 H|]; apply cret_inv in H as [-> _]; reflexivity.
  - cbn [always] in A. destruct el as [el|]; [|discriminate A]. rewrite !andb_true_iff in A. destruct A as [[A1 A2] A3].
    next c0 H. next th0 H. next l0 H. next el0 H. apply cret_inv in H as [-> _]. next el1 H3. apply cret_inv in H3 as [-> _]. cbn [always].
    rewrite (IH _ _ _ _ A1 H1), (IH _ _ _ _ A3 H). rewrite andb_true_r. cbn [andb]. clear - IH A2 H2. revert s1 s2 l0 H2.
    induction elifs as [|e r IHr]; intros s1 s2 l0 M; cbn [mapc] in M; [apply cret_inv in M as [-> _]; reflexivity|]. cbn [forallb] in A2. apply andb_prop in A2 as [B1 B2].
    next t M. next ts M. apply cret_inv in M as [-> _]. cbn [forallb]. rewrite (IH _ _ _ _ B1 H), (IHr B2 _ _ _ H0). reflexivity.
  - next c0 H. next b0 H. apply cret_inv in H as [-> _]. cbn [always] in *. exact (IH _ _ _ _ A H1).
  - next l0 H. apply cret_inv in H as [-> _]. cbn [always] in *. clear - IH A H0. revert s s0 l0 H0.
    induction ch as [|e r IHr]; intros s1 s2 l0 M; cbn [mapc] in M; [discriminate A|]. cbn [existsb] in A.
    next t M. next ts M. apply cret_inv in M as [-> _]. cbn [existsb]. destruct (always e) eqn:AE; [rewrite (IH _ _ _ _ AE H); reflexivity|]. rewrite (IHr A _ _ _ H0). apply orb_true_r.
Qed.
(** An outcome that is not the end of the statement. *)
Definition leaves (o : out) : Prop := o <> ONorm /\ forall v, o <> OVal v.
Lemma bindv_inv r k o c' : bindv r k = Done o c' -> exists v c1, r = Done (OVal v) c1 /\ k v c1 = Done o c'.
Proof. unfold bindv, bind. destruct r as [[]| | |]; try discriminate. eauto. Qed.
Lemma popr_inv r o c' : popr r = Done o c' -> exists c1, r = Done o c1.
Proof. unfold popr, bind. destruct r as [o1 c1| | |]; try discriminate. intros H. injection H as <- _. eauto. Qed.
Section Run.
Variable E : ext.
Variable S : senv.
Variable rec : recfun.
Variable m : option N.
Variable d : nat.
Notation ev := (ev E S rec m d).
Definition Lv (x : node) : Prop := forall c o c', returns x = true -> ev x c = Done o c' -> leaves o.
Lemma seq_leaves l : Forall Lv l -> forall c o c', existsb returns l = true -> run_seq ev l c = Done o c' -> leaves o.
Proof.
  induction 1 as [|x l X FA IH]; intros c o c' R H; [discriminate R|]. cbn [run_seq] in H. unfold bind in H. destruct (ev x c) as [o1 c1| | |] eqn:EX; try discriminate H.
  cbn [existsb] in R. destruct (returns x) eqn:RX.
  - destruct (X _ _ _ RX EX) as [N1 N2]. destruct o1; try (injection H as <- _; split; congruence); [congruence|destruct (N2 v eq_refl)].
  - destruct o1; try (injection H as <- _; split; congruence); eapply IH; eassumption.
Qed.
Lemma block_leaves b : (forall sc ch, b = NBlock sc ch -> Forall Lv ch) -> forall c o c', returns b = true -> run_block ev b c = Done o c' -> leaves o.
Proof. intros FA c o c' R H. destruct b; try discriminate R; try discriminate H. apply popr_inv in H as (c1 & H). eapply seq_leaves; [eapply FA; reflexivity|exact R|exact H]. Qed.
Definition Ln (x : node) : Prop := Lv x /\ (forall sc ch, x = NBlock sc ch -> Forall Lv ch) /\ (forall ln q b, x = NSenaoSe ln q b -> forall sc ch, b = NBlock sc ch -> Forall Lv ch).
Lemma elifs_leave k l : Forall Ln l -> (forall c o c', k c = Done o c' -> leaves o) -> forall c o c', forallb returns l = true -> run_elifs ev k l c = Done o c' -> leaves o.
Proof.
  intros FA K. induction FA as [|x l (_ & _ & X) FA IH]; intros c o c' R H; [eapply K; exact H|]. cbn [forallb] in R. apply andb_prop in R as [R1 R2]. cbn [run_elifs] in H. destruct x; try discriminate H.
  apply bindv_inv in H as (v & c1 & _ & H). destruct v; try discriminate H. destruct b.
  - eapply block_leaves; [eapply X; reflexivity|exact R1|exact H].
  - eapply IH; eassumption.
Qed.
Lemma ln_lv l : Forall Ln l -> Forall Lv l.
Proof. induction 1 as [|x l [A _] _ IH]; constructor; auto. Qed.
Lemma ev_leaves : forall x, Ln x.
Proof.
  assert (K : forall x, (forall sc ch, x <> NBlock sc ch) -> (forall ln q b, x <> NSenaoSe ln q b) -> Lv x -> Ln x).
  { intros x A B L. split; [exact L|]. split; intros; [destruct (A sc ch); assumption|destruct (B ln q b); assumption]. }
  induction x using node_ind'; try (apply K; [congruence|congruence|intros c1 o1 c2 R V; discriminate R]).
  - apply K; [congruence|congruence|]. intros c1 o c2 R V. destruct el as [el|]; [|discriminate R]. cbn [returns] in R. rewrite !andb_true_iff in R. destruct R as [[R1 R2] R3].
    cbn [Sem.ev] in V. apply bindv_inv in V as (v & c3 & _ & V). destruct v; try discriminate V. destruct b.
    + eapply block_leaves; [apply IHx2|exact R1|exact V].
    + eapply elifs_leave; [eassumption| |exact R2|exact V]. intros c o0 c' V'. eapply block_leaves; [|exact R3|exact V']. match goal with X : optP _ _ |- _ => apply X end.
  - split; [intros c1 o c2 R V; discriminate V|]. split; [intros; discriminate|]. intros ln' q b' E0. injection E0 as <- <- <-. apply IHx2.
  - split; [intros c1 o c2 R V; discriminate V|]. split; [|intros; discriminate]. intros sc' ch' E0. injection E0 as <- <-. apply ln_lv. assumption.
  - apply K; [congruence|congruence|]. intros c1 o c2 R V. destruct e as [e|]; cbn [Sem.ev] in V.
    + apply bindv_inv in V as (v & c3 & _ & V). injection V as <- _. split; congruence.
    + injection V as <- _. split; congruence.
Qed.
End Run.
Lemma body_leaves E S n m d sc ch c o c' : returns (NBlock sc ch) = true -> exec E S n (Body ch) m d c = Done o c' -> leaves o.
Proof.
  intros R H. destruct n as [|n]; [discriminate H|]. cbn [exec] in H. apply popr_inv in H as (c1 & H). eapply seq_leaves; [|exact R|exact H].
  clear. induction ch; constructor; auto. apply ev_leaves.
Qed.
Lemma declared F usa name ps y ans b sc again s t o s' ty s1 : is_embutido ans = false ->
  get_type_opt y (reline s (Lexer.t_line name)) = COk ty s1 -> is_vazio ty = false -> straight b = true ->
  visit F usa (XFunc name ps y false ans (Some b)) PNone sc again s = COk (t, o) s' -> exists i tb, t = TFunc (Lexer.t_line name) i (Some tb) /\ always tb = true.
Proof.
  intros EA GT NV ST H. first_line H. apply line_inv in L. subst. next ?w H. unfold validate_decl in H0. next d H0. apply gcx_inv in H1 as [-> ->].
  destruct (0 <? _)%nat; [discriminate H0|]. next o1 H0. unfold get_here in H1. next sc0 H1. apply gcx_inv in H2 as [-> ->]. apply gst_inv in H1 as [-> ->].
  destruct (scope_get _ _ _); [discriminate H0|]. apply cret_inv in H0 as [_ ->]. next ?w H. destruct (max_params <? _)%nat; [discriminate H0|]. apply cret_inv in H0 as [_ ->].
  next ty0 H. unfold reline in *. cbn [Parser.node_tok] in *. rewrite GT in H0. injection H0 as <- <-. next m H. next i H. next ?w H. next ?w H. next d H. next cur H. next ?w H. next r H. next ?w H.
  rewrite EA in H. cbn [orb] in H. rewrite NV in H. destruct (has_return b) eqn:HR; [|cbn [negb andb] in H; next ?w H; discriminate H]. cbn [negb andb] in H.
  next old H. next ?w H. next rb H. next ?w H. apply cret_inv in H as [H _]. injection H as -> ->. exists i, (fst rb). split; [reflexivity|].
  eapply (visit_sure F usa b); [apply sure_of; assumption|eassumption].
Qed.

(** ** C14 *)
(** A function whose written result type is not [vazio], accepted by the checker,
    with every counted [retorna] on every way through: no run of its compiled
    body, from any state, with any library and any amount of fuel, comes to the
    end of the body. *)
Theorem C14_straight_partial : forall F usa name ps y ans b sc again s t o s' ty s1,
  is_embutido ans = false ->
  get_type_opt y (reline s (Lexer.t_line name)) = COk ty s1 -> is_vazio ty = false ->
  straight b = true ->
  visit F usa (XFunc name ps y false ans (Some b)) PNone sc again s = COk (t, o) s' ->
  forall s2 t' s3 st lex cur ln f prs bsc ch cur',
  trans t s2 = COk t' s3 ->
  lower st lex t' cur = LOk (NFunc ln f prs false (NBlock bsc ch), cur') ->
  forall E S fuel m d c o c', exec E S fuel (Body ch) m d c = Done o c' -> o <> ONorm /\ forall v, o <> OVal v.
Proof.
  intros F usa name ps y ans b sc again s t o s' ty s1 EA GT NV ST V s2 t' s3 st lex cur ln f prs bsc ch cur' TR LO E S fuel m d c o1 c' EX.
  destruct (declared _ _ _ _ _ _ _ _ _ _ _ _ _ _ _ EA GT NV ST V) as (i & tb & -> & AL).
  cbn [trans] in TR. next b1 TR. apply cret_inv in TR as [-> _]. pose proof (trans_always _ _ _ _ AL H) as AL'.
  cbn [lower] in LO. destruct (nth_error (so_syms st) i) as [x|]; [|discriminate LO]. cbn [lsome lbind] in LO.
  destruct (lmap _ _) as [q| |]; try discriminate LO. cbn [lbind] in LO. destruct (s_builtin x); [discriminate LO|].
  destruct (lower st lex b1 cur) as [[nb cb]| |] eqn:LB; try discriminate LO. cbn [lbind] in LO. injection LO as _ _ _ -> _.
  eapply body_leaves with (sc := bsc); [|exact EX]. eapply always_low; eassumption.
Qed.
Print Assumptions C14_straight_partial.

(** The hypotheses met: a function read from its text and checked in the state
    that follows the standard library; its body is straight, and it returns. *)
Local Open Scope string_scope.
Definition chosen : list String.string :=
  ["func f(n: int): int"; " mostra n"; " se n > 10 entao"; "  retorna 1"; " senaose n > 5 entao"; "  retorna 2"; " senao"; "  retorna 3"; " fim"; "fim"].
Definition demo_env : front_env := env_of [(txt "/repo/main.ama", [])].
Definition demo_body : option (list node) :=
  match Parser.parse alphabet (lines chosen), start_analyzer demo_env alphabet (fun _ _ => crash) main_file (start_sst demo_env) with
  | Parser.POk (mkModule _ [XFunc name ps y false ans (Some b)]) _, COk _ s =>
      match get_type_opt y (reline s (Lexer.t_line name)), visit demo_env (fun _ _ => crash) (XFunc name ps y false ans (Some b)) PNone None false s with
      | COk ty _, COk (t, _) s' =>
          if negb (is_embutido ans) && negb (is_vazio ty) && straight b then
            match trans t s' with
            | COk t' s2 =>
                match lower (sst_st s2) (cx_global (sst_cx s2)) t' (Some (cx_global (sst_cx s2))) with
                | LOk (NFunc _ _ _ false (NBlock _ ch), _) => Some ch
                | _ => None
                end
            | _ => None
            end
          else None
      | _, _ => None
      end
  | _, _ => None
  end.
Definition demo_out (n : Z) : option (out * text) :=
  match demo_body with
  | Some ch =>
      match exec e1 (mkSE (fun _ _ => None) (fun _ _ => None) (fun _ _ => None)) 50 (Body ch) None 1
                 (mkCfg (mkWorld [] [] []) (fun _ _ => None) [[(txt "n", VInt n)]]) with
      | Done o c => Some (o, w_out (k_w c))
      | _ => None
      end
  | None => None
  end.
Example C14_straight_case : map demo_out [11; 7; 0]%Z
  = [Some (ORet (VInt 1), says ["11"]); Some (ORet (VInt 2), says ["7"]); Some (ORet (VInt 3), says ["0"])].
Proof. vm_compute. reflexivity. Qed.
