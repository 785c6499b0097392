(** The symbols that visiting an expression attaches to names are those the
    scope it is visited in gives them. *)
From Verif Require Import Base BaseFacts Dec Bson Value Ast Types Syntax Sym Exhaust Check Front Spec_Accept Spec_Scope GenLocals ValueFacts AcceptBase AcceptTypes AcceptFrame AcceptExpr.
Local Open Scope chk_scope.

Lemma resolve_same st st' sc n : so_scopes st' = so_scopes st -> resolve_sc st' sc n = resolve_sc st sc n.
Proof.
  intros E. unfold resolve_sc. rewrite E. generalize (S (List.length (so_scopes st))) as f. intros f. revert sc. induction f as [|f IH]; intros sc; [reflexivity|].
  cbn [resolve_in]. rewrite E. destruct (nth_error (so_scopes st) sc) as [c|]; [|reflexivity]. destruct (assoc n (sc_syms c)); [reflexivity|]. destruct (sc_up c); auto.
Qed.
Lemma uses_prom b x : uses (set_prom b x) = uses x.
Proof. destruct x; reflexivity. Qed.

Section Uses.
Variable F : front_env.
Variable usa : smode -> text -> M unit.
Variable R : text -> option nat.
Definition here (s : sst) : Prop := forall n, resolve_sc (sst_st s) (cx_scope (sst_cx s)) n = R n.
Definition tr {A} (m : M A) (Q : A -> Prop) : Prop := forall s a s', m s = COk a s' -> here s -> here s' /\ Q a.
Lemma xp_here s s' : xp s s' -> here s -> here s'.
Proof. intros (_ & SC & _ & (ln & CX)) H n. rewrite CX. cbn [reline sst_cx cx_scope]. rewrite (resolve_same _ _ _ _ SC). apply H. Qed.
Lemma tr_k {A} (m : M A) : keeps m -> tr m (fun _ => True).
Proof. intros K s a s' H HE. split; [|exact I]. eapply xp_here; [eapply K; exact H|exact HE]. Qed.
Lemma tr_bind {A B} (m : M A) (f : A -> M B) Q Q' : tr m Q -> (forall a, Q a -> tr (f a) Q') -> tr (cbind m f) Q'.
Proof. intros K1 K2 s b s' H HE. apply cbind_inv in H as (a & s1 & H1 & H2). destruct (K1 _ _ _ H1 HE) as [HE1 QA]. eapply K2; eassumption. Qed.
Lemma tr_skip {A B} (m : M A) (f : A -> M B) Q' : keeps m -> (forall a, tr (f a) Q') -> tr (cbind m f) Q'.
Proof. intros K1 K2. eapply tr_bind; [apply tr_k; exact K1|]. intros a _. apply K2. Qed.
Lemma tr_ret {A} (a : A) (Q : A -> Prop) : Q a -> tr (cret a) Q.
Proof. intros HQ s b s' H HE. apply cret_inv in H as [-> ->]. auto. Qed.
Lemma tr_err {A} (Q : A -> Prop) : tr (@ccerr A) Q. Proof. intros s b s' H. discriminate H. Qed.
Lemma tr_crash {A} (Q : A -> Prop) : tr (@crash A) Q. Proof. intros s b s' H. discriminate H. Qed.
Lemma tr_mapc {A B} (f : A -> M B) (Q : B -> Prop) l : (forall x, In x l -> tr (f x) Q) -> tr (mapc f l) (Forall Q).
Proof.
  induction l as [|x l IH]; intros H; [apply tr_ret; constructor|].
  change (mapc f (x :: l)) with (cbind (f x) (fun y => cbind (mapc f l) (fun ys => cret (y :: ys)))).
  eapply tr_bind; [apply H; left; reflexivity|]. intros y QY. eapply tr_bind; [apply IH; intros; apply H; right; assumption|]. intros ys QS. apply tr_ret. constructor; assumption.
Qed.
Definition good (t : tx) : Prop := Forall (fun u => R (fst u) = Some (snd u)) (uses t).
Lemma good_prom b t : good t -> good (set_prom b t).
Proof. unfold good. rewrite uses_prom. auto. Qed.
Lemma good_list l : Forall good l -> Forall (fun u => R (fst u) = Some (snd u)) (flat_map uses l).
Proof. induction 1; cbn; [constructor|]. apply Forall_app. auto. Qed.
Definition goodr (r : tx * option nat) : Prop := good (fst r).
Lemma tr_vv n : tr (visit_variable n) (fun r => R n = Some (fst r)).
Proof. intros s r s' H HE. apply variable_inv in H as (-> & i & x & t & -> & RS & _). split; [exact HE|]. cbn. rewrite <- HE. exact RS. Qed.
Lemma tr_here n : tr (resolve_here n) (fun o => o = R n).
Proof. intros s r s' H HE. apply here_inv in H as [-> ->]. split; [exact HE|]. apply HE. Qed.
Lemma tr_ma ts : forall l, Forall good l -> tr (match_args ts l) (Forall good).
Proof.
  induction ts as [|t ts IH]; intros [|x l] G; cbn [match_args]; try (apply tr_ret; exact G || constructor); try apply tr_crash; try apply tr_err.
  - inversion G as [|? ? GX GL]; subst. apply tr_skip; [apply k_prom|]. intros _. apply tr_skip; [apply k_match|]. intros ok.
    destruct (negb ok); [apply tr_err|]. eapply tr_bind; [apply IH; exact GL|]. intros r GR. apply tr_ret. constructor; [apply good_prom; exact GX|exact GR].
Qed.
Definition Uclaim (x : sx) : Prop := is_a (core x) = true -> forall p again, tr (visit F usa x p None again) goodr.
Ltac leaf := first [apply tr_err | apply tr_crash].
Ltac sk := repeat (cbv zeta; first [leaf
  | match goal with |- tr (match ?e with _ => _ end) _ => destruct e end
  | apply tr_skip; [solve [kx]|intros ?] ]).
Ltac uv := cbn [visit]; apply tr_skip; [solve [kx]|intros _].
Lemma U_all x : Uclaim x.
Proof.
  induction x using sx_ind'; intros C pp again; try discriminate C.
  - uv. sk; apply tr_ret; constructor.
  - uv. apply tr_ret. constructor.
  - uv. eapply tr_bind; [apply tr_vv|]. intros r RV. apply tr_ret. constructor; [exact RV|constructor].
  - cbn [core] in C. apply when_true in C. specialize (IHx (is_e_is_a _ C)). uv. eapply tr_bind; [apply IHx|]. intros r G. sk; apply tr_ret; exact G.
  - cbn [core] in C. apply when_true, andb_prop in C as [C1 C2]. specialize (IHx1 (is_e_is_a _ C1)). specialize (IHx2 (is_e_is_a _ C2)). uv.
    eapply tr_bind; [apply IHx1|]. intros ra GA. eapply tr_bind; [apply IHx2|]. intros rb GB.
    sk; apply tr_ret; unfold goodr, good; cbn [fst uses]; rewrite !uses_prom; apply Forall_app; split; assumption.
  - destruct x; try discriminate C. cbn [core] in C. apply when_true in C. rewrite forallb_forall in C.
    assert (HA : forall a, In a l -> forall p again, tr (visit F usa a p None again) goodr).
    { intros a I. rewrite Forall_forall in H. apply H; auto. }
    uv. eapply tr_bind with (Q := fun fi => exists t, fst fi = TVar (Lexer.t_line t) (lex_text t) None (CPrim TUnknown) false /\ R (lex_text t) = Some (snd fi)).
    { eapply tr_bind; [apply tr_here|]. intros o EO. destruct o as [i|]; [|leaf]. apply tr_ret. eexists. split; [reflexivity|]. symmetry. exact EO. }
    intros [f i] (t0 & EF & EI). cbn [fst snd] in EF, EI. subst f.
    assert (TC : forall ln l0 ty b, Forall good l0 -> good (TCall ln i (TVar (Lexer.t_line t0) (lex_text t0) None (CPrim TUnknown) false) l0 ty b)).
    { intros ln l0 ty b GL. unfold good. cbn [uses]. constructor; [exact EI|]. apply good_list. exact GL. }
    apply tr_skip; [apply k_sym|]. intros s. cbv zeta. destruct (builtin_fn (s_name s)) as [fn|].
    + destruct (text_eqb fn (txt "vec")).
      { destruct (256 <=? List.length l)%nat; [leaf|]. destruct l as [|a [|b r]]; try leaf. eapply tr_bind with (Q := Forall good).
        - apply tr_mapc. intros y I. eapply tr_bind; [apply HA; right; exact I|]. intros ry GR. sk. apply tr_ret. exact GR.
        - intros ss GS. destruct a; try leaf. sk. apply tr_ret. apply TC. constructor; [constructor|exact GS]. }
      destruct (text_eqb fn (txt "tam")).
      { destruct l as [|a [|b r]]; try leaf. eapply tr_bind; [apply HA; left; reflexivity|]. intros ra GA. sk. apply tr_ret. apply TC. constructor; [exact GA|constructor]. }
      destruct l as [|a [|b [|c r]]]; try leaf.
      eapply tr_bind; [apply HA; left; reflexivity|]. intros ra GA. eapply tr_bind; [apply HA; right; left; reflexivity|]. intros rb GB.
      sk; apply tr_ret; apply TC; (constructor; [exact GA|constructor; [|constructor]]); first [exact GB|apply good_prom; exact GB].
    + destruct (s_kind s); try leaf.
      * eapply tr_bind with (Q := Forall good); [apply tr_mapc; intros a I; destruct (is_named a); [sk|]; eapply tr_bind; [apply HA; exact I|]; intros; apply tr_ret; assumption|].
        intros la GL. match goal with |- tr (if ?b then _ else _) _ => destruct b end; [leaf|]. apply tr_skip; [apply k_pt|]. intros ts. eapply tr_bind; [apply tr_ma; exact GL|]. intros la' GL'. apply tr_ret. apply TC. exact GL'.
      * eapply tr_bind with (Q := Forall good); [apply tr_mapc; intros a I; destruct (is_named a); [sk|]; eapply tr_bind; [apply HA; exact I|]; intros; apply tr_ret; assumption|].
        intros la GL. match goal with |- tr (if ?b then _ else _) _ => destruct b end; [leaf|]. apply tr_skip; [apply k_pt|]. intros ts. eapply tr_bind; [apply tr_ma; exact GL|]. intros la' GL'. apply tr_ret. apply TC. exact GL'.
      * match goal with |- tr (if ?b then _ else _) _ => destruct b end; [leaf|].
        eapply tr_bind with (Q := Forall good); [apply tr_mapc; intros a I; eapply tr_bind; [apply HA; exact I|]; intros; apply tr_ret; assumption|].
        intros la GL. eapply tr_bind; [apply tr_ma; exact GL|]. intros la' GL'. apply tr_ret. apply TC. exact GL'.
      * apply tr_skip; [apply k_gst|]. intros fs. match goal with |- tr (if ?b then _ else _) _ => destruct b end; [leaf|].
        eapply tr_bind with (Q := Forall good); [|intros; apply tr_ret; apply TC; assumption].
        match goal with |- tr (?g [] l) _ => assert (HG : forall seen, tr (g seen l) (Forall good)) end; [|apply HG].
        clear C H. induction l as [|a l IH]; intros seen; [apply tr_ret; constructor|]. apply tr_skip; [apply k_line|]. intros _. destruct a; try leaf.
        eapply tr_bind; [apply HA; left; reflexivity|]. intros ra GA. destruct (assoc _ fs); [|leaf].
        match goal with |- tr (if ?b then _ else _) _ => destruct b end; [leaf|].
        apply tr_skip; [apply k_sym|]. intros fx. apply tr_skip; [apply k_must|]. intros ft. apply tr_skip; [apply k_prom|]. intros _. apply tr_skip; [apply k_match|].
        intros ok. destruct (negb ok); [leaf|]. eapply tr_bind; [apply IH; intros; apply HA; right; assumption|]. intros rest GR. apply tr_ret. constructor; assumption.
  - cbn [core] in C. assert (C' : is_e (core x) = true) by (destruct (is_e (core x)); [reflexivity|discriminate C]).
    specialize (IHx (is_e_is_a _ C')). uv. eapply tr_bind; [apply IHx|]. intros r G. apply tr_ret. exact G.
  - cbn [core] in C. apply when_true, andb_prop in C as [C1 C2]. specialize (IHx (is_e_is_a _ C1)). uv. eapply tr_bind; [apply IHx|]. intros r G. sk. apply tr_ret. exact G.
  - cbn [core] in C. apply when_true, andb_prop in C as [C1 C2]. specialize (IHx1 (is_e_is_a _ C1)). specialize (IHx2 (is_e_is_a _ C2)). uv.
    eapply tr_bind; [apply IHx1|]. intros ra GA. eapply tr_bind; [apply IHx2|]. intros rb GB. sk; apply tr_ret; apply Forall_app; split; assumption.
  - cbn [core] in C. destruct (is_e (core x1) && is_e (core x2)); discriminate C.
  - cbn [core] in C. apply when_true in C. specialize (IHx (is_e_is_a _ C)). uv. eapply tr_bind; [apply IHx|]. intros r G. sk; apply tr_ret; exact G.
  - cbn [core] in C. destruct (is_e (core x1) && is_e (core x2)); discriminate C.
  - cbn [core] in C. apply when_true in C. rewrite forallb_forall in C. rewrite Forall_forall in H. uv. sk.
    eapply tr_bind with (Q := Forall good); [apply tr_mapc; intros e I; eapply tr_bind; [apply H; [exact I|apply is_e_is_a, C; exact I]|]; intros r G; sk; apply tr_ret; exact G|].
    intros la GL. apply tr_ret. apply good_list. exact GL.
  - cbn [core] in C. apply when_true, andb_prop in C as [C1 C2]. rewrite forallb_forall in C2. rewrite Forall_forall in H. uv. sk.
    eapply tr_bind with (Q := Forall good); [apply tr_mapc; intros e I; eapply tr_bind; [apply H; [exact I|apply is_e_is_a, C2; exact I]|]; intros r G; sk; apply tr_ret; apply good_prom; exact G|].
    intros la GL. apply tr_ret. apply good_list. exact GL.
  - cbn [core] in C. destruct x1; try discriminate C. destruct (is_e (core x2)); discriminate C.
  - cbn [core] in C. destruct o as [[? ?]|]; match type of C with context[if ?b then _ else _] => destruct b end; discriminate C.
  - cbn [core] in C. destruct (is_e (core x)); discriminate C.
  - cbn [core] in C. destruct o; [|discriminate C]. destruct (is_e (core s)); discriminate C.
  - cbn [core] in C. destruct o; match type of C with context[if ?b then _ else _] => destruct b end; discriminate C.
  - cbn [core] in C. match type of C with context[if ?b then _ else _] => destruct b end; discriminate C.
  - cbn [core] in C. match type of C with context[if ?b then _ else _] => destruct b end; discriminate C.
  - cbn [core] in C. destruct o; match type of C with context[if ?b then _ else _] => destruct b end; discriminate C.
  - cbn [core] in C. match type of C with context[if ?b then _ else _] => destruct b end; discriminate C.
  - cbn [core] in C. destruct nat; [discriminate C|]. destruct o; [|discriminate C]. match type of C with context[if ?b then _ else _] => destruct b end; discriminate C.
  - cbn [core] in C. destruct g; [|discriminate C]. match type of C with context[if ?b then _ else _] => destruct b end; discriminate C.
Qed.
End Uses.
(** Visiting an expression in the state [s]. *)
Lemma uses_found F usa x p again s t o s' : is_a (core x) = true -> visit F usa x p None again s = COk (t, o) s' ->
  Forall (fun u => resolve_sc (sst_st s) (cx_scope (sst_cx s)) (fst u) = Some (snd u)) (uses t).
Proof.
  intros C H. exact (proj2 (U_all F usa (resolve_sc (sst_st s) (cx_scope (sst_cx s))) x C p again s (t, o) s' H (fun n => eq_refl))).
Qed.

(** ** Expressions give expressions *)
Definition etx (t : tx) : bool :=
  match t with
  | TDecl _ _ _ _ | TSe _ _ _ _ _ | TSenaoSe _ _ _ | TEnquanto _ _ _ | TPara _ _ _ _ _ _ | TFunc _ _ _ | TReg _ _ _ | TBlock _ _ => false
  | _ => true
  end.
Definition ends (m : M (tx * option nat)) : Prop := forall s a s', m s = COk a s' -> etx (fst a) = true.
Lemma e_bind {A} (m : M A) f : (forall a, ends (f a)) -> ends (cbind m f).
Proof. intros H s a s' E. apply cbind_inv in E as (b & s1 & _ & E). eapply H. exact E. Qed.
Lemma e_ret r : etx (fst r) = true -> ends (cret r).
Proof. intros H s a s' E. apply cret_inv in E as [-> ->]. exact H. Qed.
Lemma e_err : ends ccerr. Proof. intros s a s' E. discriminate E. Qed.
Lemma e_crash : ends crash. Proof. intros s a s' E. discriminate E. Qed.
Ltac ew := repeat (cbv zeta; first [apply e_err | apply e_crash | (apply e_ret; reflexivity)
  | (apply e_bind; intros ?) | match goal with |- ends (match ?e with _ => _ end) => destruct e end | match goal with |- ends (let '(_, _) := ?e in _) => destruct e end ]).
Lemma visit_etx F usa x p again s t o s' : is_a (core x) = true -> visit F usa x p None again s = COk (t, o) s' -> etx t = true.
Proof.
  intros C H. enough (E : ends (visit F usa x p None again)) by exact (E _ _ _ H). clear H.
  destruct x; try discriminate C; try (cbn [visit]; ew; fail);
    cbn [core] in C; repeat (match type of C with context[match ?e with _ => _ end] => destruct e end; try discriminate C).
Qed.
