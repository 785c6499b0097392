(** What a piece of program leaves alone keeps its value. *)
From Verif Require Import Base BaseFacts Float Value VM Ast Sem Spec_Value Spec_Tables Spec_Sem SemFacts Spec_Count.

Section Keep.
Variable E : ext.
Variable S : senv.
Variable n : text.
Definition same (a b : list (list (text * value))) : Prop := Forall2 (fun x y => assoc n y = assoc n x) a b.
Definition keeps (c : cfg) (r : res) : Prop := match r with Done _ c' => same (k_l c) (k_l c') | _ => True end.
Lemma same_refl a : same a a. Proof. induction a; constructor; auto. Qed.
Lemma same_trans a b c : same a b -> same b c -> same a c.
Proof. intros H. revert c. induction H; intros c K; inversion K; subst; constructor; [congruence|]. now apply IHForall2. Qed.
Lemma same_look a b : same a b -> look b n = look a n.
Proof. induction 1; cbn; [reflexivity|]. rewrite H, IHForall2. reflexivity. Qed.
Lemma same_tl a b : same a b -> same (tl a) (tl b).
Proof. intros H. inversion H; subst; cbn; [constructor|assumption]. Qed.
Lemma keeps_done c o c' : same (k_l c) (k_l c') -> keeps c (Done o c'). Proof. auto. Qed.
Lemma keeps_bind c r f : keeps c r -> (forall o c', same (k_l c) (k_l c') -> keeps c (f o c')) -> keeps c (bind r f).
Proof. destruct r; cbn; auto. Qed.
Lemma keeps_bindv c r f : keeps c r -> (forall v c', same (k_l c) (k_l c') -> keeps c (f v c')) -> keeps c (bindv r f).
Proof. intros H K. apply keeps_bind; [exact H|]. intros [] c' Q; cbn; auto. Qed.
Lemma keeps_from c c' r : same (k_l c) (k_l c') -> keeps c' r -> keeps c r.
Proof. intros H. destruct r; cbn; auto. intros K. eapply same_trans; eassumption. Qed.
Lemma keeps_promote c p r : keeps c r -> keeps c (promote p r).
Proof. intros H. destruct p; [|exact H]. apply keeps_bindv; [exact H|]. intros v c' Q. destruct v; cbn; auto. Qed.
Lemma keeps_lift c w r c' : same (k_l c) (k_l c') -> keeps c (lift w r c').
Proof. intros H. destruct r; cbn; auto. Qed.
Lemma set_other k v sc : text_eqb k n = false -> assoc n (assoc_set sc k v : list (text * value)) = assoc n sc.
Proof.
  intros K. assert (K' : text_eqb n k = false) by (destruct (text_eqb n k) eqn:E1; [apply text_eqb_eq in E1; subst; rewrite text_eqb_refl in K; discriminate|reflexivity]).
  induction sc as [|[a b] sc IH]; cbn; [now rewrite K'|]. destruct (text_eqb k a) eqn:E2; cbn.
  - apply text_eqb_eq in E2. subst a. now rewrite K'.
  - destruct (text_eqb n a); [reflexivity|exact IH].
Qed.
Lemma keeps_write c c' m k v : text_eqb k n = false -> same (k_l c) (k_l c') -> keeps c (write_var c' m k v).
Proof.
  intros K H. unfold write_var. destruct (update (k_l c') k v) as [l|] eqn:U; [|exact H]. cbn. eapply same_trans; [exact H|]. clear H.
  revert l U. induction (k_l c') as [|sc r IH]; cbn; intros l U; [discriminate|]. destruct (assoc k sc).
  - injection U as <-. constructor; [now apply set_other|apply same_refl].
  - destruct (update r k v); [|discriminate]. injection U as <-. constructor; [reflexivity|]. now apply IH.
Qed.
Lemma keeps_declare c c' m k v : text_eqb k n = false -> same (k_l c) (k_l c') -> keeps c (declare c' m k v).
Proof.
  intros K H. unfold declare. destruct (k_l c') as [|sc r] eqn:L; cbn.
  - now rewrite L.
  - eapply same_trans; [exact H|]. constructor; [|apply same_refl]. cbn. destruct (text_eqb n k) eqn:E1; [|reflexivity].
    apply text_eqb_eq in E1. subst. rewrite text_eqb_refl in K. discriminate.
Qed.
Lemma keeps_read c c' m k : same (k_l c) (k_l c') -> keeps c (read_var S c' m k).
Proof. intros H. unfold read_var. destruct (var_value S c' m k); cbn; auto. Qed.

(** The nodes the interpreter returns to. *)
Definition left_item (it : item) : bool :=
  match it with Again x => leaves n x | Test (NPara l k a b i blk) => leaves n (NPara l k a b i blk) | Test _ => true | Body _ => true end.
Definition rec_ok (rec : recfun) : Prop := forall it m d c, left_item it = true ->
  match it with
  | Again _ => keeps c (rec it m d c)
  | Test _ => match rec it m d c with Done _ c' => same (tl (k_l c)) (k_l c') | _ => True end
  | Body _ => True
  end.

Section Ev.
Variable rec : recfun.
Hypothesis R : rec_ok rec.
Variable m : option N.
Variable d : nat.
Definition keep (x : node) : Prop := forall c c0, leaves n x = true -> same (k_l c) (k_l c0) -> keeps c (ev E S rec m d x c0).
Definition parts (x : node) : Prop :=
  match x with
  | NNamed _ _ e | NAssign _ _ _ e _ => keep e
  | NBlock _ ch => Forall keep ch
  | NSenaoSe _ c b => keep c /\ match b with NBlock _ ch => Forall keep ch | _ => True end
  | _ => True
  end.
Lemma keeps_args c l : Forall keep l -> forallb (leaves n) l = true -> forall c0 k, same (k_l c) (k_l c0) ->
  (forall vs c', same (k_l c) (k_l c') -> keeps c (k vs c')) -> keeps c (run_args (ev E S rec m d) l c0 k).
Proof.
  induction l as [|x l IH]; intros F L c0 k H K; cbn; [now apply K|]. inversion F; subst. cbn in L. apply andb_true_iff in L as [L1 L2].
  apply keeps_bindv; [auto|]. intros v c' Q. apply IH; auto.
Qed.
Lemma keeps_fields c l : Forall (fun x => keep x /\ parts x) l -> forallb (leaves n) l = true -> forall c0 k, same (k_l c) (k_l c0) ->
  (forall vs c', same (k_l c) (k_l c') -> keeps c (k vs c')) -> keeps c (run_fields (ev E S rec m d) l c0 k).
Proof.
  induction l as [|x l IH]; intros F L c0 k H K; cbn; [now apply K|]. inversion F as [|? ? [F1 F2] F3]; subst. cbn in L. apply andb_true_iff in L as [L1 L2].
  destruct x; try exact I. cbn in *. apply keeps_bindv; [apply F2; auto|]. intros v c' Q. apply IH; auto.
Qed.
Lemma keeps_seq c l : Forall keep l -> forallb (leaves n) l = true -> forall c0, same (k_l c) (k_l c0) -> keeps c (run_seq (ev E S rec m d) l c0).
Proof.
  induction l as [|x l IH]; intros F L c0 H; cbn; [exact H|]. inversion F; subst. cbn in L. apply andb_true_iff in L as [L1 L2].
  apply keeps_bind; [auto|]. intros o c' Q. destruct o; cbn; auto.
Qed.
Lemma keeps_block c b : match b with NBlock _ ch => Forall keep ch | _ => True end -> leaves n b = true -> forall c0, same (k_l c) (k_l c0) -> keeps c (run_block (ev E S rec m d) b c0).
Proof.
  intros F L c0 H. destruct b; try exact I. cbn in *.
  assert (K : keeps (push_scope c []) (run_seq (ev E S rec m d) ch (push_scope c0 []))) by (apply keeps_seq; auto; cbn; constructor; auto).
  destruct (run_seq _ _ _); cbn in *; auto. inversion K; subst. cbn. assumption.
Qed.
Lemma keeps_elifs c k l : Forall parts l -> forallb (leaves n) l = true -> (forall c0, same (k_l c) (k_l c0) -> keeps c (k c0)) ->
  forall c0, same (k_l c) (k_l c0) -> keeps c (run_elifs (ev E S rec m d) k l c0).
Proof.
  intros F L K. induction l as [|x l IH]; intros c0 H; cbn; [now apply K|]. inversion F; subst. cbn in L. apply andb_true_iff in L as [L1 L2].
  destruct x; try exact I. cbn in L1, H2. apply andb_true_iff in L1 as [L3 L4]. destruct H2 as [F1 F2].
  apply keeps_bindv; [auto|]. intros v c' Q. destruct v; try exact I. destruct b; [now apply keeps_block|auto].
Qed.
Lemma keeps_call c c0 t vs : same (k_l c) (k_l c0) -> keeps c (call_any E rec d t vs c0).
Proof.
  intros H. destruct t as [mm fd|b]; cbn.
  - unfold call_user. destruct (negb _); [exact I|]. destruct (_ <=? _)%nat; [exact I|]. destruct (rec _ _ _ _) as [o c'| | |]; try exact I. destruct o; cbn; auto.
  - destruct (native E b vs (k_w c0)) as [[v w]| |]; cbn; auto.
Qed.
Ltac bools := repeat match goal with H : (_ && _)%bool = true |- _ => apply andb_true_iff in H; destruct H | H : negb _ = true |- _ => apply negb_true_iff in H end.
Ltac kp := lazymatch goal with
  | |- keeps _ Stuck => exact I
  | |- keeps _ (Fail _ _) => exact I
  | |- keeps _ (Done _ _) => assumption
  | |- keeps _ (promote _ _) => apply keeps_promote; kp
  | |- keeps _ (lift _ _ _) => apply keeps_lift; assumption
  | |- keeps _ (read_var _ _ _ _) => apply keeps_read; assumption
  | |- keeps _ (write_var _ _ _ _) => apply keeps_write; assumption
  | |- keeps _ (declare _ _ _ _) => apply keeps_declare; assumption
  | |- keeps _ (call_any _ _ _ _ _ _) => apply keeps_call; assumption
  | |- keeps _ (bindv _ _) => apply keeps_bindv; [kp|intros; kp]
  | |- keeps _ (bind _ _) => apply keeps_bind; [kp|intros; kp]
  | |- keeps _ (run_args _ _ _ _) => apply keeps_args; [assumption|assumption|assumption|intros; kp]
  | |- keeps _ (run_fields _ _ _ _) => apply keeps_fields; [assumption|assumption|assumption|intros; kp]
  | |- keeps _ (run_block _ _ _) => apply keeps_block; assumption
  | |- keeps _ (ev _ _ _ _ _ _ _) => match goal with K : keep _ |- _ => apply K; assumption end
  | |- keeps _ (let (_, _) := ?x in _) => destruct x; kp
  | |- keeps _ (match ?x with _ => _ end) => destruct x; kp
  | |- _ => idtac
  end.
Lemma all_keep l : Forall (fun x => keep x /\ parts x) l -> Forall keep l.
Proof. intros H. eapply Forall_impl; [|exact H]. intros a [X _]. exact X. Qed.
Lemma all_parts l : Forall (fun x => keep x /\ parts x) l -> Forall parts l.
Proof. intros H. eapply Forall_impl; [|exact H]. intros a [_ X]. exact X. Qed.
Lemma keep_all x : keep x /\ parts x.
Proof.
  induction x using node_ind'; (split; [intros c0 st L SM|]); cbn [parts];
    repeat match goal with
    | H : keep _ /\ parts _ |- _ => destruct H
    | H : Forall (fun x => keep x /\ parts x) ?l |- _ => lazymatch goal with K : Forall keep l |- _ => fail | _ => pose proof (all_keep l H); pose proof (all_parts l H) end
    end; try exact I; try assumption.
  all: cbn [leaves ev] in *; bools.
  all: try (kp; fail).
  - destruct d0 as [y|]; cbn [optP] in *; [destruct H|]; kp.
  - destruct i as [y|]; cbn [optP] in *; [destruct H as [H P]|kp]. destruct y; try exact I. cbn [parts] in P. cbn [leaves] in *. bools.
    assert (K : keeps c0 (ev E S rec m d y st)) by (apply P; assumption). revert K. generalize (ev E S rec m d y st). clear P. intros r K.
    destruct y; (apply keeps_bindv || apply keeps_bind; [exact K|intros; kp]).
  - apply keeps_bindv; [kp|]. intros v c1 Q. destruct v; try exact I. destruct b; [destruct x2; try exact I; kp|].
    apply keeps_elifs; try assumption. intros c2 Q2. destruct el as [y|]; [|kp]. cbn [optP] in *.
    match goal with K : keep y /\ parts y |- _ => destruct K end. destruct y; try exact I; kp.
  - split; [assumption|]. destruct x2; try exact I. assumption.
  - apply keeps_bindv; [kp|]. intros v c1 Q. destruct v; try exact I. destruct b; [|kp].
    apply keeps_bind; [destruct x2; try exact I; kp|]. intros o c2 Q2.
    assert (RA : keeps c0 (rec (Again (NEnquanto ln x1 x2)) m d c2)).
    { eapply keeps_from; [exact Q2|]. apply (R (Again (NEnquanto ln x1 x2))). cbn. now rewrite andb_true_iff. }
    destruct o; try exact Q2; exact RA.
  - apply keeps_bindv; [kp|]. intros w c1 Q.
    pose proof (R (Test (NPara ln v x1 x2 i x3)) m d (push_scope c1 [(v, w)])) as RT. cbn [left_item leaves] in RT.
    rewrite !andb_true_iff, negb_true_iff in RT. specialize (RT ltac:(auto)). cbn in RT.
    destruct (rec _ _ _ _); cbn in *; auto. eapply same_trans; eassumption.
  - destruct e as [y|]; cbn [optP] in *; [destruct H|]; kp.
Qed.
Lemma keep_blocks b : match b with NBlock _ ch => Forall keep ch | _ => True end.
Proof. destruct b; try exact I. apply Forall_forall. intros x _. apply keep_all. Qed.
(** A round of a counting loop, from its test. *)
Lemma round_keeps x c : match x with NPara _ _ _ _ _ _ => leaves n x = true | _ => True end ->
  match para_round E S rec m d x c with Done _ c' => same (tl (k_l c)) (k_l c') | _ => True end.
Proof.
  intros L. destruct x; try exact I. pose proof L as L'. cbn [leaves] in L. bools.
  assert (G : forall r, keeps (pop_scope c) r -> match r with Done _ c' => same (tl (k_l c)) (k_l c') | _ => True end) by (intros r; destruct r; auto).
  pose proof (keep_all x2) as [K2 _]. pose proof (keep_blocks x3) as KB.
  assert (KI : match inc with Some e => keep e | None => True end) by (destruct inc; [apply keep_all|exact I]).
  assert (B : forall r f, keeps c r -> (forall o c', same (k_l c) (k_l c') -> match f o c' with Done _ c' => same (tl (k_l c)) (k_l c') | _ => True end) ->
    match bind r f with Done _ c' => same (tl (k_l c)) (k_l c') | _ => True end) by (intros r f A1 A2; destruct r; cbn in *; try exact I; exact (A2 _ _ A1)).
  assert (BV : forall r f, keeps c r -> (forall o c', same (k_l c) (k_l c') -> match f o c' with Done _ c' => same (tl (k_l c)) (k_l c') | _ => True end) ->
    match bindv r f with Done _ c' => same (tl (k_l c)) (k_l c') | _ => True end).
  { intros r f A1 A2. apply B; [exact A1|]. intros o c' Q. destruct o; auto. apply A2, Q. }
  cbn [para_round].
  apply BV; [apply keeps_read, same_refl|]. intros i c1 Q1. apply BV; [apply K2; assumption|]. intros s c2 Q2.
  apply BV; [apply keeps_lift, Q2|]. intros v c3 Q3. destruct v; try exact I. destruct b; [|now apply same_tl].
  apply B; [apply keeps_block; assumption|]. intros o c4 Q4.
  assert (NX : match bindv (match inc with Some e => ev E S rec m d e c4 | None => Done (OVal (VInt 1)) c4 end) (fun k c =>
              bindv (read_var S c m var) (fun i c =>
              bindv (lift (k_w c) (sem_binop BAdd k i) c) (fun i' c =>
              bind (write_var c m var i') (fun _ c => rec (Test (NPara ln var x1 x2 inc x3)) m d c)))) with Done _ c' => same (tl (k_l c)) (k_l c') | _ => True end).
  { apply BV; [destruct inc; [apply KI; assumption|exact Q4]|]. intros k c5 Q5. apply BV; [apply keeps_read, Q5|]. intros i' c6 Q6.
    apply BV; [apply keeps_lift, Q6|]. intros i2 c7 Q7. apply B; [apply keeps_write; assumption|]. intros o' c8 Q8.
    pose proof (R (Test (NPara ln var x1 x2 inc x3)) m d c8 L') as RT. cbn in RT. destruct (rec _ _ _ _); auto.
    eapply same_trans; [apply same_tl, Q8|exact RT]. }
  destruct o; try exact NX; now apply same_tl.
Qed.
End Ev.

Lemma exec_keeps fuel : rec_ok (exec E S fuel).
Proof.
  induction fuel as [|f IH]; intros it m d c L; [destruct it; exact I|]. cbn [exec]. destruct it as [x|x|ch].
  - apply (proj1 (keep_all _ IH m d x)); [exact L|apply same_refl].
  - apply round_keeps; [exact IH|]. destruct x; try exact I. exact L.
  - exact I.
Qed.
End Keep.
(** What a run of [x] does to a variable that [x] leaves alone: nothing. *)
Theorem left_alone E S n fuel m d x c o c' : leaves n x = true -> ev E S (exec E S fuel) m d x c = Done o c' -> look (k_l c') n = look (k_l c) n.
Proof.
  intros L H. pose proof (proj1 (keep_all E S n (exec E S fuel) (exec_keeps E S n fuel) m d x) c c L (same_refl n _)) as K. rewrite H in K. now apply same_look.
Qed.
Theorem block_alone E S n fuel m d b c o c' : leaves n b = true -> run_block (ev E S (exec E S fuel) m d) b c = Done o c' -> look (k_l c') n = look (k_l c) n.
Proof.
  intros L H. pose proof (keeps_block E S n (exec E S fuel) m d c b (keep_blocks E S n _ (exec_keeps E S n fuel) m d b) L c (same_refl n _)) as K.
  rewrite H in K. now apply same_look.
Qed.
