(** More fuel changes no result of the interpreter. *)
From Verif Require Import Base BaseFacts Float Value VM Ast Sem Spec_Value Spec_Tables Spec_Sem SemFacts.

Section Fuel.
Variable E : ext.
Variable S : senv.
Definition more (r r' : res) : Prop := r = Fuel \/ r = r'.
Lemma more_refl r : more r r. Proof. right. reflexivity. Qed.
Lemma more_bind r r' f f' : more r r' -> (forall o c, more (f o c) (f' o c)) -> more (bind r f) (bind r' f').
Proof. intros [->| ->] H; [left; reflexivity|]. destruct r'; cbn; auto using more_refl. Qed.
Lemma more_bindv r r' f f' : more r r' -> (forall v c, more (f v c) (f' v c)) -> more (bindv r f) (bindv r' f').
Proof. intros H K. apply more_bind; [exact H|]. intros [] c; auto using more_refl. Qed.
Lemma more_promote p r r' : more r r' -> more (promote p r) (promote p r').
Proof. intros [->| ->]; [|apply more_refl]. left. destruct p; reflexivity. Qed.
Definition rec_more (rec rec' : recfun) : Prop := forall it m d c, more (rec it m d c) (rec' it m d c).

Section Ev.
Variable rec rec' : recfun.
Hypothesis R : rec_more rec rec'.
Variable m : option N.
Variable d : nat.
Definition grows (x : node) : Prop := forall c, more (ev E S rec m d x c) (ev E S rec' m d x c).
Definition pieces (x : node) : Prop :=
  match x with
  | NNamed _ _ e | NAssign _ _ _ e _ => grows e
  | NBlock _ ch => Forall grows ch
  | NSenaoSe _ c b => grows c /\ match b with NBlock _ ch => Forall grows ch | _ => True end
  | _ => True
  end.
Lemma more_args l : Forall grows l -> forall c k k', (forall vs c, more (k vs c) (k' vs c)) ->
  more (run_args (ev E S rec m d) l c k) (run_args (ev E S rec' m d) l c k').
Proof.
  induction l as [|x l IH]; intros F c k k' K; cbn; [apply K|]. inversion F; subst. apply more_bindv; [auto|]. intros v c1. apply IH; auto.
Qed.
Lemma more_fields l : Forall (fun x => grows x /\ pieces x) l -> forall c k k', (forall vs c, more (k vs c) (k' vs c)) ->
  more (run_fields (ev E S rec m d) l c k) (run_fields (ev E S rec' m d) l c k').
Proof.
  induction l as [|x l IH]; intros F c k k' K; cbn; [apply K|]. inversion F as [|? ? [F1 F2] F3]; subst. destruct x; try apply more_refl.
  apply more_bindv; [apply F2|]. intros v c1. apply IH; auto.
Qed.
Lemma more_seq l : Forall grows l -> forall c, more (run_seq (ev E S rec m d) l c) (run_seq (ev E S rec' m d) l c).
Proof.
  induction l as [|x l IH]; intros F c; cbn; [apply more_refl|]. inversion F; subst. apply more_bind; [auto|]. intros o c1. destruct o; auto using more_refl.
Qed.
Lemma more_block b : match b with NBlock _ ch => Forall grows ch | _ => True end -> forall c, more (run_block (ev E S rec m d) b c) (run_block (ev E S rec' m d) b c).
Proof.
  intros F c. destruct b; try apply more_refl. cbn. unfold popr. destruct (more_seq ch F (push_scope c [])) as [-> | ->]; [left; reflexivity|apply more_refl].
Qed.
Lemma more_elifs k k' l : Forall pieces l -> (forall c, more (k c) (k' c)) -> forall c, more (run_elifs (ev E S rec m d) k l c) (run_elifs (ev E S rec' m d) k' l c).
Proof.
  intros F K. induction l as [|x l IH]; intros c; cbn; [apply K|]. inversion F; subst. destruct x; try apply more_refl. destruct H1 as [F1 F2].
  apply more_bindv; [apply F1|]. intros v c1. destruct v; try apply more_refl. destruct b; [now apply more_block|auto].
Qed.
Lemma more_call t vs c : more (call_any E rec d t vs c) (call_any E rec' d t vs c).
Proof.
  destruct t as [mm fd|b]; cbn; [|apply more_refl]. unfold call_user. destruct (negb _); [apply more_refl|]. destruct (_ <=? _)%nat; [apply more_refl|].
  apply more_bind; [apply R|intros; apply more_refl].
Qed.
Ltac mo := lazymatch goal with
  | |- more ?a ?a => apply more_refl
  | |- more (promote _ _) _ => apply more_promote; mo
  | |- more (call_any _ _ _ _ _ _) _ => apply more_call
  | |- more (bindv _ _) _ => apply more_bindv; [mo|intros; mo]
  | |- more (bind _ _) _ => apply more_bind; [mo|intros; mo]
  | |- more (run_args _ _ _ _) _ => apply more_args; [assumption|intros; mo]
  | |- more (run_fields _ _ _ _) _ => apply more_fields; [assumption|intros; mo]
  | |- more (run_block _ _ _) _ => apply more_block; assumption
  | |- more (ev _ _ _ _ _ _ _) _ => match goal with K : grows _ |- _ => apply K end
  | |- more (rec _ _ _ _) _ => apply R
  | |- more (match ?x with _ => _ end) _ => destruct x; mo
  | |- _ => idtac
  end.
Lemma all_grow l : Forall (fun x => grows x /\ pieces x) l -> Forall grows l.
Proof. intros H. eapply Forall_impl; [|exact H]. intros a [X _]. exact X. Qed.
Lemma all_pieces l : Forall (fun x => grows x /\ pieces x) l -> Forall pieces l.
Proof. intros H. eapply Forall_impl; [|exact H]. intros a [_ X]. exact X. Qed.
Lemma grow_all x : grows x /\ pieces x.
Proof.
  induction x using node_ind'; (split; [intros c0|]); cbn [pieces];
    repeat match goal with
    | H : grows _ /\ pieces _ |- _ => destruct H
    | H : Forall (fun x => grows x /\ pieces x) ?l |- _ => lazymatch goal with K : Forall grows l |- _ => fail | _ => pose proof (all_grow l H); pose proof (all_pieces l H) end
    end; try exact I; try assumption.
  all: cbn [ev].
  all: try (mo; fail).
  - destruct d0 as [y|]; cbn [optP] in *; [destruct H|]; mo.
  - destruct i as [y|]; cbn [optP] in *; [destruct H as [H P]|apply more_refl]. destruct y; try apply more_refl. cbn [pieces] in P. pose proof (P c0) as K.
    revert K. generalize (ev E S rec m d y c0) (ev E S rec' m d y c0). clear. intros r r' K.
    destruct y; (apply more_bindv || apply more_bind; [exact K|intros; apply more_refl]).
  - apply more_bindv; [mo|]. intros v c1. destruct v; try apply more_refl. destruct b; [destruct x2; try apply more_refl; mo|].
    apply more_elifs; [assumption|]. intros c2. destruct el as [y|]; [|apply more_refl]. cbn [optP] in *.
    match goal with K : grows y /\ pieces y |- _ => destruct K end. destruct y; try apply more_refl; mo.
  - split; [assumption|]. destruct x2; try exact I. assumption.
  - apply more_bindv; [mo|]. intros v c1. destruct v; try apply more_refl. destruct b; [|apply more_refl].
    apply more_bind; [destruct x2; try apply more_refl; mo|]. intros o c2. destruct o; try apply more_refl; apply R.
  - destruct e as [y|]; cbn [optP] in *; [destruct H|]; mo.
Qed.
Lemma grow_blocks b : match b with NBlock _ ch => Forall grows ch | _ => True end.
Proof. destruct b; try exact I. apply Forall_forall. intros x _. apply grow_all. Qed.
Lemma grow_round x c : more (para_round E S rec m d x c) (para_round E S rec' m d x c).
Proof.
  destruct x; try apply more_refl. cbn [para_round]. pose proof (proj1 (grow_all x2)). pose proof (grow_blocks x3).
  apply more_bindv; [apply more_refl|]. intros i c1. apply more_bindv; [mo|]. intros s c2. apply more_bindv; [apply more_refl|]. intros v c3. destruct v; try apply more_refl. destruct b; [|apply more_refl].
  apply more_bind; [now apply more_block|]. intros o c4.
  assert (I : forall c, more (match inc with Some e => ev E S rec m d e c | None => Done (OVal (VInt 1)) c end) (match inc with Some e => ev E S rec' m d e c | None => Done (OVal (VInt 1)) c end))
    by (intros c5; destruct inc; [apply grow_all|apply more_refl]).
  destruct o; try apply more_refl; (apply more_bindv; [apply I|]; intros k c5; apply more_bindv; [apply more_refl|]; intros i' c6; apply more_bindv; [apply more_refl|]; intros i2 c7;
    apply more_bind; [apply more_refl|]; intros o' c8; apply R).
Qed.
End Ev.

Lemma exec_more f f' : (f <= f')%nat -> rec_more (exec E S f) (exec E S f').
Proof.
  revert f'. induction f as [|f IH]; intros f' L it m d c; [left; reflexivity|]. destruct f' as [|f']; [lia|]. assert (R := IH f' ltac:(lia)). cbn [exec]. destruct it as [x|x|ch].
  - apply grow_all, R.
  - apply grow_round, R.
  - unfold popr. destruct (more_seq (exec E S f) (exec E S f') m d ch) with (c := push_scope c []) as [-> | ->]; [|left; reflexivity|apply more_refl].
    apply Forall_forall. intros x _. apply grow_all, R.
Qed.
(** A result found with some fuel is found with more fuel. *)
Lemma ev_more f f' m d x c r : (f <= f')%nat -> ev E S (exec E S f) m d x c = r -> r <> Fuel -> ev E S (exec E S f') m d x c = r.
Proof. intros L H N. destruct (proj1 (grow_all _ _ (exec_more f f' L) m d x) c) as [K|K]; congruence. Qed.
Lemma block_more f f' m d b c r : (f <= f')%nat -> run_block (ev E S (exec E S f) m d) b c = r -> r <> Fuel -> run_block (ev E S (exec E S f') m d) b c = r.
Proof. intros L H N. destruct (more_block _ _ m d b (grow_blocks _ _ (exec_more f f' L) m d b) c) as [K|K]; congruence. Qed.
End Fuel.
