(** Pieces without [quebra] and [continua] end normally, with a value or by returning. *)
From Verif Require Import Base BaseFacts Float Value VM Ast Sem Spec_Value Spec_Tables Spec_Sem SemFacts Spec_Count.

Section Calm.
Variable E : ext.
Variable S : senv.
Definition quiet (r : res) : Prop := match r with Done OBrk _ | Done OCont _ => False | _ => True end.
Lemma quiet_bind r f : (forall o c, r = Done o c -> quiet (f o c)) -> quiet (bind r f).
Proof. destruct r; cbn; auto. Qed.
Lemma quiet_bindv r f : (forall v c, quiet (f v c)) -> quiet (bindv r f).
Proof. intros H. apply quiet_bind. intros [] c _; cbn; auto. Qed.
Definition rec_quiet (rec : recfun) : Prop := forall it m d c,
  match it with Again (NEnquanto _ _ _) | Test _ => quiet (rec it m d c) | _ => True end.

Section Ev.
Variable rec : recfun.
Hypothesis R : rec_quiet rec.
Variable m : option N.
Variable d : nat.
Definition rests (x : node) : Prop := calm x = true -> forall c, quiet (ev E S rec m d x c).
Definition inside (x : node) : Prop :=
  match x with
  | NBlock _ ch => Forall rests ch
  | NSenaoSe _ _ (NBlock _ ch) => Forall rests ch
  | _ => True
  end.
Lemma quiet_promote p r : quiet r -> quiet (promote p r).
Proof. intros H. destruct p; [|exact H]. apply quiet_bindv. intros v c. destruct v; exact I. Qed.
Lemma quiet_lift w r c : quiet (lift w r c). Proof. destruct r; exact I. Qed.
Lemma quiet_read c k : quiet (read_var S c m k). Proof. unfold read_var. destruct (var_value _ _ _ _); exact I. Qed.
Lemma quiet_write c k v : quiet (write_var c m k v). Proof. unfold write_var. destruct (update _ _ _); exact I. Qed.
Lemma quiet_declare c k v : quiet (declare c m k v). Proof. unfold declare. destruct (k_l c); exact I. Qed.
Lemma quiet_args f l : forall c k, (forall vs c, quiet (k vs c)) -> quiet (run_args f l c k).
Proof. induction l as [|x l IH]; intros c k K; cbn; [apply K|]. apply quiet_bindv. intros v c1. apply IH. auto. Qed.
Lemma quiet_fields f l : forall c k, (forall vs c, quiet (k vs c)) -> quiet (run_fields f l c k).
Proof. induction l as [|x l IH]; intros c k K; cbn; [apply K|]. destruct x; try exact I. apply quiet_bindv. intros v c1. apply IH. auto. Qed.
Lemma quiet_seq l : Forall rests l -> forallb calm l = true -> forall c, quiet (run_seq (ev E S rec m d) l c).
Proof.
  induction l as [|x l IH]; intros F L c; cbn; [exact I|]. inversion F; subst. cbn in L. apply andb_true_iff in L as [L1 L2].
  apply quiet_bind. intros o c1 H. specialize (H1 L1 c). rewrite H in H1. destruct o; try exact I; try contradiction; auto.
Qed.
Lemma quiet_block b : match b with NBlock _ ch => Forall rests ch | _ => True end -> calm b = true -> forall c, quiet (run_block (ev E S rec m d) b c).
Proof.
  intros F L c. destruct b; try exact I. cbn in *. unfold popr. pose proof (quiet_seq ch F L (push_scope c [])) as Q. destruct (run_seq _ _ _); try exact I. destruct o; try exact I; contradiction.
Qed.
Lemma quiet_elifs k l : Forall inside l -> forallb calm l = true -> (forall c, quiet (k c)) -> forall c, quiet (run_elifs (ev E S rec m d) k l c).
Proof.
  intros F L K. induction l as [|x l IH]; intros c; cbn; [apply K|]. inversion F; subst. cbn in L. apply andb_true_iff in L as [L1 L2]. destruct x; try exact I.
  apply quiet_bindv. intros v c1. destruct v; try exact I. destruct b; [|auto]. apply quiet_block; [|exact L1]. destruct x2; try exact I. exact H1.
Qed.
Lemma quiet_call t vs c : quiet (call_any E rec d t vs c).
Proof.
  destruct t as [mm fd|b]; cbn.
  - unfold call_user. destruct (negb _); [exact I|]. destruct (_ <=? _)%nat; [exact I|]. apply quiet_bind. intros o c1 _. destruct o; exact I.
  - destruct (native E b vs (k_w c)) as [[v w]| |]; exact I.
Qed.
Ltac qu := lazymatch goal with
  | |- quiet Stuck => exact I
  | |- quiet (Fail _ _) => exact I
  | |- quiet (Done _ _) => exact I
  | |- quiet (promote _ _) => apply quiet_promote; qu
  | |- quiet (lift _ _ _) => apply quiet_lift
  | |- quiet (read_var _ _ _ _) => apply quiet_read
  | |- quiet (write_var _ _ _ _) => apply quiet_write
  | |- quiet (declare _ _ _ _) => apply quiet_declare
  | |- quiet (call_any _ _ _ _ _ _) => apply quiet_call
  | |- quiet (bindv _ _) => apply quiet_bindv; intros; qu
  | |- quiet (bind _ _) => apply quiet_bind; intros; qu
  | |- quiet (run_args _ _ _ _) => apply quiet_args; intros; qu
  | |- quiet (run_fields _ _ _ _) => apply quiet_fields; intros; qu
  | |- quiet (let (_, _) := ?x in _) => destruct x; qu
  | |- quiet (match ?x with _ => _ end) => destruct x; qu
  | |- _ => idtac
  end.
Lemma all_rest l : Forall (fun x => rests x /\ inside x) l -> Forall rests l.
Proof. intros H. eapply Forall_impl; [|exact H]. intros a [X _]. exact X. Qed.
Lemma all_inside l : Forall (fun x => rests x /\ inside x) l -> Forall inside l.
Proof. intros H. eapply Forall_impl; [|exact H]. intros a [_ X]. exact X. Qed.
Lemma rest_all x : rests x /\ inside x.
Proof.
  induction x using node_ind'; (split; [intros L c0|]); cbn [inside];
    repeat match goal with
    | H : rests _ /\ inside _ |- _ => destruct H
    | H : Forall (fun x => rests x /\ inside x) ?l |- _ => lazymatch goal with K : Forall rests l |- _ => fail | _ => pose proof (all_rest l H); pose proof (all_inside l H) end
    end; try exact I; try assumption.
  all: cbn [calm ev] in *; try discriminate L.
  all: try (qu; fail).
  - apply andb_true_iff in L as [L L3]. apply andb_true_iff in L as [L1 L2]. apply quiet_bindv. intros v c. destruct v; try exact I. destruct b.
    + apply quiet_block; [destruct x2; try exact I; assumption|exact L1].
    + apply quiet_elifs; [assumption|assumption|]. intros c1. destruct el as [y|]; [|exact I]. destruct H0 as [_ P]. apply quiet_block; [destruct y; try exact I; assumption|exact L3].
  - destruct x2; try exact I; assumption.
  - apply quiet_bindv. intros v c. destruct v; try exact I. destruct b; [|exact I]. apply quiet_bind. intros o c1 _. destruct o; try exact I; exact (R (Again (NEnquanto ln x1 x2)) m d c1).
  - apply quiet_bindv. intros w c. exact (R (Test (NPara ln v x1 x2 i x3)) m d _).
Qed.
Lemma rest_block b : calm b = true -> forall c, quiet (run_block (ev E S rec m d) b c).
Proof. apply quiet_block. destruct b; try exact I. apply Forall_forall. intros x _. apply rest_all. Qed.
Lemma rest_round x c : quiet (para_round E S rec m d x c).
Proof.
  destruct x; try exact I. cbn [para_round]. apply quiet_bindv. intros i c1. apply quiet_bindv. intros s c2. apply quiet_bindv. intros v c3. destruct v; try exact I. destruct b; [|exact I].
  apply quiet_bind. intros o c4 _. destruct o; try exact I; (apply quiet_bindv; intros k c5; apply quiet_bindv; intros i' c6; apply quiet_bindv; intros i2 c7; apply quiet_bind; intros o' c8 _;
    exact (R (Test (NPara ln var x1 x2 inc x3)) m d c8)).
Qed.
End Ev.
Lemma exec_quiet fuel : rec_quiet (exec E S fuel).
Proof.
  induction fuel as [|f IH]; intros it m d c; [destruct it as [[]| |]; exact I|]. cbn [exec]. destruct it as [x|x|ch]; [|apply rest_round, IH|exact I].
  destruct x; try exact I. apply rest_all; [exact IH|reflexivity].
Qed.
Lemma block_calm fuel m d b c : calm b = true -> quiet (run_block (ev E S (exec E S fuel) m d) b c).
Proof. intros L. apply rest_block; [apply exec_quiet|exact L]. Qed.
End Calm.
