From Verif Require Import Base BaseFacts Utf8 Bson Spec_Bson BsonFacts.

Lemma dumps_injective d1 d2 bs :
  bson_wf (BDoc d1) -> bson_wf (BDoc d2) -> dumps d1 = PyOk bs -> dumps d2 = PyOk bs -> d1 = d2.
Proof.
  intros W1 W2 H1 H2. apply dumps_load in H1; auto. apply dumps_load in H2; auto. congruence.
Qed.

Lemma dump_refuses v z : in_i64 z = false -> occurs_int z v -> forall k, exists e, dump_value k v = PyErr e.
Proof.
  intros Hz. induction v as [b|t|l IH|l IH|b|i] using bval_ind'; intros O k; inversion O; subst;
    rewrite dump_value_eq; destruct (py_encode k); cbn [pbind]; eauto.
  - match goal with H : List.In _ l |- _ => rename H into Hin end.
    assert (E : exists e, dumps_items l = PyErr e).
    { clear O. induction l as [|[k1 v1] l IHl]; [destruct Hin|]. inversion IH; subst. cbn [dumps_items].
      destruct Hin as [E|Hin].
      - injection E as -> ->. destruct (H2 H1 k0) as (e & He). cbn [snd] in He. rewrite He. cbn [pbind]; eauto.
      - destruct (dump_value k1 v1); cbn [pbind]; eauto.
        destruct IHl as (e & He); auto. rewrite He. cbn [pbind]. eauto. }
    destruct E as (e & ->). cbn [pbind]. eauto.
  - match goal with H : List.In _ l |- _ => rename H into Hin end.
    assert (E : forall i, exists e, dumps_array i l = PyErr e).
    { clear O. induction l as [|v1 l IHl]; intros i; [destruct Hin|]. inversion IH; subst. cbn [dumps_array].
      destruct Hin as [->|Hin].
      - destruct (H2 H1 (Dec.dec_N i)) as (e & He). rewrite He. cbn [pbind]; eauto.
      - destruct (dump_value (Dec.dec_N i) v1); cbn [pbind]; eauto.
        destruct (IHl H3 Hin (i + 1)%N) as (e & He). rewrite He. cbn [pbind]. eauto. }
    destruct (E 0%N) as (e & ->). cbn [pbind]. eauto.
  - unfold into_bson_int64. rewrite Hz. cbn [pbind]. eauto.
Qed.

Lemma dumps_refuses d z : occurs_int z (BDoc d) -> in_i64 z = false -> exists e, dumps d = PyErr e.
Proof.
  intros O Hz. destruct (dump_refuses _ z Hz O []) as (e & He). rewrite dump_value_eq in He.
  unfold dumps. cbn [py_encode utf8_encode pbind] in He.
  destruct (dumps_items d); cbn [pbind] in *; eauto.
  destruct (finish_doc a); cbn [pbind] in *; eauto. discriminate.
Qed.

Lemma nonascii_key_refuted : exists doc bs,
  NoDup (map fst doc) /\ dumps doc = PyOk bs /\ exists doc', load_doc bs = LOk doc' /\ doc' <> doc.
Proof.
  exists [([225%N], BInt 1)]. eexists. split; [repeat constructor; simpl; tauto|].
  split; [vm_compute; reflexivity|]. eexists. split; [vm_compute; reflexivity|]. discriminate.
Qed.

Lemma nul_key_refuted : exists doc bs,
  NoDup (map fst doc) /\ dumps doc = PyOk bs /\ load_doc bs <> LOk doc.
Proof.
  exists [([0%N; 97%N], BInt 1)]. eexists. split; [repeat constructor; simpl; tauto|].
  split; [vm_compute; reflexivity|]. vm_compute. discriminate.
Qed.

Lemma bson_example :
  let doc := [(txt "name", BStr (txt "a.ama")); (txt "ops", BBytes [1; 0; 0; 255]%N);
              (txt "consts", BArr [BInt (-5); BDouble 7; BStr (txt "''"); BDoc [(txt "k", BArr [])]])] in
  bson_wf (BDoc doc) /\ bson_fits (BDoc doc) /\ (total_items doc < 2 ^ 31)%N /\
  exists bs, dumps doc = PyOk bs /\ load_doc bs = LOk doc.
Proof.
  intros doc. split; [|split; [|split]].
  - subst doc. constructor.
    + vm_compute. repeat (constructor; [intros H; repeat destruct H as [H|H]; try discriminate H; destruct H|]).
      constructor.
    + vm_compute. repeat constructor.
    + repeat (apply Forall_cons; [cbn [snd]|]); try apply Forall_nil; try constructor.
      repeat (apply Forall_cons; [|]); try apply Forall_nil; try constructor.
      * reflexivity.
      * cbn [map fst]. constructor; [intros []|constructor].
      * cbn [fst]. vm_compute. repeat constructor.
      * cbn [snd]. repeat constructor.
  - subst doc. constructor.
    + repeat (apply Forall_cons; [repeat (apply Forall_cons; [vm_compute; reflexivity|]); try apply Forall_nil; vm_compute; reflexivity|]); try apply Forall_nil.
    + repeat (apply Forall_cons; [cbn [snd]|]); try apply Forall_nil; try constructor.
      * repeat (apply Forall_cons; [repeat (apply Forall_cons; [vm_compute; reflexivity|]); try apply Forall_nil; vm_compute; reflexivity|]); try apply Forall_nil.
      * repeat (apply Forall_cons; [|]); try apply Forall_nil; try constructor; try reflexivity.
        -- repeat (apply Forall_cons; [repeat (apply Forall_cons; [vm_compute; reflexivity|]); try apply Forall_nil; vm_compute; reflexivity|]); try apply Forall_nil.
        -- repeat (apply Forall_cons; [repeat (apply Forall_cons; [vm_compute; reflexivity|]); try apply Forall_nil; vm_compute; reflexivity|]); try apply Forall_nil.
        -- cbn [snd]. repeat constructor.
  - vm_compute; reflexivity.
  - eexists; split; [vm_compute; reflexivity|]. vm_compute; reflexivity.
Qed.
