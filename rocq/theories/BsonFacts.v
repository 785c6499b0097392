From Verif Require Import Base BaseFacts Utf8 Utf8Facts Dec Bson Spec_Bson.

Section Ind.
  Variable P : bval -> Prop.
  Hypothesis Hd : forall b, P (BDouble b).
  Hypothesis Hs : forall t, P (BStr t).
  Hypothesis Hdoc : forall l, Forall (fun kv => P (snd kv)) l -> P (BDoc l).
  Hypothesis Harr : forall l, Forall P l -> P (BArr l).
  Hypothesis Hb : forall b, P (BBytes b).
  Hypothesis Hi : forall z, P (BInt z).
  Fixpoint bval_ind' (v : bval) : P v :=
    match v with
    | BDouble b => Hd b | BStr t => Hs t
    | BDoc l => Hdoc l ((fix go l := match l return Forall (fun kv => P (snd kv)) l with
                                    | [] => Forall_nil _
                                    | kv :: l' => Forall_cons _ (bval_ind' (snd kv)) (go l') end) l)
    | BArr l => Harr l ((fix go l := match l return Forall P l with
                                    | [] => Forall_nil _
                                    | v :: l' => Forall_cons _ (bval_ind' v) (go l') end) l)
    | BBytes b => Hb b | BInt z => Hi z
    end.
End Ind.

Fixpoint need (v : bval) : nat :=
  match v with
  | BDoc l => S ((fix go l := match l with [] => 1 | (_, v) :: l' => S (Nat.max (need v) (go l')) end) l)
  | BArr l => S ((fix go l := match l with [] => 1 | v :: l' => S (Nat.max (need v) (go l')) end) l)
  | _ => 1
  end.
Fixpoint need_items (l : list (text * bval)) : nat :=
  match l with [] => 1 | (_, v) :: l' => S (Nat.max (need v) (need_items l')) end.
Fixpoint need_arr (l : list bval) : nat :=
  match l with [] => 1 | v :: l' => S (Nat.max (need v) (need_arr l')) end.
Lemma need_doc l : need (BDoc l) = S (need_items l). Proof. reflexivity. Qed.
Lemma need_arr_eq l : need (BArr l) = S (need_arr l). Proof. reflexivity. Qed.

Lemma dump_value_eq key v : dump_value key v =
  let! k := py_encode key in
  match v with
  | BDouble bits => PyOk (1%N :: k ++ [0%N] ++ into_bson_f64 bits)
  | BStr t =>
      let! s := py_encode t in
      let! len := bson_int32_len s in
      PyOk (2%N :: k ++ [0%N] ++ len ++ s ++ [0%N])
  | BDoc items =>
      let! e := dumps_items items in
      let! d := finish_doc e in
      PyOk (3%N :: k ++ [0%N] ++ d)
  | BArr items =>
      let! e := dumps_array 0%N items in
      let! d := finish_doc e in
      PyOk (4%N :: k ++ [0%N] ++ d)
  | BBytes b =>
      let! len := into_bson_int32 (N.of_nat (List.length b)) in
      PyOk (5%N :: k ++ [0%N] ++ len ++ [128%N] ++ b)
  | BInt z =>
      let! i := into_bson_int64 z in
      PyOk (18%N :: k ++ [0%N] ++ i)
  end.
Proof. destruct v; reflexivity. Qed.

Lemma pyok_inj {A} (a b : A) : PyOk a = PyOk b -> a = b.
Proof. congruence. Qed.

Lemma pbind_ok {A B} (x : pyres A) (f : A -> pyres B) b :
  pbind x f = PyOk b -> exists a, x = PyOk a /\ f a = PyOk b.
Proof. destruct x; simpl; [eauto|discriminate]. Qed.

Lemma into_bson_int32_ok n b : into_bson_int32 n = PyOk b -> b = le_bytes 4 n /\ (n < 2 ^ 31)%N.
Proof. unfold into_bson_int32. destruct (n <? 2 ^ 31)%N eqn:E; intros H; [|discriminate].
  apply pyok_inj in H. split; [auto|lia]. Qed.

Lemma bson_int32_len_ok l b : bson_int32_len l = PyOk b ->
  b = le_bytes 4 (N.of_nat (List.length l)) /\ (N.of_nat (List.length l) < 2 ^ 31)%N.
Proof. unfold bson_int32_len. destruct (_ <=? _)%N; [discriminate|]. apply into_bson_int32_ok. Qed.

Lemma read_n_app n l r : List.length l = n -> read_n n (l ++ r) = LOk (l, r).
Proof. intros <-. unfold read_n. rewrite take_app. reflexivity. Qed.

Lemma key_read k r : key_ok k -> read_bson_key (k ++ 0%N :: r) = LOk (k, r).
Proof.
  induction 1 as [|c k Hc Hk IH]; simpl; [reflexivity|].
  destruct (c =? 0)%N eqn:E; [lia|]. rewrite IH. reflexivity.
Qed.

(* a key with no NUL bytes can always be skipped *)
Lemma key_skip k r : Forall (fun c => c <> 0%N) k -> read_bson_key (k ++ 0%N :: r) = LOk (k, r).
Proof.
  induction 1 as [|c k Hc Hk IH]; simpl; [reflexivity|].
  destruct (c =? 0)%N eqn:E; [lia|]. rewrite IH. reflexivity.
Qed.

Lemma key_ok_encode k : key_ok k -> py_encode k = PyOk k.
Proof.
  intros H. unfold py_encode. rewrite utf8_encode_ascii; [reflexivity|].
  eapply Forall_impl; [|exact H]. simpl; intros; lia.
Qed.

Lemma dec_N_key_ok n : key_ok (dec_N n).
Proof. eapply Forall_impl; [|apply dec_N_digits]. unfold is_digit. simpl; intros; lia. Qed.

Lemma hm_insert_fresh m k v : ~ In k (map fst m) -> hm_insert m k v = m ++ [(k, v)].
Proof.
  induction m as [|[k' v'] m IH]; simpl; intros H; [reflexivity|].
  destruct (text_eqb k k') eqn:E.
  - apply text_eqb_eq in E. subst. tauto.
  - rewrite IH by tauto. reflexivity.
Qed.

Lemma le_len_le n : (n < 2 ^ 31)%N -> le_len (le_bytes 4 n) = Some (N.to_nat n).
Proof.
  intros H. unfold le_len. rewrite le_val_bytes by (simpl; lia).
  replace (n <? 2 ^ 31)%N with true by lia. reflexivity.
Qed.

(** What the encoding of one value looks like to the reader. *)
Definition reads (v : bval) (ty : N) (payload : bytes) : Prop :=
  ty <> 0%N /\ (need v <= List.length payload)%nat /\
  forall fuel rest, (need v <= fuel)%nat -> unpack_bson_value fuel ty (payload ++ rest) = LOk (v, rest).

Lemma value_reads v : bson_wf v -> forall key bs, dump_value key v = PyOk bs ->
  exists ty kb payload, py_encode key = PyOk kb /\ bs = ty :: kb ++ 0%N :: payload /\ reads v ty payload.
Proof.
  induction v as [bits|t|l IH|l IH|b|z] using bval_ind'; intros W key bs H;
    rewrite dump_value_eq in H; apply pbind_ok in H as (kb & Hk & H).
  - apply pyok_inj in H; subst bs. inversion W; subst.
    exists 1%N, kb, (into_bson_f64 bits). repeat split; auto; try discriminate.
    + unfold into_bson_f64. rewrite le_bytes_length. simpl; lia.
    + intros [|f] rest Hf; [simpl in Hf; lia|]. unfold into_bson_f64.
      cbn [unpack_bson_value]. rewrite read_n_app by apply le_bytes_length. cbn [lbind].
      rewrite le_val_bytes by (simpl; lia). reflexivity.
  - apply pbind_ok in H as (s & Hs & H). apply pbind_ok in H as (len & Hl & H).
    apply pyok_inj in H; subst bs. apply bson_int32_len_ok in Hl as [-> Hlt].
    exists 2%N, kb, (le_bytes 4 (N.of_nat (List.length s)) ++ s ++ [0%N]).
    repeat split; auto; try discriminate.
    + rewrite !app_length, le_bytes_length. simpl; lia.
    + intros [|f] rest Hf; [simpl in Hf; lia|]. rewrite <- !app_assoc.
      cbn [unpack_bson_value]. rewrite read_n_app by apply le_bytes_length. cbn [lbind].
      rewrite le_len_le by auto. rewrite Nat2N.id. rewrite read_n_app by auto. cbn [lbind].
      rewrite (read_n_app 1 [0%N] rest) by auto. cbn [lbind].
      unfold py_encode in Hs. destruct (utf8_encode t) as [s'|] eqn:E; [|discriminate].
      apply pyok_inj in Hs; subst s'. rewrite (utf8_decode_encode _ _ E). reflexivity.
  - apply pbind_ok in H as (e & He & H). apply pbind_ok in H as (d & Hd & H).
    apply pyok_inj in H; subst bs. unfold finish_doc in Hd.
    apply pbind_ok in Hd as (len & Hl & Hd). apply pyok_inj in Hd; subst d.
    apply bson_int32_len_ok in Hl as [-> Hlt].
    inversion W as [| |? ND HK HW| | |]; subst.
    exists 3%N, kb, (le_bytes 4 (N.of_nat (List.length e)) ++ e ++ [0%N]).
    assert (HL : (need_items l <= S (List.length e))%nat /\
      forall fuel acc rest, (need_items l <= fuel)%nat ->
        (forall k, In k (map fst l) -> ~ In k (map fst acc)) ->
        unpack_doc_loop fuel acc (e ++ 0%N :: rest) = LOk (acc ++ l, rest)).
    { clear - IH ND HK HW He. revert e He.
      induction l as [|[k v] l IHl]; intros e He.
      - cbn [dumps_items] in He. apply pyok_inj in He; subst e. split; [simpl; lia|].
        intros [|f] acc rest Hf _; [simpl in Hf; lia|]. simpl. rewrite app_nil_r. reflexivity.
      - cbn [dumps_items] in He. apply pbind_ok in He as (a & Ha & He).
        apply pbind_ok in He as (b & Hb & He). apply pyok_inj in He; subst e.
        inversion IH as [|? ? IH1 IH2]; subst. inversion HW as [|? ? W1 W2]; subst.
        inversion HK as [|? ? K1 K2]; subst. simpl in ND. inversion ND as [|? ? N1 N2]; subst.
        simpl in IH1, W1, K1.
        specialize (IHl IH2 N2 K2 W2 _ Hb) as [L1 L2].
        destruct (IH1 W1 _ _ Ha) as (ty & kb & pl & Hkb & -> & (Hty & Hn & Hr)).
        rewrite (key_ok_encode _ K1) in Hkb. apply pyok_inj in Hkb; subst kb.
        split.
        + cbn [need_items]. rewrite app_length. simpl. rewrite app_length. simpl. lia.
        + intros [|f] acc rest Hf Hdis; cbn [need_items] in Hf; [lia|].
          cbn [app unpack_doc_loop]. destruct (ty =? 0)%N eqn:Et; [lia|].
          rewrite <- !app_assoc. cbn [app].
          rewrite key_read by auto. cbn [lbind]. rewrite Hr by lia. cbn [lbind].
          rewrite hm_insert_fresh by (apply Hdis; simpl; auto).
          rewrite L2; [rewrite <- app_assoc; reflexivity|lia|].
          intros k' Hk'. rewrite map_app, in_app_iff. simpl. intros [Hin|[<-|[]]]; [|tauto].
          eapply Hdis; [|exact Hin]. simpl; auto. }
    destruct HL as [L1 L2].
    repeat split; auto; try discriminate.
    + rewrite need_doc, !app_length, le_bytes_length. simpl; lia.
    + intros [|f] rest Hf; rewrite need_doc in Hf; [lia|]. rewrite <- !app_assoc.
      cbn [unpack_bson_value]. rewrite read_n_app by apply le_bytes_length. cbn [lbind].
      cbn [app]. rewrite L2; [reflexivity|lia|]. simpl; tauto.
  - apply pbind_ok in H as (e & He & H). apply pbind_ok in H as (d & Hd & H).
    apply pyok_inj in H; subst bs. unfold finish_doc in Hd.
    apply pbind_ok in Hd as (len & Hl & Hd). apply pyok_inj in Hd; subst d.
    apply bson_int32_len_ok in Hl as [-> Hlt].
    inversion W as [| | |? HW| |]; subst.
    exists 4%N, kb, (le_bytes 4 (N.of_nat (List.length e)) ++ e ++ [0%N]).
    assert (HL : (need_arr l <= S (List.length e))%nat /\
      forall fuel rest, (need_arr l <= fuel)%nat ->
        unpack_arr_loop fuel (e ++ 0%N :: rest) = LOk (l, rest)).
    { clear - IH HW He. revert e He. generalize 0%N at 1 as i.
      induction l as [|v l IHl]; intros i e He.
      - cbn [dumps_array] in He. apply pyok_inj in He; subst e. split; [simpl; lia|].
        intros [|f] rest Hf; [simpl in Hf; lia|]. reflexivity.
      - cbn [dumps_array] in He. apply pbind_ok in He as (a & Ha & He).
        apply pbind_ok in He as (b & Hb & He). apply pyok_inj in He; subst e.
        inversion IH as [|? ? IH1 IH2]; subst. inversion HW as [|? ? W1 W2]; subst.
        specialize (IHl IH2 W2 _ _ Hb) as [L1 L2].
        destruct (IH1 W1 _ _ Ha) as (ty & kb & pl & Hkb & -> & (Hty & Hn & Hr)).
        rewrite (key_ok_encode _ (dec_N_key_ok _)) in Hkb. apply pyok_inj in Hkb; subst kb.
        split.
        + cbn [need_arr]. rewrite app_length. simpl. rewrite app_length. simpl. lia.
        + intros [|f] rest Hf; cbn [need_arr] in Hf; [lia|].
          cbn [app unpack_arr_loop]. destruct (ty =? 0)%N eqn:Et; [lia|].
          rewrite <- !app_assoc. cbn [app].
          rewrite key_read by apply dec_N_key_ok. cbn [lbind]. rewrite Hr by lia. cbn [lbind].
          rewrite L2 by lia. reflexivity. }
    destruct HL as [L1 L2].
    repeat split; auto; try discriminate.
    + rewrite need_arr_eq, !app_length, le_bytes_length. simpl; lia.
    + intros [|f] rest Hf; rewrite need_arr_eq in Hf; [lia|]. rewrite <- !app_assoc.
      cbn [unpack_bson_value]. rewrite read_n_app by apply le_bytes_length. cbn [lbind].
      cbn [app]. rewrite L2; [reflexivity|lia].
  - apply pbind_ok in H as (len & Hl & H). apply pyok_inj in H; subst bs.
    apply into_bson_int32_ok in Hl as [-> Hlt].
    exists 5%N, kb, (le_bytes 4 (N.of_nat (List.length b)) ++ [128%N] ++ b).
    repeat split; auto; try discriminate.
    + rewrite !app_length, le_bytes_length. simpl; lia.
    + intros [|f] rest Hf; [simpl in Hf; lia|]. rewrite <- !app_assoc.
      cbn [unpack_bson_value]. rewrite read_n_app by apply le_bytes_length. cbn [lbind].
      rewrite le_len_le by auto. rewrite Nat2N.id. rewrite (read_n_app 1 [128%N]) by auto. cbn [lbind].
      rewrite read_n_app by auto. reflexivity.
  - apply pbind_ok in H as (i & Hi & H). apply pyok_inj in H; subst bs.
    unfold into_bson_int64 in Hi. destruct (in_i64 z) eqn:Hz; [|discriminate].
    apply pyok_inj in Hi; subst i.
    exists 18%N, kb, (le_bytes 8 (wrap 8 z)). repeat split; auto; try discriminate.
    + rewrite le_bytes_length. simpl; lia.
    + intros [|f] rest Hf; [simpl in Hf; lia|].
      cbn [unpack_bson_value]. rewrite read_n_app by apply le_bytes_length. cbn [lbind].
      rewrite le_val_bytes by (apply wrap_lt). rewrite unwrap_wrap; [reflexivity|lia|].
      unfold in_i64, min_i64, max_i64 in Hz. lia.
Qed.

Lemma top_loop_reads l : NoDup (map fst l) -> Forall (fun kv => key_ok (fst kv)) l ->
  Forall (fun kv => bson_wf (snd kv)) l -> forall e, dumps_items l = PyOk e ->
  (need_items l <= S (List.length e))%nat /\
  forall fuel acc rest, (need_items l <= fuel)%nat ->
    (forall k, In k (map fst l) -> ~ In k (map fst acc)) ->
    unpack_top_loop fuel acc (e ++ 0%N :: rest) = LOk (acc ++ l).
Proof.
  induction l as [|[k v] l IHl]; intros ND HK HW e He.
  - cbn [dumps_items] in He. apply pyok_inj in He; subst e. split; [simpl; lia|].
    intros [|f] acc rest Hf _; [simpl in Hf; lia|]. simpl. rewrite app_nil_r. reflexivity.
  - cbn [dumps_items] in He. apply pbind_ok in He as (a & Ha & He).
    apply pbind_ok in He as (b & Hb & He). apply pyok_inj in He; subst e.
    inversion HW as [|? ? W1 W2]; subst.
    inversion HK as [|? ? K1 K2]; subst. simpl in ND. inversion ND as [|? ? N1 N2]; subst.
    simpl in W1, K1.
    specialize (IHl N2 K2 W2 _ Hb) as [L1 L2].
    destruct (value_reads v W1 _ _ Ha) as (ty & kb & pl & Hkb & -> & (Hty & Hn & Hr)).
    rewrite (key_ok_encode _ K1) in Hkb. apply pyok_inj in Hkb; subst kb.
    split.
    + cbn [need_items]. rewrite app_length. simpl. rewrite app_length. simpl. lia.
    + intros [|f] acc rest Hf Hdis; cbn [need_items] in Hf; [lia|].
      cbn [app unpack_top_loop]. destruct (ty =? 0)%N eqn:Et; [lia|].
      rewrite <- !app_assoc. cbn [app].
      rewrite key_read by auto. cbn [lbind]. rewrite Hr by lia. cbn [lbind].
      rewrite hm_insert_fresh by (apply Hdis; simpl; auto).
      rewrite L2; [rewrite <- app_assoc; reflexivity|lia|].
      intros k' Hk'. rewrite map_app, in_app_iff. simpl. intros [Hin|[<-|[]]]; [|tauto].
      eapply Hdis; [|exact Hin]. simpl; auto.
Qed.

Lemma dumps_load d bs : bson_wf (BDoc d) -> dumps d = PyOk bs -> load_doc bs = LOk d.
Proof.
  intros W H. inversion W; subst. unfold dumps in H.
  apply pbind_ok in H as (e & He & H). unfold finish_doc in H.
  apply pbind_ok in H as (len & Hl & H). apply pyok_inj in H; subst bs.
  apply bson_int32_len_ok in Hl as [-> _].
  destruct (top_loop_reads d) with (e := e) as [L1 L2]; auto.
  unfold load_doc. rewrite take_app' by (symmetry; apply le_bytes_length).
  unfold unpack_bson_doc. apply (L2 _ [] []); [|simpl; tauto].
  rewrite app_length. simpl. lia.
Qed.

Lemma total_size_eq key v : total_size key v =
  (2 + match utf8_encode key with Some b => N.of_nat (List.length b) | None => 0%N end +
  match v with
  | BDouble _ => 8
  | BStr t => 5 + match utf8_encode t with Some b => N.of_nat (List.length b) | None => 0%N end
  | BDoc l => 5 + total_items l
  | BArr l => 5 + total_array 0 l
  | BBytes b => 5 + N.of_nat (List.length b)
  | BInt _ => 8
  end)%N.
Proof. destruct v; reflexivity. Qed.

Lemma finish_doc_ok e : (N.of_nat (List.length e) < 2 ^ 31)%N ->
  finish_doc e = PyOk (le_bytes 4 (N.of_nat (List.length e)) ++ e ++ [0%N]).
Proof.
  intros H. unfold finish_doc, bson_int32_len.
  replace (2 ^ 31 <=? N.of_nat (List.length e))%N with false by lia.
  unfold into_bson_int32. replace (N.of_nat (List.length e) <? 2 ^ 31)%N with true by lia.
  reflexivity.
Qed.

Lemma dump_value_total v : bson_fits v -> forall key, Forall (fun c => scalar c = true) key ->
  (total_size key v < 2 ^ 31)%N ->
  exists bs, dump_value key v = PyOk bs /\ N.of_nat (List.length bs) = total_size key v.
Proof.
  induction v as [bits|t|l IH|l IH|b|z] using bval_ind'; intros F key K S;
    rewrite total_size_eq in *; rewrite dump_value_eq;
    destruct (utf8_encode_some key K) as [kb Hkb]; unfold py_encode at 1; rewrite Hkb in *; cbn [pbind].
  - eexists; split; [reflexivity|]. cbn [List.length]. rewrite !app_length.
    unfold into_bson_f64. rewrite le_bytes_length. cbn [List.length]. lia.
  - inversion F as [|? Ft| | | |]; subst. destruct (utf8_encode_some t Ft) as [s Hs].
    unfold py_encode; rewrite Hs in *. cbn [pbind]. unfold bson_int32_len.
    replace (2 ^ 31 <=? N.of_nat (List.length s))%N with false by lia.
    unfold into_bson_int32. replace (N.of_nat (List.length s) <? 2 ^ 31)%N with true by lia.
    cbn [pbind]. eexists; split; [reflexivity|]. cbn [List.length]. rewrite !app_length.
    rewrite le_bytes_length. cbn [List.length]. lia.
  - inversion F as [| |? Fk Fv| | |]; subst.
    assert (H : exists e, dumps_items l = PyOk e /\ N.of_nat (List.length e) = total_items l).
    { assert (S' : (total_items l < 2 ^ 31)%N) by lia.
      clear - IH Fk Fv S'. induction l as [|[k v] l IHl].
      - exists []. split; reflexivity.
      - inversion IH as [|? ? I1 I2]; inversion Fk as [|? ? K1 K2]; inversion Fv as [|? ? V1 V2]; subst.
        cbn [total_items] in *. simpl in I1, K1, V1.
        destruct (I1 V1 k K1) as (a & Ha & La); [lia|].
        destruct IHl as (b & Hb & Lb); auto; [lia|].
        exists (a ++ b). cbn [dumps_items]. rewrite Ha. cbn [pbind]. rewrite Hb. split; [reflexivity|].
        rewrite app_length. lia. }
    destruct H as (e & He & Le). rewrite He. cbn [pbind]. rewrite finish_doc_ok by lia. cbn [pbind].
    eexists; split; [reflexivity|]. cbn [List.length]. rewrite !app_length.
    rewrite le_bytes_length. cbn [List.length]. lia.
  - inversion F as [| | |? Fv| |]; subst.
    assert (H : forall i, (total_array i l < 2 ^ 31)%N ->
                exists e, dumps_array i l = PyOk e /\ N.of_nat (List.length e) = total_array i l).
    { clear - IH Fv. induction l as [|v l IHl]; intros i S'.
      - exists []. split; reflexivity.
      - inversion IH as [|? ? I1 I2]; inversion Fv as [|? ? V1 V2]; subst.
        cbn [total_array] in *.
        destruct (I1 V1 (dec_N i)) as (a & Ha & La).
        { eapply Forall_impl; [|apply dec_N_digits]. unfold is_digit, scalar; intros; lia. }
        { lia. }
        destruct (IHl I2 V2 (i + 1)%N) as (b & Hb & Lb); [lia|].
        exists (a ++ b). cbn [dumps_array]. rewrite Ha. cbn [pbind]. rewrite Hb. split; [reflexivity|].
        rewrite app_length. lia. }
    destruct (H 0%N) as (e & He & Le); [lia|]. rewrite He. cbn [pbind]. rewrite finish_doc_ok by lia. cbn [pbind].
    eexists; split; [reflexivity|]. cbn [List.length]. rewrite !app_length.
    rewrite le_bytes_length. cbn [List.length]. lia.
  - unfold into_bson_int32. replace (N.of_nat (List.length b) <? 2 ^ 31)%N with true by lia. cbn [pbind].
    eexists; split; [reflexivity|]. cbn [List.length]. rewrite !app_length.
    rewrite le_bytes_length. cbn [List.length]. lia.
  - inversion F; subst. unfold into_bson_int64. rewrite H0. cbn [pbind].
    eexists; split; [reflexivity|]. cbn [List.length]. rewrite !app_length.
    rewrite le_bytes_length. cbn [List.length]. lia.
Qed.

Lemma dumps_total d : bson_fits (BDoc d) -> (total_items d < 2 ^ 31)%N ->
  exists bs, dumps d = PyOk bs.
Proof.
  intros F S.
  assert (H : exists e, dumps_items d = PyOk e /\ N.of_nat (List.length e) = total_items d).
  { inversion F as [| |? Fk Fv| | |]; subst. clear F. induction d as [|[k v] l IHl].
    - exists []. split; reflexivity.
    - inversion Fk as [|? ? K1 K2]; inversion Fv as [|? ? V1 V2]; subst.
      cbn [total_items] in *. simpl in K1, V1.
      destruct (dump_value_total v V1 k K1) as (a & Ha & La); [lia|].
      destruct IHl as (b & Hb & Lb); auto; [lia|].
      exists (a ++ b). cbn [dumps_items]. rewrite Ha. cbn [pbind]. rewrite Hb. split; [reflexivity|].
      rewrite app_length. lia. }
  destruct H as (e & He & Le). unfold dumps. rewrite He. cbn [pbind].
  rewrite finish_doc_ok by lia. eauto.
Qed.
