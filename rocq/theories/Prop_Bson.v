(** C01: compiled modules survive the compiler-to-VM transport. *)
From Verif Require Import Base Utf8 Bson Spec_Bson BsonFacts BsonExtra.

(** Whatever the writer emits, the loader reads back unchanged. *)
Theorem C01_roundtrip : forall (doc : list (text * bval)) (bs : bytes),
  bson_wf (BDoc doc) -> dumps doc = PyOk bs -> load_doc bs = LOk doc.
Proof. exact dumps_load. Qed.
Print Assumptions C01_roundtrip.

(** The writer succeeds on every document whose integers fit 64 bits, whose
    texts are valid Unicode and whose encoding is shorter than 2^31 bytes. *)
Theorem C01_total : forall doc : list (text * bval),
  bson_fits (BDoc doc) -> (total_items doc < 2 ^ 31)%N -> exists bs, dumps doc = PyOk bs.
Proof. exact dumps_total. Qed.
Print Assumptions C01_total.

(** Two documents with the same encoding are equal. *)
Theorem C01_injective : forall d1 d2 bs,
  bson_wf (BDoc d1) -> bson_wf (BDoc d2) -> dumps d1 = PyOk bs -> dumps d2 = PyOk bs -> d1 = d2.
Proof. exact dumps_injective. Qed.
Print Assumptions C01_injective.

(** Out-of-range integers are refused, wherever they occur. *)
Theorem C01_refuses_big_int : forall doc z,
  occurs_int z (BDoc doc) -> in_i64 z = false -> exists e, dumps doc = PyErr e.
Proof. exact dumps_refuses. Qed.
Print Assumptions C01_refuses_big_int.

(** Outside [key_ok] the round trip is false: a non-ASCII field name is read
    back as Latin-1, a NUL ends the name early. *)
Theorem C01_nonascii_key_refuted : exists doc bs,
  NoDup (map fst doc) /\ dumps doc = PyOk bs /\ exists doc', load_doc bs = LOk doc' /\ doc' <> doc.
Proof. exact nonascii_key_refuted. Qed.
Print Assumptions C01_nonascii_key_refuted.

Theorem C01_nul_key_refuted : exists doc bs,
  NoDup (map fst doc) /\ dumps doc = PyOk bs /\ load_doc bs <> LOk doc.
Proof. exact nul_key_refuted. Qed.
Print Assumptions C01_nul_key_refuted.

(** A nested document that meets all hypotheses. *)
Example C01_example :
  let doc := [(txt "name", BStr (txt "a.ama")); (txt "ops", BBytes [1; 0; 0; 255]%N);
              (txt "consts", BArr [BInt (-5); BDouble 7; BStr (txt "''"); BDoc [(txt "k", BArr [])]])] in
  bson_wf (BDoc doc) /\ bson_fits (BDoc doc) /\ (total_items doc < 2 ^ 31)%N /\
  exists bs, dumps doc = PyOk bs /\ load_doc bs = LOk doc.
Proof. exact bson_example. Qed.
