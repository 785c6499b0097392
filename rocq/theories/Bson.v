(** The BSON writer of the compiler and the BSON reader of the VM. *)
From Verif Require Import Base Utf8 Dec.

(** Values that [dumps] can serialise, by exact Python type
    (/repo/amanda/compiler/bindump.py:44-96), and the loader's [BSONType]
    (/repo/amanda/vm/src/binload.rs:70-77).  A [float]/[f64] is its 64-bit
    pattern: [struct.pack("<d")] and [f64::from_le_bytes] both are the identity
    on bit patterns.  A dict is the list of its items in insertion order. *)
Inductive bval :=
| BDouble (bits : N)
| BStr (t : text)
| BDoc (items : list (text * bval))
| BArr (items : list bval)
| BBytes (b : bytes)
| BInt (z : Z).

(** Python exceptions raised by the writer. *)
Inductive pyerr := OverflowError | StructError | UnicodeEncodeError | NotImplementedErr | KeyErr | AssertErr | ValueErr | AttributeErr | IndexErr.
Inductive pyres (A : Type) := PyOk (a : A) | PyErr (e : pyerr).
Arguments PyOk {A}. Arguments PyErr {A}.
Definition pbind {A B} (x : pyres A) (f : A -> pyres B) : pyres B :=
  match x with PyOk a => f a | PyErr e => PyErr e end.
Notation "'let!' x ':=' a 'in' b" := (pbind a (fun x => b)) (at level 200, x name, right associativity).

(** [struct.pack("<l", n)] for a non-negative [n]: bindump.py:6-7. *)
Definition into_bson_int32 (n : N) : pyres bytes :=
  if (n <? 2 ^ 31)%N then PyOk (le_bytes 4 n) else PyErr StructError.

(** [struct.pack("<q", z)]: bindump.py:10-11. *)
Definition into_bson_int64 (z : Z) : pyres bytes :=
  if in_i64 z then PyOk (le_bytes 8 (wrap 8 z)) else PyErr StructError.

(** [bson_int32_len]: bindump.py:22-27. *)
Definition bson_int32_len (obj : bytes) : pyres bytes :=
  let n := N.of_nat (List.length obj) in
  if (2 ^ 31 <=? n)%N then PyErr OverflowError else into_bson_int32 n.

(** [str.encode()]. *)
Definition py_encode (t : text) : pyres bytes :=
  match utf8_encode t with Some b => PyOk b | None => PyErr UnicodeEncodeError end.

(** [struct.pack("<d", x)] on the bit pattern: bindump.py:14-15. *)
Definition into_bson_f64 (bits : N) : bytes := le_bytes 8 bits.

(** The tail of [dumps]: prefix the length of the element list, append NUL;
    bindump.py:97-104. *)
Definition finish_doc (e_list : bytes) : pyres bytes :=
  let! len := bson_int32_len e_list in PyOk (len ++ e_list ++ [0%N]).

(** One iteration of the loop of [dumps] (bindump.py:43-96): the bytes written
    for a key and a value.  [dumps_items] is the loop; an array is dumped as a
    dict with keys "0", "1", ... (bindump.py:69-79), [i] is the next index. *)
Fixpoint dump_value (key : text) (v : bval) {struct v} : pyres bytes :=
  let dumps_items :=
    fix dumps_items (l : list (text * bval)) : pyres bytes :=
      match l with
      | [] => PyOk []
      | (k, v) :: l' =>
          let! a := dump_value k v in
          let! b := dumps_items l' in PyOk (a ++ b)
      end in
  let dumps_array :=
    fix dumps_array (i : N) (l : list bval) : pyres bytes :=
      match l with
      | [] => PyOk []
      | v :: l' =>
          let! a := dump_value (dec_N i) v in
          let! b := dumps_array (i + 1)%N l' in PyOk (a ++ b)
      end in
  let! k := py_encode key in
  match v with
  | BDouble bits => PyOk (1%N :: k ++ [0%N] ++ into_bson_f64 bits)
  | BStr t =>
      let! s := py_encode t in
      let! len := bson_int32_len s in
      PyOk (2%N :: k ++ [0%N] ++ len ++ s ++ [0%N])
  | BDoc items =>
      let! e := dumps_items items in
      let! d := finish_doc e in
      PyOk (3%N :: k ++ [0%N] ++ d)
  | BArr items =>
      let! e := dumps_array 0%N items in
      let! d := finish_doc e in
      PyOk (4%N :: k ++ [0%N] ++ d)
  | BBytes b =>
      let! len := into_bson_int32 (N.of_nat (List.length b)) in
      PyOk (5%N :: k ++ [0%N] ++ len ++ [128%N] ++ b)
  | BInt z =>
      let! i := into_bson_int64 z in
      PyOk (18%N :: k ++ [0%N] ++ i)
  end.

(** The loop of [dumps] over dict items (same text as the local fixpoint). *)
Fixpoint dumps_items (l : list (text * bval)) : pyres bytes :=
  match l with
  | [] => PyOk []
  | (k, v) :: l' =>
      let! a := dump_value k v in
      let! b := dumps_items l' in PyOk (a ++ b)
  end.

Fixpoint dumps_array (i : N) (l : list bval) : pyres bytes :=
  match l with
  | [] => PyOk []
  | v :: l' =>
      let! a := dump_value (dec_N i) v in
      let! b := dumps_array (i + 1)%N l' in PyOk (a ++ b)
  end.

(** [dumps(data)]: bindump.py:36-104. *)
Definition dumps (items : list (text * bval)) : pyres bytes :=
  let! e := dumps_items items in finish_doc e.

(** ** The loader *)

(** A load either succeeds, panics ([unwrap] on a failed read, bad UTF-8,
    unknown type byte) or, only in the model, runs out of fuel. *)
Inductive lres (A : Type) := LOk (a : A) | LPanic | LFuel.
Arguments LOk {A}. Arguments LPanic {A}. Arguments LFuel {A}.
Definition lbind {A B} (x : lres A) (f : A -> lres B) : lres B :=
  match x with LOk a => f a | LPanic => LPanic | LFuel => LFuel end.
Notation "'let?' p ':=' a 'in' b" := (lbind a (fun p => b)) (at level 200, p pattern, right associativity).

(** [read_exact(..).unwrap()] of [n] bytes: binload.rs:102-106. *)
Definition read_n (n : nat) (bs : bytes) : lres (bytes * bytes) :=
  match take n bs with Some p => LOk p | None => LPanic end.

(** [read_bson_key]: binload.rs:89-100.  [buf[0] as char] maps the byte to the
    code point of the same number (Latin-1), without UTF-8 decoding. *)
Fixpoint read_bson_key (bs : bytes) : lres (text * bytes) :=
  match bs with
  | [] => LPanic
  | b :: bs' =>
      if (b =? 0)%N then LOk ([], bs')
      else let? (k, r) := read_bson_key bs' in LOk (b :: k, r)
  end.

(** [HashMap::insert] on an association list: replace or append. *)
Fixpoint hm_insert (m : list (text * bval)) (k : text) (v : bval) : list (text * bval) :=
  match m with
  | [] => [(k, v)]
  | (k', v') :: m' => if text_eqb k k' then (k, v) :: m' else (k', v') :: hm_insert m' k v
  end.

(** [i32::from_le_bytes(..) as usize] used as a length: a negative number
    becomes a huge one and the allocation/read panics. *)
Definition le_len (b : bytes) : option nat :=
  let n := le_val b in if (n <? 2 ^ 31)%N then Some (N.to_nat n) else None.

(** [unpack_bson_value]: binload.rs:108-170.  Fuel bounds the recursion and is
    at least the number of bytes when called from [unpack_bson_doc]. *)
Fixpoint unpack_bson_value (fuel : nat) (ty : N) (bs : bytes) {struct fuel} : lres (bval * bytes) :=
  match fuel with
  | O => LFuel
  | S f =>
      match ty with
      | 1%N => let? (num, r) := read_n 8 bs in LOk (BDouble (le_val num), r)
      | 2%N =>
          let? (sz, r) := read_n 4 bs in
          match le_len sz with
          | None => LPanic
          | Some n =>
              let? (s, r2) := read_n n r in
              let? (_, r3) := read_n 1 r2 in
              match utf8_decode s with Some t => LOk (BStr t, r3) | None => LPanic end
          end
      | 3%N =>
          let? (_, r) := read_n 4 bs in
          let? (d, r2) := unpack_doc_loop f [] r in LOk (BDoc d, r2)
      | 4%N =>
          let? (_, r) := read_n 4 bs in
          let? (d, r2) := unpack_arr_loop f r in LOk (BArr d, r2)
      | 5%N =>
          let? (sz, r) := read_n 4 bs in
          match le_len sz with
          | None => LPanic
          | Some n =>
              let? (_, r2) := read_n 1 r in
              let? (b, r3) := read_n n r2 in LOk (BBytes b, r3)
          end
      | 18%N => let? (num, r) := read_n 8 bs in LOk (BInt (unwrap_signed 8 (le_val num)), r)
      | _ => LPanic
      end
  end
(** The loop of the nested document case: binload.rs:126-134. *)
with unpack_doc_loop (fuel : nat) (acc : list (text * bval)) (bs : bytes) {struct fuel}
  : lres (list (text * bval) * bytes) :=
  match fuel with
  | O => LFuel
  | S f =>
      match bs with
      | [] => LPanic
      | b :: r =>
          if (b =? 0)%N then LOk (acc, r)
          else
            let? (k, r2) := read_bson_key r in
            let? (v, r3) := unpack_bson_value f b r2 in
            unpack_doc_loop f (hm_insert acc k v) r3
      end
  end
(** The loop of the array case: binload.rs:142-149. *)
with unpack_arr_loop (fuel : nat) (bs : bytes) {struct fuel} : lres (list bval * bytes) :=
  match fuel with
  | O => LFuel
  | S f =>
      match bs with
      | [] => LPanic
      | b :: r =>
          if (b =? 0)%N then LOk ([], r)
          else
            let? (_, r2) := read_bson_key r in
            let? (v, r3) := unpack_bson_value f b r2 in
            let? (vs, r4) := unpack_arr_loop f r3 in LOk (v :: vs, r4)
      end
  end.

(** [unpack_bson_doc]: binload.rs:172-185.  Unlike nested documents the end of
    input also ends the document. *)
Fixpoint unpack_top_loop (fuel : nat) (acc : list (text * bval)) (bs : bytes)
  : lres (list (text * bval)) :=
  match fuel with
  | O => LFuel
  | S f =>
      match bs with
      | [] => LOk acc
      | b :: r =>
          if (b =? 0)%N then LOk acc
          else
            let? (k, r2) := read_bson_key r in
            let? (v, r3) := unpack_bson_value f b r2 in
            unpack_top_loop f (hm_insert acc k v) r3
      end
  end.

Definition unpack_bson_doc (bs : bytes) : lres (list (text * bval)) :=
  unpack_top_loop (S (List.length bs)) [] bs.

(** [run_module] skips the 4 length bytes before [load_bin]: lib.rs:19-26.
    A buffer shorter than 4 bytes panics on the slice. *)
Definition load_doc (bs : bytes) : lres (list (text * bval)) :=
  match take 4 bs with Some (_, r) => unpack_bson_doc r | None => LPanic end.
