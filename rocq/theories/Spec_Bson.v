(** Specification vocabulary for the compiler-to-VM transport (C01). *)
From Verif Require Import Base Utf8 Dec Bson.

(** A key the loader can read back: non-NUL ASCII. *)
Definition key_ok (k : text) : Prop := Forall (fun c => (0 < c < 128)%N) k.

(** Data that the transport is meant to carry: 64-bit doubles, byte strings,
    dictionaries with distinct readable keys.  Texts and integers are
    unrestricted (the writer itself rejects what it cannot encode). *)
Inductive bson_wf : bval -> Prop :=
| wf_double bits : (bits < 2 ^ 64)%N -> bson_wf (BDouble bits)
| wf_str t : bson_wf (BStr t)
| wf_doc items : NoDup (map fst items) -> Forall (fun kv => key_ok (fst kv)) items ->
                 Forall (fun kv => bson_wf (snd kv)) items -> bson_wf (BDoc items)
| wf_arr items : Forall bson_wf items -> bson_wf (BArr items)
| wf_bytes b : bson_wf (BBytes b)
| wf_int z : bson_wf (BInt z).

(** Size of the encoding: what the writer needs to succeed. *)
Fixpoint total_size (key : text) (v : bval) : N :=
  let enc t := match utf8_encode t with Some b => N.of_nat (List.length b) | None => 0%N end in
  (2 + enc key +
  match v with
  | BDouble _ => 8
  | BStr t => 5 + enc t
  | BDoc l => 5 + (fix go l := match l with [] => 0 | (k, v) :: l' => total_size k v + go l' end) l
  | BArr l => 5 + (fix go i l := match l with [] => 0 | v :: l' => total_size (dec_N i) v + go (i + 1) l' end) 0 l
  | BBytes b => 5 + N.of_nat (List.length b)
  | BInt _ => 8
  end)%N.
Fixpoint total_items (l : list (text * bval)) : N :=
  match l with [] => 0 | (k, v) :: l' => total_size k v + total_items l' end%N.
Fixpoint total_array (i : N) (l : list bval) : N :=
  match l with [] => 0 | v :: l' => total_size (dec_N i) v + total_array (i + 1) l' end%N.

(** Integers fit in 64 bits, texts contain no lone surrogates. *)
Inductive bson_fits : bval -> Prop :=
| fit_double bits : bson_fits (BDouble bits)
| fit_str t : Forall (fun c => scalar c = true) t -> bson_fits (BStr t)
| fit_doc items : Forall (fun kv => Forall (fun c => scalar c = true) (fst kv)) items ->
                  Forall (fun kv => bson_fits (snd kv)) items -> bson_fits (BDoc items)
| fit_arr items : Forall bson_fits items -> bson_fits (BArr items)
| fit_bytes b : bson_fits (BBytes b)
| fit_int z : in_i64 z = true -> bson_fits (BInt z).


(** [occurs_int z v]: the integer [z] occurs somewhere in [v]. *)
Inductive occurs_int (z : Z) : bval -> Prop :=
| occ_here : occurs_int z (BInt z)
| occ_doc k v items : In (k, v) items -> occurs_int z v -> occurs_int z (BDoc items)
| occ_arr v items : In v items -> occurs_int z v -> occurs_int z (BArr items).
