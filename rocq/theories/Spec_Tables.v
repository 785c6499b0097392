(** Specification vocabulary for the compiler's tables and literals. *)
From Verif Require Import Base Bson Dec Float Value VM CodeGen.

(** A sequence of requests to a table: the final state and the index each
    request was given. *)
Fixpoint requests {A} (req : gst -> A -> pyres (gst * N)) (s : gst) (ks : list A) : pyres (gst * list N) :=
  match ks with
  | [] => PyOk (s, [])
  | k :: r =>
      match req s k with
      | PyErr e => PyErr e
      | PyOk (s1, i) =>
          match requests req s1 r with
          | PyErr e => PyErr e
          | PyOk (s2, is) => PyOk (s2, i :: is)
          end
      end
  end.

(** A non-empty sequence of ASCII digits and the number it denotes. *)
Definition digits (t : text) : Prop := t <> [] /\ Forall (fun c => (48 <= c <= 57)%N) t.
Fixpoint digits_number (acc : Z) (t : text) : Z :=
  match t with [] => acc | c :: r => digits_number (10 * acc + (Z.of_N c - 48)) r end.
