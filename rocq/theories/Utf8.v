(** UTF-8, as used by Python's [str.encode()] (/repo/amanda/compiler/bindump.py:47-92)
    and Rust's [String::from_utf8] (/repo/amanda/vm/src/binload.rs:120). *)
From Verif Require Import Base.

(** Unicode scalar values: what a Rust [char] can hold and what Python can encode. *)
Definition scalar (c : N) : bool :=
  ((c <? 0xD800) || ((0xE000 <=? c) && (c <? 0x110000)))%N.

(** One code point; [None] models Python's [UnicodeEncodeError] on surrogates. *)
Definition utf8_enc1 (c : N) : option bytes :=
  if negb (scalar c) then None
  else Some (
    if (c <? 0x80)%N then [c]
    else if (c <? 0x800)%N then [0xC0 + c / 64; 0x80 + c mod 64]%N
    else if (c <? 0x10000)%N then [0xE0 + c / 4096; 0x80 + (c / 64) mod 64; 0x80 + c mod 64]%N
    else [0xF0 + c / 262144; 0x80 + (c / 4096) mod 64; 0x80 + (c / 64) mod 64; 0x80 + c mod 64]%N).

(** [str.encode()]. *)
Fixpoint utf8_encode (t : text) : option bytes :=
  match t with
  | [] => Some []
  | c :: t' =>
      match utf8_enc1 c, utf8_encode t' with
      | Some a, Some b => Some (a ++ b)
      | _, _ => None
      end
  end.

Definition cont (b : N) : bool := ((0x80 <=? b) && (b <? 0xC0))%N.

(** One code point off the front of a byte list; [None] on malformed input
    (truncated, overlong, surrogate or out of range). *)
Definition utf8_dec1 (bs : bytes) : option (N * bytes) :=
  match bs with
  | [] => None
  | b0 :: r0 =>
      if (b0 <? 0x80)%N then Some (b0, r0)
      else if ((0xC0 <=? b0) && (b0 <? 0xE0))%N then
        match r0 with
        | b1 :: r1 =>
            let c := ((b0 - 0xC0) * 64 + (b1 - 0x80))%N in
            if (cont b1 && (0x80 <=? c)%N)%bool then Some (c, r1) else None
        | _ => None
        end
      else if ((0xE0 <=? b0) && (b0 <? 0xF0))%N then
        match r0 with
        | b1 :: b2 :: r2 =>
            let c := ((b0 - 0xE0) * 4096 + (b1 - 0x80) * 64 + (b2 - 0x80))%N in
            if (cont b1 && cont b2 && (0x800 <=? c)%N && scalar c)%bool then Some (c, r2) else None
        | _ => None
        end
      else if ((0xF0 <=? b0) && (b0 <? 0xF8))%N then
        match r0 with
        | b1 :: b2 :: b3 :: r3 =>
            let c := ((b0 - 0xF0) * 262144 + (b1 - 0x80) * 4096 + (b2 - 0x80) * 64 + (b3 - 0x80))%N in
            if (cont b1 && cont b2 && cont b3 && (0x10000 <=? c)%N && scalar c)%bool
            then Some (c, r3) else None
        | _ => None
        end
      else None
  end.

(** [String::from_utf8]: fuel is the number of bytes. *)
Fixpoint utf8_dec_fuel (fuel : nat) (bs : bytes) : option text :=
  match bs with
  | [] => Some []
  | _ =>
      match fuel with
      | O => None
      | S f =>
          match utf8_dec1 bs with
          | Some (c, r) => match utf8_dec_fuel f r with Some t => Some (c :: t) | None => None end
          | None => None
          end
      end
  end.

Definition utf8_decode (bs : bytes) : option text := utf8_dec_fuel (List.length bs) bs.
