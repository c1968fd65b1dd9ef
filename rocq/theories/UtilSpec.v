(** Specifications for the helpers: the bitwise CRC-32, UTF-8 and UTF-16. *)
From Verif Require Import Base.

(** CRC-32 (reflected, polynomial 0xEDB88320): one message bit at a time, least
    significant bit of each byte first. *)
Definition crc_bit (crc : Z) (bit : bool) : Z :=
  let feedback := xorb (Z.odd crc) bit in
  Z.lxor (crc / 2) (if feedback then 3988292384 else 0).
Definition bits_of_byte (b : Z) : list bool := map (fun i => Z.testbit b (Z.of_nat i)) (seq 0 8).
Definition crc_bits (crc : Z) (message : list bool) : Z := fold_left crc_bit message crc.
Definition crc_spec (crc : Z) (data : list Z) : Z := crc_bits crc (flat_map bits_of_byte data).

(** Unicode scalar values and their encodings (RFC 3629, RFC 2781). *)
Definition scalar (c : Z) : Prop := 0 <= c < 1114112 /\ ~ (55296 <= c < 57344).

Definition utf8 (c : Z) : list Z :=
  if c <? 128 then [c]
  else if c <? 2048 then [192 + c / 64; 128 + c mod 64]
  else if c <? 65536 then [224 + c / 4096; 128 + (c / 64) mod 64; 128 + c mod 64]
  else [240 + c / 262144; 128 + (c / 4096) mod 64; 128 + (c / 64) mod 64; 128 + c mod 64].

Definition utf16 (c : Z) : list Z :=
  if c <? 65536 then [c]
  else [55296 + (c - 65536) / 1024; 56320 + (c - 65536) mod 1024].

(** [p] is a power of two. *)
Definition power_of_two (p : Z) : Prop := exists k, 0 <= k /\ p = 2 ^ k.
Definition least (P : Z -> Prop) (x : Z) : Prop := P x /\ forall y, P y -> x <= y.
