(** Reading a number leaf, after the CodeView documentation: a 16 bit word below 0x8000 is the number
    itself, otherwise it says how the number that follows immediately is stored. *)
From Verif Require Import Base.

Fixpoint unsigned (bytes : list Z) : Z :=
  match bytes with [] => 0 | b :: rest => b + 256 * unsigned rest end.
Definition signed (bytes : list Z) : Z :=
  let u := unsigned bytes in let m := 256 ^ Z.of_nat (length bytes) in
  if 2 * u <? m then u else u - m.

Definition take (n : nat) (l : list Z) : option (list Z * list Z) :=
  if (n <=? length l)%nat then Some (firstn n l, skipn n l) else None.

(** The number and what is behind it. *)
Definition read_leaf (bytes : list Z) : option (Z * list Z) :=
  match take 2 bytes with
  | None => None
  | Some (word, rest) =>
      let kind := unsigned word in
      let read n (conv : list Z -> Z) := match take n rest with Some (b, r) => Some (conv b, r) | None => None end in
      if kind <? 0x8000 then Some (kind, rest)
      else if kind =? 0x8000 then read 1%nat signed        (* LF_CHAR *)
      else if kind =? 0x8001 then read 2%nat signed        (* LF_SHORT *)
      else if kind =? 0x8002 then read 2%nat unsigned      (* LF_USHORT *)
      else if kind =? 0x8003 then read 4%nat signed        (* LF_LONG *)
      else if kind =? 0x8004 then read 4%nat unsigned      (* LF_ULONG *)
      else if kind =? 0x8009 then read 8%nat signed        (* LF_QUADWORD *)
      else if kind =? 0x800a then read 8%nat unsigned      (* LF_UQUADWORD *)
      else None
  end.
