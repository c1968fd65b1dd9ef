(** What a bit-field is: [w] consecutive bits of its storage unit, counted from the least
    significant one, read as an unsigned or two's complement number. *)
From Verif Require Import Base IntTypes CSpec.

(** A field fits its storage unit. *)
Definition fits_unit (t : ity) (index w : Z) : Prop :=
  1 <= w /\ 0 <= index /\ index + w <= width t.

(** The number denoted by the low [w] bits of [v], read with the signedness of [t]. *)
Definition reduced (t : ity) (w v : Z) : Z :=
  let r := v mod 2 ^ w in
  if signed t then (if r <? 2 ^ (w - 1) then r else r - 2 ^ w) else r.

(** The value of the field of the storage unit [u]. *)
Definition field_value (t : ity) (index w u : Z) : Z := reduced t w (u / 2 ^ index).

(** [u'] is [u] with the field replaced by the low bits of [v]. *)
Definition replaced (t : ity) (index w u v u' : Z) : Prop :=
  0 <= u' < 2 ^ width t /\
  forall i, 0 <= i < width t ->
    Z.testbit u' i = if (index <=? i) && (i <? index + w) then Z.testbit v (i - index) else Z.testbit u i.
