(** C13: bit-field stores and loads are exact. *)
From Coq Require Import Lia ZArith Bool.
From Verif Require Import Base IntTypes CSpec IntModel IntProofs FieldModel FieldSpec FieldProofs.
Open Scope Z_scope.

(** Reading: whatever the bits of the register above the storage unit hold, the loaded operand
    has the size of the promoted type of the field (6.3.1.1p2) and holds the value of the field
    in that type. *)
Theorem C13_load : forall t index w u register n value,
  fits_unit t index w ->
  register mod 2 ^ width t = u mod 2 ^ width t ->
  emit_load_bitfield (mkbitfield t index w) register = (n, value) ->
  n = width (promote_bitfield t w) /\
  value_of_bits (promote_bitfield t w) value = field_value t index w u.
Proof.
  intros t index w u r n value F E L.
  assert (N : n = if w <=? 32 then 32 else 64) by (unfold emit_load_bitfield in L; injection L; intros; subst; reflexivity).
  pose proof (load_register t index w u r F E) as R. rewrite L in R. cbn [snd] in R.
  destruct F as (W & I & F).
  assert (WT : width t = 8 \/ width t = 16 \/ width t = 32 \/ width t = 64) by (destruct t; cbn; lia).
  rewrite <- (bitfield_promotion_ok t w) by first [lia | destruct t; cbn; lia].
  set (p := bitfield_operand_type t w).
  assert (WP : width p = n).
  { unfold p, bitfield_operand_type. rewrite N.
    destruct (Z.ltb_spec w 32); [destruct (Z.leb_spec w 32); [reflexivity|lia]|].
    destruct (Z.eqb_spec w 32); [destruct (Z.leb_spec w 32); [destruct (type_is_signed t); reflexivity|lia]|].
    destruct (Z.leb_spec w 32); [lia|]. destruct t; cbn in F |- *; lia. }
  split; [symmetry; exact WP|].
  rewrite value_wrap.
  assert (NU : 0 <= n <= unit_bits t).
  { rewrite N. unfold unit_bits. destruct (Z.leb_spec w 32); destruct t; cbn in F |- *; lia. }
  assert (M : value mod 2 ^ n = field_value t index w u mod 2 ^ n).
  { rewrite <- (mod_mod_pow value (unit_bits t) n) by lia. rewrite R. apply mod_mod_pow; lia. }
  rewrite (wrap_t_mod p value (field_value t index w u)) by (rewrite WP; exact M).
  apply wrap_t_id. unfold field_value.
  pose proof (reduced_range t w (u / 2 ^ index) W) as (RR & RS & RU).
  pose proof (pow2_pos (w - 1) ltac:(lia)) as P.
  unfold in_range, p, bitfield_operand_type.
  destruct (Z.ltb_spec w 32) as [A|A].
  { assert (2 ^ w <= 2 ^ 31) by (apply Z.pow_le_mono_r; lia).
    assert (2 ^ (w - 1) <= 2 ^ 31) by (apply Z.pow_le_mono_r; lia).
    unfold minv, maxv. cbn [signed width]. lia. }
  destruct (Z.eqb_spec w 32) as [B|B].
  { subst w. rewrite signed_eq. unfold minv, maxv. destruct (signed t) eqn:Sg; cbn [signed width] in *.
    - specialize (RS eq_refl). lia.
    - specialize (RU eq_refl). lia. }
  unfold minv, maxv.
  assert (width t = 64) by (destruct t; cbn in F |- *; lia). rewrite H.
  assert (2 ^ w <= 2 ^ 64) by (apply Z.pow_le_mono_r; lia).
  assert (2 ^ (w - 1) <= 2 ^ 63) by (apply Z.pow_le_mono_r; lia).
  destruct (signed t) eqn:Sg; [specialize (RS eq_refl)|specialize (RU eq_refl)]; lia.
Qed.
Print Assumptions C13_load.

(** A signed 5-bit field at bit 3 of an int, with a dirty register. *)
Example C13_load_applies :
  fits_unit S32 3 5 /\ (2 ^ 40 + 0x9c5) mod 2 ^ width S32 = 0x9c5 mod 2 ^ width S32 /\
  emit_load_bitfield (mkbitfield S32 3 5) (2 ^ 40 + 0x9c5) = (32, 2 ^ 32 - 8) /\
  field_value S32 3 5 0x9c5 = -8.
Proof. split; [unfold fits_unit; cbn; lia|]. vm_compute. auto. Qed.

(** Writing, for widths below 64: exactly the bits of the field change, to the low bits of the
    stored value. *)
Theorem C13_store_partial : forall t index w u v lhs rhs,
  fits_unit t index w -> w < 64 ->
  lhs mod 2 ^ width t = u mod 2 ^ width t ->
  rhs mod 2 ^ width t = v mod 2 ^ width t ->
  replaced t index w u v (emit_store_bitfield (mkbitfield t index w) lhs rhs).
Proof. exact store_replaces. Qed.
Print Assumptions C13_store_partial.

(** Writing and reading back, for widths below 64: the field reads as the stored value
    reduced to its width, any disjoint field of the unit reads as before. *)
Theorem C13_round_trip_partial : forall t index w u v lhs rhs register,
  fits_unit t index w -> w < 64 ->
  lhs mod 2 ^ width t = u mod 2 ^ width t ->
  rhs mod 2 ^ width t = v mod 2 ^ width t ->
  register mod 2 ^ width t = emit_store_bitfield (mkbitfield t index w) lhs rhs mod 2 ^ width t ->
  value_of_bits (promote_bitfield t w) (snd (emit_load_bitfield (mkbitfield t index w) register)) = reduced t w v /\
  forall j x, fits_unit t j x -> index + w <= j \/ j + x <= index ->
    value_of_bits (promote_bitfield t x) (snd (emit_load_bitfield (mkbitfield t j x) register)) = field_value t j x u.
Proof.
  intros t index w u v lhs rhs r F W EL ER E.
  pose proof (store_replaces t index w u v lhs rhs F W EL ER) as R.
  split.
  - destruct (emit_load_bitfield (mkbitfield t index w) r) as [n y] eqn:L. cbn [snd].
    destruct (C13_load t index w _ r n y F E L) as [_ V]. rewrite V.
    apply (replaced_value t index w u v _ F R).
  - intros j x G D. destruct (emit_load_bitfield (mkbitfield t j x) r) as [n y] eqn:L. cbn [snd].
    destruct (C13_load t j x _ r n y G E L) as [_ V]. rewrite V.
    apply (replaced_other t index w u v _ j x F G D R).
Qed.
Print Assumptions C13_round_trip_partial.

(** Storing 77 into a signed 5-bit field at bit 3 of a short. *)
Example C13_round_trip_applies :
  fits_unit S16 3 5 /\ 5 < 64 /\
  emit_store_bitfield (mkbitfield S16 3 5) 0xffff 77 = 0xff6f /\ reduced S16 5 77 = 13.
Proof. split; [unfold fits_unit; cbn; lia|]. vm_compute. auto. Qed.

(** The full statement fails for [unsigned long long x : 64]: the mask [(1ull << 64) - 1] is 0,
    so the store changes nothing. *)
Theorem C13_width_64_refuted :
  ~ (forall t index w u v, fits_unit t index w -> 0 <= u < 2 ^ width t -> 0 <= v < 2 ^ width t ->
     field_value t index w (emit_store_bitfield (mkbitfield t index w) u v) = reduced t w v).
Proof.
  intro H. specialize (H U64 0 64 5 7 ltac:(unfold fits_unit; cbn; lia) ltac:(cbn; lia) ltac:(cbn; lia)).
  vm_compute in H. discriminate H.
Qed.
Print Assumptions C13_width_64_refuted.
