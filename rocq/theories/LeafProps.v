(** C23: numbers in debug information. *)
From Verif Require Import Base LeafModel LeafSpec LeafProofs.

(** Records are pushed at even addresses. *)
Theorem C23_unsigned_roundtrip : forall v pos rest, 0 <= v < 2 ^ 64 -> pos mod 2 = 0 ->
  read_leaf (emitted (push_unsigned_number_leaf v) pos ++ rest) = Some (v, rest).
Proof. exact unsigned_ok. Qed.
Print Assumptions C23_unsigned_roundtrip.

(** Missing: numbers below -2^15 at other addresses; there the statement is false, see the next theorem. *)
Theorem C23_signed_roundtrip_partial : forall v pos rest, - 2 ^ 63 <= v < 2 ^ 63 -> pos mod 2 = 0 ->
  (v < - 2 ^ 15 -> pos mod 4 = 2) -> (v < - 2 ^ 31 -> pos mod 8 = 6) ->
  read_leaf (emitted (push_signed_number_leaf v) pos ++ rest) = Some (v, rest).
Proof. exact signed_ok. Qed.
Print Assumptions C23_signed_roundtrip_partial.

(** Every number in [-2^31, -2^15) written at a multiple of four reads back as another one: [push_struct(arena, u32)]
    puts two bytes of padding between the kind and the number. *)
Theorem C23_signed_roundtrip_refuted : forall v pos rest, - 2 ^ 31 <= v < - 2 ^ 15 -> pos mod 4 = 0 ->
  exists w r, read_leaf (emitted (push_signed_number_leaf v) pos ++ rest) = Some (w, r) /\ w <> v /\ w mod 65536 = 0 /\
              length r = (2 + length rest)%nat.
Proof. exact signed_misaligned. Qed.
Print Assumptions C23_signed_roundtrip_refuted.

(** This happens to enumerators: their constant records start at a multiple of four and the value is at offset 8. *)
Theorem C23_pdb_enumerator_constant_refuted : exists type_index v, - 2 ^ 31 <= v < 2 ^ 31 /\
  exists w r, read_leaf (skipn 8 (emitted (pdb_constant type_index v) 0)) = Some (w, r) /\ w <> v.
Proof.
  exists 0x1000, (-100000). split; [vm_compute; split; congruence|].
  eexists; eexists; split; [vm_compute; reflexivity|]. vm_compute. discriminate.
Qed.
Print Assumptions C23_pdb_enumerator_constant_refuted.

Theorem C23_pdb_enumerator_constant_partial : forall type_index v pos rest, - 2 ^ 15 <= v < 2 ^ 31 -> pos mod 4 = 0 ->
  read_leaf (skipn 8 (emitted (pdb_constant type_index v) pos) ++ rest) = Some (v, rest).
Proof.
  intros type_index v pos rest H P. change (2 ^ 15) with 32768 in H. change (2 ^ 31) with 2147483648 in H.
  pose proof (Z.div_mod pos 4 ltac:(lia)) as D. rewrite P in D.
  assert (P2 : pos mod 2 = 0) by (rewrite D; replace (4 * (pos / 4) + 0) with (2 * (pos / 4) * 2) by lia; apply Z.mod_mul; lia).
  assert (P4 : (pos + 2 + 2) mod 4 = 0) by (rewrite D; replace (4 * (pos / 4) + 0 + 2 + 2) with ((pos / 4 + 1) * 4) by lia; apply Z.mod_mul; lia).
  assert (P8 : (pos + 2 + 2 + 4) mod 2 = 0) by (rewrite D; replace (4 * (pos / 4) + 0 + 2 + 2 + 4) with ((2 * (pos / 4) + 4) * 2) by lia; apply Z.mod_mul; lia).
  rewrite <- (signed_ok v (pos + 2 + 2 + 4) rest); try (change (2 ^ 63) with 9223372036854775808; change (2 ^ 31) with 2147483648; change (2 ^ 15) with 32768; lia); auto.
  unfold emitted, pdb_constant. rewrite push0 by auto. rewrite push0 by (apply even2; auto). rewrite push0 by auto.
  rewrite wraps_id by (try lia; change (2 ^ (32 - 1)) with 2147483648; lia).
  assert (G : forall bs, length bs = 8%nat -> skipn 8 (snd (push_signed_number_leaf v (pos + 2 + 2 + 4, bs))) = snd (push_signed_number_leaf v (pos + 2 + 2 + 4, []))).
  { intros bs L. assert (S8 : forall x, skipn 8 (bs ++ x) = x).
    { intros x. rewrite skipn_app, L, Nat.sub_diag. rewrite skipn_all2 by lia. reflexivity. }
    unfold push_signed_number_leaf, push_data, push_struct.
    destruct (v >=? 0); [destruct (v <? 32768); [|destruct (v <=? 32767); [|destruct (v <=? 2147483647)]]
                        |destruct (v >=? -128); [|destruct (v >=? -32768); [|destruct (v >=? -2147483648)]]];
    cbn [snd]; rewrite <- ?app_assoc; apply S8. }
  rewrite G; [reflexivity|]. cbn [app]. rewrite !app_length, !le_len. reflexivity.
Qed.
Print Assumptions C23_pdb_enumerator_constant_partial.

(** In object files a negative enumerator is written as an unsigned number. *)
Theorem C23_obj_enumerator_constant_refuted : forall v rest, - 2 ^ 31 <= v < 0 ->
  read_leaf (emitted (push_unsigned_number_leaf (wrapu 64 (wraps 32 v))) 8 ++ rest) = Some (v + 2 ^ 64, rest).
Proof.
  intros v rest H. rewrite wraps_id by (try lia; change (2 ^ (32 - 1)) with 2147483648; change (2 ^ 31) with 2147483648 in H; lia).
  assert (E : wrapu 64 v = v + 2 ^ 64).
  { unfold wrapu. symmetry. apply Z.mod_unique with (q := -1); change (2 ^ 64) with 18446744073709551616; change (2 ^ 31) with 2147483648 in H; lia. }
  rewrite E. apply unsigned_ok; auto. change (2 ^ 64) with 18446744073709551616; change (2 ^ 31) with 2147483648 in H; lia.
Qed.
Print Assumptions C23_obj_enumerator_constant_refuted.

(** In the list of the enumerators of a type all is well. *)
Theorem C23_enumerate_roundtrip : forall v pos rest, - 2 ^ 31 <= v < 2 ^ 31 -> pos mod 2 = 0 ->
  read_leaf (emitted (enumerate_leaf v) pos ++ rest) = Some (v, rest).
Proof. exact enumerate_ok. Qed.
Print Assumptions C23_enumerate_roundtrip.

(** The helper used to skip a number agrees with the reader. *)
Theorem C23_leaf_size : forall bytes v rest, Forall (fun b => 0 <= b < 256) bytes -> read_leaf bytes = Some (v, rest) ->
  Z.of_nat (length bytes) = pdb_numeric_leaf_size_or_error (unsigned (firstn 2 bytes)) + Z.of_nat (length rest).
Proof. exact size_helper. Qed.
Print Assumptions C23_leaf_size.

(** The padding behind a record: it reaches the alignment, and every byte says how many padding bytes are left. *)
Theorem C23_record_padding : forall pos bytes alignment, 0 < alignment <= 16 ->
  exists p, push_f3f2f1_align alignment (pos, bytes) = (pos + Z.of_nat (length p), bytes ++ p) /\
    (pos + Z.of_nat (length p)) mod alignment = 0 /\ Z.of_nat (length p) < alignment /\
    forall i, (i < length p)%nat -> nth i p 0 = 0xf0 + Z.of_nat (length p - i).
Proof.
  intros pos bytes al H. unfold push_f3f2f1_align, aligned. replace (pos + (- pos) mod al - pos) with ((- pos) mod al) by lia.
  pose proof (Z.mod_pos_bound (- pos) al ltac:(lia)).
  exists (f3f2f1 (Z.to_nat ((- pos) mod al))). rewrite f3_len, Z2Nat.id by lia. split; auto. split.
  - rewrite Z.add_mod_idemp_r by lia. rewrite Z.add_opp_diag_r. apply Z.mod_0_l. lia.
  - split; [lia|]. intros i I. apply f3_nth. auto.
Qed.
Print Assumptions C23_record_padding.

Example leaf_examples :
  emitted (push_unsigned_number_leaf 70000) 8 = [4; 128; 112; 17; 1; 0] /\
  emitted (push_signed_number_leaf (-2)) 8 = [0; 128; 254] /\
  emitted (push_signed_number_leaf (-40000)) 10 = [3; 128; 192; 99; 255; 255] /\
  emitted (push_signed_number_leaf (-40000)) 8 = [3; 128; 0; 0; 192; 99; 255; 255] /\
  snd (push_f3f2f1_align 4 (5, [])) = [0xf3; 0xf2; 0xf1].
Proof. repeat split; vm_compute; reflexivity. Qed.
