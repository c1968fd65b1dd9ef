(** C27 (checksums), C28 (alignment and bit helpers), C35 (work shuffle), C42 (UTF-16 to UTF-8). *)
From Coq Require Import Permutation.
From Verif Require Import Base UtilModel UtilSpec UtilProofs Md5Model Md5Spec Md5Proofs.

(** ** C28 *)
Theorem C28_is_power_of_two : forall a, 0 <= a < 2 ^ 64 ->
  (is_power_of_two a = true <-> power_of_two a).
Proof. exact is_pow2_spec. Qed.
Print Assumptions C28_is_power_of_two.

(** [align_up]: the least multiple of [to] not below the argument, unless that leaves 64 bits. *)
Theorem C28_align_up : forall a to, 0 <= a -> power_of_two to -> to < 2 ^ 64 -> a + to <= 2 ^ 64 ->
  exists r, align_up a to = Done r /\ least (fun x => a <= x /\ (to | x)) r.
Proof. exact align_up_ok. Qed.
Print Assumptions C28_align_up.
Example C28_align_up_ex : align_up 4097 4096 = Done 8192 /\ align_up 0 8 = Done 0 /\ align_up (2 ^ 64 - 8) 8 = Done (2 ^ 64 - 8).
Proof. repeat split; vm_compute; reflexivity. Qed.
Example C28_align_up_hyp : power_of_two 4096. Proof. exists 12. split; [lia|reflexivity]. Qed.

(** The bound is needed: beyond it the result wraps to 0. *)
Theorem C28_align_up_overflow_refuted : exists a to, 0 <= a < 2 ^ 64 /\ power_of_two to /\ to < 2 ^ 64 /\
  align_up a to = Done 0 /\ a <> 0.
Proof. exists (2 ^ 64 - 1), 2. split; [lia|]. split; [exists 1; split; [lia|reflexivity]|]. split; [lia|]. split; [vm_compute; reflexivity|lia]. Qed.
Print Assumptions C28_align_up_overflow_refuted.

(** Anything that is not a power of two is rejected. *)
Theorem C28_align_up_checks : forall a to, 0 <= to < 2 ^ 64 -> ~ power_of_two to -> align_up a to = Crash.
Proof.
  intros a to R N. unfold align_up. destruct (is_power_of_two to) eqn:E; auto.
  exfalso. apply N. apply is_pow2_spec; auto.
Qed.
Print Assumptions C28_align_up_checks.
Example C28_align_up_checks_ex : ~ power_of_two 12.
Proof. intros H. apply is_pow2_spec in H; [vm_compute in H; discriminate|lia]. Qed.

Theorem C28_push_alignment : forall a to, 0 <= a -> power_of_two to -> a + to <= 2 ^ 64 ->
  least (fun x => a <= x /\ (to | x)) (align_with_mask a to).
Proof. exact align_with_mask_ok. Qed.
Print Assumptions C28_push_alignment.
Example C28_push_alignment_ex : align_with_mask 13 8 = 16. Proof. vm_compute. reflexivity. Qed.

Theorem C28_round_up_64 : forall v, 1 <= v <= 2 ^ 63 ->
  least (fun p => power_of_two p /\ v <= p) (u64_round_up_to_next_power_of_two v).
Proof. exact round64_ok. Qed.
Print Assumptions C28_round_up_64.
Theorem C28_round_up_32 : forall v, 1 <= v <= 2 ^ 31 ->
  least (fun p => power_of_two p /\ v <= p) (u32_round_up_to_next_power_of_two v).
Proof. exact round32_ok. Qed.
Print Assumptions C28_round_up_32.
Example C28_round_up_ex : u64_round_up_to_next_power_of_two (2 ^ 40 + 1) = 2 ^ 41 /\ u32_round_up_to_next_power_of_two 5 = 8.
Proof. split; vm_compute; reflexivity. Qed.
(** Outside these ranges the result is no power of two at all. *)
Theorem C28_round_up_outside : forall v, v = 0 \/ 2 ^ 63 < v < 2 ^ 64 -> u64_round_up_to_next_power_of_two v = 0.
Proof.
  intros v [->|R]; [vm_compute; reflexivity|].
  assert (E : wrapu 64 (v - 1) = v - 1) by (apply wrapu_id; lia).
  unfold u64_round_up_to_next_power_of_two. rewrite E. set (w := v - 1).
  assert (W : 2 ^ 63 <= w < 2 ^ 64) by (unfold w; lia).
  pose proof (smear_step w 1 w ltac:(lia) (smear_0 w)) as S1. cbv zeta.
  set (x1 := Z.lor w (Z.shiftr w 1)) in *.
  pose proof (smear_step w 2 x1 ltac:(lia) S1) as S2. set (x2 := Z.lor x1 (Z.shiftr x1 2)) in *.
  pose proof (smear_step w 4 x2 ltac:(lia) S2) as S3. set (x3 := Z.lor x2 (Z.shiftr x2 4)) in *.
  pose proof (smear_step w 8 x3 ltac:(lia) S3) as S4. set (x4 := Z.lor x3 (Z.shiftr x3 8)) in *.
  pose proof (smear_step w 16 x4 ltac:(lia) S4) as S5. set (x5 := Z.lor x4 (Z.shiftr x4 16)) in *.
  pose proof (smear_step w 32 x5 ltac:(lia) S5) as S6. set (x6 := Z.lor x5 (Z.shiftr x5 32)) in *.
  assert (0 <= x6) by (unfold x6, x5, x4, x3, x2, x1; repeat apply lor_shiftr_nonneg; lia).
  rewrite (smeared_full w 64 x6) by (auto; lia).
  assert (L : Z.log2 w = 63) by (apply Z.log2_unique; lia). rewrite L. vm_compute. reflexivity.
Qed.
Print Assumptions C28_round_up_outside.
Example C28_round_up_outside_ex : 2 ^ 63 < 2 ^ 63 + 5 < 2 ^ 64. Proof. split; vm_compute; reflexivity. Qed.

(** A number with [c] leading zeros out of [n] bits lies in [2^(n-1-c), 2^(n-c)). *)
Theorem C28_leading_zeros_32 : forall a, 0 < a < 2 ^ 32 ->
  2 ^ (31 - count_leading_zeros32 a) <= a < 2 ^ (32 - count_leading_zeros32 a).
Proof. exact clz32_ok. Qed.
Print Assumptions C28_leading_zeros_32.
Theorem C28_leading_zeros_64 : forall a, 0 < a < 2 ^ 64 ->
  2 ^ (63 - count_leading_zeros64 a) <= a < 2 ^ (64 - count_leading_zeros64 a).
Proof. exact clz64_ok. Qed.
Print Assumptions C28_leading_zeros_64.
Theorem C28_trailing_zeros_32 : forall a, 0 < a < 2 ^ 32 -> exists q, a = 2 ^ count_trailing_zeros32 a * (2 * q + 1).
Proof. exact ctz32_ok. Qed.
Print Assumptions C28_trailing_zeros_32.
Theorem C28_trailing_zeros_64 : forall a, 0 < a < 2 ^ 64 -> exists q, a = 2 ^ count_trailing_zeros64 a * (2 * q + 1).
Proof. exact ctz64_ok. Qed.
Print Assumptions C28_trailing_zeros_64.
Example C28_zeros_ex : count_leading_zeros32 1 = 31 /\ count_leading_zeros64 (2 ^ 40) = 23 /\
  count_trailing_zeros64 (2 ^ 40 + 2 ^ 7) = 7 /\ count_trailing_zeros32 12 = 2 /\
  count_leading_zeros64 0 = 64 /\ count_leading_zeros32 0 = 32.
Proof. repeat split; vm_compute; reflexivity. Qed.

(** A truncation that is not stopped by its check returns the number itself, and every
    representable number passes. *)
Theorem C28_truncate_unsigned : forall n x, 0 <= n ->
  (forall v, to_u n x = Done v -> v = x) /\ (0 <= x < 2 ^ n -> to_u n x = Done x).
Proof. exact to_u_ok. Qed.
Print Assumptions C28_truncate_unsigned.
Theorem C28_truncate_signed : forall n x, 0 < n ->
  (forall v, to_s n x = Done v -> v = x) /\ (- 2 ^ (n - 1) <= x < 2 ^ (n - 1) -> to_s n x = Done x).
Proof. exact to_s_ok. Qed.
Print Assumptions C28_truncate_signed.
Example C28_truncate_ex : to_u 16 65535 = Done 65535 /\ to_u 16 65536 = Crash /\ to_s 8 (-128) = Done (-128) /\ to_s 8 128 = Crash.
Proof. repeat split; vm_compute; reflexivity. Qed.

(** ** C27 *)
Theorem C27_crc32_is_bitwise : forall data crc, 0 <= crc -> Forall (fun b => 0 <= b < 256) data ->
  crc32 crc data = crc_spec crc data.
Proof. exact crc_ok. Qed.
Print Assumptions C27_crc32_is_bitwise.
(* The check value of CRC-32: "123456789" gives 0xCBF43926 with the usual pre- and postconditioning. *)
Example C27_crc32_ex : Z.lxor (crc32 4294967295 [49;50;51;52;53;54;55;56;57]) 4294967295 = 3421780262.
Proof. vm_compute. reflexivity. Qed.

Theorem C27_crc32_incremental : forall a b crc, crc32 crc (a ++ b) = crc32 (crc32 crc a) b.
Proof. exact crc_app. Qed.
Print Assumptions C27_crc32_incremental.

(** The in-place MD5 equals RFC 1321 for every message and every content of the slack
    after it; the message bytes are left alone. *)
Theorem C27_md5 : forall message slack max_length, Z.of_nat (length message) < 2 ^ 60 ->
  Z.of_nat (length message) + 72 <= max_length -> max_length <= Z.of_nat (length message + length slack) ->
  exists buffer,
    hash_md5_inplace (message ++ slack) (Z.of_nat (length message)) max_length = Done (md5 message, buffer)
    /\ firstn (length message) buffer = message /\ length buffer = length (message ++ slack).
Proof. exact md5_ok. Qed.
Print Assumptions C27_md5.

(** If the padded message (the next multiple of 64 bytes that has room for nine more) does not fit, the
    compiler stops before it writes to the buffer. *)
Theorem C27_md5_stops : forall buffer length max_length, 0 <= length < 2 ^ 60 ->
  (forall blocks, length + 9 <= 64 * blocks -> max_length < 64 * blocks) ->
  hash_md5_inplace buffer length max_length = Crash.
Proof.
  intros buffer n mx N H. unfold hash_md5_inplace. destruct (pad_len_align n N) as (len & -> & E & M). cbn [obind].
  assert (X : len = 64 * (len / 64)) by (apply Z_div_exact_full_2; lia).
  specialize (H (len / 64)). pose proof (Z.mod_pos_bound (55 - n) 64 ltac:(lia)). rewrite <- X in H.
  destruct (Z.leb_spec len mx); [lia|reflexivity].
Qed.
Print Assumptions C27_md5_stops.
Example C27_md5_stops_ex : forall buffer, (forall blocks, 55 + 1 + 9 <= 64 * blocks -> 127 < 64 * blocks) /\ hash_md5_inplace buffer 56 127 = Crash.
Proof. intro b. split; [intros; lia|]. apply C27_md5_stops; lia. Qed.

(** As called for source files (obj_writer.c 1023, 128 bytes of padding from preprocess.c 2659). *)
Theorem C27_md5_of_source_file : forall file padding, Z.of_nat (length file) < 2 ^ 60 -> length padding = 128%nat ->
  exists buffer, hash_md5_inplace (file ++ padding) (Z.of_nat (length file)) (Z.of_nat (length file) + 128) = Done (md5 file, buffer).
Proof.
  intros file padding N P.
  destruct (md5_ok file padding (Z.of_nat (length file) + 128)) as [b [E _]]; try lia. eauto.
Qed.
Print Assumptions C27_md5_of_source_file.
Example C27_md5_ex : exists b, hash_md5_inplace ([97; 98; 99] ++ repeat 7 128) 3 131 =
  Done ([144;1;80;152;60;210;79;176;214;150;63;125;40;225;127;114], b).
Proof. eexists. vm_compute. reflexivity. Qed.

(** ** C35 *)
Theorem C35_shuffle_is_permutation : forall A seed (work : list A), Permutation work (parse_work_order seed work).
Proof. exact shuffle_perm. Qed.
Print Assumptions C35_shuffle_is_permutation.
Example C35_ex : parse_work_order 88172645463325252 [1; 2; 3; 4; 5] <> [1; 2; 3; 4; 5].
Proof. vm_compute. congruence. Qed.

(** ** C42 *)
(** Every code point of plane 0 and of the odd planes is converted correctly; the
    result carries a terminating zero. *)
Theorem C42_utf16_to_utf8_partial : forall text, Forall scalar text ->
  Forall (fun c => c < 65536 \/ Z.odd (c / 65536) = true) text ->
  utf16le_to_utf8 (flat_map utf16 text) = flat_map utf8 text ++ [0].
Proof.
  intros text S O. unfold utf16le_to_utf8. rewrite utf16_loop_ok by auto. f_equal.
  induction text as [|c l IH]; auto. inversion S; inversion O; subst. cbn [flat_map].
  rewrite squash_id by (auto; destruct H1; auto). f_equal. auto.
Qed.
Print Assumptions C42_utf16_to_utf8_partial.
Example C42_ex : utf16le_to_utf8 (flat_map utf16 [65; 228; 8364; 128512]) = [65; 195; 164; 226; 130; 172; 240; 159; 152; 128; 0].
Proof. vm_compute. reflexivity. Qed.

(** U+20000 (first ideograph of plane 2) becomes U+10000. *)
Theorem C42_utf16_to_utf8_refuted : exists text, Forall scalar text /\
  utf16le_to_utf8 (flat_map utf16 text) <> flat_map utf8 text ++ [0] /\
  utf16le_to_utf8 (flat_map utf16 text) = flat_map utf8 [65536] ++ [0].
Proof.
  exists [131072]. split; [repeat constructor; lia|]. split; [vm_compute; congruence|vm_compute; reflexivity].
Qed.
Print Assumptions C42_utf16_to_utf8_refuted.
