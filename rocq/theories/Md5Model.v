(** Model of std.c 1862-1958 [hash_md5_inplace]. *)
From Verif Require Import Base UtilModel.

(** std.c 1876-1881 [shifts], 1884-1901 [sines] *)
Definition shifts : list Z :=
  [7; 12; 17; 22; 7; 12; 17; 22; 7; 12; 17; 22; 7; 12; 17; 22;
   5; 9; 14; 20; 5; 9; 14; 20; 5; 9; 14; 20; 5; 9; 14; 20;
   4; 11; 16; 23; 4; 11; 16; 23; 4; 11; 16; 23; 4; 11; 16; 23;
   6; 10; 15; 21; 6; 10; 15; 21; 6; 10; 15; 21; 6; 10; 15; 21].
Definition sines : list Z :=
  [3614090360; 3905402710; 606105819; 3250441966; 4118548399; 1200080426; 2821735955; 4249261313;
   1770035416; 2336552879; 4294925233; 2304563134; 1804603682; 4254626195; 2792965006; 1236535329;
   4129170786; 3225465664; 643717713; 3921069994; 3593408605; 38016083; 3634488961; 3889429448;
   568446438; 3275163606; 4107603335; 1163531501; 2850285829; 4243563512; 1735328473; 2368359562;
   4294588738; 2272392833; 1839030562; 4259657740; 2763975236; 1272893353; 4139469664; 3200236656;
   681279174; 3936430074; 3572445317; 76029189; 3654602809; 3873151461; 530742520; 3299628645;
   4096336452; 1126891415; 2878612391; 4237533241; 1700485571; 2399980690; 4293915773; 2240044497;
   1873313359; 4264355552; 2734768916; 1309151649; 4149444226; 3174756917; 718787259; 3951481745].

(** The bytes at [at_..] overwritten by [bytes] ([memset], [memcpy], the byte store). *)
Definition write_at (buffer : list Z) (at_ : nat) (bytes : list Z) : list Z :=
  firstn at_ buffer ++ bytes ++ skipn (at_ + length bytes) buffer.

(** A little-endian u32 read at [words[i]], and the 8 bytes of an smm. *)
Definition read_u32 (block : list Z) (i : nat) : Z :=
  nth (4 * i) block 0 + Z.shiftl (nth (4 * i + 1) block 0) 8 + Z.shiftl (nth (4 * i + 2) block 0) 16
  + Z.shiftl (nth (4 * i + 3) block 0) 24.
Definition bytes_of_u64 (x : Z) : list Z := map (fun i => Z.land (Z.shiftr (wrapu 64 x) (8 * Z.of_nat i)) 255) (seq 0 8).

Definition hash : Type := (Z * Z * Z * Z).

(** std.c 1918-1944: one step of the inner loop. *)
Definition md5_step (block : list Z) (h : hash) (i : nat) : hash :=
  let '(b0, b1, b2, b3) := h in
  let '(mix, word_index) :=
    if (i <? 16)%nat then (Z.lxor b3 (Z.land b1 (Z.lxor b2 b3)), i)
    else if (i <? 32)%nat then (Z.lxor b2 (Z.land b3 (Z.lxor b1 b2)), Nat.land (5 * i + 1) 15)
    else if (i <? 48)%nat then (Z.lxor (Z.lxor b1 b2) b3, Nat.land (3 * i + 5) 15)
    else (Z.lxor b2 (Z.lor b1 (wrapu 32 (Z.lnot b3))), Nat.land (7 * i) 15) in
  let temp_hash := b3 in
  let b3 := b2 in
  let b2 := b1 in
  let to_rotate := wrapu 32 (b0 + mix + nth i sines 0 + read_u32 block word_index) in
  let rotate_by := nth i shifts 0 in
  let b1 := wrapu 32 (b1 + Z.lor (wrapu 32 (Z.shiftl to_rotate rotate_by)) (Z.shiftr to_rotate (32 - rotate_by))) in
  (temp_hash, b1, b2, b3).

(** std.c 1909-1950: the block loop; [blocks] counts the iterations. *)
Fixpoint md5_blocks (blocks : nat) (msg : list Z) (block_it : nat) (h : hash) : hash :=
  match blocks with
  | O => h
  | S blocks =>
      let '(h0, h1, h2, h3) := h in
      let '(b0, b1, b2, b3) := fold_left (md5_step (skipn block_it msg)) (seq 0 64) h in
      md5_blocks blocks msg (block_it + 64) (wrapu 32 (h0 + b0), wrapu 32 (h1 + b1), wrapu 32 (h2 + b2), wrapu 32 (h3 + b3))
  end.

(** std.c 1862-1958.  [msg] is the whole buffer; the new contents of the buffer are
    returned with the digest.  A write outside of the buffer is [Crash]. *)
Definition hash_md5_inplace (msg : list Z) (initial_length max_length : Z) : outcome (list Z * list Z) :=
  obind (align_up (initial_length + 1 + 8) 64) (fun len =>
  if negb (len <=? max_length) then Crash else
  if Z.of_nat (length msg) <? len then Crash else
  let msg := write_at msg (Z.to_nat initial_length) (repeat 0 (Z.to_nat (len - initial_length))) in
  let msg := write_at msg (Z.to_nat initial_length) [128] in
  let bit_length := wraps 64 (8 * initial_length) in
  let msg := write_at msg (Z.to_nat (len - 8)) (bytes_of_u64 bit_length) in
  let '(h0, h1, h2, h3) := md5_blocks (Z.to_nat (len / 64)) msg 0 (1732584193, 4023233417, 2562383102, 271733878) in
  Done (flat_map (fun h => firstn 4 (bytes_of_u64 h)) [h0; h1; h2; h3], msg)).
