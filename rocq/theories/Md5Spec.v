(** MD5 as RFC 1321 defines it (sections 3.1-3.5): messages and digests are byte lists. *)
From Verif Require Import Base.

(** 32-bit words *)
Definition word_add (a b : Z) : Z := (a + b) mod 2 ^ 32.
Definition rotl (x s : Z) : Z := (x * 2 ^ s) mod 2 ^ 32 + x / 2 ^ (32 - s).
Definition F (x y z : Z) : Z := Z.lor (Z.land x y) (Z.land (2 ^ 32 - 1 - x) z).
Definition G (x y z : Z) : Z := Z.lor (Z.land x z) (Z.land y (2 ^ 32 - 1 - z)).
Definition H (x y z : Z) : Z := Z.lxor (Z.lxor x y) z.
Definition I (x y z : Z) : Z := Z.lxor y (Z.lor x (2 ^ 32 - 1 - z)).

Definition le_word (b : list Z) : Z := nth 0 b 0 + 256 * nth 1 b 0 + 65536 * nth 2 b 0 + 16777216 * nth 3 b 0.
Fixpoint le_bytes (n : nat) (x : Z) : list Z := match n with O => [] | S n => x mod 256 :: le_bytes n (x / 256) end.

(** 3.1/3.2: a one bit, zeros up to 56 modulo 64 bytes, the bit length on 64 bits. *)
Definition pad (m : list Z) : list Z :=
  let n := Z.of_nat (length m) in
  m ++ [128] ++ repeat 0 (Z.to_nat ((55 - n) mod 64)) ++ le_bytes 8 (8 * n).

(** 3.4: the table T (floor(2^32 * |sin i|)), shift amounts and message word of each operation,
    rounds of 16 operations each. *)
Definition T : list Z :=
 [3614090360; 3905402710; 606105819; 3250441966; 4118548399; 1200080426; 2821735955; 4249261313;
  1770035416; 2336552879; 4294925233; 2304563134; 1804603682; 4254626195; 2792965006; 1236535329;
  4129170786; 3225465664; 643717713; 3921069994; 3593408605; 38016083; 3634488961; 3889429448;
  568446438; 3275163606; 4107603335; 1163531501; 2850285829; 4243563512; 1735328473; 2368359562;
  4294588738; 2272392833; 1839030562; 4259657740; 2763975236; 1272893353; 4139469664; 3200236656;
  681279174; 3936430074; 3572445317; 76029189; 3654602809; 3873151461; 530742520; 3299628645;
  4096336452; 1126891415; 2878612391; 4237533241; 1700485571; 2399980690; 4293915773; 2240044497;
  1873313359; 4264355552; 2734768916; 1309151649; 4149444226; 3174756917; 718787259; 3951481745].

Definition round_fun (r : nat) : Z -> Z -> Z -> Z :=
  match r with 0%nat => F | 1%nat => G | 2%nat => H | _ => I end.
Definition round_shifts (r : nat) : list Z :=
  match r with 0%nat => [7; 12; 17; 22] | 1%nat => [5; 9; 14; 20] | 2%nat => [4; 11; 16; 23] | _ => [6; 10; 15; 21] end.
(** The word used by operation j of round r, as the RFC's [abcd k s i] lists enumerate. *)
Definition round_words (r : nat) : list nat :=
  match r with
  | 0%nat => [0;1;2;3;4;5;6;7;8;9;10;11;12;13;14;15]%nat
  | 1%nat => [1;6;11;0;5;10;15;4;9;14;3;8;13;2;7;12]%nat
  | 2%nat => [5;8;11;14;1;4;7;10;13;0;3;6;9;12;15;2]%nat
  | _ => [0;7;14;5;12;3;10;1;8;15;6;13;4;11;2;9]%nat
  end.

Definition state := (Z * Z * Z * Z)%type.
(** a = b + ((a + f(b,c,d) + X[k] + T[i]) <<< s), then the roles rotate: (a,b,c,d) := (d,a,b,c). *)
Definition operation (X : list Z) (st : state) (i : nat) : state :=
  let '(a, b, c, d) := st in
  let r := (i / 16)%nat in let j := (i mod 16)%nat in
  let x := word_add (word_add (word_add a (round_fun r b c d)) (nth (nth j (round_words r) 0%nat) X 0)) (nth i T 0) in
  (d, word_add b (rotl x (nth (j mod 4) (round_shifts r) 0)), b, c).

Fixpoint words (n : nat) (block : list Z) : list Z :=
  match n with O => [] | S n => le_word block :: words n (skipn 4 block) end.

Definition compress (st : state) (block : list Z) : state :=
  let '(a, b, c, d) := st in
  let '(a', b', c', d') := fold_left (operation (words 16 block)) (seq 0 64) st in
  (word_add a a', word_add b b', word_add c c', word_add d d').

Fixpoint blocks (n : nat) (m : list Z) (st : state) : state :=
  match n with O => st | S n => blocks n (skipn 64 m) (compress st (firstn 64 m)) end.

Definition md5 (m : list Z) : list Z :=
  let p := pad m in
  let '(a, b, c, d) := blocks (length p / 64) p (1732584193, 4023233417, 2562383102, 271733878) in
  le_bytes 4 a ++ le_bytes 4 b ++ le_bytes 4 c ++ le_bytes 4 d.

(** RFC 1321, A.5: the test suite. *)
Example md5_empty : md5 [] = [212;29;140;217;143;0;178;4;233;128;9;152;236;248;66;126].
Proof. vm_compute. reflexivity. Qed.
(* "abc" -> 900150983cd24fb0d6963f7d28e17f72 *)
Example md5_abc : md5 [97;98;99] = [144;1;80;152;60;210;79;176;214;150;63;125;40;225;127;114].
Proof. vm_compute. reflexivity. Qed.
