(** Model of helpers in std.c: alignment, powers of two, bit scans, checked
    truncation, random numbers, CRC-32, UTF-16 conversion; and of the work shuffle in main.c. *)
From Verif Require Import Base.

(** std.c 244 [is_power_of_two] on 64-bit values. *)
Definition is_power_of_two (a : Z) : bool :=
  negb (a =? 0) && (Z.land a (wrapu 64 (a - 1)) =? 0).

(** std.c 246 [align_up]; the arithmetic is modulo 2^64 ([smm] and [u64] agree bit by bit).
    The assert that [to] is a power of two is [Crash]. *)
Definition align_up (to_align to : Z) : outcome Z :=
  if is_power_of_two to
  then Done (wrapu 64 (Z.lor (wrapu 64 (to_align - 1)) (wrapu 64 (to - 1)) + 1))
  else Crash.

(** std.c 882-883: the alignment in [push_struct_]. *)
Definition align_with_mask (current alignment : Z) : Z :=
  let mask := wrapu 64 (alignment - 1) in
  Z.land (wrapu 64 (current + mask)) (wrapu 64 (Z.lnot mask)).

(** std.c 1702-1711 *)
Definition u32_round_up_to_next_power_of_two (v : Z) : Z :=
  let v := wrapu 32 (v - 1) in
  let v := Z.lor v (Z.shiftr v 1) in
  let v := Z.lor v (Z.shiftr v 2) in
  let v := Z.lor v (Z.shiftr v 4) in
  let v := Z.lor v (Z.shiftr v 8) in
  let v := Z.lor v (Z.shiftr v 16) in
  wrapu 32 (v + 1).

(** std.c 1713-1723 *)
Definition u64_round_up_to_next_power_of_two (v : Z) : Z :=
  let v := wrapu 64 (v - 1) in
  let v := Z.lor v (Z.shiftr v 1) in
  let v := Z.lor v (Z.shiftr v 2) in
  let v := Z.lor v (Z.shiftr v 4) in
  let v := Z.lor v (Z.shiftr v 8) in
  let v := Z.lor v (Z.shiftr v 16) in
  let v := Z.lor v (Z.shiftr v 32) in
  wrapu 64 (v + 1).

(** The [bsf]/[bsr] instructions: scan from bit 0 up, from the top bit down. *)
Fixpoint scan_up (n : nat) (i a : Z) : option Z :=
  match n with
  | O => None
  | S n => if Z.testbit a i then Some i else scan_up n (i + 1) a
  end.
Fixpoint scan_down (n : nat) (a : Z) : option Z :=
  match n with
  | O => None
  | S n => if Z.testbit a (Z.of_nat n) then Some (Z.of_nat n) else scan_down n a
  end.

(** std.c 653-683 *)
Definition count_leading_zeros32 (a : Z) : Z := match scan_down 32 a with Some r => 31 - r | None => 32 end.
Definition count_leading_zeros64 (a : Z) : Z := match scan_down 64 a with Some r => 63 - r | None => 64 end.
Definition count_trailing_zeros32 (a : Z) : Z := match scan_up 32 0 a with Some r => r | None => 0 end.
Definition count_trailing_zeros64 (a : Z) : Z := match scan_up 64 0 a with Some r => r | None => 0 end.

(** std.c 525-534, 1823-1851: checked truncations to [n] bits, n = 8, 16, 32 (the 64-bit
    ones are not used on values that could fail). *)
Definition to_u (n number : Z) : outcome Z :=
  if (0 <=? number) && (number <=? 2 ^ n - 1) then Done (wrapu n number) else Crash.
Definition to_s (n number : Z) : outcome Z :=
  if (- 2 ^ (n - 1) <=? number) && (number <=? 2 ^ (n - 1) - 1) then Done (wraps n number) else Crash.

(** std.c 1792-1797 [xor_shift64], 1809-1813 [random_u32]: new state and result. *)
Definition xor_shift64 (x : Z) : Z :=
  let x := Z.lxor x (wrapu 64 (Z.shiftl x 13)) in
  let x := Z.lxor x (Z.shiftr x 7) in
  Z.lxor x (wrapu 64 (Z.shiftl x 17)).
Definition random_u32 (series : Z) : Z * Z :=
  let val := xor_shift64 series in (val, wrapu 32 val).

(** main.c 3180-3201: the seed-driven shuffle.  [stacks] are 16 lists, an entry is
    pushed in front of a random one, then the stacks are concatenated. *)
Fixpoint push_front_at {A} (i : nat) (x : A) (stacks : list (list A)) : list (list A) :=
  match i, stacks with
  | O, s :: r => (x :: s) :: r
  | S i, s :: r => s :: push_front_at i x r
  | _, [] => []
  end.

Fixpoint deal {A} (series : Z) (it : list A) (stacks : list (list A)) : list (list A) :=
  match it with
  | [] => stacks
  | x :: next =>
      let '(series, r) := random_u32 series in
      let index := Z.land r (16 - 1) in
      deal series next (push_front_at (Z.to_nat index) x stacks)
  end.

Definition shuffle {A} (seed : Z) (work : list A) : list A :=
  concat (deal seed work (repeat [] 16)).

(** main.c 3180: no shuffle without a seed. *)
Definition parse_work_order {A} (seed : Z) (work : list A) : list A :=
  if seed =? 0 then work else shuffle seed work.

(** std.c 2008-2041 [crc32_table] *)
Definition crc32_table : list Z :=
  [
   0; 1996959894; 3993919788; 2567524794; 124634137; 1886057615; 3915621685; 2657392035;
   249268274; 2044508324; 3772115230; 2547177864; 162941995; 2125561021; 3887607047; 2428444049;
   498536548; 1789927666; 4089016648; 2227061214; 450548861; 1843258603; 4107580753; 2211677639;
   325883990; 1684777152; 4251122042; 2321926636; 335633487; 1661365465; 4195302755; 2366115317;
   997073096; 1281953886; 3579855332; 2724688242; 1006888145; 1258607687; 3524101629; 2768942443;
   901097722; 1119000684; 3686517206; 2898065728; 853044451; 1172266101; 3705015759; 2882616665;
   651767980; 1373503546; 3369554304; 3218104598; 565507253; 1454621731; 3485111705; 3099436303;
   671266974; 1594198024; 3322730930; 2970347812; 795835527; 1483230225; 3244367275; 3060149565;
   1994146192; 31158534; 2563907772; 4023717930; 1907459465; 112637215; 2680153253; 3904427059;
   2013776290; 251722036; 2517215374; 3775830040; 2137656763; 141376813; 2439277719; 3865271297;
   1802195444; 476864866; 2238001368; 4066508878; 1812370925; 453092731; 2181625025; 4111451223;
   1706088902; 314042704; 2344532202; 4240017532; 1658658271; 366619977; 2362670323; 4224994405;
   1303535960; 984961486; 2747007092; 3569037538; 1256170817; 1037604311; 2765210733; 3554079995;
   1131014506; 879679996; 2909243462; 3663771856; 1141124467; 855842277; 2852801631; 3708648649;
   1342533948; 654459306; 3188396048; 3373015174; 1466479909; 544179635; 3110523913; 3462522015;
   1591671054; 702138776; 2966460450; 3352799412; 1504918807; 783551873; 3082640443; 3233442989;
   3988292384; 2596254646; 62317068; 1957810842; 3939845945; 2647816111; 81470997; 1943803523;
   3814918930; 2489596804; 225274430; 2053790376; 3826175755; 2466906013; 167816743; 2097651377;
   4027552580; 2265490386; 503444072; 1762050814; 4150417245; 2154129355; 426522225; 1852507879;
   4275313526; 2312317920; 282753626; 1742555852; 4189708143; 2394877945; 397917763; 1622183637;
   3604390888; 2714866558; 953729732; 1340076626; 3518719985; 2797360999; 1068828381; 1219638859;
   3624741850; 2936675148; 906185462; 1090812512; 3747672003; 2825379669; 829329135; 1181335161;
   3412177804; 3160834842; 628085408; 1382605366; 3423369109; 3138078467; 570562233; 1426400815;
   3317316542; 2998733608; 733239954; 1555261956; 3268935591; 3050360625; 752459403; 1541320221;
   2607071920; 3965973030; 1969922972; 40735498; 2617837225; 3943577151; 1913087877; 83908371;
   2512341634; 3803740692; 2075208622; 213261112; 2463272603; 3855990285; 2094854071; 198958881;
   2262029012; 4057260610; 1759359992; 534414190; 2176718541; 4139329115; 1873836001; 414664567;
   2282248934; 4279200368; 1711684554; 285281116; 2405801727; 4167216745; 1634467795; 376229701;
   2685067896; 3608007406; 1308918612; 956543938; 2808555105; 3495958263; 1231636301; 1047427035;
   2932959818; 3654703836; 1088359270; 936918000; 2847714899; 3736837829; 1202900863; 817233897;
   3183342108; 3401237130; 1404277552; 615818150; 3134207493; 3453421203; 1423857449; 601450431;
   3009837614; 3294710456; 1567103746; 711928724; 3020668471; 3272380065; 1510334235; 755167117].

(** std.c 2077-2080 [crc32]: the loop. *)
Fixpoint crc32 (crc : Z) (data : list Z) : Z :=
  match data with
  | [] => crc
  | b :: rest =>
      crc32 (Z.lxor (Z.shiftr crc 8) (nth (Z.to_nat (Z.lxor (Z.land crc 255) b)) crc32_table 0)) rest
  end.

(** std.c 2183-2200: encode one code point; nothing is pushed beyond 0x10FFFF. *)
Definition encode_utf8 (code_point : Z) : list Z :=
  if code_point <=? 127 then [wrapu 8 code_point]
  else if code_point <=? 2047 then
    [Z.lor (Z.shiftl 3 6) (Z.land (Z.shiftr code_point 6) 31);
     Z.lor (Z.shiftl 1 7) (Z.land (Z.shiftr code_point 0) 63)]
  else if code_point <=? 65535 then
    [Z.lor (Z.shiftl 7 5) (Z.land (Z.shiftr code_point 12) 15);
     Z.lor (Z.shiftl 1 7) (Z.land (Z.shiftr code_point 6) 63);
     Z.lor (Z.shiftl 1 7) (Z.land (Z.shiftr code_point 0) 63)]
  else if code_point <=? 1114111 then
    [Z.lor (Z.shiftl 15 4) (Z.land (Z.shiftr code_point 18) 7);
     Z.lor (Z.shiftl 1 7) (Z.land (Z.shiftr code_point 12) 63);
     Z.lor (Z.shiftl 1 7) (Z.land (Z.shiftr code_point 6) 63);
     Z.lor (Z.shiftl 1 7) (Z.land (Z.shiftr code_point 0) 63)]
  else [].

(** std.c 2165-2201: the decode loop, without the final terminator.  The bounds are
    those of the code: [<= 0xDC00] for the high half, [|] instead of [+] for the sum. *)
Fixpoint utf16_loop (data : list Z) : list Z :=
  match data with
  | [] => []
  | d0 :: rest =>
      match rest with
      | d1 :: rest' =>
          if (55296 <=? d0) && (d0 <=? 56320) && (56320 <=? d1) && (d1 <? 57344)
          then encode_utf8 (Z.lor (Z.shiftl (d0 - 55296) 10) ((d1 - 56320) + 65536)) ++ utf16_loop rest'
          else encode_utf8 d0 ++ utf16_loop rest
      | [] => encode_utf8 d0 ++ utf16_loop rest
      end
  end.

(** std.c 2161-2209 [utf16le_to_utf8]; the returned string includes the terminator. *)
Definition utf16le_to_utf8 (data : list Z) : list Z := utf16_loop data ++ [0].
