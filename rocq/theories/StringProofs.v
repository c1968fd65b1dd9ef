(** Proofs about literals (C11). *)
From Verif Require Import Base StringModel UtilSpec StringSpec UtilProofs.

(** * Small facts by inspection of all cases *)

Lemma all_between : forall (P : Z -> bool) lo n, forallb P (map (fun i => lo + Z.of_nat i) (seq 0 n)) = true -> forall b, lo <= b < lo + Z.of_nat n -> P b = true.
Proof.
  intros P lo n H b Hb. rewrite forallb_forall in H. apply H. apply in_map_iff. exists (Z.to_nat (b - lo)). split; [lia|]. apply in_seq. lia.
Qed.
Ltac inspect P lo n b := pose proof (all_between P lo n ltac:(vm_compute; reflexivity) b ltac:(lia)) as INSPECTED; cbv beta in INSPECTED.

Lemma hex_number_char : forall d, hex_digit d -> hex_number (hex_char d) = Some (snd d).
Proof.
  intros [u d] H. unfold hex_digit in H. cbn [snd] in H.
  assert (C : d = 0 \/ d = 1 \/ d = 2 \/ d = 3 \/ d = 4 \/ d = 5 \/ d = 6 \/ d = 7 \/ d = 8 \/ d = 9 \/ d = 10 \/ d = 11 \/ d = 12 \/ d = 13 \/ d = 14 \/ d = 15) by lia.
  destruct u; repeat (destruct C as [->|C]; [reflexivity|]); subst d; reflexivity.
Qed.
Lemma hex_number_range : forall c v, hex_number c = Some v -> 0 <= v < 16.
Proof.
  intros c v H. unfold hex_number in H.
  destruct ((48 <=? c) && (c <=? 57)) eqn:A; [|destruct ((97 <=? c) && (c <=? 102)) eqn:B; [|destruct ((65 <=? c) && (c <=? 70)) eqn:C; [|discriminate]]]; injection H as <-;
    match goal with K : _ && _ = true |- _ => apply andb_true_iff in K; destruct K as [K1 K2]; apply Z.leb_le in K1, K2; lia end.
Qed.
Lemma hex_number_none : forall c, (forall d, hex_digit d -> c <> hex_char d) -> hex_number c = None.
Proof.
  intros c H. destruct (hex_number c) as [v|] eqn:E; [|reflexivity]. exfalso. pose proof (hex_number_range c v E) as R. unfold hex_number in E.
  destruct ((48 <=? c) && (c <=? 57)) eqn:A; [|destruct ((97 <=? c) && (c <=? 102)) eqn:B; [|destruct ((65 <=? c) && (c <=? 70)) eqn:C; [|discriminate]]]; injection E as E;
    match goal with K : _ && _ = true |- _ => apply andb_true_iff in K; destruct K as [K1 K2]; apply Z.leb_le in K1, K2 end.
  - apply (H (true, v) R). unfold hex_char. cbn [snd fst]. destruct (Z.ltb_spec v 10); lia.
  - apply (H (false, v) R). unfold hex_char. cbn [snd fst]. destruct (Z.ltb_spec v 10); lia.
  - apply (H (true, v) R). unfold hex_char. cbn [snd fst]. destruct (Z.ltb_spec v 10); lia.
Qed.

(** * Numbers *)

Lemma number_from : forall base ds v, fold_left (fun v d => v * base + d) ds v = v * base ^ Z.of_nat (length ds) + number base ds.
Proof.
  intros base ds. unfold number. induction ds as [|d ds IH]; intro v; cbn [fold_left length].
  - cbn. lia.
  - rewrite IH, (IH (0 * base + d)). rewrite Nat2Z.inj_succ, Z.pow_succ_r by lia. ring.
Qed.
Lemma number_cons : forall base d ds, number base (d :: ds) = d * base ^ Z.of_nat (length ds) + number base ds.
Proof. intros. unfold number at 1. cbn [fold_left]. rewrite number_from. ring. Qed.
Lemma number_range : forall base ds, 0 < base -> Forall (fun d => 0 <= d < base) ds -> 0 <= number base ds < base ^ Z.of_nat (length ds).
Proof.
  intros base ds B. induction ds as [|d ds IH]; intro F; [cbn; lia|]. inversion F as [|? ? D F']. subst. specialize (IH F').
  rewrite number_cons. cbn [length]. rewrite Nat2Z.inj_succ, Z.pow_succ_r by lia. nia.
Qed.
Lemma hex_digits_range : forall ds, Forall hex_digit ds -> Forall (fun d => 0 <= d < 16) (map snd ds).
Proof. induction 1; constructor; auto. Qed.

Lemma pow_mono : forall n m, 0 <= n -> 1 <= m -> n <= n * m.
Proof. intros. nia. Qed.

Lemma parse_hex_ok : forall ds v rest, Forall hex_digit ds -> 0 <= v -> v * 16 ^ Z.of_nat (length ds) + number 16 (map snd ds) < 2 ^ 64 -> (match rest with [] => True | c :: _ => hex_number c = None end) ->
  parse_hex v false (map hex_char ds ++ rest) = (v * 16 ^ Z.of_nat (length ds) + number 16 (map snd ds), false, rest).
Proof.
  induction ds as [|d ds IH]; intros v rest F V B R.
  - replace (v * 16 ^ Z.of_nat (length (@nil (bool * Z))) + number 16 (map snd (@nil (bool * Z)))) with v by (cbn; lia). cbn [map app]. destruct rest as [|c rest]; cbn [parse_hex]; [reflexivity|]. rewrite R. reflexivity.
  - inversion F as [|? ? D F']. subst. cbn [map app parse_hex]. rewrite (hex_number_char d D). unfold hex_digit in D.
    cbn [map length] in B |- *. rewrite number_cons in B |- *. rewrite map_length in B |- *. rewrite Nat2Z.inj_succ, Z.pow_succ_r in B |- * by lia.
    assert (P : 1 <= 16 ^ Z.of_nat (length ds)) by (pose proof (Z.pow_pos_nonneg 16 (Z.of_nat (length ds))); lia).
    pose proof (number_range 16 (map snd ds) ltac:(lia) (hex_digits_range ds F')) as N.
    assert (S : v * 16 + snd d < 2 ^ 64) by nia.
    rewrite (proj2 (Z.leb_gt (2 ^ 60) v)) by lia. rewrite (wrapu_id 64 (v * 16)) by lia. rewrite (wrapu_id 64 (v * 16 + snd d)) by lia.
    rewrite (proj2 (Z.ltb_ge (v * 16 + snd d) (v * 16))) by lia. cbn [orb].
    rewrite IH; [f_equal; f_equal; ring|exact F'|lia|nia|exact R].
Qed.

Lemma parse_hex_range : forall s v o w o' r j, parse_hex v o s = (w, o', r) -> 0 <= v < 16 ^ Z.of_nat j -> (j + length s <= 16)%nat -> 0 <= w < 16 ^ Z.of_nat (j + length s) /\ (o' = true -> o = true).
Proof.
  induction s as [|c s IH]; intros v o w o' r j H V J; cbn [parse_hex] in H.
  - injection H as <- <- <-. cbn [length]. rewrite Nat.add_0_r. tauto.
  - assert (M : 16 ^ Z.of_nat j <= 16 ^ Z.of_nat (j + length (c :: s))) by (apply Z.pow_le_mono_r; lia).
    destruct (hex_number c) as [d|] eqn:E; [|injection H as <- <- <-; split; [lia|tauto]].
    pose proof (hex_number_range c d E). cbn [length] in *.
    assert (M2 : 16 ^ Z.of_nat (S j) <= 16 ^ 16) by (change 16 with (Z.of_nat 16) at 3; apply Z.pow_le_mono_r; lia).
    rewrite Nat2Z.inj_succ, Z.pow_succ_r in M2 by lia. change (16 ^ 16) with (2 ^ 64) in M2.
    rewrite (wrapu_id 64 (v * 16)), (wrapu_id 64 (v * 16 + d)) in H by lia.
    rewrite (proj2 (Z.ltb_ge (v * 16 + d) (v * 16))), orb_false_r in H by lia.
    rewrite (proj2 (Z.leb_gt (2 ^ 60) v)), orb_false_r in H by lia.
    destruct (IH _ _ _ _ _ (S j) H) as [A B]; [rewrite Nat2Z.inj_succ, Z.pow_succ_r by lia; lia|lia|].
    split; [|exact B]. replace (j + S (length s))%nat with (S j + length s)%nat by lia. exact A.
Qed.

Lemma parse_hex_rest : forall s v o w o' r, parse_hex v o s = (w, o', r) -> (length r <= length s)%nat.
Proof.
  induction s as [|c s IH]; intros v o w o' r H; cbn [parse_hex] in H; [injection H as <- <- <-; lia|].
  destruct (hex_number c) as [d|]; [apply IH in H; cbn [length]; lia|injection H as <- <- <-; lia].
Qed.
Lemma octal_rest : forall n v s w r, octal n v s = (w, r) -> (length r <= length s)%nat.
Proof.
  induction n as [|n IH]; intros v s w r H; [destruct s; injection H as <- <-; lia|]. destruct s as [|c s]; cbn [octal] in H; [injection H as <- <-; lia|].
  destruct (is_octal c); [apply IH in H; cbn [length]; lia|injection H as <- <-; lia].
Qed.

(** * Encoders *)

Lemma encode8_ok : forall c, 0 <= c < 1114112 -> encode8 c = utf8 c.
Proof.
  intros c H. unfold encode8, utf8. destruct (Z.ltb_spec c 128); [reflexivity|].
  assert (K : forall n, c < 2 ^ n -> 0 < n -> Z.log2 c < n) by (intros; apply Z.log2_lt_pow2; lia).
  assert (L : forall n, 2 ^ n <= c -> n <= Z.log2 c) by (intros; apply Z.log2_le_pow2; lia).
  assert (LOW : forall s, 0 <= s -> Z.lor 128 (Z.land (Z.shiftr c s) 63) = 128 + (c / 2 ^ s) mod 64).
  { intros s Hs. change 63 with (Z.ones 6). rewrite shr_and by lia. change 128 with (Z.shiftl 2 6) at 1. rewrite byte_or; [reflexivity|lia|apply Z.mod_pos_bound; lia]. }
  pose proof (L 7 ltac:(lia)) as L7.
  destruct (Z.ltb_spec c 2048); [|destruct (Z.ltb_spec c 65536)].
  - pose proof (K 11 ltac:(lia) ltac:(lia)) as K1. assert (R : c / 64 < 32) by (apply Z.div_lt_upper_bound; lia). assert (R0 : 0 <= c / 64) by (apply Z.div_pos; lia).
    assert (C : Z.log2 c = 7 \/ Z.log2 c = 8 \/ Z.log2 c = 9 \/ Z.log2 c = 10) by lia.
    assert (G : [wrapu 8 (Z.lor 192 (Z.shiftr c 6)); Z.lor 128 (Z.land (Z.shiftr c 0) 63)] = [192 + c / 64; 128 + c mod 64]).
    { rewrite LOW by lia. rewrite Z.pow_0_r, Z.div_1_r, Z.shiftr_div_pow2 by lia. change (2 ^ 6) with 64. change 192 with (Z.shiftl 6 5) at 1. rewrite byte_or by (change (2 ^ 5) with 32; lia). change (6 * 2 ^ 5) with 192. rewrite wrapu_id by (change (2 ^ 8) with 256; lia). reflexivity. }
    destruct C as [E|[E|[E|E]]]; rewrite E; exact G.
  - pose proof (K 16 ltac:(lia) ltac:(lia)) as K1. pose proof (L 11 ltac:(lia)) as L1. assert (R : c / 4096 < 16) by (apply Z.div_lt_upper_bound; lia). assert (R0 : 0 <= c / 4096) by (apply Z.div_pos; lia).
    assert (C : Z.log2 c = 11 \/ Z.log2 c = 12 \/ Z.log2 c = 13 \/ Z.log2 c = 14 \/ Z.log2 c = 15) by lia.
    assert (G : [wrapu 8 (Z.lor 224 (Z.shiftr c 12)); Z.lor 128 (Z.land (Z.shiftr c 6) 63); Z.lor 128 (Z.land (Z.shiftr c 0) 63)] = [224 + c / 4096; 128 + (c / 64) mod 64; 128 + c mod 64]).
    { rewrite !LOW by lia. rewrite Z.pow_0_r, Z.div_1_r, Z.shiftr_div_pow2 by lia. change (2 ^ 6) with 64. change (2 ^ 12) with 4096. change 224 with (Z.shiftl 14 4) at 1. rewrite byte_or by (change (2 ^ 4) with 16; lia). change (14 * 2 ^ 4) with 224. rewrite wrapu_id by (change (2 ^ 8) with 256; lia). reflexivity. }
    destruct C as [E|[E|[E|[E|E]]]]; rewrite E; exact G.
  - pose proof (K 21 ltac:(lia) ltac:(lia)) as K1. pose proof (L 16 ltac:(lia)) as L1. assert (R : c / 262144 < 8) by (apply Z.div_lt_upper_bound; lia). assert (R0 : 0 <= c / 262144) by (apply Z.div_pos; lia).
    assert (C : Z.log2 c = 16 \/ Z.log2 c = 17 \/ Z.log2 c = 18 \/ Z.log2 c = 19 \/ Z.log2 c = 20) by lia.
    assert (G : [wrapu 8 (Z.lor 240 (Z.shiftr c 18)); Z.lor 128 (Z.land (Z.shiftr c 12) 63); Z.lor 128 (Z.land (Z.shiftr c 6) 63); Z.lor 128 (Z.land (Z.shiftr c 0) 63)] = [240 + c / 262144; 128 + (c / 4096) mod 64; 128 + (c / 64) mod 64; 128 + c mod 64]).
    { rewrite !LOW by lia. rewrite Z.pow_0_r, Z.div_1_r, Z.shiftr_div_pow2 by lia. change (2 ^ 6) with 64. change (2 ^ 12) with 4096. change (2 ^ 18) with 262144. change 240 with (Z.shiftl 30 3) at 1. rewrite byte_or by (change (2 ^ 3) with 8; lia). change (30 * 2 ^ 3) with 240. rewrite wrapu_id by (change (2 ^ 8) with 256; lia). reflexivity. }
    destruct C as [E|[E|[E|[E|E]]]]; rewrite E; exact G.
Qed.

Lemma encode16_ok : forall c, scalar c -> (65536 <= c -> Z.testbit c 8 = true) -> encode16 c = Done (utf16 c, false).
Proof.
  intros c [R S] B. unfold encode16, utf16.
  replace ((55296 <=? c) && (c <? 57344)) with false by (symmetry; destruct (Z.leb_spec 55296 c), (Z.ltb_spec c 57344); try reflexivity; lia).
  destruct (Z.ltb_spec c 65536); [reflexivity|]. rewrite (proj2 (Z.ltb_lt (c - 65536) 1048576)) by lia.
  set (x := c - 65536) in *. assert (X : 0 <= x < 1048576) by lia. f_equal. f_equal.
  change 1023 with (Z.ones 10). rewrite shr_and by lia. rewrite Z.land_ones by lia. change (2 ^ 10) with 1024.
  assert (Q : 0 <= x / 1024 < 1024) by (split; [apply Z.div_pos; lia|apply Z.div_lt_upper_bound; lia]). rewrite (Z.mod_small (x / 1024)) by lia.
  pose proof (Z.mod_pos_bound x 1024 ltac:(lia)) as M.
  change 55296 with (Z.shiftl 54 10) at 1. rewrite byte_or by (change (2 ^ 10) with 1024; lia). change (54 * 2 ^ 10) with 55296.
  assert (T : Z.testbit (x mod 1024) 8 = true).
  { change 1024 with (2 ^ 10). rewrite Z.mod_pow2_bits_low by lia. specialize (B ltac:(lia)). rewrite <- B.
    assert (E : x mod 2 ^ 16 = c mod 2 ^ 16) by (unfold x; replace (c - 65536) with (c + (-1) * 2 ^ 16) by lia; apply Z.mod_add; lia).
    rewrite <- (Z.mod_pow2_bits_low x 16 8), <- (Z.mod_pow2_bits_low c 16 8) by lia. rewrite E. reflexivity. }
  assert (E : Z.lor 56576 (x mod 1024) = 56320 + x mod 1024).
  { change 56576 with (Z.lor (Z.shiftl 55 10) (2 ^ 8)). rewrite <- Z.lor_assoc.
    assert (E2 : Z.lor (2 ^ 8) (x mod 1024) = x mod 1024).
    { apply Z.bits_inj'. intros i Hi. rewrite Z.lor_spec, Z.pow2_bits_eqb by lia. destruct (Z.eqb_spec 8 i) as [Q8|Q8]; [subst i; rewrite T; reflexivity|reflexivity]. }
    rewrite E2. rewrite byte_or by (change (2 ^ 10) with 1024; lia). reflexivity. }
  rewrite E. reflexivity.
Qed.

(** * The decoder *)

Lemma lor_add : forall hi n x, 0 <= n -> 0 <= x < 2 ^ n -> Z.lor (hi * 2 ^ n) x = hi * 2 ^ n + x.
Proof. intros hi n x N X. rewrite <- (Z.shiftl_mul_pow2 hi n N). rewrite byte_or by assumption. rewrite Z.shiftl_mul_pow2 by assumption. reflexivity. Qed.

Lemma cont_byte : forall x, 0 <= x < 64 -> Z.land (128 + x) 192 = 128 /\ Z.land (128 + x) 63 = x.
Proof.
  intros x H. inspect (fun x => (Z.land (128 + x) 192 =? 128) && (Z.land (128 + x) 63 =? x)) 0 64%nat x. apply andb_true_iff in INSPECTED. destruct INSPECTED as [A B]. apply Z.eqb_eq in A, B. auto.
Qed.

Lemma read_ok : forall c s, scalar c -> exists b bs, utf8 c = b :: bs /\ read_codepoint b (bs ++ s) = Done (c, s, false) /\ (c <> 92 -> b <> 92) /\ (128 <= c -> Forall (fun x => x <> 92) (b :: bs)).
Proof.
  intros c s [R _]. unfold utf8. destruct (Z.ltb_spec c 128) as [H|H]; [|destruct (Z.ltb_spec c 2048) as [H2|H2]; [|destruct (Z.ltb_spec c 65536) as [H3|H3]]].
  - exists c, []. split; [reflexivity|]. split; [|split; [tauto|lia]]. unfold read_codepoint. inspect (fun c => Z.land c 128 =? 0) 0 128%nat c. apply Z.eqb_eq in INSPECTED. rewrite INSPECTED. reflexivity.
  - exists (192 + c / 64), [128 + c mod 64]. split; [reflexivity|]. pose proof (Z.mod_pos_bound c 64 ltac:(lia)) as M. assert (Q : 0 <= c / 64 < 32) by (split; [apply Z.div_pos; lia|apply Z.div_lt_upper_bound; lia]).
    split; [|split; [lia|intros _; repeat constructor; lia]].
    inspect (fun q => (Z.land (192 + q) 128 =? 128) && (leading 7 (192 + q) =? 1)%nat && (Z.land (192 + q) 63 =? q)) 0 32%nat (c / 64).
    apply andb_true_iff in INSPECTED. destruct INSPECTED as [I I3]. apply andb_true_iff in I. destruct I as [I1 I2]. apply Nat.eqb_eq in I2. apply Z.eqb_eq in I3.
    unfold read_codepoint. rewrite I1, I2. cbn [negb]. cbn [app length Nat.ltb Nat.leb].
    change (2 ^ (8 - (Z.of_nat 1 + 1)) - 1) with 63. change (2 ^ (6 * Z.of_nat 1)) with 64. change (Z.shiftr 64 6) with 1. rewrite I3. cbn [app continuation].
    destruct (cont_byte (c mod 64) M) as [C1 C2]. rewrite C1, C2, Z.eqb_refl. rewrite !wrapu_id by (change (2 ^ 32) with 4294967296; lia).
    rewrite Z.mul_1_l, (Z.mul_comm 64). change 64 with (2 ^ 6) at 2. rewrite lor_add by (change (2 ^ 6) with 64; lia). change (2 ^ 6) with 64. cbn [skipn].
    do 3 f_equal. pose proof (Z.div_mod c 64). lia.
  - exists (224 + c / 4096), [128 + (c / 64) mod 64; 128 + c mod 64]. split; [reflexivity|]. pose proof (Z.mod_pos_bound c 64 ltac:(lia)) as M. pose proof (Z.mod_pos_bound (c / 64) 64 ltac:(lia)) as M2. assert (Q : 0 <= c / 4096 < 16) by (split; [apply Z.div_pos; lia|apply Z.div_lt_upper_bound; lia]).
    split; [|split; [lia|intros _; repeat constructor; lia]].
    inspect (fun q => (Z.land (224 + q) 128 =? 128) && (leading 7 (224 + q) =? 2)%nat && (Z.land (224 + q) 31 =? q)) 0 16%nat (c / 4096).
    apply andb_true_iff in INSPECTED. destruct INSPECTED as [I I3]. apply andb_true_iff in I. destruct I as [I1 I2]. apply Nat.eqb_eq in I2. apply Z.eqb_eq in I3.
    unfold read_codepoint. rewrite I1, I2. cbn [negb]. cbn [app length Nat.ltb Nat.leb].
    change (2 ^ (8 - (Z.of_nat 2 + 1)) - 1) with 31. change (2 ^ (6 * Z.of_nat 2)) with 4096. change (Z.shiftr 4096 6) with 64. rewrite I3. cbn [app continuation]. change (Z.shiftr 64 6) with 1.
    destruct (cont_byte (c mod 64) M) as [C1 C2], (cont_byte ((c / 64) mod 64) M2) as [D1 D2]. rewrite C1, C2, D1, D2, !Z.eqb_refl. rewrite !wrapu_id by (change (2 ^ 32) with 4294967296; lia).
    rewrite Z.mul_1_l, (Z.mul_comm 4096). change 4096 with (2 ^ 12) at 2. rewrite lor_add by (change (2 ^ 12) with 4096; lia). change (2 ^ 12) with 4096.
    replace (c / 4096 * 4096 + 64 * ((c / 64) mod 64)) with ((c / 4096 * 64 + (c / 64) mod 64) * 2 ^ 6) by (change (2 ^ 6) with 64; ring). rewrite lor_add by (change (2 ^ 6) with 64; lia). change (2 ^ 6) with 64. cbn [skipn].
    do 3 f_equal. pose proof (Z.div_mod c 64). pose proof (Z.div_mod (c / 64) 64). rewrite Z.div_div in * by lia. change (64 * 64) with 4096 in *. lia.
  - exists (240 + c / 262144), [128 + (c / 4096) mod 64; 128 + (c / 64) mod 64; 128 + c mod 64]. split; [reflexivity|].
    pose proof (Z.mod_pos_bound c 64 ltac:(lia)) as M. pose proof (Z.mod_pos_bound (c / 64) 64 ltac:(lia)) as M2. pose proof (Z.mod_pos_bound (c / 4096) 64 ltac:(lia)) as M3. assert (Q : 0 <= c / 262144 < 8) by (split; [apply Z.div_pos; lia|apply Z.div_lt_upper_bound; lia]).
    split; [|split; [lia|intros _; repeat constructor; lia]].
    inspect (fun q => (Z.land (240 + q) 128 =? 128) && (leading 7 (240 + q) =? 3)%nat && (Z.land (240 + q) 15 =? q)) 0 8%nat (c / 262144).
    apply andb_true_iff in INSPECTED. destruct INSPECTED as [I I3]. apply andb_true_iff in I. destruct I as [I1 I2]. apply Nat.eqb_eq in I2. apply Z.eqb_eq in I3.
    unfold read_codepoint. rewrite I1, I2. cbn [negb]. cbn [app length Nat.ltb Nat.leb].
    change (2 ^ (8 - (Z.of_nat 3 + 1)) - 1) with 15. change (2 ^ (6 * Z.of_nat 3)) with 262144. change (Z.shiftr 262144 6) with 4096. rewrite I3. cbn [app continuation]. change (Z.shiftr 4096 6) with 64. change (Z.shiftr 64 6) with 1.
    destruct (cont_byte (c mod 64) M) as [C1 C2], (cont_byte ((c / 64) mod 64) M2) as [D1 D2], (cont_byte ((c / 4096) mod 64) M3) as [E1 E2]. rewrite C1, C2, D1, D2, E1, E2, !Z.eqb_refl. rewrite !wrapu_id by (change (2 ^ 32) with 4294967296; lia).
    rewrite Z.mul_1_l, (Z.mul_comm 262144). change 262144 with (2 ^ 18) at 2. rewrite lor_add by (change (2 ^ 18) with 262144; lia). change (2 ^ 18) with 262144.
    replace (c / 262144 * 262144 + 4096 * ((c / 4096) mod 64)) with ((c / 262144 * 64 + (c / 4096) mod 64) * 2 ^ 12) by (change (2 ^ 12) with 4096; ring). rewrite lor_add by (change (2 ^ 12) with 4096; lia). change (2 ^ 12) with 4096.
    replace ((c / 262144 * 64 + (c / 4096) mod 64) * 4096 + 64 * ((c / 64) mod 64)) with (((c / 262144 * 64 + (c / 4096) mod 64) * 64 + (c / 64) mod 64) * 2 ^ 6) by (change (2 ^ 6) with 64; ring). rewrite lor_add by (change (2 ^ 6) with 64; lia). change (2 ^ 6) with 64. cbn [skipn].
    do 3 f_equal. pose proof (Z.div_mod c 64). pose proof (Z.div_mod (c / 64) 64). pose proof (Z.div_mod (c / 4096) 64). rewrite !Z.div_div in * by lia. change (64 * 64) with 4096 in *. change (4096 * 64) with 262144 in *. lia.
Qed.

(** * What each step consumes and writes *)

Lemma escape_shrinks : forall m c s v r e, escape m (c :: s) = Done (v, r, e) -> (length r <= length s)%nat.
Proof.
  intros m c s v r e H. cbn [escape] in H. destruct (simple_escape c); [injection H as <- <- <-; lia|].
  destruct (is_octal c); [destruct (octal 2 (c - 48) s) as [w r'] eqn:O; injection H as <- <- <-; exact (octal_rest _ _ _ _ _ O)|].
  destruct (c =? 120).
  { destruct s as [|d s]; [injection H as <- <- <-; lia|]. destruct (hex_number d); [|injection H as <- <- <-; lia].
    destruct (parse_hex 0 false (d :: s)) as [[w o] r'] eqn:P. injection H as <- <- <-. exact (parse_hex_rest _ _ _ _ _ _ P). }
  destruct ((c =? 117) || (c =? 85)); [|injection H as <- <- <-; lia].
  destruct (length s <? _)%nat; [injection H as <- <- <-; cbn; lia|].
  destruct (parse_hex 0 false _) as [[w o] r']. destruct o; [discriminate|]. injection H as <- <- <-. rewrite skipn_length. lia.
Qed.

Lemma trailing_length : forall n c, length (trailing n c) = n.
Proof. induction n; intros; cbn [trailing length]; [reflexivity|]. rewrite IHn. reflexivity. Qed.
Lemma encode8_length : forall c n, 0 <= c < 2 ^ n -> 0 < n <= 32 -> (length (encode8 c) <= (if (16 <? n)%Z then 7 else 3))%nat.
Proof.
  intros c n H N. unfold encode8. destruct (Z.ltb_spec c 128); [cbn [length]; destruct (16 <? n); lia|]. cbn [length]. rewrite trailing_length.
  assert (K : Z.log2 c < n) by (apply Z.log2_lt_pow2; lia). assert (L : 7 <= Z.log2 c) by (apply Z.log2_le_pow2; lia).
  pose proof (Z.div_mod (Z.log2 c + 1) 6 ltac:(lia)). pose proof (Z.mod_pos_bound (Z.log2 c + 1) 6 ltac:(lia)).
  destruct (Z.ltb_spec 8 ((Z.log2 c + 1) / 6 + 1 + 1 + (Z.log2 c + 1) mod 6)); destruct (Z.ltb_spec 16 n); lia.
Qed.

(** The escapes whose code point is encoded are u and U. *)
Lemma lower_u : forall c, 0 <= c < 256 -> (Z.lor c 32 =? 117) = ((c =? 117) || (c =? 85)).
Proof. intros c H. inspect (fun c => Bool.eqb (Z.lor c 32 =? 117) ((c =? 117) || (c =? 85))) 0 256%nat c. apply Bool.eqb_prop in INSPECTED. exact INSPECTED. Qed.

Lemma escape_ucn : forall m c s v r e, (c =? 117) || (c =? 85) = true -> escape m (c :: s) = Done (v, r, e) ->
  v = 0 \/ (0 <= v < 2 ^ 16 /\ length s = (4 + length r)%nat) \/ (0 <= v < 2 ^ 32 /\ length s = (8 + length r)%nat).
Proof.
  intros m c s v r e U H. assert (C : c = 117 \/ c = 85) by (apply orb_true_iff in U; rewrite !Z.eqb_eq in U; exact U). cbn [escape] in H.
  assert (S : simple_escape c = None) by (destruct C as [->| ->]; reflexivity). rewrite S in H. clear S.
  assert (S : is_octal c = false) by (destruct C as [->| ->]; reflexivity). rewrite S in H. clear S.
  assert (S : c =? 120 = false) by (destruct C as [->| ->]; reflexivity). rewrite S, U in H. clear S.
  destruct (Nat.ltb_spec (length s) (if (c =? 117)%Z then 4 else 8)%nat) as [L|L]; [injection H as <- <- <-; left; reflexivity|].
  destruct (parse_hex 0 false _) as [[w o] r'] eqn:P. destruct o; [discriminate|]. injection H as <- <- <-.
  assert (FL : length (firstn (if (c =? 117)%Z then 4 else 8)%nat s) = (if (c =? 117)%Z then 4 else 8)%nat) by (rewrite firstn_length; destruct (c =? 117); lia).
  destruct (parse_hex_range _ _ _ _ _ _ 0 P) as [R _]; [cbn; lia|rewrite FL; destruct (c =? 117); lia|]. rewrite FL in R. rewrite skipn_length.
  destruct (c =? 117); right; [left|right]; (split; [|lia]); rewrite wrapu_id; cbn in R |- *; lia.
Qed.

Lemma escaped_small : forall k c s v r e us e', 0 <= c < 256 -> escape (maximal k) (c :: s) = Done (v, r, e) -> escaped_units k c v = Done (us, e') -> (length us + length r <= S (S (length s)))%nat.
Proof.
  intros k c s v r e us e' C E H. pose proof (escape_shrinks _ _ _ _ _ _ E) as L. unfold escaped_units in H. rewrite (lower_u c C) in H.
  destruct ((c =? 117) || (c =? 85)) eqn:U.
  - pose proof (escape_ucn _ _ _ _ _ _ U E) as X. destruct k.
    + injection H as <- <-. destruct X as [->|[[R Q]|[R Q]]]; [cbn; lia| |].
      * pose proof (encode8_length v 16 R ltac:(lia)) as B. cbn [Z.ltb Z.compare Pos.compare Pos.compare_cont] in B. lia.
      * pose proof (encode8_length v 32 R ltac:(lia)) as B. cbn [Z.ltb Z.compare Pos.compare Pos.compare_cont] in B. lia.
    + unfold encode16 in H. destruct (v <? 65536) eqn:V; [injection H as <- <-; cbn [length]; lia|]. destruct (v - 65536 <? 1048576); [|discriminate]. injection H as <- <-. cbn [length].
      destruct X as [->|[[R Q]|[R Q]]]; [discriminate|lia|lia].
    + injection H as <- <-. cbn [length]. lia.
  - destruct k; injection H as <- <-; cbn [length]; lia.
Qed.

Lemma read_consumes : forall c s v r e, 0 <= c < 256 -> read_codepoint c s = Done (v, r, e) -> (length r <= length s)%nat /\ (65536 <= v -> (length r < length s)%nat).
Proof.
  intros c s v r e C H. unfold read_codepoint in H. destruct (Z.land c 128 =? 128); cbn [negb] in H; [|injection H as <- <- <-; split; lia].
  destruct (Nat.ltb_spec (length s) (leading 7 c)); [injection H as <- <- <-; split; lia|]. destruct (6 <=? leading 7 c)%nat; [discriminate|].
  destruct (leading 7 c) as [|n] eqn:LC.
  - cbn [continuation] in H. change (2 ^ (6 * Z.of_nat 0)) with 1 in H. rewrite Z.mul_1_l in H. change (2 ^ (8 - (Z.of_nat 0 + 1)) - 1) with (Z.ones 7) in H. rewrite Z.land_ones in H by lia.
    pose proof (Z.mod_pos_bound c (2 ^ 7) ltac:(lia)). rewrite wrapu_id in H by lia. injection H as <- <- <-. cbn [skipn]. split; lia.
  - destruct (continuation _ _ _ _); [|injection H as <- <- <-; split; lia]. assert (R : r = skipn (S n) s) by congruence. rewrite R, skipn_length. lia.
Qed.

Lemma plain_small : forall k c s us r e, 0 <= c < 256 -> plain_units k c s = Done (us, r, e) -> (length us + length r <= S (length s) /\ length r <= length s)%nat.
Proof.
  intros k c s us r e C H. unfold plain_units in H. destruct k.
  - injection H as <- <- <-. cbn [length]. lia.
  - destruct (read_codepoint c s) as [[[v r'] e1]| |] eqn:R; try discriminate. cbn [obind] in H. destruct (read_consumes _ _ _ _ _ C R) as [A B].
    unfold encode16 in H. destruct (Z.ltb_spec v 65536) as [V|V]; [cbn [obind] in H; injection H as <- <- <-; cbn [length]; lia|].
    destruct (v - 65536 <? 1048576); [|discriminate]. cbn [obind] in H. injection H as <- <- <-. cbn [length]. specialize (B V). lia.
  - destruct (read_codepoint c s) as [[[v r'] e1]| |] eqn:R; try discriminate. cbn [obind] in H. injection H as <- <- <-. destruct (read_consumes _ _ _ _ _ C R) as [A B]. cbn [length]. lia.
Qed.

Lemma newline_shrinks : forall s r, eat_newline s = Some r -> (length r < length s)%nat.
Proof.
  intros s r H. unfold eat_newline in H. destruct s as [|c s]; [discriminate|]. 
  destruct (Z.eq_dec c 10) as [->|N1]; [injection H as <-; cbn [length]; lia|].
  destruct (Z.eq_dec c 13) as [->|N2].
  - destruct s as [|d s]; [injection H as <-; cbn [length]; lia|]. destruct (Z.eq_dec d 10) as [->|N3]; [injection H as <-; cbn [length]; lia|].
    assert (E : r = d :: s) by (destruct d as [|d|d]; try congruence; repeat (destruct d as [d|d|]; try congruence)). subst r. cbn [length]. lia.
  - exfalso. destruct c as [|c|c]; try discriminate. repeat (destruct c as [c|c|]; try discriminate; try lia).
Qed.

(** The rest is a part of what there was. *)
Definition suffix (r s : list Z) : Prop := exists p, s = p ++ r.
Lemma suffix_refl : forall s, suffix s s.
Proof. intro s. exists []. reflexivity. Qed.
Lemma suffix_cons : forall c r s, suffix r s -> suffix r (c :: s).
Proof. intros c r s [p ->]. exists (c :: p). reflexivity. Qed.
Lemma suffix_skipn : forall n s, suffix (skipn n s) s.
Proof. intros n s. exists (firstn n s). symmetry. apply firstn_skipn. Qed.
Lemma suffix_nil : forall s, suffix [] s.
Proof. intros s. exists s. symmetry. apply app_nil_r. Qed.
#[local] Hint Resolve suffix_refl suffix_cons suffix_skipn suffix_nil : core.
Lemma suffix_octal : forall n v s w r, octal n v s = (w, r) -> suffix r s.
Proof.
  induction n as [|n IH]; intros v s w r H; [destruct s; injection H as <- <-; auto|]. destruct s as [|c s]; cbn [octal] in H; [injection H as <- <-; auto|].
  destruct (is_octal c); [apply IH in H; auto|injection H as <- <-; auto].
Qed.
Lemma suffix_hex : forall s v o w o' r, parse_hex v o s = (w, o', r) -> suffix r s.
Proof.
  induction s as [|c s IH]; intros v o w o' r H; cbn [parse_hex] in H; [injection H as <- <- <-; auto|].
  destruct (hex_number c) as [d|]; [apply IH in H; auto|injection H as <- <- <-; auto].
Qed.
Lemma suffix_escape : forall m c s v r e, escape m (c :: s) = Done (v, r, e) -> suffix r s.
Proof.
  intros m c s v r e H. cbn [escape] in H. destruct (simple_escape c); [injection H as <- <- <-; auto|].
  destruct (is_octal c); [destruct (octal 2 (c - 48) s) as [w r'] eqn:O; injection H as <- <- <-; exact (suffix_octal _ _ _ _ _ O)|].
  destruct (c =? 120).
  { destruct s as [|d s]; [injection H as <- <- <-; auto|]. destruct (hex_number d); [|injection H as <- <- <-; auto].
    destruct (parse_hex 0 false (d :: s)) as [[w o] r'] eqn:P. injection H as <- <- <-. exact (suffix_hex _ _ _ _ _ _ P). }
  destruct ((c =? 117) || (c =? 85)); [|injection H as <- <- <-; auto].
  destruct (length s <? _)%nat; [injection H as <- <- <-; auto|].
  destruct (parse_hex 0 false _) as [[w o] r']. destruct o; [discriminate|]. injection H as <- <- <-. auto.
Qed.
Lemma suffix_read : forall c s v r e, read_codepoint c s = Done (v, r, e) -> suffix r s.
Proof.
  intros c s v r e H. unfold read_codepoint in H. destruct (negb _); [injection H as <- <- <-; auto|]. destruct (_ <? _)%nat; [injection H as <- <- <-; auto|].
  destruct (_ <=? _)%nat; [discriminate|]. destruct (continuation _ _ _ _); injection H as <- <- <-; auto.
Qed.
Lemma suffix_plain : forall k c s us r e, plain_units k c s = Done (us, r, e) -> suffix r s.
Proof.
  intros k c s us r e H. unfold plain_units in H. destruct k; [injection H as <- <- <-; auto| |]; destruct (read_codepoint c s) as [[[v r'] e1]| |] eqn:R; try discriminate; cbn [obind] in H; apply suffix_read in R.
  - destruct (encode16 v) as [[]| |]; try discriminate. cbn [obind] in H. injection H as <- <- <-. exact R.
  - injection H as <- <- <-. exact R.
Qed.
Lemma suffix_newline : forall s r, eat_newline s = Some r -> suffix r s.
Proof.
  intros s r H. unfold eat_newline in H. destruct s as [|c s]; [discriminate|].
  destruct (Z.eq_dec c 10) as [->|N1]; [injection H as <-; auto|].
  destruct (Z.eq_dec c 13) as [->|N2].
  - destruct s as [|d s]; [injection H as <-; auto|]. destruct (Z.eq_dec d 10) as [->|N3]; [injection H as <-; auto|].
    assert (E : r = d :: s) by (destruct d as [|d|d]; try congruence; repeat (destruct d as [d|d|]; try congruence)). subst r. auto.
  - exfalso. destruct c as [|c|c]; try discriminate. repeat (destruct c as [c|c|]; try discriminate; try lia).
Qed.

Lemma bytes_suffix : forall r s, suffix r s -> bytes s -> bytes r.
Proof. intros r s [p ->] H. apply Forall_app in H. tauto. Qed.

(** * The loop *)

(** More fuel and a larger buffer change nothing. *)
Lemma convert_one_same : forall fuel fuel' k cap cap' s buf err, bytes s -> (length s < fuel)%nat -> (length s < fuel')%nat -> (length buf + length s <= cap)%nat -> (length buf + length s <= cap')%nat ->
  convert_one fuel k cap buf err s = convert_one fuel' k cap' buf err s /\ forall buf' e', convert_one fuel k cap buf err s = Done (buf', e') -> (length buf' <= length buf + length s)%nat.
Proof.
  induction fuel as [|fuel IH]; intros fuel' k cap cap' s buf err B F F' C C'; [lia|]. destruct fuel' as [|fuel']; [lia|].
  destruct s as [|c s]; cbn [convert_one]; [split; [reflexivity|]; intros buf' e' H; injection H as <- <-; lia|].
  inversion B as [|? ? Bc Bs]. subst. cbn [length] in *.
  destruct (c =? 92).
  - destruct (eat_newline s) as [r|] eqn:N.
    { pose proof (newline_shrinks _ _ N). destruct (IH fuel' k cap cap' r buf err (bytes_suffix _ _ (suffix_newline _ _ N) Bs)) as [A L]; try lia. split; [exact A|]. intros. apply L in H0. lia. }
    destruct s as [|d s]; [split; [reflexivity|discriminate]|]. inversion Bs as [|? ? Bd Bs']. subst. cbn [length] in *.
    destruct (escape (maximal k) (d :: s)) as [[[v r] e]| |] eqn:E; cbn [obind]; [|split; [reflexivity|discriminate]|split; [reflexivity|discriminate]].
    destruct (escaped_units k d v) as [[us e']| |] eqn:U; cbn [obind]; [|split; [reflexivity|discriminate]|split; [reflexivity|discriminate]].
    pose proof (escaped_small _ _ _ _ _ _ _ _ Bd E U) as S. pose proof (escape_shrinks _ _ _ _ _ _ E).
    unfold put. rewrite (proj2 (Nat.leb_le _ cap)), (proj2 (Nat.leb_le _ cap')) by lia. cbn [obind].
    destruct (IH fuel' k cap cap' r (buf ++ us) (err || e || e') (bytes_suffix _ _ (suffix_escape _ _ _ _ _ _ E) Bs')) as [A L]; try (rewrite ?app_length; lia).
    split; [exact A|]. intros buf' e0 H0. apply L in H0. rewrite app_length in H0. lia.
  - destruct (plain_units k c s) as [[[us r] e]| |] eqn:P; cbn [obind]; [|split; [reflexivity|discriminate]|split; [reflexivity|discriminate]].
    destruct (plain_small _ _ _ _ _ _ Bc P) as [S S2]. unfold put. rewrite (proj2 (Nat.leb_le _ cap)), (proj2 (Nat.leb_le _ cap')) by lia. cbn [obind].
    destruct (IH fuel' k cap cap' r (buf ++ us) (err || e) (bytes_suffix _ _ (suffix_plain _ _ _ _ _ _ P) Bs)) as [A L]; try (rewrite ?app_length; lia).
    split; [exact A|]. intros buf' e0 H0. apply L in H0. rewrite app_length in H0. lia.
Qed.

Lemma convert_all_same : forall k cap cap' strings buf err, Forall bytes strings -> (length buf + length (concat strings) <= cap)%nat -> (length buf + length (concat strings) <= cap')%nat ->
  convert_all k cap buf err strings = convert_all k cap' buf err strings /\ forall buf' e', convert_all k cap buf err strings = Done (buf', e') -> (length buf' <= length buf + length (concat strings))%nat.
Proof.
  induction strings as [|s strings IH]; intros buf err B C C'; cbn [convert_all concat] in *.
  - split; [reflexivity|]. intros buf' e' H. injection H as <- <-. lia.
  - inversion B as [|? ? Bs Br]. subst. rewrite app_length in *. destruct (convert_one_same (S (length s)) (S (length s)) k cap cap' s buf err Bs) as [A L]; try lia. rewrite <- A.
    destruct (convert_one (S (length s)) k cap buf err s) as [[b e]| |]; cbn [obind]; [|split; [reflexivity|discriminate]|split; [reflexivity|discriminate]].
    specialize (L b e eq_refl). destruct (IH b e Br) as [A2 L2]; try lia. split; [exact A2|]. intros. apply L2 in H. lia.
Qed.

Lemma convert_capacity : forall k cap strings, Forall bytes strings -> (length (concat strings) <= cap)%nat ->
  convert k strings = convert_with cap k strings /\ forall us, convert k strings = Done us -> (length us <= length (concat strings))%nat.
Proof.
  intros k cap strings B C. unfold convert, convert_with. destruct (convert_all_same k (length (concat strings)) cap strings [] false B) as [A L]; [cbn; lia|cbn; lia|].
  rewrite <- A. split; [reflexivity|]. intros us H. destruct (convert_all k (length (concat strings)) [] false strings) as [[b e]| |]; cbn [obind] in H; try discriminate. destruct e; [discriminate|]. injection H as <-. exact (L b false eq_refl).
Qed.

(** * Literals of C *)

Lemma convert_step : forall n k cap buf err c s, convert_one (S n) k cap buf err (c :: s) =
  if c =? 92 then
    match eat_newline s with
    | Some s2 => convert_one n k cap buf err s2
    | None => match s with
              | [] => Crash
              | d :: _ => obind (escape (maximal k) s) (fun '(v, s2, e) => obind (escaped_units k d v) (fun '(us, e') => obind (put cap buf us) (fun buf' => convert_one n k cap buf' (err || e || e') s2)))
              end
    end
  else obind (plain_units k c s) (fun '(us, s2, e) => obind (put cap buf us) (fun buf' => convert_one n k cap buf' (err || e) s2)).
Proof. reflexivity. Qed.

Section Literal.
Variables (k : kind) (cap : nat).
Definition conv (buf : list Z) (err : bool) (s : list Z) : outcome (list Z * bool) := convert_one (S (length s)) k cap buf err s.
Definition room (buf s : list Z) : Prop := bytes s /\ (length buf + length s <= cap)%nat.

Lemma conv_newline : forall buf err s r, room buf (92 :: s) -> eat_newline s = Some r -> conv buf err (92 :: s) = conv buf err r.
Proof.
  intros buf err s r [B C] N. unfold conv at 1. rewrite convert_step. change (92 =? 92) with true. cbv iota. rewrite N. pose proof (newline_shrinks _ _ N). inversion B. subst. cbn [length] in C.
  pose proof (bytes_suffix _ _ (suffix_newline _ _ N) H3). apply convert_one_same; cbn [length]; (assumption || lia).
Qed.
Lemma conv_escape : forall buf err d s v r us, room buf (92 :: d :: s) -> eat_newline (d :: s) = None -> escape (maximal k) (d :: s) = Done (v, r, false) -> escaped_units k d v = Done (us, false) ->
  conv buf err (92 :: d :: s) = conv (buf ++ us) err r /\ room (buf ++ us) r.
Proof.
  intros buf err d s v r us [B C] N E U. inversion B as [|? ? B1 B2]. inversion B2 as [|? ? Bd Bs]. subst. cbn [length] in C.
  pose proof (escaped_small _ _ _ _ _ _ _ _ Bd E U) as S. pose proof (escape_shrinks _ _ _ _ _ _ E). pose proof (bytes_suffix _ _ (suffix_escape _ _ _ _ _ _ E) Bs) as Br.
  split; [|split; [exact Br|rewrite app_length; lia]].
  unfold conv at 1. rewrite convert_step. change (92 =? 92) with true. cbv iota. rewrite N, E. cbn [obind]. rewrite U. cbn [obind]. unfold put. rewrite (proj2 (Nat.leb_le _ cap)) by lia. cbn [obind].
  rewrite !orb_false_r. apply convert_one_same; try exact Br; cbn [length]; rewrite ?app_length; lia.
Qed.
Lemma conv_plain : forall buf err c s us r, room buf (c :: s) -> c <> 92 -> plain_units k c s = Done (us, r, false) -> conv buf err (c :: s) = conv (buf ++ us) err r /\ room (buf ++ us) r.
Proof.
  intros buf err c s us r [B C] N P. inversion B as [|? ? Bc Bs]. subst. cbn [length] in C. destruct (plain_small _ _ _ _ _ _ Bc P) as [S S2]. pose proof (bytes_suffix _ _ (suffix_plain _ _ _ _ _ _ P) Bs) as Br.
  split; [|split; [exact Br|rewrite app_length; lia]].
  unfold conv at 1. rewrite convert_step. rewrite (proj2 (Z.eqb_neq c 92) N), P. cbn [obind]. unfold put. rewrite (proj2 (Nat.leb_le _ cap)) by lia. cbn [obind].
  rewrite !orb_false_r. apply convert_one_same; try exact Br; cbn [length]; rewrite ?app_length; lia.
Qed.
Lemma conv_bytes : forall bs buf err rest, k = Utf8 -> room buf (bs ++ rest) -> Forall (fun x => x <> 92) bs -> conv buf err (bs ++ rest) = conv (buf ++ bs) err rest /\ room (buf ++ bs) rest.
Proof.
  induction bs as [|b bs IH]; intros buf err rest K R F; [rewrite app_nil_r; split; [reflexivity|exact R]|]. inversion F as [|? ? Fb Fr]. subst. cbn [app] in *.
  destruct (conv_plain buf err b (bs ++ rest) [b] (bs ++ rest) R Fb) as [A RO]; [rewrite K; reflexivity|].
  destruct (IH (buf ++ [b]) err rest K RO Fr) as [A2 R2]. rewrite <- app_assoc in A2, R2. cbn [app] in A2, R2. rewrite A, A2. auto.
Qed.

Lemma simple_value_ok : forall l v, simple_value l = Some v -> simple_escape l = Some v /\ 0 <= v < 128 /\ eat_newline [l] = None /\ (l =? 117) || (l =? 85) = false /\ 0 <= l < 256.
Proof.
  intros l v H. unfold simple_value in H. destruct (find _ _) as [[a b]|] eqn:F; [|discriminate]. apply find_some in F. destruct F as [I E]. cbn [fst option_map snd] in *. apply Z.eqb_eq in E. subst a. injection H as ->.
  unfold simple_values in I. cbn [In] in I. repeat (destruct I as [I|I]; [injection I as <- <-; repeat split; reflexivity || lia|]). destruct I.
Qed.

Lemma octal_ok : forall ds n v rest, Forall (fun d => 0 <= d < 8) ds -> (length ds <= n)%nat -> ((length ds < n)%nat -> match rest with [] => True | c :: _ => is_octal c = false end) ->
  octal n v (map (fun d => 48 + d) ds ++ rest) = (v * 8 ^ Z.of_nat (length ds) + number 8 ds, rest).
Proof.
  induction ds as [|d ds IH]; intros n v rest F L R.
  - cbn [map app]. replace (v * 8 ^ Z.of_nat (length (@nil Z)) + number 8 []) with v by (cbn; lia). destruct n; [destruct rest; reflexivity|]. destruct rest as [|c rest]; [reflexivity|]. cbn [octal]. rewrite R by (cbn; lia). reflexivity.
  - inversion F as [|? ? D F']. subst. destruct n as [|n]; [cbn in L; lia|]. cbn [map app octal]. replace (is_octal (48 + d)) with true by (unfold is_octal; symmetry; apply andb_true_iff; split; apply Z.leb_le; lia).
    cbn [length] in *. rewrite IH; [|exact F'|lia|intro Q; apply R; lia]. f_equal. rewrite number_cons, Nat2Z.inj_succ, Z.pow_succ_r by lia. ring.
Qed.

Lemma maximal_unit : maximal k = largest_unit k.
Proof. destruct k; reflexivity. Qed.
Lemma unit_fits : forall d v, (d =? 117) || (d =? 85) = false -> 0 <= d < 256 -> 0 <= v <= maximal k -> escaped_units k d v = Done ([v], false).
Proof.
  intros d v D R V. unfold escaped_units. rewrite (lower_u d R), D. destruct k; cbn [maximal] in V; try reflexivity; rewrite wrapu_id by lia; reflexivity.
Qed.

Lemma newline_none : forall c s, c <> 10 -> c <> 13 -> eat_newline (c :: s) = None.
Proof. intros c s A B. unfold eat_newline. destruct c as [|c|c]; try reflexivity. repeat (destruct c as [c|c|]; try reflexivity; try lia). Qed.

Lemma element_ok : forall e rest buf err, valid k e -> encodable k e -> follows e rest -> room buf (source e ++ rest) ->
  conv buf err (source e ++ rest) = conv (buf ++ meaning k e) err rest /\ room (buf ++ meaning k e) rest.
Proof.
  intros e rest buf err V E F R. destruct e as [c|l|ds|ds|long ds|n]; cbn [source meaning valid encodable follows] in *.
  - (* a plain character *) destruct V as [V N]. destruct (read_ok c rest V) as (b & bs & U & RD & N1 & NB). assert (KD : {k = Utf8} + {k <> Utf8}) by (destruct k; [left; reflexivity|right; discriminate|right; discriminate]); destruct KD as [K8|K8].
    + rewrite K8. cbn [encode]. apply conv_bytes; [exact K8|exact R|]. destruct (Z.ltb_spec c 128) as [L|L].
      * unfold utf8. rewrite (proj2 (Z.ltb_lt c 128) L). repeat constructor. exact N.
      * rewrite U. exact (NB L).
    + rewrite U in R |- *. cbn [app] in R |- *. apply conv_plain; [exact R|exact (N1 N)|]. unfold plain_units, encode. destruct k; [congruence| |]; rewrite RD; cbn [obind].
      * rewrite (encode16_ok c V) by (intros; apply E; auto). reflexivity.
      * reflexivity.
  - (* a simple escape *) destruct (simple_value l) as [v|] eqn:SV; [|congruence]. destruct (simple_value_ok l v SV) as (S1 & S2 & S3 & S4 & S5). cbn [app] in *.
    apply (conv_escape buf err l rest v rest [v] R).
    + apply newline_none; intros ->; discriminate.
    + cbn [escape]. rewrite S1. reflexivity.
    + apply unit_fits; [exact S4|exact S5|]. destruct k; cbn [maximal]; lia.
  - (* an octal escape *) destruct V as (D & [L1 L3] & M). destruct ds as [|d ds]; [cbn in L1; lia|]. inversion D as [|? ? Dd Ds]. subst. cbn [map app] in *.
    pose proof (number_range 8 (d :: ds) ltac:(lia) D) as NR.
    assert (DC : d = 0 \/ d = 1 \/ d = 2 \/ d = 3 \/ d = 4 \/ d = 5 \/ d = 6 \/ d = 7) by lia.
    apply (conv_escape buf err (48 + d) _ (number 8 (d :: ds)) rest [number 8 (d :: ds)] R).
    + apply newline_none; lia.
    + cbn [escape]. replace (simple_escape (48 + d)) with (@None Z) by (repeat (destruct DC as [->|DC]; [reflexivity|]); subst d; reflexivity).
      replace (is_octal (48 + d)) with true by (unfold is_octal; symmetry; apply andb_true_iff; split; apply Z.leb_le; lia).
      rewrite (octal_ok ds 2); [|exact Ds|cbn in L3; lia|].
      * replace (48 + d - 48) with d by lia. rewrite <- number_cons. rewrite maximal_unit. rewrite (proj2 (Z.ltb_ge _ _) M). reflexivity.
      * intro Q. destruct rest as [|x rest]; [exact I|]. unfold is_octal. destruct (Z.leb_spec 48 x), (Z.leb_spec x 55); try reflexivity. exfalso. apply (fun q => F q (x - 48)); [cbn [length]; lia|lia|]. cbn [hd_error]. f_equal. lia.
    + apply unit_fits; [|lia|rewrite maximal_unit; lia]. destruct (Z.eqb_spec (48 + d) 117), (Z.eqb_spec (48 + d) 85); try reflexivity; lia.
  - (* a hexadecimal escape *) destruct V as (D & NE & M). cbn [app] in *. pose proof (number_range 16 (map snd ds) ltac:(lia) (hex_digits_range ds D)) as NR.
    apply (conv_escape buf err 120 (map hex_char ds ++ rest) (number 16 (map snd ds)) rest [number 16 (map snd ds)] R).
    + reflexivity.
    + destruct ds as [|d ds]; [congruence|]. cbn [escape]. change (simple_escape 120) with (@None Z). change (is_octal 120) with false. change (120 =? 120) with true. cbv iota.
      cbn [map app]. inversion D as [|? ? Dd Ds]. subst. rewrite (hex_number_char d Dd).
      assert (P : parse_hex 0 false (map hex_char (d :: ds) ++ rest) = (0 * 16 ^ Z.of_nat (length (d :: ds)) + number 16 (map snd (d :: ds)), false, rest)).
      { apply parse_hex_ok; [exact D|lia| |].
        - rewrite Z.mul_0_l, Z.add_0_l. rewrite <- maximal_unit in M. destruct k; cbn [maximal] in M; lia.
        - destruct rest as [|x rest]; [exact I|]. apply hex_number_none. intros d' D' Q. apply (F d' D'). cbn. rewrite Q. reflexivity. }
      cbn [map app] in P. rewrite P. rewrite Z.mul_0_l, Z.add_0_l. cbn [map] in *. rewrite maximal_unit, (proj2 (Z.ltb_ge _ _) M). cbn [orb]. rewrite wrapu_id; [reflexivity|]. rewrite <- maximal_unit in M. destruct k; cbn [maximal] in M; lia.
    + apply unit_fits; [reflexivity|lia|rewrite maximal_unit; lia].
  - (* a universal character name *) destruct V as (D & L & S). cbn [app] in *. set (size := (if long then 8 else 4)%nat) in *. set (c := number 16 (map snd ds)) in *.
    assert (U : ((if long then 85 else 117) =? 117) || ((if long then 85 else 117) =? 85) = true) by (destruct long; reflexivity).
    assert (ES : escape (maximal k) ((if long then 85 else 117) :: map hex_char ds ++ rest) = Done (c, rest, false)).
    { cbn [escape]. rewrite U. replace (simple_escape (if long then 85 else 117)) with (@None Z) by (destruct long; reflexivity). replace (is_octal (if long then 85 else 117)) with false by (destruct long; reflexivity).
      replace ((if long then 85 else 117) =? 120) with false by (destruct long; reflexivity). replace (if (if long then 85 else 117) =? 117 then 4%nat else 8%nat) with size by (unfold size; destruct long; reflexivity).
      assert (ML : length (map hex_char ds) = size) by (rewrite map_length; exact L).
      rewrite (proj2 (Nat.ltb_ge _ _)) by (rewrite app_length, ML; lia).
      rewrite firstn_app, <- ML, firstn_all, Nat.sub_diag, firstn_O. rewrite skipn_app, skipn_all, Nat.sub_diag. cbn [skipn app].
      rewrite parse_hex_ok; [|exact D|lia| |exact I].
      - fold c. rewrite Z.mul_0_l, Z.add_0_l. rewrite wrapu_id; [reflexivity|]. destruct S as [S _]. lia.
      - fold c. rewrite Z.mul_0_l, Z.add_0_l. destruct S as [S _]. lia. }
    apply (conv_escape buf err _ _ c rest (encode k c) R); [apply newline_none; destruct long; lia|exact ES|].
    unfold escaped_units. rewrite lower_u by (destruct long; lia). rewrite U. unfold encode. destruct k.
    + rewrite encode8_ok by (destruct S; lia). reflexivity.
    + apply encode16_ok; [exact S|]. intros. apply E; auto.
    + reflexivity.
  - (* the end of a line *) rewrite app_nil_r. cbn [app] in *.
    assert (NL : eat_newline (newline_bytes n ++ rest) = Some rest).
    { destruct n; cbn [newline_bytes app]; try reflexivity. destruct rest as [|x rest]; [reflexivity|]. cbn [hd_error] in F. assert (x <> 10) by congruence. unfold eat_newline. destruct x as [|x|x]; try reflexivity. repeat (destruct x as [x|x|]; try reflexivity; try congruence). }
    split; [apply conv_newline; assumption|]. destruct R as [B C]. split; [exact (bytes_suffix _ _ (suffix_newline _ _ NL) (Forall_inv_tail B))|]. cbn [length] in C. rewrite app_length in C. lia.
Qed.

Lemma elements_ok : forall es buf err, Forall (valid k) es -> Forall (encodable k) es -> separated es -> room buf (flat_map source es) ->
  conv buf err (flat_map source es) = Done (buf ++ flat_map (meaning k) es, err).
Proof.
  induction es as [|e es IH]; intros buf err V E S R; cbn [flat_map] in *; [rewrite app_nil_r; reflexivity|]. inversion V. inversion E. subst. destruct S as [F S].
  destruct (element_ok e (flat_map source es) buf err) as [A R']; try assumption. rewrite A, IH by assumption. rewrite app_assoc. reflexivity.
Qed.
End Literal.

(** ** Whole literals *)
Lemma utf8_bytes : forall c, scalar c -> bytes (utf8 c).
Proof.
  intros c [R _]. unfold bytes, utf8. destruct (Z.ltb_spec c 128); [repeat constructor; lia|]. 
  destruct (Z.ltb_spec c 2048); [repeat constructor; try (Z.div_mod_to_equations; lia)|]. destruct (Z.ltb_spec c 65536); repeat constructor; Z.div_mod_to_equations; lia.
Qed.
Lemma hex_char_byte : forall d, hex_digit d -> 0 <= hex_char d < 256.
Proof. intros [b d] H. unfold hex_digit in H. cbn [snd] in H. unfold hex_char. cbn [fst snd]. destruct (d <? 10), b; lia. Qed.
Lemma hex_chars_bytes : forall ds, Forall hex_digit ds -> bytes (map hex_char ds).
Proof. intros ds H. induction H; cbn [map]; constructor; [apply hex_char_byte; assumption|assumption]. Qed.
Lemma octal_bytes : forall ds, Forall (fun d => 0 <= d < 8) ds -> bytes (map (fun d => 48 + d) ds).
Proof. intros ds H. induction H; cbn [map]; constructor; [lia|assumption]. Qed.
Lemma source_bytes : forall k e, valid k e -> bytes (source e).
Proof.
  intros k e V. destruct e as [c|l|ds|ds|long ds|n]; cbn [valid source] in *.
  - apply utf8_bytes. apply V.
  - destruct (simple_value l) as [v|] eqn:SV; [|congruence]. destruct (simple_value_ok l v SV) as (_ & _ & _ & _ & S). repeat constructor; lia.
  - constructor; [lia|]. apply octal_bytes. apply V.
  - constructor; [lia|]. constructor; [lia|]. apply hex_chars_bytes. apply V.
  - constructor; [lia|]. constructor; [destruct long; lia|]. apply hex_chars_bytes. apply V.
  - destruct n; repeat constructor; lia.
Qed.
Lemma sources_bytes : forall k es, Forall (valid k) es -> bytes (flat_map source es).
Proof. intros k es H. induction H; cbn [flat_map]; [constructor|]. apply Forall_app. split; [apply (source_bytes k); assumption|assumption]. Qed.

Lemma literals_ok : forall k cap ess more buf err, Forall (Forall (valid k)) ess -> Forall (Forall (encodable k)) ess -> Forall separated ess -> (length buf + length (concat (map (flat_map source) ess)) <= cap)%nat ->
  convert_all k cap buf err (map (flat_map source) ess ++ more) = convert_all k cap (buf ++ flat_map (flat_map (meaning k)) ess) err more
  /\ (length (flat_map (flat_map (meaning k)) ess) <= length (concat (map (flat_map source) ess)))%nat.
Proof.
  induction ess as [|es ess IH]; intros more buf err V E S C; cbn [map app flat_map concat] in *; [rewrite app_nil_r; split; [reflexivity|lia]|].
  inversion V. inversion E. inversion S. subst. rewrite app_length in C. cbn [convert_all].
  assert (R : room cap buf (flat_map source es)) by (split; [apply (sources_bytes k); assumption|lia]).
  pose proof (elements_ok k cap es buf err) as A. specialize (A ltac:(assumption) ltac:(assumption) ltac:(assumption) R). unfold conv in A. rewrite A. cbn [obind].
  assert (L : (length (flat_map (meaning k) es) <= length (flat_map source es))%nat).
  { destruct R as [B _]. destruct (convert_one_same (Datatypes.S (length (flat_map source es))) (Datatypes.S (length (flat_map source es))) k cap cap (flat_map source es) buf err B) as [_ Q]; try lia. specialize (Q _ _ A). rewrite app_length in Q. lia. }
  destruct (IH more (buf ++ flat_map (meaning k) es) err) as [A2 L2]; try assumption; [rewrite app_length; lia|]. rewrite A2, <- app_assoc. split; [reflexivity|]. rewrite !app_length. lia.
Qed.

Lemma convert_ok : forall k ess, Forall (Forall (valid k)) ess -> Forall (Forall (encodable k)) ess -> Forall separated ess ->
  convert k (map (flat_map source) ess) = Done (flat_map (flat_map (meaning k)) ess).
Proof.
  intros k ess V E S. unfold convert, convert_with. destruct (literals_ok k (length (concat (map (flat_map source) ess))) ess [] [] false V E S) as [A _]; [cbn; lia|].
  rewrite app_nil_r in A. rewrite A. reflexivity.
Qed.

(** ** Escapes out of range *)
Lemma parse_hex_exact : forall ds v o rest, Forall hex_digit ds -> 0 <= v < 2 ^ 64 -> (match rest with [] => True | c :: _ => hex_number c = None end) ->
  exists w o', parse_hex v o (map hex_char ds ++ rest) = (w, o', rest) /\ (o' = false -> o = false /\ w = v * 16 ^ Z.of_nat (length ds) + number 16 (map snd ds)).
Proof.
  induction ds as [|d ds IH]; intros v o rest F V R.
  - exists v, o. split; [|intros ->; cbn; split; [reflexivity|lia]]. cbn [map app]. destruct rest as [|c rest]; [reflexivity|]. cbn [parse_hex]. rewrite R. reflexivity.
  - inversion F as [|? ? D F']. subst. cbn [map app parse_hex]. rewrite (hex_number_char d D).
    set (v' := wrapu 64 (wrapu 64 (v * 16) + snd d)).
    destruct (IH v' ((o || (2 ^ 60 <=? v)) || (v' <? wrapu 64 (v * 16))) rest F') as (w & o' & P & Q); [apply wrapu_range; lia|exact R|].
    exists w, o'. split; [exact P|]. intro O. destruct (Q O) as [Q1 Q2]. apply orb_false_iff in Q1. destruct Q1 as [Q1 Q3]. apply orb_false_iff in Q1. destruct Q1 as [Q1 Q4].
    split; [exact Q1|]. apply Z.leb_gt in Q4. unfold hex_digit in D. assert (v' = v * 16 + snd d) by (unfold v'; rewrite !wrapu_id by (rewrite ?wrapu_id; lia); reflexivity).
    rewrite Q2, H, number_cons, map_length. cbn [length]. rewrite Nat2Z.inj_succ, Z.pow_succ_r by lia. ring.
Qed.
Lemma error_stays : forall fuel k cap s buf buf', convert_one fuel k cap buf true s <> Done (buf', false).
Proof.
  induction fuel as [|fuel IH]; intros k cap s buf buf' H; [discriminate|]. destruct s as [|c s]; [discriminate|]. rewrite convert_step in H.
  destruct (c =? 92).
  - destruct (eat_newline s); [exact (IH _ _ _ _ _ H)|]. destruct s as [|d s]; [discriminate|]. destruct (escape _ _) as [[[v r] e]| |]; try discriminate. cbn [obind] in H. destruct (escaped_units _ _ _) as [[us e']| |]; try discriminate. cbn [obind] in H.
    destruct (put _ _ _); try discriminate. cbn [obind orb] in H. exact (IH _ _ _ _ _ H).
  - destruct (plain_units _ _ _) as [[[us r] e]| |]; try discriminate. cbn [obind] in H. destruct (put _ _ _); try discriminate. cbn [obind orb] in H. exact (IH _ _ _ _ _ H).
Qed.
Lemma error_stays_all : forall k cap strings buf buf', convert_all k cap buf true strings <> Done (buf', false).
Proof.
  induction strings as [|s strings IH]; intros buf buf' H; cbn [convert_all] in H; [discriminate|]. destruct (convert_one _ _ _ _ _ _) as [[b e]| |] eqn:C; try discriminate. cbn [obind] in H.
  destruct e; [exact (IH _ _ H)|exact (error_stays _ _ _ _ _ _ C)].
Qed.

Lemma too_large_bytes : forall k e, too_large k e -> bytes (source e).
Proof.
  intros k e V. destruct e as [c|l|ds|ds|long ds|n]; cbn [too_large source] in *; try contradiction.
  - constructor; [lia|]. apply octal_bytes. apply V.
  - constructor; [lia|]. constructor; [lia|]. apply hex_chars_bytes. apply V.
Qed.
Lemma too_large_reported : forall k cap e rest buf err buf', too_large k e -> follows e rest -> conv k cap buf err (source e ++ rest) <> Done (buf', false).
Proof.
  intros k cap e rest buf err buf' T F H. destruct e as [c|l|ds|ds|long ds|n]; cbn [too_large follows source] in *; try contradiction.
  - destruct T as (D & [L1 L3] & M). destruct ds as [|d ds]; [cbn in L1; lia|]. inversion D as [|? ? Dd Ds]. subst. cbn [map app] in *. unfold conv in H. rewrite convert_step in H. change (92 =? 92) with true in H. cbv iota in H.
    rewrite newline_none in H by lia. assert (DC : d = 0 \/ d = 1 \/ d = 2 \/ d = 3 \/ d = 4 \/ d = 5 \/ d = 6 \/ d = 7) by lia.
    assert (ES : escape (maximal k) ((48 + d) :: map (fun d => 48 + d) ds ++ rest) = Done (number 8 (d :: ds), rest, true)).
    { cbn [escape]. replace (simple_escape (48 + d)) with (@None Z) by (repeat (destruct DC as [->|DC]; [reflexivity|]); subst d; reflexivity).
      replace (is_octal (48 + d)) with true by (unfold is_octal; symmetry; apply andb_true_iff; split; apply Z.leb_le; lia).
      rewrite (octal_ok ds 2); [|exact Ds|cbn in L3; lia|].
      - replace (48 + d - 48) with d by lia. rewrite <- number_cons. rewrite maximal_unit. rewrite (proj2 (Z.ltb_lt _ _) M). reflexivity.
      - intro Q. destruct rest as [|x rest]; [exact I|]. unfold is_octal. destruct (Z.leb_spec 48 x), (Z.leb_spec x 55); try reflexivity. exfalso. apply (fun q => F q (x - 48)); [cbn [length]; lia|lia|]. cbn [hd_error]. f_equal. lia. }
    rewrite ES in H. cbn [obind] in H. destruct (escaped_units _ _ _) as [[us e']| |]; try discriminate. cbn [obind] in H. destruct (put _ _ _); try discriminate. cbn [obind] in H. rewrite orb_true_r in H. exact (error_stays _ _ _ _ _ _ H).
  - destruct T as (D & NE & M). cbn [app] in *. unfold conv in H. rewrite convert_step in H. change (92 =? 92) with true in H. cbv iota in H. rewrite newline_none in H by lia.
    assert (ES : exists v, escape (maximal k) (120 :: map hex_char ds ++ rest) = Done (v, rest, true)).
    { destruct ds as [|d ds]; [congruence|]. cbn [escape]. change (simple_escape 120) with (@None Z). change (is_octal 120) with false. change (120 =? 120) with true. cbv iota.
      destruct (parse_hex_exact (d :: ds) 0 false rest D) as (w & o' & P & Q); [lia| |].
      { destruct rest as [|x rest]; [exact I|]. apply hex_number_none. intros d' D' E. apply (F d' D'). cbn. rewrite E. reflexivity. }
      cbn [map app] in P |- *. inversion D as [|? ? Dd Ds]. subst. rewrite (hex_number_char d Dd), P. exists (wrapu 32 w). destruct o'; [reflexivity|]. destruct (Q eq_refl) as [_ ->]. rewrite Z.mul_0_l, Z.add_0_l, maximal_unit. cbn [orb map] in *. rewrite (proj2 (Z.ltb_lt _ _) M). reflexivity. }
    destruct ES as [v ES]. rewrite ES in H. cbn [obind] in H. destruct (escaped_units _ _ _) as [[us e']| |]; try discriminate. cbn [obind] in H. destruct (put _ _ _); try discriminate. cbn [obind] in H. rewrite orb_true_r in H. exact (error_stays _ _ _ _ _ _ H).
Qed.

Lemma leading_following : forall c, 192 <= c < 248 -> leading 7 c = following c.
Proof. intros c H. inspect (fun c => Nat.eqb (leading 7 c) (following c)) 192 56%nat c. apply Nat.eqb_eq in INSPECTED. exact INSPECTED. Qed.
Lemma continuation_byte : forall c, 0 <= c < 256 -> Z.land c 192 =? 128 = true -> 128 <= c < 192.
Proof. intros c H L. inspect (fun c => implb (Z.land c 192 =? 128) ((128 <=? c) && (c <? 192))) 0 256%nat c. rewrite L in INSPECTED. cbn [implb] in INSPECTED. apply andb_true_iff in INSPECTED. rewrite Z.leb_le, Z.ltb_lt in INSPECTED. exact INSPECTED. Qed.
Lemma continuation_all : forall n shift v s w, bytes s -> continuation n shift v s = Some w -> exists cs r, s = cs ++ r /\ length cs = n /\ Forall (fun c => 128 <= c < 192) cs.
Proof.
  induction n as [|n IH]; intros shift v s w B H; [exists [], s; repeat split; constructor|]. cbn [continuation] in H. destruct s as [|c s]; [discriminate|]. inversion B as [|? ? Bc Bs]. subst. destruct (Z.land c 192 =? 128) eqn:L; [|discriminate].
  destruct (IH _ _ _ _ Bs H) as (cs & r & -> & E & F). exists (c :: cs), r. repeat split; [cbn; rewrite E; reflexivity|]. constructor; [exact (continuation_byte c Bc L)|exact F].
Qed.
Lemma truncated_reported : forall k cap t buf err buf', k <> Utf8 -> truncated t -> bytes t -> conv k cap buf err t <> Done (buf', false).
Proof.
  intros k cap t buf err buf' K (lead & r & -> & L & T) B H. inversion B as [|? ? _ Br]. subst. unfold conv in H. rewrite convert_step in H. rewrite (proj2 (Z.eqb_neq lead 92)) in H by lia.
  assert (R : forall v r' e, read_codepoint lead r = Done (v, r', e) -> e = true).
  { intros v r' e R. unfold read_codepoint in R. rewrite leading_following in R by exact L. assert (Z.land lead 128 =? 128 = true) as LL by (inspect (fun c => Z.land c 128 =? 128) 192 56%nat lead; exact INSPECTED). rewrite LL in R. cbn [negb] in R.
    destruct (_ <? _)%nat; [injection R as <- <- <-; reflexivity|]. destruct (_ <=? _)%nat; [discriminate|]. destruct (continuation _ _ _ _) as [w|] eqn:C; [|injection R as <- <- <-; reflexivity].
    destruct (continuation_all _ _ _ _ _ Br C) as (cs & r2 & E & LE & F). exfalso. exact (T cs r2 E LE F). }
  unfold plain_units in H. destruct k; [congruence| |]; destruct (read_codepoint lead r) as [[[v r'] e]| |]; try discriminate; cbn [obind] in H; rewrite (R _ _ _ eq_refl) in H.
  - destruct (encode16 v) as [[us e2]| |]; try discriminate. cbn [obind] in H. destruct (put _ _ _); try discriminate. cbn [obind orb] in H. rewrite orb_true_r in H. exact (error_stays _ _ _ _ _ _ H).
  - destruct (put _ _ _); try discriminate. cbn [obind] in H. rewrite orb_true_r in H. exact (error_stays _ _ _ _ _ _ H).
Qed.

Fixpoint sep_tail (es : list element) (t : list Z) : Prop := match es with [] => True | e :: es => follows e (flat_map source es ++ t) /\ sep_tail es t end.
Lemma follows_head : forall e r1 r2, hd_error r1 = hd_error r2 -> follows e r1 -> follows e r2.
Proof. intros e r1 r2 H F. destruct e as [| | | | |[]]; cbn [follows] in *; rewrite <- ?H; exact F. Qed.
Lemma separated_tail : forall k es e rest, too_large k e -> separated (es ++ [e]) -> sep_tail es (source e ++ rest).
Proof.
  induction es as [|x es IH]; intros e rest T S; [exact I|]. cbn [app separated] in S. destruct S as [F S]. split; [|apply (IH e rest T S)].
  apply (follows_head x _ _) with (2 := F). rewrite flat_map_app. cbn [flat_map]. rewrite app_nil_r. destruct (flat_map source es); [|reflexivity]. destruct e; cbn [too_large] in T; try contradiction; reflexivity.
Qed.
Lemma elements_before : forall k cap es t buf err, Forall (valid k) es -> Forall (encodable k) es -> sep_tail es t -> room cap buf (flat_map source es ++ t) ->
  conv k cap buf err (flat_map source es ++ t) = conv k cap (buf ++ flat_map (meaning k) es) err t.
Proof.
  induction es as [|e es IH]; intros t buf err V E S R; cbn [flat_map app] in *; [rewrite app_nil_r; reflexivity|]. inversion V. inversion E. subst. destruct S as [F S]. rewrite <- app_assoc in *.
  destruct (element_ok k cap e (flat_map source es ++ t) buf err) as [A R']; try assumption. rewrite A, IH by assumption. rewrite app_assoc. reflexivity.
Qed.
Lemma reported_tail : forall k ess es t more us, Forall (Forall (valid k)) ess -> Forall (Forall (encodable k)) ess -> Forall separated ess ->
  Forall (valid k) es -> Forall (encodable k) es -> sep_tail es t -> bytes t -> (forall cap buf err buf', conv k cap buf err t <> Done (buf', false)) ->
  convert k (map (flat_map source) ess ++ (flat_map source es ++ t) :: more) <> Done us.
Proof.
  intros k ess es t more us V E S V1 E1 S1 B T H. unfold convert, convert_with in H. set (cap := length (concat _)) in H.
  assert (C : (length (concat (map (flat_map source) ess)) + length (flat_map source es ++ t) <= cap)%nat) by (unfold cap; rewrite concat_app; cbn [concat]; rewrite !app_length; lia).
  destruct (literals_ok k cap ess ((flat_map source es ++ t) :: more) [] false V E S) as [A L]; [cbn [length]; lia|]. rewrite A in H. cbn [app convert_all] in H.
  set (buf := flat_map (flat_map (meaning k)) ess) in *.
  assert (A2 := elements_before k cap es t buf false V1 E1 S1). unfold conv at 1 in A2. rewrite A2 in H.
  - destruct (conv k cap (buf ++ flat_map (meaning k) es) false t) as [[b er]| |] eqn:Q; try discriminate. cbn [obind] in H.
    destruct er; [|exact (T _ _ _ _ Q)]. destruct (convert_all k cap b true more) as [[b' er']| |] eqn:Q2; try discriminate. cbn [obind] in H. destruct er'; [discriminate|]. exact (error_stays_all _ _ _ _ _ Q2).
  - split; [|lia]. apply Forall_app. split; [apply (sources_bytes k); assumption|exact B].
Qed.
Lemma reported_ok : forall k ess es e rest more us, Forall (Forall (valid k)) ess -> Forall (Forall (encodable k)) ess -> Forall separated ess ->
  Forall (valid k) es -> Forall (encodable k) es -> separated (es ++ [e]) -> too_large k e -> follows e rest -> bytes rest ->
  convert k (map (flat_map source) ess ++ (flat_map source es ++ source e ++ rest) :: more) <> Done us.
Proof.
  intros k ess es e rest more us V E S V1 E1 S1 T F B. apply reported_tail; try assumption.
  - exact (separated_tail k es e rest T S1).
  - apply Forall_app. split; [apply (too_large_bytes k); assumption|exact B].
  - intros. apply too_large_reported; assumption.
Qed.
Lemma truncated_follows : forall e t, truncated t -> follows e t.
Proof.
  intros e t (lead & r & -> & L & _). destruct e as [| |ds|ds| |[]]; cbn [follows hd_error]; try exact I.
  - intros _ d D Q. assert (lead = 48 + d) by congruence. lia.
  - intros d D Q. assert (QQ : lead = hex_char d) by congruence. clear Q. pose proof (hex_char_byte d D) as HB. unfold hex_char, hex_digit in *. destruct d as [b d]. cbn [fst snd] in *. destruct (d <? 10), b; lia.
  - intro Q. assert (lead = 10) by congruence. lia.
Qed.
Lemma truncated_ok : forall k ess es t more us, k <> Utf8 -> Forall (Forall (valid k)) ess -> Forall (Forall (encodable k)) ess -> Forall separated ess ->
  Forall (valid k) es -> Forall (encodable k) es -> separated es -> truncated t -> bytes t ->
  convert k (map (flat_map source) ess ++ (flat_map source es ++ t) :: more) <> Done us.
Proof.
  intros k ess es t more us K V E S V1 E1 S1 T B. apply reported_tail; try assumption; [|intros; apply truncated_reported; assumption].
  clear V1 E1. induction es as [|e es IH]; [exact I|]. destruct S1 as [F S1]. split; [|apply IH; exact S1]. destruct es as [|e2 es]; [apply truncated_follows; exact T|].
  apply (follows_head e _ _) with (2 := F). cbn [flat_map app]. assert (NE : source e2 <> []). { destruct e2 as [c| | | | |]; cbn [source]; try discriminate. unfold utf8. destruct (c <? 128), (c <? 2048), (c <? 65536); discriminate. }
  destruct (source e2); [congruence|]. reflexivity.
Qed.
