From Verif Require Import Base IntProofs LitProofs UtilModel UtilSpec UtilProofs Md5Model Md5Spec.

Definition word (x : Z) : Prop := 0 <= x < 2 ^ 32.
Definition byte (x : Z) : Prop := 0 <= x < 256.

Lemma wn : forall x, word x -> 2 ^ 32 - 1 - x = wrapu 32 (Z.lnot x).
Proof.
  unfold word, wrapu, Z.lnot. intros. replace (Z.pred (- x)) with (2 ^ 32 - 1 - x + (-1) * 2 ^ 32) by lia.
  rewrite Z.mod_add by lia. rewrite Z.mod_small; lia.
Qed.

Lemma wrapu_bit : forall n x i, 0 <= n -> 0 <= i -> Z.testbit (wrapu n x) i = (i <? n) && Z.testbit x i.
Proof.
  intros. unfold wrapu. destruct (Z.ltb_spec i n).
  - rewrite Z.mod_pow2_bits_low by lia. reflexivity.
  - rewrite Z.mod_pow2_bits_high by lia. reflexivity.
Qed.

Lemma word_high : forall x i, word x -> 32 <= i -> Z.testbit x i = false.
Proof. intros x i W L. unfold word in W. rewrite testbit_range_u in W by lia. apply W; lia. Qed.

Lemma F_ok : forall b c d, word b -> word c -> word d -> Z.lxor d (Z.land b (Z.lxor c d)) = F b c d.
Proof.
  intros. unfold F. rewrite wn by auto. apply Z.bits_inj'. intros i Hi.
  rewrite ?Z.lxor_spec, ?Z.lor_spec, ?Z.land_spec, ?Z.lxor_spec, wrapu_bit, Z.lnot_spec by lia.
  destruct (Z.ltb_spec i 32).
  - destruct (Z.testbit b i), (Z.testbit c i), (Z.testbit d i); reflexivity.
  - rewrite (word_high d), (word_high b) by (auto; lia). reflexivity.
Qed.
Lemma G_ok : forall b c d, word b -> word c -> word d -> Z.lxor c (Z.land d (Z.lxor b c)) = G b c d.
Proof.
  intros. unfold G. rewrite wn by auto. apply Z.bits_inj'. intros i Hi.
  rewrite ?Z.lxor_spec, ?Z.lor_spec, ?Z.land_spec, ?Z.lxor_spec, wrapu_bit, Z.lnot_spec by lia.
  destruct (Z.ltb_spec i 32).
  - destruct (Z.testbit b i), (Z.testbit c i), (Z.testbit d i); reflexivity.
  - rewrite (word_high d), (word_high b), (word_high c) by (auto; lia). reflexivity.
Qed.
Lemma I_ok : forall b c d, word d -> Z.lxor c (Z.lor b (wrapu 32 (Z.lnot d))) = I b c d.
Proof. intros. unfold I. rewrite wn by auto. reflexivity. Qed.

Lemma rot_ok : forall x s, word x -> 0 < s < 32 ->
  Z.lor (wrapu 32 (Z.shiftl x s)) (Z.shiftr x (32 - s)) = rotl x s.
Proof.
  unfold word. intros. unfold rotl, wrapu. rewrite Z.shiftl_mul_pow2, Z.shiftr_div_pow2 by lia.
  apply (lor_low _ _ s); try lia.
  - pose proof (pow2_pos s ltac:(lia)). pose proof (pow2_pos (32 - s) ltac:(lia)).
    assert (2 ^ s * 2 ^ (32 - s) = 2 ^ 32) by (rewrite <- Z.pow_add_r by lia; f_equal; lia).
    split; [apply Z.div_pos; lia|apply Z.div_lt_upper_bound; lia].
  - replace (2 ^ 32) with (2 ^ (32 - s) * 2 ^ s) by (rewrite <- Z.pow_add_r by lia; f_equal; lia).
    rewrite Z.mul_mod_distr_r by (apply Z.pow_nonzero; lia).
    apply Z.mod_mul. apply Z.pow_nonzero; lia.
Qed.

Lemma add_word : forall a b, word (word_add a b).
Proof. intros. apply Z.mod_pos_bound. lia. Qed.

Lemma nth_skipn : forall A n (l : list A) i d, nth i (skipn n l) d = nth (n + i) l d.
Proof.
  induction n; intros; cbn [skipn Nat.add]; auto. destruct l; cbn [nth]; auto. destruct i; reflexivity.
Qed.

Lemma skipn_skipn' : forall A n k (l : list A), skipn n (skipn k l) = skipn (k + n) l.
Proof. induction k; intros; cbn [skipn Nat.add]; auto. destruct l; auto. apply skipn_nil. Qed.

Lemma nth_words : forall n b i, (i < n)%nat -> nth i (words n b) 0 = read_u32 b i.
Proof.
  induction n; intros b i L; [lia|]. cbn [words]. destruct i.
  - cbn [nth]. unfold le_word, read_u32. rewrite !Z.shiftl_mul_pow2 by lia.
    cbn [Nat.mul Nat.add]. lia.
  - cbn [nth]. rewrite IHn by lia. unfold read_u32. rewrite !nth_skipn.
    replace (4 + 4 * i)%nat with (4 * S i)%nat by lia.
    replace (4 + (4 * i + 1))%nat with (4 * S i + 1)%nat by lia.
    replace (4 + (4 * i + 2))%nat with (4 * S i + 2)%nat by lia.
    replace (4 + (4 * i + 3))%nat with (4 * S i + 3)%nat by lia. reflexivity.
Qed.

Lemma read_firstn : forall b i, (i < 16)%nat -> read_u32 (firstn 64 b) i = read_u32 b i.
Proof.
  intros. unfold read_u32.
  assert (N : forall j, (j < 64)%nat -> nth j (firstn 64 b) 0 = nth j b 0).
  { intros j Hj. rewrite <- (firstn_skipn 64 b) at 2.
    destruct (Nat.lt_ge_cases j (length (firstn 64 b))) as [L|L].
    - rewrite app_nth1 by auto. reflexivity.
    - rewrite app_nth2 by auto. rewrite firstn_length in L.
      assert (length b <= j)%nat by lia. rewrite nth_overflow by (rewrite firstn_length; lia).
      rewrite skipn_all2 by lia. destruct (j - length (firstn 64 b))%nat; reflexivity. }
  rewrite !N by lia. reflexivity.
Qed.

Definition wstate (s : state) : Prop := let '(a, b, c, d) := s in word a /\ word b /\ word c /\ word d.

Lemma word_add3 : forall a f x t, wrapu 32 (a + f + t + x) = word_add (word_add (word_add a f) x) t.
Proof.
  intros. unfold wrapu, word_add. rewrite Zplus_mod_idemp_l. rewrite <- (Z.add_assoc _ x t), Zplus_mod_idemp_l.
  replace (a + f + t + x) with (a + f + (x + t)) by lia. reflexivity.
Qed.

Lemma sched : forall i, (i < 64)%nat ->
  nth i sines 0 = nth i T 0 /\
  nth i shifts 0 = nth ((i mod 16) mod 4) (round_shifts (i / 16)) 0 /\
  0 < nth i shifts 0 < 32 /\
  (if (i <? 16)%nat then i else if (i <? 32)%nat then Nat.land (5 * i + 1) 15 else if (i <? 48)%nat then Nat.land (3 * i + 5) 15 else Nat.land (7 * i) 15)
  = nth (i mod 16) (round_words (i / 16)) 0%nat.
Proof.
  intros i L.
  do 64 (destruct i as [|i]; [repeat split; vm_compute; reflexivity|]). lia.
Qed.

Lemma step_ok : forall b st i, wstate st -> (i < 64)%nat ->
  md5_step b st i = operation (words 16 (firstn 64 b)) st i /\ wstate (operation (words 16 (firstn 64 b)) st i).
Proof.
  intros b [[[a x] y] z] i (Wa & Wx & Wy & Wz) L.
  destruct (sched i L) as (S1 & S2 & S3 & S4).
  set (wi := if (i <? 16)%nat then i else if (i <? 32)%nat then Nat.land (5 * i + 1) 15 else if (i <? 48)%nat then Nat.land (3 * i + 5) 15 else Nat.land (7 * i) 15) in *.
  assert (WI : (wi < 16)%nat).
  { unfold wi. destruct (Nat.ltb_spec i 16); auto.
    assert (forall n, (Nat.land n 15 < 16)%nat).
    { intros n. change 15%nat with (Nat.ones 4). rewrite Nat.land_ones. apply Nat.mod_upper_bound. cbn; lia. }
    destruct (i <? 32)%nat; auto. destruct (i <? 48)%nat; auto. }
  assert (M : md5_step b (a, x, y, z) i =
    let f := round_fun (i / 16) x y z in
    let t := wrapu 32 (a + f + nth i sines 0 + read_u32 b wi) in
    (z, wrapu 32 (x + Z.lor (wrapu 32 (Z.shiftl t (nth i shifts 0))) (Z.shiftr t (32 - nth i shifts 0))), x, y)).
  { unfold md5_step, wi.
    destruct (Nat.ltb_spec i 16).
    - replace (i / 16)%nat with 0%nat by (symmetry; apply Nat.div_small; lia). cbv zeta. cbn [round_fun].
      rewrite F_ok by auto. reflexivity.
    - destruct (Nat.ltb_spec i 32).
      + replace (i / 16)%nat with 1%nat by (apply (Nat.div_unique i 16 1 (i - 16)); lia). cbv zeta. cbn [round_fun].
        rewrite G_ok by auto. reflexivity.
      + destruct (Nat.ltb_spec i 48).
        * replace (i / 16)%nat with 2%nat by (apply (Nat.div_unique i 16 2 (i - 32)); lia). reflexivity.
        * replace (i / 16)%nat with 3%nat by (apply (Nat.div_unique i 16 3 (i - 48)); lia). cbv zeta. cbn [round_fun].
          rewrite I_ok by auto. reflexivity. }
  assert (O : operation (words 16 (firstn 64 b)) (a, x, y, z) i =
     (z, word_add x (rotl (wrapu 32 (a + round_fun (i / 16) x y z + nth i sines 0 + read_u32 b wi)) (nth i shifts 0)), x, y)).
  { unfold operation. rewrite <- S4, nth_words, read_firstn by auto. rewrite S1, S2, word_add3. reflexivity. }
  rewrite M, O. cbv zeta. rewrite rot_ok by (auto; apply wrapu_range; lia). split.
  - reflexivity.
  - repeat split; try apply add_word; auto; try apply Wz; try apply Wx; try apply Wy.
Qed.

Lemma steps_ok : forall is b st, wstate st -> (forall i, In i is -> (i < 64)%nat) ->
  fold_left (md5_step b) is st = fold_left (operation (words 16 (firstn 64 b))) is st /\
  wstate (fold_left (operation (words 16 (firstn 64 b))) is st).
Proof.
  induction is as [|i is IH]; intros b st W L; cbn [fold_left]; auto.
  destruct (step_ok b st i W ltac:(apply L; left; auto)) as [-> W'].
  apply IH; auto. intros; apply L; right; auto.
Qed.

Lemma blocks_ok : forall n msg k st, wstate st ->
  md5_blocks n msg k st = blocks n (skipn k msg) st.
Proof.
  induction n; intros msg k st W; cbn [md5_blocks blocks]; auto.
  destruct st as [[[a x] y] z]. destruct W as (Wa & Wx & Wy & Wz).
  destruct (steps_ok (seq 0 64) (skipn k msg) (a, x, y, z)) as [-> W'].
  - repeat split; auto; try apply Wa; try apply Wx; try apply Wy; try apply Wz.
  - intros i Hi. apply in_seq in Hi. lia.
  - unfold compress.
    destruct (fold_left (operation (words 16 (firstn 64 (skipn k msg)))) (seq 0 64) (a, x, y, z)) as [[[a' x'] y'] z'].
    rewrite IHn.
    + rewrite <- skipn_skipn'. reflexivity.
    + repeat split; apply wrapu_range; lia.
Qed.

Lemma bytes64_ok : forall x, 0 <= x < 2 ^ 64 -> bytes_of_u64 x = le_bytes 8 x.
Proof.
  intros. unfold bytes_of_u64. rewrite wrapu_id by lia. change 255 with (Z.ones 8).
  cbn [map seq le_bytes].
  rewrite !Z.land_ones, !Z.shiftr_div_pow2 by lia.
  rewrite !Z.div_div by lia. change (2 ^ (8 * Z.of_nat 0)) with 1. rewrite Z.div_1_r. reflexivity.
Qed.

Lemma firstn4 : forall x, word x -> firstn 4 (bytes_of_u64 x) = le_bytes 4 x.
Proof. unfold word. intros. rewrite bytes64_ok by lia. reflexivity. Qed.

Lemma blocks_w : forall n m st, wstate st -> wstate (blocks n m st).
Proof.
  induction n; intros m st W; cbn [blocks]; auto. apply IHn. unfold compress.
  destruct st as [[[a x] y] z].
  destruct (fold_left (operation (words 16 (firstn 64 m))) (seq 0 64) (a, x, y, z)) as [[[a' x'] y'] z'].
  repeat split; apply add_word.
Qed.

Lemma pad_len_align : forall n, 0 <= n < 2 ^ 60 ->
  exists len, align_up (n + 1 + 8) 64 = Done len /\ len = n + 1 + (55 - n) mod 64 + 8 /\ len mod 64 = 0.
Proof.
  intros n N.
  destruct (align_up_ok (n + 1 + 8) 64) as [r [E [[L1 L2] M]]]; try lia.
  - exists 6. split; [lia|reflexivity].
  - exists r. split; auto. pose proof (Z.mod_pos_bound (55 - n) 64 ltac:(lia)) as B.
    pose proof (Z.div_mod (55 - n) 64 ltac:(lia)) as D.
    destruct L2 as [q ->].
    specialize (M (n + 1 + (55 - n) mod 64 + 8)).
    assert (K : (64 | n + 1 + (55 - n) mod 64 + 8)) by (exists (1 - (55 - n) / 64); lia).
    assert (K2 : n + 1 + 8 <= n + 1 + (55 - n) mod 64 + 8) by lia. specialize (M (conj K2 K)). destruct K as [k K]. rewrite K in M |- *.
    split; [lia|]. apply Z.mod_mul. lia.
Qed.

Lemma firstn_app_len : forall A (a b : list A), firstn (length a) (a ++ b) = a.
Proof. intros. rewrite firstn_app, Nat.sub_diag, firstn_all, firstn_O, app_nil_r. reflexivity. Qed.
Lemma skipn_app_len : forall A (a b : list A) k, skipn (length a + k) (a ++ b) = skipn k b.
Proof. intros. rewrite skipn_app, skipn_all2 by lia. rewrite app_nil_l. f_equal. lia. Qed.

Lemma write_at_app : forall pre old new rest, length old = length new ->
  write_at (pre ++ old ++ rest) (length pre) new = pre ++ new ++ rest.
Proof.
  intros. unfold write_at. rewrite firstn_app_len, skipn_app_len. f_equal. f_equal.
  rewrite <- H. rewrite <- (Nat.add_0_r (length old)). rewrite skipn_app_len. reflexivity.
Qed.

Lemma blocks_prefix : forall n a b st, length a = (64 * n)%nat -> blocks n (a ++ b) st = blocks n a st.
Proof.
  induction n; intros a b st L; cbn [blocks]; auto.
  rewrite skipn_app, firstn_app.
  replace (64 - length a)%nat with 0%nat by lia. rewrite firstn_O, app_nil_r. rewrite skipn_O.
  apply IHn. rewrite skipn_length. lia.
Qed.

Lemma md5_ok : forall m slack max, Z.of_nat (length m) < 2 ^ 60 ->
  Z.of_nat (length m) + 72 <= max -> max <= Z.of_nat (length m + length slack) ->
  exists buffer, hash_md5_inplace (m ++ slack) (Z.of_nat (length m)) max = Done (md5 m, buffer)
    /\ firstn (length m) buffer = m /\ length buffer = length (m ++ slack).
Proof.
  intros m slack max N M1 M2. set (n := Z.of_nat (length m)) in *.
  destruct (pad_len_align n ltac:(unfold n; lia)) as [len (E & L & D)].
  unfold hash_md5_inplace. rewrite E. cbn [obind].
  pose proof (Z.mod_pos_bound (55 - n) 64 ltac:(lia)) as B.
  replace (len <=? max) with true by lia. cbn [negb].
  assert (BL : (Z.of_nat (length (m ++ slack)) <? len) = false) by (rewrite app_length; apply Z.ltb_ge; lia). rewrite BL.
  set (zeros := Z.to_nat ((55 - n) mod 64)).
  replace (Z.to_nat n) with (length m) by (unfold n; lia).
  set (tot := Z.to_nat (len - n)).
  assert (TOT : tot = (1 + (zeros + 8))%nat) by (unfold tot, zeros; lia).
  assert (SL : (tot <= length slack)%nat) by (unfold tot, n in *; lia).
  rewrite <- (firstn_skipn tot slack).
  rewrite (write_at_app m (firstn tot slack) (repeat 0 tot)) by (rewrite firstn_length, repeat_length; lia).
  rewrite TOT. rewrite repeat_app. cbn [repeat app Nat.add].
  replace (m ++ 0 :: repeat 0 (zeros + 8) ++ skipn (S (zeros + 8)) slack)
    with (m ++ [0] ++ (repeat 0 (zeros + 8) ++ skipn (S (zeros + 8)) slack)) by reflexivity.
  rewrite (write_at_app m [0] [128]) by reflexivity.
  rewrite repeat_app.
  replace (m ++ [128] ++ (repeat 0 zeros ++ repeat 0 8) ++ skipn (S (zeros + 8)) slack)
    with ((m ++ [128] ++ repeat 0 zeros) ++ repeat 0 8 ++ skipn (S (zeros + 8)) slack)
    by (rewrite <- !app_assoc; reflexivity).
  replace (Z.to_nat (len - 8)) with (length (m ++ [128] ++ repeat 0 zeros)).
  2:{ rewrite !app_length, repeat_length. cbn [length]. unfold zeros, n in *. lia. }
  rewrite write_at_app by reflexivity.
  rewrite wraps_id by lia. rewrite bytes64_ok by lia.
  assert (P : (m ++ [128] ++ repeat 0 zeros) ++ le_bytes 8 (8 * n) ++ skipn (S (zeros + 8)) slack = pad m ++ skipn (S (zeros + 8)) slack).
  { unfold pad. fold n. fold zeros. rewrite <- !app_assoc. reflexivity. }
  rewrite P.
  assert (PL : Z.of_nat (length (pad m)) = len).
  { unfold pad. fold n. rewrite !app_length, repeat_length. cbn [length le_bytes]. fold n. unfold n in *. lia. }
  assert (W0 : wstate (1732584193, 4023233417, 2562383102, 271733878)) by (repeat split; vm_compute; congruence).
  assert (PN : Z.to_nat (len / 64) = (length (pad m) / 64)%nat).
  { rewrite <- PL. rewrite <- (Nat2Z.id (length (pad m) / 64)). f_equal. rewrite Nat2Z.inj_div. reflexivity. }
  rewrite PN. rewrite blocks_ok by auto. cbn [skipn].
  rewrite blocks_prefix.
  2:{ apply Nat.div_exact; [lia|]. apply Nat2Z.inj. rewrite Nat2Z.inj_mod. rewrite PL. exact D. }
  unfold md5.
  pose proof (blocks_w (length (pad m) / 64) (pad m) _ W0) as W.
  destruct (blocks (length (pad m) / 64) (pad m) (1732584193, 4023233417, 2562383102, 271733878)) as [[[a b] c] d].
  destruct W as (Wa & Wb & Wc & Wd).
  eexists. split; [|split].
  - cbn [flat_map]. rewrite !firstn4 by auto. rewrite app_nil_r. reflexivity.
  - unfold pad. rewrite <- app_assoc. apply firstn_app_len.
  - match goal with |- length (pad m ++ ?r) = _ => change r with (skipn (S (zeros + 8)) slack) end.
    match goal with |- _ = length (m ++ ?r) => replace r with slack end.
    + rewrite !app_length, skipn_length. rewrite TOT in SL. unfold zeros in *. lia.
    + symmetry. apply (firstn_skipn (S (zeros + 8)) slack).
Qed.
