From Coq Require Import Permutation.
From Verif Require Import Base IntProofs LitProofs UtilModel UtilSpec.

(** ** Powers of two *)
Lemma pow2_land_pred : forall k, 0 <= k -> Z.land (2 ^ k) (2 ^ k - 1) = 0.
Proof.
  intros. replace (2 ^ k - 1) with (Z.ones k) by (rewrite Z.ones_equiv; lia).
  rewrite Z.land_ones by lia. apply Z.mod_same. pose proof (pow2_pos k H); lia.
Qed.

Lemma is_pow2_spec : forall a, 0 <= a < 2 ^ 64 -> (is_power_of_two a = true <-> power_of_two a).
Proof.
  intros a R. unfold is_power_of_two, power_of_two. split.
  - intros H. apply andb_true_iff in H. destruct H as [H1 H2].
    assert (0 < a) by lia. rewrite wrapu_id in H2 by lia. apply Z.eqb_eq in H2.
    exists (Z.log2 a). split; [apply Z.log2_nonneg|].
    pose proof (Z.log2_spec a H) as L. pose proof (Z.log2_nonneg a).
    destruct (Z.eq_dec a (2 ^ Z.log2 a)) as [|N]; auto. exfalso.
    assert (B1 : Z.testbit a (Z.log2 a) = true) by (apply Z.bit_log2; lia).
    assert (B2 : Z.testbit (a - 1) (Z.log2 a) = true).
    { replace (Z.log2 a) with (Z.log2 (a - 1)) at 1; [apply Z.bit_log2; lia|].
      apply Z.log2_unique; lia. }
    assert (Z.testbit (Z.land a (a - 1)) (Z.log2 a) = true) by (rewrite Z.land_spec, B1, B2; auto).
    rewrite H2, Z.bits_0 in H3. discriminate.
  - intros [k [K ->]]. pose proof (pow2_pos k K). rewrite wrapu_id by lia.
    rewrite pow2_land_pred by lia. replace (2 ^ k =? 0) with false by lia. reflexivity.
Qed.

Lemma lor_ones_low : forall a k, 0 <= k -> Z.lor a (2 ^ k - 1) = (a / 2 ^ k) * 2 ^ k + (2 ^ k - 1).
Proof.
  intros a k K. replace (2 ^ k - 1) with (Z.ones k) by (rewrite Z.ones_equiv; lia).
  apply Z.bits_inj'. intros n Hn. rewrite Z.lor_spec.
  assert (E : a / 2 ^ k * 2 ^ k + Z.ones k = Z.lor (Z.shiftl (Z.shiftr a k) k) (Z.ones k)).
  { rewrite (lor_low _ _ k); try lia.
    - rewrite Z.shiftl_mul_pow2, Z.shiftr_div_pow2 by lia. reflexivity.
    - rewrite Z.ones_equiv. pose proof (pow2_pos k K). lia.
    - rewrite Z.shiftl_mul_pow2 by lia. apply Z.mod_mul. pose proof (pow2_pos k K). lia. }
  rewrite E, Z.lor_spec. destruct (Z_lt_ge_dec n k).
  - rewrite Z.ones_spec_low by lia. rewrite !orb_true_r. reflexivity.
  - rewrite Z.ones_spec_high by lia. rewrite Z.shiftl_spec by lia. rewrite Z.shiftr_spec by lia.
    rewrite !orb_false_r. f_equal. lia.
Qed.

Lemma align_up_ok : forall a to, 0 <= a -> power_of_two to -> to < 2 ^ 64 -> a + to <= 2 ^ 64 ->
  exists r, align_up a to = Done r /\ least (fun x => a <= x /\ (to | x)) r.
Proof.
  intros a to Ha PT Hu Hb. pose proof PT as PT'. destruct PT as [k [K ->]].
  pose proof (pow2_pos k K).
  unfold align_up. rewrite (proj2 (is_pow2_spec (2 ^ k) ltac:(lia))) by auto.
  eexists. split; [reflexivity|].
  set (q := (a + 2 ^ k - 1) / 2 ^ k).
  assert (Q : (a + 2 ^ k - 1) = 2 ^ k * q + (a + 2 ^ k - 1) mod 2 ^ k) by (apply Z.div_mod; lia).
  pose proof (Z.mod_pos_bound (a + 2 ^ k - 1) (2 ^ k) H).
  assert (V : wrapu 64 (Z.lor (wrapu 64 (a - 1)) (wrapu 64 (2 ^ k - 1)) + 1) = q * 2 ^ k).
  { rewrite (wrapu_id 64 (2 ^ k - 1)) by lia. rewrite lor_ones_low by lia.
    destruct (Z.eq_dec a 0) as [->|N].
    - assert (k <= 64) by (destruct (Z_le_gt_dec k 64); auto; assert (2 ^ 65 <= 2 ^ k) by (apply Z.pow_le_mono_r; lia); lia).
      assert (q = 0) by (unfold q; apply Z.div_small; lia). rewrite H2.
      replace (wrapu 64 (0 - 1)) with (2 ^ 64 - 1) by reflexivity.
      replace (2 ^ 64 - 1) with ((2 ^ (64 - k) - 1) * 2 ^ k + (2 ^ k - 1)).
      + rewrite Z.div_add_l by lia. rewrite (Z.div_small (2 ^ k - 1)) by lia.
        replace (((2 ^ (64 - k) - 1) + 0) * 2 ^ k + (2 ^ k - 1) + 1) with (2 ^ (64 - k) * 2 ^ k) by lia.
        rewrite <- Z.pow_add_r by lia. replace (64 - k + k) with 64 by lia. reflexivity.
      + assert (2 ^ (64 - k) * 2 ^ k = 2 ^ 64) by (rewrite <- Z.pow_add_r by lia; f_equal; lia). lia.
    - rewrite (wrapu_id 64 (a - 1)) by lia.
      assert (D : (a - 1) / 2 ^ k = q - 1).
      { unfold q. replace (a + 2 ^ k - 1) with (a - 1 + 1 * 2 ^ k) by lia. rewrite Z.div_add by lia. lia. }
      rewrite D. replace ((q - 1) * 2 ^ k + (2 ^ k - 1) + 1) with (q * 2 ^ k) by lia.
      (* q * 2^k <= a + 2^k - 1 < 2^64 *)
      apply wrapu_id. assert (0 <= q) by (unfold q; apply Z.div_pos; lia). nia. }
  rewrite V. split.
  - split; [lia|]. exists q; reflexivity.
  - intros y [Y1 [m ->]]. assert (2 ^ k * (q - 1) < 2 ^ k * m) by lia; assert (q - 1 < m) by (apply (Z.mul_lt_mono_pos_l (2 ^ k)); lia); nia.
Qed.

Lemma align_with_mask_ok : forall a to, 0 <= a -> power_of_two to -> a + to <= 2 ^ 64 ->
  least (fun x => a <= x /\ (to | x)) (align_with_mask a to).
Proof.
  intros a to Ha [k [K ->]] Hb. pose proof (pow2_pos k K). unfold align_with_mask.
  rewrite (wrapu_id 64 (2 ^ k - 1)) by lia.
  rewrite (wrapu_id 64 (a + (2 ^ k - 1))) by lia.
  assert (k <= 64) by (destruct (Z_le_gt_dec k 64); auto; assert (2 ^ 65 <= 2 ^ k) by (apply Z.pow_le_mono_r; lia); lia).
  assert (E : Z.land (a + (2 ^ k - 1)) (wrapu 64 (Z.lnot (2 ^ k - 1))) = (a + (2 ^ k - 1)) / 2 ^ k * 2 ^ k).
  { set (x := a + (2 ^ k - 1)). assert (X : 0 <= x < 2 ^ 64) by (unfold x; lia).
    apply Z.bits_inj'. intros n Hn. rewrite Z.land_spec. unfold wrapu.
    replace (2 ^ k - 1) with (Z.ones k) by (rewrite Z.ones_equiv; lia).
    rewrite <- Z.shiftl_mul_pow2, <- Z.shiftr_div_pow2 by lia.
    rewrite Z.shiftl_spec by lia.
    destruct (Z_lt_ge_dec n 64).
    - rewrite Z.mod_pow2_bits_low by lia. rewrite Z.lnot_spec by lia.
      destruct (Z_lt_ge_dec n k).
      + rewrite Z.ones_spec_low by lia. rewrite (Z.testbit_neg_r _ (n - k)) by lia. apply andb_false_r.
      + rewrite Z.ones_spec_high by lia. rewrite Z.shiftr_spec by lia. rewrite andb_true_r. f_equal. lia.
    - rewrite Z.mod_pow2_bits_high by lia. rewrite Z.shiftr_spec by lia. rewrite andb_false_r.
      symmetry. replace (n - k + k) with n by lia. rewrite <- (Z.mod_small x (2 ^ 64)) by lia.
      apply Z.mod_pow2_bits_high; lia. }
  rewrite E.
  pose proof (Z.div_mod (a + (2 ^ k - 1)) (2 ^ k) ltac:(lia)).
  pose proof (Z.mod_pos_bound (a + (2 ^ k - 1)) (2 ^ k) H).
  split.
  - split; [lia|]. eexists; reflexivity.
  - intros y [Y1 [m ->]]. set (q := (a + (2 ^ k - 1)) / 2 ^ k) in *; assert (2 ^ k * (q - 1) < 2 ^ k * m) by lia; assert (q - 1 < m) by (apply (Z.mul_lt_mono_pos_l (2 ^ k)); lia); nia.
Qed.

(** ** Rounding up to a power of two *)
Definition smeared (w j x : Z) : Prop :=
  forall i, 0 <= i -> (Z.testbit x i = true <-> exists d, 0 <= d < j /\ Z.testbit w (i + d) = true).

Lemma smear_step : forall w j x, 0 < j -> smeared w j x -> smeared w (2 * j) (Z.lor x (Z.shiftr x j)).
Proof.
  intros w j x J S i Hi. rewrite Z.lor_spec, Z.shiftr_spec, orb_true_iff by lia.
  rewrite (S i Hi), (S (i + j) ltac:(lia)). split.
  - intros [[d [D T]]|[d [D T]]].
    + exists d. split; [lia|auto].
    + exists (d + j). split; [lia|]. rewrite <- T. f_equal. lia.
  - intros [d [D T]]. destruct (Z_lt_ge_dec d j).
    + left. exists d. split; [lia|auto].
    + right. exists (d - j). split; [lia|]. rewrite <- T. f_equal. lia.
Qed.

Lemma smear_0 : forall w, smeared w 1 w.
Proof.
  intros w i Hi. split.
  - intros. exists 0. split; [lia|]. rewrite Z.add_0_r. auto.
  - intros [d [D T]]. replace (i + d) with i in T by lia. auto.
Qed.

Lemma smeared_full : forall w n x, 0 < w < 2 ^ n -> 0 < n -> smeared w n x -> 0 <= x -> x + 1 = 2 ^ (Z.log2 w + 1).
Proof.
  intros w n x W N S X.
  assert (L : Z.log2 w < n) by (apply Z.log2_lt_pow2; lia). pose proof (Z.log2_nonneg w).
  assert (E : x = Z.ones (Z.log2 w + 1)).
  { apply Z.bits_inj'. intros i Hi. apply eq_true_iff_eq. rewrite (S i Hi).
    rewrite Z.testbit_ones by lia. split.
    - intros [d [D T]]. assert (i + d <= Z.log2 w).
      { destruct (Z_le_gt_dec (i + d) (Z.log2 w)); auto. rewrite Z.bits_above_log2 in T by lia. discriminate. }
      lia.
    - intros B. exists (Z.log2 w - i). split; [lia|].
      replace (i + (Z.log2 w - i)) with (Z.log2 w) by lia. apply Z.bit_log2. lia. }
  rewrite E, Z.ones_equiv. lia.
Qed.

Lemma lor_shiftr_nonneg : forall x j, 0 <= x -> 0 <= Z.lor x (Z.shiftr x j).
Proof. intros. apply Z.lor_nonneg. split; auto. apply Z.shiftr_nonneg; auto. Qed.

Lemma round_least : forall v, 2 <= v -> least (fun p => power_of_two p /\ v <= p) (2 ^ (Z.log2 (v - 1) + 1)).
Proof.
  intros v V. pose proof (Z.log2_spec (v - 1) ltac:(lia)) as L. pose proof (Z.log2_nonneg (v - 1)).
  replace (Z.succ (Z.log2 (v - 1))) with (Z.log2 (v - 1) + 1) in L by lia.
  split.
  - split; [|lia]. exists (Z.log2 (v - 1) + 1). split; auto; lia.
  - intros y [[k [K ->]] Y].
    apply Z.pow_le_mono_r; [lia|].
    destruct (Z_le_gt_dec (Z.log2 (v - 1) + 1) k); auto.
    assert (2 ^ k <= 2 ^ Z.log2 (v - 1)) by (apply Z.pow_le_mono_r; lia). lia.
Qed.

Lemma round64_ok : forall v, 1 <= v <= 2 ^ 63 ->
  least (fun p => power_of_two p /\ v <= p) (u64_round_up_to_next_power_of_two v).
Proof.
  intros v V. unfold u64_round_up_to_next_power_of_two. rewrite (wrapu_id 64 (v - 1)) by lia.
  destruct (Z.eq_dec v 1) as [->|N].
  { match goal with |- least _ ?t => replace t with 1 by (vm_compute; reflexivity) end. split; [split; [exists 0; split; [lia|reflexivity]|lia]|]. intros y [_ Y]. lia. }
  set (w := v - 1).
  pose proof (smear_step w 1 _ ltac:(lia) (smear_0 w)) as S1.
  pose proof (lor_shiftr_nonneg w 1 ltac:(unfold w; lia)) as N1.
  cbv zeta. set (x1 := Z.lor w (Z.shiftr w 1)) in *.
  pose proof (smear_step w 2 x1 ltac:(lia) S1) as S2. pose proof (lor_shiftr_nonneg x1 2 N1) as N2.
  set (x2 := Z.lor x1 (Z.shiftr x1 2)) in *.
  pose proof (smear_step w 4 x2 ltac:(lia) S2) as S3. pose proof (lor_shiftr_nonneg x2 4 N2) as N3.
  set (x3 := Z.lor x2 (Z.shiftr x2 4)) in *.
  pose proof (smear_step w 8 x3 ltac:(lia) S3) as S4. pose proof (lor_shiftr_nonneg x3 8 N3) as N4.
  set (x4 := Z.lor x3 (Z.shiftr x3 8)) in *.
  pose proof (smear_step w 16 x4 ltac:(lia) S4) as S5. pose proof (lor_shiftr_nonneg x4 16 N4) as N5.
  set (x5 := Z.lor x4 (Z.shiftr x4 16)) in *.
  pose proof (smear_step w 32 x5 ltac:(lia) S5) as S6. pose proof (lor_shiftr_nonneg x5 32 N5) as N6.
  set (x6 := Z.lor x5 (Z.shiftr x5 32)) in *.
  rewrite (smeared_full w 64 x6) by (auto; unfold w; lia).
  rewrite wrapu_id.
  - apply round_least. lia.
  - assert (Z.log2 w < 63) by (apply Z.log2_lt_pow2; [unfold w; lia|unfold w; change (2^63) with 9223372036854775808 in *; lia]). pose proof (Z.log2_nonneg w).
    split; [apply Z.pow_nonneg; lia|]. apply Z.pow_lt_mono_r; lia.
Qed.

Lemma round32_ok : forall v, 1 <= v <= 2 ^ 31 ->
  least (fun p => power_of_two p /\ v <= p) (u32_round_up_to_next_power_of_two v).
Proof.
  intros v V. unfold u32_round_up_to_next_power_of_two. rewrite (wrapu_id 32 (v - 1)) by lia.
  destruct (Z.eq_dec v 1) as [->|N].
  { match goal with |- least _ ?t => replace t with 1 by (vm_compute; reflexivity) end. split; [split; [exists 0; split; [lia|reflexivity]|lia]|]. intros y [_ Y]. lia. }
  set (w := v - 1).
  pose proof (smear_step w 1 _ ltac:(lia) (smear_0 w)) as S1.
  pose proof (lor_shiftr_nonneg w 1 ltac:(unfold w; lia)) as N1.
  cbv zeta. set (x1 := Z.lor w (Z.shiftr w 1)) in *.
  pose proof (smear_step w 2 x1 ltac:(lia) S1) as S2. pose proof (lor_shiftr_nonneg x1 2 N1) as N2.
  set (x2 := Z.lor x1 (Z.shiftr x1 2)) in *.
  pose proof (smear_step w 4 x2 ltac:(lia) S2) as S3. pose proof (lor_shiftr_nonneg x2 4 N2) as N3.
  set (x3 := Z.lor x2 (Z.shiftr x2 4)) in *.
  pose proof (smear_step w 8 x3 ltac:(lia) S3) as S4. pose proof (lor_shiftr_nonneg x3 8 N3) as N4.
  set (x4 := Z.lor x3 (Z.shiftr x3 8)) in *.
  pose proof (smear_step w 16 x4 ltac:(lia) S4) as S5. pose proof (lor_shiftr_nonneg x4 16 N4) as N5.
  set (x5 := Z.lor x4 (Z.shiftr x4 16)) in *.
  rewrite (smeared_full w 32 x5) by (auto; unfold w; lia).
  rewrite wrapu_id.
  - apply round_least. lia.
  - assert (Z.log2 w < 31) by (apply Z.log2_lt_pow2; unfold w; lia). pose proof (Z.log2_nonneg w).
    split; [apply Z.pow_nonneg; lia|]. apply Z.pow_lt_mono_r; lia.
Qed.

(** ** Bit scans *)
Lemma scan_up_ok : forall n i a, 0 <= i ->
  match scan_up n i a with
  | Some r => i <= r < i + Z.of_nat n /\ Z.testbit a r = true /\ forall j, i <= j < r -> Z.testbit a j = false
  | None => forall j, i <= j < i + Z.of_nat n -> Z.testbit a j = false
  end.
Proof.
  induction n; intros i a Hi; cbn [scan_up].
  - intros; lia.
  - destruct (Z.testbit a i) eqn:T.
    + split; [lia|]. split; auto. intros; lia.
    + specialize (IHn (i + 1) a ltac:(lia)). destruct (scan_up n (i + 1) a).
      * destruct IHn as (A & B & C). split; [lia|]. split; auto. intros j Hj.
        destruct (Z.eq_dec j i); [subst; auto|]. apply C; lia.
      * intros j Hj. destruct (Z.eq_dec j i); [subst; auto|]. apply IHn; lia.
Qed.

Lemma scan_down_ok : forall n a, 0 < a < 2 ^ Z.of_nat n -> scan_down n a = Some (Z.log2 a).
Proof.
  induction n; intros a R.
  - cbn in R. lia.
  - cbn [scan_down]. destruct (Z.testbit a (Z.of_nat n)) eqn:T.
    + f_equal. symmetry. apply Z.log2_unique'  with (c := a - 2 ^ Z.of_nat n); try lia.
      split; [|].
      * destruct (Z_lt_ge_dec a (2 ^ Z.of_nat n)); [|lia].
        rewrite Z.bits_above_log2 in T; [discriminate|lia|]. apply Z.log2_lt_pow2; lia.
      * rewrite Nat2Z.inj_succ, Z.pow_succ_r in R by lia. lia.
    + apply IHn. split; [lia|].
      destruct (Z_lt_ge_dec a (2 ^ Z.of_nat n)); auto. exfalso.
      assert (Z.log2 a = Z.of_nat n).
      { apply Z.log2_unique; [lia|]. rewrite Nat2Z.inj_succ in R. lia. }
      rewrite <- H, Z.bit_log2 in T by lia. discriminate.
Qed.

Lemma clz32_ok : forall a, 0 < a < 2 ^ 32 -> 2 ^ (31 - count_leading_zeros32 a) <= a < 2 ^ (32 - count_leading_zeros32 a).
Proof.
  intros a R. unfold count_leading_zeros32. rewrite scan_down_ok by (change (Z.of_nat 32) with 32; lia).
  pose proof (Z.log2_spec a ltac:(lia)).
  replace (31 - (31 - Z.log2 a)) with (Z.log2 a) by lia.
  replace (32 - (31 - Z.log2 a)) with (Z.succ (Z.log2 a)) by lia. auto.
Qed.
Lemma clz64_ok : forall a, 0 < a < 2 ^ 64 -> 2 ^ (63 - count_leading_zeros64 a) <= a < 2 ^ (64 - count_leading_zeros64 a).
Proof.
  intros a R. unfold count_leading_zeros64. rewrite scan_down_ok by (change (Z.of_nat 64) with 64; lia).
  pose proof (Z.log2_spec a ltac:(lia)).
  replace (63 - (63 - Z.log2 a)) with (Z.log2 a) by lia.
  replace (64 - (63 - Z.log2 a)) with (Z.succ (Z.log2 a)) by lia. auto.
Qed.

Lemma low_bits_zero : forall a r, 0 <= r -> (forall j, 0 <= j < r -> Z.testbit a j = false) -> Z.testbit a r = true ->
  exists q, a = 2 ^ r * (2 * q + 1).
Proof.
  intros a r R L T. exists (a / 2 ^ (r + 1)).
  assert (E0 : a mod 2 ^ r = 0).
  { apply Z.bits_inj'. intros i Hi. rewrite Z.bits_0. destruct (Z_lt_ge_dec i r).
    - rewrite Z.mod_pow2_bits_low by lia. apply L; lia.
    - apply Z.mod_pow2_bits_high; lia. }
  pose proof (pow2_pos r R). pose proof (Z.div_mod a (2 ^ r) ltac:(lia)).
  rewrite Z.testbit_true in T by lia.
  pose proof (Z.div_mod (a / 2 ^ r) 2 ltac:(lia)) as D2. rewrite T in D2.
  rewrite Z.div_div in D2 by lia. rewrite Z.pow_add_r by lia. change (2 ^ 1) with 2. lia.
Qed.

Lemma ctz64_ok : forall a, 0 < a < 2 ^ 64 -> exists q, a = 2 ^ count_trailing_zeros64 a * (2 * q + 1).
Proof.
  intros a R. unfold count_trailing_zeros64. pose proof (scan_up_ok 64 0 a ltac:(lia)) as S.
  destruct (scan_up 64 0 a) as [r|].
  - destruct S as (A & B & C). apply low_bits_zero; auto. lia.
  - exfalso. pose proof (Z.log2_nonneg a). assert (Z.log2 a < 64) by (apply Z.log2_lt_pow2; lia).
    specialize (S (Z.log2 a) ltac:(cbn; lia)). rewrite Z.bit_log2 in S by lia. discriminate.
Qed.
Lemma ctz32_ok : forall a, 0 < a < 2 ^ 32 -> exists q, a = 2 ^ count_trailing_zeros32 a * (2 * q + 1).
Proof.
  intros a R. unfold count_trailing_zeros32. pose proof (scan_up_ok 32 0 a ltac:(lia)) as S.
  destruct (scan_up 32 0 a) as [r|].
  - destruct S as (A & B & C). apply low_bits_zero; auto. lia.
  - exfalso. pose proof (Z.log2_nonneg a). assert (Z.log2 a < 32) by (apply Z.log2_lt_pow2; lia).
    specialize (S (Z.log2 a) ltac:(cbn; lia)). rewrite Z.bit_log2 in S by lia. discriminate.
Qed.

Lemma to_u_ok : forall n x, 0 <= n -> (forall v, to_u n x = Done v -> v = x) /\ (0 <= x < 2 ^ n -> to_u n x = Done x).
Proof.
  intros n x N. unfold to_u. pose proof (pow2_pos n N).
  destruct ((0 <=? x) && (x <=? 2 ^ n - 1)) eqn:E.
  - rewrite wrapu_id by lia. split; [congruence|auto].
  - split; [discriminate|lia].
Qed.
Lemma to_s_ok : forall n x, 0 < n -> (forall v, to_s n x = Done v -> v = x) /\ (- 2 ^ (n - 1) <= x < 2 ^ (n - 1) -> to_s n x = Done x).
Proof.
  intros n x N. unfold to_s. pose proof (pow2_pos (n - 1) ltac:(lia)).
  destruct ((- 2 ^ (n - 1) <=? x) && (x <=? 2 ^ (n - 1) - 1)) eqn:E.
  - rewrite wraps_id by lia. split; [congruence|auto].
  - split; [discriminate|lia].
Qed.

(** ** Shuffle *)
Lemma push_front_at_perm : forall A i (x : A) s, (i < length s)%nat ->
  Permutation (x :: concat s) (concat (push_front_at i x s)) /\ length (push_front_at i x s) = length s.
Proof.
  induction i; intros x s L; destruct s as [|a s]; cbn in L; try lia; cbn [push_front_at concat length].
  - auto.
  - destruct (IHi x s ltac:(lia)) as [P Q]. split; [|lia].
    rewrite <- P. apply Permutation_middle.
Qed.

Lemma deal_perm : forall A (it : list A) series s, length s = 16%nat ->
  Permutation (it ++ concat s) (concat (deal series it s)).
Proof.
  induction it as [|x it]; intros; cbn [deal app]; auto.
  destruct (random_u32 series) as [sr r].
  assert (B : (Z.to_nat (Z.land r (16 - 1)) < 16)%nat).
  { change (16 - 1) with (Z.ones 4). rewrite Z.land_ones by lia.
    pose proof (Z.mod_pos_bound r (2 ^ 4) ltac:(lia)). lia. }
  destruct (push_front_at_perm A (Z.to_nat (Z.land r (16 - 1))) x s ltac:(lia)) as [P Q].
  rewrite <- (IHit sr) by lia. rewrite <- P. apply Permutation_middle.
Qed.

Lemma shuffle_perm : forall A seed (l : list A), Permutation l (parse_work_order seed l).
Proof.
  intros. unfold parse_work_order. destruct (seed =? 0); auto. unfold shuffle.
  rewrite <- deal_perm by reflexivity. cbn. rewrite app_nil_r. auto.
Qed.

(** ** CRC *)
Definition poly : Z := 3988292384.
Definition step0 (c : Z) : Z := Z.lxor (c / 2) (if Z.odd c then poly else 0).

Lemma crc_bit_step0 : forall c b, crc_bit c b = step0 (Z.lxor c (if b then 1 else 0)).
Proof.
  intros. unfold crc_bit, step0. change 3988292384 with poly.
  assert (Z.lxor c (if b then 1 else 0) / 2 = c / 2).
  { change 2 with (2 ^ 1). rewrite <- !Z.shiftr_div_pow2 by lia. rewrite Z.shiftr_lxor.
    replace (Z.shiftr (if b then 1 else 0) 1) with 0 by (destruct b; reflexivity). apply Z.lxor_0_r. }
  rewrite H. f_equal. rewrite <- !Z.bit0_odd, Z.lxor_spec.
  replace (Z.testbit (if b then 1 else 0) 0) with b by (destruct b; reflexivity). reflexivity.
Qed.

Lemma div2_lxor : forall a b, Z.lxor a b / 2 = Z.lxor (a / 2) (b / 2).
Proof.
  intros. change 2 with (2 ^ 1). rewrite <- !Z.shiftr_div_pow2 by lia. apply Z.shiftr_lxor.
Qed.

Lemma step0_lxor : forall a b, step0 (Z.lxor a b) = Z.lxor (step0 a) (step0 b).
Proof.
  intros. unfold step0. rewrite div2_lxor.
  rewrite <- !Z.bit0_odd, Z.lxor_spec.
  apply Z.bits_inj'. intros n Hn. rewrite !Z.lxor_spec.
  destruct (Z.testbit a 0), (Z.testbit b 0); cbn [xorb]; rewrite ?Z.bits_0;
  destruct (Z.testbit (a / 2) n), (Z.testbit (b / 2) n), (Z.testbit poly n); reflexivity.
Qed.

Fixpoint steps (n : nat) (c : Z) : Z := match n with O => c | S n => steps n (step0 c) end.

Lemma steps_lxor : forall n a b, steps n (Z.lxor a b) = Z.lxor (steps n a) (steps n b).
Proof. induction n; intros; cbn; auto. rewrite step0_lxor. apply IHn. Qed.

Lemma steps_even : forall n c, 0 <= c -> steps n (c * 2 ^ Z.of_nat n) = c.
Proof.
  induction n; intros c Hc; cbn [steps].
  - cbn. lia.
  - replace (step0 (c * 2 ^ Z.of_nat (S n))) with (c * 2 ^ Z.of_nat n); [apply IHn; auto|].
    unfold step0. rewrite Nat2Z.inj_succ, Z.pow_succ_r by lia.
    replace (c * (2 * 2 ^ Z.of_nat n)) with (c * 2 ^ Z.of_nat n * 2) by lia.
    rewrite Z.div_mul by lia. rewrite Z.odd_mul. cbn [Z.odd]. rewrite andb_false_r. symmetry. apply Z.lxor_0_r.
Qed.

Lemma fold_bits_lin : forall b, 0 <= b < 256 -> forall c, fold_left crc_bit (bits_of_byte b) c = steps 8 (Z.lxor c b).
Proof.
  intros b R c.
  assert (G : forall bs c, fold_left crc_bit bs c =
     Z.lxor (steps (length bs) c) (fold_left crc_bit bs 0)).
  { induction bs as [|x bs IH]; intros c0; cbn [fold_left length steps].
    - symmetry. apply Z.lxor_0_r.
    - rewrite IH. rewrite (IH (crc_bit 0 x)). rewrite <- Z.lxor_assoc. f_equal.
      rewrite !crc_bit_step0. rewrite !step0_lxor. rewrite Z.lxor_0_l.
      rewrite <- steps_lxor. f_equal. }
  rewrite G. unfold bits_of_byte at 1. rewrite map_length, seq_length.
  rewrite steps_lxor. f_equal.
  assert (T : forallb (fun b => fold_left crc_bit (bits_of_byte b) 0 =? steps 8 b) (map Z.of_nat (seq 0 256)) = true)
    by (vm_compute; reflexivity).
  rewrite forallb_forall in T. specialize (T b).
  apply Z.eqb_eq, T. replace b with (Z.of_nat (Z.to_nat b)) by lia. apply in_map, in_seq. lia.
Qed.

Lemma table_ok : forall b, 0 <= b < 256 -> nth (Z.to_nat b) crc32_table 0 = steps 8 b.
Proof.
  intros b R.
  assert (T : forallb (fun b => nth (Z.to_nat b) crc32_table 0 =? steps 8 b) (map Z.of_nat (seq 0 256)) = true)
    by (vm_compute; reflexivity).
  rewrite forallb_forall in T. specialize (T b).
  apply Z.eqb_eq, T. replace b with (Z.of_nat (Z.to_nat b)) by lia. apply in_map, in_seq. lia.
Qed.

Lemma lxor_byte_range : forall a b, 0 <= a < 256 -> 0 <= b < 256 -> 0 <= Z.lxor a b < 256.
Proof.
  intros. assert (0 <= Z.lxor a b) by (apply Z.lxor_nonneg; lia).
  split; auto. change 256 with (2 ^ 8) in *.
  rewrite testbit_range_u in * by lia.
  assert (forall i, 8 <= i -> Z.testbit (Z.lxor a b) i = false).
  { intros. rewrite Z.lxor_spec, H, H0 by lia. reflexivity. }
  rewrite <- testbit_range_u in H2 by lia. lia.
Qed.

Lemma crc_byte : forall c b, 0 <= c -> 0 <= b < 256 ->
  Z.lxor (Z.shiftr c 8) (nth (Z.to_nat (Z.lxor (Z.land c 255) b)) crc32_table 0) = fold_left crc_bit (bits_of_byte b) c.
Proof.
  intros c b C B. rewrite fold_bits_lin by auto.
  assert (L : 0 <= Z.land c 255 < 256) by (change 255 with (Z.ones 8); rewrite Z.land_ones by lia; apply Z.mod_pos_bound; lia).
  rewrite table_ok by (apply lxor_byte_range; auto).
  assert (E : Z.lxor c b = Z.lxor (Z.shiftr c 8 * 2 ^ Z.of_nat 8) (Z.lxor (Z.land c 255) b)).
  { rewrite <- Z.lxor_assoc. f_equal. change (Z.of_nat 8) with 8.
    apply Z.bits_inj'. intros n Hn. rewrite Z.lxor_spec, Z.land_spec. rewrite <- Z.shiftl_mul_pow2 by lia.
    change 255 with (Z.ones 8).
    destruct (Z_lt_ge_dec n 8).
    - rewrite Z.shiftl_spec_low by lia. rewrite Z.ones_spec_low by lia. rewrite andb_true_r, xorb_false_l. reflexivity.
    - rewrite Z.shiftl_spec by lia. rewrite Z.ones_spec_high by lia. rewrite andb_false_r, xorb_false_r.
      rewrite Z.shiftr_spec by lia. f_equal; lia. }
  rewrite E, (steps_lxor 8 (Z.shiftr c 8 * 2 ^ Z.of_nat 8)). rewrite (steps_even 8 (Z.shiftr c 8)) by (apply Z.shiftr_nonneg; auto). reflexivity.
Qed.

Lemma crc_nonneg : forall bs c, 0 <= c -> 0 <= fold_left crc_bit bs c.
Proof.
  induction bs; intros c C; cbn; auto. apply IHbs. unfold crc_bit. apply Z.lxor_nonneg.
  split; intros; [|apply Z.div_pos; lia]. destruct (xorb (Z.odd c) a); lia.
Qed.

Lemma crc_ok : forall data c, 0 <= c -> Forall (fun b => 0 <= b < 256) data -> crc32 c data = crc_spec c data.
Proof.
  unfold crc_spec, crc_bits. induction data as [|b data IH]; intros c C F; cbn [crc32 flat_map]; auto.
  inversion F; subst. rewrite fold_left_app. rewrite crc_byte by auto. apply IH; auto. apply crc_nonneg; auto.
Qed.

Lemma crc_app : forall a b c, crc32 c (a ++ b) = crc32 (crc32 c a) b.
Proof. induction a; intros; cbn [app crc32]; auto. Qed.

(** ** UTF *)
Lemma byte_or : forall hi n x, 0 <= n -> 0 <= x < 2 ^ n -> Z.lor (Z.shiftl hi n) x = hi * 2 ^ n + x.
Proof.
  intros. rewrite (lor_low _ _ n) by (auto; rewrite Z.shiftl_mul_pow2 by lia; apply Z.mod_mul; pose proof (pow2_pos n H); lia).
  rewrite Z.shiftl_mul_pow2 by lia. reflexivity.
Qed.

Lemma shr_and : forall x s n, 0 <= s -> 0 <= n -> Z.land (Z.shiftr x s) (Z.ones n) = (x / 2 ^ s) mod 2 ^ n.
Proof. intros. rewrite Z.land_ones, Z.shiftr_div_pow2 by lia. reflexivity. Qed.

Lemma or_field : forall hi n c s m, 0 <= m <= n -> 0 <= s ->
  Z.lor (Z.shiftl hi n) (Z.land (Z.shiftr c s) (Z.ones m)) = hi * 2 ^ n + (c / 2 ^ s) mod 2 ^ m.
Proof.
  intros. rewrite shr_and by lia. apply byte_or; [lia|].
  pose proof (Z.mod_pos_bound (c / 2 ^ s) (2 ^ m) (pow2_pos m ltac:(lia))).
  assert (2 ^ m <= 2 ^ n) by (apply Z.pow_le_mono_r; lia). lia.
Qed.

Lemma encode_ok : forall c, 0 <= c < 1114112 -> encode_utf8 c = utf8 c.
Proof.
  intros c R. unfold encode_utf8, utf8.
  change (Z.land (Z.shiftr c 12) 15) with (Z.land (Z.shiftr c 12) (Z.ones 4)).
  change (Z.land (Z.shiftr c 18) 7) with (Z.land (Z.shiftr c 18) (Z.ones 3)).
  change 31 with (Z.ones 5). change 63 with (Z.ones 6). rewrite !or_field by lia.
  change (2 ^ 0) with 1. rewrite Z.div_1_r.
  destruct (Z.leb_spec c 127).
  { replace (c <? 128) with true by lia. rewrite wrapu_id by lia. reflexivity. }
  replace (c <? 128) with false by lia.
  destruct (Z.leb_spec c 2047).
  { replace (c <? 2048) with true by lia.
    rewrite (Z.mod_small (c / 2 ^ 6)) by (split; [apply Z.div_pos; lia|apply Z.div_lt_upper_bound; lia]). reflexivity. }
  replace (c <? 2048) with false by lia.
  destruct (Z.leb_spec c 65535).
  { replace (c <? 65536) with true by lia.
    rewrite (Z.mod_small (c / 2 ^ 12)) by (split; [apply Z.div_pos; lia|apply Z.div_lt_upper_bound; lia]). reflexivity. }
  replace (c <? 65536) with false by lia.
  replace (c <=? 1114111) with true by lia.
  rewrite (Z.mod_small (c / 2 ^ 18)) by (split; [apply Z.div_pos; lia|apply Z.div_lt_upper_bound; lia]). reflexivity.
Qed.

(** What the conversion makes of a supplementary code point: its plane with the lowest bit set. *)
Definition squash (c : Z) : Z :=
  if c <? 65536 then c else c mod 65536 + 65536 * Z.lor ((c / 65536) - 1) 1.

Lemma join_ok : forall c, 65536 <= c < 1114112 ->
  Z.lor (Z.shiftl (55296 + (c - 65536) / 1024 - 55296) 10) ((56320 + (c - 65536) mod 1024 - 56320) + 65536) = squash c.
Proof.
  intros c R. unfold squash. replace (c <? 65536) with false by lia.
  set (d := c - 65536). replace (55296 + d / 1024 - 55296) with (d / 1024) by lia.
  replace (56320 + d mod 1024 - 56320) with (d mod 1024) by lia.
  assert (D : 0 <= d < 2 ^ 20) by (unfold d; lia).
  pose proof (Z.mod_pos_bound d 1024 ltac:(lia)).
  replace (c mod 65536) with (d mod 65536) by (unfold d; rewrite <- (Z.mod_add (c - 65536) 1 65536) by lia; f_equal; lia).
  replace (c / 65536 - 1) with (d / 65536) by (unfold d; replace c with (c - 65536 + 1 * 65536) at 2 by lia; rewrite Z.div_add by lia; lia).
  assert (E1 : d mod 1024 + 65536 = Z.lor (Z.shiftl 1 16) (d mod 1024)) by (rewrite byte_or; lia).
  rewrite E1.
  assert (E2 : d mod 65536 + 65536 * Z.lor (d / 65536) 1 = Z.lor (Z.shiftl (Z.lor (d / 65536) 1) 16) (d mod 65536)).
  { rewrite byte_or; try lia. apply Z.mod_pos_bound; lia. }
  rewrite E2. rewrite Z.lor_assoc, (Z.lor_comm (Z.shiftl (d / 1024) 10)), <- Z.lor_assoc.
  change 1024 with (2 ^ 10). change 65536 with (2 ^ 16).
  rewrite <- !Z.shiftr_div_pow2, <- !Z.land_ones by lia.
  apply Z.bits_inj'. intros n Hn.
  assert (TN : forall a k, 0 <= k -> Z.testbit (Z.shiftl a k) n = if n <? k then false else Z.testbit a (n - k)).
  { intros. destruct (Z.ltb_spec n k); [apply Z.shiftl_spec_low; lia | apply Z.shiftl_spec; lia]. }
  rewrite !Z.lor_spec, !Z.land_spec, !TN by lia. rewrite Z.lor_spec. rewrite !Z.testbit_ones_nonneg by lia.
  destruct (Z.ltb_spec n 10).
  - replace (n <? 16) with true by lia. destruct (Z.testbit d n); reflexivity.
  - rewrite Z.shiftr_spec by lia. replace (n - 10 + 10) with n by lia.
    destruct (Z.ltb_spec n 16).
    + destruct (Z.testbit d n); reflexivity.
    + rewrite Z.shiftr_spec by lia. replace (n - 16 + 16) with n by lia.
      destruct (Z.testbit d n), (Z.testbit 1 (n - 16)); reflexivity.
Qed.

Lemma squash_range : forall c, 0 <= c < 1114112 -> 0 <= squash c < 1114112.
Proof.
  intros c R. unfold squash. destruct (Z.ltb_spec c 65536); [lia|].
  assert (0 <= c / 65536 - 1 < 16).
  { split; [|assert (c / 65536 < 17) by (apply Z.div_lt_upper_bound; lia); lia].
    assert (1 <= c / 65536) by (apply Z.div_le_lower_bound; lia). lia. }
  pose proof (Z.mod_pos_bound c 65536 ltac:(lia)).
  assert (0 <= Z.lor (c / 65536 - 1) 1 < 16).
  { change 16 with (2 ^ 4) in *. rewrite testbit_range_u in * by lia. intros i Hi. rewrite Z.lor_spec, H0 by lia.
    rewrite Z.bits_above_log2; auto; [lia|]. change (Z.log2 1) with 0. lia. }
  lia.
Qed.

Lemma utf16_loop_ok : forall l, Forall scalar l ->
  utf16_loop (flat_map utf16 l) = flat_map (fun c => utf8 (squash c)) l.
Proof.
  induction l as [|c l IH]; intros F; auto. inversion F as [|? ? S F']; subst.
  destruct S as [R NS]. specialize (IH F'). cbn [flat_map].
  destruct (Z.ltb_spec c 65536) as [L|L].
  - unfold utf16 at 1. replace (c <? 65536) with true by lia. cbn [app utf16_loop].
    replace (squash c) with c by (unfold squash; replace (c <? 65536) with true by lia; reflexivity).
    rewrite <- IH, <- encode_ok by lia.
    destruct (flat_map utf16 l) as [|d1 r]; auto.
    destruct (Z.eq_dec c 56320) as [->|N]; [lia|].
    replace ((55296 <=? c) && (c <=? 56320)) with false by lia. reflexivity.
  - unfold utf16 at 1. replace (c <? 65536) with false by lia. cbn [app utf16_loop].
    pose proof (Z.mod_pos_bound (c - 65536) 1024 ltac:(lia)).
    assert (0 <= (c - 65536) / 1024 < 1024) by (split; [apply Z.div_pos; lia|apply Z.div_lt_upper_bound; lia]).
    replace ((55296 <=? 55296 + (c - 65536) / 1024) && (55296 + (c - 65536) / 1024 <=? 56320) &&
             (56320 <=? 56320 + (c - 65536) mod 1024) && (56320 + (c - 65536) mod 1024 <? 57344)) with true by lia.
    rewrite join_ok by lia. rewrite IH, encode_ok by (apply squash_range; lia). reflexivity.
Qed.

(** planes 0, 1, 3, 5, ... are unchanged *)
Lemma squash_id : forall c, 0 <= c < 1114112 -> c < 65536 \/ Z.odd (c / 65536) = true -> squash c = c.
Proof.
  intros c R H. unfold squash. destruct (Z.ltb_spec c 65536); auto.
  destruct H as [|O]; [lia|].
  replace (Z.lor (c / 65536 - 1) 1) with (c / 65536).
  - pose proof (Z.div_mod c 65536 ltac:(lia)). lia.
  - apply Z.odd_spec in O. destruct O as [m ->]. replace (2 * m + 1 - 1) with (Z.shiftl m 1) by (rewrite Z.shiftl_mul_pow2 by lia; lia).
    rewrite (byte_or m 1 1); lia.
Qed.
