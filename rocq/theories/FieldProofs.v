From Coq Require Import Lia ZArith Bool.
From Verif Require Import Base IntTypes CSpec IntModel IntProofs FieldModel FieldSpec.
Open Scope Z_scope.

Lemma amount_id : forall n k, n = 32 \/ n = 64 -> 0 <= k < n -> amount n k = k.
Proof.
  intros n k [-> | ->] H; unfold amount; cbn [Z.eqb Pos.eqb]; apply Z.mod_small; lia.
Qed.

(** Shifting a field to the top of an [n]-bit register and down again. *)
Lemma top_bits : forall n i w r, 1 <= w -> 0 <= i -> i + w <= n ->
  wrapu n (r * 2 ^ (n - (i + w))) = 2 ^ (n - w) * ((r / 2 ^ i) mod 2 ^ w) + 2 ^ (n - (i + w)) * (r mod 2 ^ i).
Proof.
  intros n i w r W I N. unfold wrapu.
  replace (2 ^ n) with (2 ^ (i + w) * 2 ^ (n - (i + w))) by (rewrite <- Z.pow_add_r by lia; f_equal; lia).
  pose proof (pow2_pos (n - (i + w)) ltac:(lia)) as P1. pose proof (pow2_pos i I) as P2.
  pose proof (pow2_pos w ltac:(lia)) as P3.
  rewrite Z.mul_mod_distr_r by (try (pose proof (pow2_pos (i + w) ltac:(lia))); lia).
  rewrite (Z.pow_add_r 2 i w) by lia. rewrite Z.rem_mul_r by lia.
  replace (2 ^ (n - w)) with (2 ^ i * 2 ^ (n - (i + w))) by (rewrite <- Z.pow_add_r by lia; f_equal; lia).
  ring.
Qed.

Lemma down_u : forall n i w r, 1 <= w -> 0 <= i -> i + w <= n ->
  wrapu n (r * 2 ^ (n - (i + w))) / 2 ^ (n - w) = (r / 2 ^ i) mod 2 ^ w.
Proof.
  intros n i w r W I N. rewrite top_bits by auto.
  pose proof (pow2_pos (n - (i + w)) ltac:(lia)) as P1. pose proof (pow2_pos i I) as P2.
  pose proof (pow2_pos (n - w) ltac:(lia)) as P3.
  rewrite (Z.mul_comm (2 ^ (n - w))), Z.div_add_l by lia.
  rewrite (Z.div_small (2 ^ (n - (i + w)) * (r mod 2 ^ i))); [lia|].
  pose proof (Z.mod_pos_bound r (2 ^ i) P2).
  replace (2 ^ (n - w)) with (2 ^ (n - (i + w)) * 2 ^ i) by (rewrite <- Z.pow_add_r by lia; f_equal; lia).
  split; [nia|]. apply Z.mul_lt_mono_pos_l; lia.
Qed.

Lemma down_s : forall n i w r, 1 <= w -> 0 <= i -> i + w <= n ->
  wraps n (r * 2 ^ (n - (i + w))) / 2 ^ (n - w) = reduced S32 w (r / 2 ^ i).
Proof.
  intros n i w r W I N. unfold wraps, reduced. cbn [signed].
  pose proof (down_u n i w r W I N) as D.
  pose proof (top_bits n i w r W I N) as T.
  unfold wrapu in D, T.
  set (x := (r * 2 ^ (n - (i + w))) mod 2 ^ n) in *.
  set (f := (r / 2 ^ i) mod 2 ^ w) in *.
  pose proof (pow2_pos (n - (i + w)) ltac:(lia)) as P1. pose proof (pow2_pos i I) as P2.
  pose proof (pow2_pos (n - w) ltac:(lia)) as P3. pose proof (pow2_pos (w - 1) ltac:(lia)) as P4.
  assert (Q : 2 ^ (n - 1) = 2 ^ (n - w) * 2 ^ (w - 1)) by (rewrite <- Z.pow_add_r by lia; f_equal; lia).
  assert (Q2 : 2 ^ n = 2 ^ (n - w) * 2 ^ w) by (rewrite <- Z.pow_add_r by lia; f_equal; lia).
  pose proof (Z.div_mod x (2 ^ (n - w)) ltac:(lia)) as DM. rewrite D in DM.
  pose proof (Z.mod_pos_bound x (2 ^ (n - w)) P3) as B.
  destruct (Z.ltb_spec x (2 ^ (n - 1))) as [L|L]; destruct (Z.ltb_spec f (2 ^ (w - 1))) as [L2|L2].
  - exact D.
  - exfalso. nia.
  - exfalso. nia.
  - rewrite Q2. replace (x - 2 ^ (n - w) * 2 ^ w) with (x + (- 2 ^ w) * 2 ^ (n - w)) by ring.
    rewrite Z.div_add by lia. rewrite D. lia.
Qed.

Lemma reduced_signed : forall t w v, signed t = true -> reduced t w v = reduced S32 w v.
Proof. intros t w v E. unfold reduced. rewrite E. reflexivity. Qed.
Lemma reduced_unsigned : forall t w v, signed t = false -> reduced t w v = v mod 2 ^ w.
Proof. intros t w v E. unfold reduced. rewrite E. reflexivity. Qed.

Lemma reduced_range : forall t w v, 1 <= w -> - 2 ^ (w - 1) <= reduced t w v < 2 ^ w /\
  (signed t = true -> reduced t w v < 2 ^ (w - 1)) /\ (signed t = false -> 0 <= reduced t w v).
Proof.
  intros t w v W. unfold reduced.
  pose proof (pow2_pos (w - 1) ltac:(lia)) as P4. pose proof (pow2_pos w ltac:(lia)) as P5.
  pose proof (Z.mod_pos_bound v (2 ^ w) P5).
  assert (2 ^ w = 2 * 2 ^ (w - 1)) by (rewrite <- Z.pow_succ_r by lia; f_equal; lia).
  destruct (signed t); [destruct (Z.ltb_spec (v mod 2 ^ w) (2 ^ (w - 1)))|];
    (split; [lia|split; intros; try discriminate; lia]).
Qed.

Lemma reduced_cong : forall t w v v', v mod 2 ^ w = v' mod 2 ^ w -> reduced t w v = reduced t w v'.
Proof. intros t w v v' E. unfold reduced. rewrite E. reflexivity. Qed.

Lemma reduced_mod : forall t w v, 0 <= w -> reduced t w v mod 2 ^ w = v mod 2 ^ w.
Proof.
  intros t w v W. unfold reduced. pose proof (pow2_pos w W).
  destruct (signed t); [destruct (v mod 2 ^ w <? 2 ^ (w - 1))|]; try (apply Z.mod_mod; lia).
  replace (v mod 2 ^ w - 2 ^ w) with (v mod 2 ^ w + (-1) * 2 ^ w) by ring.
  rewrite Z.mod_add by lia. apply Z.mod_mod; lia.
Qed.

Lemma div_mod_cong : forall a b i w n, 0 <= i -> 0 <= w -> i + w <= n ->
  a mod 2 ^ n = b mod 2 ^ n -> (a / 2 ^ i) mod 2 ^ w = (b / 2 ^ i) mod 2 ^ w.
Proof.
  intros a b i w n I W N E. rewrite <- !Z.land_ones, <- !Z.shiftr_div_pow2 by lia.
  apply Z.bits_inj'. intros k K. rewrite !Z.land_spec, Z.testbit_ones_nonneg by lia.
  destruct (Z.ltb_spec k w) as [L|L]; [|rewrite !andb_false_r; reflexivity].
  rewrite !andb_true_r, !Z.shiftr_spec by lia.
  apply (f_equal (fun z => Z.testbit z (k + i))) in E.
  rewrite !Z.mod_pow2_bits_low in E by lia. exact E.
Qed.

Definition unit_bits (t : ity) : Z := if size t <=? 4 then 32 else 64.

Lemma unit_bits_cases : forall t, (unit_bits t = 32 \/ unit_bits t = 64) /\ width t <= unit_bits t.
Proof. destruct t; cbn; lia. Qed.

Lemma load_register : forall t index w u r, fits_unit t index w ->
  r mod 2 ^ width t = u mod 2 ^ width t ->
  snd (emit_load_bitfield (mkbitfield t index w) r) mod 2 ^ unit_bits t = field_value t index w u mod 2 ^ unit_bits t.
Proof.
  intros t index w u r (W & I & F) E. unfold emit_load_bitfield. cbn [base_type bit_index field_width snd].
  fold (unit_bits t). destruct (unit_bits_cases t) as [C L]. set (n := unit_bits t) in *.
  assert (N : index + w <= n) by lia.
  set (r1 := if index + w <? n then shift_left n r (n - (index + w)) else r).
  assert (R1 : wrapu n r1 = wrapu n (r * 2 ^ (n - (index + w)))).
  { unfold r1. destruct (Z.ltb_spec (index + w) n) as [H|H].
    - unfold shift_left. rewrite amount_id by (try assumption; lia). apply Z.mod_mod.
      pose proof (pow2_pos n ltac:(lia)). lia.
    - replace (n - (index + w)) with 0 by lia. rewrite Z.mul_1_r. reflexivity. }
  assert (R1s : wraps n r1 = wraps n (r * 2 ^ (n - (index + w)))).
  { unfold wraps. unfold wrapu in R1. rewrite R1. reflexivity. }
  assert (FV : forall x, field_value t index w u = reduced t w x <-> reduced t w (u / 2 ^ index) = reduced t w x)
    by (intro; reflexivity).
  assert (FE : field_value t index w u = reduced t w (r / 2 ^ index)).
  { unfold field_value. apply reduced_cong. symmetry. apply (div_mod_cong _ _ index w (width t)); lia. }
  rewrite FE. clear FV FE.
  destruct (Z.eqb_spec w n) as [Wn|Wn]; cbn [negb].
  - assert (index = 0) by lia. subst index. cbn [Z.pow]. rewrite Z.div_1_r.
    rewrite <- Wn. rewrite reduced_mod by lia.
    rewrite Wn. change (wrapu n r1 = wrapu n r). rewrite R1. replace (n - (0 + w)) with 0 by lia.
    rewrite Z.mul_1_r. reflexivity.
  - rewrite signed_eq. destruct (signed t) eqn:Sg.
    + unfold shift_arithmetic_right. rewrite amount_id by (try assumption; lia). rewrite R1s.
      rewrite (down_s n index w r) by auto. rewrite (reduced_signed t w _ Sg).
      unfold wrapu. apply Z.mod_mod. pose proof (pow2_pos n ltac:(lia)); lia.
    + unfold shift_right. rewrite amount_id by (try assumption; lia). rewrite R1.
      rewrite (down_u n index w r) by auto. rewrite (reduced_unsigned t w _ Sg). reflexivity.
Qed.

Lemma load_size : forall b r, fst (emit_load_bitfield b r) = if field_width b <=? 32 then 32 else 64.
Proof. reflexivity. Qed.

(** The mask of the field is [2^w - 1] for widths below 64. *)
Lemma mask_ones : forall w, 1 <= w < 64 -> wrapu 64 (u64_shift_left 1 w - 1) = Z.ones w.
Proof.
  intros w W. unfold u64_shift_left. rewrite (Z.mod_small w 64), Z.mul_1_l by lia.
  pose proof (pow2_pos w ltac:(lia)).
  assert (2 ^ w < 2 ^ 64) by (apply Z.pow_lt_mono_r; lia).
  rewrite (wrapu_id 64 (2 ^ w)) by lia. rewrite wrapu_id by lia. rewrite Z.ones_equiv. lia.
Qed.

Lemma wrapu_testbit : forall n x i, 0 <= n -> 0 <= i -> Z.testbit (wrapu n x) i = (i <? n) && Z.testbit x i.
Proof.
  intros n x i N I. unfold wrapu. destruct (Z.ltb_spec i n).
  - rewrite Z.mod_pow2_bits_low by lia. reflexivity.
  - rewrite Z.mod_pow2_bits_high by lia. reflexivity.
Qed.

Lemma mul_pow_testbit : forall x k i, 0 <= k -> 0 <= i -> Z.testbit (x * 2 ^ k) i = (k <=? i) && Z.testbit x (i - k).
Proof.
  intros x k i K I. destruct (Z.leb_spec k i).
  - rewrite Z.mul_pow2_bits by lia. reflexivity.
  - rewrite Z.mul_pow2_bits_low by lia. reflexivity.
Qed.

Lemma store_replaces : forall t index w u v lhs rhs, fits_unit t index w -> w < 64 ->
  lhs mod 2 ^ width t = u mod 2 ^ width t -> rhs mod 2 ^ width t = v mod 2 ^ width t ->
  replaced t index w u v (emit_store_bitfield (mkbitfield t index w) lhs rhs).
Proof.
  intros t index w u v lhs rhs (W & I & F) W64 EL ER.
  assert (TW : 0 < width t <= 64) by (destruct t; cbn; lia).
  unfold emit_store_bitfield. cbn [base_type bit_index field_width]. rewrite bits_width.
  set (n := match size t with 2 => 16 | 8 => 64 | _ => 32 end).
  assert (Hn : width t <= n /\ (n = 16 \/ n = 32 \/ n = 64)) by (unfold n; destruct t; cbn; lia).
  rewrite mask_ones by lia.
  assert (AM : amount n index = index).
  { unfold amount. destruct (Z.eqb_spec n 64); apply Z.mod_small; [lia|].
    unfold n in n0. destruct t; cbn in *; lia. }
  assert (EL' : forall i, 0 <= i < width t -> Z.testbit lhs i = Z.testbit u i).
  { intros i Hi. apply (f_equal (fun z => Z.testbit z i)) in EL. rewrite !Z.mod_pow2_bits_low in EL by lia. exact EL. }
  assert (ER' : forall i, 0 <= i < width t -> Z.testbit rhs i = Z.testbit v i).
  { intros i Hi. apply (f_equal (fun z => Z.testbit z i)) in ER. rewrite !Z.mod_pow2_bits_low in ER by lia. exact ER. }
  split; [apply wrapu_range; lia|].
  intros i Hi. rewrite wrapu_testbit by lia.
  destruct (Z.ltb_spec i (width t)) as [_|H]; [|lia]. cbn [andb].
  rewrite Z.lor_spec, Z.land_spec, wrapu_testbit, Z.lnot_spec by lia.
  unfold u64_shift_left. rewrite (Z.mod_small index 64) by lia.
  rewrite wrapu_testbit, mul_pow_testbit by lia.
  destruct (Z.ltb_spec i 64) as [_|H]; [|lia]. cbn [andb].
  assert (SH : Z.testbit (if index =? 0 then Z.land rhs (Z.ones w) else shift_left n (Z.land rhs (Z.ones w)) index) i
             = (index <=? i) && Z.testbit (Z.land rhs (Z.ones w)) (i - index)).
  { destruct (Z.eqb_spec index 0) as [->|H].
    - destruct (Z.leb_spec 0 i); [|lia]. rewrite Z.sub_0_r. reflexivity.
    - unfold shift_left. rewrite AM, wrapu_testbit, mul_pow_testbit by lia.
      destruct (Z.ltb_spec i n); [reflexivity|lia]. }
  rewrite SH. destruct (Z.leb_spec index i) as [G|G]; cbn [andb].
  - rewrite Z.land_spec, !Z.testbit_ones_nonneg by lia.
    destruct (Z.ltb_spec i (index + w)) as [G2|G2]; destruct (Z.ltb_spec (i - index) w) as [G3|G3]; try lia; cbn [andb negb].
    + rewrite andb_false_r, andb_true_r. cbn [orb]. apply ER'. lia.
    + rewrite andb_true_r, andb_false_r, orb_false_r. apply EL'. lia.
  - cbn [negb]. rewrite andb_true_r, orb_false_r. apply EL'. lia.
Qed.

(** Replacing a field and reading it. *)
Lemma replaced_value : forall t index w u v u', fits_unit t index w -> replaced t index w u v u' ->
  field_value t index w u' = reduced t w v.
Proof.
  intros t index w u v u' (W & I & F) (R & B). unfold field_value. apply reduced_cong.
  rewrite <- !Z.land_ones, <- Z.shiftr_div_pow2 by lia. apply Z.bits_inj'. intros k K.
  rewrite !Z.land_spec, Z.testbit_ones_nonneg, Z.shiftr_spec by lia.
  destruct (Z.ltb_spec k w) as [L|L]; [|rewrite !andb_false_r; reflexivity]. rewrite !andb_true_r.
  rewrite B by lia. destruct (Z.leb_spec index (k + index)); [|lia].
  destruct (Z.ltb_spec (k + index) (index + w)); [|lia]. cbn [andb]. f_equal. lia.
Qed.

Lemma replaced_other : forall t index w u v u' j x, fits_unit t index w -> fits_unit t j x ->
  index + w <= j \/ j + x <= index -> replaced t index w u v u' ->
  field_value t j x u' = field_value t j x u.
Proof.
  intros t index w u v u' j x (W & I & F) (X & J & G) D (R & B). unfold field_value. apply reduced_cong.
  rewrite <- !Z.land_ones, <- !Z.shiftr_div_pow2 by lia. apply Z.bits_inj'. intros k K.
  rewrite !Z.land_spec, Z.testbit_ones_nonneg, !Z.shiftr_spec by lia.
  destruct (Z.ltb_spec k x) as [L|L]; [|rewrite !andb_false_r; reflexivity]. rewrite !andb_true_r.
  rewrite B by lia. destruct (Z.leb_spec index (k + j)); [|reflexivity].
  destruct (Z.ltb_spec (k + j) (index + w)); [lia|reflexivity].
Qed.
