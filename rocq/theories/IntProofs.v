(** Lemmas about the integer-constant model. *)
From Verif Require Import Base IntTypes CSpec IntModel.

Definition wrap_t (t : ity) (v : Z) : Z :=
  if signed t then wraps (width t) v else wrapu (width t) v.

Lemma width_pos : forall t, 0 < width t.
Proof. destruct t; simpl; lia. Qed.

Lemma bits_width : forall t, bits t = width t.
Proof. destruct t; reflexivity. Qed.

Lemma signed_eq : forall t, type_is_signed t = signed t.
Proof. destruct t; reflexivity. Qed.

Lemma value_wrap : forall t p, value_of_bits t p = wrap_t t p.
Proof.
  intros. unfold value_of_bits, wrap_t, maxv, wraps, wrapu.
  pose proof (width_pos t).
  destruct (signed t).
  - destruct (Z.leb_spec (p mod 2^width t) (2^(width t - 1) - 1));
    destruct (Z.ltb_spec (p mod 2^width t) (2^(width t - 1))); lia.
  - pose proof (Z.mod_pos_bound p (2^width t) ltac:(apply pow2_pos; lia)).
    destruct (Z.leb_spec (p mod 2^width t) (2^width t - 1)); lia.
Qed.

Lemma convert_wrap : forall t v, t <> TBool -> convert t v = wrap_t t v.
Proof.
  intros. rewrite <- value_wrap. destruct t; try congruence; reflexivity.
Qed.

Lemma wrap_t_range : forall t v, in_range t (wrap_t t v).
Proof.
  intros. unfold in_range, minv, maxv, wrap_t. pose proof (width_pos t).
  destruct (signed t).
  - pose proof (wraps_range (width t) v ltac:(lia)); lia.
  - pose proof (wrapu_range (width t) v ltac:(lia)); lia.
Qed.

Lemma wrap_t_id : forall t v, in_range t v -> wrap_t t v = v.
Proof.
  intros t v. unfold in_range, minv, maxv, wrap_t. pose proof (width_pos t).
  destruct (signed t); intros.
  - apply wraps_id; lia.
  - apply wrapu_id; lia.
Qed.

Lemma wrap_t_mod : forall t x y, x mod 2^width t = y mod 2^width t -> wrap_t t x = wrap_t t y.
Proof.
  intros. unfold wrap_t. destruct (signed t); [apply wraps_mod | apply wrapu_mod]; auto.
  pose proof (width_pos t); lia.
Qed.

Lemma wrap_t_cong : forall t x, wrap_t t x mod 2^width t = x mod 2^width t.
Proof.
  intros. unfold wrap_t. pose proof (width_pos t). destruct (signed t).
  - apply wraps_mod_eq; lia.
  - apply wrapu_mod_eq; lia.
Qed.

Lemma convert_range : forall t v, in_range t (convert t v).
Proof.
  intros. destruct (ity_eqb_spec t TBool).
  - subst. unfold in_range; simpl. destruct (v =? 0); cbn; lia.
  - rewrite convert_wrap by auto. apply wrap_t_range.
Qed.

Lemma read_value : forall l, read_lit l = value l.
Proof.
  intros. unfold read_lit, value. rewrite value_wrap, signed_eq, bits_width.
  unfold wrap_t, rd_s, rd_u. destruct (signed (lty l)); reflexivity.
Qed.

Lemma value_range : forall l, in_range (lty l) (value l).
Proof. intros. unfold value. rewrite value_wrap. apply wrap_t_range. Qed.

Lemma mod_mod_pow : forall a m n, 0 <= n <= m -> (a mod 2^m) mod 2^n = a mod 2^n.
Proof.
  intros. rewrite <- Znumtheory.Zmod_div_mod; auto.
  - apply pow2_pos; lia.
  - apply pow2_pos; lia.
  - exists (2^(m-n)). rewrite <- Z.pow_add_r by lia. f_equal; lia.
Qed.

Lemma wraps_mod_pow : forall x m n, 0 < n <= m -> wraps m x mod 2^n = x mod 2^n.
Proof.
  intros. rewrite <- (mod_mod_pow (wraps m x) m n) by lia.
  rewrite wraps_mod_eq by lia. apply mod_mod_pow; lia.
Qed.

Lemma wrapu_mod_pow : forall x m n, 0 <= n <= m -> wrapu m x mod 2^n = x mod 2^n.
Proof. intros. unfold wrapu. apply mod_mod_pow; lia. Qed.

Lemma wrap_t_wraps64 : forall t x, wrap_t t (wraps 64 x) = wrap_t t x.
Proof. intros. apply wrap_t_mod, wraps_mod_pow. destruct t; simpl; lia. Qed.
Lemma wrap_t_wrapu64 : forall t x, wrap_t t (wrapu 64 x) = wrap_t t x.
Proof. intros. apply wrap_t_mod, wrapu_mod_pow. destruct t; simpl; lia. Qed.

Lemma wr_mod : forall n p v, 0 <= n -> wr n p v mod 2^n = v mod 2^n.
Proof.
  intros. unfold wr, wrapu.
  pose proof (pow2_pos n H).
  replace (p - p mod 2^n + v mod 2^n) with (v mod 2^n + (p / 2^n) * 2^n).
  - rewrite Z.mod_add by lia. apply Z.mod_mod; lia.
  - pose proof (Z.div_mod p (2^n) ltac:(lia)). lia.
Qed.

Lemma value_wr : forall t p v, value (mklit t (wr (width t) p v)) = wrap_t t v.
Proof.
  intros. unfold value. simpl. rewrite value_wrap. apply wrap_t_mod, wr_mod.
  pose proof (width_pos t); lia.
Qed.

Lemma value_wrapu64 : forall t v, value (mklit t (wrapu 64 v)) = wrap_t t v.
Proof. intros. unfold value; simpl. rewrite value_wrap. apply wrap_t_wrapu64. Qed.

Lemma value_b2z : forall t b, value (mklit t (b2z b)) = b2z b.
Proof. intros. destruct t, b; reflexivity. Qed.

Lemma in_range_64 : forall l, - 2^63 <= value l < 2^64.
Proof.
  intros. pose proof (value_range l). destruct (lty l); cbn in H;
  unfold in_range, minv, maxv in H; cbn in H; lia.
Qed.

Lemma as_u64_zero : forall l, (integer_literal_as_u64 l =? 0) = (value l =? 0).
Proof.
  intros. unfold integer_literal_as_u64. rewrite read_value.
  pose proof (in_range_64 l). unfold wrapu.
  destruct (Z.eqb_spec (value l) 0) as [E|E].
  - rewrite E. reflexivity.
  - apply Z.eqb_neq. intros C.
    apply Z.mod_divide in C; [|lia]. destruct C as [k C]. 
    assert (k = 0 \/ k <= -1 \/ k >= 1) by lia. lia.
Qed.

(** Casts. *)
Lemma push_cast_ty : forall t l, lty (push_cast t l) = t.
Proof.
  intros. unfold push_cast. destruct (ity_eqb_spec (lty l) t); auto.
  destruct t; reflexivity.
Qed.

Lemma b2z_neg_eqb : forall v, (if v =? 0 then 0 else 1) = b2z (negb (v =? 0)).
Proof. intros; destruct (v =? 0); reflexivity. Qed.

Lemma push_cast_value : forall t l,
  lty l <> TBool \/ value l = 0 \/ value l = 1 ->
  value (push_cast t l) = convert t (value l).
Proof.
  intros t l HB. unfold push_cast.
  destruct (ity_eqb_spec (lty l) t) as [E|E].
  - subst t. destruct (ity_eqb_spec (lty l) TBool) as [E|E].
    + destruct HB as [?|[V|V]]; [congruence| |]; rewrite E, V; reflexivity.
    + rewrite convert_wrap by auto. symmetry. apply wrap_t_id, value_range.
  - destruct t.
    + cbn [convert]. rewrite b2z_neg_eqb. change 8 with (width TBool).
      rewrite value_wr, as_u64_zero. destruct (value l =? 0); reflexivity.
    + cbn [type_is_signed]. rewrite value_wrapu64. unfold integer_literal_as_s64.
      rewrite wrap_t_wraps64, read_value, convert_wrap; congruence.
    + cbn [type_is_signed]. unfold integer_literal_as_u64. rewrite value_wrapu64, read_value, convert_wrap; congruence.
    + cbn [type_is_signed]. rewrite value_wrapu64. unfold integer_literal_as_s64.
      rewrite wrap_t_wraps64, read_value, convert_wrap; congruence.
    + cbn [type_is_signed]. unfold integer_literal_as_u64. rewrite value_wrapu64, read_value, convert_wrap; congruence.
    + cbn [type_is_signed]. rewrite value_wrapu64. unfold integer_literal_as_s64.
      rewrite wrap_t_wraps64, read_value, convert_wrap; congruence.
    + cbn [type_is_signed]. unfold integer_literal_as_u64. rewrite value_wrapu64, read_value, convert_wrap; congruence.
    + cbn [type_is_signed]. rewrite value_wrapu64. unfold integer_literal_as_s64.
      rewrite wrap_t_wraps64, read_value, convert_wrap; congruence.
    + cbn [type_is_signed]. unfold integer_literal_as_u64. rewrite value_wrapu64, read_value, convert_wrap; congruence.
Qed.

(** Conversions. *)
Lemma promotions_eq : forall t, perform_integer_promotions t = promote t.
Proof. destruct t; reflexivity. Qed.

Lemma usual_int_eq : forall a b, usual_conversions_int a b = Some (usual_int a b).
Proof. destruct a, b; reflexivity. Qed.

Lemma usual_eq : forall a b, perform_usual_arithmetic_conversions a b = Some (usual a b).
Proof.
  destruct a as [a| |], b as [b| |]; try reflexivity.
  simpl. rewrite usual_int_eq. reflexivity.
Qed.

Lemma usual_int_cases : forall a b,
  usual_int a b = S32 \/ usual_int a b = U32 \/ usual_int a b = S64 \/ usual_int a b = U64.
Proof.
  intros.
  assert (H : usual_conversions_int a b = Some S32 \/ usual_conversions_int a b = Some U32 \/
              usual_conversions_int a b = Some S64 \/ usual_conversions_int a b = Some U64)
    by (destruct a, b; auto).
  rewrite usual_int_eq in H. intuition congruence.
Qed.

Lemma promote_wider : forall t, width t <= width (promote t).
Proof. destruct t; cbn; lia. Qed.

Lemma promote_keeps : forall t v, in_range t v -> convert (promote t) v = v.
Proof.
  intros t v R. assert (promote t <> TBool) by (destruct t; discriminate).
  rewrite convert_wrap by auto. apply wrap_t_id.
  destruct t; unfold in_range, minv, maxv in *; cbn in *; lia.
Qed.

(** The 8-byte members are never read through the 32-bit readers. *)
Lemma readers32_no_assert : forall a b,
  usual_int a b = S32 \/ usual_int a b = U32 -> size a <= 4 /\ size b <= 4.
Proof.
  intros a b H.
  assert (G : usual_conversions_int a b = Some S32 \/ usual_conversions_int a b = Some U32)
    by (rewrite usual_int_eq; intuition congruence).
  clear H. destruct a, b; simpl in *; destruct G; try discriminate; lia.
Qed.

(** Arithmetic. *)
Lemma fold_at_arith : forall t o x y p,
  t = S32 \/ t = U32 \/ t = S64 \/ t = U64 ->
  in_range t x -> in_range t y ->
  forall v, arith_sem o t x y = Some v ->
  exists q, fold_at (signed t) (width t) (FArith o) x y p = Done q /\ value (mklit t q) = v.
Proof.
  intros t o x y p Ht Rx Ry v.
  assert (NB : t <> TBool) by (intros ->; intuition congruence).
  destruct o; cbn [arith_sem fold_at]; intros E.
  - inversion E; subst. eexists; split; [reflexivity|]. rewrite value_wr, convert_wrap; auto.
  - inversion E; subst. eexists; split; [reflexivity|]. rewrite value_wr, convert_wrap; auto.
  - inversion E; subst. eexists; split; [reflexivity|]. rewrite value_wr, convert_wrap; auto.
  - destruct (Z.eqb_spec y 0); [discriminate|].
    destruct (representable t (x ÷ y)) eqn:R; [|discriminate]. inversion E; subst.
    assert (IR : in_range t (x ÷ y)).
    { unfold representable in R. unfold in_range. lia. }
    assert (T : trapping_division (signed t) (width t) x y = false).
    { unfold trapping_division. destruct (signed t) eqn:Sg; auto. simpl.
      destruct (Z.eqb_spec x (- 2 ^ (width t - 1))); auto. simpl.
      destruct (Z.eqb_spec y (-1)); auto. subst x y.
      exfalso. revert IR. unfold in_range, maxv. rewrite Sg.
      change (-1) with (- (1)). rewrite Z.quot_opp_r, Z.quot_1_r by lia. lia. }
    rewrite T. eexists; split; [reflexivity|]. rewrite value_wr. apply wrap_t_id; auto.
  - destruct (Z.eqb_spec y 0); [discriminate|].
    destruct (representable t (x ÷ y)) eqn:R; [|discriminate]. inversion E; subst.
    assert (IR : in_range t (x ÷ y)).
    { unfold representable in R. unfold in_range. lia. }
    assert (T : trapping_division (signed t) (width t) x y = false).
    { unfold trapping_division. destruct (signed t) eqn:Sg; auto. simpl.
      destruct (Z.eqb_spec x (- 2 ^ (width t - 1))); auto. simpl.
      destruct (Z.eqb_spec y (-1)); auto. subst x y.
      exfalso. revert IR. unfold in_range, maxv. rewrite Sg.
      change (-1) with (- (1)). rewrite Z.quot_opp_r, Z.quot_1_r by lia. lia. }
    rewrite T. eexists; split; [reflexivity|]. rewrite value_wr. apply wrap_t_id; auto.
    assert (IR0 : Z.abs (Z.rem x y) <= Z.abs x).
    { pose proof (Z.rem_bound_abs x y ltac:(lia)).
      destruct (Z_le_gt_dec (Z.abs y) (Z.abs x)).
      - lia.
      - enough (Z.rem x y = x) by lia. apply Z.rem_small_iff; lia. }
    assert (Z.rem x y = 0 \/ Z.sgn (Z.rem x y) = Z.sgn x).
    { destruct (Z.eq_dec (Z.rem x y) 0); auto. right. apply Z.rem_sign_nz; lia. }
    unfold in_range in *. unfold minv, maxv in *. 
    destruct (signed t) eqn:Sg; lia.
Qed.

Lemma fold_at_cmp : forall sg n o x y p,
  fold_at sg n (FCmp o) x y p = Done (cmp_sem o x y).
Proof. intros. destruct o; reflexivity. Qed.

Lemma as_t : forall l,
  integer_literal_as_s32 l = wrap_t S32 (value l) /\
  integer_literal_as_u32 l = wrap_t U32 (value l) /\
  integer_literal_as_s64 l = wrap_t S64 (value l) /\
  integer_literal_as_u64 l = wrap_t U64 (value l).
Proof.
  intros. unfold integer_literal_as_s32, integer_literal_as_u32, integer_literal_as_s64, integer_literal_as_u64.
  rewrite read_value. repeat split; reflexivity.
Qed.

Lemma fold_arith_ok : forall o l r t v,
  t = usual_int (lty l) (lty r) ->
  arith_sem o t (convert t (value l)) (convert t (value r)) = Some v ->
  exists q, fold_arith o l r = Done q /\ lty q = t /\ value q = v.
Proof.
  intros o l r t v Ht E. unfold fold_arith, perform_integer_operation. rewrite usual_int_eq, <- Ht.
  destruct (as_t l) as (A1&A2&A3&A4). destruct (as_t r) as (B1&B2&B3&B4).
  destruct (usual_int_cases (lty l) (lty r)) as [C|[C|[C|C]]]; rewrite C in Ht; subst t;
  rewrite !convert_wrap in E by discriminate.
  - rewrite A1, B1.
    destruct (fold_at_arith S32 o _ _ (payload l) ltac:(auto) (wrap_t_range _ _) (wrap_t_range _ _) _ E) as (q&Q&V).
    cbn [signed width] in Q. rewrite Q. eexists; split; [reflexivity|]. auto.
  - rewrite A2, B2.
    destruct (fold_at_arith U32 o _ _ (payload l) ltac:(auto) (wrap_t_range _ _) (wrap_t_range _ _) _ E) as (q&Q&V).
    cbn [signed width] in Q. rewrite Q. eexists; split; [reflexivity|]. auto.
  - rewrite A3, B3.
    destruct (fold_at_arith S64 o _ _ (payload l) ltac:(auto) (wrap_t_range _ _) (wrap_t_range _ _) _ E) as (q&Q&V).
    cbn [signed width] in Q. rewrite Q. eexists; split; [reflexivity|]. auto.
  - rewrite A4, B4.
    destruct (fold_at_arith U64 o _ _ (payload l) ltac:(auto) (wrap_t_range _ _) (wrap_t_range _ _) _ E) as (q&Q&V).
    cbn [signed width] in Q. rewrite Q. eexists; split; [reflexivity|]. auto.
Qed.

Lemma fold_cmp_ok : forall o l r t,
  t = usual_int (lty l) (lty r) ->
  exists q, fold_cmp o l r = Done q /\ lty q = S32 /\
            value q = cmp_sem o (convert t (value l)) (convert t (value r)).
Proof.
  intros o l r t Ht. unfold fold_cmp, perform_integer_operation. rewrite usual_int_eq, <- Ht.
  destruct (as_t l) as (A1&A2&A3&A4). destruct (as_t r) as (B1&B2&B3&B4).
  destruct (usual_int_cases (lty l) (lty r)) as [C|[C|[C|C]]]; rewrite C in Ht; subst t;
  rewrite !convert_wrap by discriminate; rewrite fold_at_cmp; cbn [obind];
  eexists; (split; [reflexivity|]); split; auto; cbn [payload];
  rewrite ?A1, ?A2, ?A3, ?A4, ?B1, ?B2, ?B3, ?B4; apply value_b2z.
Qed.

(** Bitwise operators. *)
Lemma bit_sem_mod : forall o x y x' y' n, 0 <= n ->
  x mod 2^n = x' mod 2^n -> y mod 2^n = y' mod 2^n ->
  bit_sem o x y mod 2^n = bit_sem o x' y' mod 2^n.
Proof.
  intros. rewrite <- !Z.land_ones in * by lia.
  assert (T : forall i, 0 <= i < n -> Z.testbit x i = Z.testbit x' i).
  { intros. apply (f_equal (fun z => Z.testbit z i)) in H0.
    rewrite !Z.land_spec, Z.ones_spec_low, !andb_true_r in H0 by lia. auto. }
  assert (T' : forall i, 0 <= i < n -> Z.testbit y i = Z.testbit y' i).
  { intros. apply (f_equal (fun z => Z.testbit z i)) in H1.
    rewrite !Z.land_spec, Z.ones_spec_low, !andb_true_r in H1 by lia. auto. }
  apply Z.bits_inj'. intros i Hi. rewrite !Z.land_spec.
  destruct (Z_lt_ge_dec i n).
  - destruct o; cbn [bit_sem]; rewrite ?Z.land_spec, ?Z.lor_spec, ?Z.lxor_spec, T, T' by lia; reflexivity.
  - rewrite Z.ones_spec_high, !andb_false_r by lia. reflexivity.
Qed.

Lemma testbit_range_s : forall n x, 0 < n ->
  (- 2^(n-1) <= x < 2^(n-1) <-> forall i, n - 1 <= i -> Z.testbit x i = Z.testbit x (n-1)).
Proof.
  intros n x Hn. pose proof (pow2_pos (n-1) ltac:(lia)).
  split.
  - intros R i Hi. destruct (Z_lt_ge_dec x 0).
    + assert (forall j, n-1 <= j -> Z.testbit x j = true).
      { intros j Hj. replace x with (- (- x)) by lia. rewrite Z.bits_opp by lia.
        destruct (Z.eq_dec (Z.pred (- x)) 0) as [->|]; [rewrite Z.bits_0; reflexivity|].
        rewrite Z.bits_above_log2; [reflexivity|lia|].
        apply Z.log2_lt_pow2; [lia|]. 
        assert (2^(n-1) <= 2^j) by (apply Z.pow_le_mono_r; lia). lia. }
      rewrite !H0 by lia. reflexivity.
    + assert (forall j, n-1 <= j -> Z.testbit x j = false).
      { intros j Hj. destruct (Z.eq_dec x 0) as [->|]; [apply Z.bits_0|].
        apply Z.bits_above_log2; [lia|]. apply Z.log2_lt_pow2; [lia|].
        assert (2^(n-1) <= 2^j) by (apply Z.pow_le_mono_r; lia). lia. }
      rewrite !H0 by lia. reflexivity.
  - intros T. 
    assert (E : x / 2^(n-1) = 0 \/ x / 2^(n-1) = -1).
    { destruct (Z.testbit x (n-1)) eqn:B.
      - right. apply Z.bits_inj'. intros i Hi. rewrite <- Z.shiftr_div_pow2 by lia.
        rewrite Z.shiftr_spec by lia. rewrite T by lia. rewrite Z.bits_m1 by lia. reflexivity.
      - left. apply Z.bits_inj'. intros i Hi. rewrite <- Z.shiftr_div_pow2 by lia.
        rewrite Z.shiftr_spec by lia. rewrite T by lia. rewrite Z.bits_0. reflexivity. }
    pose proof (Z.div_mod x (2^(n-1)) ltac:(lia)).
    pose proof (Z.mod_pos_bound x (2^(n-1)) ltac:(lia)). 
    destruct E as [E|E]; rewrite E in H0; lia.
Qed.

Lemma testbit_range_u : forall n x, 0 <= n ->
  (0 <= x < 2^n <-> forall i, n <= i -> Z.testbit x i = false).
Proof.
  intros n x Hn. pose proof (pow2_pos n Hn). split.
  - intros R i Hi. destruct (Z.eq_dec x 0) as [->|]; [apply Z.bits_0|].
    apply Z.bits_above_log2; [lia|]. apply Z.log2_lt_pow2; [lia|].
    assert (2^n <= 2^i) by (apply Z.pow_le_mono_r; lia). lia.
  - intros T.
    assert (E : x / 2^n = 0).
    { apply Z.bits_inj'. intros i Hi. rewrite <- Z.shiftr_div_pow2 by lia.
      rewrite Z.shiftr_spec by lia. rewrite T by lia. rewrite Z.bits_0. reflexivity. }
    pose proof (Z.div_mod x (2^n) ltac:(lia)).
    pose proof (Z.mod_pos_bound x (2^n) ltac:(lia)). rewrite E in H0. lia.
Qed.

Lemma bit_sem_range : forall o t x y, in_range t x -> in_range t y -> in_range t (bit_sem o x y).
Proof.
  intros o t x y. unfold in_range, minv, maxv. pose proof (width_pos t).
  destruct (signed t) eqn:Sg; intros Hx Hy.
  - assert (Rx : - 2^(width t - 1) <= x < 2^(width t - 1)) by lia.
    assert (Ry : - 2^(width t - 1) <= y < 2^(width t - 1)) by lia.
    rewrite testbit_range_s in Rx, Ry by lia.
    enough (- 2^(width t - 1) <= bit_sem o x y < 2^(width t - 1)) by lia.
    apply testbit_range_s; [lia|]. intros i Hi.
    destruct o; cbn [bit_sem]; rewrite ?Z.land_spec, ?Z.lor_spec, ?Z.lxor_spec; rewrite (Rx i), (Ry i) by lia; reflexivity.
  - assert (Rx : 0 <= x < 2^(width t)) by lia.
    assert (Ry : 0 <= y < 2^(width t)) by lia.
    rewrite testbit_range_u in Rx, Ry by lia.
    enough (0 <= bit_sem o x y < 2^(width t)) by lia.
    apply testbit_range_u; [lia|]. intros i Hi.
    destruct o; cbn [bit_sem]; rewrite ?Z.land_spec, ?Z.lor_spec, ?Z.lxor_spec; rewrite (Rx i), (Ry i) by lia; reflexivity.
Qed.

Lemma fold_bit_ok : forall o l r t,
  t = usual_int (lty l) (lty r) ->
  exists q, fold_bit o l r = Done q /\ lty q = t /\
            value q = bit_sem o (convert t (value l)) (convert t (value r)).
Proof.
  intros o l r t Ht. unfold fold_bit. rewrite usual_int_eq, <- Ht.
  eexists; split; [reflexivity|]. split; [reflexivity|].
  assert (NB : t <> TBool).
  { subst t. destruct (usual_int_cases (lty l) (lty r)) as [C|[C|[C|C]]]; rewrite C; discriminate. }
  rewrite !convert_wrap by auto.
  unfold value at 1. cbn [lty payload]. rewrite value_wrap.
  rewrite <- (wrap_t_id t (bit_sem o (wrap_t t (value l)) (wrap_t t (value r)))).
  - apply wrap_t_mod. apply bit_sem_mod; [pose proof (width_pos t); lia| |];
    unfold integer_literal_as_u64; rewrite read_value;
    rewrite wrap_t_cong; apply wrapu_mod_pow; destruct t; cbn; lia.
  - apply bit_sem_range; apply wrap_t_range.
Qed.

(** Shifts. *)
Lemma lit_bool_ok : forall l, lty l <> TBool -> lty l <> TBool \/ value l = 0 \/ value l = 1.
Proof. auto. Qed.

Lemma push_cast_promote_value : forall l,
  value (push_cast (perform_integer_promotions (lty l)) l) = value l.
Proof.
  intros l. destruct (ity_eqb_spec (lty l) TBool) as [E|E].
  - rewrite E. cbn [perform_integer_promotions]. unfold push_cast. rewrite E. cbn [ity_eqb type_is_signed].
    rewrite value_wrapu64. unfold integer_literal_as_s64. rewrite wrap_t_wraps64, read_value.
    apply wrap_t_id. pose proof (value_range l). rewrite E in H.
    unfold in_range, minv, maxv in *; cbn in *; lia.
  - rewrite push_cast_value by auto. rewrite promotions_eq. apply promote_keeps, value_range.
Qed.

Lemma promote_not_bool : forall t, promote t <> TBool.
Proof. destruct t; discriminate. Qed.

Lemma value_low_byte : forall l, 0 <= value l < 256 -> rd_u 8 (payload l) = value l.
Proof.
  intros l R. unfold value in *. rewrite value_wrap in *. unfold rd_u, wrapu.
  rewrite <- (Z.mod_small (wrap_t (lty l) (payload l)) 256) by auto.
  change 256 with (2^8).
  rewrite <- (mod_mod_pow (wrap_t (lty l) (payload l)) (width (lty l)) 8) by (destruct (lty l); cbn; lia).
  rewrite wrap_t_cong. rewrite mod_mod_pow by (destruct (lty l); cbn; lia). reflexivity.
Qed.

Lemma shiftr_range : forall t x n, 0 <= n -> in_range t x -> in_range t (Z.shiftr x n).
Proof.
  intros t x n Hn R. rewrite Z.shiftr_div_pow2 by lia.
  pose proof (pow2_pos n Hn). unfold in_range, minv, maxv in *. pose proof (width_pos t).
  pose proof (pow2_pos (width t - 1) ltac:(lia)). pose proof (pow2_pos (width t) ltac:(lia)).
  destruct (signed t).
  - split.
    + apply Z.div_le_lower_bound; nia.
    + apply Z.lt_le_pred. apply Z.div_lt_upper_bound; nia.
  - split.
    + apply Z.div_le_lower_bound; nia.
    + apply Z.lt_le_pred. apply Z.div_lt_upper_bound; nia.
Qed.

Lemma fold_shift_ok : forall left l r,
  0 <= value r < width (promote (lty l)) ->
  exists q, fold_shift left l r = Done q /\ lty q = promote (lty l) /\
            value q = if left then convert (promote (lty l)) (value l * 2 ^ value r)
                      else value l / 2 ^ value r.
Proof.
  intros left l r R. unfold fold_shift.
  set (l' := push_cast (perform_integer_promotions (lty l)) l).
  set (r' := push_cast (perform_integer_promotions (lty r)) r).
  assert (Vl : value l' = value l) by apply push_cast_promote_value.
  assert (Vr : value r' = value r) by apply push_cast_promote_value.
  assert (Tl : lty l' = promote (lty l)) by (unfold l'; rewrite push_cast_ty; apply promotions_eq).
  assert (W : width (promote (lty l)) <= 64) by (destruct (lty l); cbn; lia).
  rewrite read_value, Vr.
  replace (value r <? 0) with false by (symmetry; apply Z.ltb_ge; lia).
  rewrite andb_false_r.
  assert (U : integer_literal_as_u64 r' = value r).
  { unfold integer_literal_as_u64. rewrite read_value, Vr. apply wrapu_id. lia. }
  rewrite U. rewrite Tl.
  replace (size (promote (lty l)) * 8) with (width (promote (lty l))) by (destruct (lty l); reflexivity).
  replace (value r >? width (promote (lty l))) with false by (symmetry; rewrite Z.gtb_ltb; apply Z.ltb_ge; lia).
  rewrite value_low_byte by (rewrite Vr; lia). rewrite Vr.
  rewrite bits_width.
  replace (value r >=? width (promote (lty l))) with false by (symmetry; rewrite Z.geb_leb; apply Z.leb_gt; lia).
  rewrite read_value, Vl.
  destruct left; eexists; (split; [reflexivity|]); (split; [reflexivity|]); rewrite value_wr.
  - rewrite convert_wrap by apply promote_not_bool. rewrite Z.shiftl_mul_pow2 by lia. reflexivity.
  - rewrite wrap_t_id. + apply Z.shiftr_div_pow2; lia.
    + apply shiftr_range; [lia|]. rewrite <- Vl, <- Tl. apply value_range.
Qed.

(** Unary operators. *)
Lemma promotion_on_literal_ok : forall l,
  lty (perform_integer_promotion_on_literal l) = promote (lty l) /\
  value (perform_integer_promotion_on_literal l) = value l.
Proof.
  intros l. unfold perform_integer_promotion_on_literal.
  destruct (size (lty l) >=? 4) eqn:E.
  - split; auto. destruct (lty l); cbn in *; congruence.
  - split.
    + cbn [lty]. destruct (lty l); cbn in *; congruence.
    + rewrite value_wrapu64. unfold integer_literal_as_s64. rewrite wrap_t_wraps64, read_value.
      apply wrap_t_id. pose proof (value_range l).
      destruct (lty l); cbn in E; try discriminate; unfold in_range, minv, maxv in *; cbn in *; lia.
Qed.

Lemma mod_eq_cong : forall x y n, 0 <= n -> x mod 2^n = y mod 2^n -> exists k, x = y + k * 2^n.
Proof.
  intros. pose proof (pow2_pos n H).
  exists (x / 2^n - y / 2^n).
  pose proof (Z.div_mod x (2^n) ltac:(lia)). pose proof (Z.div_mod y (2^n) ltac:(lia)). lia.
Qed.

Lemma opp_mod : forall x y n, 0 <= n -> x mod 2^n = y mod 2^n -> (- x) mod 2^n = (- y) mod 2^n.
Proof.
  intros. destruct (mod_eq_cong x y n H H0) as [k ->].
  replace (- (y + k * 2^n)) with (- y + (- k) * 2^n) by lia. apply mod_add_mul; lia.
Qed.

Lemma lnot_mod : forall x y n, 0 <= n -> x mod 2^n = y mod 2^n -> Z.lnot x mod 2^n = Z.lnot y mod 2^n.
Proof.
  intros. unfold Z.lnot. destruct (mod_eq_cong x y n H H0) as [k ->].
  replace (Z.pred (- (y + k * 2^n))) with (Z.pred (- y) + (- k) * 2^n) by lia. apply mod_add_mul; lia.
Qed.

Lemma fold_un_ok : forall o l,
  exists q, fold_un o l = Done q /\ (lty q, value q) = un_sem o (lty l) (value l).
Proof.
  intros o l. destruct (promotion_on_literal_ok l) as [T V].
  assert (M : payload (perform_integer_promotion_on_literal l) mod 2 ^ width (promote (lty l)) = value l mod 2 ^ width (promote (lty l))).
  { rewrite <- V. unfold value. rewrite value_wrap, T. symmetry. apply wrap_t_cong. }
  assert (W : 0 <= width (promote (lty l)) <= 64) by (destruct (lty l); cbn; lia).
  destruct o; cbn [fold_un un_sem]; (eexists; split; [reflexivity|]).
  - cbn [lty]. rewrite T. f_equal. rewrite bits_width, value_wr.
    rewrite convert_wrap by apply promote_not_bool.
    apply wrap_t_mod. apply opp_mod; [lia|]. unfold rd_s.
    rewrite wraps_mod_pow by (destruct (lty l); cbn; lia). auto.
  - rewrite T, V. reflexivity.
  - cbn [lty]. rewrite T. f_equal. rewrite value_wrapu64.
    rewrite convert_wrap by apply promote_not_bool. apply wrap_t_mod, lnot_mod; [lia|auto].
  - rewrite as_u64_zero. cbn [lty]. rewrite value_b2z. reflexivity.
Qed.

Lemma fold_land_ok : forall l r,
  value (mklit S32 (b2z (negb (integer_literal_as_u64 l =? 0) && negb (integer_literal_as_u64 r =? 0))))
  = b2z (negb (value l =? 0) && negb (value r =? 0)).
Proof. intros. rewrite value_b2z, !as_u64_zero. reflexivity. Qed.

Lemma fold_lor_ok : forall l r,
  value (mklit S32 (b2z (negb (integer_literal_as_u64 l =? 0) || negb (integer_literal_as_u64 r =? 0))))
  = b2z (negb (value l =? 0) || negb (value r =? 0)).
Proof. intros. rewrite value_b2z, !as_u64_zero. reflexivity. Qed.

Definition bool01 (l : lit) : Prop := lty l <> TBool \/ value l = 0 \/ value l = 1.

Lemma push_cast_bool01 : forall t l, bool01 l -> bool01 (push_cast t l).
Proof.
  intros t l B. unfold bool01. rewrite push_cast_ty, push_cast_value by exact B.
  destruct (ity_eqb_spec t TBool); [right|left; auto]. subst. cbn. destruct (value l =? 0); auto.
Qed.

Lemma usual_not_bool : forall a b, usual_int a b <> TBool.
Proof. intros. destruct (usual_int_cases a b) as [C|[C|[C|C]]]; rewrite C; discriminate. Qed.

Ltac inv_bind H :=
  match type of H with
  | bind ?x _ = Some _ => let E := fresh "E" in destruct x as [[? ?]|] eqn:E; [cbn [bind fst snd] in H | discriminate H]
  end.

Theorem fold_correct : forall e t v,
  bool_literals_ok e ->
  ceval e = Some (t, v) ->
  exists l, fold e = Done l /\ lty l = t /\ value l = v /\ bool01 l.
Proof.
  induction e; intros t' v' HB HE; cbn [ceval fold bool_literals_ok] in *.
  - inversion HE; subst. eexists; split; [reflexivity|]. split; [reflexivity|]. split; [reflexivity|].
    unfold bool01. cbn [lty]. destruct (ity_eqb_spec t' TBool); [right|left; auto]. subst. apply HB; auto.
  - inv_bind HE. edestruct IHe as (l&F&T&V&B); eauto. rewrite F. cbn [obind].
    destruct (fold_un_ok o l) as (q&Q&R). rewrite Q. eexists; split; [reflexivity|].
    assert (R2 : (lty q, value q) = (t', v')) by congruence.
    inversion R2 as [[R3 R4]]. split; [auto|]. split; [auto|].
    left. destruct o; cbn [un_sem] in R; inversion R as [[R5 R6]]; rewrite R5; try discriminate; apply promote_not_bool.
  - inv_bind HE. edestruct IHe as (l&F&T&V&B); eauto. rewrite F. cbn [obind].
    eexists; split; [reflexivity|]. inversion HE; subst. split; [apply push_cast_ty|].
    split; [apply push_cast_value; exact B|]. apply push_cast_bool01; auto.
  - destruct HB as [HB1 HB2]. inv_bind HE. inv_bind HE.
    edestruct IHe1 as (l&F&T&V&B); eauto. edestruct IHe2 as (r&F'&T'&V'&B'); eauto.
    rewrite F, F'. cbn [obind].
    destruct (arith_sem o (usual_int i i0) (convert (usual_int i i0) z) (convert (usual_int i i0) z0)) eqn:A; [|discriminate].
    cbn in HE. inversion HE; subst.
    destruct (fold_arith_ok o l r _ v' eq_refl A) as (q&Q&T2&V2).
    exists q. rewrite Q. split; auto. split; auto. split; auto. left. rewrite T2. apply usual_not_bool.
  - destruct HB as [HB1 HB2]. inv_bind HE. inv_bind HE.
    edestruct IHe1 as (l&F&T&V&B); eauto. edestruct IHe2 as (r&F'&T'&V'&B'); eauto.
    rewrite F, F'. cbn [obind]. inversion HE; subst.
    destruct (fold_cmp_ok o l r _ eq_refl) as (q&Q&T2&V2).
    exists q. rewrite Q. split; auto. split; auto. split; auto. left. rewrite T2. discriminate.
  - destruct HB as [HB1 HB2]. inv_bind HE. inv_bind HE.
    edestruct IHe1 as (l&F&T&V&B); eauto. edestruct IHe2 as (r&F'&T'&V'&B'); eauto.
    rewrite F, F'. cbn [obind]. inversion HE; subst.
    destruct (fold_bit_ok o l r _ eq_refl) as (q&Q&T2&V2).
    exists q. rewrite Q. split; auto. split; auto. split; auto. left. rewrite T2. apply usual_not_bool.
  - destruct HB as [HB1 HB2]. inv_bind HE. inv_bind HE.
    edestruct IHe1 as (l&F&T&V&B); eauto. edestruct IHe2 as (r&F'&T'&V'&B'); eauto.
    rewrite F, F'. cbn [obind].
    destruct ((0 <=? z0) && (z0 <? width (promote i))) eqn:G; [|discriminate]. inversion HE; subst.
    destruct (fold_shift_ok true l r) as (q&Q&T2&V2); [lia|].
    exists q. rewrite Q. split; auto. split; auto. split; auto. left. rewrite T2. apply promote_not_bool.
  - destruct HB as [HB1 HB2]. inv_bind HE. inv_bind HE.
    edestruct IHe1 as (l&F&T&V&B); eauto. edestruct IHe2 as (r&F'&T'&V'&B'); eauto.
    rewrite F, F'. cbn [obind].
    destruct ((0 <=? z0) && (z0 <? width (promote i))) eqn:G; [|discriminate]. inversion HE; subst.
    destruct (fold_shift_ok false l r) as (q&Q&T2&V2); [lia|].
    exists q. rewrite Q. split; auto. split; auto. split; auto. left. rewrite T2. apply promote_not_bool.
  - destruct HB as [HB1 HB2]. inv_bind HE. inv_bind HE.
    edestruct IHe1 as (l&F&T&V&B); eauto. edestruct IHe2 as (r&F'&T'&V'&B'); eauto.
    rewrite F, F'. cbn [obind]. inversion HE; subst.
    eexists. split; [reflexivity|]. split; [reflexivity|]. split; [apply fold_land_ok|]. left; discriminate.
  - destruct HB as [HB1 HB2]. inv_bind HE. inv_bind HE.
    edestruct IHe1 as (l&F&T&V&B); eauto. edestruct IHe2 as (r&F'&T'&V'&B'); eauto.
    rewrite F, F'. cbn [obind]. inversion HE; subst.
    eexists. split; [reflexivity|]. split; [reflexivity|]. split; [apply fold_lor_ok|]. left; discriminate.
  - destruct HB as (HB1 & HB2 & HB3). inv_bind HE. inv_bind HE. inv_bind HE.
    edestruct IHe1 as (c&F&T&V&B); eauto. edestruct IHe2 as (l&F'&T'&V'&B'); eauto.
    edestruct IHe3 as (r&F''&T''&V''&B''); eauto.
    rewrite F, F', F''. cbn [obind]. inversion HE; subst. unfold fold_cond. rewrite usual_int_eq.
    rewrite as_u64_zero.
    eexists. split; [reflexivity|]. split; [apply push_cast_ty|].
    destruct (value c =? 0); cbn [negb]; (split; [apply push_cast_value; auto | left; rewrite push_cast_ty; apply usual_not_bool]).
Qed.

(** Converse: whenever folding produces a literal, the expression has a defined value. *)
Lemma fold_at_defined : forall t o x y p q,
  t = S32 \/ t = U32 \/ t = S64 \/ t = U64 ->
  in_range t x -> in_range t y ->
  fold_at (signed t) (width t) (FArith o) x y p = Done q ->
  exists v, arith_sem o t x y = Some v.
Proof.
  intros t o x y p q Ht Rx Ry F.
  assert (Q : forall x y, in_range t x -> in_range t y -> y <> 0 ->
          trapping_division (signed t) (width t) x y = false -> representable t (Z.quot x y) = true).
  { clear. intros x y Rx Ry Hy T.
    unfold representable, in_range, minv, maxv, trapping_division in *. pose proof (width_pos t).
    destruct (signed t).
    - assert (B : - 2 ^ (width t - 1) <= Z.quot x y <= 2 ^ (width t - 1) - 1); [|lia].
      pose proof (pow2_pos (width t - 1) ltac:(lia)).
      destruct (Z.eq_dec y (-1)) as [->|N].
      { change (-1) with (- (1)) at 1 2. rewrite Z.quot_opp_r by lia. rewrite Z.quot_1_r.
        cbn [andb] in T. destruct (Z.eqb_spec x (- 2 ^ (width t - 1))); [discriminate T|]. lia. }
      assert (A : Z.abs (Z.quot x y) <= Z.abs x) by (rewrite <- Z.quot_abs by lia; apply Z.quot_le_upper_bound; nia).
      assert (Z.abs (Z.quot x y) = Z.abs x -> x = 0 \/ y = 1 \/ y = -1).
      { rewrite <- Z.quot_abs by lia. intros EQ.
        destruct (Z.eq_dec x 0); auto. right. destruct (Z.eq_dec (Z.abs y) 1); [lia|].
        pose proof (Z.quot_lt (Z.abs x) (Z.abs y) ltac:(lia) ltac:(lia)). lia. }
      destruct (Z.eq_dec (Z.abs (Z.quot x y)) (Z.abs x)) as [E|E].
      + destruct (H1 E) as [->|[->|]]; [rewrite Z.quot_0_l by lia; lia| rewrite Z.quot_1_r; lia |lia].
      + lia.
    - pose proof (Z.quot_pos x y ltac:(lia) ltac:(lia)).
      pose proof (Z.quot_le_upper_bound x y x ltac:(lia) ltac:(nia)). lia. }
  destruct o; cbn [fold_at arith_sem] in *; eauto.
  - destruct (Z.eqb_spec y 0); [discriminate|].
    destruct (trapping_division (signed t) (width t) x y) eqn:T; [discriminate|].
    rewrite (Q x y) by auto. eauto.
  - destruct (Z.eqb_spec y 0); [discriminate|].
    destruct (trapping_division (signed t) (width t) x y) eqn:T; [discriminate|].
    rewrite (Q x y) by auto. eauto.
Qed.

Lemma fold_arith_defined : forall o l r q,
  fold_arith o l r = Done q ->
  let t := usual_int (lty l) (lty r) in
  exists v, arith_sem o t (convert t (value l)) (convert t (value r)) = Some v.
Proof.
  intros o l r q F t. unfold fold_arith, perform_integer_operation in F. rewrite usual_int_eq in F.
  destruct (as_t l) as (A1&A2&A3&A4). destruct (as_t r) as (B1&B2&B3&B4).
  rewrite A1, A2, A3, A4, B1, B2, B3, B4 in F. fold t in F.
  assert (G : exists p, fold_at (signed t) (width t) (FArith o) (wrap_t t (value l)) (wrap_t t (value r)) (payload l) = Done p).
  { destruct (usual_int_cases (lty l) (lty r)) as [C|[C|[C|C]]]; fold t in C; rewrite C in *; cbn [signed width];
    match type of F with obind ?x _ = _ => destruct x eqn:E; [eauto|discriminate|discriminate] end. }
  destruct G as [p G].
  rewrite !convert_wrap by apply usual_not_bool.
  eapply fold_at_defined; eauto using wrap_t_range. apply usual_int_cases.
Qed.

Lemma fold_shift_defined : forall left l r q, fold_shift left l r = Done q ->
  0 <= value r < width (promote (lty l)).
Proof.
  intros left l r q. unfold fold_shift.
  set (l' := push_cast (perform_integer_promotions (lty l)) l).
  set (r' := push_cast (perform_integer_promotions (lty r)) r).
  assert (Vr : value r' = value r) by apply push_cast_promote_value.
  assert (Tl : lty l' = promote (lty l)) by (unfold l'; rewrite push_cast_ty; apply promotions_eq).
  assert (W : width (promote (lty l)) <= 64) by (destruct (lty l); cbn; lia).
  rewrite read_value, Vr.
  destruct (type_is_signed (lty r') && (value r <? 0)) eqn:N; [discriminate|].
  assert (P : 0 <= value r).
  { pose proof (value_range r') as R. rewrite Vr in R. rewrite signed_eq in N.
    unfold in_range, minv in R. destruct (signed (lty r')); cbn [andb] in N; lia. }
  assert (U : integer_literal_as_u64 r' = value r).
  { unfold integer_literal_as_u64. rewrite read_value, Vr. apply wrapu_id. pose proof (in_range_64 r). lia. }
  rewrite U. rewrite Tl.
  replace (size (promote (lty l)) * 8) with (width (promote (lty l))) by (destruct (lty l); reflexivity).
  destruct (value r >? width (promote (lty l))) eqn:G; [discriminate|].
  rewrite value_low_byte by (rewrite Vr; lia). rewrite Vr, bits_width.
  destruct (value r >=? width (promote (lty l))) eqn:G2; [discriminate|]. intros _. lia.
Qed.

Theorem fold_sound : forall e l,
  bool_literals_ok e ->
  fold e = Done l ->
  ceval e = Some (lty l, value l).
Proof.
  assert (D : forall e l, bool_literals_ok e -> fold e = Done l -> exists t v, ceval e = Some (t, v)).
  2:{ intros e l B F. destruct (D e l B F) as (t & v & E).
      destruct (fold_correct e t v B E) as (l' & F' & T & V & _).
      rewrite F in F'. inversion F'; subst. exact E. }
  assert (K : forall e l t v, bool_literals_ok e -> fold e = Done l -> ceval e = Some (t, v) -> t = lty l /\ v = value l).
  { intros e l t v B F E. destruct (fold_correct e t v B E) as (l' & F' & T & V & _).
    rewrite F in F'. inversion F'; subst. auto. }
  induction e; intros l HB HF; cbn [fold ceval bool_literals_ok] in *.
  - eauto.
  - destruct (fold e) as [x| |] eqn:F; try discriminate.
    destruct (IHe x HB eq_refl) as (t & v & ->). cbn. destruct (un_sem o t v); eauto.
  - destruct (fold e) as [x| |] eqn:F; try discriminate.
    destruct (IHe x HB eq_refl) as (t' & v & ->). cbn [bind]. eauto.
  - destruct HB as [B1 B2]. destruct (fold e1) as [x| |] eqn:F1; try discriminate.
    destruct (fold e2) as [y| |] eqn:F2; try discriminate. cbn [obind] in HF.
    destruct (IHe1 x B1 eq_refl) as (t1 & v1 & E1). destruct (IHe2 y B2 eq_refl) as (t2 & v2 & E2).
    destruct (K _ _ _ _ B1 F1 E1); destruct (K _ _ _ _ B2 F2 E2); subst. rewrite E1, E2. cbn [bind fst snd].
    destruct (fold_arith_defined _ _ _ _ HF) as [v ->]. cbn [bind]. eauto.
  - destruct HB as [B1 B2]. destruct (fold e1) as [x| |] eqn:F1; try discriminate.
    destruct (fold e2) as [y| |] eqn:F2; try discriminate.
    destruct (IHe1 x B1 eq_refl) as (t1 & v1 & ->). destruct (IHe2 y B2 eq_refl) as (t2 & v2 & ->). cbn [bind]. eauto.
  - destruct HB as [B1 B2]. destruct (fold e1) as [x| |] eqn:F1; try discriminate.
    destruct (fold e2) as [y| |] eqn:F2; try discriminate.
    destruct (IHe1 x B1 eq_refl) as (t1 & v1 & ->). destruct (IHe2 y B2 eq_refl) as (t2 & v2 & ->). cbn [bind]. eauto.
  - destruct HB as [B1 B2]. destruct (fold e1) as [x| |] eqn:F1; try discriminate.
    destruct (fold e2) as [y| |] eqn:F2; try discriminate. cbn [obind] in HF.
    destruct (IHe1 x B1 eq_refl) as (t1 & v1 & E1). destruct (IHe2 y B2 eq_refl) as (t2 & v2 & E2).
    destruct (K _ _ _ _ B1 F1 E1); destruct (K _ _ _ _ B2 F2 E2); subst. rewrite E1, E2. cbn [bind fst snd].
    pose proof (fold_shift_defined _ _ _ _ HF).
    replace ((0 <=? value y) && (value y <? width (promote (lty x)))) with true by lia. eauto.
  - destruct HB as [B1 B2]. destruct (fold e1) as [x| |] eqn:F1; try discriminate.
    destruct (fold e2) as [y| |] eqn:F2; try discriminate. cbn [obind] in HF.
    destruct (IHe1 x B1 eq_refl) as (t1 & v1 & E1). destruct (IHe2 y B2 eq_refl) as (t2 & v2 & E2).
    destruct (K _ _ _ _ B1 F1 E1); destruct (K _ _ _ _ B2 F2 E2); subst. rewrite E1, E2. cbn [bind fst snd].
    pose proof (fold_shift_defined _ _ _ _ HF).
    replace ((0 <=? value y) && (value y <? width (promote (lty x)))) with true by lia. eauto.
  - destruct HB as [B1 B2]. destruct (fold e1) as [x| |] eqn:F1; try discriminate.
    destruct (fold e2) as [y| |] eqn:F2; try discriminate.
    destruct (IHe1 x B1 eq_refl) as (t1 & v1 & ->). destruct (IHe2 y B2 eq_refl) as (t2 & v2 & ->). cbn [bind]. eauto.
  - destruct HB as [B1 B2]. destruct (fold e1) as [x| |] eqn:F1; try discriminate.
    destruct (fold e2) as [y| |] eqn:F2; try discriminate.
    destruct (IHe1 x B1 eq_refl) as (t1 & v1 & ->). destruct (IHe2 y B2 eq_refl) as (t2 & v2 & ->). cbn [bind]. eauto.
  - destruct HB as (B1 & B2 & B3). destruct (fold e1) as [x| |] eqn:F1; try discriminate.
    destruct (fold e2) as [y| |] eqn:F2; try discriminate. destruct (fold e3) as [z| |] eqn:F3; try discriminate.
    destruct (IHe1 x B1 eq_refl) as (t1 & v1 & ->). destruct (IHe2 y B2 eq_refl) as (t2 & v2 & ->).
    destruct (IHe3 z B3 eq_refl) as (t3 & v3 & ->). cbn [bind]. eauto.
Qed.

Lemma bitfield_promotion_ok : forall base w, 1 <= w <= width base -> rank base <= 4 ->
  bitfield_operand_type base w = promote_bitfield base w.
Proof.
  intros base w H _. unfold bitfield_operand_type, promote_bitfield, fits, bitfield_min, bitfield_max.
  rewrite signed_eq. unfold minv, maxv. change (signed S32) with true. change (signed U32) with false. cbv iota.
  change (width S32) with 32. change (width U32) with 32.
  pose proof (pow2_pos (w - 1) ltac:(lia)) as P.
  assert (E : 2 ^ w = 2 * 2 ^ (w - 1)) by (apply pow2_split; lia).
  destruct (Z.ltb_spec w 32).
  - assert (2 ^ w <= 2 ^ 31) by (apply Z.pow_le_mono_r; lia).
    destruct (signed base).
    + replace (_ && _) with true by lia. reflexivity.
    + replace (_ && _) with true by lia. reflexivity.
  - destruct (Z.eqb_spec w 32).
    + subst. destruct (signed base); reflexivity.
    + assert (2 ^ 33 <= 2 ^ w) by (apply Z.pow_le_mono_r; lia).
      destruct (signed base).
      * replace ((- 2 ^ (32 - 1) <=? - 2 ^ (w - 1)) && (2 ^ (w - 1) - 1 <=? 2 ^ (32 - 1) - 1)) with false by lia.
        replace ((0 <=? - 2 ^ (w - 1)) && (2 ^ (w - 1) - 1 <=? 2 ^ 32 - 1)) with false by lia. reflexivity.
      * replace ((- 2 ^ (32 - 1) <=? 0) && (2 ^ w - 1 <=? 2 ^ (32 - 1) - 1)) with false by lia.
        replace ((0 <=? 0) && (2 ^ w - 1 <=? 2 ^ 32 - 1)) with false by lia. reflexivity.
Qed.

Lemma usual_int_comm : forall a b, usual_int a b = usual_int b a.
Proof.
  intros. assert (usual_conversions_int a b = usual_conversions_int b a) by (destruct a, b; reflexivity).
  rewrite !usual_int_eq in H. congruence.
Qed.

Lemma usual_comm : forall a b, usual a b = usual b a.
Proof.
  destruct a, b; try reflexivity. cbn [usual]. f_equal. apply usual_int_comm.
Qed.

Lemma convert_characterised : forall t v w, t <> TBool ->
  (convert t v = w <-> in_range t w /\ (w - v) mod 2 ^ width t = 0).
Proof.
  intros t v w N. rewrite convert_wrap by auto. pose proof (width_pos t).
  pose proof (pow2_pos (width t) ltac:(lia)). split.
  - intros <-. split; [apply wrap_t_range|].
    destruct (mod_eq_cong _ _ (width t) ltac:(lia) (wrap_t_cong t v)) as [k E].
    replace (wrap_t t v - v) with (k * 2 ^ width t) by lia. apply Z.mod_mul; lia.
  - intros [R C]. rewrite <- (wrap_t_id t w R). apply wrap_t_mod.
    apply Z.mod_divide in C; [|lia]. destruct C as [k C].
    replace w with (v + k * 2 ^ width t) by lia. rewrite Z.mod_add by lia. reflexivity.
Qed.

Lemma convert_zero : forall t, convert t 0 = 0.
Proof. destruct t; reflexivity. Qed.

Lemma fold_zero_divisor : forall o l r,
  o = ODiv \/ o = OMod -> lty r <> TBool -> value r = 0 -> fold_arith o l r = Reported.
Proof.
  intros o l r Ho _ V. unfold fold_arith, perform_integer_operation. rewrite usual_int_eq.
  destruct (as_t l) as (A1&A2&A3&A4). destruct (as_t r) as (B1&B2&B3&B4).
  rewrite B1, B2, B3, B4, V.
  change (wrap_t S32 0) with 0. change (wrap_t U32 0) with 0. change (wrap_t S64 0) with 0. change (wrap_t U64 0) with 0.
  destruct (usual_int_cases (lty l) (lty r)) as [C|[C|[C|C]]]; rewrite C; destruct Ho; subst o; reflexivity.
Qed.

Lemma promotion_range : forall t v, in_range t v -> in_range (perform_integer_promotions t) v.
Proof.
  intros t v H. rewrite promotions_eq. rewrite <- (promote_keeps t v H). apply convert_range.
Qed.

Lemma cast_hyp : forall l, (lty l = TBool -> value l = 0 \/ value l = 1) -> lty l <> TBool \/ value l = 0 \/ value l = 1.
Proof. intros. destruct (ity_eqb_spec (lty l) TBool); auto. Qed.

Lemma cast_reduction : forall t l,
  t <> TBool -> (lty l = TBool -> value l = 0 \/ value l = 1) ->
  lty (push_cast t l) = t /\ in_range t (value (push_cast t l)) /\
  (value (push_cast t l) - value l) mod 2 ^ width t = 0.
Proof.
  intros t l N B. split; [apply push_cast_ty|].
  rewrite push_cast_value by (apply cast_hyp; auto).
  apply (proj1 (convert_characterised t (value l) (convert t (value l)) N)). reflexivity.
Qed.

Lemma cast_bool : forall l, (lty l = TBool -> value l = 0 \/ value l = 1) ->
  lty (push_cast TBool l) = TBool /\ value (push_cast TBool l) = (if value l =? 0 then 0 else 1).
Proof.
  intros. split; [apply push_cast_ty|]. rewrite push_cast_value by (apply cast_hyp; auto). reflexivity.
Qed.

Lemma cast_keeps : forall t l, t <> TBool -> (lty l = TBool -> value l = 0 \/ value l = 1) ->
  in_range t (value l) -> value (push_cast t l) = value l.
Proof.
  intros. rewrite push_cast_value by (apply cast_hyp; auto). rewrite convert_wrap by auto. apply wrap_t_id; auto.
Qed.
