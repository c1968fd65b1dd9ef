(** Properties C01, C02 and C05: integer constants. *)
From Verif Require Import Base IntTypes CSpec IntModel IntProofs.

(** C01.  Whatever constant expression C gives a value, the compiler folds it to a
    literal of that type and value. *)
Theorem C01_constant_folding_exact : forall e t v,
  bool_literals_ok e ->
  ceval e = Some (t, v) ->
  exists l, fold e = Done l /\ lty l = t /\ value l = v.
Proof.
  intros e t v B E. destruct (fold_correct e t v B E) as (l & F & T & V & _). eauto.
Qed.
Print Assumptions C01_constant_folding_exact.

(* (unsigned char)300 * -7 + (5u > -1 ? 3ll : 4) << 2 *)
Example C01_example :
  let e := CShl (CArith OAdd (CArith OMul (CCast U8 (CLit S32 300)) (CUn ONeg (CLit S32 7)))
                             (CCond (CCmp OGt (CLit U32 5) (CUn ONeg (CLit S32 1))) (CLit S64 3) (CLit S32 4)))
                (CLit S32 2) in
  bool_literals_ok e /\ ceval e = Some (S64, -1216) /\ fold e = Done (mklit S64 (2 ^ 64 - 1216)).
Proof.
  cbv zeta. split; [cbn [bool_literals_ok]; repeat split; discriminate|].
  split; vm_compute; reflexivity.
Qed.

(** C01, other direction: whatever the compiler folds has a C value, namely the folded one.
    In particular a division by zero or an out-of-range shift is never folded. *)
Theorem C01_folded_only_if_defined : forall e l,
  bool_literals_ok e ->
  fold e = Done l ->
  ceval e = Some (lty l, value l).
Proof. exact fold_sound. Qed.
Print Assumptions C01_folded_only_if_defined.

(** C01: a zero divisor is reported. *)
Theorem C01_zero_divisor_reported : forall o l r,
  o = ODiv \/ o = OMod ->
  lty r <> TBool ->
  value r = 0 ->
  fold_arith o l r = Reported.
Proof. exact fold_zero_divisor. Qed.
Print Assumptions C01_zero_divisor_reported.

Example C01_zero_divisor_example : fold (CArith OMod (CLit S32 17) (CUn OLNot (CLit U64 3))) = Reported.
Proof. vm_compute. reflexivity. Qed.

(** C01 fails as "never gets stuck": two constant expressions crash the compiler or have
    no value although C only makes the first two undefined. *)
Theorem C01_min_div_minus_one_traps_refuted :
  exists l r, lty l = S32 /\ lty r = S32 /\ value l = - 2 ^ 31 /\ value r = -1 /\ fold_arith ODiv l r = Crash.
Proof. exists (mklit S32 (2 ^ 31)), (mklit S32 (2 ^ 32 - 1)). repeat split; vm_compute; reflexivity. Qed.
Print Assumptions C01_min_div_minus_one_traps_refuted.

Theorem C01_shift_by_width_accepted_refuted :
  exists l r, lty l = S32 /\ value l = 1 /\ lty r = S32 /\ value r = 32 /\ fold_shift true l r = Crash.
Proof. exists (mklit S32 1), (mklit S32 32). repeat split; vm_compute; reflexivity. Qed.
Print Assumptions C01_shift_by_width_accepted_refuted.

(** [0 && (1/0)] is a valid expression with value 0 in C (the right operand is not
    evaluated); the compiler reports the division. *)
Theorem C01_unevaluated_operand_refuted :
  exists a b, fold a = Done (mklit S32 0) /\ fold (CLAnd a b) = Reported.
Proof. exists (CLit S32 0), (CArith ODiv (CLit S32 1) (CLit S32 0)). split; vm_compute; reflexivity. Qed.
Print Assumptions C01_unevaluated_operand_refuted.

(** C02.  The type of a binary operation is the one of 6.3.1.8; the computation never
    reaches the compiler's assert. *)
Theorem C02_usual_arithmetic_conversions : forall a b,
  perform_usual_arithmetic_conversions a b = Some (usual a b).
Proof. exact usual_eq. Qed.
Print Assumptions C02_usual_arithmetic_conversions.

Theorem C02_order_does_not_matter : forall a b,
  perform_usual_arithmetic_conversions a b = perform_usual_arithmetic_conversions b a.
Proof. intros. rewrite !usual_eq, usual_comm. reflexivity. Qed.
Print Assumptions C02_order_does_not_matter.

Theorem C02_integer_promotions : forall t, perform_integer_promotions t = promote t.
Proof. exact promotions_eq. Qed.
Print Assumptions C02_integer_promotions.

(** The promotion never changes the value. *)
Theorem C02_promotion_keeps_value : forall t v, in_range t v ->
  in_range (perform_integer_promotions t) v.
Proof. exact promotion_range. Qed.
Print Assumptions C02_promotion_keeps_value.

Theorem C02_bitfield_promotion : forall base w,
  1 <= w <= width base ->
  bitfield_operand_type base w = promote_bitfield base w.
Proof. intros. apply bitfield_promotion_ok; auto. destruct base; cbn; lia. Qed.
Print Assumptions C02_bitfield_promotion.

Example C02_bitfield_examples :
  bitfield_operand_type U32 31 = S32 /\ bitfield_operand_type U32 32 = U32 /\
  bitfield_operand_type U64 40 = U64 /\ bitfield_operand_type U64 3 = S32.
Proof. repeat split; vm_compute; reflexivity. Qed.

(** C05.  Casting to an integer type other than _Bool: the unique congruent value in range. *)
Theorem C05_cast_is_reduction : forall t l,
  t <> TBool ->
  (lty l = TBool -> value l = 0 \/ value l = 1) ->
  lty (push_cast t l) = t /\
  in_range t (value (push_cast t l)) /\
  (value (push_cast t l) - value l) mod 2 ^ width t = 0.
Proof. exact cast_reduction. Qed.
Print Assumptions C05_cast_is_reduction.

Theorem C05_cast_to_bool : forall l,
  (lty l = TBool -> value l = 0 \/ value l = 1) ->
  lty (push_cast TBool l) = TBool /\
  value (push_cast TBool l) = (if value l =? 0 then 0 else 1).
Proof. exact cast_bool. Qed.
Print Assumptions C05_cast_to_bool.

Theorem C05_cast_keeps_representable : forall t l,
  t <> TBool -> (lty l = TBool -> value l = 0 \/ value l = 1) ->
  in_range t (value l) -> value (push_cast t l) = value l.
Proof. exact cast_keeps. Qed.
Print Assumptions C05_cast_keeps_representable.

Example C05_example :
  value (push_cast S8 (mklit S32 (2 ^ 40 + 511))) = -1 /\
  value (push_cast TBool (mklit U64 (2 ^ 63))) = 1 /\
  value (push_cast U64 (mklit S16 65535)) = 2 ^ 64 - 1.
Proof. repeat split; vm_compute; reflexivity. Qed.
