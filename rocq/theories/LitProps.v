(** Properties C03 and C04: integer literals. *)
From Verif Require Import Base IntTypes CSpec IntModel LitModel LitSpec LitProofs.

(** C03.  Octal, hexadecimal and binary literals: the first type of the C list that
    represents the value, and storing the value in it does not change it (whatever [g]
    the literal's union held before). *)
Theorem C03_octal_hex_binary_type : forall k l v g,
  other_candidates k = Some l -> 0 <= v < 2 ^ 64 ->
  exists t, other_base_type k v = Some t /\ first_fit l v = Some t /\ value (write_lit t g v) = v.
Proof. exact other_typing. Qed.
Print Assumptions C03_octal_hex_binary_type.

(** Decimal literals: the same; if no type of the list represents the value, the compiler
    warns and uses unsigned long long. *)
Theorem C03_decimal_type : forall k l v g,
  decimal_candidates k = Some l -> 0 <= v < 2 ^ 64 ->
  exists t w, base10_type k v = Some (t, w) /\
              value (write_lit t g v) = v /\
              (w = false -> first_fit l v = Some t) /\
              (w = true -> t = U64 /\ first_fit l v = None).
Proof. exact decimal_typing. Qed.
Print Assumptions C03_decimal_type.

(** The suffix is recognised in any letter case, everything else is rejected. *)
Theorem C03_suffixes : forall s, Forall ident_char s -> parse_integer_suffix s = suffix_kind s.
Proof. exact suffix_ok. Qed.
Print Assumptions C03_suffixes.

(** The suffixes naming a type give that type and reduce the value to it. *)
Theorem C03_explicit_type_suffix : forall sg t,
  In (sg, t) explicit_suffixes ->
  forall v g, base10_type (suffix_kind sg) v = Some (t, false) /\
            other_base_type (suffix_kind sg) v = Some t /\
            value (write_lit t g v) = convert t v.
Proof. exact explicit_suffix_ok. Qed.
Print Assumptions C03_explicit_type_suffix.

Example C03_examples :
  base10_type NKint 2147483648 = Some (S64, false) /\
  other_base_type NKint 2147483648 = Some U32 /\
  base10_type NKlong_long (2 ^ 63) = Some (U64, true) /\
  parse_integer_suffix [85; 108; 76] = NKunsigned_long_long (* UlL *) /\
  parse_integer_suffix [108; 117; 108] = NKinvalid (* lul *) /\
  decimal_candidates NKint = Some [Int; Long; LongLong].
Proof. repeat split; vm_compute; reflexivity. Qed.

(** C04.  A decimal literal whose value fits in 64 bits denotes it, without a warning;
    any mix of digits and separators, any suffix. *)
Theorem C04_decimal_value : forall text suffix,
  digit_text 10 text -> ends_digits 10 suffix -> Forall ident_char suffix ->
  positional 10 text < 2 ^ 64 ->
  parse_base10_literal (text ++ suffix) = (positional 10 text, suffix_kind suffix, false).
Proof. exact parse_base10_ok. Qed.
Print Assumptions C04_decimal_value.

(** Binary and hexadecimal literals: value and overflow diagnosis are exact. *)
Theorem C04_binary_value : forall text suffix,
  digit_text 2 text -> ends_digits 2 suffix -> Forall ident_char suffix ->
  parse_binary_literal (text ++ suffix) =
    (positional 2 text mod 2 ^ 64, suffix_kind suffix, 2 ^ 64 <=? positional 2 text).
Proof. exact parse_binary_ok. Qed.
Print Assumptions C04_binary_value.

Theorem C04_hexadecimal_value : forall text suffix,
  digit_text 16 text -> ends_digits 16 suffix -> Forall ident_char suffix ->
  parse_hex_literal (text ++ suffix) =
    (positional 16 text mod 2 ^ 64, suffix_kind suffix, 2 ^ 64 <=? positional 16 text).
Proof. exact parse_hex_ok. Qed.
Print Assumptions C04_hexadecimal_value.

(** Octal literals: the value is right and an overflow is always diagnosed; the warning
    however already starts at 2^63. *)
Theorem C04_octal_value : forall text suffix,
  digit_text 8 text -> ends_digits 10 suffix -> Forall ident_char suffix ->
  parse_octal_literal (text ++ suffix) =
    (positional 8 text mod 2 ^ 64, suffix_kind suffix, 2 ^ 63 <=? positional 8 text, false).
Proof. exact parse_octal_ok. Qed.
Print Assumptions C04_octal_value.

Theorem C04_octal_digit_8_9_reported : forall text c suffix,
  digit_text 8 text -> c = 56 \/ c = 57 ->
  exists v k o, parse_octal_literal (text ++ c :: suffix) = (v, k, o, true).
Proof. exact parse_octal_bad_digit. Qed.
Print Assumptions C04_octal_digit_8_9_reported.

(** Decimal literals in general: the value modulo 2^64.  Missing for the full property:
    that [w] is true when the value does not fit; that is false, see below. *)
Theorem C04_decimal_value_partial : forall text suffix,
  digit_text 10 text -> ends_digits 10 suffix -> Forall ident_char suffix ->
  exists w, parse_base10_literal (text ++ suffix) = (positional 10 text mod 2 ^ 64, suffix_kind suffix, w).
Proof. exact parse_base10_mod. Qed.
Print Assumptions C04_decimal_value_partial.

Definition chars_18446744073709551620 : list Z :=
  [49;56;52;52;54;55;52;52;48;55;51;55;48;57;53;53;49;54;50;48].

Lemma digits_check : forall b s, forallb (fun c => (c =? 39) || match digit_value c with Some d => d <? b | None => false end) s = true ->
  digit_text b s.
Proof.
  intros b s H. apply Forall_forall. intros c Hc. rewrite forallb_forall in H. specialize (H c Hc).
  apply orb_true_iff in H. destruct H as [H|H]; [left; lia|right].
  destruct (digit_value c) as [d|] eqn:E; [|discriminate]. exists d. split; auto. lia.
Qed.

Theorem C04_decimal_overflow_undiagnosed_refuted : exists text,
  digit_text 10 text /\ 2 ^ 64 <= positional 10 text /\ parse_base10_literal text = (4, NKint, false).
Proof.
  exists chars_18446744073709551620. split; [apply digits_check; vm_compute; reflexivity|].
  split; vm_compute; congruence.
Qed.
Print Assumptions C04_decimal_overflow_undiagnosed_refuted.

(** ... and 2^63 written in octal is representable but diagnosed as overflow. *)
Theorem C04_octal_false_warning_refuted : exists text,
  digit_text 8 text /\ positional 8 text < 2 ^ 64 /\ exists k, parse_octal_literal text = (positional 8 text, k, true, false).
Proof.
  exists ([49] ++ repeat 48 21). split; [apply digits_check; vm_compute; reflexivity|].
  split; [vm_compute; reflexivity|]. exists NKint. vm_compute. reflexivity.
Qed.
Print Assumptions C04_octal_false_warning_refuted.

(* 18'446'744'073'709'551'615ull and 0xfFuLL *)
Example C04_example :
  parse_base10_literal [49;56;39;52;52;54;39;55;52;52;39;48;55;51;39;55;48;57;39;53;53;49;39;54;49;53;117;108;108]
    = (2 ^ 64 - 1, NKunsigned_long_long, false) /\
  parse_hex_literal [102; 70; 117; 76; 76] = (255, NKunsigned_long_long, false) /\
  ends_digits 16 [117; 76; 76] /\ digit_text 16 [102; 70].
Proof.
  split; [vm_compute; reflexivity|]. split; [vm_compute; reflexivity|].
  split.
  - cbn. split; [lia|]. split; [|lia]. intros [d [E _]]. vm_compute in E. discriminate.
  - apply digits_check. reflexivity.
Qed.
