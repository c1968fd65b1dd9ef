From Verif Require Import Base IntTypes CSpec IntModel IntProofs LitModel LitSpec.

Lemma digit_range : forall c d, digit_value c = Some d -> 0 <= d < 16.
Proof.
  intros c d. unfold digit_value.
  destruct ((48 <=? c) && (c <=? 57)) eqn:E1; [intros H; inversion H; lia|].
  destruct ((97 <=? c) && (c <=? 102)) eqn:E2; [intros H; inversion H; lia|].
  destruct ((65 <=? c) && (c <=? 70)) eqn:E3; [intros H; inversion H; lia|discriminate].
Qed.

Lemma digit_dec : forall c d, digit_value c = Some d -> d < 10 -> c = 48 + d.
Proof.
  intros c d. unfold digit_value.
  destruct ((48 <=? c) && (c <=? 57)) eqn:E1; [intros H; inversion H; lia|].
  destruct ((97 <=? c) && (c <=? 102)) eqn:E2; [intros H; inversion H; lia|].
  destruct ((65 <=? c) && (c <=? 70)) eqn:E3; [intros H; inversion H; lia|discriminate].
Qed.

Lemma digit_not_quote : digit_value 39 = None.
Proof. reflexivity. Qed.

Lemma not_digit_low : forall b c, b <= 10 -> 0 <= b -> ~ is_digit b c -> 0 <= c < 256 -> wrapu 32 (c - 48) > b - 1.
Proof.
  intros b c Hb H0 N R. unfold wrapu.
  destruct (Z_lt_ge_dec c 48).
  - replace ((c - 48) mod 2^32) with (c - 48 + 2^32) by (apply Z.mod_unique with (q := -1); lia). lia.
  - rewrite Z.mod_small by lia. destruct (Z_lt_ge_dec (c - 48) b); [|lia].
    exfalso. apply N. exists (c - 48). split; [|lia].
    unfold digit_value. replace ((48 <=? c) && (c <=? 57)) with true by lia. reflexivity.
Qed.

Lemma hex_digit_eq : forall c, hex_digit c = digit_value c.
Proof.
  intros. unfold hex_digit, digit_value. rewrite !Z.geb_leb.
  replace ((c <=? 57) && (48 <=? c)) with ((48 <=? c) && (c <=? 57)) by apply andb_comm.
  replace ((c <=? 102) && (97 <=? c)) with ((97 <=? c) && (c <=? 102)) by apply andb_comm.
  replace ((c <=? 70) && (65 <=? c)) with ((65 <=? c) && (c <=? 70)) by apply andb_comm.
  destruct ((48 <=? c) && (c <=? 57)); auto.
  destruct ((97 <=? c) && (c <=? 102)); [f_equal; lia|].
  destruct ((65 <=? c) && (c <=? 70)); [f_equal; lia|auto].
Qed.

Lemma hex_ends : forall c, ~ is_digit 16 c -> digit_value c = None.
Proof.
  intros. destruct (digit_value c) eqn:E; auto. exfalso. apply H. exists z. split; auto.
  pose proof (digit_range _ _ E); lia.
Qed.

Lemma fold_mono : forall b s v, 1 <= b -> 0 <= v -> v <= fold_left (add_digit b) s v.
Proof.
  induction s; intros; simpl; [lia|].
  assert (v <= add_digit b v a).
  { unfold add_digit. destruct (digit_value a) eqn:E; [|lia].
    pose proof (digit_range _ _ E). nia. }
  specialize (IHs (add_digit b v a) H ltac:(lia)). lia.
Qed.

(** The step facts shared by the four loops: [v] is the exact value so far, the
    machine holds [v mod 2^64]. *)
Lemma step_mod : forall b v d, 0 <= b ->
  wrapu 64 (wrapu 64 (wrapu 64 v * b) + d) = wrapu 64 (b * v + d).
Proof.
  intros. unfold wrapu. rewrite Z.add_mod_idemp_l, Z.mul_mod_idemp_l || idtac; try lia.
  rewrite Zplus_mod_idemp_l. rewrite <- Zplus_mod_idemp_l. rewrite Zmult_mod_idemp_l.
  rewrite Zplus_mod_idemp_l. f_equal. lia.
Qed.

Lemma small_digit : forall b c, b <= 10 -> is_digit b c ->
  exists d, digit_value c = Some d /\ 0 <= d < b /\ c = 48 + d /\ wrapu 32 (c - 48) = d.
Proof.
  intros b c Hb [d [E L]]. exists d. pose proof (digit_range _ _ E).
  assert (c = 48 + d) by (apply digit_dec; [auto|lia]).
  repeat split; auto; try lia. subst c. unfold wrapu. rewrite Z.mod_small; lia.
Qed.

Lemma add_digit_some : forall b v c d, digit_value c = Some d -> add_digit b v c = b * v + d.
Proof. intros. unfold add_digit. rewrite H. reflexivity. Qed.

Lemma add_digit_quote : forall b v, add_digit b v 39 = v.
Proof. reflexivity. Qed.

Lemma fold_left_cons : forall b v c s, fold_left (add_digit b) (c :: s) v = fold_left (add_digit b) s (add_digit b v c).
Proof. reflexivity. Qed.

Lemma not_quote : forall b c, is_digit b c -> (c =? ch_quote) = false.
Proof.
  intros b c [d [E _]]. apply Z.eqb_neq. intros ->. discriminate.
Qed.

(** Decimal. *)
Lemma base10_value : forall text rest, digit_text 10 text -> ends_digits 10 rest ->
  forall v o, 0 <= v -> exists o',
  base10_loop (text ++ rest) (wrapu 64 v) o = (wrapu 64 (fold_left (add_digit 10) text v), o', rest).
Proof.
  induction text as [|c text]; intros rest HT HR v o Hv.
  - exists o. destruct rest as [|c rest]; [reflexivity|]. destruct HR as (Q & N & R).
    cbn [app base10_loop fold_left]. replace (c =? ch_quote) with false by (symmetry; apply Z.eqb_neq; exact Q).
    pose proof (not_digit_low 10 c ltac:(lia) ltac:(lia) N R). change ch_0 with 48.
    cbv zeta. replace (wrapu 32 (c - 48) >? 9) with true by lia. reflexivity.
  - inversion HT as [|? ? HC HT']; subst. cbn [app base10_loop]. rewrite fold_left_cons.
    destruct HC as [->|HC].
    + rewrite Z.eqb_refl. rewrite add_digit_quote. apply IHtext; auto.
    + rewrite (not_quote _ _ HC).
      destruct (small_digit 10 c ltac:(lia) HC) as (d & E & R & _ & W).
      change ch_0 with 48. cbv zeta. rewrite W. replace (d >? 9) with false by lia.
      rewrite (add_digit_some _ _ _ _ E), step_mod by lia.
      apply IHtext; auto; lia.
Qed.

Lemma base10_no_false_overflow : forall text rest, digit_text 10 text -> ends_digits 10 rest ->
  forall v, 0 <= v -> fold_left (add_digit 10) text v < 2 ^ 64 ->
  base10_loop (text ++ rest) v false = (fold_left (add_digit 10) text v, false, rest).
Proof.
  induction text as [|c text]; intros rest HT HR v Hv HF.
  - destruct rest as [|c rest]; [reflexivity|]. destruct HR as (Q & N & R).
    cbn [app base10_loop fold_left]. replace (c =? ch_quote) with false by (symmetry; apply Z.eqb_neq; exact Q).
    pose proof (not_digit_low 10 c ltac:(lia) ltac:(lia) N R). change ch_0 with 48.
    cbv zeta. replace (wrapu 32 (c - 48) >? 9) with true by lia. reflexivity.
  - inversion HT as [|? ? HC HT']; subst. cbn [app base10_loop]. rewrite fold_left_cons in *.
    destruct HC as [->|HC].
    + rewrite Z.eqb_refl. rewrite add_digit_quote in *. apply IHtext; auto.
    + rewrite (not_quote _ _ HC).
      destruct (small_digit 10 c ltac:(lia) HC) as (d & E & R & _ & W).
      change ch_0 with 48. cbv zeta. rewrite W. replace (d >? 9) with false by lia.
      rewrite (add_digit_some _ _ _ _ E) in *.
      pose proof (fold_mono 10 text (10 * v + d) ltac:(lia) ltac:(lia)).
      rewrite (wrapu_id 64 (v * 10)) by lia. rewrite (wrapu_id 64 (v * 10 + d)) by lia.
      replace (v * 10 + d <? v * 10) with false by lia.
      assert (Z.shiftr v 32 * 10 <= 2 ^ 32 - 1).
      { rewrite Z.shiftr_div_pow2 by lia. pose proof (Z.mul_div_le v (2 ^ 32) ltac:(lia)).
        assert (0 <= v / 2^32) by (apply Z.div_pos; lia). lia. }
      assert (0 <= Z.shiftr v 32) by (rewrite Z.shiftr_div_pow2 by lia; apply Z.div_pos; lia).
      rewrite (wrapu_id 64 (Z.shiftr v 32 * 10)) by lia.
      replace (Z.shiftr v 32 * 10 >? 2 ^ 32 - 1) with false by lia.
      replace (v * 10 + d) with (10 * v + d) in * by lia. cbn [orb].
      apply IHtext; auto; lia.
Qed.

(** Binary. *)
Lemma land_pow : forall v m k, 0 <= v < 2 ^ (k + m) -> 0 <= k -> 0 <= m ->
  (Z.land v ((2 ^ m - 1) * 2 ^ k) =? 0) = (v <? 2 ^ k).
Proof.
  intros v m k Hv Hk Hm.
  replace ((2 ^ m - 1) * 2 ^ k) with (Z.shiftl (Z.ones m) k)
    by (rewrite Z.shiftl_mul_pow2, Z.ones_equiv by lia; lia).
  destruct (Z.ltb_spec v (2 ^ k)).
  - apply Z.eqb_eq. apply Z.bits_inj'. intros n Hn. rewrite Z.land_spec, Z.bits_0.
    destruct (Z_lt_ge_dec n k).
    + rewrite Z.shiftl_spec_low by lia. apply andb_false_r.
    + replace v with (v mod 2 ^ k) by (apply Z.mod_small; lia).
      rewrite Z.mod_pow2_bits_high by lia. reflexivity.
  - apply Z.eqb_neq. intros E.
    assert (v = v mod 2 ^ k).
    { apply Z.bits_inj'. intros n Hn.
      destruct (Z_lt_ge_dec n k).
      - rewrite Z.mod_pow2_bits_low by lia. reflexivity.
      - rewrite Z.mod_pow2_bits_high by lia.
        destruct (Z_lt_ge_dec n (k + m)).
        + assert (B : Z.testbit (Z.land v (Z.shiftl (Z.ones m) k)) n = false) by (rewrite E; apply Z.bits_0).
          rewrite Z.land_spec, Z.shiftl_spec, Z.ones_spec_low in B by lia.
          rewrite andb_true_r in B. exact B.
        + replace v with (v mod 2 ^ (k + m)) by (apply Z.mod_small; lia).
          apply Z.mod_pow2_bits_high. lia. }
    pose proof (Z.mod_pos_bound v (2 ^ k) (pow2_pos k Hk)). lia.
Qed.

Lemma lor_low : forall a b k, 0 <= k -> 0 <= b < 2 ^ k -> a mod 2 ^ k = 0 -> Z.lor a b = a + b.
Proof.
  intros a b k Hk Hb Ha.
  rewrite Z.add_nocarry_lxor.
  - apply Z.bits_inj'. intros n Hn. rewrite Z.lor_spec, Z.lxor_spec.
    assert (Z.testbit a n && Z.testbit b n = false).
    { destruct (Z_lt_ge_dec n k).
      - assert (Z.testbit (a mod 2 ^ k) n = false) by (rewrite Ha; apply Z.bits_0).
        rewrite Z.mod_pow2_bits_low in H by lia. rewrite H. reflexivity.
      - replace b with (b mod 2 ^ k) by (apply Z.mod_small; lia).
        rewrite (Z.mod_pow2_bits_high b) by lia. apply andb_false_r. }
    destruct (Z.testbit a n), (Z.testbit b n); auto; discriminate.
  - apply Z.bits_inj'. intros n Hn. rewrite Z.land_spec, Z.bits_0.
    destruct (Z_lt_ge_dec n k).
    + assert (Z.testbit (a mod 2 ^ k) n = false) by (rewrite Ha; apply Z.bits_0).
      rewrite Z.mod_pow2_bits_low in H by lia. rewrite H. reflexivity.
    + replace b with (b mod 2 ^ k) by (apply Z.mod_small; lia).
      rewrite (Z.mod_pow2_bits_high b) by lia. apply andb_false_r.
Qed.

Lemma shl_mod : forall v j, 0 <= j <= 64 -> wrapu 64 (Z.shiftl (wrapu 64 v) j) = wrapu 64 (v * 2 ^ j).
Proof.
  intros. unfold wrapu. rewrite Z.shiftl_mul_pow2 by lia. apply Zmult_mod_idemp_l.
Qed.

Lemma pow_mul_mod0 : forall x j, 0 <= j <= 64 -> wrapu 64 (x * 2 ^ j) mod 2 ^ j = 0.
Proof.
  intros. unfold wrapu.
  replace (2 ^ 64) with (2 ^ (64 - j) * 2 ^ j) by (rewrite <- Z.pow_add_r by lia; f_equal; lia).
  rewrite Z.mul_mod_distr_r by (pose proof (pow2_pos (64 - j) ltac:(lia)); pose proof (pow2_pos j ltac:(lia)); lia).
  apply Z.mod_mul. pose proof (pow2_pos j ltac:(lia)); lia.
Qed.

(** exact overflow: the flag is set as soon as the exact value leaves 64 bits *)
Definition tracks (v : Z) (o : bool) : Prop := 0 <= v /\ o = (2 ^ 64 <=? v).

Lemma or_shift_step : forall v d j, 0 <= j <= 64 -> 0 <= d < 2 ^ j ->
  Z.lor (wrapu 64 (Z.shiftl (wrapu 64 v) j)) d = wrapu 64 (2 ^ j * v + d).
Proof.
  intros v d j Hj Hd. rewrite shl_mod by lia.
  rewrite (lor_low _ _ j) by (try lia; apply pow_mul_mod0; lia).
  unfold wrapu.
  assert (E : 2 ^ 64 = 2 ^ (64 - j) * 2 ^ j) by (rewrite <- Z.pow_add_r by lia; f_equal; lia).
  rewrite E.
  pose proof (pow2_pos (64 - j) ltac:(lia)). pose proof (pow2_pos j ltac:(lia)).
  rewrite Z.mul_mod_distr_r by lia.
  apply Z.mod_unique with (q := v / 2 ^ (64 - j)).
  - left. pose proof (Z.mod_pos_bound v (2 ^ (64 - j)) H). nia.
  - pose proof (Z.div_mod v (2 ^ (64 - j)) ltac:(lia)). nia.
Qed.

Lemma overflow_step : forall v d j o, 0 < j <= 64 -> 0 <= d < 2 ^ j -> tracks v o ->
  tracks (2 ^ j * v + d) (o || negb (Z.land (wrapu 64 v) ((2 ^ j - 1) * 2 ^ (64 - j)) =? 0)).
Proof.
  intros v d j o Hj Hd [H0 ->]. pose proof (pow2_pos j ltac:(lia)). split; [nia|].
  rewrite (land_pow _ j (64 - j)); try lia.
  2:{ replace (64 - j + j) with 64 by lia. apply wrapu_range; lia. }
  destruct (Z.leb_spec (2 ^ 64) v).
  - cbn [orb]. symmetry. apply Z.leb_le. nia.
  - cbn [orb]. rewrite wrapu_id by lia.
    assert (E : 2 ^ 64 = 2 ^ j * 2 ^ (64 - j)) by (rewrite <- Z.pow_add_r by lia; f_equal; lia).
    pose proof (pow2_pos (64 - j) ltac:(lia)).
    destruct (Z.ltb_spec v (2 ^ (64 - j))); cbn [negb]; symmetry.
    + apply Z.leb_gt. rewrite E. nia.
    + apply Z.leb_le. rewrite E. nia.
Qed.

Lemma binary_loop_ok : forall text rest, digit_text 2 text -> ends_digits 2 rest ->
  forall v o, tracks v o ->
  let f := fold_left (add_digit 2) text v in
  binary_loop (text ++ rest) (wrapu 64 v) o = (wrapu 64 f, (2 ^ 64 <=? f), rest).
Proof.
  induction text as [|c text]; intros rest HT HR v o Hv; cbv zeta.
  - destruct Hv as [H0 ->]. destruct rest as [|c rest]; [reflexivity|]. destruct HR as (Q & N & R).
    cbn [app binary_loop fold_left]. replace (c =? ch_quote) with false by (symmetry; apply Z.eqb_neq; exact Q).
    pose proof (not_digit_low 2 c ltac:(lia) ltac:(lia) N R). change ch_0 with 48.
    cbv zeta. replace (wrapu 32 (c - 48) >? 1) with true by lia. reflexivity.
  - inversion HT as [|? ? HC HT']; subst. cbn [app binary_loop]. rewrite fold_left_cons.
    destruct HC as [->|HC].
    + rewrite Z.eqb_refl. rewrite add_digit_quote. apply IHtext; auto.
    + rewrite (not_quote _ _ HC).
      destruct (small_digit 2 c ltac:(lia) HC) as (d & E & R & _ & W).
      change ch_0 with 48. cbv zeta. rewrite W. replace (d >? 1) with false by lia.
      rewrite (add_digit_some _ _ _ _ E).
      rewrite (or_shift_step v d 1) by lia. change (2 ^ 1) with 2.
      apply IHtext; auto.
      exact (overflow_step v d 1 o ltac:(lia) ltac:(lia) Hv).
Qed.

Lemma hex_loop_ok : forall text rest, digit_text 16 text -> ends_digits 16 rest ->
  forall v o, tracks v o ->
  let f := fold_left (add_digit 16) text v in
  hex_loop (text ++ rest) (wrapu 64 v) o = (wrapu 64 f, (2 ^ 64 <=? f), rest).
Proof.
  induction text as [|c text]; intros rest HT HR v o Hv; cbv zeta.
  - destruct Hv as [H0 ->]. destruct rest as [|c rest]; [reflexivity|]. destruct HR as (Q & N & R).
    cbn [app hex_loop fold_left]. replace (c =? ch_quote) with false by (symmetry; apply Z.eqb_neq; exact Q).
    rewrite hex_digit_eq, (hex_ends _ N). reflexivity.
  - inversion HT as [|? ? HC HT']; subst. cbn [app hex_loop]. rewrite fold_left_cons.
    destruct HC as [->|HC].
    + rewrite Z.eqb_refl. rewrite add_digit_quote. apply IHtext; auto.
    + rewrite (not_quote _ _ HC).
      destruct HC as (d & E & L). pose proof (digit_range _ _ E) as R.
      rewrite hex_digit_eq, E, (add_digit_some _ _ _ _ E). cbv zeta.
      assert (S : wrapu 64 (Z.shiftl (wrapu 64 v) 4) + d = wrapu 64 (16 * v + d)).
      { change 16 with (2 ^ 4). rewrite <- (or_shift_step v d 4) by lia. symmetry. apply (lor_low _ _ 4); try lia.
        rewrite shl_mod by lia. apply pow_mul_mod0; lia. }
      rewrite S, (wrapu_id 64 (wrapu 64 (16 * v + d))) by (apply wrapu_range; lia).
      replace (wrapu 64 (16 * v + d) <? wrapu 64 (Z.shiftl (wrapu 64 v) 4)) with false
        by (symmetry; apply Z.ltb_ge; lia).
      rewrite orb_false_r.
      apply IHtext; auto.
      exact (overflow_step v d 4 o ltac:(lia) ltac:(lia) Hv).
Qed.

(** Octal: the flag is set exactly when the exact value reaches 2^63. *)
Definition tracks63 (v : Z) (o : bool) : Prop := 0 <= v /\ o = (2 ^ 63 <=? v).

Lemma octal_overflow_step : forall v d o, 0 <= d < 8 -> tracks63 v o ->
  tracks63 (8 * v + d) (o || negb (Z.land (wrapu 64 v) (7 * 2 ^ 60) =? 0)).
Proof.
  intros v d o Hd [H0 ->]. split; [lia|].
  destruct (Z.leb_spec (2 ^ 63) v).
  - cbn [orb]. symmetry. apply Z.leb_le. lia.
  - cbn [orb]. rewrite wrapu_id by lia.
    change (7 * 2 ^ 60) with ((2 ^ 3 - 1) * 2 ^ 60).
    rewrite land_pow; [|change (60 + 3) with 63; lia|lia|lia].
    destruct (Z.ltb_spec v (2 ^ 60)); cbn [negb]; symmetry; [apply Z.leb_gt|apply Z.leb_le]; lia.
Qed.

Lemma octal_loop_ok : forall text rest, digit_text 8 text -> ends_digits 8 rest ->
  forall v o, tracks63 v o ->
  let f := fold_left (add_digit 8) text v in
  octal_loop (text ++ rest) (wrapu 64 v) o =
    ((wrapu 64 f, (2 ^ 63 <=? f), rest),
     match rest with c :: _ => (c =? 56) || (c =? 57) | [] => false end).
Proof.
  induction text as [|c text]; intros rest HT HR v o Hv; cbv zeta.
  - destruct Hv as [H0 ->]. destruct rest as [|c rest]; [reflexivity|]. destruct HR as (Q & N & R).
    cbn [app octal_loop fold_left]. replace (c =? ch_quote) with false by (symmetry; apply Z.eqb_neq; exact Q).
    pose proof (not_digit_low 8 c ltac:(lia) ltac:(lia) N R). change ch_0 with 48.
    cbv zeta. replace (wrapu 32 (c - 48) >? 7) with true by lia.
    f_equal. f_equal.
    + unfold wrapu. destruct (Z_lt_ge_dec c 48).
      * replace ((c - 48) mod 2^32) with (c - 48 + 2^32) by (apply Z.mod_unique with (q := -1); lia). lia.
      * rewrite Z.mod_small by lia. lia.
    + unfold wrapu. destruct (Z_lt_ge_dec c 48).
      * replace ((c - 48) mod 2^32) with (c - 48 + 2^32) by (apply Z.mod_unique with (q := -1); lia). lia.
      * rewrite Z.mod_small by lia. lia.
  - inversion HT as [|? ? HC HT']; subst. cbn [app octal_loop]. rewrite fold_left_cons.
    destruct HC as [->|HC].
    + rewrite Z.eqb_refl. rewrite add_digit_quote. apply IHtext; auto.
    + rewrite (not_quote _ _ HC).
      destruct (small_digit 8 c ltac:(lia) HC) as (d & E & R & _ & W).
      change ch_0 with 48. cbv zeta. rewrite W. replace (d >? 7) with false by lia.
      rewrite (add_digit_some _ _ _ _ E).
      assert (S : wrapu 64 (wrapu 64 v * 8 + d) = wrapu 64 (8 * v + d)).
      { unfold wrapu. rewrite <- Zplus_mod_idemp_l, Zmult_mod_idemp_l, Zplus_mod_idemp_l. f_equal; lia. }
      rewrite S. apply IHtext; auto. apply octal_overflow_step; auto.
Qed.

(** Suffixes. *)
Lemma lor32 : forall c, ident_char c -> Z.lor c 32 = if c =? 95 then 127 else lower c.
Proof.
  intros c H.
  assert (B : 0 <= c < 128) by (unfold ident_char in H; lia).
  assert (forallb (fun c => let ic := ((48 <=? c) && (c <=? 57)) || ((65 <=? c) && (c <=? 90)) || ((97 <=? c) && (c <=? 122)) || (c =? 95) in
     negb ic || (Z.lor c 32 =? if c =? 95 then 127 else lower c)) (map Z.of_nat (seq 0 128)) = true) by (vm_compute; reflexivity).
  rewrite forallb_forall in H0. specialize (H0 c).
  assert (In c (map Z.of_nat (seq 0 128))).
  { replace c with (Z.of_nat (Z.to_nat c)) by lia. apply in_map. apply in_seq. lia. }
  specialize (H0 H1). cbv zeta in H0. apply orb_true_iff in H0. destruct H0 as [H0|H0].
  - exfalso. unfold ident_char in H. lia.
  - apply Z.eqb_eq in H0. exact H0.
Qed.

(** characters of the suffix table *)
Definition suffix_char (y : Z) : Prop := 48 <= y <= 57 \/ 97 <= y <= 122.

Lemma lor32_id : forall y, suffix_char y -> Z.lor y 32 = y.
Proof.
  intros y H. rewrite lor32 by (unfold ident_char; unfold suffix_char in H; lia).
  unfold lower. unfold suffix_char in H.
  replace (y =? 95) with false by lia. replace ((65 <=? y) && (y <=? 90)) with false by lia. reflexivity.
Qed.

Lemma char_match : forall x y, ident_char x -> suffix_char y -> (Z.lor x 32 =? Z.lor y 32) = (lower x =? y).
Proof.
  intros x y Hx Hy. rewrite (lor32_id y Hy), (lor32 x Hx).
  destruct (x =? 95) eqn:E; [|reflexivity]. apply Z.eqb_eq in E; subst.
  unfold suffix_char in Hy. change (lower 95) with 95. lia.
Qed.

Lemma char_match1 : forall x y, ident_char x -> suffix_char y -> (Z.lor x 32 =? y) = (lower x =? y).
Proof. intros. rewrite <- (lor32_id y H0) at 1. apply char_match; auto. Qed.

Lemma match_ci : forall a b, Forall ident_char a -> Forall suffix_char b ->
  string_match_case_insensitive a b = list_eqb (map lower a) b.
Proof.
  induction a; destruct b; intros HA HB; auto.
  inversion HA; inversion HB; subst. cbn [string_match_case_insensitive list_eqb map].
  rewrite char_match by auto. f_equal. apply IHa; auto.
Qed.

Ltac suf := repeat (apply Forall_cons; [unfold suffix_char; lia|]); apply Forall_nil.

Lemma suffix_ok : forall s, Forall ident_char s -> parse_integer_suffix s = suffix_kind s.
Proof.
  intros s H. unfold parse_integer_suffix, suffix_kind, suffix_table.
  destruct s as [|a [|b [|c [|d [|e s]]]]].
  - reflexivity.
  - inversion H; subst. cbn [length hd].
    rewrite !char_match1 by (auto; unfold suffix_char; lia).
    cbn [find list_eqb map fst]. rewrite !andb_true_r.
    rewrite ?andb_false_r. destruct (lower a =? 117), (lower a =? 108); reflexivity.
  - cbn [length]. rewrite !match_ci by (auto; suf).
    cbn [find fst map]. unfold str_ul, str_lu, str_ll, str_i8.
    cbn [list_eqb]. rewrite ?andb_false_r, ?andb_true_r.
    repeat match goal with |- context [if ?x then _ else _] => destruct x end; reflexivity.
  - cbn [length]. rewrite !match_ci by (auto; suf).
    cbn [find fst map]. unfold str_i16, str_i32, str_i64, str_ui8, str_ull, str_llu.
    cbn [list_eqb]. rewrite ?andb_false_r, ?andb_true_r.
    destruct (lower a =? 117) eqn:A1; destruct (lower a =? 108) eqn:A2; destruct (lower a =? 105) eqn:A3; try lia;
    cbn [andb]; rewrite ?andb_false_r; cbn [andb];
    repeat match goal with |- context [if ?x then _ else _] => destruct x eqn:? end; try reflexivity; lia.
  - cbn [length]. rewrite !match_ci by (auto; suf).
    cbn [find fst map]. unfold str_ui16, str_ui32, str_ui64.
    cbn [list_eqb]. rewrite ?andb_false_r, ?andb_true_r.
    repeat match goal with |- context [if ?x then _ else _] => destruct x end; reflexivity.
  - cbn [length find fst map list_eqb]. rewrite ?andb_false_r. reflexivity.
Qed.

(** Types. *)
Lemma repr_u : forall v, 0 <= v < 2 ^ 64 ->
  representable S32 v = (v <=? max_s32) /\ representable U32 v = (v <=? max_u32) /\
  representable S64 v = (v <=? max_s64) /\ representable U64 v = true.
Proof.
  intros v H. unfold representable, minv, maxv, signed, width, max_s32, max_u32, max_s64.
  repeat split; lia.
Qed.

Lemma other_base_ok : forall k l v, other_candidates k = Some l -> 0 <= v < 2 ^ 64 ->
  other_base_type k v = first_fit l v.
Proof.
  intros k l v H R. destruct (repr_u v R) as (E1 & E2 & E3 & E4).
  unfold first_fit, other_base_type.
  destruct k; inversion H; subst; cbn [explicit_kind find];
  unfold Int, UInt, Long, ULong, LongLong, ULongLong;
  rewrite ?E1, ?E2, ?E3, ?E4;
  repeat match goal with |- context [if ?x then _ else _] => destruct x eqn:? end; auto.
Qed.

Lemma base10_type_ok : forall k l v, decimal_candidates k = Some l -> 0 <= v < 2 ^ 64 ->
  base10_type k v = Some (match first_fit l v with Some t => (t, false) | None => (U64, true) end).
Proof.
  intros k l v H R. destruct (repr_u v R) as (E1 & E2 & E3 & E4).
  unfold first_fit, base10_type.
  destruct k; inversion H; subst; cbn [explicit_kind find];
  unfold Int, UInt, Long, ULong, LongLong, ULongLong;
  rewrite ?E1, ?E2, ?E3, ?E4;
  repeat match goal with |- context [if ?x then _ else _] => destruct x eqn:? end; auto.
Qed.

(** Whole tokens. *)
Lemma positional_nonneg : forall b s, 1 <= b -> 0 <= positional b s.
Proof. intros. unfold positional. pose proof (fold_mono b s 0 H ltac:(lia)). lia. Qed.

Lemma parse_base10_ok : forall text suffix,
  digit_text 10 text -> ends_digits 10 suffix -> Forall ident_char suffix ->
  positional 10 text < 2 ^ 64 ->
  parse_base10_literal (text ++ suffix) = (positional 10 text, suffix_kind suffix, false).
Proof.
  intros. unfold parse_base10_literal.
  rewrite (base10_no_false_overflow text suffix) by (auto; lia).
  rewrite suffix_ok by auto. reflexivity.
Qed.

Lemma parse_base10_mod : forall text suffix,
  digit_text 10 text -> ends_digits 10 suffix -> Forall ident_char suffix ->
  exists w, parse_base10_literal (text ++ suffix) = (positional 10 text mod 2 ^ 64, suffix_kind suffix, w).
Proof.
  intros. unfold parse_base10_literal.
  destruct (base10_value text suffix H H0 0 false ltac:(lia)) as [o E].
  change (wrapu 64 0) with 0 in E. rewrite E, suffix_ok by auto. exists o. reflexivity.
Qed.

Lemma parse_binary_ok : forall text suffix,
  digit_text 2 text -> ends_digits 2 suffix -> Forall ident_char suffix ->
  parse_binary_literal (text ++ suffix) =
    (positional 2 text mod 2 ^ 64, suffix_kind suffix, 2 ^ 64 <=? positional 2 text).
Proof.
  intros. unfold parse_binary_literal.
  pose proof (binary_loop_ok text suffix H H0 0 false ltac:(split; reflexivity || lia)) as E.
  cbv zeta in E. change (wrapu 64 0) with 0 in E. rewrite E, suffix_ok by auto. reflexivity.
Qed.

Lemma parse_hex_ok : forall text suffix,
  digit_text 16 text -> ends_digits 16 suffix -> Forall ident_char suffix ->
  parse_hex_literal (text ++ suffix) =
    (positional 16 text mod 2 ^ 64, suffix_kind suffix, 2 ^ 64 <=? positional 16 text).
Proof.
  intros. unfold parse_hex_literal.
  pose proof (hex_loop_ok text suffix H H0 0 false ltac:(split; reflexivity || lia)) as E.
  cbv zeta in E. change (wrapu 64 0) with 0 in E. rewrite E, suffix_ok by auto. reflexivity.
Qed.

Lemma parse_octal_ok : forall text suffix,
  digit_text 8 text -> ends_digits 10 suffix -> Forall ident_char suffix ->
  parse_octal_literal (text ++ suffix) =
    (positional 8 text mod 2 ^ 64, suffix_kind suffix, 2 ^ 63 <=? positional 8 text, false).
Proof.
  intros text suffix H H0 H1. unfold parse_octal_literal.
  assert (N : ends_digits 8 suffix).
  { destruct suffix; auto. destruct H0 as (A & B & C). split; auto. split; auto.
    intros [d [E L]]. apply B. exists d. split; auto. lia. }
  pose proof (octal_loop_ok text suffix H N 0 false ltac:(split; reflexivity || lia)) as E.
  cbv zeta in E. change (wrapu 64 0) with 0 in E. rewrite E, suffix_ok by auto.
  replace (match suffix with [] => false | c :: _ => (c =? 56) || (c =? 57) end) with false; [reflexivity|].
  destruct suffix as [|c suffix]; auto. destruct H0 as (A & B & C).
  symmetry. destruct (Z.eqb_spec c 56); destruct (Z.eqb_spec c 57); auto; exfalso; apply B; subst.
  - exists 8. split; [reflexivity|lia].
  - exists 8. split; [reflexivity|lia].
  - exists 9. split; [reflexivity|lia].
Qed.

Lemma parse_octal_bad_digit : forall text c suffix,
  digit_text 8 text -> c = 56 \/ c = 57 ->
  exists v k o, parse_octal_literal (text ++ c :: suffix) = (v, k, o, true).
Proof.
  intros text c suffix H Hc. unfold parse_octal_literal.
  assert (N : ends_digits 8 (c :: suffix)).
  { cbn. split; [lia|]. split; [|lia]. intros [d [E L]]. destruct Hc; subst; inversion E; lia. }
  pose proof (octal_loop_ok text (c :: suffix) H N 0 false ltac:(split; reflexivity || lia)) as E.
  cbv zeta in E. change (wrapu 64 0) with 0 in E. rewrite E.
  destruct Hc; subst; eexists _, _, _; reflexivity.
Qed.

(** a literal never changes value by being stored in the type chosen for it *)
Lemma write_lit_value : forall t g v, in_range t v -> value (write_lit t g v) = v.
Proof.
  intros. unfold write_lit. rewrite bits_width, value_wr. apply wrap_t_id; auto.
Qed.

Lemma first_fit_fits : forall l v t, first_fit l v = Some t -> in_range t v.
Proof.
  intros l v t H. apply find_some in H. destruct H as [_ H].
  unfold representable in H. unfold in_range. lia.
Qed.

Lemma U64_fits : forall v, 0 <= v < 2 ^ 64 -> in_range U64 v.
Proof. intros. unfold in_range, minv, maxv. cbn [signed width]. lia. Qed.

Lemma decimal_typing : forall k l v g, decimal_candidates k = Some l -> 0 <= v < 2 ^ 64 ->
  exists t w, base10_type k v = Some (t, w) /\
              value (write_lit t g v) = v /\
              (w = false -> first_fit l v = Some t) /\
              (w = true -> t = U64 /\ first_fit l v = None).
Proof.
  intros k l v g H R. rewrite (base10_type_ok k l v H R).
  destruct (first_fit l v) as [t|] eqn:E.
  - exists t, false. split; [reflexivity|]. split; [apply write_lit_value; eapply first_fit_fits; eauto|].
    split; [auto|discriminate].
  - exists U64, true. split; [reflexivity|]. split; [apply write_lit_value, U64_fits; auto|].
    split; [discriminate|auto].
Qed.

Lemma other_typing : forall k l v g, other_candidates k = Some l -> 0 <= v < 2 ^ 64 ->
  exists t, other_base_type k v = Some t /\ first_fit l v = Some t /\ value (write_lit t g v) = v.
Proof.
  intros k l v g H R. rewrite (other_base_ok k l v H R).
  destruct (repr_u v R) as (_ & _ & _ & E4).
  destruct (first_fit l v) as [t|] eqn:E.
  - exists t. repeat split. apply write_lit_value. eapply first_fit_fits; eauto.
  - exfalso. assert (In U64 l) by (destruct k; inversion H; subst; cbn; auto 10).
    unfold first_fit in E. pose proof (find_none _ _ E U64 H0) as C. cbv beta in C. congruence.
Qed.

(** wrap to the named type *)
Lemma explicit_value : forall t g v, t <> TBool -> value (write_lit t g v) = convert t v.
Proof. intros. unfold write_lit. rewrite bits_width, value_wr, convert_wrap by auto. reflexivity. Qed.

Lemma explicit_suffix_ok : forall sg t,
  In (sg, t) explicit_suffixes ->
  forall v g, base10_type (suffix_kind sg) v = Some (t, false) /\
            other_base_type (suffix_kind sg) v = Some t /\
            value (write_lit t g v) = convert t v.
Proof.
  intros sg t H v g. cbn in H.
  repeat (destruct H as [H|H]; [inversion H; subst; repeat split; apply explicit_value; discriminate|]).
  contradiction.
Qed.
