From Verif Require Import Base LeafModel LeafSpec.

Lemma le_len : forall n v, length (le_bytes n v) = n.
Proof. induction n; intros; cbn [le_bytes length]; auto. Qed.

Lemma unsigned_le : forall n v, unsigned (le_bytes n v) = v mod 256 ^ Z.of_nat n.
Proof.
  induction n; intros v; cbn [le_bytes unsigned].
  - change (256 ^ Z.of_nat 0) with 1. rewrite Z.mod_1_r. auto.
  - rewrite IHn, Nat2Z.inj_succ, Z.pow_succ_r by lia.
    assert (0 < 256 ^ Z.of_nat n) by (apply Z.pow_pos_nonneg; lia).
    rewrite Z.rem_mul_r by lia. lia.
Qed.

Lemma signed_le : forall n v, (0 < n)%nat -> - 256 ^ Z.of_nat n <= 2 * v < 256 ^ Z.of_nat n -> signed (le_bytes n v) = v.
Proof.
  intros n v N H. unfold signed. rewrite unsigned_le, le_len. set (m := 256 ^ Z.of_nat n) in *.
  destruct (Z_lt_ge_dec v 0).
  - assert (E : v mod m = v + m) by (symmetry; apply Z.mod_unique with (q := -1); lia). rewrite E.
    destruct (Z.ltb_spec (2 * (v + m)) m); lia.
  - rewrite Z.mod_small by lia. destruct (Z.ltb_spec (2 * v) m); lia.
Qed.

Lemma take_app : forall n a b, length a = n -> take n (a ++ b) = Some (a, b).
Proof.
  intros n a b L. unfold take. rewrite app_length. replace (n <=? length a + length b)%nat with true by (symmetry; apply Nat.leb_le; lia).
  subst n. rewrite firstn_app, Nat.sub_diag, firstn_all, skipn_app, Nat.sub_diag, skipn_all. cbn. rewrite app_nil_r. auto.
Qed.

Lemma word : forall v rest, take 2 (le_bytes 2 v ++ rest) = Some (le_bytes 2 v, rest).
Proof. intros. apply take_app, le_len. Qed.

Lemma push0 : forall size v pos bytes, pos mod size = 0 -> push_struct size v (pos, bytes) = (pos + size, bytes ++ le_bytes (Z.to_nat size) v).
Proof.
  intros size v pos bytes E. unfold push_struct.
  destruct (Z.eq_dec size 0) as [->|N]; [rewrite Zmod_0_r in *; subst; reflexivity|].
  rewrite Z.mod_opp_l_z by auto. cbn [Z.to_nat repeat app]. rewrite Z.add_0_r. reflexivity.
Qed.

Definition emitted (f : Z * list Z -> Z * list Z) (pos : Z) : list Z := snd (f (pos, [])).

Lemma even2 : forall pos, pos mod 2 = 0 -> (pos + 2) mod 2 = 0.
Proof. intros. rewrite Z.add_mod, H by lia. reflexivity. Qed.

Ltac kinds := repeat match goal with |- context[unsigned (le_bytes 2 ?k)] =>
  replace (unsigned (le_bytes 2 k)) with k by (vm_compute; reflexivity) end; cbn [Z.ltb Z.eqb Z.compare Pos.compare Pos.compare_cont Pos.eqb].

Lemma read_small : forall v rest, 0 <= v < 0x8000 -> read_leaf (le_bytes 2 v ++ rest) = Some (v, rest).
Proof.
  intros v rest H. unfold read_leaf. rewrite word. rewrite unsigned_le. change (256 ^ Z.of_nat 2) with 65536.
  rewrite Z.mod_small by lia. replace (v <? 32768) with true by lia. auto.
Qed.

Lemma read_kind : forall kind n conv b rest,
  In (kind, n, conv) [(0x8000, 1%nat, signed); (0x8001, 2%nat, signed); (0x8002, 2%nat, unsigned); (0x8003, 4%nat, signed);
                      (0x8004, 4%nat, unsigned); (0x8009, 8%nat, signed); (0x800a, 8%nat, unsigned)] ->
  length b = n -> read_leaf (le_bytes 2 kind ++ b ++ rest) = Some (conv b, rest).
Proof.
  intros kind n conv b rest I L. unfold read_leaf. rewrite word. cbn [In] in I.
  repeat destruct I as [I|I]; try contradiction; injection I as <- <- <-; kinds; rewrite take_app by auto; reflexivity.
Qed.

Ltac kind_of k n := eapply (read_kind k n); [cbn [In]; tauto|rewrite ?app_length, ?le_len; reflexivity].

Lemma unsigned_ok : forall v pos rest, 0 <= v < 2 ^ 64 -> pos mod 2 = 0 ->
  read_leaf (emitted (push_unsigned_number_leaf v) pos ++ rest) = Some (v, rest).
Proof.
  intros v pos rest H P. unfold emitted, push_unsigned_number_leaf. change (2 ^ 64) with (256 ^ Z.of_nat 8) in H.
  destruct (Z.ltb_spec v 0x8000); [rewrite push0 by auto; apply read_small; lia|].
  destruct (Z.leb_spec v 65535).
  { rewrite push0, push0 by (auto; apply even2; auto). cbn [snd app]. rewrite <- app_assoc.
    erewrite (read_kind 0x8002 2%nat unsigned); [|cbn [In]; tauto|apply le_len]. change (Z.to_nat 2) with 2%nat. rewrite unsigned_le, Z.mod_small; auto.
    change (256 ^ Z.of_nat 2) with 65536. lia. }
  destruct (Z.leb_spec v 4294967295).
  { rewrite push0 by auto. cbn [push_data snd app]. rewrite <- app_assoc.
    erewrite (read_kind 0x8004 4%nat unsigned); [|cbn [In]; tauto|apply le_len]. change (Z.to_nat 4) with 4%nat. rewrite unsigned_le, Z.mod_small; auto.
    change (256 ^ Z.of_nat 4) with 4294967296. lia. }
  rewrite push0 by auto. cbn [push_data snd app]. rewrite <- app_assoc.
  erewrite (read_kind 0x800a 8%nat unsigned); [|cbn [In]; tauto|apply le_len]. change (Z.to_nat 8) with 8%nat. rewrite unsigned_le, Z.mod_small; auto.
Qed.

Lemma signed_ok : forall v pos rest, - 2 ^ 63 <= v < 2 ^ 63 -> pos mod 2 = 0 ->
  (v < - 2 ^ 15 -> pos mod 4 = 2) -> (v < - 2 ^ 31 -> pos mod 8 = 6) ->
  read_leaf (emitted (push_signed_number_leaf v) pos ++ rest) = Some (v, rest).
Proof.
  intros v pos rest H P P4 P8. unfold emitted, push_signed_number_leaf.
  change (2 ^ 63) with 9223372036854775808 in *. change (2 ^ 15) with 32768 in *. change (2 ^ 31) with 2147483648 in *.
  rewrite !Z.geb_leb.
  destruct (Z.leb_spec 0 v).
  - destruct (Z.ltb_spec v 0x8000); [rewrite push0 by auto; apply read_small; lia|].
    replace (v <=? 32767) with false by lia.
    destruct (Z.leb_spec v 2147483647).
    { rewrite push0 by auto. cbn [push_data snd app]. rewrite <- app_assoc.
      erewrite (read_kind 0x8003 4%nat signed); [|cbn [In]; tauto|apply le_len]. change (Z.to_nat 4) with 4%nat. rewrite signed_le; [auto|lia|].
      change (256 ^ Z.of_nat 4) with 4294967296. lia. }
    rewrite push0 by auto. cbn [push_data snd app]. rewrite <- app_assoc.
    erewrite (read_kind 0x8009 8%nat signed); [|cbn [In]; tauto|apply le_len]. change (Z.to_nat 8) with 8%nat. rewrite signed_le; [auto|lia|].
    change (256 ^ Z.of_nat 8) with 18446744073709551616. lia.
  - destruct (Z.leb_spec (-128) v).
    { rewrite push0 by auto. rewrite push0 by (apply Z.mod_1_r). cbn [snd app]. rewrite <- app_assoc.
      erewrite (read_kind 0x8000 1%nat signed); [|cbn [In]; tauto|apply le_len]. change (Z.to_nat 1) with 1%nat. rewrite signed_le; [auto|lia|].
      change (256 ^ Z.of_nat 1) with 256. lia. }
    destruct (Z.leb_spec (-32768) v).
    { rewrite push0, push0 by (auto; apply even2; auto). cbn [snd app]. rewrite <- app_assoc.
      erewrite (read_kind 0x8001 2%nat signed); [|cbn [In]; tauto|apply le_len]. change (Z.to_nat 2) with 2%nat. rewrite signed_le; [auto|lia|].
      change (256 ^ Z.of_nat 2) with 65536. lia. }
    destruct (Z.leb_spec (-2147483648) v).
    { rewrite push0 by auto.
      rewrite push0. 2:{ rewrite Z.add_mod, P4 by lia. reflexivity. }
      cbn [snd app]. rewrite <- app_assoc.
      erewrite (read_kind 0x8003 4%nat signed); [|cbn [In]; tauto|apply le_len]. change (Z.to_nat 4) with 4%nat. rewrite signed_le; [auto|lia|].
      change (256 ^ Z.of_nat 4) with 4294967296. lia. }
    rewrite push0 by auto. rewrite push0. 2:{ rewrite Z.add_mod, P8 by lia. reflexivity. }
    cbn [snd app]. rewrite <- app_assoc.
    erewrite (read_kind 0x8009 8%nat signed); [|cbn [In]; tauto|apply le_len]. change (Z.to_nat 8) with 8%nat. rewrite signed_le; [auto|lia|].
    change (256 ^ Z.of_nat 8) with 18446744073709551616. lia.
Qed.

(** At a multiple of four the second half of the number is lost. *)
Lemma signed_misaligned : forall v pos rest, - 2 ^ 31 <= v < - 2 ^ 15 -> pos mod 4 = 0 ->
  exists w r, read_leaf (emitted (push_signed_number_leaf v) pos ++ rest) = Some (w, r) /\ w <> v /\ w mod 65536 = 0 /\ length r = (2 + length rest)%nat.
Proof.
  intros v pos rest H P. unfold emitted, push_signed_number_leaf. change (2 ^ 15) with 32768 in *. change (2 ^ 31) with 2147483648 in *.
  rewrite !Z.geb_leb. replace (0 <=? v) with false by lia. replace (-128 <=? v) with false by lia.
  replace (-32768 <=? v) with false by lia. replace (-2147483648 <=? v) with true by lia.
  assert (P2 : pos mod 2 = 0).
  { pose proof (Z.div_mod pos 4 ltac:(lia)) as D. rewrite P in D. rewrite D. replace (4 * (pos / 4) + 0) with (2 * (pos / 4) * 2) by lia. apply Z.mod_mul. lia. }
  rewrite push0 by auto. unfold push_struct.
  assert (PD : (- (pos + 2)) mod 4 = 2).
  { pose proof (Z.div_mod pos 4 ltac:(lia)) as D. rewrite P in D. symmetry. apply Z.mod_unique with (q := - (pos / 4) - 1); lia. }
  rewrite PD. change (repeat 0 (Z.to_nat 2)) with [0; 0]. change (Z.to_nat 4) with 4%nat. change (Z.to_nat 2) with 2%nat. cbn [snd le_bytes].
  cbn [app]. cbn [app].
  set (b0 := v mod 256). set (b1 := v / 256 mod 256). set (b2 := v / 256 / 256 mod 256). set (b3 := v / 256 / 256 / 256 mod 256).
  change (read_leaf _) with (read_leaf (le_bytes 2 0x8003 ++ [0; 0; b0; b1] ++ [b2; b3] ++ rest)).
  erewrite (read_kind 0x8003 4%nat signed); [|cbn [In]; tauto|reflexivity].
  eexists; eexists; split; [reflexivity|].
  unfold signed. cbn [unsigned length]. change (256 ^ Z.of_nat 4) with 4294967296.
  assert (0 <= b0 < 256 /\ 0 <= b1 < 256) by (unfold b0, b1; split; apply Z.mod_pos_bound; lia).
  assert (E : v mod 65536 = b0 + 256 * b1).
  { change 65536 with (256 * 256). rewrite Z.rem_mul_r by lia. reflexivity. }
  set (u := 0 + 256 * (0 + 256 * (b0 + 256 * (b1 + 256 * 0)))) in *.
  assert (U : u = 65536 * (b0 + 256 * b1)) by (unfold u; lia).
  assert (M : forall k, (65536 * k) mod 65536 = 0) by (intros; rewrite Z.mul_comm; apply Z.mod_mul; lia).
  assert (W : (if 2 * u <? 4294967296 then u else u - 4294967296) mod 65536 = 0).
  { destruct (2 * u <? 4294967296); rewrite U; [apply M|]. replace (65536 * (b0 + 256 * b1) - 4294967296) with (65536 * (b0 + 256 * b1 - 65536)) by lia. apply M. }
  split; [|split; [exact W|cbn [length app]; lia]].
  intros EQ. rewrite EQ in W. rewrite W in E. assert (u = 0) by lia. assert (Hu : (2 * u <? 4294967296) = true) by lia. rewrite Hu in EQ. lia.
Qed.

Lemma enumerate_ok : forall v pos rest, - 2 ^ 31 <= v < 2 ^ 31 -> pos mod 2 = 0 ->
  read_leaf (emitted (enumerate_leaf v) pos ++ rest) = Some (v, rest).
Proof.
  intros v pos rest H P. unfold emitted, enumerate_leaf. rewrite push0 by auto. cbn [push_data snd app]. rewrite <- app_assoc.
  erewrite (read_kind 0x8003 4%nat signed); [|cbn [In]; tauto|apply le_len]. change (Z.to_nat 4) with 4%nat. rewrite signed_le; [auto|lia|].
  change (256 ^ Z.of_nat 4) with 4294967296. change (2 ^ 31) with 2147483648 in H. lia.
Qed.

(** The size helper agrees with the reader. *)
Lemma size_helper : forall bytes v rest, Forall (fun b => 0 <= b < 256) bytes -> read_leaf bytes = Some (v, rest) ->
  Z.of_nat (length bytes) = pdb_numeric_leaf_size_or_error (unsigned (firstn 2 bytes)) + Z.of_nat (length rest).
Proof.
  intros bytes v rest B. unfold read_leaf, take at 1. destruct (Nat.leb_spec 2 (length bytes)); [|discriminate].
  set (kind := unsigned (firstn 2 bytes)). intros R. cbv zeta in R. unfold pdb_numeric_leaf_size_or_error.
  assert (K : 0 <= kind < 65536).
  { destruct bytes as [|a [|b r]]; [cbn in H; lia|cbn in H; lia|]. inversion B as [|? ? B1 B']; subst. inversion B' as [|? ? B2]; subst. unfold kind. cbn [firstn unsigned]. lia. }
  assert (TB : Z.testbit kind 15 = (32768 <=? kind)).
  { rewrite Z.testbit_eqb by lia. change (2 ^ 15) with 32768.
    destruct (Z.leb_spec 32768 kind).
    - replace (kind / 32768) with 1; auto. apply Z.div_unique with (r := kind - 32768); lia.
    - rewrite Z.div_small by lia. auto. }
  assert (SK : length (skipn 2 bytes) = (length bytes - 2)%nat) by (apply skipn_length).
  rewrite TB. destruct (Z.ltb_spec kind 32768).
  { assert (rest = skipn 2 bytes) by congruence. subst rest. replace (32768 <=? kind) with false by lia. cbn [negb]. rewrite SK. lia. }
  replace (32768 <=? kind) with true by lia. cbn [negb].
  assert (G : forall n (conv : list Z -> Z), match take n (skipn 2 bytes) with Some (b, r) => Some (conv b, r) | None => None end = Some (v, rest) ->
     Z.of_nat (length bytes) = 2 + Z.of_nat n + Z.of_nat (length rest)).
  { intros n conv E. unfold take in E. destruct (Nat.leb_spec n (length (skipn 2 bytes))); [|discriminate]. assert (rest = skipn n (skipn 2 bytes)) by congruence. subst rest. rewrite (skipn_length n (skipn 2 bytes)). lia. }
  clearbody kind. cbv beta in R.
  revert R.
  repeat match goal with
  | |- (if kind =? ?k then _ else _) = _ -> _ => destruct (Z.eqb_spec kind k) as [->|?]; [intros R; apply G in R; cbn [Z.eqb Pos.eqb orb]; lia|]
  end. intros; discriminate.
Qed.

Lemma f3_nth : forall n i, (i < n)%nat -> nth i (f3f2f1 n) 0 = 0xf0 + Z.of_nat (n - i).
Proof. induction n; intros i H; [lia|]. cbn [f3f2f1]. destruct i; cbn [nth]; [f_equal; lia|]. rewrite IHn by lia. f_equal. Qed.
Lemma f3_len : forall n, length (f3f2f1 n) = n.
Proof. induction n; cbn [f3f2f1 length]; auto. Qed.
