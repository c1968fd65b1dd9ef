(** One emitted instruction is one step of the machine. *)
From Verif Require Import Base X64Decode X64Machine EncModel EncSpec EncProofs EncProps EmitModel.

(** ** Straight-line execution *)
Definition runs (bs : list Z) (m m' : machine) : Prop :=
  pc m' = pc m + Z.of_nat (length bs) /\
  forall C, at_code C (pc m) bs -> steps C m m'.

Lemma runs_nil : forall m, runs [] m m.
Proof. intro m. split; [cbn; lia|]. intros. apply steps_refl. Qed.

Lemma steps_trans : forall C a b c, steps C a b -> steps C b c -> steps C a c.
Proof. intros C a b c H. induction H; [auto|]. intro. eapply steps_step; eauto. Qed.

Lemma at_code_app : forall C p a b, at_code C p (a ++ b) ->
  at_code C p a /\ at_code C (p + Z.of_nat (length a)) b.
Proof.
  intros C p a b (Hp & rest & E). split.
  - split; [exact Hp|]. exists (b ++ rest). rewrite E, app_assoc. reflexivity.
  - split; [lia|]. exists rest.
    replace (Z.to_nat (p + Z.of_nat (length a))) with (length a + Z.to_nat p)%nat by lia.
    assert (S : forall (A : Type) n k (l : list A), skipn (n + k) l = skipn n (skipn k l)).
    { intros A n k. revert n. induction k as [|k IH]; intros n l.
      - rewrite Nat.add_0_r. reflexivity.
      - destruct l as [|x l]; [rewrite !skipn_nil; reflexivity|].
        rewrite Nat.add_succ_r. cbn [skipn]. apply IH. }
    rewrite S, E, <- app_assoc, skipn_app, skipn_all, Nat.sub_diag. reflexivity.
Qed.

Lemma runs_app : forall a b m m1 m2, runs a m m1 -> runs b m1 m2 -> runs (a ++ b) m m2.
Proof.
  intros a b m m1 m2 (P1 & R1) (P2 & R2). split.
  - rewrite app_length. lia.
  - intros C H. destruct (at_code_app _ _ _ _ H) as (Ha & Hb).
    eapply steps_trans; [apply R1, Ha|]. apply R2. rewrite P1. exact Hb.
Qed.

(** ** Decoded instructions *)
Definition special (mp o : Z) : bool :=
  (mp =? 0) && ((0xB8 <=? o) && (o <=? 0xBF) || (o =? 0x99) || (o =? 0xE9))
  || (mp =? 1) && ((0x80 <=? o) && (o <=? 0x8F)).

Lemma next_pc : forall (C : list Z) p bs rest, 0 <= p -> bs <> [] -> skipn (Z.to_nat p) C = bs ++ rest ->
  Z.of_nat (length C) - Z.of_nat (length rest) = p + Z.of_nat (length bs).
Proof.
  intros C p bs rest Hp Hn E.
  assert (X : length (skipn (Z.to_nat p) C) = length (bs ++ rest)) by (rewrite E; reflexivity).
  rewrite skipn_length, app_length in X. destruct bs; [congruence|]. cbn [length] in *. lia.
Qed.

Lemma insn_runs : forall bs i ib imm m m1,
  (forall tail, decode_insn (bs ++ tail) = Some (i, ib ++ tail)) ->
  plain_prefixes (i_legacy i) = true -> i_vex i = None -> special (i_map i) (i_opc i) = false ->
  (forall tail, take_disp (imm_size i) (ib ++ tail) = Some (imm, tail)) ->
  exec i imm (pc m + Z.of_nat (length bs)) m = Some m1 ->
  runs bs m (goto m1 (pc m + Z.of_nat (length bs))).
Proof.
  intros bs i ib imm m m1 Hd Hp Hv Hs Ht He. split; [reflexivity|].
  intros C (Hpc & rest & E). apply steps_step with (goto m1 (pc m + Z.of_nat (length bs))); [|apply steps_refl].
  assert (Hne : bs <> []).
  { intros ->. specialize (Hd []). discriminate. }
  unfold step. replace (pc m <? 0) with false by lia. cbv zeta. rewrite E.
  pose proof (next_pc C (pc m) bs rest Hpc Hne E) as Hn.
  specialize (Hd rest). specialize (Ht rest). pose proof Hd as Hd'. unfold decode_insn in Hd'.
  destruct (decode_head (bs ++ rest)) as [[h r]|]; [|discriminate].
  destruct (decode_modrm (h_r h) (h_x h) (h_b h) r) as [[[reg rm] r']|]; [|discriminate].
  assert (Ei : i = Insn (h_legacy h) (h_rex h) (h_w h) (h_vex h) (h_map h) (h_opc h) reg rm) by congruence.
  assert (E1 : i_legacy i = h_legacy h) by (rewrite Ei; reflexivity).
  assert (E2 : i_vex i = h_vex h) by (rewrite Ei; reflexivity).
  assert (E3 : i_map i = h_map h) by (rewrite Ei; reflexivity).
  assert (E4 : i_opc i = h_opc h) by (rewrite Ei; reflexivity).
  rewrite E1 in Hp. rewrite E2 in Hv. rewrite E3, E4 in Hs.
  rewrite Hp, Hv. cbn [negb].
  unfold special in Hs. apply orb_false_iff in Hs. destruct Hs as (S1 & S2).
  assert (T1 : (h_map h =? 0) && (184 <=? h_opc h) && (h_opc h <=? 191) = false).
  { destruct (h_map h =? 0); [|reflexivity]. cbn [andb] in *. rewrite orb_false_iff, orb_false_iff in S1. tauto. }
  assert (T2 : (h_map h =? 0) && (h_opc h =? 153) = false).
  { destruct (h_map h =? 0); [|reflexivity]. cbn [andb] in *. rewrite orb_false_iff, orb_false_iff in S1. tauto. }
  assert (T3 : (h_map h =? 0) && (h_opc h =? 233) = false).
  { destruct (h_map h =? 0); [|reflexivity]. cbn [andb] in *. rewrite orb_false_iff, orb_false_iff in S1. tauto. }
  assert (T4 : (h_map h =? 1) && (128 <=? h_opc h) && (h_opc h <=? 143) = false).
  { destruct (h_map h =? 1); [|reflexivity]. cbn [andb] in *. exact S2. }
  rewrite T1, T2, T3, T4, Hd, Ht, Hn, He. reflexivity.
Qed.

(** ** The two instruction shapes without extra prefixes *)
Lemma vex_ok_none : forall m, vex_ok no_prefix m.
Proof. intros m H. discriminate. Qed.

Lemma plain_requested : forall mp o reg base hi size rm,
  plain_prefixes (i_legacy (requested no_prefix mp o reg base hi size rm)) = true.
Proof.
  intros. unfold requested. change (uses_vex no_prefix) with false. cbn [i_legacy]. unfold prefix_bytes.
  change (legacy no_prefix) with 0. rewrite !Z.testbit_0_l. destruct (size =? 2); reflexivity.
Qed.

Lemma reg_runs : forall mp o reg regm size bs ib imm m m1,
  legal_opcode mp o -> special mp o = false -> is_register reg -> is_register regm ->
  emit_register_op no_prefix (opcode_bytes mp o) reg regm size = Done bs ->
  (forall tail, take_disp (imm_size (requested no_prefix mp o reg regm false size (RmReg regm))) (ib ++ tail) = Some (imm, tail)) ->
  exec (requested no_prefix mp o reg regm false size (RmReg regm)) imm (pc m + Z.of_nat (length (bs ++ ib))) m = Some m1 ->
  runs (bs ++ ib) m (goto m1 (pc m + Z.of_nat (length (bs ++ ib)))).
Proof.
  intros mp o reg regm size bs ib imm m m1 Ho Hs Hr Hm E Ht He.
  destruct (register_op_decodes no_prefix mp o reg regm size Ho (vex_ok_none mp) Hr Hm) as (bs' & E' & Hd).
  assert (bs' = bs) by congruence. subst bs'.
  eapply insn_runs with (ib := ib); [| apply plain_requested | reflexivity | exact Hs | exact Ht | exact He].
  intro tail. rewrite <- app_assoc. apply Hd.
Qed.

Lemma emit_rr_done : forall mp o reg base index scale disp size imm r,
  emit_register_relative no_prefix (opcode_bytes mp o) reg (mkmem base index scale disp false size) imm = Done r ->
  is_s32 disp.
Proof.
  intros mp o reg base index scale disp size imm r. unfold emit_register_relative.
  cbn [m_ir m_offset negb andb]. unfold is_s32.
  destruct ((disp >? 2147483647) || (disp <? -2147483648)) eqn:E; [discriminate|].
  intros _. apply orb_false_iff in E. lia.
Qed.

Lemma mem_runs : forall mp o reg base index scale disp size im bs imm m m1,
  legal_opcode mp o -> special mp o = false -> is_register reg -> is_register base -> base <> 12 -> base <> 13 ->
  match index with Some i => is_register i /\ i <> 4 | None => True end -> 0 <= scale < 4 -> immediate_ok im ->
  emit_register_relative no_prefix (opcode_bytes mp o) reg (mkmem base (index_number index) scale disp false size) im = Done (bs, None) ->
  let i := requested no_prefix mp o reg base (high (index_number index)) size
                (RmMem (BaseReg base) (option_map (fun i => (i, 2 ^ scale)) index) disp) in
  (forall tail, take_disp (imm_size i) (immediate_bytes im ++ tail) = Some (imm, tail)) ->
  exec i imm (pc m + Z.of_nat (length bs)) m = Some m1 ->
  runs bs m (goto m1 (pc m + Z.of_nat (length bs))).
Proof.
  intros mp o reg base index scale disp size im bs imm m m1 Ho Hs Hr Hb H12 H13 Hi Hsc Him E i Ht He.
  assert (Hen : encodable base index disp).
  { split; [exact Hb|]. split; [eapply emit_rr_done; exact E|]. split; [|intros []; congruence].
    destruct index; [exact Hi|exact H12]. }
  destruct (memory_op_decodes no_prefix mp o reg base index scale disp size im Ho (vex_ok_none mp) Hr Hen Hsc Him)
    as (bs' & E' & Hd).
  assert (bs' = bs) by congruence. subst bs'.
  eapply insn_runs with (ib := immediate_bytes im); [exact Hd | apply plain_requested | reflexivity | exact Hs | exact Ht | exact He].
Qed.

(** ** Register contents *)
Definition is_size_P (n : Z) : Prop := n = 1 \/ n = 2 \/ n = 4 \/ n = 8.
Lemma is_size_spec : forall n, is_size n = true -> is_size_P n.
Proof. intros n. unfold is_size, is_size_P. rewrite !orb_true_iff, !Z.eqb_eq. lia. Qed.

(** Registers whose low byte has the same number with or without REX. *)
Definition plain_reg (r : Z) : Prop := 0 <= r < 16 /\ ~ (4 <= r <= 7).

Lemma byte_register_plain : forall rex r, plain_reg r -> byte_register rex r = (r, 0).
Proof.
  intros rex r (H1 & H2). unfold byte_register.
  destruct (Z.leb_spec 4 r), (Z.leb_spec r 7), rex; cbn [negb andb]; try reflexivity. lia.
Qed.

Lemma get_reg_plain : forall rf rex size r, is_size_P size -> plain_reg r ->
  get_reg rf rex size r = rf r mod 2 ^ (8 * size).
Proof.
  intros rf rex size r Hs Hr. unfold get_reg. destruct (Z.eqb_spec size 1) as [->|]; [|reflexivity].
  rewrite byte_register_plain by exact Hr. change (2 ^ 0) with 1. rewrite Z.div_1_r. reflexivity.
Qed.

Definition word (x : Z) : Prop := 0 <= x < 2 ^ 64.

(** [m'] is [m] after a write of [size] bytes [v] to register [r] (flags and pc aside). *)
Record wrote (m m' : machine) (r size v : Z) : Prop := mkwrote {
  w_other : forall q, q <> r -> regs m' q = regs m q;
  w_value : regs m' r mod 2 ^ (8 * size) = v mod 2 ^ (8 * size);
  w_full : 4 <= size -> regs m' r = v mod 2 ^ (8 * size);
  w_word : word (regs m r) -> word (regs m' r);
  w_mem : mem m' = mem m }.

Lemma set_bits_low : forall old n v, 0 <= n -> set_bits old 0 n v mod 2 ^ n = v mod 2 ^ n.
Proof.
  intros old n v Hn. unfold set_bits. change (2 ^ 0) with 1. rewrite Z.div_1_r, !Z.mul_1_r.
  pose proof (pow2_pos n Hn).
  replace (old - old mod 2 ^ n + v mod 2 ^ n) with (v mod 2 ^ n + (old / 2 ^ n) * 2 ^ n)
    by (pose proof (Z.div_mod old (2 ^ n) ltac:(lia)); lia).
  rewrite Z.mod_add by lia. apply Z.mod_mod. lia.
Qed.

Lemma set_bits_word : forall old n v, 0 <= n <= 64 -> word old -> word (set_bits old 0 n v).
Proof.
  intros old n v Hn H. unfold word, set_bits in *. change (2 ^ 0) with 1. rewrite Z.div_1_r, !Z.mul_1_r.
  pose proof (pow2_pos n ltac:(lia)).
  replace (old - old mod 2 ^ n) with (old / 2 ^ n * 2 ^ n) by (pose proof (Z.div_mod old (2 ^ n) ltac:(lia)); lia).
  pose proof (Z.mod_pos_bound v (2 ^ n) ltac:(lia)).
  assert (0 <= old / 2 ^ n) by (apply Z.div_pos; lia).
  assert (old / 2 ^ n < 2 ^ (64 - n)).
  { apply Z.div_lt_upper_bound; [lia|]. rewrite <- Z.pow_add_r by lia. replace (n + (64 - n)) with 64 by lia. lia. }
  assert (2 ^ (64 - n) * 2 ^ n = 2 ^ 64) by (rewrite <- Z.pow_add_r by lia; f_equal; lia).
  nia.
Qed.

Lemma upd_same : forall f k v, upd f k v k = v.
Proof. intros. unfold upd. rewrite Z.eqb_refl. reflexivity. Qed.
Lemma upd_other : forall f k v x, x <> k -> upd f k v x = f x.
Proof. intros. unfold upd. destruct (Z.eqb_spec x k); [contradiction|reflexivity]. Qed.

Lemma with_reg_wrote : forall m rex size r v, is_size_P size -> plain_reg r ->
  wrote m (with_reg m rex size r v) r size v.
Proof.
  intros m rex size r v Hs Hr. unfold with_reg. split; cbn [regs mem]; unfold set_reg; intros.
  - destruct (Z.eqb_spec size 1).
    + rewrite byte_register_plain by exact Hr. apply upd_other. assumption.
    + destruct (size =? 2); apply upd_other; assumption.
  - destruct (Z.eqb_spec size 1) as [->|].
    + rewrite byte_register_plain by exact Hr. rewrite upd_same. apply set_bits_low. lia.
    + destruct (Z.eqb_spec size 2) as [->|]; rewrite upd_same.
      * apply set_bits_low. lia.
      * apply Z.mod_mod. pose proof (pow2_pos (8 * size)). unfold is_size_P in Hs. lia.
  - destruct (Z.eqb_spec size 1); [lia|]. destruct (Z.eqb_spec size 2); [lia|]. apply upd_same.
  - destruct (Z.eqb_spec size 1) as [->|].
    + rewrite byte_register_plain by exact Hr. rewrite upd_same. apply set_bits_word; [lia|assumption].
    + destruct (Z.eqb_spec size 2) as [->|]; rewrite upd_same.
      * apply set_bits_word; [lia|assumption].
      * pose proof (Z.mod_pos_bound v (2 ^ (8 * size)) ltac:(apply pow2_pos; unfold is_size_P in Hs; lia)).
        assert (2 ^ (8 * size) <= 2 ^ 64) by (apply Z.pow_le_mono_r; unfold is_size_P in Hs; lia).
        unfold word. lia.
  - reflexivity.
Qed.

Lemma wrote_goto : forall m m' r size v p, wrote m m' r size v -> wrote m (goto m' p) r size v.
Proof. intros m m' r size v p [A B C D E]. split; assumption. Qed.
Lemma wrote_flags : forall m m' r size v f, wrote m m' r size v -> wrote m (with_flags m' f) r size v.
Proof. intros m m' r size v f [A B C D E]. split; assumption. Qed.

(** ** Memory *)
Lemma load_agree : forall n f g a, (forall i, 0 <= i < Z.of_nat n -> f (wrapu 64 (a + i)) = g (wrapu 64 (a + i))) ->
  load n f a = load n g a.
Proof.
  induction n as [|n IH]; intros f g a H; cbn [load]; [reflexivity|].
  f_equal; [|f_equal; apply IH].
  - specialize (H 0 ltac:(lia)). rewrite Z.add_0_r in H. rewrite H. reflexivity.
  - intros i Hi. replace (a + 1 + i) with (a + (1 + i)) by lia. apply H. lia.
Qed.

Lemma load_range : forall n f a, 0 <= load n f a < 2 ^ (8 * Z.of_nat n).
Proof.
  induction n as [|n IH]; intros f a; cbn [load]; [cbn; lia|].
  specialize (IH f (a + 1)). pose proof (Z.mod_pos_bound (f (wrapu 64 a)) 256 ltac:(lia)).
  replace (8 * Z.of_nat (S n)) with (8 + 8 * Z.of_nat n) by lia. rewrite Z.pow_add_r by lia. change (2 ^ 8) with 256. lia.
Qed.

Lemma load_prefix : forall n k f a, (k <= n)%nat -> load n f a mod 2 ^ (8 * Z.of_nat k) = load k f a.
Proof.
  induction n as [|n IH]; intros k f a H.
  - replace k with O by lia. reflexivity.
  - destruct k as [|k].
    + cbn [load]. change (2 ^ (8 * Z.of_nat 0)) with 1. apply Z.mod_1_r.
    + cbn [load]. rewrite <- (IH k f (a + 1)) by lia.
      replace (8 * Z.of_nat (S k)) with (8 + 8 * Z.of_nat k) by lia. rewrite Z.pow_add_r by lia. change (2 ^ 8) with 256.
      pose proof (pow2_pos (8 * Z.of_nat k) ltac:(lia)).
      rewrite (Z.rem_mul_r _ 256 (2 ^ (8 * Z.of_nat k))) by lia.
      set (x := f (wrapu 64 a) mod 256). set (y := load n f (a + 1)).
      assert (0 <= x < 256) by (apply Z.mod_pos_bound; lia).
      replace (x + 256 * y) with (x + y * 256) by lia.
      rewrite Z.mod_add by lia. rewrite Z.div_add by lia. rewrite (Z.mod_small x) by lia. rewrite (Z.div_small x) by lia.
      reflexivity.
Qed.

Lemma load_wrap : forall n f a, load n f (wrapu 64 a) = load n f a.
Proof.
  assert (G : forall n f a b, a mod 2 ^ 64 = b mod 2 ^ 64 -> load n f a = load n f b).
  { induction n as [|n IH]; intros f a b H; cbn [load]; [reflexivity|].
    unfold wrapu. rewrite H. f_equal. f_equal. apply IH.
    rewrite <- (Zplus_mod_idemp_l a), <- (Zplus_mod_idemp_l b), H. reflexivity. }
  intros. apply G. unfold wrapu. apply Z.mod_mod. lia.
Qed.

(** The bytes of a range of addresses. *)
Definition in_range (a n x : Z) : Prop := exists i, 0 <= i < n /\ x = wrapu 64 (a + i).

Lemma store_other : forall n f a v x, ~ in_range a (Z.of_nat n) x -> store n f a v x = f x.
Proof.
  induction n as [|n IH]; intros f a v x H; cbn [store]; [reflexivity|].
  rewrite IH.
  - apply upd_other. intros ->. apply H. exists 0. split; [lia|]. f_equal; lia.
  - intros (i & Hi & ->). apply H. exists (1 + i). split; [lia|]. f_equal; lia.
Qed.

Lemma wrapu_inj : forall a i j, 0 <= i < 2 ^ 64 -> 0 <= j < 2 ^ 64 -> wrapu 64 (a + i) = wrapu 64 (a + j) -> i = j.
Proof.
  intros a i j Hi Hj H. unfold wrapu in H.
  assert (E : (a + i) mod 2 ^ 64 = (a + j) mod 2 ^ 64) by exact H.
  pose proof (Z.div_mod (a + i) (2 ^ 64) ltac:(lia)). pose proof (Z.div_mod (a + j) (2 ^ 64) ltac:(lia)). lia.
Qed.

Lemma load_store_same : forall n f a v, (n <= 8)%nat -> load n (store n f a v) a = v mod 2 ^ (8 * Z.of_nat n).
Proof.
  induction n as [|n IH]; intros f a v Hn; cbn [load store].
  - change (2 ^ (8 * Z.of_nat 0)) with 1. rewrite Z.mod_1_r. reflexivity.
  - rewrite IH by lia. rewrite store_other.
    + rewrite upd_same. rewrite Z.mod_mod by lia.
      replace (8 * Z.of_nat (S n)) with (8 + 8 * Z.of_nat n) by lia. rewrite Z.pow_add_r by lia. change (2 ^ 8) with 256.
      pose proof (pow2_pos (8 * Z.of_nat n) ltac:(lia)).
      symmetry. apply Z.rem_mul_r; lia.
    + intros (i & Hi & E). assert (0 = 1 + i); [|lia].
      apply (wrapu_inj a); [lia..|]. replace (a + (1 + i)) with (a + 1 + i) by lia. rewrite Z.add_0_r. exact E.
Qed.

Lemma load_store_other : forall n k f a b v,
  (forall i j, 0 <= i < Z.of_nat n -> 0 <= j < Z.of_nat k -> wrapu 64 (a + i) <> wrapu 64 (b + j)) ->
  load k (store n f a v) b = load k f b.
Proof.
  intros n k f a b v H. apply load_agree. intros j Hj. apply store_other. intros (i & Hi & E).
  apply (H i j Hi Hj). symmetry. exact E.
Qed.

Lemma store_byte : forall n f a v x, (forall y, 0 <= f y < 256) -> 0 <= store n f a v x < 256.
Proof.
  induction n as [|n IH]; intros f a v x H; cbn [store]; [apply H|]. apply IH. intro y. unfold upd.
  destruct (y =? wrapu 64 a); [apply Z.mod_pos_bound; lia|apply H].
Qed.

