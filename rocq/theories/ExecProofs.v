(** Each instruction the code generator emits, executed on the machine. *)
From Verif Require Import Base X64Decode X64Machine EncModel EncSpec EncProofs EncProps EmitModel StepProofs.
(** ** Instructions *)
Definition emitted (bs : list Z) (i : insn) (ib : list Z) : Prop :=
  forall tail, decode_insn (bs ++ tail) = Some (i, ib ++ tail).

Lemma emitted_runs : forall bs mp o reg base hi size rm ib imm m m1,
  emitted bs (requested no_prefix mp o reg base hi size rm) ib -> special mp o = false ->
  (forall tail, take_disp (imm_size (requested no_prefix mp o reg base hi size rm)) (ib ++ tail) = Some (imm, tail)) ->
  exec (requested no_prefix mp o reg base hi size rm) imm (pc m + Z.of_nat (length bs)) m = Some m1 ->
  runs bs m (goto m1 (pc m + Z.of_nat (length bs))).
Proof.
  intros. eapply insn_runs; [exact H | apply plain_requested | reflexivity | exact H0 | exact H1 | exact H2].
Qed.

Lemma emitted_reg : forall mp o reg regm size bs ib, legal_opcode mp o -> is_register reg -> is_register regm ->
  emit_register_op no_prefix (opcode_bytes mp o) reg regm size = Done bs ->
  emitted (bs ++ ib) (requested no_prefix mp o reg regm false size (RmReg regm)) ib.
Proof.
  intros mp o reg regm size bs ib Ho Hr Hm E tail.
  destruct (register_op_decodes no_prefix mp o reg regm size Ho (vex_ok_none mp) Hr Hm) as (bs' & E' & Hd).
  assert (bs' = bs) by congruence. subst bs'. rewrite <- app_assoc. apply Hd.
Qed.

Lemma emitted_mem : forall mp o reg base index scale disp size im bs,
  legal_opcode mp o -> is_register reg -> is_register base -> base <> 12 -> base <> 13 ->
  match index with Some i => is_register i /\ i <> 4 | None => True end -> 0 <= scale < 4 -> immediate_ok im ->
  emit_register_relative no_prefix (opcode_bytes mp o) reg (mkmem base (index_number index) scale disp false size) im = Done bs ->
  emitted (fst bs) (requested no_prefix mp o reg base (high (index_number index)) size
                (RmMem (BaseReg base) (option_map (fun i => (i, 2 ^ scale)) index) disp)) (immediate_bytes im).
Proof.
  intros mp o reg base index scale disp size im bs Ho Hr Hb H12 H13 Hi Hsc Him E tail.
  assert (Hen : encodable base index disp).
  { split; [exact Hb|]. split; [eapply emit_rr_done; exact E|]. split; [|intros []; congruence].
    destruct index; [exact Hi|exact H12]. }
  destruct (memory_op_decodes no_prefix mp o reg base index scale disp size im Ho (vex_ok_none mp) Hr Hen Hsc Him)
    as (bs' & E' & Hd).
  assert (bs = (bs', None)) by congruence. subst bs. apply Hd.
Qed.

(** The value of an operand. *)
Definition ea (m : machine) (b : Z) (idx : option (Z * Z)) (d : Z) : Z :=
  wrapu 64 (regs m b + match idx with Some (r, s) => s * regs m r | None => 0 end + d).
Definition rm_ok (rm : rm_operand) : Prop :=
  match rm with RmReg r => plain_reg r | RmMem (BaseReg _) _ _ => True | _ => False end.
Definition rmval (m : machine) (size : Z) (rm : rm_operand) : Z :=
  match rm with
  | RmReg r => regs m r mod 2 ^ (8 * size)
  | RmMem (BaseReg b) idx d => load (Z.to_nat size) (mem m) (ea m b idx d)
  | _ => 0
  end.

Lemma get_rm_val : forall m rex next size rm, is_size_P size -> rm_ok rm ->
  get_rm m rex next size rm = rmval m size rm.
Proof.
  intros m rex next size rm Hs H. destruct rm as [r|[b| |] idx d]; cbn in H; try contradiction.
  - apply get_reg_plain; assumption.
  - reflexivity.
Qed.

Lemma rmval_range : forall m size rm, is_size_P size -> 0 <= rmval m size rm < 2 ^ (8 * size).
Proof.
  intros m size rm Hs. pose proof (pow2_pos (8 * size) ltac:(unfold is_size_P in Hs; lia)).
  destruct rm as [r|[b| |] idx d]; cbn [rmval]; try lia.
  - apply Z.mod_pos_bound. lia.
  - pose proof (load_range (Z.to_nat size) (mem m) (ea m b idx d)) as L.
    replace (8 * Z.of_nat (Z.to_nat size)) with (8 * size) in L by (unfold is_size_P in Hs; lia). exact L.
Qed.

Lemma op_size : forall mp o reg base hi size rm, is_size_P size -> size <> 1 ->
  operand_size (requested no_prefix mp o reg base hi size rm) = size.
Proof.
  intros. apply C14_operand_size; [reflexivity|reflexivity|unfold is_size_P in *; lia].
Qed.

Lemma eff_size : forall mp o reg base hi size rm, is_size_P size -> Z.even o = (size =? 1) ->
  (if Z.even o then 1 else operand_size (requested no_prefix mp o reg base hi size rm)) = size.
Proof.
  intros mp o reg base hi size rm Hs He. rewrite He. destruct (Z.eqb_spec size 1); [congruence|].
  apply op_size; assumption.
Qed.

Ltac numeral a := match a with Z0 => idtac | Zpos _ => idtac | Zneg _ => idtac | Z.add _ _ => idtac | Z.sub _ _ => idtac end.
Ltac ctest1 a b op :=
  numeral a; numeral b;
  let v := eval compute in (op a b) in
  match v with true => change (op a b) with true | false => change (op a b) with false end.
Ltac ctest := repeat (
  match goal with
  | |- context [ Z.eqb ?a ?b ] => ctest1 a b Z.eqb
  | |- context [ Z.leb ?a ?b ] => ctest1 a b Z.leb
  | |- context [ Z.ltb ?a ?b ] => ctest1 a b Z.ltb
  end); cbn [andb orb negb].

Lemma fields : forall mp o reg base hi size rm,
  let i := requested no_prefix mp o reg base hi size rm in
  i_map i = mp /\ i_opc i = o /\ i_reg i = reg /\ i_rm i = rm.
Proof. intros. repeat split. Qed.

Ltac exec_start o :=
  unfold exec; cbv zeta;
  repeat match goal with
  | |- context [i_map (requested no_prefix ?mp ?o ?reg ?base ?hi ?size ?rm)] =>
      change (i_map (requested no_prefix mp o reg base hi size rm)) with mp
  | |- context [i_opc (requested no_prefix ?mp ?o ?reg ?base ?hi ?size ?rm)] =>
      change (i_opc (requested no_prefix mp o reg base hi size rm)) with o
  | |- context [i_reg (requested no_prefix ?mp ?o ?reg ?base ?hi ?size ?rm)] =>
      change (i_reg (requested no_prefix mp o reg base hi size rm)) with reg
  | |- context [i_rm (requested no_prefix ?mp ?o ?reg ?base ?hi ?size ?rm)] =>
      change (i_rm (requested no_prefix mp o reg base hi size rm)) with rm
  end.

(** [op8 size a]: the byte form [a] of an opcode or its full-size form [a + 1]. *)
Definition op8 (size a : Z) : Z := if size =? 1 then a else a + 1.

Lemma even_op8 : forall size a, Z.even a = true -> Z.even (op8 size a) = (size =? 1).
Proof.
  intros size a H. unfold op8. destruct (size =? 1); [exact H|]. rewrite Z.even_add, H. reflexivity.
Qed.

Lemma no_imm : forall mp o reg base hi size rm, existsb (Z.eqb o) [0x80; 0x83; 0xC0; 0xC1; 0xC6; 0x81; 0xC7; 0x69] = false ->
  forall tail, take_disp (imm_size (requested no_prefix mp o reg base hi size rm)) ([] ++ tail) = Some (0, tail).
Proof.
  intros mp o reg base hi size rm H tail. unfold imm_size.
  change (i_map (requested no_prefix mp o reg base hi size rm)) with mp.
  change (i_opc (requested no_prefix mp o reg base hi size rm)) with o.
  cbn [existsb] in *. repeat rewrite orb_false_iff in H. destruct H as (H1 & H2 & H3 & H4 & H5 & H6 & H7 & H8 & _).
  rewrite H1, H2, H3, H4, H5, H6, H7, H8. cbn [orb]. destruct (negb (mp =? 0)); reflexivity.
Qed.

(** mov r, r/m *)
Lemma I_mov : forall bs reg base hi size rm m,
  emitted bs (requested no_prefix 0 (op8 size 0x8A) reg base hi size rm) [] ->
  is_size_P size -> plain_reg reg -> rm_ok rm ->
  exists m', runs bs m m' /\ wrote m m' reg size (rmval m size rm) /\ fl m' = fl m.
Proof.
  intros bs reg base hi size rm m He Hs Hr Hrm. eexists. split; [|split].
  - eapply emitted_runs; [exact He| | |].
    + unfold op8. destruct (size =? 1); reflexivity.
    + apply no_imm. unfold op8. destruct (size =? 1); reflexivity.
    + exec_start 0. rewrite eff_size by (try apply even_op8; auto).
      rewrite get_rm_val by assumption.
      unfold op8. destruct (size =? 1); ctest; reflexivity.
  - apply wrote_goto, with_reg_wrote; assumption.
  - reflexivity.
Qed.

(** mov [mem], r *)
Lemma I_mov_store : forall bs reg base hi size b idx d m,
  emitted bs (requested no_prefix 0 (op8 size 0x88) reg base hi size (RmMem (BaseReg b) idx d)) [] ->
  is_size_P size -> plain_reg reg ->
  exists m', runs bs m m' /\ regs m' = regs m /\ fl m' = fl m /\
    mem m' = store (Z.to_nat size) (mem m) (ea m b idx d) (regs m reg mod 2 ^ (8 * size)).
Proof.
  intros bs reg base hi size b idx d m He Hs Hr. eexists. split; [|split; [|split]].
  - eapply emitted_runs; [exact He| | |].
    + unfold op8. destruct (size =? 1); reflexivity.
    + apply no_imm. unfold op8. destruct (size =? 1); reflexivity.
    + exec_start 0. rewrite eff_size by (try apply even_op8; auto).
      rewrite get_reg_plain by assumption.
      unfold op8. destruct (size =? 1); ctest; reflexivity.
  - reflexivity.
  - reflexivity.
  - reflexivity.
Qed.

(** add, or, and, sub, xor r, r/m *)
Lemma I_alu : forall bs k reg base hi size rm m v f,
  emitted bs (requested no_prefix 0 (op8 size (8 * k + 2)) reg base hi size rm) [] ->
  k = 0 \/ k = 1 \/ k = 4 \/ k = 5 \/ k = 6 ->
  is_size_P size -> plain_reg reg -> rm_ok rm ->
  alu k (8 * size) (regs m reg mod 2 ^ (8 * size)) (rmval m size rm) = Some (Some v, f) ->
  exists m', runs bs m m' /\ wrote m m' reg size v /\ fl m' = Some f.
Proof.
  intros bs k reg base hi size rm m v f He Hk Hs Hr Hrm Ha. eexists. split; [|split].
  - eapply emitted_runs; [exact He| | |].
    + unfold op8. destruct Hk as [->|[->|[->|[->| ->]]]]; destruct (size =? 1); reflexivity.
    + apply no_imm. unfold op8. destruct Hk as [->|[->|[->|[->| ->]]]]; destruct (size =? 1); reflexivity.
    + exec_start 0. rewrite eff_size; [|exact Hs|apply even_op8; destruct Hk as [->|[->|[->|[->| ->]]]]; reflexivity].
      rewrite get_rm_val, get_reg_plain by assumption.
      assert (E : op8 size (8 * k + 2) / 8 = k /\ op8 size (8 * k + 2) < 64 /\ op8 size (8 * k + 2) mod 8 < 4 /\
                  2 <= op8 size (8 * k + 2) mod 8).
      { unfold op8. destruct Hk as [->|[->|[->|[->| ->]]]]; destruct (size =? 1); repeat split; try reflexivity; discriminate. }
      destruct E as (E1 & E2 & E3 & E4).
      replace (op8 size (8 * k + 2) <? 64) with true by lia.
      replace (op8 size (8 * k + 2) mod 8 <? 4) with true by lia.
      replace (op8 size (8 * k + 2) mod 8 <? 2) with false by lia.
      cbn [andb]. rewrite E1, Ha. ctest. reflexivity.
  - apply wrote_goto, wrote_flags, with_reg_wrote; assumption.
  - reflexivity.
Qed.

(** cmp r, r/m *)
Lemma I_cmp : forall bs reg base hi size rm m f,
  emitted bs (requested no_prefix 0 (op8 size 0x3A) reg base hi size rm) [] ->
  is_size_P size -> plain_reg reg -> rm_ok rm ->
  alu 7 (8 * size) (regs m reg mod 2 ^ (8 * size)) (rmval m size rm) = Some (None, f) ->
  exists m', runs bs m m' /\ regs m' = regs m /\ mem m' = mem m /\ fl m' = Some f.
Proof.
  intros bs reg base hi size rm m f He Hs Hr Hrm Ha. eexists. split; [|split; [|split]].
  - eapply emitted_runs; [exact He| | |].
    + unfold op8. destruct (size =? 1); reflexivity.
    + apply no_imm. unfold op8. destruct (size =? 1); reflexivity.
    + exec_start 0. rewrite eff_size; [|exact Hs|apply even_op8; reflexivity].
      rewrite get_rm_val, get_reg_plain by assumption.
      assert (E : op8 size 0x3A / 8 = 7 /\ op8 size 0x3A < 64 /\ op8 size 0x3A mod 8 < 4 /\
                  2 <= op8 size 0x3A mod 8).
      { unfold op8. destruct (size =? 1); repeat split; try reflexivity; discriminate. }
      destruct E as (E1 & E2 & E3 & E4).
      replace (op8 size 0x3A <? 64) with true by lia.
      replace (op8 size 0x3A mod 8 <? 4) with true by lia.
      replace (op8 size 0x3A mod 8 <? 2) with false by lia.
      cbn [andb]. rewrite E1, Ha. ctest. reflexivity.
  - reflexivity.
  - reflexivity.
  - reflexivity.
Qed.

Lemma imm_disp : forall n v tail, (0 < n)%nat -> take_disp n (emit_bytes n v ++ tail) = Some (wraps (8 * Z.of_nat n) v, tail).
Proof.
  intros n v tail Hn. unfold take_disp. destruct n as [|n]; [lia|].
  replace (length (emit_bytes (S n) v ++ tail) <? S n)%nat with false
    by (symmetry; apply Nat.ltb_ge; rewrite app_length, length_emit_bytes; lia).
  assert (F : firstn (S n) (emit_bytes (S n) v ++ tail) = emit_bytes (S n) v).
  { rewrite firstn_app, length_emit_bytes, Nat.sub_diag. rewrite firstn_O, app_nil_r.
    apply firstn_all2. rewrite length_emit_bytes. lia. }
  assert (G : skipn (S n) (emit_bytes (S n) v ++ tail) = tail).
  { rewrite skipn_app, length_emit_bytes, Nat.sub_diag. rewrite skipn_all2 by (rewrite length_emit_bytes; lia). reflexivity. }
  rewrite F, G. unfold le_signed. rewrite length_emit_bytes, le_value_emit.
  do 2 f_equal. apply wraps_mod. apply Z.mod_mod. pose proof (pow2_pos (8 * Z.of_nat (S n)) ltac:(lia)). lia.
Qed.

(** The immediate forms of the arithmetic group on a register: 80 ib, 81 iw/id, 83 ib. *)
Definition alu_imm_size (o size : Z) : nat :=
  if (o =? 0x80) || (o =? 0x83) then 1%nat else if size =? 2 then 2%nat else 4%nat.

Lemma imm_size_alu : forall o reg base hi size rm, o = 0x80 \/ o = 0x81 \/ o = 0x83 -> is_size_P size ->
  (o = 0x80 <-> size = 1) ->
  imm_size (requested no_prefix 0 o reg base hi size rm) = alu_imm_size o size.
Proof.
  intros o reg base hi size rm Ho Hs H8. unfold imm_size, alu_imm_size.
  change (i_map (requested no_prefix 0 o reg base hi size rm)) with 0.
  change (i_opc (requested no_prefix 0 o reg base hi size rm)) with o.
  destruct Ho as [->|[->| ->]]; try reflexivity.
  rewrite op_size by (try assumption; intro; lia). reflexivity.
Qed.

Lemma I_alu_imm : forall bs o k reg0 base hi size r w m x f,
  emitted bs (requested no_prefix 0 o k base hi size (RmReg r)) (emit_bytes (alu_imm_size o size) w) ->
  o = 0x80 \/ o = 0x81 \/ o = 0x83 -> (o = 0x80 <-> size = 1) -> reg0 = k ->
  is_size_P size -> plain_reg r ->
  alu k (8 * size) (regs m r mod 2 ^ (8 * size)) (wraps (8 * Z.of_nat (alu_imm_size o size)) w mod 2 ^ (8 * size)) = Some (x, f) ->
  exists m', runs bs m m' /\
    match x with
    | Some v => wrote m m' r size v
    | None => regs m' = regs m /\ mem m' = mem m
    end /\ fl m' = Some f.
Proof.
  intros bs o k reg0 base hi size r w m x f He Ho H8 _ Hs Hr Ha.
  assert (Hsz : (if Z.even o then 1 else operand_size (requested no_prefix 0 o k base hi size (RmReg r))) = size).
  { destruct Ho as [->|[->| ->]].
    - cbn [Z.even]. symmetry. apply H8. reflexivity.
    - cbn [Z.even]. apply op_size; [assumption|]. intro. lia.
    - cbn [Z.even]. apply op_size; [assumption|]. intro. lia. }
  assert (Hn : (0 < alu_imm_size o size)%nat).
  { unfold alu_imm_size. destruct ((o =? 128) || (o =? 131)); [lia|]. destruct (size =? 2); lia. }
  exists (goto match x with
               | Some v => with_flags (with_reg m (i_rex (requested no_prefix 0 o k base hi size (RmReg r))) size r v) (Some f)
               | None => with_flags m (Some f)
               end (pc m + Z.of_nat (length bs))). split; [|split].
  - eapply emitted_runs; [exact He| | |].
    + destruct Ho as [->|[->| ->]]; reflexivity.
    + intro tail. rewrite imm_size_alu by assumption. apply imm_disp. exact Hn.
    + exec_start 0. rewrite Hsz. rewrite get_rm_val by (cbn; assumption). cbn [rmval].
      destruct Ho as [->|[->| ->]]; ctest; rewrite Ha; destruct x; reflexivity.
  - destruct x.
    + apply wrote_goto, wrote_flags, with_reg_wrote; assumption.
    + split; reflexivity.
  - destruct x; reflexivity.
Qed.

(** test r, r *)
Lemma I_test : forall bs r base hi size m,
  emitted bs (requested no_prefix 0 (op8 size 0x84) r base hi size (RmReg r)) [] ->
  is_size_P size -> plain_reg r ->
  exists m', runs bs m m' /\ regs m' = regs m /\ mem m' = mem m /\
    fl m' = Some (result_flags (8 * size) (regs m r mod 2 ^ (8 * size)) false false).
Proof.
  intros bs r base hi size m He Hs Hr. eexists. split; [|split; [|split]].
  - eapply emitted_runs; [exact He| | |].
    + unfold op8. destruct (size =? 1); reflexivity.
    + apply no_imm. unfold op8. destruct (size =? 1); reflexivity.
    + exec_start 0. rewrite eff_size; [|exact Hs|apply even_op8; reflexivity].
      rewrite get_rm_val by (cbn; assumption). rewrite get_reg_plain by assumption. cbn [rmval]. rewrite Z.land_diag.
      unfold op8. destruct (size =? 1); ctest; reflexivity.
  - reflexivity.
  - reflexivity.
  - reflexivity.
Qed.

(** movzx, movsx r, r/m8 and r/m16; movsxd r, r/m32 *)
Definition ext_opcode (sx : bool) (from : Z) : Z * Z :=
  if from =? 1 then (1, if sx then 0xBE else 0xB6)
  else if from =? 2 then (1, if sx then 0xBF else 0xB7)
  else (0, 0x63).
Definition extended (sx : bool) (from v : Z) : Z := if sx then wraps (8 * from) v else v.

Lemma I_extend : forall bs sx from reg base hi size rm m,
  emitted bs (requested no_prefix (fst (ext_opcode sx from)) (snd (ext_opcode sx from)) reg base hi size rm) [] ->
  from = 1 \/ from = 2 \/ (from = 4 /\ sx = true) -> is_size_P size -> size <> 1 -> plain_reg reg -> rm_ok rm ->
  exists m', runs bs m m' /\ wrote m m' reg size (extended sx from (rmval m from rm)) /\ fl m' = fl m.
Proof.
  intros bs sx from reg base hi size rm m He Hf Hs H1 Hr Hrm.
  assert (W : forall x, wrote m (with_reg m (i_rex (requested no_prefix (fst (ext_opcode sx from)) (snd (ext_opcode sx from)) reg base hi size rm))
                 size reg (x mod 2 ^ (8 * size))) reg size x).
  { intro x. destruct (with_reg_wrote m (i_rex (requested no_prefix (fst (ext_opcode sx from)) (snd (ext_opcode sx from)) reg base hi size rm))
      size reg (x mod 2 ^ (8 * size)) Hs Hr) as [A B C D E].
    assert (M : (x mod 2 ^ (8 * size)) mod 2 ^ (8 * size) = x mod 2 ^ (8 * size)).
    { apply Z.mod_mod. pose proof (pow2_pos (8 * size) ltac:(unfold is_size_P in Hs; lia)). lia. }
    rewrite M in B, C. split; assumption. }
  exists (goto (with_reg m (i_rex (requested no_prefix (fst (ext_opcode sx from)) (snd (ext_opcode sx from)) reg base hi size rm))
                 size reg (extended sx from (rmval m from rm) mod 2 ^ (8 * size))) (pc m + Z.of_nat (length bs))).
  split; [|split].
  - eapply emitted_runs; [exact He| | |].
    + destruct Hf as [->|[->|(-> & ->)]]; try destruct sx; reflexivity.
    + apply no_imm. destruct Hf as [->|[->|(-> & ->)]]; try destruct sx; reflexivity.
    + destruct Hf as [->|[->|(-> & ->)]]; [destruct sx|destruct sx|]; cbn [ext_opcode fst snd Z.eqb Pos.eqb];
        exec_start 0; ctest; cbn [Z.even]; rewrite op_size by assumption; rewrite get_rm_val by (unfold is_size_P; auto);
        reflexivity.
  - apply wrote_goto, W.
  - reflexivity.
Qed.

(** Unary group F7 and F6: not and neg of a register. *)
Lemma I_not : forall bs r base hi size m,
  emitted bs (requested no_prefix 0 0xF7 2 base hi size (RmReg r)) [] ->
  is_size_P size -> size <> 1 -> plain_reg r ->
  exists m', runs bs m m' /\ wrote m m' r size (2 ^ (8 * size) - 1 - regs m r mod 2 ^ (8 * size)).
Proof.
  intros bs r base hi size m He Hs H1 Hr. eexists. split.
  - eapply emitted_runs; [exact He| | |].
    + reflexivity.
    + apply no_imm. reflexivity.
    + exec_start 0. cbn [Z.even]. rewrite op_size by assumption. ctest. unfold unary. ctest.
      rewrite get_rm_val by (cbn; assumption). cbn [set_rm rmval]. reflexivity.
  - apply wrote_goto, with_reg_wrote; assumption.
Qed.

Lemma I_neg : forall bs r base hi size m,
  emitted bs (requested no_prefix 0 0xF7 3 base hi size (RmReg r)) [] ->
  is_size_P size -> size <> 1 -> plain_reg r ->
  exists m', runs bs m m' /\ wrote m m' r size (- (regs m r)).
Proof.
  intros bs r base hi size m He Hs H1 Hr.
  assert (P : 0 < 2 ^ (8 * size)) by (apply pow2_pos; unfold is_size_P in Hs; lia).
  assert (W : wrote m (with_reg m (i_rex (requested no_prefix 0 0xF7 3 base hi size (RmReg r))) size r
                ((0 - regs m r mod 2 ^ (8 * size)) mod 2 ^ (8 * size))) r size (- regs m r)).
  { destruct (with_reg_wrote m (i_rex (requested no_prefix 0 0xF7 3 base hi size (RmReg r))) size r
                ((0 - regs m r mod 2 ^ (8 * size)) mod 2 ^ (8 * size)) Hs Hr) as [A B C D E].
    assert (M : ((0 - regs m r mod 2 ^ (8 * size)) mod 2 ^ (8 * size)) mod 2 ^ (8 * size) = (- regs m r) mod 2 ^ (8 * size)).
    { rewrite Z.mod_mod by lia. rewrite Zminus_mod_idemp_r. reflexivity. }
    rewrite M in B, C. split; assumption. }
  eexists. split.
  - eapply emitted_runs; [exact He| | |].
    + reflexivity.
    + apply no_imm. reflexivity.
    + exec_start 0. cbn [Z.even]. rewrite op_size by assumption. ctest. unfold unary. ctest.
      rewrite get_rm_val by (cbn; assumption). cbn [set_rm rmval]. unfold alu. ctest. reflexivity.
  - apply wrote_goto, wrote_flags. exact W.
Qed.

(** Shifts of a register by an immediate or by cl. *)
Lemma I_shift_imm : forall bs k r base hi size c m v,
  emitted bs (requested no_prefix 0 0xC1 k base hi size (RmReg r)) (emit c) ->
  is_size_P size -> size <> 1 -> plain_reg r ->
  shift k (8 * size) (regs m r mod 2 ^ (8 * size)) (shift_count size (c mod 256)) = Some v ->
  exists m', runs bs m m' /\ wrote m m' r size v.
Proof.
  intros bs k r base hi size c m v He Hs H1 Hr Hsh. eexists. split.
  - eapply emitted_runs; [exact He| | |].
    + reflexivity.
    + intro tail. assert (E : imm_size (requested no_prefix 0 193 k base hi size (RmReg r)) = 1%nat) by reflexivity.
      rewrite E. apply imm_disp. lia.
    + exec_start 0. cbn [Z.even]. rewrite op_size by assumption. rewrite get_rm_val by (cbn; assumption). ctest.
      change (8 * Z.of_nat 1) with 8. change 256 with (2 ^ 8) at 1. rewrite wraps_mod_eq by lia. change (2 ^ 8) with 256.
      cbn [rmval]. rewrite Hsh. reflexivity.
  - apply wrote_goto, wrote_flags, with_reg_wrote; assumption.
Qed.

Lemma I_shift_cl : forall bs k r base hi size m v,
  emitted bs (requested no_prefix 0 0xD3 k base hi size (RmReg r)) [] ->
  is_size_P size -> size <> 1 -> plain_reg r ->
  shift k (8 * size) (regs m r mod 2 ^ (8 * size)) (shift_count size (regs m RCX mod 256)) = Some v ->
  exists m', runs bs m m' /\ wrote m m' r size v.
Proof.
  intros bs k r base hi size m v He Hs H1 Hr Hsh. eexists. split.
  - eapply emitted_runs; [exact He| | |].
    + reflexivity.
    + apply no_imm. reflexivity.
    + exec_start 0. cbn [Z.even]. rewrite op_size by assumption. rewrite get_rm_val by (cbn; assumption). ctest.
      cbn [rmval]. rewrite Hsh. reflexivity.
  - apply wrote_goto, wrote_flags, with_reg_wrote; assumption.
Qed.

(** setcc r8 *)
Lemma I_set : forall bs o reg base hi size r m f b,
  emitted bs (requested no_prefix 1 o reg base hi size (RmReg r)) [] ->
  0x90 <= o <= 0x9F -> plain_reg r -> fl m = Some f -> condition (o - 0x90) f = Some b ->
  exists m', runs bs m m' /\ wrote m m' r 1 (if b then 1 else 0) /\ fl m' = fl m.
Proof.
  intros bs o reg base hi size r m f b He Ho Hr Hf Hc. eexists. split; [|split].
  - eapply emitted_runs; [exact He| | |].
    + unfold special. ctest. apply andb_false_iff. right. lia.
    + apply no_imm. cbn [existsb]. repeat rewrite orb_false_iff. repeat split; try (apply Z.eqb_neq; lia).
    + exec_start 0. ctest. replace (0x90 <=? o) with true by lia. replace (o <=? 0x9F) with true by lia. cbn [andb].
      rewrite Hf, Hc. reflexivity.
  - cbn [set_rm]. apply wrote_goto, with_reg_wrote; [unfold is_size_P; lia|assumption].
  - reflexivity.
Qed.

(** lea r, [mem] *)
Lemma I_lea : forall bs reg base hi b idx d m,
  emitted bs (requested no_prefix 0 0x8D reg base hi 8 (RmMem (BaseReg b) idx d)) [] -> plain_reg reg ->
  exists m', runs bs m m' /\ wrote m m' reg 8 (ea m b idx d) /\ fl m' = fl m.
Proof.
  intros bs reg base hi b idx d m He Hr. eexists. split; [|split].
  - eapply emitted_runs; [exact He| | |].
    + reflexivity.
    + apply no_imm. reflexivity.
    + exec_start 0. cbn [Z.even]. rewrite op_size by (unfold is_size_P; lia). ctest. reflexivity.
  - apply wrote_goto, with_reg_wrote; [unfold is_size_P; lia|assumption].
  - reflexivity.
Qed.

(** imul r, r, imm32 (8 bytes) *)
Lemma I_imul_imm : forall bs r base hi w m,
  emitted bs (requested no_prefix 0 0x69 r base hi 8 (RmReg r)) (emit_u32 w) -> plain_reg r ->
  exists m', runs bs m m' /\ wrote m m' r 8 (regs m r * wraps 32 w).
Proof.
  intros bs r base hi w m He Hr.
  assert (W : wrote m (with_reg m (i_rex (requested no_prefix 0 0x69 r base hi 8 (RmReg r))) 8 r
               ((wraps 64 (regs m r mod 2 ^ 64) * wraps 32 w) mod 2 ^ 64)) r 8 (regs m r * wraps 32 w)).
  { destruct (with_reg_wrote m (i_rex (requested no_prefix 0 0x69 r base hi 8 (RmReg r))) 8 r
               ((wraps 64 (regs m r mod 2 ^ 64) * wraps 32 w) mod 2 ^ 64) ltac:(unfold is_size_P; lia) Hr) as [A B C D E].
    assert (M : ((wraps 64 (regs m r mod 2 ^ 64) * wraps 32 w) mod 2 ^ 64) mod 2 ^ (8 * 8) = (regs m r * wraps 32 w) mod 2 ^ (8 * 8)).
    { change (8 * 8) with 64. rewrite Z.mod_mod by lia. rewrite <- Z.mul_mod_idemp_l by lia.
      rewrite wraps_mod_eq by lia. rewrite Z.mod_mod by lia. rewrite Z.mul_mod_idemp_l by lia. reflexivity. }
    rewrite M in B, C. split; assumption. }
  eexists. split.
  - eapply emitted_runs; [exact He| | |].
    + reflexivity.
    + intro tail. assert (E : imm_size (requested no_prefix 0 0x69 r base hi 8 (RmReg r)) = 4%nat) by reflexivity.
      rewrite E. apply imm_disp. lia.
    + exec_start 0. cbn [Z.even]. rewrite op_size by (unfold is_size_P; lia). rewrite get_rm_val by (unfold is_size_P; cbn; auto).
      ctest. cbn [rmval]. change (8 * Z.of_nat 4) with 32. change (8 * 8) with 64. reflexivity.
  - apply wrote_goto, wrote_flags. exact W.
Qed.

(** mov [mem], imm *)
Lemma I_mov_imm_store : forall bs base hi size b idx d w m,
  emitted bs (requested no_prefix 0 (op8 size 0xC6) 0 base hi size (RmMem (BaseReg b) idx d))
          (emit_bytes (Z.to_nat size) w) ->
  is_size_P size -> size <> 8 ->
  exists m', runs bs m m' /\ regs m' = regs m /\ fl m' = fl m /\
    mem m' = store (Z.to_nat size) (mem m) (ea m b idx d) (w mod 2 ^ (8 * size)).
Proof.
  intros bs base hi size b idx d w m He Hs H8. eexists. split; [|split; [|split]].
  - eapply emitted_runs; [exact He| | |].
    + unfold op8. destruct (size =? 1); reflexivity.
    + intro tail.
      assert (E : imm_size (requested no_prefix 0 (op8 size 0xC6) 0 base hi size (RmMem (BaseReg b) idx d)) = Z.to_nat size).
      { unfold imm_size.
        change (i_map (requested no_prefix 0 (op8 size 0xC6) 0 base hi size (RmMem (BaseReg b) idx d))) with 0.
        change (i_opc (requested no_prefix 0 (op8 size 0xC6) 0 base hi size (RmMem (BaseReg b) idx d))) with (op8 size 0xC6).
        unfold op8. destruct (Z.eqb_spec size 1) as [->|]; [reflexivity|].
        cbn [existsb]. ctest. rewrite op_size by assumption. destruct (Z.eqb_spec size 2); unfold is_size_P in Hs;
          [subst; reflexivity|]. replace size with 4 by lia. reflexivity. }
      rewrite E. apply imm_disp. unfold is_size_P in Hs. lia.
    + exec_start 0. rewrite eff_size by (try apply even_op8; auto).
      replace (8 * Z.of_nat (Z.to_nat size)) with (8 * size) by (unfold is_size_P in Hs; lia).
      rewrite wraps_mod_eq by (unfold is_size_P in Hs; lia).
      unfold op8. destruct (size =? 1); ctest; reflexivity.
  - reflexivity.
  - reflexivity.
  - reflexivity.
Qed.

(** Multiplication and division on rdx:rax. *)
Definition pair_written (m m' : machine) (size lo hi : Z) : Prop :=
  (forall q, q <> RAX -> q <> RDX -> regs m' q = regs m q) /\
  regs m' RAX = lo mod 2 ^ (8 * size) /\ regs m' RDX = hi mod 2 ^ (8 * size) /\ mem m' = mem m.

Lemma set_pair_written : forall m size lo hi f p, size = 4 \/ size = 8 ->
  pair_written m (goto (with_flags (with_reg (with_reg m false size RAX lo) false size RDX hi) f) p) size lo hi.
Proof.
  intros m size lo hi f p Hs.
  assert (S : is_size_P size) by (unfold is_size_P; lia).
  assert (P0 : plain_reg RAX) by (unfold plain_reg, RAX; lia).
  assert (P2 : plain_reg RDX) by (unfold plain_reg, RDX; lia).
  destruct (with_reg_wrote m false size RAX lo S P0) as [A B C D E].
  destruct (with_reg_wrote (with_reg m false size RAX lo) false size RDX hi S P2) as [A' B' C' D' E'].
  unfold pair_written. cbn [goto with_flags regs mem]. repeat split.
  - intros q H0 H2. rewrite A', A by assumption. reflexivity.
  - rewrite A' by (unfold RAX, RDX; lia). apply C. lia.
  - apply C'. lia.
Qed.

Lemma I_mul : forall bs (sg : bool) base hi size rm m,
  emitted bs (requested no_prefix 0 0xF7 (if sg then 5 else 4) base hi size rm) [] ->
  size = 4 \/ size = 8 -> rm_ok rm ->
  exists m' h, runs bs m m' /\ pair_written m m' size (regs m RAX * rmval m size rm) h.
Proof.
  intros bs sg base hi size rm m He Hs Hrm.
  assert (S : is_size_P size) by (unfold is_size_P; lia).
  assert (P : 0 < 2 ^ (8 * size)) by (apply pow2_pos; lia).
  destruct sg.
  - do 2 eexists. split.
    + eapply emitted_runs; [exact He| | |].
      * reflexivity.
      * apply no_imm. reflexivity.
      * exec_start 0. cbn [Z.even]. rewrite op_size by (try assumption; lia). ctest. unfold unary.
        rewrite get_rm_val by assumption.
        replace (size =? 1) with false by lia. ctest. reflexivity.
    + match goal with |- pair_written m (goto (with_flags (with_reg (with_reg m false size RAX ?lo) false size RDX ?h) ?f) ?p) _ _ _ =>
        pose proof (set_pair_written m size lo h f p Hs) as (A & B & C & D) end.
      split; [exact A|]. split; [|split; [exact C|exact D]].
      rewrite B. rewrite <- Z.mul_mod_idemp_l, <- Z.mul_mod_idemp_r by lia.
      rewrite !wraps_mod_eq by lia. rewrite Z.mod_mod by lia.
      rewrite Z.mul_mod_idemp_l, Z.mul_mod_idemp_r by lia. reflexivity.
  - do 2 eexists. split.
    + eapply emitted_runs; [exact He| | |].
      * reflexivity.
      * apply no_imm. reflexivity.
      * exec_start 0. cbn [Z.even]. rewrite op_size by (try assumption; lia). ctest. unfold unary.
        rewrite get_rm_val by assumption.
        replace (size =? 1) with false by lia. ctest. reflexivity.
    + match goal with |- pair_written m (goto (with_flags (with_reg (with_reg m false size RAX ?lo) false size RDX ?h) ?f) ?p) _ _ _ =>
        pose proof (set_pair_written m size lo h f p Hs) as (A & B & C & D) end.
      split; [exact A|]. split; [|split; [exact C|exact D]].
      rewrite B. rewrite Z.mul_mod_idemp_l by lia. reflexivity.
Qed.

Lemma I_div : forall bs base hi size rm m,
  emitted bs (requested no_prefix 0 0xF7 6 base hi size rm) [] ->
  size = 4 \/ size = 8 -> rm_ok rm -> regs m RDX mod 2 ^ (8 * size) = 0 -> rmval m size rm <> 0 ->
  exists m', runs bs m m' /\
    pair_written m m' size (regs m RAX mod 2 ^ (8 * size) / rmval m size rm)
                 (regs m RAX mod 2 ^ (8 * size) mod rmval m size rm).
Proof.
  intros bs base hi size rm m He Hs Hrm Hd H0.
  assert (S : is_size_P size) by (unfold is_size_P; lia).
  assert (P : 0 < 2 ^ (8 * size)) by (apply pow2_pos; lia).
  pose proof (rmval_range m size rm S) as Rv.
  pose proof (Z.mod_pos_bound (regs m RAX) (2 ^ (8 * size)) P) as Ra.
  eexists. split.
  - eapply emitted_runs; [exact He| | |].
    + reflexivity.
    + apply no_imm. reflexivity.
    + exec_start 0. cbn [Z.even]. rewrite op_size by (try assumption; lia). ctest. unfold unary.
      rewrite get_rm_val by assumption. replace (size =? 1) with false by lia. ctest. rewrite Hd, Z.mul_0_r, Z.add_0_r.
      replace (rmval m size rm =? 0) with false by lia.
      assert (Q : regs m RAX mod 2 ^ (8 * size) / rmval m size rm < 2 ^ (8 * size)).
      { apply Z.div_lt_upper_bound; [lia|]. nia. }
      replace (2 ^ (8 * size) <=? regs m RAX mod 2 ^ (8 * size) / rmval m size rm) with false by lia.
      reflexivity.
  - apply set_pair_written. exact Hs.
Qed.

Lemma I_idiv : forall bs base hi size rm m,
  emitted bs (requested no_prefix 0 0xF7 7 base hi size rm) [] ->
  size = 4 \/ size = 8 -> rm_ok rm ->
  let a := wraps (8 * size) (regs m RAX) in let d := wraps (8 * size) (rmval m size rm) in
  regs m RDX mod 2 ^ (8 * size) = (if a <? 0 then -1 else 0) mod 2 ^ (8 * size) -> d <> 0 ->
  ~ (a = - 2 ^ (8 * size - 1) /\ d = -1) ->
  exists m', runs bs m m' /\ pair_written m m' size (Z.quot a d) (Z.rem a d).
Proof.
  intros bs base hi size rm m He Hs Hrm a d Hd H0 Hov.
  assert (S : is_size_P size) by (unfold is_size_P; lia).
  assert (P : 0 < 2 ^ (8 * size)) by (apply pow2_pos; lia).
  pose proof (pow2_split (8 * size) ltac:(lia)) as PS.
  assert (Pd : 2 ^ (8 * size) * 2 ^ (8 * size) = 2 ^ (2 * (8 * size))) by (rewrite <- Z.pow_add_r by lia; f_equal; lia).
  pose proof (wraps_range (8 * size) (regs m RAX) ltac:(lia)) as Ra. fold a in Ra.
  pose proof (wraps_range (8 * size) (rmval m size rm) ltac:(lia)) as Rd. fold d in Rd.
  assert (Dd : wraps (2 * (8 * size)) (regs m RAX mod 2 ^ (8 * size) + 2 ^ (8 * size) * (regs m RDX mod 2 ^ (8 * size))) = a).
  { rewrite Hd.
    assert (G : exists k, regs m RAX mod 2 ^ (8 * size) + 2 ^ (8 * size) * ((if a <? 0 then -1 else 0) mod 2 ^ (8 * size))
                          = a + k * 2 ^ (2 * (8 * size))).
    { subst a. unfold wraps. set (y := regs m RAX mod 2 ^ (8 * size)).
      pose proof (Z.mod_pos_bound (regs m RAX) (2 ^ (8 * size)) P) as Ry. fold y in Ry.
      destruct (Z.ltb_spec y (2 ^ (8 * size - 1))).
      - replace (y <? 0) with false by lia. rewrite Z.mod_0_l by lia. exists 0. lia.
      - replace (y - 2 ^ (8 * size) <? 0) with true by lia.
        assert (M1 : (-1) mod 2 ^ (8 * size) = 2 ^ (8 * size) - 1).
        { symmetry. apply Z.mod_unique with (q := -1); lia. }
        rewrite M1. exists 1. nia. }
    destruct G as (k & ->).
    transitivity (wraps (2 * (8 * size)) a).
    - apply wraps_mod. apply mod_add_mul. lia.
    - assert (T : 2 ^ (8 * size - 1) <= 2 ^ (2 * (8 * size) - 1)) by (apply Z.pow_le_mono_r; lia).
      apply wraps_id; lia. }
  assert (Q : wraps (8 * size) (Z.quot a d) = Z.quot a d).
  { apply wraps_id; [lia|].
    assert (Z.abs (Z.quot a d) * Z.abs d <= Z.abs a).
    { rewrite <- Z.quot_abs by lia. rewrite Z.mul_comm.
      pose proof (Z.mul_quot_le (Z.abs a) (Z.abs d) ltac:(lia) ltac:(lia)). lia. }
    assert (Z.abs d = 1 \/ 2 <= Z.abs d) as [Hd1|Hd2] by lia.
    - assert (d = 1 \/ d = -1) as [->| ->] by lia.
      + rewrite Z.quot_1_r. lia.
      + change (-1) with (Z.opp 1). rewrite Z.quot_opp_r, Z.quot_1_r by lia. lia.
    - assert (2 * Z.abs (Z.quot a d) <= Z.abs a) by nia. lia. }
  eexists. split.
  - eapply emitted_runs; [exact He| | |].
    + reflexivity.
    + apply no_imm. reflexivity.
    + exec_start 0. cbn [Z.even]. rewrite op_size by (try assumption; lia). ctest. unfold unary.
      rewrite get_rm_val by assumption. replace (size =? 1) with false by lia. ctest. rewrite Dd. fold d.
      replace (d =? 0) with false by lia. rewrite Q, Z.eqb_refl. cbn [negb]. reflexivity.
  - apply set_pair_written. exact Hs.
Qed.

(** mov r, imm *)
Lemma I_mov_imm : forall r size v m, plain_reg r -> is_size_P size ->
  exists m', runs (emit_mov_immediate r size v) m m' /\ wrote m m' r size v /\ fl m' = fl m.
Proof.
  intros r size v m Hr Hs.
  assert (Hr' : is_register r) by (unfold plain_reg, is_register in *; lia).
  set (s4 := if size =? 8 then 8 else 4).
  assert (E4 : emit_mov_immediate r size v = emit_mov_immediate r s4 v).
  { unfold emit_mov_immediate, s4. destruct (size =? 8); reflexivity. }
  rewrite E4. assert (H4 : s4 = 4 \/ s4 = 8) by (subst s4; destruct (size =? 8); lia).
  set (bs := emit_mov_immediate r s4 v) in *.
  pose proof (fun t => C14_mov_immediate_decodes r s4 v t Hr' H4) as Hd. fold bs in Hd.
  assert (S4 : is_size_P s4) by (unfold is_size_P; lia).
  assert (exists rex, forall C, at_code C (pc m) bs ->
     step C m = Some (goto (with_reg m rex s4 r (wraps (8 * s4) v)) (pc m + Z.of_nat (length bs)))) as (rex & St).
  { exists true. intros C (Hp & rest & E).
    destruct (Hd rest) as (h & r' & D & P1 & P2 & P3 & P4 & P5 & P6 & P7).
    assert (Hne : bs <> []). { intro Z0. unfold bs, emit_mov_immediate in Z0.
      apply app_eq_nil in Z0. destruct Z0 as (_ & Z0). apply app_eq_nil in Z0. destruct Z0 as (Z0 & _). discriminate. }
    pose proof (next_pc C (pc m) bs rest Hp Hne E) as Hn.
    unfold step. replace (pc m <? 0) with false by lia. cbv zeta. rewrite E, D, P1, P2, P3. cbn [plain_prefixes forallb negb existsb].
    ctest. replace (184 <=? h_opc h) with true by lia. replace (h_opc h <=? 191) with true by lia. cbn [andb].
    replace (if h_w h then 8 else 4) with s4 by (rewrite P4; destruct H4 as [->| ->]; reflexivity).
    rewrite P7. rewrite imm_disp by lia. rewrite Z2Nat.id by lia. rewrite Hn.
    replace (8 * h_b h + (h_opc h - 184)) with r by lia.
    assert (X : with_reg m (h_rex h) s4 r (wraps (8 * s4) v) = with_reg m true s4 r (wraps (8 * s4) v)).
    { unfold with_reg, set_reg. replace (s4 =? 1) with false by lia. reflexivity. }
    rewrite X. reflexivity. }
  exists (goto (with_reg m rex s4 r (wraps (8 * s4) v)) (pc m + Z.of_nat (length bs))). split; [|split].
  - split; [reflexivity|]. intros C H. apply steps_step with (1 := St C H). apply steps_refl.
  - apply wrote_goto. destruct (with_reg_wrote m rex s4 r (wraps (8 * s4) v) S4 Hr) as [A B C D E].
    rewrite wraps_mod_eq in B, C by lia.
    split; [exact A| | |exact D|exact E].
    + assert (Hk : exists k, 0 <= k /\ 8 * s4 = 8 * size + k).
      { exists (8 * s4 - 8 * size). subst s4. destruct (Z.eqb_spec size 8); unfold is_size_P in Hs; lia. }
      destruct Hk as (k & Hk & Ek).
      assert (T : forall x, x mod 2 ^ (8 * size) = (x mod 2 ^ (8 * s4)) mod 2 ^ (8 * size)).
      { intro x. rewrite Ek, Z.pow_add_r by (unfold is_size_P in Hs; lia).
        pose proof (pow2_pos (8 * size) ltac:(unfold is_size_P in Hs; lia)). pose proof (pow2_pos k Hk).
        rewrite Z.rem_mul_r by lia. rewrite (Z.mul_comm (2 ^ (8 * size))), Z.mod_add by lia. rewrite Z.mod_mod by lia. reflexivity. }
      rewrite (T (regs _ r)), (T v), B. reflexivity.
    + intro H. assert (E' : s4 = size) by (subst s4; destruct (Z.eqb_spec size 8); unfold is_size_P in Hs; lia).
      rewrite C by lia. rewrite E'. reflexivity.
  - reflexivity.
Qed.

(** cdq, cqo *)
Lemma I_cdq : forall size m, size = 4 \/ size = 8 ->
  exists m', runs ((if size =? 8 then [0x48] else []) ++ [0x99]) m m' /\
    wrote m m' RDX size (if wraps (8 * size) (regs m RAX) <? 0 then -1 else 0) /\ fl m' = fl m.
Proof.
  intros size m Hs.
  set (bs := (if size =? 8 then [0x48] else []) ++ [0x99]).
  exists (goto (with_reg m false size RDX (if wraps (8 * size) (regs m RAX) <? 0 then -1 else 0)) (pc m + Z.of_nat (length bs))).
  split; [|split; [|reflexivity]].
  - split; [reflexivity|]. intros C (Hp & rest & E). eapply steps_step; [|apply steps_refl].
    assert (Hne : bs <> []) by (subst bs; destruct (size =? 8); discriminate).
    pose proof (next_pc C (pc m) bs rest Hp Hne E) as Hn.
    unfold step. replace (pc m <? 0) with false by lia. cbv zeta. rewrite E.
    assert (D : decode_head (bs ++ rest) = Some (Head [] (size =? 8) (size =? 8) 0 0 0 None 0 0x99, rest)).
    { subst bs. destruct Hs as [->| ->]; reflexivity. }
    rewrite D. cbn [h_legacy h_vex h_map h_opc h_w plain_prefixes forallb negb existsb]. ctest. rewrite Hn.
    destruct Hs as [->| ->]; reflexivity.
  - apply wrote_goto, with_reg_wrote; [unfold is_size_P; lia|unfold plain_reg, RDX; lia].
Qed.
