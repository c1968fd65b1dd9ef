(** C14: encoded operands decode to what was requested. *)
From Verif Require Import Base X64Decode EncModel EncSpec EncProofs.

(** Every instruction with a register (or opcode extension) [reg] and a memory operand
    [base + index * 2^scale + disp], with any legacy or VEX prefixes, any operand size and
    any immediate, decodes to exactly that.  [encodable] leaves out base r12 without index
    and base r13 with displacement 0: see the refuted theorems. *)
Theorem C14_memory_operands_decode_partial : forall p m o reg base index scale disp size imm,
  legal_opcode m o -> vex_ok p m -> is_register reg -> encodable base index disp -> 0 <= scale < 4 ->
  immediate_ok imm ->
  exists bs,
    emit_register_relative p (opcode_bytes m o) reg
      (mkmem base (index_number index) scale disp false size) imm = Done (bs, None) /\
    forall tail,
      decode_insn (bs ++ tail)
      = Some (requested p m o reg base (high (index_number index)) size
                (RmMem (BaseReg base) (option_map (fun i => (i, 2 ^ scale)) index) disp),
              immediate_bytes imm ++ tail).
Proof. exact memory_op_decodes. Qed.
Print Assumptions C14_memory_operands_decode_partial.

(** [mov dword [r10 + 4*r14 - 300], 7] *)
Example C14_memory_case :
  legal_opcode 0 0xC7 /\ vex_ok no_prefix 0 /\ is_register 0 /\ encodable 10 (Some 14) (-300) /\
  emit_register_relative no_prefix (opcode_bytes 0 0xC7) 0 (mkmem 10 14 2 (-300) false 4) (Some (4, 7))
  = Done ([0x43; 0xC7; 0x84; 0xB2; 0xD4; 0xFE; 0xFF; 0xFF; 7; 0; 0; 0], None).
Proof.
  split; [|split; [|split; [|split]]].
  - split; [lia|left; vm_compute; repeat split; discriminate].
  - unfold vex_ok. vm_compute. discriminate.
  - unfold is_register; lia.
  - unfold encodable, is_register, is_s32. lia.
  - vm_compute. reflexivity.
Qed.

(** Register-to-register instructions. *)
Theorem C14_register_operands_decode : forall p m o reg regm size, legal_opcode m o -> vex_ok p m ->
  is_register reg -> is_register regm ->
  exists bs, emit_register_op p (opcode_bytes m o) reg regm size = Done bs /\
  forall tail, decode_insn (bs ++ tail) = Some (requested p m o reg regm false size (RmReg regm), tail).
Proof. exact register_op_decodes. Qed.
Print Assumptions C14_register_operands_decode.

(** [vpaddd ymm3, ymm9, ymm12]: 66, VEX, 256 bits, second source register 9. *)
Example C14_vex_case :
  let p := mkprefixes (2 ^ 8 + 2 ^ 5) 9 in
  legal_opcode 1 0xFE /\ vex_ok p 1 /\
  emit_register_op p (opcode_bytes 1 0xFE) 3 12 32 = Done [0xC4; 0xC1; 0x35; 0xFE; 0xDC] /\
  requested p 1 0xFE 3 12 false 32 (RmReg 12)
  = Insn [] false false (Some (Vex 9 1 1)) 1 0xFE 3 (RmReg 12).
Proof.
  split; [|split; [|split]].
  - split; [lia|right; left; repeat split; discriminate].
  - unfold vex_ok, is_register. vm_compute. intros _. repeat split; discriminate.
  - vm_compute. reflexivity.
  - vm_compute. reflexivity.
Qed.

(** The operand size comes out right: 2, 4 and 8 bytes (without an extra 66 prefix). *)
Theorem C14_operand_size : forall p m o reg base hi size rm,
  uses_vex p = false -> Z.testbit (legacy p) 5 = false -> size = 2 \/ size = 4 \/ size = 8 ->
  operand_size (requested p m o reg base hi size rm) = size.
Proof.
  intros p m o reg base hi size rm Hv H5 Hs. unfold operand_size, requested. rewrite Hv. cbn [i_w i_legacy].
  unfold prefix_bytes. rewrite H5. generalize (Z.testbit (legacy p) 0), (Z.testbit (legacy p) 1),
    (Z.testbit (legacy p) 2), (Z.testbit (legacy p) 3), (Z.testbit (legacy p) 4), (Z.testbit (legacy p) 6).
  intros b0 b1 b2 b3 b4 b6.
  destruct Hs as [-> |[-> | ->]]; destruct b0, b1, b2, b3, b4, b6; reflexivity.
Qed.
Print Assumptions C14_operand_size.

(** Byte operands name the low byte of the requested register, unless it is one of
    rsp, rbp, rsi, rdi and no REX prefix is needed for something else. *)
Theorem C14_byte_registers_partial : forall p m o reg base hi rm, uses_vex p = false -> is_register reg ->
  (4 <= reg <= 7 -> hi = true \/ high base = true) ->
  byte_register (i_rex (requested p m o reg base hi 1 rm)) reg = (reg, 0).
Proof.
  intros p m o reg base hi rm Hv Hr H. unfold requested. rewrite Hv. cbn [i_rex]. unfold byte_register.
  destruct (Z.leb_spec 4 reg), (Z.leb_spec reg 7); rewrite ?andb_false_r; try reflexivity.
  destruct (H ltac:(lia)) as [-> | ->]; rewrite ?orb_true_r; reflexivity.
Qed.
Print Assumptions C14_byte_registers_partial.

(** The full claim fails: [mov sil, cl] (inline assembler) is encoded as [mov dh, cl]. *)
Theorem C14_byte_registers_refuted : forall reg base, 4 <= reg <= 7 -> 0 <= base < 8 ->
  byte_register (i_rex (requested no_prefix 0 0x8A reg base false 1 (RmReg base))) reg = (reg - 4, 8).
Proof.
  intros reg base Hr Hb. unfold requested. change (uses_vex no_prefix) with false. cbn [i_rex].
  unfold high. replace (8 <=? reg) with false by lia. replace (8 <=? base) with false by lia.
  unfold byte_register. cbn [orb negb andb Z.eqb Pos.eqb].
  replace (4 <=? reg) with true by lia. replace (reg <=? 7) with true by lia. reflexivity.
Qed.
Print Assumptions C14_byte_registers_refuted.

(** Base r12 without an index: the missing SIB byte makes the decoder use the following
    displacement (or instruction) byte as SIB.  Base r13 with displacement 0 is encoded as
    rip-relative.  The latter is reached by [_exception_info()->ExceptionRecord], whose
    pointer lives in r13 (emit_x64.c 2372). *)
Theorem C14_base_r13_refuted : forall p m o reg size imm,
  legal_opcode m o -> vex_ok p m -> is_register reg -> immediate_ok imm ->
  exists bs, emit_register_relative p (opcode_bytes m o) reg (mkmem 13 (-1) 0 0 false size) imm = Done (bs, None) /\
  forall b0 b1 b2 b3 tail, imm = None ->
    exists i, decode_insn (bs ++ b0 :: b1 :: b2 :: b3 :: tail) = Some (i, tail) /\
              i_rm i = RmMem BaseRip None (le_signed [b0; b1; b2; b3]).
Proof.
  intros p m o reg size imm Ho Hv Hr Himm. unfold emit_register_relative.
  cbn [m_ir m_offset m_base m_index m_size negb andb]. cbn [Z.gtb Z.ltb Z.compare orb].
  destruct (head_ok p reg 13 (-1) size m o Ho Hv) as (h & E & Hd).
  rewrite E. cbn [obind]. rewrite (immediate_done _ Himm). cbn [obind].
  eexists; split; [reflexivity|]. intros b0 b1 b2 b3 tail ->.
  change (choose_mod (mkmem 13 (-1) 0 0 false size)) with 0. cbn [Z.eqb MODRM_REGM32 MODRM_REGM8 immediate_bytes app].
  change (0 =? MODRM_REGM32) with false. change (0 =? MODRM_REGM8) with false. cbv iota. rewrite !app_nil_r.
  rewrite <- app_assoc. unfold decode_insn. rewrite Hd.
  unfold emit_modrm_sib. cbn [m_index m_base]. change (0 <=? -1) with false.
  change (13 =? REGISTER_SIB_EXTENSION) with false. cbv iota. change (Z.land 13 7) with 5.
  destruct (reg_split reg Hr) as (R1 & R2 & R3).
  destruct (modrm_fields 0 (Z.land reg 7) 5 ltac:(lia) R1 ltac:(lia)) as (Bm & F1 & F2 & F3).
  rewrite (emit_small _ Bm). cbn [app]. unfold decode_modrm. rewrite F1, F2, F3.
  change (0 =? 3) with false. change (5 =? 4) with false. change ((0 =? 0) && (5 =? 5)) with true. cbv iota zeta.
  eexists; split; reflexivity.
Qed.
Print Assumptions C14_base_r13_refuted.

Theorem C14_base_r12_refuted :
  exists bs, emit_register_relative no_prefix (opcode_bytes 0 0x8B) 0 (mkmem 12 (-1) 0 16 false 8) None = Done (bs, None) /\
  forall d rest, exists i rest', decode_insn (bs ++ [d] ++ rest) = Some (i, rest') /\
    forall x, i_rm i <> RmMem (BaseReg 12) x 16.
Proof.
  eexists; split; [vm_compute; reflexivity|]. intros d rest.
  unfold decode_insn.
  change (decode_head ([73; 139; 68; 16] ++ [d] ++ rest))
    with (Some (Head [] true true 0 0 1 None 0 139, 68 :: 16 :: d :: rest)).
  cbv iota beta. change (h_r _) with 0. change (h_x _) with 0. change (h_b _) with 1.
  change (decode_modrm 0 0 1 (68 :: 16 :: d :: rest))
    with (Some (0, RmMem (BaseReg 8) (Some (2, 1)) (le_signed [d]), rest)).
  cbv iota beta. do 2 eexists; split; [reflexivity|]. cbn [i_rm]. intros x H. discriminate.
Qed.
Print Assumptions C14_base_r12_refuted.

(** Accesses to globals, strings and float constants: an instruction with a rip-relative
    operand emitted anywhere in a function, once its patch has been applied, decodes to a
    rip-relative operand whose address is the target, whatever immediate follows and
    wherever the image is loaded; the rest of the function is unchanged. *)
Theorem C14_rip_relative_reaches_target : forall p m o reg offset size imm pre post dest_rva source_rva image,
  legal_opcode m o -> vex_ok p m -> is_register reg -> immediate_ok imm ->
  exists bs hole rip,
    emit_register_relative p (opcode_bytes m o) reg (mkmem 5 (-1) 0 offset true size) imm = Done (bs, Some (hole, rip)) /\
    let at_ := Z.of_nat (length pre) in
    (is_s32 (source_rva + offset - (dest_rva + at_ + Z.of_nat (length bs))) ->
     exists bs' disp,
       apply_rip_patch (pre ++ bs ++ post) dest_rva source_rva (mkpatch (at_ + hole) (at_ + rip) offset)
         = Done (pre ++ bs' ++ post) /\
       length bs' = length bs /\
       decode_insn (bs' ++ post)
         = Some (requested p m o reg 5 false size (RmMem BaseRip None disp), immediate_bytes imm ++ post) /\
       forall regs, effective_address regs (image + dest_rva + at_ + Z.of_nat (length bs)) BaseRip None disp
                    = wrapu 64 (image + source_rva + offset)).
Proof.
  intros p m o reg offset size imm pre post dest_rva source_rva image Ho Hv Hr Himm.
  destruct (rip_op_shape p m o reg offset size imm Ho Hv Hr Himm) as (before & E & Hd).
  do 3 eexists. split; [exact E|]. cbv zeta. intros Hs.
  set (im := immediate_bytes imm) in *.
  set (bs := before ++ emit_u32 0 ++ im) in *.
  set (v := source_rva + offset - (dest_rva + Z.of_nat (length pre) + Z.of_nat (length bs))) in *.
  exists (before ++ emit_u32 v ++ im), v.
  assert (L : length (before ++ emit_u32 v ++ im) = length bs).
  { subst bs. rewrite !app_length. unfold emit_u32. rewrite !length_emit_bytes. reflexivity. }
  repeat split.
  - unfold apply_rip_patch. cbn [pt_hole pt_rip_at pt_source_offset].
    replace (source_rva + offset - (dest_rva + (Z.of_nat (length pre) + Z.of_nat (length bs)))) with v by (subst v; lia).
    replace ((v <? -2147483648) || (v >? 2147483647)) with false
      by (unfold is_s32 in Hs; symmetry; apply orb_false_iff; lia).
    replace (Z.to_nat (Z.of_nat (length pre) + Z.of_nat (length before))) with (length (pre ++ before))
      by (rewrite app_length; lia).
    replace (pre ++ bs ++ post) with ((pre ++ before) ++ emit_u32 0 ++ im ++ post)
      by (subst bs; rewrite <- !app_assoc; reflexivity).
    rewrite firstn_app, firstn_all, Nat.sub_diag. cbn [firstn]. rewrite app_nil_r.
    replace (skipn (length (pre ++ before) + 4) ((pre ++ before) ++ emit_u32 0 ++ im ++ post)) with (im ++ post).
    { f_equal. rewrite <- !app_assoc. reflexivity. }
    rewrite skipn_app, skipn_all2 by lia. cbn [app].
    replace (length (pre ++ before) + 4 - length (pre ++ before))%nat with 4%nat by lia.
    reflexivity.
  - exact L.
  - rewrite <- !app_assoc. apply Hd. exact Hs.
  - intro regs. unfold effective_address. f_equal. subst v. lia.
Qed.
Print Assumptions C14_rip_relative_reaches_target.

(** In object files the linker adds target minus the end of the hole (REL32) to the
    addend: the result is the same displacement. *)
Theorem C14_object_relocation : forall hole rip offset dest source,
  is_s32 (hole + 4 - rip + offset) ->
  let disp := object_addend (mkpatch hole rip offset) + (source - (dest + hole + 4)) in
  dest + rip + disp = source + offset.
Proof.
  intros hole rip offset dest source H disp. subst disp. unfold object_addend. cbn [pt_hole pt_rip_at pt_source_offset].
  rewrite wraps_id; [lia|lia|]. unfold is_s32 in H. change (2 ^ (32 - 1)) with 2147483648. lia.
Qed.
Print Assumptions C14_object_relocation.

(** The two hand-written encodings: [mov r, imm] and the store that spills a register. *)
Theorem C14_mov_immediate_decodes : forall reg size value tail, is_register reg -> size = 4 \/ size = 8 ->
  exists h rest, decode_head (emit_mov_immediate reg size value ++ tail) = Some (h, rest) /\
    h_legacy h = [] /\ h_vex h = None /\ h_map h = 0 /\ h_w h = (size =? 8) /\
    h_opc h = 0xB8 + reg - 8 * h_b h /\ 0xB8 <= h_opc h <= 0xBF /\
    rest = emit_bytes (Z.to_nat size) value ++ tail.
Proof.
  intros reg size value tail Hr Hs. unfold emit_mov_immediate. cbv zeta.
  destruct (reg_split reg Hr) as (R1 & R2 & R3).
  assert (Ho : legal_opcode 0 (0xB8 + Z.land reg 7)).
  { split; [lia|left]. split; [reflexivity|].
    assert (E : forallb (fun k => negb (is_legacy (0xB8 + k)) && negb (is_rex (0xB8 + k))) (below 8) = true) by (vm_compute; reflexivity).
    pose proof (below_all 8 _ E (Z.land reg 7) ltac:(lia)) as E1. cbv beta in E1.
    apply andb_true_iff in E1. rewrite !negb_true_iff in E1. destruct E1. repeat split; try assumption; lia. }
  rewrite (emit_small (0xB8 + Z.land reg 7)) by lia.
  pose proof (fun t => legacy_head no_prefix 0 reg (-1) size 0 _ t Ho eq_refl) as H.
  rewrite emit_legacy_shape in H by exact Ho.
  change (register_is_extended 0) with false in H. cbn [flag] in H.
  change ((0 <=? -1) && register_is_extended (-1)) with false in H. cbn [flag] in H.
  rewrite Z.lor_0_r, Z.lor_0_r in H. cbv zeta in H.
  assert (Ep : prefix_bytes no_prefix size = []) by (destruct Hs as [-> | ->]; reflexivity).
  rewrite Ep in H. cbn [app] in H. change (opcode_bytes 0 (184 + Z.land reg 7)) with [184 + Z.land reg 7] in H.
  rewrite <- !app_assoc.
  assert (Ev : (if size =? 8 then emit_bytes 8 value else emit_bytes 4 value) = emit_bytes (Z.to_nat size) value)
    by (destruct Hs as [-> | ->]; reflexivity).
  rewrite Ev. specialize (H (emit_bytes (Z.to_nat size) value ++ tail)). rewrite <- app_assoc in H.
  do 2 eexists. split; [exact H|].
  unfold expected_head. change (uses_vex no_prefix) with false. cbv zeta. cbn [h_legacy h_vex h_map h_w h_opc h_b].
  rewrite Ep. unfold bit1. repeat split; lia.
Qed.
Print Assumptions C14_mov_immediate_decodes.

Theorem C14_spill_store_decodes : forall reg size offset tail, is_register reg -> is_s32 offset ->
  size = 1 \/ size = 2 \/ size = 4 \/ size = 8 ->
  decode_insn (emit_spill_store reg size offset ++ tail)
  = Some (requested no_prefix 0 (if size =? 1 then 0x88 else 0x89) reg 5 false size (RmMem (BaseReg 5) None offset), tail).
Proof.
  intros reg size offset tail Hr Hs Hsize. unfold emit_spill_store. cbv zeta.
  set (op := if size =? 1 then 0x88 else 0x89).
  assert (Ho : legal_opcode 0 op).
  { subst op. destruct (size =? 1); (split; [lia|left; vm_compute; repeat split; discriminate]). }
  change (one_byte_opcode op) with (opcode_bytes 0 op).
  assert (H5 : is_register 5) by (unfold is_register; lia).
  rewrite <- !app_assoc. unfold decode_insn. unfold REGISTER_BP. rewrite legacy_head by (first [exact Ho|reflexivity]).
  destruct (reg_split reg Hr) as (R1 & R2 & R3).
  pose proof (expected_requested no_prefix 0 op reg 5 (-1) size (RmMem (BaseReg 5) None offset) Hr H5 ltac:(lia)) as X.
  cbv zeta in X. change (high (-1)) with false in X. rewrite <- X.
  replace (h_r (expected_head no_prefix 0 op reg 5 (-1) size)) with (bit1 (register_is_extended reg)) by reflexivity.
  change (h_b (expected_head no_prefix 0 op reg 5 (-1) size)) with 0.
  unfold MODRM_REGM32, MODRM_REGM8.
  assert (M : exists md, 1 <= md <= 2 /\ (if (offset >? 127) || (offset <? -128) then 2 else 1) = md /\
     take_disp (disp_size md) ((if md =? 2 then emit_u32 offset else emit offset) ++ tail) = Some (offset, tail)).
  { destruct ((offset >? 127) || (offset <? -128)) eqn:E.
    - exists 2. split; [lia|split; [reflexivity|]]. apply (take_disp_emit 4); [lia|]. now apply fits32.
    - exists 1. split; [lia|split; [reflexivity|]]. apply orb_false_iff in E. apply (take_disp_emit 1); [lia|]. apply fits8. lia. }
  destruct M as (md & Hmd & -> & Hd).
  destruct (modrm_fields md (Z.land reg 7) 5 ltac:(lia) R1 ltac:(lia)) as (Bm & F1 & F2 & F3).
  rewrite (emit_small _ Bm). cbn [app]. unfold decode_modrm. rewrite F1, F2, F3.
  replace (md =? 3) with false by lia. replace (md =? 0) with false by lia. change (5 =? 4) with false.
  cbn [andb]. cbv zeta. rewrite Hd. unfold bit1. rewrite R2. reflexivity.
Qed.
Print Assumptions C14_spill_store_decodes.
