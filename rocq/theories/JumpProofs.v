(** Proofs for C15. *)
From Verif Require Import Base X64Decode X64Machine EncModel EncSpec EncProofs EmitModel StepProofs ExecProofs EmitBasics JumpSpec.

(** ** Condition tables *)
Lemma sub_flags : forall n a b, 0 < n -> 0 <= a < 2 ^ n -> 0 <= b < 2 ^ n ->
  let d := (a - b) mod 2 ^ n in
  (d =? 0) = (a =? b) /\
  xorb (2 ^ (n - 1) <=? d) (negb (wraps n a - wraps n b =? wraps n d)) = (wraps n a <? wraps n b) /\
  (2 ^ (n - 1) <=? d) = (wraps n (a - b) <? 0).
Proof.
  intros n a b Hn Ha Hb d.
  pose proof (pow2_split n Hn) as Hp. pose proof (pow2_pos (n - 1) ltac:(lia)) as Hh.
  assert (Hd : d = a - b \/ d = a - b + 2 ^ n).
  { subst d. destruct (Z_le_gt_dec 0 (a - b)).
    - left. apply Z.mod_small. lia.
    - right. symmetry. apply Z.mod_unique with (q := -1); lia. }
  assert (Hr : 0 <= d < 2 ^ n) by (subst d; apply Z.mod_pos_bound; lia).
  assert (W : forall x, 0 <= x < 2 ^ n -> wraps n x = if x <? 2 ^ (n - 1) then x else x - 2 ^ n).
  { intros x Hx. unfold wraps. rewrite Z.mod_small by lia. reflexivity. }
  split; [|split].
  - destruct (Z.eqb_spec d 0), (Z.eqb_spec a b); try reflexivity; lia.
  - rewrite (W a), (W b), (W d) by assumption.
    destruct (Z.ltb_spec a (2 ^ (n - 1))), (Z.ltb_spec b (2 ^ (n - 1))), (Z.ltb_spec d (2 ^ (n - 1))),
      (Z.leb_spec (2 ^ (n - 1)) d); try lia;
    match goal with |- xorb _ (negb (?x =? ?y)) = (?u <? ?v) => destruct (Z.eqb_spec x y), (Z.ltb_spec u v) end;
    cbn; try reflexivity; lia.
  - unfold wraps. fold d. destruct (Z.ltb_spec d (2 ^ (n - 1))), (Z.leb_spec (2 ^ (n - 1)) d); try lia; lia.
Qed.

Lemma cc_holds : forall c n a b f, c <> COMP_none -> compared n a b f ->
  condition (jump_opcode c true - 0x80) f = Some (holds c n a b).
Proof.
  intros c n a b f Hc (Hn & Ha & Hb & Hf).
  destruct (sub_flags n a b Hn Ha Hb) as (Z0 & S0 & N0).
  unfold alu in Hf. cbn [Z.eqb Pos.eqb] in Hf.
  assert (Ef : f = result_flags n ((a - b) mod 2 ^ n) (a <? b) (negb (wraps n a - wraps n b =? wraps n ((a - b) mod 2 ^ n)))) by congruence.
  clear Hf. subst f. unfold result_flags.
  assert (Hinj : wraps n a = wraps n b <-> a = b).
  { split; [|congruence]. unfold wraps. rewrite !Z.mod_small by lia. pose proof (pow2_split n Hn).
    destruct (Z.ltb_spec a (2 ^ (n - 1))), (Z.ltb_spec b (2 ^ (n - 1))); lia. }
  destruct c; try congruence; clear Hc;
    unfold jump_opcode, condition; cbn [f_cf f_zf f_sf f_of];
    match goal with |- context [?x - 128] => let v := eval compute in (x - 128) in change (x - 128) with v end;
    repeat match goal with
    | |- context [?x / 2] => let v := eval compute in (x / 2) in change (x / 2) with v
    | |- context [?x mod 2 =? 0] => let v := eval compute in (x mod 2 =? 0) in change (x mod 2 =? 0) with v
    end;
    cbn [Z.eqb Pos.eqb option_map holds];
    rewrite ?Z0, ?S0, ?N0; try reflexivity; f_equal;
    repeat match goal with |- context [?x <? ?y] => destruct (Z.ltb_spec x y)
           | |- context [?x =? ?y] => destruct (Z.eqb_spec x y)
           | |- context [?x <=? ?y] => destruct (Z.leb_spec x y) end;
    cbn; try reflexivity; lia.
Qed.

Lemma condition_negated : forall cc f, condition (Z.lxor cc 1) f = option_map negb (condition cc f).
Proof.
  intros cc f. unfold condition.
  assert (D : Z.lxor cc 1 / 2 = cc / 2).
  { change 2 with (2 ^ 1). rewrite <- !Z.shiftr_div_pow2 by lia. rewrite Z.shiftr_lxor. change (Z.shiftr 1 1) with 0.
    apply Z.lxor_0_r. }
  assert (E : Z.lxor cc 1 mod 2 =? 0 = negb (cc mod 2 =? 0)).
  { rewrite <- !Z.bit0_mod, Z.lxor_spec. change (Z.testbit 1 0) with true. destruct (Z.testbit cc 0); reflexivity. }
  rewrite D, E. destruct (cc mod 2 =? 0); cbn [negb]; [reflexivity|].
  match goal with |- ?x = option_map negb (option_map negb ?x) => destruct x as [[|]|]; reflexivity end.
Qed.

Lemma jump_opcode_negated : forall c, c <> COMP_none -> jump_opcode c false - 0x80 = Z.lxor (jump_opcode c true - 0x80) 1.
Proof. intros [] H; try congruence; reflexivity. Qed.

Lemma jump_condition : forall c n a b f on_true, c <> COMP_none -> compared n a b f ->
  condition (jump_opcode c on_true - 0x80) f = Some (Bool.eqb (holds c n a b) on_true).
Proof.
  intros c n a b f [|] Hc Hf.
  - rewrite (cc_holds c n a b f Hc Hf). destruct (holds c n a b); reflexivity.
  - rewrite jump_opcode_negated, condition_negated, (cc_holds c n a b f Hc Hf) by assumption.
    destruct (holds c n a b); reflexivity.
Qed.

Lemma set_condition : forall c o n a b f, set_opcode c = Done o -> compared n a b f ->
  condition (o - 0x90) f = Some (holds c n a b).
Proof.
  intros c o n a b f Ho Hf.
  assert (E : o - 0x90 = jump_opcode c true - 0x80 /\ c <> COMP_none).
  { destruct c; cbn [set_opcode] in Ho; try discriminate; injection Ho as <-; (split; [reflexivity|discriminate]). }
  destruct E as (-> & Hc). apply cc_holds; assumption.
Qed.

Lemma negate_holds : forall c c' n a b, negate_condition c = Done c' -> holds c' n a b = negb (holds c n a b).
Proof.
  intros c c' n a b H. destruct c; cbn [negate_condition] in H; try discriminate; injection H as <-; cbn [holds];
    rewrite ?negb_involutive; try reflexivity; rewrite ?Z.ltb_antisym, ?negb_involutive; reflexivity.
Qed.

(** ** One jump *)
Lemma jump_step : forall C c on_true d m, 0 <= pc m ->
  at_code C (pc m) (jump_bytes c on_true ++ emit_u32 d) -> - 2 ^ 31 <= d < 2 ^ 31 ->
  let next := pc m + Z.of_nat (length (jump_bytes c on_true)) + 4 in
  match c with
  | COMP_none => step C m = Some (goto m (next + d))
  | _ => forall f b, fl m = Some f -> condition (jump_opcode c on_true - 0x80) f = Some b ->
         step C m = Some (goto m (if b then next + d else next))
  end.
Proof.
  intros C c on_true d m Hp H Hd next.
  destruct H as (_ & rest & E).
  assert (N : Z.of_nat (length C) - Z.of_nat (length rest) = next).
  { unfold next. rewrite (next_pc C (pc m) (jump_bytes c on_true ++ emit_u32 d) rest Hp).
    - rewrite app_length. unfold emit_u32. rewrite length_emit_bytes. lia.
    - destruct c; discriminate.
    - exact E. }
  assert (TD : take_disp 4 (emit_u32 d ++ rest) = Some (d, rest)).
  { unfold emit_u32. rewrite imm_disp by lia. change (8 * Z.of_nat 4) with 32. rewrite wraps_id by lia. reflexivity. }
  rewrite <- app_assoc in E.
  destruct c; unfold step; replace (pc m <? 0) with false by lia; cbv zeta; rewrite E.
  1: { assert (D : decode_head ([0xE9] ++ emit_u32 d ++ rest) = Some (Head [] false false 0 0 0 None 0 0xE9, emit_u32 d ++ rest))
         by reflexivity.
       cbn [jump_bytes]. rewrite D. cbn [h_legacy h_vex h_map h_opc h_w plain_prefixes forallb negb]. ctest.
       rewrite TD, N. reflexivity. }
  all: intros f b Hf Hb;
    match goal with |- context [jump_bytes ?c ?o ++ emit_u32 ?d ++ ?rest] =>
      assert (D : decode_head (jump_bytes c o ++ emit_u32 d ++ rest) =
                  Some (Head [] false false 0 0 0 None 1 (jump_opcode c o), emit_u32 d ++ rest))
        by (destruct o; reflexivity);
      assert (R : 0x80 <= jump_opcode c o <= 0x8F) by (destruct o; cbn; lia) end;
    rewrite D; cbn [h_legacy h_vex h_map h_opc h_w plain_prefixes forallb negb]; ctest;
    match goal with |- context [128 <=? ?x] => replace (128 <=? x) with true by lia; replace (x <=? 143) with true by lia end;
    cbn [andb]; rewrite TD, Hf, Hb, N; destruct b; reflexivity.
Qed.

(** ** Where the jumps are *)
Inductive layout : Z -> list Z -> list (nat * Z) -> list (comp * bool) -> Prop :=
| L_nil : forall p c, layout p c [] []
| L_cons : forall p pre c b label rest js cs at_,
    at_ = p + Z.of_nat (length pre) + Z.of_nat (length (jump_bytes c b)) ->
    layout (at_ + 4) rest js cs ->
    layout p (pre ++ jump_bytes c b ++ emit_u32 0 ++ rest) ((label, at_) :: js) ((c, b) :: cs).

Inductive patched (ls : list (nat * Z)) : Z -> list Z -> list (nat * Z) -> list (comp * bool) -> Prop :=
| P_nil : forall p c, patched ls p c [] []
| P_cons : forall p pre c b label rest js cs at_ d,
    at_ = p + Z.of_nat (length pre) + Z.of_nat (length (jump_bytes c b)) ->
    at_ + 4 + d = match find_label label ls with Some t => t | None => 0 end -> - 2 ^ 31 <= d < 2 ^ 31 ->
    patched ls (at_ + 4) rest js cs ->
    patched ls p (pre ++ jump_bytes c b ++ emit_u32 d ++ rest) ((label, at_) :: js) ((c, b) :: cs).

Lemma length_u32 : forall d, length (emit_u32 d) = 4%nat.
Proof. intro. apply length_emit_bytes. Qed.

Lemma patch_layout : forall ls p code js cs, layout p code js cs -> forall x z,
  p = Z.of_nat (length x) -> patch_all (x ++ code) js ls = Done z ->
  exists code', z = x ++ code' /\ patched ls p code' js cs.
Proof.
  intros ls p code js cs H. induction H as [p c|p pre c b label rest js cs at_ Hat Hl IH]; intros x z Hx E.
  - cbn [patch_all] in E. exists c. split; [congruence|constructor].
  - cbn [patch_all] in E. set (t := match find_label label ls with Some q => q | None => 0 end) in *.
    unfold patch in E. cbv zeta in E.
    destruct ((- 2 ^ 31 <=? t - (at_ + 4)) && (t - (at_ + 4) <? 2 ^ 31)) eqn:R; [|discriminate].
    apply andb_true_iff in R. cbn [obind] in E.
    set (y := x ++ pre ++ jump_bytes c b) in *.
    assert (Ly : Z.of_nat (length y) = at_) by (unfold y; rewrite !app_length; lia).
    assert (Ey : x ++ pre ++ jump_bytes c b ++ emit_u32 0 ++ rest = y ++ emit_u32 0 ++ rest)
      by (unfold y; rewrite <- !app_assoc; reflexivity).
    rewrite Ey in E.
    assert (F : firstn (Z.to_nat at_) (y ++ emit_u32 0 ++ rest) = y).
    { replace (Z.to_nat at_) with (length y + 0)%nat by lia. rewrite firstn_app_2. rewrite firstn_O. apply app_nil_r. }
    assert (S : skipn (Z.to_nat at_ + 4) (y ++ emit_u32 0 ++ rest) = rest).
    { replace (Z.to_nat at_ + 4)%nat with (length y + 4)%nat by lia. rewrite skipn_app.
      rewrite skipn_all2 by lia. replace (length y + 4 - length y)%nat with 4%nat by lia.
      rewrite skipn_app, length_u32. rewrite skipn_all2 by (rewrite length_u32; lia). reflexivity. }
    rewrite F, S in E.
    set (d := t - (at_ + 4)) in *.
    destruct (IH (y ++ emit_u32 d) z) as (rest' & Ez & Pr).
    + rewrite app_length, length_u32. lia.
    + rewrite <- app_assoc. exact E.
    + exists (pre ++ jump_bytes c b ++ emit_u32 d ++ rest'). split.
      * rewrite Ez. unfold y. rewrite <- !app_assoc. reflexivity.
      * apply P_cons; [exact Hat| |lia|exact Pr]. subst d t. lia.
Qed.

Lemma layout_length : forall p code js cs, layout p code js cs -> length js = length cs.
Proof. intros p code js cs H. induction H; cbn; congruence. Qed.

Lemma layout_app : forall p code js cs bs, layout p code js cs -> layout p (code ++ bs) js cs.
Proof.
  intros p code js cs bs H. induction H; [constructor|].
  rewrite <- !app_assoc. eapply L_cons; eauto.
Qed.

Lemma layout_jump : forall p code js cs c b label, layout p code js cs ->
  layout p (code ++ jump_bytes c b ++ emit_u32 0)
    (js ++ [(label, p + Z.of_nat (length code) + Z.of_nat (length (jump_bytes c b)))]) (cs ++ [(c, b)]).
Proof.
  intros p code js cs c b label H. induction H as [p code|p pre c' b' label' rest js cs at_ Hat Hl IH].
  - cbn [app]. replace (code ++ jump_bytes c b ++ emit_u32 0) with (code ++ jump_bytes c b ++ emit_u32 0 ++ [])
      by (rewrite app_nil_r; reflexivity).
    eapply L_cons; [reflexivity|constructor].
  - rewrite <- !app_assoc. cbn [app].
    match goal with |- layout _ _ (_ :: js ++ [(label, ?x)]) _ =>
      replace x with (at_ + 4 + Z.of_nat (length rest) + Z.of_nat (length (jump_bytes c b)))
        by (rewrite !app_length, length_u32; lia) end.
    eapply L_cons; [exact Hat|exact IH].
Qed.

Lemma patched_nth : forall ls p code js cs, patched ls p code js cs -> forall x i label at_ c b,
  Z.of_nat (length x) = p -> nth_error js i = Some (label, at_) -> nth_error cs i = Some (c, b) ->
  exists d, - 2 ^ 31 <= d < 2 ^ 31 /\ at_ + 4 + d = match find_label label ls with Some t => t | None => 0 end /\
    at_code (x ++ code) (at_ - Z.of_nat (length (jump_bytes c b))) (jump_bytes c b ++ emit_u32 d).
Proof.
  intros ls p code js cs H. induction H as [p c|p pre c b label rest js cs at_ d Hat Hd Hr Hp IH];
    intros x i label' at' c' b' Hx Hj Hc; [destruct i; discriminate|].
  destruct i as [|i]; cbn [nth_error] in *.
  - assert (label' = label /\ at' = at_ /\ c' = c /\ b' = b) as (-> & -> & -> & ->) by (repeat split; congruence).
    exists d. split; [exact Hr|]. split; [exact Hd|]. split; [lia|]. exists rest.
    replace (Z.to_nat (at_ - Z.of_nat (length (jump_bytes c b)))) with (length (x ++ pre)) by (rewrite app_length; lia).
    rewrite (app_assoc x pre), skipn_app, skipn_all, Nat.sub_diag. rewrite <- app_assoc. reflexivity.
  - specialize (IH (x ++ pre ++ jump_bytes c b ++ emit_u32 d) i label' at' c' b').
    rewrite <- !app_assoc in IH. apply IH; [|exact Hj|exact Hc].
    rewrite !app_length, length_u32. lia.
Qed.

(** ** The loop *)
Section Function.
Variable stack_space : Z.

(** What one IR instruction records. *)
Lemma jump_emit_done : forall label b c s u s', jump_context_emit label b c s = Done (u, s') ->
  code s' = code s ++ jump_bytes c b ++ emit_u32 0 /\
  jumps s' = jumps s ++ [(label, Z.of_nat (length (code s)) + Z.of_nat (length (jump_bytes c b)))] /\
  labels s' = labels s.
Proof.
  intros label b c s u s' H. unfold jump_context_emit in H. apply bind_inv in H.
  destruct H as (a & s1 & E1 & E2). unfold out in E1.
  assert (s1 = in_code (code s ++ jump_bytes c b) s) by congruence. subst s1. clear E1.
  unfold out in E2. cbn [code jumps labels in_code in_jumps] in E2.
  match type of E2 with Done (?x, ?y) = _ => assert (s' = y) by congruence end. subst s'.
  cbn [code jumps labels in_code in_jumps]. rewrite <- app_assoc, app_length, Nat2Z.inj_add. repeat split.
Qed.

Record grows (s s' : emitter) (js : list (nat * Z)) (cs : list (comp * bool)) (ls : list (nat * Z)) : Prop := {
  g_code : exists bs, code s' = code s ++ bs;
  g_jumps : jumps s' = jumps s ++ js;
  g_labels : labels s' = ls ++ labels s;
  g_layout : forall cs0, layout 0 (code s) (jumps s) cs0 -> layout 0 (code s') (jumps s') (cs0 ++ cs);
  g_bounded : bounded s -> bounded s' }.

Lemma grows_refl : forall s, grows s s [] [] [].
Proof.
  intro s. split; rewrite ?app_nil_r; try reflexivity.
  - exists []. rewrite app_nil_r. reflexivity.
  - intros. rewrite app_nil_r. assumption.
  - auto.
Qed.
Lemma grows_trans : forall a b c j1 c1 l1 j2 c2 l2, grows a b j1 c1 l1 -> grows b c j2 c2 l2 ->
  grows a c (j1 ++ j2) (c1 ++ c2) (l2 ++ l1).
Proof.
  intros a b c j1 c1 l1 j2 c2 l2 [(x & C) J L Y B] [(x' & C') J' L' Y' B']. split.
  - exists (x ++ x'). rewrite C', C, app_assoc. reflexivity.
  - rewrite J', J, app_assoc. reflexivity.
  - rewrite L', L, app_assoc. reflexivity.
  - intros cs0 H. rewrite app_assoc. auto.
  - auto.
Qed.
Lemma quiet_grows : forall s s', quiet_step s s' -> grows s s' [] [] [].
Proof.
  intros s s' [(bs & C) _ _ J L B]. split.
  - exists bs. exact C.
  - rewrite J, app_nil_r. reflexivity.
  - exact L.
  - intros cs0 H. rewrite app_nil_r, J, C. apply layout_app, H.
  - exact B.
Qed.
Lemma jump_grows : forall label b c s u s', jump_context_emit label b c s = Done (u, s') ->
  grows s s' [(label, Z.of_nat (length (code s)) + Z.of_nat (length (jump_bytes c b)))] [(c, b)] [].
Proof.
  intros label b c s u s' H. assert (H' := H). apply jump_emit_done in H. destruct H as (C & J & L). split.
  - eexists. exact C.
  - exact J.
  - exact L.
  - intros cs0 H. rewrite C, J. apply (layout_jump 0). exact H.
  - unfold jump_context_emit in H'. apply bind_inv in H'. destruct H' as (a & s1 & E1 & E2). unfold out in E1, E2.
    assert (s1 = in_code (code s ++ jump_bytes c b) s) by congruence. subst s1.
    match type of E2 with Done (_, ?q) = _ => assert (s' = q) by congruence end. subst s'.
    intros B r id Er. exact (B r id Er).
Qed.

(** Locations no register points to are left alone by spilling. *)
Lemma replace_other : forall A (l : list A) n m x, n <> m -> nth_error (replace_nth n x l) m = nth_error l m.
Proof. induction l as [|h t IH]; intros [|n] [|m] x H; cbn; try congruence; auto. Qed.

Lemma spill_unmapped : forall r s u s' id, spill_register stack_space r s = Done (u, s') ->
  (forall q, rmap s q <> Some id) ->
  nth_error (heap s') id = nth_error (heap s) id /\ (forall q, rmap s' q <> Some id).
Proof.
  intros r s u s' id H Hn. unfold spill_register in H. destruct (rmap s r) as [k|] eqn:Er; [|discriminate].
  apply bind_inv in H. destruct H as (l & s1 & E1 & H). apply get_inv in E1. destruct E1 as (l' & El & E1).
  assert (s1 = s) by congruence. subst s1. clear E1.
  apply bind_inv in H. destruct H as (u1 & s1 & E1 & H). apply assertion_inv in E1. destruct E1 as (_ & E1).
  assert (s1 = s) by congruence. subst s1. clear E1.
  apply bind_inv in H. destruct H as (u2 & s1 & E1 & H). apply assertion_inv in E1. destruct E1 as (_ & E1).
  assert (s1 = s) by congruence. subst s1. clear E1.
  unfold bind, obind, allocate_temporary, set, set_map, out in H.
  match type of H with Done (_, ?x) = _ => assert (s' = x) by congruence end. subst s'.
  cbn [heap rmap in_heap in_map in_tsa in_code]. split.
  - apply replace_other. intro E. subst. eapply Hn, Er.
  - intros q. destruct (q =? r); [discriminate|apply Hn].
Qed.

Lemma spill_all_unmapped : forall rs s u s' id, spill_all stack_space rs s = Done (u, s') ->
  (forall q, rmap s q <> Some id) -> nth_error (heap s') id = nth_error (heap s) id.
Proof.
  induction rs as [|r rs IH]; intros s u s' id H Hn; cbn [spill_all] in H.
  - replace s' with s by congruence. reflexivity.
  - destruct (rmap s r); [|eapply IH; eassumption].
    apply bind_inv in H. destruct H as (a & s1 & E1 & E2).
    destruct (spill_unmapped _ _ _ _ id E1 Hn) as (A & B). rewrite (IH _ _ _ _ E2 B). exact A.
Qed.

Lemma jump_if_done : forall b label next st s st' s', emit_ir stack_space (IR_jump_if b label) next st s = Done (st', s') ->
  exists c s1 s2, let at_ := Z.of_nat (length (code s1)) + Z.of_nat (length (jump_bytes c b)) in
    quiet_step s s1 /\ grows s1 s2 [(label, at_)] [(c, b)] [] /\ quiet_step s2 s' /\
    Z.of_nat (length (code s')) = at_ + 4 /\
    (forall id rest l c0, st = id :: rest -> nth_error (heap s) id = Some l -> l_state l = Conditional c0 ->
       (forall r, rmap s r <> Some id) -> c = c0).
Proof.
  intros b label next st s st' s' H. cbn [emit_ir] in H. destruct st as [|id rest]; [discriminate|].
  apply bind_inv in H. destruct H as (l & s0 & E0 & H). apply get_inv in E0. destruct E0 as (l' & El & E0).
  assert (l' = l /\ s0 = s) as (-> & ->) by (split; congruence). clear E0.
  apply bind_inv in H. destruct H as (id1 & s1 & E1 & H).
  apply bind_inv in H. destruct H as (u & s2 & E2 & H).
  apply bind_inv in H. destruct H as (l2 & s3 & E3 & H). apply get_inv in E3. destruct E3 as (l2' & El2 & E3).
  assert (l2' = l2 /\ s3 = s2) as (-> & ->) by (split; congruence). clear E3.
  destruct (l_state l2) as [| | |c|] eqn:Es; try discriminate.
  apply bind_inv in H. destruct H as (u4 & s4 & E4 & H).
  apply bind_inv in H. destruct H as (u5 & s5 & E5 & H).
  assert (s' = s5) by (unfold ret in H; congruence). subst s5. clear H.
  exists c, s2, s4. cbv zeta. split; [|split; [|split; [|split]]].
  - eapply quiet_step_trans; [|eapply quiet_spill_all, E2].
    assert (Q : quiet (match l_state l with Conditional _ => ret id | _ => id <- emit_load_gpr stack_space id ;; emit_compare_to_zero id end))
      by quiet_auto.
    eapply Q, E1.
  - eapply jump_grows, E4.
  - eapply quiet_free, E5.
  - assert (F : forall fuel k x y v, free_loc fuel k x = Done (v, y) -> code y = code x).
    { clear. induction fuel as [|fuel IH]; intros k x y v H; [discriminate|]. cbn [free_loc] in H.
      destruct (Nat.eqb k register_bp); [unfold ret in H; congruence|].
      apply bind_inv in H. destruct H as (l & s1 & E1 & H). apply get_inv in E1. destruct E1 as (l' & _ & E1).
      assert (s1 = x) by congruence. subst s1. clear E1.
      assert (T : forall s1 v, (l <- get k ;; set k (with_state Freed l)) s1 = Done (v, y) -> code y = code s1).
      { intros s1 w T. apply bind_inv in T. destruct T as (a & s2 & T1 & T2). apply get_inv in T1. destruct T1 as (a' & _ & T1).
        assert (s2 = s1) by congruence. subst s2. unfold set in T2.
        match type of T2 with Done (_, ?q) = _ => assert (y = q) by congruence end. subst y. reflexivity. }
      destruct (l_state l); try discriminate;
        (destruct (negb (l_prevent_freeing l =? 0) || negb (l_prevent_spilling l =? 0)); [unfold ret in H; congruence|]);
        apply bind_inv in H; destruct H as (w & s1 & E1 & H); apply T in H; rewrite H; clear H T.
      - unfold set_map in E1. match type of E1 with Done (_, ?q) = _ => assert (s1 = q) by congruence end. subst s1. reflexivity.
      - unfold ret in E1. congruence.
      - apply bind_inv in E1. destruct E1 as (w1 & s2 & E1 & E2). apply IH in E1. destruct index as [i|].
        + apply IH in E2. congruence.
        + unfold ret in E2. congruence.
      - unfold ret in E1. congruence. }
    apply F in E5. rewrite E5. apply jump_emit_done in E4. destruct E4 as (C & _ & _). rewrite C.
    rewrite !app_length, length_u32. lia.
  - intros id' rest' l' c0 Est Hl Hc Hn. assert (id' = id) by congruence. subst id'.
    assert (l' = l) by congruence. subst l'. rewrite Hc in E1.
    assert (id1 = id /\ s1 = s) as (-> & ->) by (unfold ret in E1; split; congruence).
    rewrite (spill_all_unmapped _ _ _ _ _ E2 Hn) in El2. congruence.
Qed.

(** Every IR instruction extends code, jumps and labels. *)
Lemma ir_grows : forall i next st s st' s', emit_ir stack_space i next st s = Done (st', s') ->
  exists js cs ls, grows s s' js cs ls /\ (forall l q, In (l, q) ls -> i = IR_jump_label l).
Proof.
  intros i next st s st' s' H. destruct (is_jump i) eqn:Ej.
  - destruct i; try discriminate.
    + cbn [emit_ir] in H. apply bind_inv in H. destruct H as (u & s1 & E & H).
      assert (s1 = s') by (unfold ret in H; congruence). subst s1. unfold set_label in E.
      match type of E with Done (_, ?q) = _ => assert (s' = q) by congruence end. subst s'.
      exists [], [], [(label, Z.of_nat (length (code s)))]. split.
      * split; cbn [code jumps labels in_jumps]; rewrite ?app_nil_r; try reflexivity.
        -- exists []. rewrite app_nil_r. reflexivity.
        -- intros. rewrite app_nil_r. assumption.
        -- intros B r id Er. exact (B r id Er).
      * intros l q [E'|[]]. congruence.
    + cbn [emit_ir] in H. apply bind_inv in H. destruct H as (u & s1 & E & H).
      assert (s1 = s') by (unfold ret in H; congruence). subst s1.
      do 3 eexists. split; [eapply jump_grows, E|]. intros ? ? [].
    + apply jump_if_done in H. destruct H as (c & s1 & s2 & Q1 & G & Q2 & _ & _).
      do 3 eexists. split; [|].
      * eapply grows_trans; [eapply quiet_grows, Q1|]. eapply grows_trans; [exact G|]. apply quiet_grows, Q2.
      * intros ? ? [].
  - exists [], [], []. pose proof (quiet_ir stack_space i next st Ej s st' s' H) as Q. split; [apply quiet_grows, Q|].
    intros ? ? [].
Qed.

Lemma irs_grows : forall is after st s st' s', emit_irs stack_space is after st s = Done (st', s') ->
  exists js cs ls, grows s s' js cs ls /\ (forall l q, In (l, q) ls -> In (IR_jump_label l) is).
Proof.
  induction is as [|i is IH]; intros after st s st' s' H; cbn [emit_irs] in H.
  - assert (s' = s) by (unfold ret in H; congruence). subst. exists [], [], []. split; [apply grows_refl|intros ? ? []].
  - apply bind_inv in H. destruct H as (st1 & s1 & E1 & E2).
    apply ir_grows in E1. destruct E1 as (j1 & c1 & l1 & G1 & B1).
    apply IH in E2. destruct E2 as (j2 & c2 & l2 & G2 & B2).
    do 3 eexists. split; [eapply grows_trans; eassumption|].
    intros l q Hin. apply in_app_or in Hin. destruct Hin as [Hin|Hin]; [right; eapply B2, Hin|left; eapply B1, Hin].
Qed.

Definition head_of (is : list ir) (after : option ir) : option ir :=
  match is with n :: _ => Some n | [] => after end.
Lemma irs_app : forall a b after st s r, emit_irs stack_space (a ++ b) after st s = Done r ->
  exists st1 s1, emit_irs stack_space a (head_of b after) st s = Done (st1, s1) /\
    emit_irs stack_space b after st1 s1 = Done r.
Proof.
  induction a as [|i a IH]; intros b after st s r H.
  - exists st, s. split; [reflexivity|exact H].
  - cbn [app emit_irs] in H. apply bind_inv in H. destruct H as (st1 & s1 & E1 & E2).
    apply IH in E2. destruct E2 as (st2 & s2 & E2 & E3). exists st2, s2. split; [|exact E3].
    cbn [emit_irs]. unfold bind, obind.
    assert (N : match a ++ b with n :: _ => Some n | [] => after end = match a with n :: _ => Some n | [] => head_of b after end)
      by (destruct a; reflexivity).
    rewrite <- N, E1. exact E2.
Qed.

Lemma initial_bounded : bounded initial.
Proof. intros r id H. discriminate. Qed.
Lemma initial_layout : layout 0 (code initial) (jumps initial) [].
Proof. constructor. Qed.

Lemma find_label_skip : forall label ls1 ls2, (forall q, ~ In (label, q) ls1) ->
  find_label label (ls1 ++ ls2) = find_label label ls2.
Proof.
  intros label ls1. induction ls1 as [|(k, q) ls1 IH]; intros ls2 H; [reflexivity|].
  cbn [app find_label]. destruct (Nat.eqb_spec k label) as [->|]; [exfalso; apply (H q); left; reflexivity|].
  apply IH. intros p Hp. apply (H p). right. exact Hp.
Qed.

(** A jump recorded in the middle of the function. *)
Lemma jump_final : forall is bytes t pre i post label,
  emit_function stack_space is = Done (bytes, t) -> is = pre ++ i :: post ->
  (exists pre' post', is = pre' ++ IR_jump_label label :: post' /\ ~ In (IR_jump_label label) post' /\
     exists q, emitted_length stack_space pre' (Some (IR_jump_label label)) q /\
  exists st s, emit_irs stack_space pre (Some i) [] initial = Done (st, s) /\ bounded s /\
  exists st' s', emit_ir stack_space i (head_of post None) st s = Done (st', s') /\
  forall s1 s2 at_ c b, quiet_step s s1 -> grows s1 s2 [(label, at_)] [(c, b)] [] -> quiet_step s2 s' ->
    exists d, - 2 ^ 31 <= d < 2 ^ 31 /\ at_ + 4 + d = q /\
      at_code bytes (at_ - Z.of_nat (length (jump_bytes c b))) (jump_bytes c b ++ emit_u32 d))
  \/ ~ In (IR_jump_label label) is.
Proof.
  intros is bytes t pre i post label H Ei.
  destruct (in_dec (fun x y : ir => ltac:(repeat decide equality)) (IR_jump_label label) is) as [Hin|Hin]; [left|right; exact Hin].
  (* split at the last placement of the label *)
  assert (Sp : exists pre' post', is = pre' ++ IR_jump_label label :: post' /\ ~ In (IR_jump_label label) post').
  { clear - Hin. induction is as [|x is IH]; [destruct Hin|].
    destruct (in_dec (fun x y : ir => ltac:(repeat decide equality)) (IR_jump_label label) is) as [Hi|Hi].
    - destruct (IH Hi) as (p & q & -> & Hq). exists (x :: p), q. split; [reflexivity|exact Hq].
    - destruct Hin as [->|Hin]; [|contradiction]. exists [], is. split; [reflexivity|exact Hi]. }
  destruct Sp as (pre' & post' & Ei' & Hq). exists pre', post'. split; [exact Ei'|]. split; [exact Hq|].
  unfold emit_function, obind in H.
  destruct (emit_irs stack_space is None [] initial) as [[stf sf]| |] eqn:E; try discriminate.
  destruct stf; try discriminate.
  destruct (forallb (fun r => match rmap sf r with Some _ => false | None => true end) volatile); try discriminate.
  destruct (patch_all (code sf) (jumps sf) (labels sf)) as [z| |] eqn:Ep; try discriminate.
  assert (z = bytes) by congruence. subst z. clear H.
  (* the label *)
  assert (E' := E). rewrite Ei' in E'. apply irs_app in E'. destruct E' as (st1 & s1 & A1 & A2).
  cbn [head_of] in A1. exists (Z.of_nat (length (code s1))). split; [exists st1, s1; auto|].
  assert (Lf : find_label label (labels sf) = Some (Z.of_nat (length (code s1)))).
  { cbn [emit_irs] in A2. apply bind_inv in A2. destruct A2 as (st2 & s2 & A2 & A3).
    cbn [emit_ir] in A2. apply bind_inv in A2. destruct A2 as (u & s2' & A2 & A4).
    assert (s2' = s2) by (unfold ret in A4; congruence). subst s2'. unfold set_label in A2.
    match type of A2 with Done (_, ?q) = _ => assert (s2 = q) by congruence end. subst s2.
    apply irs_grows in A3. destruct A3 as (j & c & l & G & Hl). rewrite (g_labels _ _ _ _ _ G). cbn [labels in_jumps].
    rewrite find_label_skip.
    - cbn [find_label]. rewrite Nat.eqb_refl. reflexivity.
    - intros q Hi. apply Hl in Hi. contradiction. }
  clear A1 A2 st1.
  (* the jump *)
  assert (E' := E). rewrite Ei in E'. apply irs_app in E'. destruct E' as (st2 & s2 & A1 & A2). cbn [head_of] in A1.
  exists st2, s2. split; [exact A1|].
  apply irs_grows in A1. destruct A1 as (j1 & c1 & l1 & G1 & _).
  split; [apply G1, initial_bounded|].
  cbn [emit_irs] in A2. apply bind_inv in A2. destruct A2 as (st3 & s3 & A2 & A3).
  exists st3, s3. split; [exact A2|].
  intros sa sb at_ c b Qa G Qb.
  apply irs_grows in A3. destruct A3 as (j3 & c3 & l3 & G3 & _).
  pose proof (grows_trans _ _ _ _ _ _ _ _ _ G1 (grows_trans _ _ _ _ _ _ _ _ _ (quiet_grows _ _ Qa)
               (grows_trans _ _ _ _ _ _ _ _ _ G (grows_trans _ _ _ _ _ _ _ _ _ (quiet_grows _ _ Qb) G3)))) as GG.
  cbn [app] in GG.
  pose proof (g_layout _ _ _ _ _ GG [] initial_layout) as Lay. cbn [app] in Lay.
  pose proof (g_layout _ _ _ _ _ G1 [] initial_layout) as Lay1. cbn [app] in Lay1. apply layout_length in Lay1.
  pose proof (g_jumps _ _ _ _ _ G1) as J1. pose proof (g_jumps _ _ _ _ _ GG) as JJ. cbn [jumps initial app] in J1, JJ.
  destruct (patch_layout (labels sf) 0 (code sf) (jumps sf) _ Lay [] bytes eq_refl Ep) as (bytes' & Eb & P).
  cbn [app] in Eb. subst bytes'.
  destruct (patched_nth _ _ _ _ _ P [] (length j1) label at_ c b eq_refl) as (d & Hd & Ht & Hc).
  - rewrite JJ, nth_error_app2 by lia. rewrite Nat.sub_diag. reflexivity.
  - rewrite J1 in Lay1. rewrite nth_error_app2 by lia. replace (length j1 - length c1)%nat with 0%nat by lia. reflexivity.
  - exists d. rewrite Lf in Ht. auto.
Qed.
End Function.
