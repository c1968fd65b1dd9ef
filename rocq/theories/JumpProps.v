(** C15: conditional jumps go where they should. *)
From Verif Require Import Base X64Decode X64Machine EncModel EncSpec EncProofs EmitModel StepProofs ExecProofs
  EmitBasics JumpSpec JumpProofs.

Lemma last_split : forall (x : ir) a b a' b', a ++ x :: b = a' ++ x :: b' -> ~ In x b -> ~ In x b' -> a = a' /\ b = b'.
Proof.
  intros x a. induction a as [|h a IH]; intros b a' b' E Hb Hb'.
  - destruct a' as [|h' a']; cbn [app] in E; [split; congruence|].
    injection E as <- E. exfalso. apply Hb. rewrite E. apply in_or_app. right. left. reflexivity.
  - destruct a' as [|h' a']; cbn [app] in E.
    + injection E as -> E. exfalso. apply Hb'. rewrite <- E. apply in_or_app. right. left. reflexivity.
    + injection E as <- E. destruct (IH _ _ _ E Hb Hb') as (-> & ->). split; reflexivity.
Qed.

Lemma irs_snoc : forall ss a i after st s st1 s1 st2 s2,
  emit_irs ss a (Some i) st s = Done (st1, s1) -> emit_ir ss i after st1 s1 = Done (st2, s2) ->
  emit_irs ss (a ++ [i]) after st s = Done (st2, s2).
Proof.
  intros ss a. induction a as [|h a IH]; intros i after st s st1 s1 st2 s2 H1 H2.
  - cbn [emit_irs] in H1. assert (st1 = st /\ s1 = s) as (-> & ->) by (unfold ret in H1; split; congruence).
    cbn [app emit_irs]. unfold bind, obind. rewrite H2. reflexivity.
  - cbn [emit_irs] in H1. apply bind_inv in H1. destruct H1 as (x & y & E1 & E2).
    cbn [app emit_irs]. unfold bind, obind.
    replace (match a ++ [i] with n :: _ => Some n | [] => after end) with (match a with n :: _ => Some n | [] => Some i end)
      by (destruct a; reflexivity).
    rewrite E1. eapply IH; eassumption.
Qed.

(** The conditional jump chosen for a comparison is taken exactly when the comparison has
    the requested outcome, for every operand width and all operands; the byte set from a
    condition is 1 exactly when it holds; and the condition after a logical not is the
    opposite one. *)
Theorem C15_conditions_exact : forall c n a b f, compared n a b f ->
  (c <> COMP_none -> forall on_true, condition (jump_opcode c on_true - 0x80) f = Some (Bool.eqb (holds c n a b) on_true)) /\
  (forall o, set_opcode c = Done o -> condition (o - 0x90) f = Some (holds c n a b)) /\
  (forall c', negate_condition c = Done c' -> holds c' n a b = negb (holds c n a b)).
Proof.
  intros c n a b f H. split; [|split].
  - intros Hc on_true. apply jump_condition; assumption.
  - intros o Ho. eapply set_condition; eassumption.
  - intros c' Hc'. apply negate_holds. exact Hc'.
Qed.
Print Assumptions C15_conditions_exact.

(** -1 < 1 as signed bytes, but not as unsigned ones. *)
Example C15_conditions_exact_case : exists f, compared 8 255 1 f /\
  condition (jump_opcode COMP_smaller_signed false - 0x80) f = Some false /\
  condition (jump_opcode COMP_smaller false - 0x80) f = Some true.
Proof. eexists. split; [repeat split; try lia; reflexivity|]. split; reflexivity. Qed.

(** A [goto]: the jump is the code of its IR instruction, and from every state it goes to
    where its label was placed (last). *)
Theorem C15_jump_lands : forall ss is bytes t pre label post pre' post',
  emit_function ss is = Done (bytes, t) ->
  is = pre ++ IR_jump label :: post ->
  is = pre' ++ IR_jump_label label :: post' -> ~ In (IR_jump_label label) post' ->
  exists p q, emitted_length ss pre (Some (IR_jump label)) p /\
    emitted_length ss pre' (Some (IR_jump_label label)) q /\
    forall m, pc m = p -> step bytes m = Some (goto m q).
Proof.
  intros ss is bytes t pre label post pre' post' H Ei Ei' Hn.
  destruct (jump_final ss is bytes t pre (IR_jump label) post label H Ei)
    as [(pre2 & post2 & E2 & N2 & q & Hq & st & s & A & B & st' & s' & E & K)|Hni].
  2: { exfalso. apply Hni. rewrite Ei'. apply in_or_app. right. left. reflexivity. }
  destruct (last_split (IR_jump_label label) pre2 post2 pre' post') as (-> & ->); [congruence|assumption|assumption|].
  exists (Z.of_nat (length (code s))), q. split; [exists st, s; auto|]. split; [exact Hq|].
  cbn [emit_ir] in E. apply bind_inv in E. destruct E as (u & s1 & E & E1).
  assert (s1 = s') by (unfold ret in E1; congruence). subst s1.
  pose proof (jump_grows _ _ _ _ _ _ E) as G.
  destruct (K s s' _ _ _ (quiet_step_refl s) G (quiet_step_refl s')) as (d & Hd & Ht & Hc).
  intros m Hm.
  replace (Z.of_nat (length (code s)) + Z.of_nat (length (jump_bytes COMP_none true)) - Z.of_nat (length (jump_bytes COMP_none true)))
    with (pc m) in Hc by lia.
  pose proof (jump_step bytes COMP_none true d m ltac:(lia) Hc Hd) as S. cbv zeta in S. rewrite S.
  do 2 f_equal. lia.
Qed.
Print Assumptions C15_jump_lands.

(** A conditional jump: with the flags of any comparison it goes to its label if the
    comparison has the outcome it waits for, and otherwise continues with the code of the
    next IR instruction. *)
Theorem C15_branch_lands : forall ss is bytes t pre on_true label post pre' post',
  emit_function ss is = Done (bytes, t) ->
  is = pre ++ IR_jump_if on_true label :: post ->
  is = pre' ++ IR_jump_label label :: post' -> ~ In (IR_jump_label label) post' ->
  exists c p r q,
    emitted_length ss (pre ++ [IR_jump_if on_true label]) (head_of post None) r /\
    emitted_length ss pre' (Some (IR_jump_label label)) q /\
    (c <> COMP_none -> p + 6 = r /\
     forall m n a b f, pc m = p -> fl m = Some f -> compared n a b f ->
       step bytes m = Some (goto m (if Bool.eqb (holds c n a b) on_true then q else r))).
Proof.
  intros ss is bytes t pre on_true label post pre' post' H Ei Ei' Hn.
  destruct (jump_final ss is bytes t pre (IR_jump_if on_true label) post label H Ei)
    as [(pre2 & post2 & E2 & N2 & q & Hq & st & s & A & B & st' & s' & E & K)|Hni].
  2: { exfalso. apply Hni. rewrite Ei'. apply in_or_app. right. left. reflexivity. }
  destruct (last_split (IR_jump_label label) pre2 post2 pre' post') as (-> & ->); [congruence|assumption|assumption|].
  assert (R : emitted_length ss (pre ++ [IR_jump_if on_true label]) (head_of post None) (Z.of_nat (length (code s'))))
    by (exists st', s'; split; [eapply irs_snoc; eassumption|reflexivity]).
  apply jump_if_done in E. destruct E as (c & s1 & s2 & Q1 & G & Q2 & L & _).
  destruct (K s1 s2 _ c on_true Q1 G Q2) as (d & Hd & Ht & Hc).
  exists c, (Z.of_nat (length (code s1))), (Z.of_nat (length (code s'))), q.
  split; [exact R|]. split; [exact Hq|]. intro Hcn.
  assert (Lj : length (jump_bytes c on_true) = 2%nat) by (destruct c; [congruence| | | | | | | | | | | | ]; reflexivity).
  rewrite Lj in L, Hc, Ht. split; [lia|].
  intros m n a b f Hm Hf Hcmp.
  replace (Z.of_nat (length (code s1)) + Z.of_nat 2 - Z.of_nat 2) with (pc m) in Hc by lia.
  pose proof (jump_step bytes c on_true d m ltac:(lia) Hc Hd) as S. cbv zeta in S.
  pose proof (jump_condition c n a b f on_true Hcn Hcmp) as J.
  assert (S' : step bytes m = Some (goto m (if Bool.eqb (holds c n a b) on_true then
                pc m + Z.of_nat (length (jump_bytes c on_true)) + 4 + d else pc m + Z.of_nat (length (jump_bytes c on_true)) + 4))).
  { destruct c; [congruence| | | | | | | | | | | | ]; apply (S f); assumption. }
  rewrite S', Lj. do 2 f_equal. destruct (Bool.eqb (holds c n a b) on_true); lia.
Qed.
Print Assumptions C15_branch_lands.

(** A comparison directly followed by a conditional jump ([if(a < b)], [while(a != b)],
    ...): the jump tests that very comparison. *)
Theorem C15_compare_and_branch : forall ss is bytes t pre c size on_true label post pre' post',
  emit_function ss is = Done (bytes, t) -> c <> COMP_none ->
  is = pre ++ IR_compare c size :: IR_jump_if on_true label :: post ->
  is = pre' ++ IR_jump_label label :: post' -> ~ In (IR_jump_label label) post' ->
  exists p r q,
    emitted_length ss (pre ++ [IR_compare c size; IR_jump_if on_true label]) (head_of post None) r /\ p + 6 = r /\
    emitted_length ss pre' (Some (IR_jump_label label)) q /\
    forall m n a b f, pc m = p -> fl m = Some f -> compared n a b f ->
      step bytes m = Some (goto m (if Bool.eqb (holds c n a b) on_true then q else r)).
Proof.
  intros ss is bytes t pre c size on_true label post pre' post' H Hcn Ei Ei' Hn.
  assert (Ei2 : is = (pre ++ [IR_compare c size]) ++ IR_jump_if on_true label :: post)
    by (rewrite <- app_assoc; exact Ei).
  destruct (jump_final ss is bytes t (pre ++ [IR_compare c size]) (IR_jump_if on_true label) post label H Ei2)
    as [(pre2 & post2 & E2 & N2 & q & Hq & st & s & A & B & st' & s' & E & K)|Hni].
  2: { exfalso. apply Hni. rewrite Ei'. apply in_or_app. right. left. reflexivity. }
  destruct (last_split (IR_jump_label label) pre2 post2 pre' post') as (-> & ->); [congruence|assumption|assumption|].
  assert (R : emitted_length ss (pre ++ [IR_compare c size; IR_jump_if on_true label]) (head_of post None)
                (Z.of_nat (length (code s')))).
  { exists st', s'. split; [|reflexivity].
    replace (pre ++ [IR_compare c size; IR_jump_if on_true label]) with ((pre ++ [IR_compare c size]) ++ [IR_jump_if on_true label])
      by (rewrite <- app_assoc; reflexivity).
    eapply irs_snoc; eassumption. }
  (* the operand of the jump is the comparison *)
  assert (Top : exists id rest l, st = id :: rest /\ nth_error (heap s) id = Some l /\ l_state l = Conditional c /\
                  (forall r, rmap s r <> Some id)).
  { apply irs_app in A. destruct A as (st0 & s0 & A0 & A1). cbn [head_of] in A0.
    apply irs_grows in A0. destruct A0 as (j0 & c0 & l0 & G0 & _).
    pose proof (g_bounded _ _ _ _ _ G0 initial_bounded) as B0.
    cbn [emit_irs emit_ir] in A1. apply bind_inv in A1. destruct A1 as (st1 & s1 & A1 & A2).
    assert (st1 = st /\ s1 = s) as (-> & ->) by (unfold ret in A2; split; congruence). clear A2.
    unfold binary in A1. destruct st0 as [|rhs [|lhs rest]]; try discriminate.
    apply bind_inv in A1. destruct A1 as (id & s2 & A1 & A2).
    assert (st = id :: rest /\ s2 = s) as (-> & ->) by (unfold ret in A2; split; congruence). clear A2.
    apply bind_inv in A1. destruct A1 as (res & s3 & A1 & A2).
    apply bind_inv in A2. destruct A2 as (u & s4 & A2 & A3).
    apply bind_inv in A3. destruct A3 as (cond & s5 & A3 & A4). cbn [keeps_condition] in A4.
    assert (cond = id /\ s5 = s) as (-> & ->) by (unfold ret in A4; split; congruence). clear A4.
    unfold emit_location_conditional, new in A3.
    assert (id = length (heap s4)) by congruence.
    match type of A3 with Done (_, ?q) = _ => assert (s = q) by congruence end. subst id s.
    cbn [heap rmap in_heap]. exists (length (heap s4)), rest, (mkloc (Conditional c) 4 0 0).
    split; [reflexivity|]. split; [|split; [reflexivity|]].
    - rewrite nth_error_app2, Nat.sub_diag by lia. reflexivity.
    - intros r Er. pose proof (q_bounded _ _ (quiet_binary_op ss _ _ _ _ _ _ _ _ _ _ _ A1) B0) as B3.
      pose proof (q_bounded _ _ (quiet_free _ _ _ _ A2) B3 r _ Er). lia. }
  destruct Top as (id & rest & l & T1 & T2 & T3 & T4).
  apply jump_if_done in E. destruct E as (c1 & s1 & s2 & Q1 & G & Q2 & L & Cc).
  assert (c1 = c) by (eapply Cc; eassumption). subst c1.
  destruct (K s1 s2 _ c on_true Q1 G Q2) as (d & Hd & Ht & Hc).
  exists (Z.of_nat (length (code s1))), (Z.of_nat (length (code s'))), q.
  assert (Lj : length (jump_bytes c on_true) = 2%nat) by (destruct c; [congruence| | | | | | | | | | | | ]; reflexivity).
  rewrite Lj in L, Hc, Ht.
  split; [exact R|]. split; [lia|]. split; [exact Hq|].
  intros m n a b f Hm Hf Hcmp.
  replace (Z.of_nat (length (code s1)) + Z.of_nat 2 - Z.of_nat 2) with (pc m) in Hc by lia.
  pose proof (jump_step bytes c on_true d m ltac:(lia) Hc Hd) as S. cbv zeta in S.
  pose proof (jump_condition c n a b f on_true Hcn Hcmp) as J.
  assert (S' : step bytes m = Some (goto m (if Bool.eqb (holds c n a b) on_true then
                pc m + Z.of_nat (length (jump_bytes c on_true)) + 4 + d else pc m + Z.of_nat (length (jump_bytes c on_true)) + 4))).
  { destruct c; [congruence| | | | | | | | | | | | ]; apply (S f); assumption. }
  rewrite S', Lj. do 2 f_equal. destruct (Bool.eqb (holds c n a b) on_true); lia.
Qed.
Print Assumptions C15_compare_and_branch.

(** [while(i < n) i = i + 1;] with two [int] locals. *)
Definition loop_example : list ir :=
  [IR_jump_label 0%nat;
   IR_local 4 4; IR_local 8 4; IR_compare COMP_smaller_signed 4; IR_jump_if false 1%nat;
   IR_local 4 4; IR_local 4 4; IR_integer_literal 1 4; IR_add; IR_store; IR_pop_expression;
   IR_jump 0%nat;
   IR_jump_label 1%nat].
Example C15_jumps_case : exists bytes t, emit_function 8 loop_example = Done (bytes, t) /\
  (exists pre post pre' post', loop_example = pre ++ IR_jump 0%nat :: post /\
     loop_example = pre' ++ IR_jump_label 0%nat :: post' /\ ~ In (IR_jump_label 0%nat) post') /\
  (exists pre post pre' post', loop_example = pre ++ IR_compare COMP_smaller_signed 4 :: IR_jump_if false 1%nat :: post /\
     loop_example = pre' ++ IR_jump_label 1%nat :: post' /\ ~ In (IR_jump_label 1%nat) post').
Proof.
  do 2 eexists. split; [vm_compute; reflexivity|]. split.
  - exists (firstn 11 loop_example), [IR_jump_label 1%nat], [], (skipn 1 loop_example).
    split; [reflexivity|]. split; [reflexivity|]. cbn. intuition congruence.
  - exists (firstn 3 loop_example), (skipn 5 loop_example), (firstn 12 loop_example), [].
    split; [reflexivity|]. split; [reflexivity|]. auto.
Qed.
