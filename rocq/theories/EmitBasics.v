(** Facts that hold of every step of the code generator: code is only appended, stack
    slots are only added, and only the jump functions record jumps and labels. *)
From Verif Require Import Base EncModel EmitModel.

Lemma bind_inv : forall A B (e : M A) (f : A -> M B) s r,
  bind e f s = Done r -> exists a s1, e s = Done (a, s1) /\ f a s1 = Done r.
Proof.
  intros A B e f s r H. unfold bind, obind in H. destruct (e s) as [[a s1]| |] eqn:E; try discriminate.
  exists a, s1. auto.
Qed.

Lemma assertion_inv : forall b s r, assertion b s = Done r -> b = true /\ r = (tt, s).
Proof. intros [|] s r H; [|discriminate]. split; [reflexivity|]. cbv in H. congruence. Qed.

Lemma get_inv : forall id s r, get id s = Done r -> exists l, nth_error (heap s) id = Some l /\ r = (l, s).
Proof. intros id s r H. unfold get in H. destruct (nth_error (heap s) id) eqn:E; [|discriminate]. exists l. split; congruence. Qed.

Lemma lift_inv : forall A (x : outcome A) s r, lift x s = Done r -> exists a, x = Done a /\ r = (a, s).
Proof. intros A x s r H. unfold lift, obind in H. destruct x; try discriminate. eexists. split; [reflexivity|congruence]. Qed.

(** The register map only names existing locations. *)
Definition bounded (s : emitter) : Prop := forall r id, rmap s r = Some id -> (id < length (heap s))%nat.

Record quiet_step (s s' : emitter) : Prop := {
  q_code : exists bs, code s' = code s ++ bs;
  q_tsa : tsa s <= tsa s';
  q_heap : (length (heap s) <= length (heap s'))%nat;
  q_jumps : jumps s' = jumps s;
  q_labels : labels s' = labels s;
  q_bounded : bounded s -> bounded s' }.

Definition quiet {A} (e : M A) : Prop := forall s a s', e s = Done (a, s') -> quiet_step s s'.

Lemma quiet_step_refl : forall s, quiet_step s s.
Proof. intro s. split; try reflexivity; try lia; auto. exists []. rewrite app_nil_r. reflexivity. Qed.

Lemma quiet_step_trans : forall a b c, quiet_step a b -> quiet_step b c -> quiet_step a c.
Proof.
  intros a b c [(x & E) T H J L B] [(y & E') T' H' J' L' B']. split.
  - exists (x ++ y). rewrite E', E, app_assoc. reflexivity.
  - lia.
  - lia.
  - congruence.
  - congruence.
  - auto.
Qed.

Lemma quiet_ret : forall A (a : A), quiet (ret a).
Proof. intros A a s x s' H. assert (s' = s) by (cbv in H; congruence). subst. apply quiet_step_refl. Qed.
Lemma quiet_crash : forall A, quiet (@crash A).
Proof. intros A s x s' H. discriminate. Qed.
Lemma quiet_bind : forall A B (e : M A) (f : A -> M B), quiet e -> (forall a, quiet (f a)) -> quiet (bind e f).
Proof.
  intros A B e f He Hf s x s' H. apply bind_inv in H. destruct H as (a & s1 & E1 & E2).
  eapply quiet_step_trans; [eapply He, E1|eapply Hf, E2].
Qed.
Lemma quiet_assertion : forall b, quiet (assertion b).
Proof. intros [|]; [apply quiet_ret|apply quiet_crash]. Qed.
Lemma quiet_get : forall id, quiet (get id).
Proof. intros id s a s' H. apply get_inv in H. destruct H as (l & _ & E). replace s' with s by congruence. apply quiet_step_refl. Qed.
Lemma length_replace : forall A (l : list A) n x, length (replace_nth n x l) = length l.
Proof. induction l as [|h t IH]; intros [|n] x; cbn; auto. Qed.

Ltac qdone := split; cbn [code tsa heap jumps labels in_heap in_map in_rolling in_tsa in_code in_jumps];
  try reflexivity; try lia; try (exists []; rewrite app_nil_r; reflexivity); try (intro; assumption).

Lemma quiet_set : forall id l, quiet (set id l).
Proof.
  intros id l s a s' H. unfold set in H. injection H as _ <-. qdone.
  - rewrite length_replace. lia.
  - intros B r i E. cbn [heap rmap in_heap] in *. rewrite length_replace. eapply B, E.
Qed.
Lemma quiet_new : forall l, quiet (new l).
Proof. intros l s a s' H. unfold new in H. injection H as _ <-. qdone.
  - rewrite app_length. lia.
  - intros B r i E. cbn [heap rmap in_heap] in *. rewrite app_length. pose proof (B _ _ E). lia.
Qed.
Lemma quiet_set_map : forall r, quiet (set_map r None).
Proof.
  intros r s a s' H. unfold set_map in H. injection H as _ <-. qdone.
  intros B q i E. cbn [heap rmap in_map] in *. destruct (q =? r); [discriminate|]. eapply B, E.
Qed.
Lemma quiet_out : forall bs, quiet (out bs).
Proof. intros bs s a s' H. unfold out in H. injection H as _ <-. qdone. exists bs. reflexivity. Qed.
Lemma quiet_lift : forall A (x : outcome A), quiet (lift x).
Proof. intros A x s a s' H. apply lift_inv in H. destruct H as (b & _ & E). replace s' with s by congruence. apply quiet_step_refl. Qed.
Lemma quiet_modify : forall id f, quiet (modify id f).
Proof. intros. apply quiet_bind; [apply quiet_get|intro; apply quiet_set]. Qed.

Ltac quiet_core :=
  lazymatch goal with
  | |- quiet (bind _ _) => apply quiet_bind; [|intro]
  | |- quiet (ret _) => apply quiet_ret
  | |- quiet crash => apply quiet_crash
  | |- quiet (assertion _) => apply quiet_assertion
  | |- quiet (get _) => apply quiet_get
  | |- quiet (set _ _) => apply quiet_set
  | |- quiet (new _) => apply quiet_new
  | |- quiet (set_map _ None) => apply quiet_set_map
  | |- quiet (out _) => apply quiet_out
  | |- quiet (lift _) => apply quiet_lift
  | |- quiet (modify _ _) => apply quiet_modify
  | |- quiet (match ?x with _ => _ end) => destruct x
  end.
Create HintDb quiet.
Ltac quiet_auto := repeat first [solve [auto with quiet] | quiet_core].

Lemma quiet_loaded : forall r n, quiet (emit_location_loaded r n).
Proof.
  intros r n s a s' H. unfold emit_location_loaded in H. destruct (rmap s r); [discriminate|].
  unfold bind, new, set_map, ret, obind in H.
  match type of H with Done (_, ?x) = _ => assert (s' = x) by congruence end. subst s'. qdone.
  - rewrite app_length. lia.
  - intros B q i E. cbn [heap rmap in_map in_heap] in *. rewrite app_length. cbn [length].
    destruct (q =? r); [injection E as <-; lia|]. pose proof (B _ _ E). lia.
Qed.
#[export] Hint Resolve quiet_loaded : quiet.

Lemma quiet_conditional : forall c, quiet (emit_location_conditional c).
Proof. intro. apply quiet_new. Qed.
Lemma quiet_relative : forall b i o n, quiet (emit_location_register_relative b i o n).
Proof. intros. apply quiet_new. Qed.
Lemma quiet_stack_relative : forall o n, quiet (emit_location_stack_relative o n).
Proof. intros. apply quiet_new. Qed.
Lemma quiet_immediate : forall v n, quiet (emit_location_immediate v n).
Proof. intros. apply quiet_new. Qed.
#[export] Hint Resolve quiet_conditional quiet_relative quiet_stack_relative quiet_immediate : quiet.

Lemma align_up_ge : forall x a, 0 < a -> x <= align_up x a < x + a /\ align_up x a mod a = 0.
Proof.
  intros x a Ha. unfold align_up.
  pose proof (Z.div_mod (x + (a - 1)) a ltac:(lia)). pose proof (Z.mod_pos_bound (x + (a - 1)) a Ha).
  split; [nia|]. apply Z.mod_mul. lia.
Qed.

Section Function.
Variable stack_space : Z.

Lemma quiet_allocate_temporary : forall n, 0 < n -> quiet (allocate_temporary stack_space n n).
Proof.
  intros n Hn s a s' H. unfold allocate_temporary in H. injection H as _ <-. qdone.
  pose proof (align_up_ge (tsa s) n Hn). lia.
Qed.

Lemma quiet_spill : forall r, quiet (spill_register stack_space r).
Proof.
  intros r s a s' H. unfold spill_register in H. destruct (rmap s r) as [id|]; [|discriminate].
  apply bind_inv in H. destruct H as (l & s1 & E1 & H). apply quiet_get in E1. eapply quiet_step_trans; [exact E1|]. clear E1.
  apply bind_inv in H. destruct H as (u & s2 & E2 & H). apply quiet_assertion in E2. eapply quiet_step_trans; [exact E2|]. clear E2.
  apply bind_inv in H. destruct H as (u2 & s3 & E3 & H). apply assertion_inv in E3. destruct E3 as (Hs & E3).
  replace s3 with s2 in * by congruence. clear E3. revert H. eapply quiet_bind.
  - apply quiet_allocate_temporary. unfold is_size in Hs. repeat rewrite orb_true_iff in Hs. lia.
  - intro. quiet_auto.
Qed.
Hint Resolve quiet_spill : quiet.

Lemma quiet_specific : forall r, quiet (allocate_specific_register stack_space r).
Proof.
  intros r s a s' H. unfold allocate_specific_register in H. destruct (rmap s r).
  - revert H. change (quiet (spill_register stack_space r ;;; ret r)) with
      (forall s a s', (spill_register stack_space r ;;; ret r) s = Done (a, s') -> quiet_step s s').
    apply (quiet_bind _ _ _ _ (quiet_spill r)). intro. apply quiet_ret.
  - replace s' with s by congruence. apply quiet_step_refl.
Qed.
Hint Resolve quiet_specific : quiet.

Lemma quiet_rolling : forall n s, quiet_step s (in_rolling n s).
Proof. intros. qdone. Qed.

Lemma quiet_allocate : quiet (allocate_register stack_space).
Proof.
  intros s a s' H. unfold allocate_register in H. cbv zeta in H.
  eapply quiet_step_trans; [apply quiet_rolling|].
  destruct (first_reg _ _); [injection H as _ <-; apply quiet_step_refl|].
  destruct (first_reg _ _); [|discriminate].
  revert H. apply (quiet_bind _ _ _ _ (quiet_spill _)). intro. apply quiet_ret.
Qed.
Hint Resolve quiet_allocate : quiet.

Lemma quiet_spill_all : forall rs, quiet (spill_all stack_space rs).
Proof.
  induction rs as [|r rs IH]; intros s a s' H.
  - cbn in H. replace s' with s by congruence. apply quiet_step_refl.
  - cbn [spill_all] in H. destruct (rmap s r); [|eapply IH, H].
    revert H. apply (quiet_bind _ _ _ _ (quiet_spill r)). intro. exact IH.
Qed.
Hint Resolve quiet_spill_all : quiet.

Lemma quiet_free_loc : forall fuel id, quiet (free_loc fuel id).
Proof.
  induction fuel as [|fuel IH]; intro id; cbn [free_loc]; [apply quiet_crash|].
  quiet_auto.
Qed.
Lemma quiet_free : forall id, quiet (free_emit_location id).
Proof. intros id s a s' H. eapply quiet_free_loc. exact H. Qed.
Hint Resolve quiet_free : quiet.
Lemma quiet_prevent_freeing : forall id, quiet (prevent_freeing id).
Proof. intro. apply quiet_modify. Qed.
Lemma quiet_allow_freeing : forall id, quiet (allow_freeing id).
Proof. intro. unfold allow_freeing. quiet_auto. Qed.
Lemma quiet_unlock : forall id, quiet (unlock id).
Proof. intro. unfold unlock. quiet_auto. Qed.
Hint Resolve quiet_prevent_freeing quiet_allow_freeing quiet_unlock : quiet.
Lemma quiet_allow_spilling : forall id, quiet (allow_spilling id).
Proof. intro. unfold allow_spilling. quiet_auto. Qed.
Lemma quiet_loaded_register : forall id, quiet (loaded_register id).
Proof. intro. unfold loaded_register. quiet_auto. Qed.
Hint Resolve quiet_allow_spilling quiet_loaded_register : quiet.
Lemma quiet_prevent_spilling_with : forall load, (forall id, quiet (load id)) -> forall id, quiet (prevent_spilling_with load id).
Proof. intros load H id. unfold prevent_spilling_with. quiet_auto. Qed.
Lemma quiet_emit_op : forall p op a b n, quiet (emit_op p op a b n).
Proof. intros. unfold emit_op. quiet_auto. Qed.
Hint Resolve quiet_emit_op : quiet.
Lemma quiet_ext_op : forall p op a b, quiet (emit_reg_extended_op p op a b).
Proof. intros. unfold emit_reg_extended_op. quiet_auto. Qed.
Lemma quiet_register_register : forall p op a b, quiet (emit_register_register p op a b).
Proof. intros. unfold emit_register_register. quiet_auto. Qed.
Hint Resolve quiet_ext_op quiet_register_register quiet_prevent_spilling_with : quiet.
Lemma quiet_register_relative_with : forall load, (forall id, quiet (load id)) ->
  forall p op r id im, quiet (register_relative_with load p op r id im).
Proof. intros load H p op r id im. unfold register_relative_with. quiet_auto. Qed.
Hint Resolve quiet_register_relative_with : quiet.
Lemma quiet_load_into : forall load, (forall id, quiet (load id)) ->
  forall id r, quiet (load_into_specific_with stack_space load id r).
Proof. intros load H id r. unfold load_into_specific_with. quiet_auto. Qed.
Hint Resolve quiet_load_into : quiet.
Lemma quiet_load_fuel : forall fuel id, quiet (load_gpr stack_space fuel id).
Proof.
  induction fuel as [|fuel IH]; intro id; cbn [load_gpr]; [apply quiet_crash|]. quiet_auto.
Qed.
Lemma quiet_load : forall id, quiet (emit_load_gpr stack_space id).
Proof. intros id s a s' H. eapply quiet_load_fuel. exact H. Qed.
Hint Resolve quiet_load : quiet.
Lemma quiet_load_specific : forall id r, quiet (emit_load_into_specific_gpr stack_space id r).
Proof. intros. unfold emit_load_into_specific_gpr. auto with quiet. Qed.
Lemma quiet_prevent_spilling : forall id, quiet (prevent_spilling stack_space id).
Proof. intros. unfold prevent_spilling. auto with quiet. Qed.
Lemma quiet_rr : forall p op r id, quiet (emit_register_relative_register stack_space p op r id).
Proof. intros. unfold emit_register_relative_register. auto with quiet. Qed.
Lemma quiet_ri : forall p op r id n v, quiet (emit_register_relative_immediate stack_space p op r id n v).
Proof. intros. unfold emit_register_relative_immediate. auto with quiet. Qed.
Hint Resolve quiet_load_specific quiet_prevent_spilling quiet_rr quiet_ri : quiet.
Lemma quiet_load_address : forall id r, quiet (emit_load_address stack_space id r).
Proof. intros. unfold emit_load_address. quiet_auto. Qed.
Lemma quiet_store : forall d s, quiet (emit_store stack_space d s).
Proof. intros. unfold emit_store. quiet_auto. Qed.
Lemma quiet_binary_op : forall p a b n sg e c8 c, quiet (emit_binary_op stack_space p a b n sg e c8 c).
Proof. intros. unfold emit_binary_op. quiet_auto. Qed.
Lemma quiet_dmm : forall a b n e1 e2 sg md, quiet (emit_dmm stack_space a b n e1 e2 sg md).
Proof. intros. unfold emit_dmm. quiet_auto. Qed.
Lemma quiet_shift : forall a b e, quiet (emit_shift stack_space a b e).
Proof. intros. unfold emit_shift. quiet_auto. Qed.
Lemma quiet_compare_to_zero : forall id, quiet (emit_compare_to_zero id).
Proof. intros. unfold emit_compare_to_zero. quiet_auto. Qed.
Lemma quiet_integer_cast : forall id n op, quiet (emit_integer_cast stack_space id n op).
Proof. intros. unfold emit_integer_cast. quiet_auto. Qed.
Lemma quiet_load_bitfield : forall id b w sg, quiet (emit_load_bitfield stack_space id b w sg).
Proof. intros. unfold emit_load_bitfield. quiet_auto. Qed.
Hint Resolve quiet_load_address quiet_store quiet_binary_op quiet_dmm quiet_shift quiet_compare_to_zero
  quiet_integer_cast quiet_load_bitfield : quiet.
Lemma quiet_store_bitfield : forall b w l r, quiet (emit_store_bitfield stack_space b w l r).
Proof. intros. unfold emit_store_bitfield. quiet_auto. Qed.
Lemma quiet_pointer_subscript : forall n p i, quiet (emit_pointer_subscript stack_space n p i).
Proof. intros. unfold emit_pointer_subscript. quiet_auto. Qed.
Hint Resolve quiet_store_bitfield quiet_pointer_subscript : quiet.
Lemma quiet_on_operand : forall b f st, (forall id, quiet (f id)) -> quiet (on_operand b f st).
Proof. intros b f st H. unfold on_operand. quiet_auto. Qed.
Lemma quiet_binary : forall f st, (forall a b, quiet (f a b)) -> quiet (binary f st).
Proof. intros f st H. unfold binary. quiet_auto. Qed.

(** Every IR instruction but the jumps and labels. *)
Definition is_jump (i : ir) : bool :=
  match i with IR_jump_label _ | IR_jump _ | IR_jump_if _ _ => true | _ => false end.
Lemma quiet_ir : forall i next st, is_jump i = false -> quiet (emit_ir stack_space i next st).
Proof.
  intros i next st H. destruct i; try discriminate; cbn [emit_ir];
    first [ apply quiet_on_operand; intro | apply quiet_binary; intros | idtac ]; quiet_auto.
Qed.
End Function.
#[export] Hint Resolve quiet_spill quiet_specific quiet_allocate quiet_spill_all quiet_free quiet_prevent_freeing
  quiet_allow_freeing quiet_unlock quiet_allow_spilling quiet_loaded_register quiet_emit_op quiet_ext_op
  quiet_register_register quiet_prevent_spilling_with quiet_register_relative_with quiet_load_into quiet_load
  quiet_load_specific quiet_prevent_spilling quiet_rr quiet_ri quiet_load_address quiet_store quiet_binary_op
  quiet_dmm quiet_shift quiet_compare_to_zero quiet_integer_cast quiet_load_bitfield quiet_store_bitfield
  quiet_pointer_subscript : quiet.
