(** C07: `#if` conditions have the value C gives them. *)
From Verif Require Import Base IfModel IfSpec IfProofs IfSound.

(** A condition of C's grammar whose parts are all defined gets its value in C: the condition is not
    rejected, and the group is kept exactly if the value is not 0.  Missing from the full property: the
    irregular places (see the refutations), operands that C does not evaluate, more than 1023 waiting
    operators, `__has_include`. *)
Theorem C07_value_partial : forall is_macro ts e v,
  reads 13 ts e -> regular e -> all_defined is_macro e -> value is_macro e = Some v -> pending e <= 1023 ->
  exists w, evaluate is_macro ts = Done w /\ w = v mod 2 ^ 64 /\ (w = 0 <-> v = 0).
Proof.
  intros m ts e v R G D V P. exists (wrapu 64 v). split; [exact (evaluate_value m ts e v R G D V P)|]. split; [reflexivity|].
  pose proof (wrap_zero _ v (value_in m e v (reads_literals _ _ _ R) V)) as W.
  destruct (Z.eqb_spec (wrapu 64 v) 0), (Z.eqb_spec v 0); try discriminate; tauto.
Qed.
Print Assumptions C07_value_partial.

(** A condition that is accepted begins with an expression of C's grammar; what follows it is no operator. *)
Theorem C07_wellformed_partial : forall is_macro ts w, Forall representable ts -> evaluate is_macro ts = Done w ->
  exists us rest e, ts = us ++ rest /\ reads 13 us e /\ forall b, hd_error rest <> Some (Operator b) /\ hd_error rest <> Some Question.
Proof.
  intros m ts w W H. destruct (evaluate_sound m ts w W H) as (us & rest & e & E & R & T). exists us, rest, e. split; [exact E|]. split; [exact R|].
  intros b. split; intro Q; rewrite Q in T; cbn in T; [pose proof (level_range b)|]; lia.
Qed.
Print Assumptions C07_wellformed_partial.

(** Whatever the tokens: the evaluation ends, and the internal assertions hold.  Only a shift, a division
    or a remainder can go wrong. *)
Theorem C07_no_fault_partial : forall is_macro ts, Forall representable ts ->
  (forall b, In (Operator b) ts -> b <> Shl /\ b <> Shr /\ b <> Div /\ b <> Mod) -> evaluate is_macro ts <> Crash.
Proof. intros m ts W N H. destruct (evaluate_trap m ts W H) as (b & T & I). destruct (N b I) as (A & B & C & D). destruct T as [T|[T|[T|T]]]; contradiction. Qed.
Print Assumptions C07_no_fault_partial.

(** `! defined(A) || 1 + 2 * -3 << 1 > 0u - 1 ? 5 : A ? 1 : 2 % 2 - 1 - 1` *)
Definition case : list token :=
  [Bang; Defined; LParen; Identifier 0; RParen; Operator LOr; Number false 1; Operator Plus; Number false 2; Operator Times; Operator Minus; Number false 3; Operator Plus; Number false 9; Operator Shl; Number false 1; Operator Gt; Number true 0;
   Operator Minus; Number false 1; Question; Number false 5; Colon; Identifier 0; Question; Number false 1; Colon; Number false 2; Operator Mod; Number false 2; Operator Minus; Number false 1; Operator Minus; Number false 1].
Definition case_expr : expr :=
  Cond (Bin LOr (Un Not (IsDefined 0)) (Bin Gt (Bin Shl (Bin Plus (Bin Plus (Literal false 1) (Bin Times (Literal false 2) (Un Neg (Literal false 3)))) (Literal false 9)) (Literal false 1)) (Bin Minus (Literal true 0) (Literal false 1))))
       (Literal false 5)
       (Cond (Name 0) (Literal false 1) (Bin Minus (Bin Minus (Bin Mod (Literal false 2) (Literal false 2)) (Literal false 1)) (Literal false 1))).
Ltac up l := cbn [c_level]; apply (r_up l); [|lia].
Ltac lit := first [apply r_literal; lia|apply r_name].
Example C07_case : reads 13 case case_expr /\ regular case_expr /\ all_defined (fun _ => true) case_expr /\ value (fun _ => true) case_expr = Some (-2) /\ pending case_expr <= 1023 /\ evaluate (fun _ => true) case = Done (2 ^ 64 - 2)
  /\ all_defined (fun _ => false) case_expr /\ evaluate (fun _ => false) case = Done 5.
Proof.
  split; [|vm_compute; repeat split; congruence].
  apply (r_conditional [Bang; Defined; LParen; Identifier 0; RParen; Operator LOr; Number false 1; Operator Plus; Number false 2; Operator Times; Operator Minus; Number false 3; Operator Plus; Number false 9; Operator Shl; Number false 1; Operator Gt; Number true 0; Operator Minus; Number false 1]
    [Number false 5] [Identifier 0; Question; Number false 1; Colon; Number false 2; Operator Mod; Number false 2; Operator Minus; Number false 1; Operator Minus; Number false 1]).
  - apply (r_binary LOr [Bang; Defined; LParen; Identifier 0; RParen] [Number false 1; Operator Plus; Number false 2; Operator Times; Operator Minus; Number false 3; Operator Plus; Number false 9; Operator Shl; Number false 1; Operator Gt; Number true 0; Operator Minus; Number false 1]); cbn [c_level Z.sub Z.add Z.opp Z.pos_sub Pos.pred_double].
    + up 2. apply (r_unary Not). apply r_defined_parens.
    + up 6. apply (r_binary Gt [Number false 1; Operator Plus; Number false 2; Operator Times; Operator Minus; Number false 3; Operator Plus; Number false 9; Operator Shl; Number false 1] [Number true 0; Operator Minus; Number false 1]).
      * up 5. apply (r_binary Shl [Number false 1; Operator Plus; Number false 2; Operator Times; Operator Minus; Number false 3; Operator Plus; Number false 9] [Number false 1]).
        -- up 4. apply (r_binary Plus [Number false 1; Operator Plus; Number false 2; Operator Times; Operator Minus; Number false 3] [Number false 9]); cbn.
           ++ apply (r_binary Plus [Number false 1] [Number false 2; Operator Times; Operator Minus; Number false 3]); cbn; [up 2; lit|].
              apply (r_binary Times [Number false 2] [Operator Minus; Number false 3]); cbn; [up 2; lit|]. apply (r_unary Neg). lit.
           ++ up 2; lit.
        -- cbn. up 2. lit.
      * cbn. up 4. apply (r_binary Minus [Number true 0] [Number false 1]); cbn; up 2; lit.
  - up 2. lit.
  - apply (r_conditional [Identifier 0] [Number false 1] [Number false 2; Operator Mod; Number false 2; Operator Minus; Number false 1; Operator Minus; Number false 1]); [up 2; lit|up 2; lit|].
    up 4. apply (r_binary Minus [Number false 2; Operator Mod; Number false 2; Operator Minus; Number false 1] [Number false 1]); cbn; [|up 2; lit].
    apply (r_binary Minus [Number false 2; Operator Mod; Number false 2] [Number false 1]); cbn; [|up 2; lit].
    up 3. apply (r_binary Mod [Number false 2] [Number false 2]); cbn; [up 2; lit|lit].
Qed.

(** The full property: a condition with a value in C is kept exactly if that value is not 0. *)
Definition C07_full : Prop := forall is_macro ts e v, reads 13 ts e -> value is_macro e = Some v -> exists w, evaluate is_macro ts = Done w /\ (w = 0 <-> v = 0).

(** It does not hold.  `0 && 1 / 0` is an error. *)
Theorem C07_unevaluated_refuted : exists ts e, reads 13 ts e /\ value (fun _ => false) e = Some 0 /\ evaluate (fun _ => false) ts = Reported.
Proof.
  exists [Number false 0; Operator LAnd; Number false 1; Operator Div; Number false 0], (Bin LAnd (Literal false 0) (Bin Div (Literal false 1) (Literal false 0))).
  split; [|split; vm_compute; reflexivity]. up 11. apply (r_binary LAnd [Number false 0] [Number false 1; Operator Div; Number false 0]); cbn; [up 2; lit|].
  up 3. apply (r_binary Div [Number false 1] [Number false 0]); cbn; [up 2; lit|lit].
Qed.
Print Assumptions C07_unevaluated_refuted.

(** `-1 < 9223372036854775807` is false: the largest signed number is taken to be unsigned. *)
Theorem C07_largest_literal_refuted : exists ts e, reads 13 ts e /\ all_defined (fun _ => false) e /\ value (fun _ => false) e = Some 1 /\ evaluate (fun _ => false) ts = Done 0.
Proof.
  exists [Operator Minus; Number false 1; Operator Lt; Number false (2 ^ 63 - 1)], (Bin Lt (Un Neg (Literal false 1)) (Literal false (2 ^ 63 - 1))).
  split; [|split; [vm_compute; repeat split; congruence|split; vm_compute; reflexivity]].
  up 6. apply (r_binary Lt [Operator Minus; Number false 1] [Number false (2 ^ 63 - 1)]); cbn [c_level]; [up 2; apply (r_unary Neg); lit|up 2; lit].
Qed.
Print Assumptions C07_largest_literal_refuted.

(** `-1 < !1u` is false: the result of `!` is an int in C, here it keeps the signedness of the operand. *)
Theorem C07_not_refuted : exists ts e, reads 13 ts e /\ all_defined (fun _ => false) e /\ value (fun _ => false) e = Some 1 /\ evaluate (fun _ => false) ts = Done 0.
Proof.
  exists [Operator Minus; Number false 1; Operator Lt; Bang; Number true 1], (Bin Lt (Un Neg (Literal false 1)) (Un Not (Literal true 1))).
  split; [|split; [vm_compute; repeat split; congruence|split; vm_compute; reflexivity]].
  up 6. apply (r_binary Lt [Operator Minus; Number false 1] [Bang; Number true 1]); cbn [c_level]; [up 2; apply (r_unary Neg); lit|up 2; apply (r_unary Not); lit].
Qed.
Print Assumptions C07_not_refuted.

(** `-1 >> 1u < 0` is false: in C the type of a shift is that of its left operand. *)
Theorem C07_shift_refuted : exists ts e, reads 13 ts e /\ all_defined (fun _ => false) e /\ value (fun _ => false) e = Some 1 /\ evaluate (fun _ => false) ts = Done 0.
Proof.
  exists [Operator Minus; Number false 1; Operator Shr; Number true 1; Operator Lt; Number false 0], (Bin Lt (Bin Shr (Un Neg (Literal false 1)) (Literal true 1)) (Literal false 0)).
  split; [|split; [vm_compute; repeat split; congruence|split; vm_compute; reflexivity]].
  up 6. apply (r_binary Lt [Operator Minus; Number false 1; Operator Shr; Number true 1] [Number false 0]); cbn [c_level]; [|up 2; lit].
  up 5. apply (r_binary Shr [Operator Minus; Number false 1] [Number true 1]); cbn [c_level]; [up 2; apply (r_unary Neg); lit|up 2; lit].
Qed.
Print Assumptions C07_shift_refuted.

(** `(1 ? -1 : 0u) > 0` and `(1 ? 0u : 0) - 1 < 0`: a conditional takes the signedness of its last operand only. *)
Theorem C07_conditional_refuted : exists ts e, reads 13 ts e /\ all_defined (fun _ => false) e /\ value (fun _ => false) e = Some 0 /\ evaluate (fun _ => false) ts = Done 1.
Proof.
  exists [LParen; Number false 1; Question; Number true 0; Colon; Number false 0; RParen; Operator Minus; Number false 1; Operator Lt; Number false 0],
    (Bin Lt (Bin Minus (Group (Cond (Literal false 1) (Literal true 0) (Literal false 0))) (Literal false 1)) (Literal false 0)).
  split; [|split; [vm_compute; repeat split; congruence|split; vm_compute; reflexivity]].
  up 6. apply (r_binary Lt [LParen; Number false 1; Question; Number true 0; Colon; Number false 0; RParen; Operator Minus; Number false 1] [Number false 0]); cbn [c_level]; [|up 2; lit].
  up 4. apply (r_binary Minus [LParen; Number false 1; Question; Number true 0; Colon; Number false 0; RParen] [Number false 1]); cbn [c_level]; [|up 2; lit].
  up 2. apply (r_group [Number false 1; Question; Number true 0; Colon; Number false 0]). apply (r_conditional [Number false 1] [Number true 0] [Number false 0]); up 2; lit.
Qed.
Print Assumptions C07_conditional_refuted.

(** `#if 1 )` and `#if 0 1` are no conditions of C, and are accepted. *)
Theorem C07_trailing_refuted : evaluate (fun _ => false) [Number false 1; RParen] = Done 1 /\ (forall e, ~ reads 13 [Number false 1; RParen] e).
Proof.
  split; [vm_compute; reflexivity|]. intros e R.
  assert (A : forall l ts e, reads l ts e -> forall t ts', ts = t :: ts' -> count_occ (fun a b : bool => Bool.bool_dec a b) (map (fun t => match t with LParen => true | _ => false end) ts) true
     = count_occ (fun a b : bool => Bool.bool_dec a b) (map (fun t => match t with RParen => true | _ => false end) ts) true).
  { clear. assert (B : forall l ts e, reads l ts e -> count_occ (fun a b : bool => Bool.bool_dec a b) (map (fun t => match t with LParen => true | _ => false end) ts) true
     = count_occ (fun a b : bool => Bool.bool_dec a b) (map (fun t => match t with RParen => true | _ => false end) ts) true).
    { induction 1; repeat rewrite ?map_app, ?count_occ_app; cbn [map count_occ]; repeat rewrite ?map_app, ?count_occ_app; cbn [map count_occ]; try destruct o; cbn; lia. }
    intros l ts e R t ts' _. exact (B l ts e R). }
  specialize (A 13 _ e R _ _ eq_refl). vm_compute in A. discriminate.
Qed.
Print Assumptions C07_trailing_refuted.

(** `-9223372036854775807 - 1 == 0 || (-9223372036854775807 - 1) / -1`: the division traps in the compiler. *)
Theorem C07_division_refuted : exists ts e, reads 13 ts e /\ value (fun _ => false) e = Some 1 /\ evaluate (fun _ => false) ts = Crash.
Proof.
  exists [Number false 1; Operator LOr; LParen; Operator Minus; Number false (2 ^ 63 - 2); Operator Minus; Number false 2; RParen; Operator Div; Operator Minus; Number false 1],
    (Bin LOr (Literal false 1) (Bin Div (Group (Bin Minus (Un Neg (Literal false (2 ^ 63 - 2))) (Literal false 2))) (Un Neg (Literal false 1)))).
  split; [|split; vm_compute; reflexivity].
  up 12. apply (r_binary LOr [Number false 1] [LParen; Operator Minus; Number false (2 ^ 63 - 2); Operator Minus; Number false 2; RParen; Operator Div; Operator Minus; Number false 1]); cbn [c_level]; [up 2; lit|].
  up 3. apply (r_binary Div [LParen; Operator Minus; Number false (2 ^ 63 - 2); Operator Minus; Number false 2; RParen] [Operator Minus; Number false 1]); cbn [c_level]; [|apply (r_unary Neg); lit].
  up 2. apply (r_group [Operator Minus; Number false (2 ^ 63 - 2); Operator Minus; Number false 2]). up 4.
  apply (r_binary Minus [Operator Minus; Number false (2 ^ 63 - 2)] [Number false 2]); cbn [c_level]; [up 2; apply (r_unary Neg); lit|up 2; lit].
Qed.
Print Assumptions C07_division_refuted.

Theorem C07_full_refuted : ~ C07_full.
Proof.
  intro F. destruct C07_shift_refuted as (ts & e & R & _ & V & E). destruct (F _ ts e 1 R V) as (w & W & Q). rewrite E in W. injection W as <-. destruct Q as [Q _]. specialize (Q eq_refl). discriminate.
Qed.
Print Assumptions C07_full_refuted.
