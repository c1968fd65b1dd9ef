(** C31, C32, C44: the intermediate code generated for integer expressions, assignments and
    pointer arithmetic.  C's side is LowerSpec.v; code is run by the machine of LowerModel.v, in
    which [fetch m n r] reads the operand [r] as an [n]-bit word. *)
From Coq Require Import List ZArith Bool Lia.
From Verif Require Import Base IntTypes CSpec IntModel IntProofs FieldModel FieldSpec LowerSpec LowerModel LowerProofs.
Import ListNotations.
Open Scope Z_scope.

Definition sizes (ty : typing) (x : nat) : Z := bits (ty x).

(* ------------------------------------------------------------------ *)
(** ** C44: expressions *)

(** For every expression that has a value in C and no comma operator with a constant on the right:
    code is generated, it has the C type, and running it in any memory that holds the
    variables, on any stack, pushes the value and changes nothing else. *)
Theorem C44_lowering_partial : forall ty env m e t v,
  holds ty env m -> literals_ok e -> no_constant_comma e ->
  veval ty env e = Some (t, v) ->
  exists q r,
    lower ty e = Done q /\ resolved_type q = t /\
    (forall s, exec (sizes ty) (emit q) s m = Next (r :: s, m)) /\
    fetch (sizes ty) m (width t) r = Next (v mod 2 ^ width t).
Proof.
  intros ty env m e t v H LO NC E. destruct (lower_ok ty m env e t v H LO NC E) as (q & L & G & _).
  destruct (good_emit ty m q t v G) as (r & X & Y & _). exists q, r.
  split; [exact L|]. split; [apply G|]. split; [exact X|]. exact (fetch_yields ty m r t v Y).
Qed.
Print Assumptions C44_lowering_partial.

(** [c < (u - 7) * 3 >> 2] for [signed char c = -5], [unsigned short u = 9]. *)
Definition ex_ty : typing := fun x => match x with O => S8 | S O => U16 | _ => S32 end.
Definition ex_env : values := fun x => match x with O => -5 | S O => 9 | _ => 0 end.
Definition ex_mem : memory := fun x => match x with O => 251 | S O => 9 | _ => 0 end.
Definition ex_expr : vexpr :=
  VCmp OLt (VVar 0) (VShr (VArith OMul (VArith OSub (VVar 1) (VLit S32 7)) (VLit S32 3)) (VLit S32 2)).

Lemma ex_holds : holds ex_ty ex_env ex_mem.
Proof.
  intro x. unfold object_value, in_range. destruct x as [|[|x]]; cbn; (split; [split; [lia|discriminate]|reflexivity]).
Qed.

Example C44_lowering_applies :
  holds ex_ty ex_env ex_mem /\ literals_ok ex_expr /\ no_constant_comma ex_expr /\
  veval ex_ty ex_env ex_expr = Some (S32, 1) /\
  exists q, lower ex_ty ex_expr = Done q /\
    emit q = [Identifier 0; Identifier 1; Integer_literal (mklit S32 7); Cast true (Zero_extend 16 32); Subtract 32;
              Integer_literal (mklit S32 3); Multiply S32; Integer_literal (mklit U8 2); Right_shift S32;
              Cast true (Sign_extend 8 32); Smaller S32].
Proof.
  split; [exact ex_holds|]. split; [|split; [|split]].
  - cbn [literals_ok ex_expr]. repeat split; try discriminate; unfold in_range; vm_compute; discriminate.
  - cbn [no_constant_comma ex_expr]. auto.
  - vm_compute. reflexivity.
  - eexists. split; vm_compute; reflexivity.
Qed.

(** Without the restriction on comma operators it fails: [(int)(unsigned char)(0, 300)] is 44, the code
    computes 300; [(long long)(unsigned short)(0, -1)] is 65535, the code computes -1. *)
Definition comma_literal (t u : ity) (z : Z) : vexpr := VCast t (VCast u (VComma (VLit S32 0) (VLit S32 z))).

Theorem C44_constant_comma_refuted :
  ~ (forall ty env m e t v, holds ty env m -> literals_ok e -> veval ty env e = Some (t, v) ->
     forall q r m', lower ty e = Done q -> exec (sizes ty) (emit q) [] m = Next ([r], m') ->
     fetch (sizes ty) m' (width t) r = Next (v mod 2 ^ width t)).
Proof.
  intro H. specialize (H ex_ty ex_env ex_mem (comma_literal S64 U16 (-1)) S64 65535 ex_holds).
  assert (L : literals_ok (comma_literal S64 U16 (-1))).
  { cbn [literals_ok comma_literal]. unfold object_value, in_range. vm_compute. intuition discriminate. }
  specialize (H L ltac:(vm_compute; reflexivity)).
  specialize (H _ _ _ ltac:(vm_compute; reflexivity) ltac:(vm_compute; reflexivity)). vm_compute in H. discriminate H.
Qed.
Print Assumptions C44_constant_comma_refuted.

Example C44_constant_comma_300 : exists q r,
  veval ex_ty ex_env (comma_literal S32 U8 300) = Some (S32, 44) /\
  lower ex_ty (comma_literal S32 U8 300) = Done q /\ exec (sizes ex_ty) (emit q) [] ex_mem = Next ([r], ex_mem) /\
  fetch (sizes ex_ty) ex_mem 32 r = Next 300.
Proof.
  eexists. eexists. split; [vm_compute; reflexivity|]. split; [vm_compute; reflexivity|].
  split; [lazy; reflexivity|]. vm_compute. reflexivity.
Qed.

(* ------------------------------------------------------------------ *)
(** ** C31: assignments *)

(** [x = e] stores the value of [e] converted to the type of [x], changes nothing else and has
    the stored value. *)
Theorem C31_assignment_partial : forall ty env m x e t v,
  holds ty env m -> literals_ok e -> no_constant_comma e ->
  veval ty env e = Some (t, v) ->
  let w := convert (ty x) v in
  exists q r m',
    lower ty e = Done q /\
    (forall s, exec (sizes ty) (lower_assignment ty x q) s m = Next (r :: s, m')) /\
    fetch (sizes ty) m' (width (ty x)) r = Next (w mod 2 ^ width (ty x)) /\
    holds ty (assigned env x w) m'.
Proof.
  intros ty env m x e t v H LO NC E w. destruct (lower_ok ty m env e t v H LO NC E) as (q & L & G & _).
  destruct (assignment_ok ty m env x q t v H G) as (r & m' & X). exists q, r, m'. tauto.
Qed.
Print Assumptions C31_assignment_partial.

(** [x op= e] stores [x op e], computed in the common type and converted to the type of [x],
    for all operators, all pairs of types and all values; for / and % only if
    the division is one of those of [division_kept]. *)
Theorem C31_compound_partial : forall ty env m k x e t v u w,
  holds ty env m -> literals_ok e -> no_constant_comma e ->
  veval ty env e = Some (t, v) ->
  compound_value k (ty x, env x) (t, v) = Some (u, w) ->
  compound_kept k (ty x) t (constant e) (env x) v ->
  exists q c r m',
    lower ty e = Done q /\ lower_compound ty k x q = Done c /\
    (forall s, exec (sizes ty) c s m = Next (r :: s, m')) /\
    fetch (sizes ty) m' (width (ty x)) r = Next (convert (ty x) w mod 2 ^ width (ty x)) /\
    holds ty (assigned env x (convert (ty x) w)) m'.
Proof.
  intros ty env m k x e t v u w H LO NC E C K. destruct (lower_ok ty m env e t v H LO NC E) as (q & L & G).
  destruct (compound_ok ty m env x k q t v u w (constant e) H G C K) as (c & Lc & r & m' & X & F & H').
  exists q, c, r, m'. tauto.
Qed.
Print Assumptions C31_compound_partial.

(** In particular + - * & | ^ << >>, and / and % in a type that is the common one, such as
    [unsigned /= int] or [long long %= unsigned]. *)
Theorem C31_compound_common_partial : forall ty env m k x e t v u w,
  holds ty env m -> literals_ok e -> no_constant_comma e ->
  veval ty env e = Some (t, v) ->
  compound_value k (ty x, env x) (t, v) = Some (u, w) ->
  (k <> KArith ODiv /\ k <> KArith OMod) \/ usual_int (ty x) t = ty x \/ ty x = TBool ->
  exists q c r m',
    lower ty e = Done q /\ lower_compound ty k x q = Done c /\
    (forall s, exec (sizes ty) c s m = Next (r :: s, m')) /\
    fetch (sizes ty) m' (width (ty x)) r = Next (convert (ty x) w mod 2 ^ width (ty x)) /\
    holds ty (assigned env x (convert (ty x) w)) m'.
Proof.
  intros ty env m k x e t v u w H LO NC E C D. apply (C31_compound_partial ty env m k x e t v u w H LO NC E C).
  destruct D as [[D1 D2]|[D|D]]; destruct k as [[]|[]| |]; cbn [compound_kept]; try exact I; try congruence;
    unfold division_kept; tauto.
Qed.
Print Assumptions C31_compound_common_partial.

(** [c *= u - 7] for [signed char c = -5]: -10, in 8 bits; [c /= -2]: punted, 2. *)
Example C31_compound_applies :
  let e := VArith OSub (VVar 1) (VLit S32 7) in
  holds ex_ty ex_env ex_mem /\ literals_ok e /\ no_constant_comma e /\
  veval ex_ty ex_env e = Some (S32, 2) /\
  compound_value (KArith OMul) (S8, -5) (S32, 2) = Some (S32, -10) /\
  compound_kept (KArith OMul) S8 S32 false (-5) 2 /\
  compound_value (KArith ODiv) (S8, -5) (S32, -2) = Some (S32, 2) /\
  compound_kept (KArith ODiv) S8 S32 true (-5) (-2) /\
  compound_kept (KArith ODiv) S8 S32 false (-5) 3 /\
  compound_kept (KArith ODiv) U32 S32 false 7 (-3).
Proof.
  cbv zeta. split; [exact ex_holds|]. split; [|split; [|split; [|split; [|split; [|split; [|split; [|split]]]]]]].
  - cbn [literals_ok]. repeat split; try discriminate; unfold in_range; vm_compute; discriminate.
  - cbn [no_constant_comma]. auto.
  - reflexivity.
  - reflexivity.
  - exact I.
  - reflexivity.
  - right. left. split; [reflexivity|]. right. left. reflexivity.
  - right. left. split; [reflexivity|]. left. reflexivity.
  - right. right. left. reflexivity.
Qed.

(** What the generated code stores for [x op= e]. *)
Definition stores (ty : typing) (m : memory) (k : compound_op) (x : nat) (e : vexpr) : outcome (result Z) :=
  obind (lower ty e) (fun q => obind (lower_compound ty k x q) (fun c =>
    Done (match exec (sizes ty) c [] m with Next (_, m') => Next (m' x) | Trap => Trap | Stuck => Stuck end))).

(** The full statement: whenever C defines the value, that is what is stored. *)
Definition C31_full : Prop := forall ty env m k x e t v u w,
  holds ty env m -> literals_ok e -> no_constant_comma e ->
  veval ty env e = Some (t, v) ->
  compound_value k (ty x, env x) (t, v) = Some (u, w) ->
  stores ty m k x e = Done (Next (convert (ty x) w mod 2 ^ width (ty x))).

Definition one_env (v w : Z) : values := fun x => match x with O => v | S O => w | _ => 0 end.
Definition two_types (a b : ity) : typing := fun x => match x with O => a | S O => b | _ => S32 end.
Definition two_words (a b v w : Z) : memory := fun x => match x with O => v mod 2 ^ a | S O => w mod 2 ^ b | _ => 0 end.
Lemma two_holds : forall a b v w, object_value a v -> object_value b w ->
  holds (two_types a b) (one_env v w) (two_words (width a) (width b) v w).
Proof.
  intros a b v w A B x. destruct x as [|[|x]]; cbn [two_types one_env two_words]; [auto|auto|].
  split; [split; [unfold in_range; cbn; lia|discriminate]|reflexivity].
Qed.
Ltac object := unfold object_value, in_range; cbn; intuition (lia || discriminate).

(** The first variable has type [T] and value [x], the second type [R] and value [v]; [e] has the value [v] of type
    [R].  C's value of [x op e] is [w], converted to [T] it is [c]; the code leaves [got]. *)
Definition miscompiled (k : compound_op) (T : ity) (x : Z) (e : vexpr) (R : ity) (v w c : Z) (got : result Z) : Prop :=
  let ty := two_types T R in
  let env := one_env x v in
  let m := two_words (width T) (width R) x v in
  holds ty env m /\ literals_ok e /\ no_constant_comma e /\
  veval ty env e = Some (R, v) /\
  compound_value k (T, x) (R, v) = Some (usual_int T R, w) /\ convert T w = c /\
  stores ty m k 0%nat e = Done got /\ got <> Next (c mod 2 ^ width T).

Ltac miscompiles T R := split; [apply (two_holds T R); object|]; split; [unfold literals_ok; object|]; vm_compute; intuition discriminate.

(** [int x = -8; unsigned y = 2; x /= y]: C divides 4294967288 by 2, the code -8. *)
Theorem C31_unsigned_divisor_refuted :
  miscompiled (KArith ODiv) S32 (-8) (VVar 1) U32 2 2147483644 2147483644 (Next (2 ^ 32 - 4)).
Proof. miscompiles S32 U32. Qed.
Print Assumptions C31_unsigned_divisor_refuted.

Theorem C31_full_refuted : ~ C31_full.
Proof.
  intro H. unfold C31_full in H. destruct C31_unsigned_divisor_refuted as (A & B & C & D & E & _ & F & G).
  specialize (H _ _ _ _ 0%nat _ _ _ _ _ A B C D E). rewrite F in H. vm_compute in H. discriminate H.
Qed.
Print Assumptions C31_full_refuted.

(** The same with constants: [x /= 2u], [x %= 3u]. *)
Theorem C31_unsigned_constant_refuted :
  miscompiled (KArith ODiv) S32 (-8) (VLit U32 2) U32 2 2147483644 2147483644 (Next (2 ^ 32 - 4)) /\
  miscompiled (KArith OMod) S32 (-8) (VLit U32 3) U32 3 2 2 (Next (2 ^ 32 - 2)).
Proof. split; miscompiles S32 U32. Qed.
Print Assumptions C31_unsigned_constant_refuted.

(** [unsigned short x = 5; signed char y = -1; x /= y]: C stores 65531, the code 0. *)
Theorem C31_signed_char_divisor_refuted :
  miscompiled (KArith ODiv) U16 5 (VVar 1) S8 (-1) (-5) 65531 (Next 0).
Proof. miscompiles U16 S8. Qed.
Print Assumptions C31_signed_char_divisor_refuted.

(** [signed char x = 100; unsigned char y = 200; x /= y]: C stores 0, the code -1. *)
Theorem C31_unsigned_char_divisor_refuted :
  miscompiled (KArith ODiv) S8 100 (VVar 1) U8 200 0 0 (Next 255).
Proof. miscompiles S8 U8. Qed.
Print Assumptions C31_unsigned_char_divisor_refuted.

(** [signed char x = -128, y = -1; x /= y]: C stores -128, the program is stopped by a divide error. *)
Theorem C31_divide_error_refuted :
  miscompiled (KArith ODiv) S8 (-128) (VVar 1) S8 (-1) 128 (-128) Trap.
Proof. miscompiles S8 S8. Qed.
Print Assumptions C31_divide_error_refuted.

(** ++ and -- are [x = x + 1] and [x = x - 1]; the prefix forms have the new value, the postfix forms the old one. *)
Theorem C31_increment : forall ty env m x (post increment : bool),
  holds ty env m ->
  let w := convert (ty x) (if increment then env x + 1 else env x - 1) in
  exists r m',
    (forall s, exec (sizes ty) (lower_step ty post increment x) s m = Next (r :: s, m')) /\
    fetch (sizes ty) m' (width (ty x)) r = Next ((if post then env x else w) mod 2 ^ width (ty x)) /\
    holds ty (assigned env x w) m'.
Proof. intros ty env m x post increment H. exact (step_ok ty m env x post increment H). Qed.
Print Assumptions C31_increment.

Example C31_increment_applies :
  holds ex_ty ex_env ex_mem /\ convert (ex_ty 0%nat) (ex_env 0%nat - 1) = -6 /\
  holds (two_types TBool U8) (one_env 0 255) (two_words 8 8 0 255) /\
  convert TBool (0 - 1) = 1 /\ convert U8 (255 + 1) = 0.
Proof. split; [exact ex_holds|]. split; [reflexivity|]. split; [apply (two_holds TBool U8); object|]. split; reflexivity. Qed.

(** [s.f op= e] for a bit-field [f] in the storage unit [x]: exactly the bits of the field change, to those of
    [s.f op e], for widths below 64; for >> only if the value is not negative or the
    common type is signed. *)
Theorem C31_bitfield_partial : forall ty env m k x index w e t v u r,
  fits_unit (ty x) index w -> w < 64 -> rank (ty x) <= 4 -> (ty x = TBool -> w = 1) ->
  holds ty env m -> literals_ok e -> no_constant_comma e ->
  veval ty env e = Some (t, v) ->
  let old := field_value (ty x) index w (m x) in
  let what := promote_bitfield (ty x) w in
  compound_value k (what, old) (t, v) = Some (u, r) ->
  (k = KShr -> 0 <= old \/ signed (usual_int what t) = true) ->
  exists q c s' m',
    lower ty e = Done q /\ lower_bitfield_compound k x (mkbitfield (ty x) index w) q = Done c /\
    (forall s, exec (sizes ty) c s m = Next (s' :: s, m')) /\
    replaced (ty x) index w (m x) (convert (ty x) r) (m' x) /\
    (forall y, y <> x -> m' y = m y).
Proof.
  intros ty env m k x index w e t v u r FU W RK BW H LO NC E old what C Sh.
  destruct (lower_ok ty m env e t v H LO NC E) as (q & L & G).
  assert (MX : 0 <= m x < 2 ^ width (ty x)).
  { rewrite (proj2 (H x)). apply Z.mod_pos_bound, pow2_pos. pose proof (width_pos (ty x)). lia. }
  assert (PB : bitfield_operand_type (ty x) w = what) by (apply bitfield_promotion_ok; [destruct FU as (? & ? & ?); lia|exact RK]).
  destruct (field_compound_ok ty m x k index w q t v u r (constant e) FU W BW MX G) as (c & Lc & m' & X & R & Y).
  - rewrite PB. exact C.
  - rewrite PB. exact Sh.
  - exists q, c, (Location x), m'. tauto.
Qed.
Print Assumptions C31_bitfield_partial.

(** [int f : 5] at bit 3 holding -1; [f += 20] stores -13. *)
Example C31_bitfield_applies :
  fits_unit S32 3 5 /\ holds (two_types S32 U32) (one_env 248 28) (two_words 32 32 248 28) /\
  field_value S32 3 5 248 = -1 /\ promote_bitfield S32 5 = S32 /\
  compound_value (KArith OAdd) (S32, -1) (S32, 20) = Some (S32, 19) /\ reduced S32 5 19 = -13 /\
  compound_value KShr (S32, -1) (U32, 28) = Some (S32, -1).
Proof. split; [unfold fits_unit; cbn; lia|]. split; [apply (two_holds S32 U32); object|]. vm_compute. auto. Qed.

(** [int f : 5] holding -1, [f >>= y] with [unsigned y = 28]: C stores -1, the code 15. *)
Theorem C31_bitfield_shift_refuted :
  ~ (forall ty env m k x index w e t v u r,
     fits_unit (ty x) index w -> w < 64 -> rank (ty x) <= 4 -> (ty x = TBool -> w = 1) ->
     holds ty env m -> literals_ok e -> no_constant_comma e ->
     veval ty env e = Some (t, v) ->
     compound_value k (promote_bitfield (ty x) w, field_value (ty x) index w (m x)) (t, v) = Some (u, r) ->
     forall q c s' m', lower ty e = Done q -> lower_bitfield_compound k x (mkbitfield (ty x) index w) q = Done c ->
       exec (sizes ty) c [] m = Next (s', m') ->
       field_value (ty x) index w (m' x) = reduced (ty x) w r).
Proof.
  intro H. specialize (H (two_types S32 U32) (one_env 31 28) (two_words 32 32 31 28) KShr 0%nat 0 5 (VVar 1) U32 28 S32 (-1)
    ltac:(unfold fits_unit; cbn; lia) ltac:(lia) ltac:(cbn; lia) ltac:(discriminate)
    (two_holds S32 U32 31 28 ltac:(object) ltac:(object)) I I eq_refl ltac:(vm_compute; reflexivity)).
  specialize (H _ _ _ _ ltac:(vm_compute; reflexivity) ltac:(vm_compute; reflexivity) eq_refl). vm_compute in H. discriminate H.
Qed.
Print Assumptions C31_bitfield_shift_refuted.

(* ------------------------------------------------------------------ *)
(** ** C32: pointers *)

(** Every pointer expression made of +, - and subscripts has the address its elements' size
    says, unless a constant is added to a pointer constant. *)
Theorem C32_offset_partial : forall ty env m size p a,
  holds ty env m -> 0 <= size < 2 ^ 31 -> pointers_ok ty p -> no_constant_step p ->
  peval size ty env p = Some a ->
  exists q r,
    lower_pointer size ty p = Done q /\
    (forall s, exec (sizes ty) (pemit q) s m = Next (r :: s, m)) /\
    fetch (sizes ty) m 64 r = Next (a mod 2 ^ 64).
Proof.
  intros ty env m size p a H SZ PO NC E. destruct (lower_pointer_ok ty m env size p a H SZ PO NC E) as (q & L & G & _).
  destruct (pgood_emit ty m q a G) as (r & X & Y). exists q, r. split; [exact L|]. split; [exact X|]. exact (fetch_yields ty m r U64 a Y).
Qed.
Print Assumptions C32_offset_partial.

(** [&(i + p - 3)[i]] for 12-byte elements, [int i = -2]. *)
Definition ex_pointer : pexpr := PIndex (PSub (PAddLeft (VVar 1) (PVar 0)) (VLit S32 3)) (VVar 1).
Example C32_offset_applies :
  holds (two_types U64 S32) (one_env 4096 (-2)) (two_words 64 32 4096 (-2)) /\
  pointers_ok (two_types U64 S32) ex_pointer /\ no_constant_step ex_pointer /\
  peval 12 (two_types U64 S32) (one_env 4096 (-2)) ex_pointer = Some (4096 - 7 * 12).
Proof.
  split; [apply (two_holds U64 S32); object|]. split; [|split].
  - cbn [pointers_ok ex_pointer]. repeat split; try discriminate; unfold in_range; vm_compute; discriminate.
  - cbn [no_constant_step ex_pointer]. repeat split.
  - vm_compute. reflexivity.
Qed.

(** A constant added to a pointer constant is not scaled: [(int * )4096 + 1] is 4097. *)
Theorem C32_constant_step_refuted :
  ~ (forall ty env m size p a, holds ty env m -> 0 <= size < 2 ^ 31 -> pointers_ok ty p ->
     peval size ty env p = Some a ->
     forall q r m', lower_pointer size ty p = Done q -> exec (sizes ty) (pemit q) [] m = Next ([r], m') ->
     fetch (sizes ty) m' 64 r = Next (a mod 2 ^ 64)).
Proof.
  intro H. specialize (H ex_ty ex_env ex_mem 4 (PAdd (PLit 4096) (VLit S32 1)) 4100 ex_holds ltac:(lia)).
  assert (P : pointers_ok ex_ty (PAdd (PLit 4096) (VLit S32 1))).
  { cbn [pointers_ok]. unfold literals_ok, object_value, in_range. vm_compute. intuition discriminate. }
  specialize (H P ltac:(vm_compute; reflexivity)).
  specialize (H _ _ _ ltac:(vm_compute; reflexivity) ltac:(vm_compute; reflexivity)). vm_compute in H. discriminate H.
Qed.
Print Assumptions C32_constant_step_refuted.

(** [p += e], [p -= e], for every element size. *)
Theorem C32_assignment_partial : forall ty env m size (add : bool) x e t v,
  holds ty env m -> ty x = U64 -> literals_ok e -> no_constant_comma e ->
  veval ty env e = Some (t, v) ->
  let w := (if add then env x + v * size else env x - v * size) mod 2 ^ 64 in
  exists q r m',
    lower ty e = Done q /\
    (forall s, exec (sizes ty) (lower_pointer_assignment size add x q) s m = Next (r :: s, m')) /\
    fetch (sizes ty) m' 64 r = Next w /\
    holds ty (assigned env x w) m'.
Proof.
  intros ty env m size add x e t v H TX LO NC E w. destruct (lower_ok ty m env e t v H LO NC E) as (q & L & G).
  destruct (pointer_assignment_ok ty m env size add x q t v (constant e) H TX G) as (r & m' & X & F & H').
  assert (EW : convert U64 (if add then env x + v * size else env x - v * size) = w).
  { rewrite convert_wrap by discriminate. reflexivity. }
  rewrite EW in *. rewrite TX in F. cbn [width] in F. unfold w in F. rewrite Z.mod_mod in F by lia. fold w in F.
  exists q, r, m'. tauto.
Qed.
Print Assumptions C32_assignment_partial.

(** ++ and -- on a pointer, for element sizes below 2^31. *)
Theorem C32_increment_partial : forall ty env m size (post increment : bool) x,
  holds ty env m -> ty x = U64 -> 0 <= size < 2 ^ 31 ->
  let w := (if increment then env x + size else env x - size) mod 2 ^ 64 in
  exists r m',
    (forall s, exec (sizes ty) (lower_pointer_step size post increment x) s m = Next (r :: s, m')) /\
    fetch (sizes ty) m' 64 r = Next (if post then env x else w) /\
    holds ty (assigned env x w) m'.
Proof.
  intros ty env m size post increment x H TX SZ w.
  destruct (pointer_step_ok ty m env size post increment x H TX SZ) as (r & m' & X & F & H').
  assert (EW : convert U64 (if increment then env x + size else env x - size) = w).
  { rewrite convert_wrap by discriminate. reflexivity. }
  cbv zeta in F, H'. rewrite EW in *. exists r, m'. split; [exact X|]. split; [|exact H'].
  transitivity (Next ((if post then env x else w) mod 2 ^ 64)); [exact F|]. f_equal. destruct post.
  - pose proof (proj1 (proj1 (H x))) as R. rewrite TX in R. unfold in_range in R. cbn in R. apply Z.mod_small. cbn. lia.
  - unfold w. apply Z.mod_mod. lia.
Qed.
Print Assumptions C32_increment_partial.

Example C32_increment_applies :
  holds (two_types U64 S32) (one_env 4096 (-2)) (two_words 64 32 4096 (-2)) /\
  two_types U64 S32 0%nat = U64 /\ veval (two_types U64 S32) (one_env 4096 (-2)) (VVar 1) = Some (S32, -2).
Proof. split; [apply (two_holds U64 S32); object|]. split; reflexivity. Qed.

(** For an element of 2^31 bytes ++ moves the pointer down. *)
Theorem C32_huge_element_refuted :
  match exec (sizes (two_types U64 S32)) (lower_pointer_step (2 ^ 31) false true 0%nat) [] (two_words 64 32 (2 ^ 40) 0) with
  | Next (_, m') => m' 0%nat = 2 ^ 40 - 2 ^ 31
  | _ => False
  end.
Proof. vm_compute. reflexivity. Qed.
Print Assumptions C32_huge_element_refuted.

(** [p - q] is the number of elements between them if [q] is not behind [p]. *)
Theorem C32_difference_partial : forall ty env m size p q a b n,
  holds ty env m -> 0 < size < 2 ^ 31 ->
  pointers_ok ty p -> no_constant_step p -> pointers_ok ty q -> no_constant_step q ->
  peval size ty env p = Some a -> peval size ty env q = Some b ->
  a = b + n * size -> 0 <= n ->
  exists pp qq r,
    lower_pointer size ty p = Done pp /\ lower_pointer size ty q = Done qq /\
    (forall s, exec (sizes ty) (lower_pointer_difference size pp qq) s m = Next (r :: s, m)) /\
    fetch (sizes ty) m 64 r = Next n.
Proof.
  intros ty env m size p q a b n H SZ POp NCp POq NCq Ep Eq E N.
  assert (R : forall p a, peval size ty env p = Some a -> 0 <= a < 2 ^ 64).
  { intros p0 a0 E0. destruct p0; cbn [peval] in E0;
      repeat match type of E0 with bind ?x _ = _ => destruct x as [?|]; cbn [bind] in E0; [|discriminate] end;
      injection E0 as <-; apply Z.mod_pos_bound; lia. }
  destruct (lower_pointer_ok ty m env size p a H ltac:(lia) POp NCp Ep) as (pp & Lp & Gp & _).
  destruct (lower_pointer_ok ty m env size q b H ltac:(lia) POq NCq Eq) as (qq & Lq & Gq & _).
  pose proof (R p a Ep). pose proof (R q b Eq).
  assert (SZ' : 0 < size < 2 ^ 63) by lia.
  destruct (difference_ok ty m size pp qq a b n SZ' Gp Gq ltac:(lia) ltac:(nia) E) as (r & X & Y).
  exists pp, qq, r. split; [exact Lp|]. split; [exact Lq|]. split; [exact X|].
  pose proof (fetch_yields ty m r S64 n Y) as F. transitivity (Next (n mod 2 ^ 64)); [exact F|]. f_equal. apply Z.mod_small. nia.
Qed.
Print Assumptions C32_difference_partial.

Example C32_difference_applies :
  holds (two_types U64 S32) (one_env 4096 5) (two_words 64 32 4096 5) /\
  peval 12 (two_types U64 S32) (one_env 4096 5) (PAdd (PVar 0) (VVar 1)) = Some 4156 /\
  peval 12 (two_types U64 S32) (one_env 4096 5) (PVar 0) = Some 4096 /\ 4156 = 4096 + 5 * 12.
Proof. split; [apply (two_holds U64 S32); object|]. vm_compute. auto. Qed.

(** [(p + -1) - p] is not -1: the difference of the addresses is divided as an unsigned number. *)
Theorem C32_negative_difference_refuted :
  ~ (forall ty env m size p q a b n,
     holds ty env m -> 0 < size < 2 ^ 31 ->
     pointers_ok ty p -> no_constant_step p -> pointers_ok ty q -> no_constant_step q ->
     peval size ty env p = Some a -> peval size ty env q = Some b ->
     a = b + n * size ->
     forall pp qq r m', lower_pointer size ty p = Done pp -> lower_pointer size ty q = Done qq ->
     exec (sizes ty) (lower_pointer_difference size pp qq) [] m = Next ([r], m') ->
     fetch (sizes ty) m' 64 r = Next (n mod 2 ^ 64)).
Proof.
  intro H. specialize (H (two_types U64 S32) (one_env 4096 (-1)) (two_words 64 32 4096 (-1)) 4 (PAdd (PVar 0) (VVar 1)) (PVar 0) 4092 4096 (-1)
    (two_holds U64 S32 4096 (-1) ltac:(object) ltac:(object)) ltac:(lia)
    ltac:(cbn; auto) ltac:(cbn; auto) ltac:(cbn; auto) ltac:(cbn; auto) ltac:(vm_compute; reflexivity) ltac:(vm_compute; reflexivity) ltac:(lia)).
  specialize (H _ _ _ _ ltac:(vm_compute; reflexivity) ltac:(vm_compute; reflexivity) ltac:(vm_compute; reflexivity)). vm_compute in H. discriminate H.
Qed.
Print Assumptions C32_negative_difference_refuted.
