(** C33: static initialisers leave the bytes that assignments would leave. *)
From Coq Require Import List ZArith Lia Bool.
From Verif Require Import Base InitModel InitSpec InitProofs.
Import ListNotations.
Open Scope Z_scope.

(** Initialisers (numbers, floating numbers, bit-fields, strings, files, address constants and nested compound literals, in any order and amount) that
    are inside of the object are accepted, and after linking every bit of the object is what the assignments leave in memory that was zero.
    Missing (see the refutations): numbers too large for their bit-field, addresses inside of string literals, and places initialised twice where the
    first value was an address or the second is a string. *)
Theorem C33_stores_partial : forall address size items, 0 <= size -> Forall (proper size 0) items -> calm items ->
  exists enough s, (forall fuel, (enough <= fuel)%nat -> static_initializer fuel (flat_map item_ops items) size = Done s)
    /\ length (link address s) = Z.to_nat size /\ forall b, 0 <= b < 8 * size -> bit_of (link address s) b = object address items b.
Proof. intros address size items. apply initializer_stores. Qed.
Print Assumptions C33_stores_partial.

(** Whatever the intermediate code is: nothing is written outside of the object, and every address that is patched in later is inside as well. *)
Theorem C33_inside : forall fuel ops size, 0 <= size -> all_sane ops ->
  static_initializer fuel ops size <> Outside
  /\ forall s, static_initializer fuel ops size = Done s -> Z.of_nat (length (data s)) = size /\ forall at_ t o, In (at_, t, o) (patches s) -> 0 <= at_ /\ at_ + 8 <= size.
Proof.
  intros fuel ops size S0 P. assert (H : inside size (static_initializer fuel ops size)).
  { apply evaluate_inside; try lia; try assumption. split; [cbn [data]; rewrite repeat_length; lia|intros a t o []]. }
  split.
  - intro E. rewrite E in H. exact H.
  - intros s E. rewrite E in H. exact H.
Qed.
Print Assumptions C33_inside.

(** struct { short a : 3, b : 9; char text[6]; struct { int *p; char *q; long long n; } in; unsigned char u; } = { 5, 300, "hi", { &v[3] + 1, "x", &v[7] - &v[2] }, 1, .b = 2 } *)
Definition case : list item :=
  [Put 0 (Bits 2 0 3) (Number 5); Put 0 (Bits 2 3 9) (Number 300); Put_string 2 (Array 1 6) 0 [104; 105] 3;
   Put_members 8 (Compound_type 24) 9
     [Put 0 Pointer (Plus (Address (Element (Variable_ 1) 3 4)) (Number 4)); Put 8 Pointer (Address (Text 4 [120] 2));
      Put 16 (Integer 8) (Minus (Address (Element (Variable_ 1) 7 4)) (Address (Element (Variable_ 1) 2 4)))];
   Put 32 (Integer 1) (Number 1); Put 0 (Bits 2 3 9) (Number 2)].
Example case_meets : Forall (proper 40 0) case /\ calm case.
Proof.
  split.
  - unfold case. repeat (apply Forall_cons || apply Forall_nil); cbn; unfold is_byte; repeat split; try lia; auto; repeat constructor; cbn; lia.
  - unfold calm, case. cbn. repeat (apply FOP_cons || apply FOP_nil || apply Forall_cons || apply Forall_nil); cbn; intro X; try (right; lia); try (left; lia);
    destruct X as [[X Y]|X]; try discriminate; try (exfalso; apply Y; reflexivity).
Qed.
Definition somewhere (t : symbol) : Z := match t with Object d => 4096 * Z.of_nat d | Literal s => 65536 + 16 * Z.of_nat s end.
Example case_result : match static_initializer 100 (flat_map item_ops case) 40 with Done s => firstn 33 (link somewhere s) | _ => [] end
  = [21; 0; 104; 105; 0; 0; 0; 0; 16; 16; 0; 0; 0; 0; 0; 0; 64; 0; 1; 0; 0; 0; 0; 0; 20; 0; 0; 0; 0; 0; 0; 0; 1].
Proof. vm_compute. reflexivity. Qed.

(** struct { int a : 3; int b : 5; } s = { -1 }: the value is not cut to the width, so it also sets b and the rest of the unit. *)
Theorem C33_bits_refuted : exists v, 0 <= v < 2 ^ 64 /\
  forall address, exists s, static_initializer 10 (item_ops (Put 0 (Bits 4 0 3) (Number v))) 4 = Done s
    /\ object address [Put 0 (Bits 4 0 3) (Number v)] 3 = false /\ bit_of (link address s) 3 = true.
Proof. exists (2 ^ 64 - 1). split; [lia|]. intro address. eexists. split; [vm_compute; reflexivity|]. split; vm_compute; reflexivity. Qed.
Print Assumptions C33_bits_refuted.

(** char *p = "abc" + 1; in an executable: the offset is lost, so p points to the start of the string. *)
Theorem C33_string_address_refuted : forall address, exists s,
  static_initializer 10 (item_ops (Put 0 Pointer (Plus_array (Text 0 [97; 98; 99] 4) (Number 1)))) 8 = Done s /\
  exists p, (forall b, 0 <= b < 64 -> bit_of (link address s) b = Z.testbit p b) /\ p = wrapu 64 (address (Literal 0))
    /\ object address [Put 0 Pointer (Plus_array (Text 0 [97; 98; 99] 4) (Number 1))] 0 = Z.testbit (address (Literal 0) + 1) 0
    /\ bit_of (link address s) 0 <> Z.testbit (address (Literal 0) + 1) 0.
Proof.
  intro address. eexists. split; [vm_compute; reflexivity|]. exists (wrapu 64 (address (Literal 0))).
  assert (A : forall b, 0 <= b < 64 -> bit_of (link address {| data := [0; 0; 0; 0; 0; 0; 0; 0]; patches := [(0, Literal 0, 1)] |}) b = Z.testbit (wrapu 64 (address (Literal 0))) b).
  { intros b B. rewrite link_bits; [|lia|intros a t o [E|[]]; injection E as <- <- <-; cbn; lia]. cbn [patched fold_left]. unfold assign.
    rewrite (proj2 (Z.leb_le _ _)), (proj2 (Z.ltb_lt _ _)) by lia. cbn [andb patch_value]. rewrite wrapu_bit64 by lia. f_equal. lia. }
  split; [exact A|]. split; [reflexivity|]. split.
  { unfold object. cbn [fold_left meaning place_size value]. unfold assign, location. rewrite (proj2 (Z.leb_le _ _)), (proj2 (Z.ltb_lt _ _)) by lia. cbn [andb thing distance]. f_equal; lia. }
  rewrite A by lia. rewrite wrapu_bit64 by lia.
  rewrite !Z.bit0_odd. rewrite Z.add_1_r, Z.odd_succ, <- Z.negb_odd. destruct (Z.odd _); discriminate.
Qed.
Print Assumptions C33_string_address_refuted.

(** int *a[1] = { [0] = &x, [0] = 0 }: the address is patched in after all values are stored, so it stays. *)
Theorem C33_twice_refuted : let items := [Put 0 Pointer (Address (Variable_ 1)); Put 0 Pointer (Number 0)] in
  Forall (proper 8 0) items /\ forall address, exists s, static_initializer 10 (flat_map item_ops items) 8 = Done s
    /\ (forall b, 0 <= b < 64 -> object address items b = false) /\ forall b, 0 <= b < 64 -> bit_of (link address s) b = Z.testbit (address (Object 1)) b.
Proof.
  split; [repeat constructor; cbn; lia|]. intro address. eexists. split; [vm_compute; reflexivity|]. split.
  - intros b B. unfold object. cbn [fold_left meaning place_size value]. unfold assign. rewrite (proj2 (Z.leb_le _ _)), (proj2 (Z.ltb_lt _ _)) by lia. apply Z.bits_0.
  - intros b B. rewrite link_bits; [|lia|intros a t o [E|[]]; injection E as <- <- <-; cbn; lia]. cbn [patched fold_left]. unfold assign.
    rewrite (proj2 (Z.leb_le _ _)), (proj2 (Z.ltb_lt _ _)) by lia. cbn [andb patch_value]. f_equal; lia.
Qed.
Print Assumptions C33_twice_refuted.

(** struct { int n; char text[4]; } s = { .text = {1, 2, 3, 4}, .text = "a" }: only one byte behind the string is cleared, and here (the comparison takes the
    offset in the object for one in the array) not even that. *)
Theorem C33_string_twice_refuted :
  let items := [Put 4 (Integer 1) (Number 1); Put 5 (Integer 1) (Number 2); Put 6 (Integer 1) (Number 3); Put 7 (Integer 1) (Number 4); Put_string 4 (Array 1 4) 0 [97] 2] in
  Forall (proper 8 0) items /\ forall address, exists s, static_initializer 20 (flat_map item_ops items) 8 = Done s
    /\ link address s = [0; 0; 0; 0; 97; 2; 3; 4] /\ (forall b, 40 <= b < 64 -> object address items b = false).
Proof.
  split; [repeat constructor; cbn; unfold is_byte; lia|]. intro address. eexists. split; [vm_compute; reflexivity|]. split; [vm_compute; reflexivity|].
  intros b B. unfold object. cbn [fold_left meaning padded array_bytes]. unfold assign_bytes at 1.
  change (8 * (0 + 4)) with 32. change (8 * (0 + 4 + _)) with 64. rewrite (proj2 (Z.leb_le 32 b)), (proj2 (Z.ltb_lt b 64)) by lia. cbn [andb].
  assert (D : 5 <= b / 8 < 8) by (split; [apply Z.div_le_lower_bound|apply Z.div_lt_upper_bound]; lia).
  assert (Q : b / 8 = 5 \/ b / 8 = 6 \/ b / 8 = 7) by lia.
  destruct Q as [->|[->| ->]]; cbn; apply Z.bits_0.
Qed.
Print Assumptions C33_string_twice_refuted.

(** long long n = 5 - (long long)&x, which is no address constant, is accepted and stored as 5 + &x (here with the offset of x subtracted). *)
Theorem C33_difference_refuted : let items := [Put 0 (Integer 8) (Minus (Number 5) (Address (Field (Variable_ 1) 2)))] in
  forall address, exists s, static_initializer 10 (flat_map item_ops items) 8 = Done s
    /\ (forall b, 0 <= b < 64 -> object address items b = Z.testbit (5 - (address (Object 1) + 2)) b)
    /\ forall b, 0 <= b < 64 -> bit_of (link address s) b = Z.testbit (address (Object 1) + 3) b.
Proof.
  intros items address. eexists. split; [vm_compute; reflexivity|]. split.
  - intros b B. unfold object, items. cbn [fold_left meaning place_size value]. unfold assign. rewrite (proj2 (Z.leb_le _ _)), (proj2 (Z.ltb_lt _ _)) by lia.
    cbn [andb]. unfold location. cbn [thing distance]. f_equal; lia.
  - intros b B. rewrite link_bits; [|lia|intros a t o [E|[]]; injection E as <- <- <-; cbn; lia]. cbn [patched fold_left]. unfold assign.
    rewrite (proj2 (Z.leb_le _ _)), (proj2 (Z.ltb_lt _ _)) by lia. cbn [andb patch_value]. f_equal; lia.
Qed.
Print Assumptions C33_difference_refuted.
