(** The property theorems about type specifiers and enumerators. *)
From Verif Require Import Base IntTypes DeclModel DeclSpec DeclProofs.
From Coq Require Import Permutation.

(** ** C41.  A sequence of type specifiers, of any length and in any order, is accepted exactly when it is an arrangement
    of one the standard lists, and then it denotes the type listed; otherwise it is reported. *)
Theorem C41_specifiers_denote_the_listed_type : forall l,
  (forall t, declared_type l = Done t <-> denotes l t) /\ ((forall t, ~ denotes l t) -> declared_type l = Reported).
Proof.
  intros l. split; [apply declared_type_exact|]. intros H. pose proof (declared_type_no_crash l) as N.
  destruct (declared_type l) as [t| |] eqn:E; [|reflexivity|congruence]. apply declared_type_exact in E. destruct (H t E).
Qed.
Print Assumptions C41_specifiers_denote_the_listed_type.
Theorem C41_order_is_irrelevant : forall l l', Permutation l l' -> declared_type l = declared_type l'.
Proof. intros l l' P. unfold declared_type. rewrite (add_order l l' P). reflexivity. Qed.
Print Assumptions C41_order_is_irrelevant.
Example C41_example :
  declared_type [k_long; k_int; k_unsigned; k_long] = Done (Arithmetic (AInt U64)) /\
  declared_type [k_int; k_short; k_signed] = Done (Arithmetic (AInt S16)) /\
  declared_type [k_short; k_long] = Reported /\ declared_type [k_long; k_long; k_long] = Reported /\
  declared_type [k_int; k_int] = Reported /\ declared_type [] = Reported.
Proof. repeat split; vm_compute; reflexivity. Qed.

(** ** C40.  Numbering, exactly as in the standard when all constants are ints. *)
Theorem C40_enumerators_number_consecutively : forall l values,
  numbered (-1) l values -> Forall (fun v => -2^31 <= v < 2^31) values -> enum_values l = Done values.
Proof. intros l values H F. apply (enumerate_exact l 0 values H F). Qed.
Print Assumptions C40_enumerators_number_consecutively.
Example C40_example : enum_values [None; None; Some 10; None; Some (-5); None] = Done [0; 1; 10; 11; -5; -4]
  /\ numbered (-1) [None; None; Some 10; None; Some (-5); None] [0; 1; 10; 11; -5; -4].
Proof. split; [vm_compute; reflexivity|]. cbn [numbered]. lia. Qed.

(** For every list: the constants are ints that continue the sequence modulo 2^32 (unsigned constants are accepted); the
    list is rejected exactly when an explicit value is neither an int nor an unsigned int.  Partial: for values that fit
    long long. *)
Theorem C40_enumerators_partial : forall l,
  Forall (fun e => match e with Some x => -2^63 <= x < 2^63 | None => True end) l ->
  match enum_values l with
  | Done values => Forall (fun e => match e with Some x => -2^31 <= x < 2^32 | None => True end) l /\ numbered_mod (-1) l values
  | Reported => exists x, In (Some x) l /\ ~ (-2^31 <= x < 2^32)
  | Crash => False
  end.
Proof.
  intros l F. destruct (enumerate_ok l 0 F ltac:(lia)) as (O & N). unfold enum_values.
  destruct (enumerate 0 l) as [vs| |] eqn:E; [| |congruence].
  - split; [apply O; eauto|]. apply (enumerate_numbered l 0 vs E F); lia.
  - assert (NO : ~ Forall (fun e => match e with Some x => -2^31 <= x < 2^32 | None => True end) l)
      by (intro H; apply O in H; destruct H; discriminate).
    clear -NO. induction l as [|[x|] l IH]; [destruct NO; constructor| |].
    + destruct (Z_le_gt_dec (-2^31) x); [destruct (Z_lt_ge_dec x (2^32))|].
      * destruct IH as (y & I & Y); [intro H; apply NO; constructor; auto|]. exists y. split; [right; exact I|exact Y].
      * exists x. split; [left; reflexivity|lia].
      * exists x. split; [left; reflexivity|lia].
    + destruct IH as (y & I & Y); [intro H; apply NO; constructor; auto|]. exists y. split; [right; exact I|exact Y].
Qed.
Print Assumptions C40_enumerators_partial.

(** An unsigned 64 bit constant near 2^64 is taken for a negative number: enum { A = 0xffffffffffffffff }. *)
Theorem C40_huge_constants_are_accepted_refuted : forall x, 2^64 - 2^31 <= x < 2^64 -> enum_values [Some x] = Done [x - 2^64].
Proof.
  intros x H. unfold enum_values. cbn [enumerate]. unfold integer_literal_as_s64.
  assert (E : wraps 64 x = x - 2^64).
  { unfold wraps. rewrite Z.mod_small by lia. destruct (Z.ltb_spec x (2^(64 - 1))); lia. }
  rewrite E. destruct (Z.leb_spec (-0x80000000) (x - 2^64)); [|lia]. destruct (Z.leb_spec (x - 2^64) 0x7fffffff); [|lia]. reflexivity.
Qed.
Print Assumptions C40_huge_constants_are_accepted_refuted.
(** And the enumerator after INT_MAX is INT_MIN, without a message. *)
Theorem C40_after_INT_MAX_refuted : enum_values [Some 0x7fffffff; None] = Done [0x7fffffff; -0x80000000].
Proof. vm_compute. reflexivity. Qed.
Print Assumptions C40_after_INT_MAX_refuted.
