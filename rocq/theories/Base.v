(** Shared vocabulary: fixed-width integers as [Z] with explicit reduction, and
    the outcome type used by the models. *)
From Coq Require Export ZArith Lia List Bool.
Export ListNotations.
Global Open Scope Z_scope.
Global Open Scope list_scope.

(** [x] as an unsigned / signed (two's complement) number of [n] bits. *)
Definition wrapu (n x : Z) : Z := x mod 2 ^ n.
Definition wraps (n x : Z) : Z :=
  let y := x mod 2 ^ n in
  if y <? 2 ^ (n - 1) then y else y - 2 ^ n.

(** Result of a piece of compiler code: a value, a diagnosed error, or a crash
    of the compiler itself (failed assert, hardware trap, out-of-bounds access). *)
Inductive outcome (A : Type) : Type :=
| Done (a : A)
| Reported
| Crash.
Arguments Done {A} a.
Arguments Reported {A}.
Arguments Crash {A}.

Definition obind {A B} (x : outcome A) (f : A -> outcome B) : outcome B :=
  match x with Done a => f a | Reported => Reported | Crash => Crash end.

Definition is_done {A} (x : outcome A) : bool :=
  match x with Done _ => true | _ => false end.

Lemma pow2_pos : forall n, 0 <= n -> 0 < 2 ^ n.
Proof. intros; apply Z.pow_pos_nonneg; lia. Qed.

Lemma wrapu_range : forall n x, 0 <= n -> 0 <= wrapu n x < 2 ^ n.
Proof. intros; unfold wrapu; apply Z.mod_pos_bound, pow2_pos; lia. Qed.

Lemma pow2_split : forall n, 0 < n -> 2 ^ n = 2 * 2 ^ (n - 1).
Proof. intros. rewrite <- Z.pow_succ_r by lia. f_equal; lia. Qed.

Lemma wraps_range : forall n x, 0 < n -> - 2 ^ (n - 1) <= wraps n x < 2 ^ (n - 1).
Proof.
  intros. unfold wraps.
  pose proof (pow2_split n H). pose proof (pow2_pos (n-1) ltac:(lia)).
  pose proof (Z.mod_pos_bound x (2^n) ltac:(lia)).
  destruct (Z.ltb_spec (x mod 2^n) (2^(n-1))); lia.
Qed.

Lemma wraps_cong : forall n x, 0 < n -> exists k, wraps n x = x + k * 2 ^ n.
Proof.
  intros. unfold wraps.
  pose proof (pow2_pos n ltac:(lia)).
  pose proof (Z.div_mod x (2^n) ltac:(lia)).
  destruct (x mod 2^n <? 2^(n-1)).
  - exists (- (x / 2^n)). lia.
  - exists (- (x / 2^n) - 1). lia.
Qed.

Lemma wrapu_cong : forall n x, 0 <= n -> exists k, wrapu n x = x + k * 2 ^ n.
Proof.
  intros. unfold wrapu. pose proof (pow2_pos n ltac:(lia)).
  pose proof (Z.div_mod x (2^n) ltac:(lia)).
  exists (- (x / 2^n)). lia.
Qed.

Lemma wrapu_id : forall n x, 0 <= x < 2 ^ n -> wrapu n x = x.
Proof. intros; unfold wrapu; apply Z.mod_small; lia. Qed.

Lemma wraps_id : forall n x, 0 < n -> - 2 ^ (n - 1) <= x < 2 ^ (n - 1) -> wraps n x = x.
Proof.
  intros. unfold wraps.
  pose proof (pow2_split n H). pose proof (pow2_pos (n-1) ltac:(lia)).
  destruct (Z_lt_ge_dec x 0).
  - assert (E : x mod 2^n = x + 2^n).
    { symmetry. apply Z.mod_unique with (q := -1); lia. }
    rewrite E. destruct (Z.ltb_spec (x + 2^n) (2^(n-1))); lia.
  - rewrite Z.mod_small by lia. destruct (Z.ltb_spec x (2^(n-1))); lia.
Qed.

Lemma wrapu_mod : forall n x y, 0 <= n -> x mod 2^n = y mod 2^n -> wrapu n x = wrapu n y.
Proof. intros; unfold wrapu; auto. Qed.

Lemma wraps_mod : forall n x y, x mod 2^n = y mod 2^n -> wraps n x = wraps n y.
Proof. intros. unfold wraps. rewrite H. reflexivity. Qed.

Lemma mod_add_mul : forall x k n, 0 <= n -> (x + k * 2^n) mod 2^n = x mod 2^n.
Proof. intros. apply Z.mod_add. pose proof (pow2_pos n H). lia. Qed.

Lemma wraps_mod_eq : forall n x, 0 < n -> wraps n x mod 2^n = x mod 2^n.
Proof.
  intros. destruct (wraps_cong n x H) as [k ->]. apply mod_add_mul; lia.
Qed.

Lemma wrapu_mod_eq : forall n x, 0 <= n -> wrapu n x mod 2^n = x mod 2^n.
Proof.
  intros. destruct (wrapu_cong n x H) as [k ->]. apply mod_add_mul; lia.
Qed.
