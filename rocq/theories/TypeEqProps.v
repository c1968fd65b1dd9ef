(** C39: the comparison of types is an equivalence, and equal types have one layout. *)
From Verif Require Import Base ScopeModel TypeEqModel TypeEqSpec TypeEqProofs.

(** Every type equals itself and every copy of itself (the comparison of addresses is only
    known to hold for predefined and registered types). *)
Theorem C39_reflexive : forall same lookup t, addresses same lookup -> tables lookup -> clean t ->
  exists k, forall fuel, (k <= fuel)%nat -> types_are_equal same lookup fuel t t = Done true.
Proof. intros same lookup t A T C. exists (S (depth t)). intros f L. apply (eq_refl_copy same lookup A T); [exact C|lia]. Qed.
Print Assumptions C39_reflexive.

(** The arguments can be exchanged. *)
Theorem C39_symmetric : forall same lookup fuel a b, addresses same lookup -> tables lookup ->
  types_are_equal same lookup fuel a b = types_are_equal same lookup fuel b a.
Proof. intros same lookup f a b A T. exact (eq_sym same lookup A T f a b). Qed.
Print Assumptions C39_symmetric.

(** Full claim: for all types.  Missing: types of erroneous expressions ([Poison]). *)
Theorem C39_transitive_partial : forall same lookup fuel fuel' a b c, addresses same lookup -> tables lookup -> clean a -> clean b -> clean c ->
  types_are_equal same lookup fuel a b = Done true -> types_are_equal same lookup fuel' b c = Done true ->
  exists k, forall fuel, (k <= fuel)%nat -> types_are_equal same lookup fuel a c = Done true.
Proof. intros same lookup f f' a b c A T Ca Cb Cc. exact (eq_trans same lookup A T f f' a b c Ca Cb Cc). Qed.
Print Assumptions C39_transitive_partial.

(** The comparison accepts exactly the types that are the same ([alike]). *)
Theorem C39_equal_iff_alike : forall same lookup a b, addresses same lookup -> tables lookup -> clean a -> clean b ->
  (alike lookup a b -> exists k, forall fuel, (k <= fuel)%nat -> types_are_equal same lookup fuel a b = Done true) /\
  (forall fuel, types_are_equal same lookup fuel a b = Done true -> alike lookup a b).
Proof. intros same lookup a b A T Ca Cb. exact (eq_alike same lookup A T a b Ca Cb). Qed.
Print Assumptions C39_equal_iff_alike.

(** Full claim: equal types have equal size and alignment.  Missing: structs whose layout was
    changed by #pragma pack or __declspec(align). *)
Theorem C39_equal_layout_partial : forall same lookup basic rule fuel a b, addresses same lookup -> tables lookup -> natural_tables lookup basic rule ->
  clean a -> clean b -> natural lookup basic rule a -> natural lookup basic rule b ->
  types_are_equal same lookup fuel a b = Done true -> layout lookup basic a = layout lookup basic b.
Proof. intros same lookup basic rule f a b A T N Ca Cb Na Nb. exact (eq_layout same lookup A T basic rule N f a b Ca Cb Na Nb). Qed.
Print Assumptions C39_equal_layout_partial.

(** A table with one struct, [struct x { int (*f)(struct x *); struct x *next; }]. *)
Definition x : name := [120].
Definition int_type := Basic 0.
Definition struct_x (next : ty) : ty := Compound false x 16 8 [([102], Pointer (Function int_type [Pointer (Unresolved x)]), 0); ([110], Pointer next, 8)].
Definition case_lookup (n : name) : option ty := if names_match n x then Some (struct_x (Unresolved x)) else None.
Fixpoint case_same (a b : ty) : bool :=
  match a, b with
  | Basic i, Basic j => Nat.eqb i j
  | Poison, Poison => true
  | Unresolved n, Unresolved m => names_match n m
  | Pointer a, Pointer b => case_same a b
  | Function r l, Function r' l' => case_same r r' && (fix go l l' := match l, l' with [], [] => true | x :: l, y :: l' => case_same x y && go l l' | _, _ => false end) l l'
  | Compound u t s a ms, Compound u' t' s' a' ms' => Bool.eqb u u' && names_match t t' && (s =? s') && (a =? a') &&
      (fix go l l' := match l, l' with [], [] => true | (n, x, o) :: l, (m, y, p) :: l' => names_match n m && case_same x y && (o =? p) && go l l' | _, _ => false end) ms ms'
  | _, _ => false
  end.
Lemma case_same_eq : forall n a b, (depth a <= n)%nat -> case_same a b = true -> a = b.
Proof.
  induction n as [|n IH]; intros a b D H; destruct a as [i| |m|t|r l|t k|u tag sz al ms|tag|t i w]; destruct b as [i'| |m'|t'|r' l'|t' k'|u' tag' sz' al' ms'|tag'|t' i' w']; cbn in H; try discriminate; cbn in D; try lia.
  1, 4: f_equal; apply Nat.eqb_eq; exact H.
  1, 3: reflexivity.
  1, 2: f_equal; apply match_eq; exact H.
  - f_equal. apply IH; [lia|exact H].
  - apply andb_prop in H as (A & B). f_equal; [apply IH; [lia|exact A]|]. assert (L : (fold_right (fun t n => Nat.max (depth t) n) O l <= n)%nat) by lia. clear D A.
    revert l' B. induction l as [|y l IHl]; intros [|y' l'] B; try discriminate; [reflexivity|]. cbn [fold_right] in L. apply andb_prop in B as (A & B). f_equal; [apply IH; [lia|exact A]|apply IHl; [lia|exact B]].
  - repeat (apply andb_prop in H as (H & ?)). assert (L : (fold_right (fun m n => Nat.max (depth (snd (fst m))) n) O ms <= n)%nat) by lia.
    apply Bool.eqb_prop in H. apply match_eq in H3. f_equal; try assumption; try lia. clear H H1 H2 H3 D. rename H0 into B.
    revert ms' B. induction ms as [|((nm & y) & o) ms IHl]; intros [|((nm' & y') & o') ms'] B; try discriminate; [reflexivity|]. cbn [fold_right fst snd] in L.
    repeat (apply andb_prop in B as (B & ?)). apply match_eq in B. f_equal; [|apply IHl; [lia|assumption]]. f_equal; [f_equal; [exact B|apply IH; [lia|assumption]]|lia].
Qed.

(** The hypotheses hold, and the comparison of a struct written with the name of the struct
    with one that contains the struct itself has to resolve the name. *)
Example C39_case : addresses case_same case_lookup /\ tables case_lookup /\ clean (struct_x (struct_x (Unresolved x))) /\
  types_are_equal case_same case_lookup 10 (struct_x (Unresolved x)) (struct_x (struct_x (Unresolved x))) = Done true /\
  types_are_equal case_same case_lookup 10 (Pointer (Pointer (Unresolved x))) (Pointer (Pointer (struct_x (struct_x (Unresolved x))))) = Done true /\
  types_are_equal case_same case_lookup 10 (Pointer (Unresolved x)) (Pointer (Pointer (Unresolved x))) = Done false.
Proof.
  assert (L : forall n t, case_lookup n = Some t -> n = x /\ t = struct_x (Unresolved x)).
  { intros n t H. unfold case_lookup in H. destruct (names_match n x) eqn:N; [|discriminate]. apply match_eq in N. split; congruence. }
  split; [|split; [|split; [|split; [|split]]]].
  - split; [intros a b; apply (case_same_eq (depth a)); lia|]. split; [intro i; apply Nat.eqb_refl|]. split; [reflexivity|]. intros n t H. apply L in H as (_ & ->). vm_compute. reflexivity.
  - intros n t H. apply L in H as (-> & ->). cbn. repeat split.
  - cbn. repeat split.
  - vm_compute. reflexivity.
  - vm_compute. reflexivity.
  - vm_compute. reflexivity.
Qed.

(** With the usual rule (largest alignment, end of the last member rounded up) the table is natural. *)
Definition usual_rule (u : bool) (l : list (Z * Z * Z)) : Z * Z :=
  let a := fold_right (fun m a => Z.max (snd (fst m)) a) 1 l in
  let e := fold_right (fun m e => Z.max (snd m + fst (fst m)) e) 0 l in ((e + a - 1) / a * a, a).
Example C39_layout_case : natural_tables case_lookup (fun _ => (4, 4)) usual_rule /\ natural case_lookup (fun _ => (4, 4)) usual_rule (struct_x (struct_x (Unresolved x))).
Proof.
  split; [|vm_compute; repeat split]. intros n t H. unfold case_lookup in H. destruct (names_match n x); [|discriminate]. assert (E : t = struct_x (Unresolved x)) by congruence. subst t. vm_compute. repeat split.
Qed.

(** The type of erroneous expressions equals everything, so transitivity fails there. *)
Theorem C39_poison_refuted : exists same lookup, addresses same lookup /\ tables lookup /\
  types_are_equal same lookup 1 (Basic 0) Poison = Done true /\ types_are_equal same lookup 1 Poison (Basic 1) = Done true /\
  forall fuel, types_are_equal same lookup fuel (Basic 0) (Basic 1) <> Done true.
Proof.
  exists case_same, case_lookup. split; [apply C39_case|]. split; [apply C39_case|]. split; [reflexivity|]. split; [reflexivity|]. intros [|f]; cbn; discriminate.
Qed.
Print Assumptions C39_poison_refuted.

(** [struct s { int a; char b; }] and the same under [#pragma pack(1)] have the same members at
    the same offsets.  They compare equal although one has size 8 and the other size 5. *)
Theorem C39_packing_refuted : exists same lookup basic a b, addresses same lookup /\ tables lookup /\ clean a /\ clean b /\
  types_are_equal same lookup 2 a b = Done true /\ layout lookup basic a = (8, 4) /\ layout lookup basic b = (5, 1).
Proof.
  exists case_same, case_lookup, (fun i => if Nat.eqb i 0 then (4, 4) else (1, 1)).
  exists (Compound false [115] 8 4 [([97], Basic 0, 0); ([98], Basic 1, 4)]), (Compound false [115] 5 1 [([97], Basic 0, 0); ([98], Basic 1, 4)]).
  split; [apply C39_case|]. split; [apply C39_case|]. cbn [clean fold_right fst snd]. split; [auto|]. split; [auto|]. split; [vm_compute; reflexivity|]. split; reflexivity.
Qed.
Print Assumptions C39_packing_refuted.
