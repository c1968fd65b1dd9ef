(** C45: which functions code is generated for.  C's constraints are those of StmtRulesSpec.v. *)
From Coq Require Import List ZArith Bool Lia.
From Verif Require Import Base IntTypes CSpec IntModel LowerSpec LowerModel LowerProofs BranchSpec BranchModel BranchProofs BranchRun
                          StmtSpec StmtModel StmtShape StmtProofs StmtProps StmtRulesSpec StmtRulesProofs StmtTargets.
Import ListNotations.
Open Scope Z_scope.

(** Code is only generated for functions that keep the constraints: everything else is reported. *)
Theorem C45_constraints : forall first ty rt is_main body code c,
  compiled first ty rt is_main body code c -> allowed ty rt body.
Proof. intros first ty rt is_main body code c [Lo W]. eapply function_rules; eauto. Qed.
Print Assumptions C45_constraints.

(** An expression that has a value, with all of its parts, for some values of the variables. *)
Definition has_some_value (first : nat) (ty : typing) (e : bexpr) : Prop :=
  exists env m, holds_below first ty env m /\ all_defined ty env e.

(** Conversely, a function that keeps the constraints is accepted if its expressions can be evaluated. *)
Theorem C45_accepted_partial : forall first ty rt is_main body,
  stmt_ok first body -> allowed ty rt body -> expressions (has_some_value first ty) body ->
  exists code c, compiled first ty rt is_main body code c.
Proof.
  intros first ty rt is_main body W A E.
  assert (F : forall e, expr_ok first e -> has_some_value first ty e -> fine first ty e).
  { intros e (V & L & N) (env & m & H & D) c. exact (generate_accepts first ty env m H e c V L N D). }
  assert (Ff : forall f, effect_ok first f -> in_effect (has_some_value first ty) f -> in_effect (fine first ty) f).
  { intros [e|x e] We V; cbn in *; [auto|]. destruct We. auto. }
  assert (X : expressions (fine first ty) body).
  { clear A. revert W E. induction body as [|f|a IHa b IHb|e a IHa|e a IHa b IHb|e a IHa|a IHa e|c0 f a IHa| | |e a IHa|t p a IHa|a IHa|e|n|n a IHa]; cbn [stmt_ok expressions]; intros W E;
      repeat match goal with H : _ /\ _ |- _ => destruct H end; repeat split; auto.
    - destruct c0; cbn [all] in *; auto.
    - destruct f; cbn [all] in *; auto.
    - destruct e; cbn [all] in *; auto. }
  destruct (function_accepts first ty rt is_main body W A X) as [[code c] Lo]. exists code, c. split; assumption.
Qed.
Print Assumptions C45_accepted_partial.

(** The function of [C45_applies] keeps the constraints, and these do not:
    [switch(n){ case 1: ; case 4294967297: ; }], [continue;] in a switch, two labels of one name. *)
Example C45_accepted_applies :
  stmt_ok 2 st_body /\ allowed st_ty (Some S32) st_body /\ expressions (has_some_value 2 st_ty) st_body /\
  ~ allowed st_ty None (SSwitch (BVar 0) (SSeq (SCase S32 1 SSkip) (SCase S64 4294967297 SSkip))) /\
  ~ allowed st_ty None (SSwitch (BVar 0) SContinue) /\
  ~ allowed st_ty None (SSeq (SLabel 1 SSkip) (SLabel 1 SSkip)).
Proof.
  split; [cbn; repeat split; try exact I; try (cbn; lia); try discriminate|]. split; [|split; [|split; [|split]]].
  - split; [|split].
    + cbn [rules st_body st_add]. repeat split; try discriminate; auto. vm_compute. repeat constructor; cbn; intuition discriminate.
    + vm_compute. repeat constructor. intros [].
    + vm_compute. intros x [<-|[]]. left. reflexivity.
  - assert (H : forall e, all_defined st_ty (st_env 4) e -> has_some_value 2 st_ty e).
    { intros e D. exists (st_env 4). eexists. split; [apply (st_holds 4); lia|exact D]. }
    cbn [expressions st_body st_add in_effect all]. repeat split; try exact I; apply H; vm_compute; repeat split; discriminate.
  - intros [K _]. vm_compute in K. destruct K as [N _]. inversion N as [|? ? X _]. apply X. left. reflexivity.
  - intros [K _]. vm_compute in K. destruct K as (_ & _ & X). discriminate.
  - intros (_ & N & _). vm_compute in N. inversion N as [|? ? X _]. apply X. left. reflexivity.
Qed.

(** Every jump, and every case and the default of every switch, has its place in the code; no goto is
    left without a label. *)
Theorem C45_jumps : forall first ty rt is_main body code c,
  compiled first ty rt is_main body code c -> forall i, In i code ->
  (forall n, i = Plain (Jump n) \/ (exists b, i = Plain (Jump_if b n)) -> In (Plain (Jump_label n)) code) /\
  (forall id cs d, i = Switch id cs d -> In (Plain (Jump_label d)) code /\ forall v, In v cs -> In (Case id v) code) /\
  (forall n, i <> Goto n).
Proof.
  intros first ty rt is_main body code c [Lo _] i Hi. pose proof (function_targets first ty rt is_main body code c Lo) as F.
  rewrite Forall_forall in F. destruct (F i Hi) as [G R].
  assert (La : forall n, In (inl n) (marks code) -> In (Plain (Jump_label n)) code).
  { intros n K. unfold marks in K. apply in_flat_map in K. destruct K as (j & Hj & K). destruct j as [j| | | |]; [destruct j|..]; cbn in K; try contradiction; destruct K as [K|[]]; try discriminate.
    injection K as ->. exact Hj. }
  assert (Ca : forall id v, In (inr (id, v)) (marks code) -> In (Case id v) code).
  { intros id v K. unfold marks in K. apply in_flat_map in K. destruct K as (j & Hj & K). destruct j as [j| | | |]; [destruct j|..]; cbn in K; try contradiction; destruct K as [K|[]]; try discriminate.
    injection K as -> ->. exact Hj. }
  split; [|split].
  - intros n [->|[b ->]]; apply La, G.
  - intros id cs d ->. destruct G as [G1 G2]. split; [apply La, G1|]. intros v K. apply Ca, G2, K.
  - intros n ->. discriminate.
Qed.
Print Assumptions C45_jumps.
