(** C44: the intermediate code generated for integer expressions with [&&], [||] and [?:].  C's side is
    BranchSpec.v; code is run by [run] of BranchModel.v.  Variables are numbered; those
    from [first] on are the temporaries the compiler adds. *)
From Coq Require Import List ZArith Bool Lia.
From Verif Require Import Base IntTypes CSpec IntModel IntProofs LowerSpec LowerModel LowerProofs LowerProps
                          BranchSpec BranchModel BranchProofs BranchRun.
Import ListNotations.
Open Scope Z_scope.

Definition at_start : counters := mkcounters 0 [].

(** Whenever code is generated for an expression that has a value, the code has the C type, and running it in any
    memory that holds the variables, on any stack, pushes the value and changes no variable
    of the program.  Operands that C does not evaluate need not have a value.  Only comma
    operators with a constant on the right are excluded (see [C44_constant_comma_refuted]). *)
Theorem C44_branches_partial : forall first ty env m e t v q c,
  holds_below first ty env m -> variables_below first e -> blits_ok e -> no_constant_after_comma e ->
  beval ty env e = Some (t, v) ->
  generate first ty e at_start = Done (q, c) ->
  let bits_of := sizes (all_types first ty c) in
  resolved_type q = t /\
  exists r m',
    (forall s, run bits_of (emit q) None s m = Next (r :: s, m')) /\
    (forall x, (x < first)%nat -> m' x = m x) /\
    fetch bits_of m' (width t) r = Next (v mod 2 ^ width t).
Proof.
  intros first ty env m e t v q c H W LO NC E G bits_of.
  pose proof (generate_pushes first ty c env m e at_start q c t v H W LO NC E G (grows_refl c)) as P.
  split; [apply P|]. destruct (emit_run first ty c m _ q t v m P (agree_refl _ _)) as (r & m' & X & A & Y & _).
  exists r, m'. split; [exact X|]. split; [|exact (fetch_yields (all_types first ty c) m' r t v Y)].
  intros x Lx. apply A. unfold variable_of. lia.
Qed.
Print Assumptions C44_branches_partial.

(** If in addition every operand has a value, evaluated or not, code is generated. *)
Theorem C44_branches_accepted_partial : forall first ty env m e c,
  holds_below first ty env m -> variables_below first e -> blits_ok e -> no_constant_after_comma e ->
  all_defined ty env e -> exists q c', generate first ty e c = Done (q, c').
Proof. intros first ty env m e c H W LO NC D. exact (generate_accepts first ty env m H e c W LO NC D). Qed.
Print Assumptions C44_branches_accepted_partial.

(** Every label is placed at most once; every jump goes to a label that is placed behind it.  This
    is what lets [run] look for labels only behind the jump. *)
Theorem C44_labels : forall first ty e c q c',
  variables_below first e -> generate first ty e c = Done (q, c') ->
  (forall before n after, emit q = before ++ Jump_label n :: after -> ~ In (Jump_label n) before /\ ~ In (Jump_label n) after) /\
  (forall before i after n, emit q = before ++ i :: after -> (i = Jump n \/ exists b, i = Jump_if b n) -> In (Jump_label n) after).
Proof.
  intros first ty e c q c' W G. destruct (generate_shaped first ty e c q c' W G) as (_ & N & _). pose proof (generate_forward first ty e c q c' G) as F.
  revert N F. generalize (emit q). clear. intros code N F. split.
  - intros before n after ->. rewrite labels_app, labels_cons in N. cbn [app] in N. apply NoDup_remove_2 in N. rewrite in_app_iff in N.
    split; intro K; apply N; [left|right]; apply labels_in, K.
  - intros before i after n -> J. clear N. induction before as [|j before IH]; [|apply IH, F]. destruct F as [F _].
    destruct J as [->|[b ->]]; exact F.
Qed.
Print Assumptions C44_labels.

(** [x && 10 / x > 2 ? c : u || x], [c] signed char, [u] unsigned short, [x] int. *)
Definition br_ty : typing := fun x => match x with O => S8 | S O => U16 | _ => S32 end.
Definition br_env (x : Z) : values := fun i => match i with O => -5 | S O => 9 | _ => x end.
Definition br_mem (x : Z) : memory := fun i => match i with O => 251 | S O => 9 | _ => x end.
Definition br_expr : bexpr :=
  BCond (BAnd (BVar 2) (BCmp OGt (BArith ODiv (BLit S32 10) (BVar 2)) (BLit S32 2))) (BVar 0) (BOr (BVar 1) (BVar 2)).

Lemma br_holds : forall x, 0 <= x <= 100 -> holds_below 3 br_ty (br_env x) (br_mem x).
Proof.
  intros x X i L. assert (R : x mod 2 ^ 32 = x) by (apply Z.mod_small; lia).
  unfold object_value, in_range. destruct i as [|[|[|i]]]; [..|lia]; (split; [split; [|discriminate]|]).
  - cbn. lia.
  - reflexivity.
  - cbn. lia.
  - reflexivity.
  - cbn [br_ty br_env]. change (minv S32) with (-2147483648). change (maxv S32) with 2147483647. lia.
  - cbn [br_ty br_env br_mem]. change (width S32) with 32. symmetry. exact R.
Qed.

Example C44_branches_applies :
  variables_below 3 br_expr /\ blits_ok br_expr /\ no_constant_after_comma br_expr /\
  holds_below 3 br_ty (br_env 3) (br_mem 3) /\ holds_below 3 br_ty (br_env 0) (br_mem 0) /\
  beval br_ty (br_env 3) br_expr = Some (S32, -5) /\ beval br_ty (br_env 0) br_expr = Some (S32, 1) /\
  (exists q c, generate 3 br_ty br_expr at_start = Done (q, c) /\
     (length (emit q) = 50)%nat /\
     run (sizes (all_types 3 br_ty c)) (emit q) None [] (br_mem 3) <> Stuck).
Proof.
  split; [cbn; lia|]. split; [cbn; repeat split; try lia; discriminate|]. split; [cbn; tauto|].
  split; [apply br_holds; lia|]. split; [apply br_holds; lia|]. split; [vm_compute; reflexivity|]. split; [vm_compute; reflexivity|].
  eexists _, _. split; [vm_compute; reflexivity|]. split; [reflexivity|]. lazy. discriminate.
Qed.

(** All of it is defined for [x = 3]. *)
Example C44_branches_accepted_applies : all_defined br_ty (br_env 3) br_expr.
Proof. cbn [all_defined br_expr]. repeat split; try exact I; vm_compute; discriminate. Qed.

(** Not everything that has a value is accepted: [0 && 1 / 0] is 0, the compiler reports the
    division. *)
Theorem C44_unevaluated_refuted :
  ~ (forall first ty env m e t v,
     holds_below first ty env m -> variables_below first e -> blits_ok e -> no_constant_after_comma e ->
     beval ty env e = Some (t, v) -> exists q c, generate first ty e at_start = Done (q, c)).
Proof.
  intro H. destruct (H O br_ty (br_env 0) (br_mem 0) (BAnd (BLit S32 0) (BArith ODiv (BLit S32 1) (BLit S32 0))) S32 0) as (q & c & G).
  - intros x X. lia.
  - cbn. tauto.
  - cbn. repeat split; try lia; discriminate.
  - cbn. tauto.
  - vm_compute. reflexivity.
  - vm_compute in G. discriminate.
Qed.
Print Assumptions C44_unevaluated_refuted.
