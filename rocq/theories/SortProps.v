(** Property C26: sorting of diagnostics and exports. *)
From Coq Require Import Permutation Sorted.
From Verif Require Import Base SortModel SortProofs.

(** For every strict weak order the sort terminates with an ordered permutation. *)
Theorem C26_sort_terminates_sorted : forall A (smaller : A -> A -> bool),
  strict_weak_order smaller ->
  forall l, exists fuel res,
    sll_sort smaller fuel l = Some res /\
    Permutation l res /\
    StronglySorted (fun x y => smaller y x = false) res.
Proof. exact @sll_sort_ok. Qed.
Print Assumptions C26_sort_terminates_sorted.

(** The fuel of the model does not matter. *)
Theorem C26_sort_fuel_irrelevant : forall A (smaller : A -> A -> bool) f1 f2 l r1 r2,
  sll_sort smaller f1 l = Some r1 -> sll_sort smaller f2 l = Some r2 -> r1 = r2.
Proof. exact sll_sort_deterministic. Qed.
Print Assumptions C26_sort_fuel_irrelevant.

(** Diagnostics: printed in the lexicographic order of (unit, stage, no position first,
    position). *)
Theorem C26_diagnostics_sorted : forall errors, exists fuel res,
  sll_sort error_node_smaller_function fuel errors = Some res /\
  Permutation errors res /\
  StronglySorted (fun x y => ~ lex_lt (error_key y) (error_key x)) res.
Proof.
  intros errors. destruct (sll_sort_ok _ error_swo errors) as (f & r & S & P & O).
  exists f, r. split; [exact S|]. split; [exact P|].
  clear S P. induction O; constructor; auto.
  eapply Forall_impl; [|exact H]. intros y Hy L. apply error_spec in L. unfold le in Hy. congruence.
Qed.
Print Assumptions C26_diagnostics_sorted.

(** The same without the compiler's own numbers for the stages. *)
Inductive earlier : compile_stage -> compile_stage -> Prop :=
| tokenizing_first : forall s, s <> stage_tokenize -> earlier stage_tokenize s
| global_before_functions : earlier stage_parse_global stage_parse_function
| global_before_code : earlier stage_parse_global stage_emit
| functions_before_code : earlier stage_parse_function stage_emit.
(** In the tokenizer the position is file, line and column; later, tokens lie in memory in the order of the source. *)
Inductive before : compile_stage -> token_location -> token_location -> Prop :=
| by_file : forall t u, file_index t < file_index u -> before stage_tokenize t u
| by_line : forall t u, file_index t = file_index u -> line t < line u -> before stage_tokenize t u
| by_column : forall t u, file_index t = file_index u -> line t = line u -> column t < column u -> before stage_tokenize t u
| by_token : forall s t u, s <> stage_tokenize -> token_address t < token_address u -> before s t u.
Inductive printed_before : error_node -> error_node -> Prop :=
| by_unit : forall a b, compilation_unit_index a < compilation_unit_index b -> printed_before a b
| by_stage : forall c s1 s2 t1 t2, earlier s1 s2 -> printed_before (mkerror c s1 t1) (mkerror c s2 t2)
| without_position : forall c s t, printed_before (mkerror c s None) (mkerror c s (Some t))
| by_position : forall c s t1 t2, before s t1 t2 -> printed_before (mkerror c s (Some t1)) (mkerror c s (Some t2)).

Lemma printed_key : forall a b, printed_before a b -> lex_lt (error_key a) (error_key b).
Proof.
  intros a b [x y H|c s1 s2 t1 t2 H|c s t|c s t1 t2 H].
  - apply lex_first. exact H.
  - apply lex_next, lex_first. destruct H as [[] H| | |]; try (vm_compute; reflexivity). congruence.
  - apply lex_next, lex_next, lex_first. lia.
  - apply lex_next, lex_next, lex_next. cbn [error_stage]. destruct H as [t u H|t u E H|t u E F H|s t u N H].
    + apply lex_first. exact H.
    + rewrite E. apply lex_next, lex_first. exact H.
    + rewrite E, F. apply lex_next, lex_next, lex_first. exact H.
    + destruct s; [congruence| | |]; apply lex_first; exact H.
Qed.

Theorem C26_diagnostics_in_order : forall errors, exists fuel res,
  sll_sort error_node_smaller_function fuel errors = Some res /\
  Permutation errors res /\
  StronglySorted (fun x y => ~ printed_before y x) res.
Proof.
  intros errors. destruct (C26_diagnostics_sorted errors) as (f & r & E & P & O). exists f, r. split; [exact E|]. split; [exact P|].
  clear E P. induction O; constructor; auto. eapply Forall_impl; [|exact H]. intros y Hy X. apply Hy, printed_key, X.
Qed.
Print Assumptions C26_diagnostics_in_order.

(** Two units; in the first an error of a function, one of the global scope and two of the tokenizer. *)
Example C26_diagnostics_ex :
  let error c s l := mkerror c s (Some (mktoken 0 l 0 l)) in
  sll_sort error_node_smaller_function 100
    [error 1 stage_tokenize 1; error 0 stage_parse_function 1; error 0 stage_parse_global 2; error 0 stage_tokenize 4; error 0 stage_tokenize 3] =
  Some [error 0 stage_tokenize 3; error 0 stage_tokenize 4; error 0 stage_parse_global 2; error 0 stage_parse_function 1; error 1 stage_tokenize 1].
Proof. vm_compute. reflexivity. Qed.

(** Names of exported functions: byte-wise lexicographic order, as the loader requires. *)
Theorem C26_exports_sorted : forall names, exists fuel res,
  sll_sort string_lexically_smaller fuel names = Some res /\
  Permutation names res /\
  StronglySorted (fun x y => ~ lex_lt y x) res.
Proof.
  intros names. destruct (sll_sort_ok _ lex_swo names) as (f & r & S & P & O).
  exists f, r. split; [exact S|]. split; [exact P|].
  clear S P. induction O; constructor; auto.
  eapply Forall_impl; [|exact H]. intros y Hy L. apply lex_spec in L. unfold le in Hy. congruence.
Qed.
Print Assumptions C26_exports_sorted.

Example C26_example :
  sll_sort string_lexically_smaller 100 [[98]; [97; 98]; [97]; [99]; [97; 98]; []] =
    Some [[]; [97]; [97; 98]; [97; 98]; [98]; [99]].
Proof. vm_compute. reflexivity. Qed.
