(** C34: exactly the reachable functions and data are emitted, each once. *)
From Verif Require Import Base ScopeModel ReachModel ReachSpec ReachProofs.

(** For every finite graph of references, with cycles and sharing, the search ends, flags
    exactly the reachable declarations, queues exactly the reachable functions that have code,
    evaluates exactly the reachable initializers, and does each once.  What is not defined here
    is looked up in the libraries if it is referenced.  The hypothesis on the roots is what
    main.c 5434-5436 and 3593-3602 establish for object files and the entry point. *)
Theorem C34_reachable_exactly_once : forall n g obj roots,
  finite n g roots ->
  (forall d, In d roots -> is_function (g d) = true -> defined (g d) = true -> intrinsic (g d) = false /\ inline_asm (g d) = false) ->
  exists steps, forall fuel, (steps <= fuel)%nat -> exists s, find_reachable g obj fuel roots = Done s /\
    (forall d, flag s d = true <-> reachable g roots d) /\
    (forall d, In d (code s) <-> reachable g roots d /\ has_code (g d) = true) /\ NoDup (code s) /\
    (forall d, In d (data s) <-> reachable g roots d /\ has_data (g d) = true) /\ NoDup (data s) /\
    (forall d, ~ In d roots -> (In d (libraries s) <-> reachable g roots d /\ is_import (g d) = true /\ obj = false)) /\ NoDup (libraries s).
Proof. intros n g obj roots F H. exists (total g (fun _ => false) n). intros fuel L. exact (find_ok n g obj roots F H fuel L). Qed.
Print Assumptions C34_reachable_exactly_once.

(** main (0) calls f (1) and uses x (2); f calls itself, g (3) and an import (4); g calls f;
    5 is not used, 6 is an inline assembly function. *)
Definition case_graph (d : nat) : declaration :=
  match d with
  | 0%nat => mkdecl true true false false false false [1; 2; 1]%nat
  | 1%nat => mkdecl true true false false false false [1; 3; 4]%nat
  | 2%nat => mkdecl false true false false false false [3]%nat
  | 3%nat => mkdecl true true false false false false [1; 6]%nat
  | 4%nat => mkdecl true false false false false false []
  | 5%nat => mkdecl true true false false false false [0]%nat
  | 6%nat => mkdecl true true false true false false []
  | _ => mkdecl false false false false false false []
  end.
Example C34_case : finite 7 case_graph [0%nat] /\
  (forall d, In d [0%nat] -> is_function (case_graph d) = true -> defined (case_graph d) = true -> intrinsic (case_graph d) = false /\ inline_asm (case_graph d) = false) /\
  match find_reachable case_graph false 100 [0%nat] with Done s => code s = [0; 1; 3]%nat /\ data s = [2%nat] /\ libraries s = [4%nat] | _ => False end.
Proof.
  split; [split|split].
  - intros d [<-|[]]. lia.
  - intros d e L. do 7 (destruct d as [|d]; [cbn; intuition lia|]). lia.
  - intros d [<-|[]] _ _. split; reflexivity.
  - cbn. repeat split.
Qed.

(** Without the hypothesis on the roots the result depends on their order: an exported inline
    assembly function that another exported function references is queued for code generation
    if it comes first in the list, and is not queued if it comes second. *)
Theorem C34_inline_asm_root_refuted : exists g a b s t,
  find_reachable g false 100 [a; b] = Done s /\ find_reachable g false 100 [b; a] = Done t /\ In a (code s) /\ ~ In a (code t).
Proof.
  exists (fun d => match d with O => mkdecl true true false true false true [] | _ => mkdecl true true false false false true [0%nat] end), 0%nat, 1%nat.
  eexists. eexists. split; [cbn; reflexivity|]. split; [cbn; reflexivity|]. cbn. split; [auto|]. intros [Q|[]]. discriminate.
Qed.
Print Assumptions C34_inline_asm_root_refuted.
