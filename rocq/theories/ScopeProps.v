(** C21: name lookup finds the innermost, most recent declaration. *)
From Verif Require Import Base ScopeModel ScopeSpec ScopeProofs.

(** For every hash function and every history of scopes and declarations that closes no
    more scopes than it opens, the compiler processes the history and then finds, for every
    identifier, the declaration the language prescribes. *)
Theorem C21_lookup_is_lexical : forall string_hash global es scopes n,
  opened [] es = Some scopes ->
  exists tables warnings, run string_hash [] es = Done (tables, warnings) /\
    lookup_declaration string_hash global tables n = Done (meaning global scopes n).
Proof. exact scopes_ok. Qed.
Print Assumptions C21_lookup_is_lexical.

(** A declaration is reported as hiding another one of the same scope exactly if there is one. *)
Theorem C21_same_scope_warning : forall string_hash es f ds outer d,
  opened [] es = Some ((f, ds) :: outer) ->
  exists tables warnings tables' w, run string_hash [] es = Done (tables, warnings) /\
    step string_hash tables (Declare d) = Done (tables', w) /\
    (w = true <-> exists d', In d' ds /\ d_name d' = d_name d).
Proof.
  intros H es f ds outer d O. destruct (run_ok H es [] [] _ ltac:(constructor) O) as (scopes & R & F).
  inversion F as [|s p scopes0 ps0 (Bf & Bh) F0]; subst. cbn [fst snd] in *. destruct (register_holds H s ds d Bh) as (s' & R1 & _).
  exists (s :: scopes0), (hides [] es). cbn [step]. rewrite R1. cbn [obind]. eexists. eexists. split; [exact R|]. split; [reflexivity|].
  unfold latest. destruct (find _ ds) as [d'|] eqn:Q.
  - apply find_some in Q. destruct (name_eq (d_name d') (d_name d)); [|destruct Q; discriminate]. split; [intros _; exists d'; tauto|reflexivity].
  - split; [discriminate|]. intros (d' & Hi & Hn). pose proof (find_none _ _ Q d' Hi) as N. cbn in N. destruct (name_eq (d_name d') (d_name d)); [discriminate|contradiction].
Qed.
Print Assumptions C21_same_scope_warning.

(** A history with a constant hash (every name collides), shadowing, redeclaration in one
    scope and growth of the table. *)
Definition nm (c : Z) : name := [c].
Definition history : list event :=
  [Enter true; Declare (mkdecl (nm 1) 1); Declare (mkdecl (nm 2) 2); Declare (mkdecl (nm 1) 3); Declare (mkdecl (nm 3) 4);
   Declare (mkdecl (nm 4) 5); Enter false; Declare (mkdecl (nm 2) 6); Enter false; Declare (mkdecl (nm 3) 7); Leave].
Example C21_history :
  match run (fun _ => 3) [] history with
  | Done (tables, warnings) =>
      (map (fun c => match lookup_declaration (fun _ => 3) (fun _ => None) tables (nm c) with Done (Some d) => d_serial d | _ => 0%nat end) [1; 2; 3; 4; 5],
       warnings, map capacity tables)
  | _ => ([], [], [])
  end = ([3; 6; 4; 5; 0]%nat, [false; false; false; true; false; false; false; false; false; false; false], [8; 16]).
Proof. vm_compute. reflexivity. Qed.
Example C21_history_opens : exists scopes, opened [] history = Some scopes /\ length scopes = 2%nat.
Proof. eexists. split; reflexivity. Qed.
