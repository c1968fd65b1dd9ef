(** C37: a redefinition is accepted silently iff it is the same definition. *)
From Verif Require Import Base ScopeModel DefineModel DefineSpec DefineProofs.

(** One direction holds for all definitions: if the text behind the macro's name is the same
    but for white space and comments, no warning is given. *)
Theorem C37_same_is_accepted : forall a b da, same_text a b -> parse_define a = Done da ->
  exists db, parse_define b = Done db /\ equivalent db da = Done true.
Proof. exact same_accepted. Qed.
Print Assumptions C37_same_is_accepted.

(** The other direction: a definition that differs is diagnosed.  Full statement: without the
    hypotheses [plain].  Missing: definitions that use [#] or [##] or call a parameter
    [__VA_ARGS__]; for these it is false, see below. *)
Theorem C37_difference_is_diagnosed_partial : forall a b da db, plain a -> plain b ->
  parse_define a = Done da -> parse_define b = Done db -> ~ same_text a b -> equivalent db da = Done false.
Proof.
  intros a b da db Pa Pb Ea Eb N. destruct (equivalent_done db da) as ([|] & E); [|exact E]. destruct N. eapply accepted_same; eassumption.
Qed.
Print Assumptions C37_difference_is_diagnosed_partial.

Definition x : name := [120].
Definition y : name := [121].
Definition sp := Space [32].
(** [#define M(x, y) #x] and then [#define M(x, y) #y]: accepted as the same. *)
Theorem C37_stringify_refuted : exists a b da db, ~ same_text a b /\ parse_define a = Done da /\ parse_define b = Done db /\ equivalent db da = Done true.
Proof.
  exists [Open; Ident x; Comma; sp; Ident y; Closed; sp; Hash; Ident x], [Open; Ident x; Comma; sp; Ident y; Closed; sp; Hash; Ident y].
  eexists. eexists. split; [intros (_ & E); discriminate|]. repeat split; vm_compute; reflexivity.
Qed.
Print Assumptions C37_stringify_refuted.
(** [#define M(x) x ## 1] and then [#define M(x) x ## 2]. *)
Theorem C37_paste_refuted : exists a b da db, ~ same_text a b /\ parse_define a = Done da /\ parse_define b = Done db /\ equivalent db da = Done true.
Proof.
  exists [Open; Ident x; Closed; sp; Ident x; sp; HashHash; sp; Other [49]], [Open; Ident x; Closed; sp; Ident x; sp; HashHash; sp; Other [50]].
  eexists. eexists. split; [intros (_ & E); discriminate|]. repeat split; vm_compute; reflexivity.
Qed.
Print Assumptions C37_paste_refuted.
(** [#define M(...)] and then [#define M(__VA_ARGS__)]. *)
Theorem C37_varargs_refuted : exists a b da db, ~ same_text a b /\ parse_define a = Done da /\ parse_define b = Done db /\ equivalent db da = Done true.
Proof.
  exists [Open; Dots; Closed], [Open; Ident va_args; Closed].
  eexists. eexists. split; [intros (_ & E); discriminate|]. repeat split; vm_compute; reflexivity.
Qed.
Print Assumptions C37_varargs_refuted.

(** [#define M(x, y) (x + y)] and a respelled copy of it meet the hypotheses; a third
    definition with the operands swapped is diagnosed. *)
Definition sum1 := [Open; Ident x; Comma; Ident y; Closed; sp; Open; Ident x; sp; Other [43]; sp; Ident y; Closed].
Definition sum2 := [Open; sp; Ident x; Comma; sp; Ident y; sp; Closed; sp; sp; Open; Ident x; Other [43]; Space [47; 42; 42; 47]; Ident y; Closed; sp].
Definition sum3 := [Open; Ident x; Comma; Ident y; Closed; sp; Open; Ident y; sp; Other [43]; sp; Ident x; Closed].
Ltac not_in := let Q := fresh in intro Q; cbn in Q; repeat (destruct Q as [Q|Q]; [discriminate|]); exact Q.
Example C37_case : same_text sum1 sum2 /\ plain sum1 /\ plain sum2 /\ plain sum3 /\ ~ same_text sum1 sum3 /\
  (exists d1 d2 d3, parse_define sum1 = Done d1 /\ parse_define sum2 = Done d2 /\ parse_define sum3 = Done d3 /\ equivalent d2 d1 = Done true /\ equivalent d3 d1 = Done false).
Proof.
  split; [split; reflexivity|]. split; [split; [|split; [|intros _]]; not_in|]. split; [split; [|split; [|intros _]]; not_in|]. split; [split; [|split; [|intros _]]; not_in|].
  split; [intros (_ & E); discriminate|]. eexists. eexists. eexists. repeat split; vm_compute; reflexivity.
Qed.
