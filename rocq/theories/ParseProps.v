(** The property theorems about the expression parser. *)
From Verif Require Import Base ParseSyntax ParseSpec ParseModel ParseProofs.

Ltac up := eapply d_unit; [first [apply u_postfix | apply u_unary | apply u_cast | apply u_conditional | apply u_assignment | apply u_expression]|].

(** ** C06.  Every expression the grammar derives is read with the tree of the grammar, up to the first token that
    cannot continue it; it is rejected exactly when an operand of ++, --, & or = designates nothing.  The parser's stack
    has 1024 entries, [d] is the depth the derivation needs.  Partial: the property has no bound on the depth, but see the
    refutation below. *)
Theorem C06_reads_the_tree_of_the_grammar_partial : forall l e d k rest,
  derives expression_ l e d -> (d <= 1024)%nat -> ends_expression (k :: rest) ->
  exists enough, forall fuel, (enough <= fuel)%nat ->
    parse_expression 1024 fuel (l ++ k :: rest) = if constraints e then Done (e, k :: rest) else Reported.
Proof.
  intros l e d k rest D L K. apply (parse_derived 1024 l e d k rest D L); [|exact K].
  apply Nat.ltb_lt. vm_compute. reflexivity.
Qed.
Print Assumptions C06_reads_the_tree_of_the_grammar_partial.

(** a = b - c - d * e++ ? (f, -g[h]) : i = j; *)
Section Example.
Let id := T_identifier.
Let tokens : list token :=
  [id 1; T_equals; id 2; T_minus; id 3; T_minus; id 4; T_times; id 5; T_increment; T_question_mark;
   T_open_paren; id 6; T_comma; T_minus; id 7; T_open_index; id 8; T_closed_index; T_closed_paren; T_colon; id 9].
Let expected : tree :=
  Assign None (Name 1)
    (Conditional (Binary Minus (Binary Minus (Name 2) (Name 3)) (Binary Times (Name 4) (PostIncrement (Name 5))))
       (Comma (Name 6) (Prefix Negate (Subscript (Name 7) (Name 8)))) (Name 9)).

Example C06_example_derivation : exists d, derives expression_ tokens expected d /\ (d <= 7)%nat.
Proof.
  eexists. split.
  { unfold tokens, expected. up.
    eapply (d_assignment T_equals None [id 1]); [constructor|up; up; apply d_identifier|]. up.
    eapply (d_conditional [id 2; T_minus; id 3; T_minus; id 4; T_times; id 5; T_increment] _ _
             [T_open_paren; id 6; T_comma; T_minus; id 7; T_open_index; id 8; T_closed_index; T_closed_paren] _ _ [id 9]).
    - do 8 (eapply d_unit; [eapply u_binary; constructor|]).
      eapply (d_binary additive_ multiplicative_ T_minus Minus [id 2; T_minus; id 3] _ _ [id 4; T_times; id 5; T_increment]); [constructor| |].
      + eapply (d_binary additive_ multiplicative_ T_minus Minus [id 2] _ _ [id 3]); [constructor| |].
        * do 2 (eapply d_unit; [eapply u_binary; constructor|]). do 3 up. apply d_identifier.
        * eapply d_unit; [eapply u_binary; constructor|]. do 3 up. apply d_identifier.
      + eapply (d_binary multiplicative_ cast_ T_times Times [id 4] _ _ [id 5; T_increment]); [constructor| |].
        * eapply d_unit; [eapply u_binary; constructor|]. do 3 up. apply d_identifier.
        * do 2 up. eapply (d_increment [id 5]). up. apply d_identifier.
    - do 3 up. do 10 (eapply d_unit; [eapply u_binary; constructor|]). do 3 up.
      eapply (d_parentheses [id 6; T_comma; T_minus; id 7; T_open_index; id 8; T_closed_index]).
      eapply (d_comma [id 6] _ _ [T_minus; id 7; T_open_index; id 8; T_closed_index]).
      + do 3 up. do 10 (eapply d_unit; [eapply u_binary; constructor|]). do 3 up. apply d_identifier.
      + do 2 up. do 10 (eapply d_unit; [eapply u_binary; constructor|]). up.
        eapply d_prefix; [constructor|]. do 2 up. eapply (d_subscript [id 7] _ _ [id 8]).
        * up. apply d_identifier.
        * do 3 up. do 10 (eapply d_unit; [eapply u_binary; constructor|]). do 3 up. apply d_identifier.
    - up. do 10 (eapply d_unit; [eapply u_binary; constructor|]). do 3 up. apply d_identifier. }
  cbn. lia.
Qed.
Example C06_example_run : parse_expression 1024 200 (tokens ++ [T_semicolon]) = Done (expected, [T_semicolon]).
Proof. vm_compute. reflexivity. Qed.
End Example.

(** The operators of a level group to the left, assignments to the right, and a left side that is no object is an error. *)
Example C06_example_errors :
  parse_expression 1024 100 [T_identifier 1; T_plus; T_identifier 2; T_equals; T_identifier 3; T_semicolon] = Reported /\
  parse_expression 1024 100 [T_identifier 1; T_plus_equals; T_identifier 2; T_equals; T_identifier 3; T_semicolon]
    = Done (Assign (Some Plus) (Name 1) (Assign None (Name 2) (Name 3)), [T_semicolon]).
Proof. split; vm_compute; reflexivity. Qed.

(** Whatever the tokens are, the parser stops: it neither runs forever nor takes an operator from an empty stack. *)
Theorem C06_every_input_ends : forall l,
  exists enough r, r <> Crash /\ forall fuel, (enough <= fuel)%nat -> parse_expression 1024 fuel l = r.
Proof. exact (every_input_ends 1024). Qed.
Print Assumptions C06_every_input_ends.

(** So the grammar is not ambiguous: no two trees for the same tokens. *)
Theorem C06_grammar_is_unambiguous : forall l e d e' d',
  derives expression_ l e d -> derives expression_ l e' d' -> constraints e = true -> constraints e' = true -> e = e'.
Proof.
  intros l e d e' d' D D' C C'.
  destruct (parse_derived (S (Nat.max d d')) l e d T_semicolon [] D) as (N & H); [lia|lia|exact Logic.I|].
  destruct (parse_derived (S (Nat.max d d')) l e' d' T_semicolon [] D') as (N' & H'); [lia|lia|exact Logic.I|].
  specialize (H (N + N')%nat ltac:(lia)). specialize (H' (N + N')%nat ltac:(lia)). rewrite C in H. rewrite C' in H'.
  rewrite H in H'. congruence.
Qed.
Print Assumptions C06_grammar_is_unambiguous.

(** Without the bound on the depth the property is false: with 1024 prefix operators pending, the operand (x + y) is torn
    apart, because a nested call does not protect a full stack. *)
Theorem C06_full_stack_regroups_refuted : forall ps x y k rest,
  forallb plain ps = true -> length ps = 1024%nat -> ends_expression (k :: rest) ->
  (exists d, derives expression_ (map plain_token ps ++ [T_open_paren; T_identifier x; T_plus; T_identifier y; T_closed_paren])
                     (apply_prefixes ps (Binary Plus (Name x) (Name y))) d) /\
  exists enough, forall fuel, (enough <= fuel)%nat ->
    parse_expression 1024 fuel ((map plain_token ps ++ [T_open_paren; T_identifier x; T_plus; T_identifier y; T_closed_paren]) ++ k :: rest)
    = Done (Binary Plus (apply_prefixes ps (Name x)) (Name y), k :: rest).
Proof.
  intros ps x y k rest P L K. split.
  - clear L. exists (length ps + 2)%nat.
    do 3 up. do 10 (eapply d_unit; [eapply u_binary; constructor|]).
    induction ps as [|p ps IH].
    + cbn [map app apply_prefixes length Nat.add]. do 3 up.
      apply (d_parentheses [T_identifier x; T_plus; T_identifier y] _ 1).
      do 3 up. do 8 (eapply d_unit; [eapply u_binary; constructor|]).
      apply (d_binary additive_ multiplicative_ T_plus Plus [T_identifier x] _ 0 [T_identifier y] _ 0); [constructor| |].
      * do 2 (eapply d_unit; [eapply u_binary; constructor|]). do 3 up. apply d_identifier.
      * do 1 (eapply d_unit; [eapply u_binary; constructor|]). do 3 up. apply d_identifier.
    + cbn [forallb] in P. apply andb_true_iff in P. destruct P as (P & Ps).
      cbn [map app apply_prefixes length Nat.add]. eapply d_unit; [apply u_cast|].
      eapply d_prefix; [|apply IH; exact Ps]. destruct p; try discriminate; constructor.
  - rewrite <- app_assoc. apply (full_stack 1024 ps x y k rest P L); [|exact K]. apply Nat.ltb_lt. vm_compute. reflexivity.
Qed.
Print Assumptions C06_full_stack_regroups_refuted.
Example C06_refuted_example : exists ps, forallb plain ps = true /\ length ps = 1024%nat.
Proof.
  exists (repeat Negate 1024). split; [|apply repeat_length].
  assert (H : forall n, forallb plain (repeat Negate n) = true) by (induction n; [reflexivity|assumption]). apply H.
Qed.
