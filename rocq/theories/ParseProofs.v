(** Proofs about the expression parser. *)
From Verif Require Import Base ParseSyntax ParseSpec ParseModel.

Scheme derives_mut := Minimality for derives Sort Prop
with derives_arguments_mut := Minimality for derives_arguments Sort Prop.
Combined Scheme derives_both from derives_mut, derives_arguments_mut.

Section Parse.
Variable limit : nat.
Notation run := (run limit).
Notation start := (start limit).

(** ** Steps of the machine *)
Definition steps (s s' : state) : Prop := exists n N, forall f, (N <= f)%nat -> run (n + f) s = run f s'.
Definition finishes (s : state) (r : outcome result) : Prop := exists N, forall f, (N <= f)%nat -> run f s = r.
Definition goes (s : state) (good : bool) (s' : state) : Prop := if good then steps s s' else finishes s Reported.

Lemma steps_trans : forall a b c, steps a b -> steps b c -> steps a c.
Proof.
  intros a b c (n & N & H) (n' & N' & H'). exists (n + n')%nat, (N + N')%nat. intros f L.
  replace (n + n' + f)%nat with (n + (n' + f))%nat by lia. rewrite H by lia. apply H'; lia.
Qed.
Lemma steps_finishes : forall a b r, steps a b -> finishes b r -> finishes a r.
Proof.
  intros a b r (n & N & H) (N' & H'). exists (n + N + N')%nat. intros f L.
  replace f with (n + (f - n))%nat by lia. rewrite H by lia. apply H'; lia.
Qed.
Lemma goes_trans : forall a b c x y, goes a x b -> goes b y c -> goes a (x && y) c.
Proof.
  intros a b c [|] [|] H H'; cbn [andb goes] in *; auto.
  - eapply steps_trans; eauto.
  - eapply steps_finishes; eauto.
Qed.
Lemma steps_goes : forall a b c x, steps a b -> goes b x c -> goes a x c.
Proof. intros. change x with (true && x). eapply goes_trans; [|eassumption]. assumption. Qed.
Lemma goes_steps : forall a b c x, goes a x b -> steps b c -> goes a x c.
Proof. intros. rewrite <- (andb_true_r x). eapply goes_trans; [eassumption|]. assumption. Qed.
Lemma goes_finishes : forall a b x r, goes a x b -> finishes b r -> finishes a (if x then r else Reported).
Proof. intros a b [|] r H H'; cbn [goes] in *; auto. eapply steps_finishes; eauto. Qed.

Lemma one_step : forall s s', (forall f, run (S f) s = run f s') -> steps s s'.
Proof. intros s s' H. exists 1%nat, 0%nat. intros; apply H. Qed.
Lemma one_finish : forall s r, (forall f, run (S f) s = r) -> finishes s r.
Proof. intros s r H. exists 1%nat. intros [|f] L; [lia|apply H]. Qed.

(** A step through a nested call. *)
Lemma nested_step : forall s n r s' (good : bool) (k : nat -> result -> outcome result),
  finishes n (if good then Done r else Reported) ->
  (forall f, run (S f) s = obind (run f n) (k f)) ->
  (good = true -> forall f, k f r = run f s') ->
  goes s good s'.
Proof.
  intros s n r s' good k (N & H) E K. destruct good; cbn [goes].
  - exists 1%nat, N. intros f L. change (1 + f)%nat with (S f). rewrite E, H by lia. cbn [obind]. auto.
  - exists (S N). intros [|f] L; [lia|]. rewrite E, H by lia. reflexivity.
Qed.

(** ** Which entries and tokens fit around a nonterminal *)
Definition level (n : nonterminal) : Z :=
  match n with
  | primary_ | postfix_ => 0 | unary_ => 1 | cast_ => 2
  | multiplicative_ => 3 | additive_ => 4 | shift_ => 5 | relational_ => 6 | equality_ => 7
  | and_ => 8 | exclusive_or_ => 9 | inclusive_or_ => 10 | logical_and_ => 11 | logical_or_ => 12
  | conditional_ => 13 | assignment_ => 14 | expression_ => 15
  end.
Definition admits (n : nonterminal) (stack : list entry) : Prop :=
  match stack with
  | [] | Guard :: _ => True
  | e :: _ =>
      match n with
      | primary_ | postfix_ | unary_ => True
      | cast_ => e <> Pending_prefix Sizeof /\ e <> Pending_prefix Alignof
      | conditional_ | assignment_ => level n <= ast_to_precedence e
      | _ => level n < ast_to_precedence e
      end
  end.
Definition postfix_token (t : token) : bool :=
  match t with T_increment | T_decrement | T_open_index | T_dot | T_arrow | T_open_paren => true | _ => false end.
Definition ends (n : nonterminal) (t : token) : Prop :=
  postfix_token t = false /\
  (token_to_precedence t = 0 \/
   match n with conditional_ | assignment_ => level n < token_to_precedence t | _ => level n <= token_to_precedence t end).

Lemma admits_unit : forall n m s, unit_rule n m -> admits n s -> admits m s.
Proof.
  intros n m [|e s] U A; [exact Logic.I|]. destruct e; try exact Logic.I;
    inversion U as [| | |? ? ? ? B| | |]; subst; try exact Logic.I; try (destruct B); cbn [admits level ast_to_precedence] in *;
    try exact Logic.I; try lia; try (destruct o); try lia; try (split; discriminate); try (destruct p; try lia).
Qed.
Lemma ends_unit : forall n m t, unit_rule n m -> ends n t -> ends m t.
Proof.
  intros n m t U (P & H). split; [exact P|].
  inversion U as [| | |? ? ? ? B| | |]; subst; try (destruct B); cbn [level] in *; lia.
Qed.
Lemma binary_level : forall n m t o, binary_rule n m t o ->
  token_to_precedence t = level n /\ (forall l, ast_to_precedence (Pending_binary o l) = level n) /\ level m < level n /\
  3 <= level n <= 12 /\ binary_token t = Some o /\ postfix_token t = false /\
  m <> conditional_ /\ m <> assignment_ /\ m <> expression_.
Proof. intros n m t o B; destruct B; cbn; repeat split; try lia; discriminate. Qed.

(** ** No expression starts with a type or a closing parenthesis *)
Definition starts (l : list token) : Prop :=
  match l with [] => False | T_type _ :: _ | T_closed_paren :: _ => False | _ => True end.
Lemma starts_app : forall l l', starts l -> starts (l ++ l').
Proof. intros [|t l] l' H; [contradiction|exact H]. Qed.
Lemma derives_starts : (forall n l e d, derives n l e d -> starts l) /\ (forall l es d, derives_arguments l es d -> starts l).
Proof.
  apply derives_both; intros; try exact Logic.I; auto using starts_app.
  destruct H; exact Logic.I.
Qed.
Lemma paren_step : forall c S l rest f, starts l ->
  run (Datatypes.S f) (Restart c S (T_open_paren :: l ++ rest)) =
  obind (run f (start false S (l ++ rest))) (fun '(operand, in_lhs, rest, stack) =>
    match rest with
    | T_closed_paren :: rest => run f (Postfix c stack operand in_lhs rest)
    | _ => Reported
    end).
Proof. intros c S [|t l] rest f H; [contradiction|]. destruct t; try contradiction; reflexivity. Qed.
Lemma call_step : forall c S e i l rest f, starts l ->
  run (Datatypes.S f) (Postfix c S e i (T_open_paren :: l ++ rest)) = run f (Arguments c S e [] (l ++ rest)).
Proof. intros c S e i [|t l] rest f H; [contradiction|]. destruct t; try contradiction; reflexivity. Qed.

(** ** Reductions *)
Lemma push_ok : forall S e k, (length S + 1 <= limit)%nat -> push limit S e k = k (e :: S).
Proof. intros. unfold push. destruct (Nat.ltb_spec limit (length S + 1)); [lia|reflexivity]. Qed.

(** The operand before an operator that binds weaker than everything it could belong to is left alone. *)
Lemma operator_switch : forall c S e i t rest,
  match S with [] => True | x :: _ => keep x t = true end ->
  steps (Operator c S e i (t :: rest)) (Switch c S e i (t :: rest)).
Proof.
  intros c [|x S] e i t rest H; apply one_step; intro f; cbn [ParseModel.run]; [reflexivity|]. rewrite H. reflexivity.
Qed.
Lemma operator_finish : forall c x S e i t rest r,
  keep x t = false -> finish x e i = Done r ->
  steps (Operator c (x :: S) e i (t :: rest)) (Operator c S (fst r) (snd r) (t :: rest)).
Proof.
  intros c x S e i t rest [a b] K F. apply one_step; intro f; cbn [ParseModel.run]. rewrite K, F. reflexivity.
Qed.

Lemma admits_keep : forall n t S,
  admits n S -> token_to_precedence t = level n -> 3 <= level n ->
  match S with [] => True | x :: _ => keep x t = true end.
Proof.
  intros n t [|x S] A T L; [exact Logic.I|].
  assert (P : x = Guard \/ level n < ast_to_precedence x \/
              (level n = ast_to_precedence x /\ (level n = 13 \/ level n = 14))).
  { destruct x; [left; reflexivity| | | | | |]; right; cbn [admits] in A; destruct n; cbn [level] in *; lia. }
  destruct P as [->|P]; [reflexivity|].
  enough (E : (ast_to_precedence x =? level n) && ((ast_to_precedence x =? 14) || (ast_to_precedence x =? 13))
            || negb (level n =? 0) && (ast_to_precedence x >? level n) = true)
    by (unfold keep; rewrite T; destruct x; try reflexivity; exact E).
  destruct P as [P|(P & [Q|Q])].
  - destruct (Z.eqb_spec (level n) 0); [lia|]. destruct (Z.gtb_spec (ast_to_precedence x) (level n)); [|lia].
    apply orb_true_r.
  - rewrite <- P, Q. reflexivity.
  - rewrite <- P, Q. reflexivity.
Qed.

(** ** The call of a nested expression *)
Lemma leave_nested : forall skip S l e i x k rest,
  (length S < limit)%nat ->
  (forall c S', should_skip_comma c = skip -> length S' <= Datatypes.S (length S) ->
     match S' with [] | Guard :: _ => True | _ => False end -> 
     goes (Restart c S' l) x (Operator c S' e i (k :: rest)))%nat ->
  binary_token k = None -> assign_token k = None -> k <> T_question_mark -> (k = T_comma -> skip = true) ->
  finishes (start skip S l) (if x then Done (e, i, k :: rest, S) else Reported).
Proof.
  intros skip S l e i x k rest L H B A Q C.
  assert (D : forall c S', should_skip_comma c = skip ->
     match S' with [] | Guard :: _ => True | _ => False end ->
     finishes (Operator c S' e i (k :: rest)) (leave c S' e i (k :: rest))).
  { intros c S' Ec G.
    apply steps_finishes with (Switch c S' e i (k :: rest)).
    { apply operator_switch. destruct S' as [|[| | | | | |] S']; try contradiction; [exact Logic.I|reflexivity]. }
    apply one_finish. intro f. cbn [ParseModel.run]. rewrite B, A.
    destruct k; try reflexivity; try discriminate; [congruence|]. rewrite Ec, C by reflexivity. reflexivity. }
  unfold ParseModel.start. destruct S as [|y S].
  - eapply goes_finishes; [apply H; [reflexivity|cbn [length]; lia|exact Logic.I]|].
    apply D; [reflexivity|exact Logic.I].
  - destruct (Nat.ltb_spec (length (y :: S)) limit); [|lia].
    eapply goes_finishes; [apply H; [reflexivity|cbn [length]; lia|exact Logic.I]|].
    apply D; [reflexivity|exact Logic.I].
Qed.

(** ** The main simulation *)
Definition simulated (n : nonterminal) (l : list token) (e : tree) (d : nat) : Prop :=
  match n with
  | primary_ | postfix_ => forall c S rest, (length S + d <= limit)%nat ->
      goes (Restart c S (l ++ rest)) (constraints e) (Postfix c S e (designates e) rest)
  | _ => forall c S t rest, (length S + d <= limit)%nat -> admits n S -> ends n t ->
      (n = expression_ -> should_skip_comma c = false) ->
      goes (Restart c S (l ++ t :: rest)) (constraints e) (Operator c S e (designates e) (t :: rest))
  end.
Definition simulated_arguments (l : list token) (es : list tree) (d : nat) : Prop :=
  forall c S f acc rest, (length S + d < limit)%nat ->
    goes (Arguments c S f acc (l ++ T_closed_paren :: rest)) (forallb constraints es) (Postfix c S (Call f (acc ++ es)) false rest).

Lemma simulated_high : forall n l e d, n <> primary_ -> n <> postfix_ ->
  simulated n l e d <->
  (forall c S t rest, (length S + d <= limit)%nat -> admits n S -> ends n t ->
      (n = expression_ -> should_skip_comma c = false) ->
      goes (Restart c S (l ++ t :: rest)) (constraints e) (Operator c S e (designates e) (t :: rest))).
Proof. intros n l e d A B. destruct n; try contradiction; reflexivity. Qed.

Lemma nested_expression : forall l e d S k rest,
  simulated expression_ l e d -> (length S + d < limit)%nat ->
  (k = T_closed_paren \/ k = T_closed_index \/ k = T_colon \/ k = T_semicolon) ->
  finishes (start false S (l ++ k :: rest)) (if constraints e then Done (e, designates e, k :: rest, S) else Reported).
Proof.
  intros l e d S k rest H L K. apply leave_nested; try (destruct K as [->|[->|[->| ->]]]; (reflexivity || discriminate)).
  { lia. }
  intros c S' Ec L' G. apply H; [lia| | |intro; exact Ec].
  - destruct S' as [|[| | | | | |] S']; try contradiction; exact Logic.I.
  - destruct K as [->|[->|[->| ->]]]; (split; [reflexivity|left; reflexivity]).
Qed.
Lemma nested_argument : forall l e d S k rest,
  simulated assignment_ l e d -> (length S + d < limit)%nat -> (k = T_closed_paren \/ k = T_comma) ->
  finishes (start true S (l ++ k :: rest)) (if constraints e then Done (e, designates e, k :: rest, S) else Reported).
Proof.
  intros l e d S k rest H L K. apply leave_nested; try (destruct K as [->| ->]; (reflexivity || discriminate)).
  { lia. }
  intros c S' Ec L' G. apply H; [lia| | |discriminate].
  - destruct S' as [|[| | | | | |] S']; try contradiction; exact Logic.I.
  - destruct K as [->| ->]; (split; [reflexivity|]); [left; reflexivity|right; cbn; lia].
Qed.

Lemma postfix_operator : forall c S e i t rest, postfix_token t = false ->
  steps (Postfix c S e i (t :: rest)) (Operator c S e i (t :: rest)).
Proof. intros c S e i t rest P. apply one_step; intro f. destruct t; try discriminate; reflexivity. Qed.

(** A prefix operator: push it, read the operand, finish it. *)
Lemma simulate_prefix : forall x c S t l rest e e' (a : bool),
  (length S + 1 <= limit)%nat ->
  (forall f, run (Datatypes.S f) (Restart c S l) = push limit S x (fun stack => run f (Restart c stack rest))) ->
  ast_to_precedence x = 2 -> x <> Guard -> 
  forall rest', goes (Restart c (x :: S) rest) (constraints e) (Operator c (x :: S) e (designates e) (t :: rest')) ->
  (token_to_precedence t = 0 \/ 2 < token_to_precedence t) ->
  finish x e (designates e) = (if a then Done (e', designates e') else Reported) ->
  goes (Restart c S l) (constraints e && a) (Operator c S e' (designates e') (t :: rest')).
Proof.
  intros x c S t l rest e e' a L E P NG rest' H T F.
  eapply steps_goes; [apply one_step; intro f; rewrite E, push_ok by lia; reflexivity|].
  eapply goes_trans; [exact H|].
  assert (K : keep x t = false).
  { unfold keep. rewrite P. destruct x; try congruence;
      (destruct (Z.eqb_spec 2 (token_to_precedence t)); [lia|]); cbn [andb orb];
      (destruct (Z.eqb_spec (token_to_precedence t) 0); [reflexivity|]);
      (destruct (Z.gtb_spec 2 (token_to_precedence t)); [lia|reflexivity]). }
  destruct a; cbn [goes].
  - apply (operator_finish c x S e (designates e) t rest' (e', designates e') K F).
  - apply one_finish. intro f. cbn [ParseModel.run]. rewrite K, F. reflexivity.
Qed.
Lemma token_precedences : forall t, token_to_precedence t = 0 \/ 2 < token_to_precedence t.
Proof. destruct t; cbn; lia. Qed.

Theorem simulation :
  (forall n l e d, derives n l e d -> simulated n l e d) /\
  (forall l es d, derives_arguments l es d -> simulated_arguments l es d).
Proof.
  apply derives_both.
  - intros n c S rest _. cbn [app constraints designates goes]. apply one_step; reflexivity.
  - intros n c S rest _. cbn [app constraints designates goes]. apply one_step; reflexivity.
  - intros l e d D H c S rest L. cbn [app]. rewrite <- app_assoc. cbn [app].
    eapply nested_step with (r := (e, designates e, T_closed_paren :: rest, S)).
    + apply nested_expression with (d := d); [exact H|lia|tauto].
    + intro f. apply (paren_step c S l (T_closed_paren :: rest) f). exact (proj1 derives_starts _ _ _ _ D).
    + reflexivity.
  - (* subscript *)
    intros l e d l' e' d' _ H _ H' c S rest L. cbn [constraints].
    rewrite <- app_assoc. cbn [app]. rewrite <- app_assoc. cbn [app].
    eapply goes_trans; [apply H; lia|].
    eapply nested_step with (r := (e', designates e', T_closed_index :: rest, S)).
    + apply nested_expression with (d := d'); [exact H'|lia|tauto].
    + intro f. cbn [ParseModel.run]. reflexivity.
    + reflexivity.
  - intros l e d _ H c S rest L. cbn [constraints forallb]. rewrite <- app_assoc. cbn [app].
    eapply goes_trans; [apply H; lia|]. apply one_step; reflexivity.
  - (* call *)
    intros l e d l' es d' _ H D H' c S rest L. cbn [constraints].
    rewrite <- app_assoc. cbn [app]. rewrite <- app_assoc. cbn [app].
    eapply goes_trans; [apply H; lia|].
    eapply steps_goes; [apply one_step; intro f; apply call_step; exact (proj2 derives_starts _ _ _ D)|].
    apply (H' c S e [] rest). lia.
  - intros l e d n _ H c S rest L. cbn [constraints designates]. rewrite <- app_assoc. cbn [app].
    eapply goes_steps; [apply H; lia|]. apply one_step; reflexivity.
  - intros l e d n _ H c S rest L. cbn [constraints designates]. rewrite <- app_assoc. cbn [app].
    eapply goes_steps; [apply H; lia|]. apply one_step; reflexivity.
  - intros l e d _ H c S rest L. cbn [constraints]. rewrite <- app_assoc. cbn [app].
    eapply goes_trans; [apply H; lia|]. destruct (designates e); cbn [goes]; [apply one_step|apply one_finish]; reflexivity.
  - intros l e d _ H c S rest L. cbn [constraints]. rewrite <- app_assoc. cbn [app].
    eapply goes_trans; [apply H; lia|]. destruct (designates e); cbn [goes]; [apply one_step|apply one_finish]; reflexivity.
  - (* prefix *)
    intros t n p l e d R _ H c S t' rest L A E _.
    rewrite simulated_high in H by (destruct R; discriminate).
    assert (M : n = unary_ \/ n = cast_) by (destruct R; tauto).
    cbn [app constraints]. 
    eapply simulate_prefix with (x := Pending_prefix p).
    + lia.
    + intro f. destruct R; reflexivity.
    + reflexivity.
    + discriminate.
    + apply H.
      * cbn [length]. lia.
      * destruct R; cbn [admits]; try exact Logic.I; split; discriminate.
      * split; [apply (proj1 E)|]. pose proof (token_precedences t'). destruct M; subst n; cbn [level]; lia.
      * destruct M; subst n; discriminate.
    + apply token_precedences.
    + destruct R; cbn [finish designates]; reflexivity.
  - intros n c S t rest L A E _. cbn [app constraints designates goes].
    eapply steps_trans; [|eapply steps_trans; [|apply postfix_operator; exact (proj1 E)]].
    + apply one_step; intro f. cbn [ParseModel.run prefix_token]. rewrite push_ok by lia. reflexivity.
    + apply one_step; intro f. reflexivity.
  - intros n c S t rest L A E _. cbn [app constraints designates goes].
    eapply steps_trans; [|eapply steps_trans; [|apply postfix_operator; exact (proj1 E)]].
    + apply one_step; intro f. cbn [ParseModel.run prefix_token]. rewrite push_ok by lia. reflexivity.
    + apply one_step; intro f. reflexivity.
  - (* cast *)
    intros n l e d _ H c S t rest L A E _. cbn [simulated] in H. cbn [app constraints].
    rewrite <- (andb_true_r (constraints e)).
    eapply simulate_prefix with (x := Pending_cast n).
    + lia.
    + intro f. cbn [ParseModel.run prefix_token]. destruct S as [|[|p| | | | |] S]; try reflexivity.
      cbn [admits] in A. destruct p; try reflexivity; destruct A; congruence.
    + reflexivity.
    + discriminate.
    + apply H.
      * cbn [length]. lia.
      * cbn [admits]. split; discriminate.
      * exact E.
      * discriminate.
    + apply token_precedences.
    + reflexivity.
  - (* binary *)
    intros n m t o l e d l' e' d' R _ H _ H'.
    destruct (binary_level n m t o R) as (T & P & ML & NL & B & PT & M1 & M2 & M3).
    rewrite simulated_high in H by (intro; subst n; cbn [level] in NL; lia).
    rewrite simulated_high by (intro; subst n; cbn [level] in NL; lia).
    rewrite simulated_high in H' by (destruct R; discriminate).
    intros c S k rest L A E C. cbn [constraints]. rewrite <- app_assoc. cbn [app].
    eapply goes_trans.
    { apply H; [lia|exact A| |exact C]. split; [exact PT|right]. destruct n; cbn [level] in *; lia. }
    eapply steps_goes; [apply operator_switch; apply (admits_keep n); [exact A|exact T|lia]|].
    eapply steps_goes with (b := Restart c (Pending_binary o e :: S) (l' ++ k :: rest)).
    { apply one_step; intro f. cbn [ParseModel.run]. rewrite B, push_ok by lia. reflexivity. }
    eapply goes_steps.
    { apply H'; [cbn [length]; lia| | |intro; contradiction].
      - cbn [admits]. rewrite P. destruct m; try contradiction; try exact Logic.I; try exact ML. split; discriminate.
      - destruct E as (E & E'). split; [exact E|]. destruct E' as [E'|E']; [tauto|right].
        destruct n, m; cbn [level] in *; try lia; contradiction. }
    eapply steps_trans.
    { apply operator_finish with (r := (Binary o e e', false)); [|reflexivity].
      unfold keep. rewrite P. destruct E as (_ & E').
      destruct (Z.eqb_spec (level n) 14); [lia|]. destruct (Z.eqb_spec (level n) 13); [lia|].
      rewrite andb_false_r. cbn [orb].
      destruct (Z.eqb_spec (token_to_precedence k) 0); [reflexivity|].
      destruct (Z.gtb_spec (level n) (token_to_precedence k)); [|reflexivity].
      destruct n; cbn [level] in *; lia. }
    cbn [fst snd designates]. exists 0%nat, 0%nat. reflexivity.
  - (* conditional *)
    intros l e d l' e' d' l'' e'' d'' _ H _ H' _ H'' c S k rest L A E _. cbn [simulated] in *. cbn [constraints].
    rewrite <- app_assoc. cbn [app]. rewrite <- app_assoc. cbn [app]. rewrite <- andb_assoc.
    eapply goes_trans.
    { apply H; [lia| | |discriminate].
      - apply admits_unit with conditional_; [constructor|exact A].
      - split; [reflexivity|right; cbn; lia]. }
    eapply steps_goes; [apply operator_switch; apply (admits_keep conditional_); [exact A|reflexivity|cbn; lia]|].
    eapply goes_trans with (b := Restart c (Pending_conditional e e' :: S) (l'' ++ k :: rest)).
    { eapply nested_step with (r := (e', designates e', T_colon :: l'' ++ k :: rest, S)).
      - apply nested_expression with (d := d'); [exact H'|lia|tauto].
      - intro f. cbn [ParseModel.run binary_token assign_token]. reflexivity.
      - intros _ f. cbv beta iota. rewrite push_ok by lia. reflexivity. }
    eapply goes_steps.
    { apply H''; [cbn [length]; lia| |exact E|discriminate]. cbn; lia. }
    eapply steps_trans.
    { apply operator_finish with (r := (Conditional e e' e'', false)); [|reflexivity].
      unfold keep. cbn [ast_to_precedence]. destruct E as (_ & E'). cbn [level] in E'.
      destruct (Z.eqb_spec 13 (token_to_precedence k)); [lia|]. cbn [andb orb].
      destruct (Z.eqb_spec (token_to_precedence k) 0); [reflexivity|].
      destruct (Z.gtb_spec 13 (token_to_precedence k)); [lia|reflexivity]. }
    cbn [fst snd designates]. exists 0%nat, 0%nat. reflexivity.
  - (* assignment *)
    intros t o l e d l' e' d' R _ H _ H' c S k rest L A E _. cbn [simulated] in *. cbn [constraints].
    rewrite <- app_assoc. cbn [app]. rewrite <- andb_assoc.
    assert (T : token_to_precedence t = 14 /\ postfix_token t = false /\ binary_token t = None /\ assign_token t = Some o)
      by (destruct R; repeat split). destruct T as (T & PT & B & AT).
    eapply goes_trans.
    { apply H; [lia|destruct S as [|[| | | | | |] S]; exact Logic.I| |discriminate].
      split; [exact PT|right; cbn [level]; lia]. }
    eapply steps_goes; [apply operator_switch; apply (admits_keep assignment_); [exact A|exact T|cbn; lia]|].
    eapply goes_trans with (b := Restart c (Pending_assign o e :: S) (l' ++ k :: rest)).
    { destruct (designates e); cbn [goes].
      - apply one_step; intro f. cbn [ParseModel.run]. rewrite B, AT, push_ok by lia. reflexivity.
      - apply one_finish; intro f. cbn [ParseModel.run]. rewrite B, AT. reflexivity. }
    eapply goes_steps.
    { apply H'; [cbn [length]; lia| |exact E|discriminate]. cbn; lia. }
    eapply steps_trans.
    { apply operator_finish with (r := (Assign o e e', false)); [|reflexivity].
      unfold keep. cbn [ast_to_precedence]. destruct E as (_ & E'). cbn [level] in E'.
      destruct (Z.eqb_spec 14 (token_to_precedence k)); [lia|]. cbn [andb orb].
      destruct (Z.eqb_spec (token_to_precedence k) 0); [reflexivity|].
      destruct (Z.gtb_spec 14 (token_to_precedence k)); [lia|reflexivity]. }
    cbn [fst snd designates]. exists 0%nat, 0%nat. reflexivity.
  - (* comma *)
    intros l e d l' e' d' _ H _ H' c S k rest L A E C. cbn [simulated] in *. cbn [constraints].
    rewrite <- app_assoc. cbn [app].
    eapply goes_trans.
    { apply H; [lia|exact A| |exact C]. split; [reflexivity|right; cbn; lia]. }
    eapply steps_goes; [apply operator_switch; apply (admits_keep expression_); [exact A|reflexivity|cbn; lia]|].
    eapply steps_goes with (b := Restart c (Pending_comma e :: S) (l' ++ k :: rest)).
    { apply one_step; intro f. cbn [ParseModel.run binary_token assign_token]. rewrite C, push_ok by (lia || reflexivity). reflexivity. }
    eapply goes_steps.
    { apply H'; [cbn [length]; lia| | |discriminate]; [cbn; lia|].
      destruct E as (E & E'). split; [exact E|]. cbn [level] in *. lia. }
    eapply steps_trans.
    { apply operator_finish with (r := (Comma e e', false)); [|reflexivity].
      unfold keep. cbn [ast_to_precedence]. destruct E as (_ & E'). cbn [level] in E'.
      change (15 =? 14) with false. change (15 =? 13) with false. rewrite andb_false_r. cbn [orb].
      destruct (Z.eqb_spec (token_to_precedence k) 0); [reflexivity|].
      destruct (Z.gtb_spec 15 (token_to_precedence k)); [lia|reflexivity]. }
    cbn [fst snd designates]. exists 0%nat, 0%nat. reflexivity.
  - (* unit *)
    intros n m l e d U D H.
    destruct (match n with primary_ | postfix_ => true | _ => false end) eqn:En.
    + inversion U as [| | |? ? ? ? B| | |]; subst; try discriminate; [exact H|destruct B; discriminate].
    + rewrite simulated_high by (destruct n; discriminate).
      intros c S t rest L A E C.
      destruct (match m with primary_ | postfix_ => true | _ => false end) eqn:Em.
      * assert (H2 : forall c S rest, (length S + d <= limit)%nat ->
          goes (Restart c S (l ++ rest)) (constraints e) (Postfix c S e (designates e) rest))
          by (destruct m; try discriminate; exact H).
        eapply goes_steps; [apply H2; lia|]. apply postfix_operator. exact (proj1 E).
      * rewrite simulated_high in H by (destruct m; discriminate).
        apply H; [exact L|eapply admits_unit; eauto|eapply ends_unit; eauto|].
        intros ->. inversion U as [| | |? ? ? ? B| | |]; subst. inversion B.
  - (* arguments *)
    intros l e d _ H c S f acc rest L. cbn [forallb]. rewrite andb_true_r.
    eapply nested_step with (r := (e, designates e, T_closed_paren :: rest, S)).
    + apply nested_argument with (d := d); [exact H|lia|tauto].
    + intro f'. cbn [ParseModel.run]. reflexivity.
    + reflexivity.
  - intros l e d l' es d' _ H D H' c S f acc rest L. cbn [forallb]. rewrite <- app_assoc. cbn [app].
    eapply goes_trans with (b := Arguments c S f (acc ++ [e]) (l' ++ T_closed_paren :: rest)).
    + eapply nested_step with (r := (e, designates e, T_comma :: l' ++ T_closed_paren :: rest, S)).
      * apply nested_argument with (d := d); [exact H|lia|tauto].
      * intro f'. cbn [ParseModel.run]. reflexivity.
      * intros _ f'. cbv beta iota. apply (proj2 derives_starts) in D.
        destruct l' as [|t l']; [contradiction|]. destruct t; try contradiction; reflexivity.
    + replace (acc ++ e :: es) with ((acc ++ [e]) ++ es) by (rewrite <- app_assoc; reflexivity).
      apply H'. lia.
Qed.

(** A whole expression. *)
Theorem parse_derived : forall l e d k rest,
  derives expression_ l e d -> (d <= limit)%nat -> (0 < limit)%nat -> ends_expression (k :: rest) ->
  exists enough, forall fuel, (enough <= fuel)%nat ->
    parse_expression limit fuel (l ++ k :: rest) = if constraints e then Done (e, k :: rest) else Reported.
Proof.
  intros l e d k rest D L P K. pose proof (proj1 simulation _ _ _ _ D) as H. cbn [simulated] in H.
  assert (E : ends expression_ k /\ binary_token k = None /\ assign_token k = None /\ k <> T_question_mark /\ k <> T_comma).
  { destruct k; try contradiction; (split; [split; [reflexivity|left; reflexivity]|]); repeat split; discriminate. }
  destruct E as (E & B & A & Q & C).
  set (c := {| should_skip_comma := false; did_push := false |}).
  destruct (goes_finishes _ _ _ (leave c [] e (designates e) (k :: rest)) (H c [] k rest L Logic.I E (fun _ => eq_refl))) as (N & F).
  { apply steps_finishes with (Switch c [] e (designates e) (k :: rest)).
    { apply operator_switch. exact Logic.I. }
    apply one_finish. intro f. cbn [ParseModel.run]. rewrite B, A. destruct k; try reflexivity; congruence. }
  exists N. intros f Lf. unfold parse_expression. change (start false [] (l ++ k :: rest)) with (Restart c [] (l ++ k :: rest)).
  rewrite F by exact Lf. destruct (constraints e); reflexivity.
Qed.

(** ** Every input ends *)
Fixpoint below (s : list entry) : list entry := match s with [] => [] | Guard :: _ => s | _ :: s => below s end.
Lemma below_len : forall s, (length (below s) <= length s)%nat.
Proof. induction s as [|[| | | | | |] s IH]; cbn [below length] in *; lia. Qed.
Lemma below_below : forall s, below (below s) = below s.
Proof. induction s as [|[| | | | | |] s IH]; cbn [below]; auto. Qed.
Lemma below_push : forall x s, x <> Guard -> below (x :: s) = below s.
Proof. intros [| | | | | |] s H; try reflexivity. congruence. Qed.

Definition tokens_of (s : state) : list token :=
  match s with Restart _ _ t | Postfix _ _ _ _ t | Arguments _ _ _ _ t | Operator _ _ _ _ t | Switch _ _ _ _ t => t end.
Definition stack_of (s : state) : list entry :=
  match s with Restart _ s _ | Postfix _ s _ _ _ | Arguments _ s _ _ _ | Operator _ s _ _ _ | Switch _ s _ _ _ => s end.
Definition locals_of (s : state) : locals :=
  match s with Restart c _ _ | Postfix c _ _ _ _ | Arguments c _ _ _ _ | Operator c _ _ _ _ | Switch c _ _ _ _ => c end.
Definition phase (s : state) : nat :=
  match s with Restart _ _ _ => 0 | Postfix _ _ _ _ _ => 3 | Arguments _ _ _ _ _ => 4 | Operator _ _ _ _ _ => 2 | Switch _ _ _ _ _ => 1 end.
Definition measure (s : state) : nat := (8 * length (tokens_of s) + 2 * length (stack_of s) + phase s)%nat.
Definition fine (s : state) : Prop :=
  (did_push (locals_of s) = true -> below (stack_of s) <> []) /\
  match s with
  | Switch _ (x :: _) _ _ (t :: _) => keep x t = true
  | _ => True
  end.
Definition good (s : state) (r : outcome result) : Prop :=
  match r with
  | Crash => False
  | Reported => True
  | Done (_, _, rest, S') =>
      (length rest + (if (phase s =? 0)%nat then 1 else 0) <= length (tokens_of s))%nat /\
      S' = (if did_push (locals_of s) then tl (below (stack_of s)) else below (stack_of s))
  end.
Definition halts (s : state) : Prop := exists r, finishes s r /\ good s r.

Lemma halts_reported : forall s, (forall f, run (S f) s = Reported) -> halts s.
Proof. intros s H. exists Reported. split; [apply one_finish; exact H|exact Logic.I]. Qed.
Lemma halts_step : forall s s', (forall f, run (S f) s = run f s') -> halts s' ->
  locals_of s = locals_of s' -> below (stack_of s') = below (stack_of s) ->
  (length (tokens_of s') + (if (phase s =? 0)%nat then 1 else 0) <= length (tokens_of s) + (if (phase s' =? 0)%nat then 1 else 0))%nat ->
  halts s.
Proof.
  intros s s' E (r & F & G) C GS LT. exists r. split.
  - eapply steps_finishes; [apply one_step; exact E|exact F].
  - destruct r as [[[[e i] rest] S']| |]; cbn [good] in *; auto. rewrite C, <- GS.
    split; [destruct (phase s =? 0)%nat, (phase s' =? 0)%nat; lia|exact (proj2 G)].
Qed.
Lemma halts_push : forall s c S x rest,
  (forall f, run (Datatypes.S f) s = push limit S x (fun stack => run f (Restart c stack rest))) ->
  x <> Guard -> halts (Restart c (x :: S) rest) ->
  locals_of s = c -> below S = below (stack_of s) -> (length rest < length (tokens_of s))%nat ->
  halts s.
Proof.
  intros s c S x rest E X H C ES LT.
  destruct (Nat.ltb_spec limit (length S + 1)) as [B|B].
  - apply halts_reported. intro f. rewrite E. unfold push.
    destruct (Nat.ltb_spec limit (length S + 1)); [reflexivity|lia].
  - eapply halts_step; [|exact H|exact C| |].
    + intro f. rewrite E, push_ok by lia. reflexivity.
    + cbn [stack_of]. rewrite below_push by exact X. exact ES.
    + cbn [tokens_of phase]. destruct (phase s =? 0)%nat; cbn [Nat.eqb]; lia.
Qed.

(** A nested call, and what follows it. *)
Lemma start_fine : forall skip S t, fine (start skip S t) /\ tokens_of (start skip S t) = t /\ phase (start skip S t) = 0%nat /\
  (length (stack_of (start skip S t)) <= Datatypes.S (length S))%nat.
Proof.
  intros skip [|x S] t; cbn [ParseModel.start]; [|destruct (length (x :: S) <? limit)%nat]; unfold fine;
    cbn [locals_of stack_of did_push tokens_of phase length below]; repeat split; try discriminate; lia.
Qed.
Lemma start_result : forall skip S t e i rest S', good (start skip S t) (Done (e, i, rest, S')) ->
  (length rest < length t)%nat /\ below S' = below S /\ (length S' <= length S)%nat.
Proof.
  intros skip S t e i rest S' (L & E). destruct (start_fine skip S t) as (_ & ET & EP & _).
  rewrite ET, EP in L. cbn [Nat.eqb] in L. split; [lia|].
  destruct S as [|x S]; cbn [ParseModel.start locals_of stack_of did_push] in E; [subst; split; reflexivity|].
  destruct (length (x :: S) <? limit)%nat; cbn [locals_of stack_of did_push] in E.
  - subst. cbn [below tl]. split; [reflexivity|lia].
  - subst. split; [apply below_below|apply below_len].
Qed.
Lemma halts_nested : forall s skip S t (k : nat -> result -> outcome result) good',
  halts (start skip S t) ->
  (forall f, run (Datatypes.S f) s = obind (run f (start skip S t)) (k f)) ->
  (forall e i rest S', (length rest < length t)%nat -> below S' = below S -> (length S' <= length S)%nat ->
     exists r, (exists N, forall f, (N <= f)%nat -> k f (e, i, rest, S') = r) /\ good' r) ->
  good' Reported -> 
  exists r, finishes s r /\ good' r.
Proof.
  intros s skip S t k good' (r & (N & F) & G) E K R. destruct r as [[[[e i] rest] S']| |].
  - destruct (start_result _ _ _ _ _ _ _ G) as (L1 & L2 & L3).
    destruct (K e i rest S' L1 L2 L3) as (r & (N' & F') & G'). exists r. split; [|exact G'].
    exists (Datatypes.S (N + N')). intros [|f] L; [lia|]. rewrite E, F by lia. cbn [obind]. apply F'. lia.
  - exists Reported. split; [|exact R]. exists (Datatypes.S N). intros [|f] L; [lia|]. rewrite E, F by lia. reflexivity.
  - contradiction.
Qed.
Lemma reported_after : forall (P : outcome result -> Prop), P Reported ->
  exists r, (exists N, forall f : nat, (N <= f)%nat -> Reported = r) /\ P r.
Proof. intros P H. exists Reported. split; [exists 0%nat; reflexivity|exact H]. Qed.

(** What the measure has to do for the states after a nested call. *)
Lemma halts_after : forall s s' k, halts s' -> (forall f : nat, k f = run f s') ->
  locals_of s = locals_of s' -> below (stack_of s') = below (stack_of s) ->
  (length (tokens_of s') < length (tokens_of s))%nat ->
  exists r, (exists N, forall f, (N <= f)%nat -> k f = r) /\ good s r.
Proof.
  intros s s' k (r & (N & F) & G) E C GS LT. exists r. split.
  - exists N. intros f L. rewrite E. auto.
  - destruct r as [[[[e i] rest] S']| |]; cbn [good] in *; auto. rewrite C, <- GS.
    split; [destruct (phase s =? 0)%nat, (phase s' =? 0)%nat; lia|exact (proj2 G)].
Qed.

Ltac measured := unfold measure; cbn [tokens_of stack_of phase length] in *; lia.
Ltac fined := split; [cbn [locals_of stack_of] in *; match goal with H : did_push _ = true -> _ |- _ => exact H end|exact Logic.I].

Theorem every_state_halts : forall m s, (measure s <= m)%nat -> fine s -> halts s.
Proof.
  induction m as [m IH] using lt_wf_ind. intros s M I.
  assert (IH' : forall s', (measure s' < measure s)%nat -> fine s' -> halts s').
  { intros s' M' I'. apply (IH (measure s')); [lia|lia|exact I']. } clear IH M.
  assert (N : forall skip S t, (8 * length t + 2 * length S + 2 < measure s)%nat -> halts (start skip S t)).
  { intros skip S t L. destruct (start_fine skip S t) as (F & ET & EP & ES).
    apply IH'; [|exact F]. unfold measure at 1. rewrite ET, EP. lia. }
  destruct I as (I & K).
  destruct s as [c S l|c S e i l|c S f acc l|c S e i l|c S e i l].
  - (* Restart *)
    destruct l as [|t l]; [apply halts_reported; reflexivity|].
    destruct (prefix_token t) as [p|] eqn:Ep.
    { apply halts_push with (c := c) (S := S) (x := Pending_prefix p) (rest := l);
        [intro f; cbn [ParseModel.run]; rewrite Ep; reflexivity|discriminate| |reflexivity|reflexivity|cbn [tokens_of phase Nat.eqb length] in *; lia].
      apply IH'; [measured|fined]. }
    destruct t; try discriminate; try (apply halts_reported; reflexivity).
    + eapply halts_step with (s' := Postfix c S (Name n) true l); try reflexivity; [apply IH'; [measured|fined]|cbn [tokens_of phase Nat.eqb length] in *; lia].
    + eapply halts_step with (s' := Postfix c S (Constant n) false l); try reflexivity; [apply IH'; [measured|fined]|cbn [tokens_of phase Nat.eqb length] in *; lia].
    + (* open paren *)
      destruct (match l with T_type _ :: _ => true | _ => false end) eqn:El.
      * destruct l as [|[] l]; try discriminate.
        destruct l as [|t l]; [apply halts_reported; reflexivity|].
        destruct (match t with T_closed_paren => true | _ => false end) eqn:Et;
          [destruct t; try discriminate|destruct t; try discriminate; apply halts_reported; reflexivity].
        destruct (match S with Pending_prefix Sizeof :: _ | Pending_prefix Alignof :: _ => true | _ => false end) eqn:Es.
        { destruct S as [|[|p| | | | |] S]; try discriminate.
          eapply halts_step with (s' := Postfix c S (TypeOperand p n) false l);
            [intro f; destruct p; try discriminate; reflexivity| |reflexivity|reflexivity|cbn [tokens_of phase Nat.eqb length] in *; lia].
          apply IH'; [measured|]. fined. }
        apply halts_push with (c := c) (S := S) (x := Pending_cast n) (rest := l);
          [|discriminate| |reflexivity|reflexivity|cbn [tokens_of phase Nat.eqb length] in *; lia].
        { intro f; cbn [ParseModel.run prefix_token]. destruct S as [|[|[]| | | | |] S]; try discriminate; reflexivity. }
        apply IH'; [measured|fined].
      * eapply halts_nested with (skip := false) (S := S) (t := l) (k := fun f '(operand, in_lhs, rest, stack) =>
          match rest with
          | T_closed_paren :: rest => run f (Postfix c stack operand in_lhs rest)
          | _ => Reported
          end).
        -- apply N. measured.
        -- intro f. cbn [ParseModel.run prefix_token]. destruct l as [|[] l]; try discriminate; reflexivity.
        -- intros e i rest S' L1 L2 L3. cbv beta iota.
           destruct rest as [|t rest]; [apply reported_after; exact Logic.I|].
           destruct t; try (apply reported_after; exact Logic.I).
           eapply halts_after with (s' := Postfix c S' e i rest); try reflexivity.
           ++ apply IH'; [measured|]. split; [cbn [locals_of stack_of] in *; rewrite L2; exact I|exact Logic.I].
           ++ exact L2.
           ++ cbn [tokens_of length] in *; lia.
        -- exact Logic.I.
  - (* Postfix *)
    destruct (match l with t :: _ => postfix_token t | _ => false end) eqn:Et.
    2: { eapply halts_step with (s' := Operator c S e i l); try reflexivity.
         - intro f. destruct l as [|[] l]; try discriminate; reflexivity.
         - apply IH'; [measured|fined]. }
    destruct l as [|t l]; [discriminate|]. destruct t; try discriminate.
    + destruct i; [|apply halts_reported; reflexivity].
      eapply halts_step with (s' := Postfix c S (PostIncrement e) false l); try reflexivity; [apply IH'; [measured|fined]|cbn [tokens_of phase Nat.eqb length] in *; lia].
    + destruct i; [|apply halts_reported; reflexivity].
      eapply halts_step with (s' := Postfix c S (PostDecrement e) false l); try reflexivity; [apply IH'; [measured|fined]|cbn [tokens_of phase Nat.eqb length] in *; lia].
    + (* call *)
      destruct l as [|t l].
      { eapply halts_step with (s' := Arguments c S e [] []); try reflexivity; [apply IH'; [measured|fined]|cbn [tokens_of phase Nat.eqb length] in *; lia]. }
      destruct (match t with T_closed_paren => true | _ => false end) eqn:E2.
      { destruct t; try discriminate.
        eapply halts_step with (s' := Postfix c S (Call e []) false l); try reflexivity; [apply IH'; [measured|fined]|cbn [tokens_of phase Nat.eqb length] in *; lia]. }
      eapply halts_step with (s' := Arguments c S e [] (t :: l)); try reflexivity.
      * intro f. destruct t; try discriminate; reflexivity.
      * apply IH'; [measured|fined].
      * cbn [tokens_of phase Nat.eqb length]; lia.
    + eapply halts_nested with (skip := false) (S := S) (t := l).
      * apply N. measured.
      * intro f. reflexivity.
      * intros e' i' rest S' L1 L2 L3. cbv beta iota.
        destruct rest as [|t rest]; [apply reported_after; exact Logic.I|].
        destruct t; try (apply reported_after; exact Logic.I).
        eapply halts_after with (s' := Postfix c S' (Subscript e e') true rest); try reflexivity.
        -- apply IH'; [measured|]. split; [cbn [locals_of stack_of] in *; rewrite L2; exact I|exact Logic.I].
        -- exact L2.
        -- cbn [tokens_of length] in *; lia.
      * exact Logic.I.
    + destruct l as [|[] l]; try (apply halts_reported; reflexivity).
      eapply halts_step with (s' := Postfix c S (Dot e n) i l); try reflexivity; [apply IH'; [measured|fined]|cbn [tokens_of phase Nat.eqb length] in *; lia].
    + destruct l as [|[] l]; try (apply halts_reported; reflexivity).
      eapply halts_step with (s' := Postfix c S (Arrow e n) true l); try reflexivity; [apply IH'; [measured|fined]|cbn [tokens_of phase Nat.eqb length] in *; lia].
  - (* Arguments *)
    eapply halts_nested with (skip := true) (S := S) (t := l).
    + apply N. measured.
    + intro f'. reflexivity.
    + intros e i rest S' L1 L2 L3. cbv beta iota zeta.
      assert (P : forall rest', (length rest' < length rest)%nat -> forall k,
        (forall f', k f' = run f' (Postfix c S' (Call f (acc ++ [e])) false rest')) ->
        exists r, (exists N, forall f', (N <= f')%nat -> k f' = r) /\ good (Arguments c S f acc l) r).
      { intros rest' L k E. eapply halts_after with (s' := Postfix c S' (Call f (acc ++ [e])) false rest').
        - apply IH'; [measured|]. split; [cbn [locals_of stack_of] in *; rewrite L2; exact I|exact Logic.I].
        - exact E.
        - reflexivity.
        - exact L2.
        - cbn [tokens_of length] in *; lia. }
      assert (Q : forall rest', (length rest' < length rest)%nat -> forall k,
        (forall f', k f' = run f' (Arguments c S' f (acc ++ [e]) rest')) ->
        exists r, (exists N, forall f', (N <= f')%nat -> k f' = r) /\ good (Arguments c S f acc l) r).
      { intros rest' L k E. eapply halts_after with (s' := Arguments c S' f (acc ++ [e]) rest').
        - apply IH'; [measured|]. split; [cbn [locals_of stack_of] in *; rewrite L2; exact I|exact Logic.I].
        - exact E.
        - reflexivity.
        - exact L2.
        - cbn [tokens_of length] in *; lia. }
      destruct rest as [|t rest]; [apply reported_after; exact Logic.I|].
      destruct t; try (apply reported_after; exact Logic.I).
      * destruct rest as [|t rest]; [apply (Q []); [cbn; lia|reflexivity]|].
        destruct (match t with T_closed_paren => true | _ => false end) eqn:Et.
        -- destruct t; try discriminate. apply (P rest); [cbn [length]; lia|reflexivity].
        -- apply (Q (t :: rest)); [cbn [length]; lia|]. intro f'. destruct t; try discriminate; reflexivity.
      * apply (P rest); [cbn [length]; lia|reflexivity].
    + exact Logic.I.
  - (* Operator *)
    destruct l as [|t l]; [apply halts_reported; reflexivity|].
    destruct S as [|x S].
    { eapply halts_step with (s' := Switch c [] e i (t :: l)); try reflexivity. apply IH'; [measured|fined]. }
    destruct (keep x t) eqn:Ek.
    + eapply halts_step with (s' := Switch c (x :: S) e i (t :: l)); try reflexivity.
      * intro f. cbn [ParseModel.run]. rewrite Ek. reflexivity.
      * apply IH'; [measured|]. split; [exact I|exact Ek].
    + assert (X : x <> Guard) by (intros ->; discriminate).
      assert (F : finish x e i = Reported \/ exists r, finish x e i = Done r).
      { destruct x as [|p| | | | |]; try congruence; try (right; eexists; reflexivity).
        destruct p; try (right; eexists; reflexivity); destruct i; ((left; reflexivity) || (right; eexists; reflexivity)). }
      destruct F as [F|((e' & i') & F)].
      * apply halts_reported. intro f. cbn [ParseModel.run]. rewrite Ek, F. reflexivity.
      * eapply halts_step with (s' := Operator c S e' i' (t :: l)); try reflexivity.
        -- intro f. cbn [ParseModel.run]. rewrite Ek, F. reflexivity.
        -- apply IH'; [measured|]. split; [|exact Logic.I].
           cbn [locals_of stack_of] in *. rewrite below_push in I by exact X. exact I.
        -- cbn [stack_of]. rewrite below_push by exact X. reflexivity.
  - (* Switch *)
    destruct l as [|t l]; [apply halts_reported; reflexivity|].
    destruct (binary_token t) as [o|] eqn:Eb.
    { apply halts_push with (c := c) (S := S) (x := Pending_binary o e) (rest := l);
        [intro f; cbn [ParseModel.run]; rewrite Eb; reflexivity|discriminate| |reflexivity|reflexivity|cbn [tokens_of phase Nat.eqb length] in *; lia].
      apply IH'; [measured|fined]. }
    destruct (assign_token t) as [o|] eqn:Ea.
    { destruct i; [|apply halts_reported; intro f; cbn [ParseModel.run]; rewrite Eb, Ea; reflexivity].
      apply halts_push with (c := c) (S := S) (x := Pending_assign o e) (rest := l);
        [intro f; cbn [ParseModel.run]; rewrite Eb, Ea; reflexivity|discriminate| |reflexivity|reflexivity|cbn [tokens_of phase Nat.eqb length] in *; lia].
      apply IH'; [measured|fined]. }
    destruct (match t with T_question_mark => true | _ => false end) eqn:Eq.
    { destruct t; try discriminate.
      eapply halts_nested with (skip := false) (S := S) (t := l).
      - apply N. measured.
      - intro f. reflexivity.
      - intros e' i' rest S' L1 L2 L3. cbv beta iota.
        destruct rest as [|t rest]; [apply reported_after; exact Logic.I|].
        destruct t; try (apply reported_after; exact Logic.I).
        destruct (Nat.ltb_spec limit (length S' + 1)) as [B|B].
        { exists Reported. split; [|exact Logic.I]. exists 0%nat. intros f _. unfold push.
          destruct (Nat.ltb_spec limit (length S' + 1)); [reflexivity|lia]. }
        eapply halts_after with (s' := Restart c (Pending_conditional e e' :: S') rest).
        + apply IH'; [measured|]. split; [cbn [locals_of stack_of] in *; rewrite below_push by discriminate; rewrite L2; exact I|exact Logic.I].
        + intro f. rewrite push_ok by lia. reflexivity.
        + reflexivity.
        + cbn [stack_of]. rewrite below_push by discriminate. exact L2.
        + cbn [tokens_of length] in *; lia.
      - exact Logic.I. }
    assert (Leave : token_to_precedence t = 0 \/ token_to_precedence t = 15 ->
      (forall f, run (Datatypes.S f) (Switch c S e i (t :: l)) = leave c S e i (t :: l)) -> halts (Switch c S e i (t :: l))).
    { intros T E. exists (leave c S e i (t :: l)). split; [apply one_finish; exact E|].
      assert (B : below S = S).
      { destruct S as [|x S]; [reflexivity|]. destruct (match x with Guard => true | _ => false end) eqn:Ex; [destruct x; discriminate || reflexivity|].
        exfalso. assert (P : ast_to_precedence x <= 15) by (destruct x as [| | |[]| | |]; cbn; lia).
        assert (K' : keep x t = false).
        { unfold keep. destruct x; try discriminate;
          match goal with |- context [ast_to_precedence ?y] => remember (ast_to_precedence y) as pr eqn:Hp; assert (3 <= pr \/ pr = 2) by (subst pr; cbn; try (destruct o); lia) end;
          (destruct T as [T|T]; rewrite T; [change (0 =? 0) with true; cbn [negb andb]; rewrite orb_false_r; destruct (Z.eqb_spec pr 0); [lia|reflexivity]|]);
          (destruct (Z.gtb_spec pr 15); [lia|]); (destruct (Z.eqb_spec pr 15) as [->|]; reflexivity). }
        cbn in K. congruence. }
      unfold leave. cbn [locals_of stack_of] in I. destruct (did_push c) eqn:Dp.
      - rewrite B in I. destruct S as [|x S]; [exfalso; apply I; reflexivity|]. cbn [good phase locals_of stack_of tokens_of Nat.eqb].
        rewrite Dp, B. split; [lia|reflexivity].
      - cbn [good phase locals_of stack_of tokens_of Nat.eqb]. rewrite Dp, B. split; [lia|reflexivity]. }
    destruct t; try discriminate; try (apply Leave; [left; reflexivity|intro f; reflexivity]).
    (* comma *)
    destruct (should_skip_comma c) eqn:Ec.
    + apply Leave; [right; reflexivity|]. intro f. cbn [ParseModel.run binary_token assign_token]. rewrite Ec. reflexivity.
    + apply halts_push with (c := c) (S := S) (x := Pending_comma e) (rest := l);
        [intro f; cbn [ParseModel.run binary_token assign_token]; rewrite Ec; reflexivity|discriminate| |reflexivity|reflexivity|cbn [tokens_of phase Nat.eqb length] in *; lia].
      apply IH'; [measured|fined].
Qed.

Theorem every_input_ends : forall l,
  exists enough r, r <> Crash /\ forall fuel, (enough <= fuel)%nat -> parse_expression limit fuel l = r.
Proof.
  intros l. destruct (start_fine false [] l) as (F & _).
  destruct (every_state_halts _ (start false [] l) (le_n _) F) as (r & (N & H) & G).
  exists N. destruct r as [[[[e i] rest] S']| |]; [| |contradiction]; eexists; (split; [|intros f L; unfold parse_expression; rewrite H by exact L; reflexivity]); discriminate.
Qed.

(** ** A full stack *)
Fixpoint apply_prefixes (ps : list prefix) (e : tree) : tree :=
  match ps with [] => e | p :: ps => Prefix p (apply_prefixes ps e) end.
Definition plain (p : prefix) : bool := match p with Negate | BitwiseNot | LogicalNot | Promote => true | _ => false end.
Definition plain_token (p : prefix) : token :=
  match p with Negate => T_minus | BitwiseNot => T_bitwise_not | LogicalNot => T_logical_not | _ => T_plus end.

Lemma plain_prefix : forall p, plain p = true -> prefix_token (plain_token p) = Some p.
Proof. destruct p; try discriminate; reflexivity. Qed.
Lemma push_prefixes : forall ps c S rest, forallb plain ps = true -> (length S + length ps <= limit)%nat ->
  steps (Restart c S (map plain_token ps ++ rest)) (Restart c (rev (map Pending_prefix ps) ++ S) rest).
Proof.
  induction ps as [|p ps IH]; intros c S rest P L.
  - exists 0%nat, 0%nat. reflexivity.
  - cbn [forallb] in P. apply andb_true_iff in P. destruct P as (P & Ps). cbn [length] in L.
    assert (length S + 1 <= limit)%nat by lia.
    eapply steps_trans; [apply one_step with (s' := Restart c (Pending_prefix p :: S) (map plain_token ps ++ rest))|].
    + intro f. cbn [map app ParseModel.run]. rewrite plain_prefix by exact P. rewrite push_ok by assumption. reflexivity.
    + cbn [map rev]. rewrite <- app_assoc. apply IH; [exact Ps|cbn [app length]; lia].
Qed.
Lemma pop_prefixes : forall ps c S e i t rest, forallb plain ps = true -> ps <> [] ->
  steps (Operator c (rev (map Pending_prefix ps) ++ S) e i (t :: rest)) (Operator c S (apply_prefixes ps e) false (t :: rest)).
Proof.
  intros ps. induction ps as [|p ps IH] using rev_ind; intros c S e i t rest P NE; [congruence|].
  rewrite forallb_app in P. apply andb_true_iff in P. destruct P as (Ps & P). cbn [forallb] in P. rewrite andb_true_r in P.
  rewrite map_app, rev_app_distr. cbn [map rev app].
  eapply steps_trans with (b := Operator c (rev (map Pending_prefix ps) ++ S) (Prefix p e) false (t :: rest)).
  - apply operator_finish with (r := (Prefix p e, false)).
    + unfold keep. cbn [ast_to_precedence]. destruct (token_precedences t) as [T|T].
      * rewrite T. reflexivity.
      * destruct (Z.eqb_spec 2 (token_to_precedence t)); [lia|]. destruct (Z.gtb_spec 2 (token_to_precedence t)); [lia|].
        cbn [andb orb]. apply andb_false_r.
    + destruct p; try discriminate; reflexivity.
  - assert (E : apply_prefixes (ps ++ [p]) e = apply_prefixes ps (Prefix p e)).
    { clear. induction ps as [|q ps IH]; [reflexivity|]. cbn [app apply_prefixes]. rewrite IH. reflexivity. }
    rewrite E. destruct ps as [|q ps]; [exists 0%nat, 0%nat; reflexivity|]. apply IH; [exact Ps|discriminate].
Qed.

Theorem full_stack : forall ps x y k rest,
  forallb plain ps = true -> length ps = limit -> (0 < limit)%nat -> ends_expression (k :: rest) ->
  exists enough, forall fuel, (enough <= fuel)%nat ->
    parse_expression limit fuel (map plain_token ps ++ [T_open_paren; T_identifier x; T_plus; T_identifier y; T_closed_paren] ++ k :: rest)
    = Done (Binary Plus (apply_prefixes ps (Name x)) (Name y), k :: rest).
Proof.
  intros ps x y k rest P L Pos K.
  assert (NE : ps <> []) by (intros ->; cbn in L; lia).
  set (c := {| should_skip_comma := false; did_push := false |}).
  set (full := rev (map Pending_prefix ps) ++ []).
  assert (FL : length full = limit) by (unfold full; rewrite app_nil_r, rev_length, map_length; exact L).
  set (r := Binary Plus (apply_prefixes ps (Name x)) (Name y)).
  assert (Inner : finishes (start false full (T_identifier x :: T_plus :: T_identifier y :: T_closed_paren :: k :: rest))
                           (Done (r, false, T_closed_paren :: k :: rest, []))).
  { assert (ES : start false full (T_identifier x :: T_plus :: T_identifier y :: T_closed_paren :: k :: rest)
               = Restart c full (T_identifier x :: T_plus :: T_identifier y :: T_closed_paren :: k :: rest)).
    { unfold ParseModel.start. destruct full as [|z full']; [reflexivity|].
      destruct (Nat.ltb_spec (length (z :: full')) limit); [lia|reflexivity]. }
    rewrite ES.
    eapply steps_finishes; [apply one_step; intro f; reflexivity|].
    eapply steps_finishes; [apply postfix_operator; reflexivity|].
    eapply steps_finishes; [apply pop_prefixes; [exact P|exact NE]|].
    eapply steps_finishes; [apply operator_switch; exact Logic.I|].
    eapply steps_finishes with (b := Restart c [Pending_binary Plus (apply_prefixes ps (Name x))] (T_identifier y :: T_closed_paren :: k :: rest)).
    { apply one_step; intro f. cbn [ParseModel.run binary_token]. rewrite push_ok by (cbn [length]; lia). reflexivity. }
    eapply steps_finishes; [apply one_step; intro f; reflexivity|].
    eapply steps_finishes; [apply postfix_operator; reflexivity|].
    eapply steps_finishes; [apply operator_finish with (r := (r, false)); reflexivity|].
    eapply steps_finishes; [apply operator_switch; exact Logic.I|].
    apply one_finish; intro f. reflexivity. }
  assert (All : finishes (Restart c [] (map plain_token ps ++ [T_open_paren; T_identifier x; T_plus; T_identifier y; T_closed_paren] ++ k :: rest))
                         (Done (r, false, k :: rest, []))).
  { eapply steps_finishes; [apply push_prefixes; [exact P|cbn [length]; lia]|]. fold full. cbn [app].
    destruct Inner as (N & Inner).
    eapply steps_finishes with (b := Postfix c [] r false (k :: rest)).
    { exists 1%nat, N. intros f Lf. change (1 + f)%nat with (Datatypes.S f).
      pose proof (paren_step c full [T_identifier x] (T_plus :: T_identifier y :: T_closed_paren :: k :: rest) f Logic.I) as E.
      cbn [app] in E. rewrite E, Inner by exact Lf. reflexivity. }
    eapply steps_finishes; [apply postfix_operator; destruct k; try contradiction; reflexivity|].
    eapply steps_finishes; [apply operator_switch; exact Logic.I|].
    apply one_finish; intro f. destruct k; try contradiction; reflexivity. }
  destruct All as (N & All). exists N. intros f Lf. unfold parse_expression.
  change (start false [] ?t) with (Restart c [] t). rewrite All by exact Lf. reflexivity.
Qed.
End Parse.
