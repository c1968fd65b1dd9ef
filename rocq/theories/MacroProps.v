(** C38: macro expansion ends, and no macro is replaced inside its own replacement. *)
From Coq Require Import List Arith ZArith Lia Bool.
From Verif Require Import MacroModel MacroSpec MacroProofs MacroEnds.
Import ListNotations.
Open Scope nat_scope.

(** Whatever the macros and the text, and wherever the run stands: at every replacement the text of the replaced macro is not being read, neither by
    the loop that found the name nor by one that waits for an argument.  [log] lists each replacement with the macros whose text is being read. *)
Theorem C38_never_inside : forall paste table fuel source n inside, In (n, inside) (log (left_in (scan paste table fuel false (start source)))) -> ~ In n inside.
Proof.
  intros paste table fuel source n inside H. assert (I : inv (start source)) by (split; [constructor|intro x; cbn; tauto]).
  pose proof (scan_kept paste table fuel false (start source) I (fun _ _ X => False_ind _ X)) as K. destruct (scan paste table fuel false (start source)); cbn [left_in kept] in *; [apply (proj1 (proj2 K)) in H|apply K in H|apply K in H]; exact H.
Qed.
Print Assumptions C38_never_inside.

(** At the end of a file every macro can be replaced again. *)
Theorem C38_enabled : forall paste table fuel source out s, scan paste table fuel false (start source) = Ran out s -> stack s = [] /\ disabled s = [].
Proof.
  intros paste table fuel source out s H. assert (I : inv (start source)) by (split; [constructor|intro x; cbn; tauto]).
  pose proof (scan_kept paste table fuel false (start source) I (fun _ _ X => False_ind _ X)) as K. rewrite H in K. destruct K as ((_ & D) & _ & B). pose proof (scan_empty _ _ _ _ _ _ _ H) as E. split; [exact E|].
  unfold active in D. rewrite E, B in D. cbn in D. destruct (disabled s) as [|x l]; [reflexivity|]. exfalso. apply (D x). left. reflexivity.
Qed.
Print Assumptions C38_enabled.

(** An argument is expanded once: no name that is left in it stands for a macro without parameters, whatever was being read when it was expanded, so
    reading the replacement list again does not replace it again.  (Names of macros with parameters are left when no parenthesis follows.) *)
Theorem C38_arguments : forall paste table fuel a s out s1, isolated (scan paste table fuel true) a s = Ran out s1 -> forall n, In (Name n) out -> forall m, table n = Some m -> function_like m = true.
Proof.
  intros paste table fuel a s out s1 H. unfold isolated in H. destruct (scan paste table fuel true (isolate a s)) as [o s0|s0|s0] eqn:E; try discriminate. injection H as <- _. revert E. generalize (isolate a s). clear s1. revert o s0.
  induction fuel as [|fuel IH]; intros o s0 s1 E n H m T; cbn [scan] in E; [discriminate|]. destruct (next s1) as [t s2]. destruct t as [t|]; [|injection E as <- _; destruct H].
  assert (EMIT : forall u s3, (Name n = u -> function_like m = true) -> bind (scan paste table fuel true s3) (fun out s1 => Ran (if negb true && is_space u then out else u :: out) s1) = Ran o s0 -> function_like m = true).
  { intros u s3 U R. destruct (scan paste table fuel true s3) as [o1 s4|s4|s4] eqn:Q; cbn [bind negb andb] in R; try discriminate. injection R as <- _. destruct H as [H|H]; [apply U; symmetry; exact H|exact (IH _ _ _ Q _ H _ T)]. }
  destruct t as [k|k| | | | | |k]; try (eapply EMIT; [|exact E]; discriminate). destruct (table k) as [m1|] eqn:T1; [|eapply EMIT; [|exact E]; intro Q; injection Q as <-; congruence]. cbn [negb andb] in E.
  assert (SELF : function_like m1 = true -> Name n = Name k -> function_like m = true) by (intros F Q; injection Q as <-; congruence).
  destruct (function_like m1) eqn:F.
  - destruct (current (eat is_space s2)) as [t s3]. destruct t as [t|]; [|eapply EMIT; [|exact E]; auto]. destruct t; try (eapply EMIT; [|exact E]; solve [auto]).
    destruct (existsb (Nat.eqb k) (disabled s3)); [eapply EMIT; [|exact E]; discriminate|]. destruct (expand paste (isolated (scan paste table fuel true)) k m1 s3) as [t s4|s4|s4] eqn:X; cbn [bind] in E; try discriminate.
    destruct t as [t|]; [|exact (IH _ _ _ E _ H _ T)]. eapply EMIT; [|exact E]. intros <-. apply SELF; [reflexivity|]. f_equal.
    unfold expand in X. rewrite F in X. destruct (params m1 =? 0); [destruct (current (eat is_blank (snd (next s3)))) as [[[]|] ?]; unfold replace in X; destruct (body m1); try discriminate; destruct (assemble _ _ _ _ _); discriminate|].
    destruct (body m1) eqn:BB.
    + destruct (skip _ _ _) as [found s5|s5|s5]; cbn [bind] in X; try discriminate. destruct found; [unfold replace in X; rewrite BB in X; discriminate|congruence].
    + destruct (collect _ _ _ _ _ _ _ _) as [c s5|s5|s5]; cbn [bind] in X; try discriminate. destruct c; try congruence. destruct (expand_args _ _ _ _ _); cbn [bind] in X; try discriminate. unfold replace in X. rewrite BB in X. destruct (assemble _ _ _ _ _); discriminate.
  - destruct (existsb (Nat.eqb k) (disabled s2)); [eapply EMIT; [|exact E]; discriminate|]. destruct (expand paste (isolated (scan paste table fuel true)) k m1 s2) as [t s4|s4|s4] eqn:X; cbn [bind] in E; try discriminate.
    unfold expand, replace in X. rewrite F in X. destruct (body m1); [injection X as <- <-; exact (IH _ _ _ E _ H _ T)|]. destruct (assemble _ _ _ _ _); try discriminate. injection X as <- <-. exact (IH _ _ _ E _ H _ T).
Qed.
Print Assumptions C38_arguments.

(** Partial: the replacement list of every macro closes the parentheses it opens (arguments are not asked to, nor is the text).  The loop then comes to
    an end for every text, and the result does not depend on the steps it is given.
    Missing: replacement lists with open parentheses, for which the claim is false (below). *)
Theorem C38_terminates_partial : forall paste table, keeps_parens paste -> finite table -> (forall n m, table n = Some m -> closed (written (body m))) ->
  forall source, exists steps r, (forall fuel, steps <= fuel -> scan paste table fuel false (start source) = r) /\ forall s, r <> More s.
Proof.
  intros paste table P [U T] B source. destruct (scan_ends paste table U P T B false (start source)) as (f & r & R & Q).
  - split; [split; [constructor|intro x; cbn; tauto]|]. split; [intros n act []|]. split; [intros x []|]. split.
    + intros up n ns E _. destruct up as [|x up]; [injection E as _ E; symmetry; exact E|]. injection E as _ E. destruct up; discriminate.
    + intros up n ns E. right. split; [reflexivity|]. destruct up as [|x up]; [injection E as <- _; reflexivity|]. injection E as _ E. destruct up; discriminate.
  - exists f, r. split; [exact R|]. intros s ->. exact Q.
Qed.
Print Assumptions C38_terminates_partial.

(** The texts of two tokens side by side. *)
Definition side_by_side (t u : option tok) : list tok := given t ++ given u.
Definition object (b : list replacement) : option macro := Some {| function_like := false; params := 0; varargs := false; body := b |}.
Definition function (k : nat) (b : list replacement) : option macro := Some {| function_like := true; params := k; varargs := false; body := b |}.

(** #define a b + a    #define b f(a)    #define f(x) x b a f(x) *)
Definition mutual (n : nat) : option macro :=
  match n with
  | 0 => object [Tokens [Name 1; Blank; Other 1; Blank; Name 0]]
  | 1 => object [Tokens [Name 2; Open; Name 0; Close]]
  | 2 => function 1 [Argument 0; Tokens [Blank; Name 1; Blank; Name 0; Blank; Name 2; Open]; Argument 0; Tokens [Close]]
  | _ => None
  end.
Example C38_case : keeps_parens side_by_side /\ finite mutual /\ (forall n m, mutual n = Some m -> closed (written (body m)))
  /\ exists out s, scan side_by_side mutual 100 false (start [Name 0; Blank; Name 2; Open; Name 1; Open; Close; Close; Close; Open]) = Ran out s /\ length out = 56 /\ length (log s) = 12.
Proof.
  split; [intros t u; reflexivity|]. split; [exists [0; 1; 2]; intros n m H; destruct n as [|[|[|n]]]; cbn; auto; discriminate|]. split; [|eexists; eexists; split; [vm_compute; reflexivity|split; reflexivity]].
  intros n m H. destruct n as [|[|[|n]]]; try discriminate; injection H as <-; cbn; intros a b E;
    repeat (destruct a as [|? a]; [cbn in E; subst b; cbn; lia|injection E as _ E]); symmetry in E; apply app_eq_nil in E; destruct E as [_ ->]; cbn; lia.
Qed.

(** #define f(x) x    #define g f((g)
    The text  g )  never comes to an end: the argument  (g)  is collected over the end of the text of [g], so [g] is enabled again, and its
    expansion needs the expansion of the argument  (g)  once more. *)
Definition endless (n : nat) : option macro :=
  match n with 0 => function 1 [Argument 0] | 1 => object [Tokens [Name 0; Open; Open; Name 1; Close]] | _ => None end.
Definition turn (paste : option tok -> option tok -> list tok) (table : nat -> option macro) (self self_nested : state -> result (list tok)) (nested : bool) (s : state) : result (list tok) :=
  let emit t s := bind (self s) (fun out s1 => Ran (if negb nested && is_space t then out else t :: out) s1) in
  match next s with
  | (None, s1) => Ran [] s1
  | (Some (Name n), s1) =>
      match table n with
      | None => emit (Name n) s1
      | Some m =>
          let off := existsb (Nat.eqb n) (disabled s1) in
          if negb nested && off then emit (Name n) s1
          else
            let s2 := if function_like m then eat is_space s1 else s1 in
            let '(t, s3) := if function_like m then current s2 else (Some Open, s2) in
            match t with
            | Some Open =>
                if nested && existsb (Nat.eqb n) (disabled s3) then emit (Final n) s3
                else bind (expand paste (isolated self_nested) n m s3) (fun t s4 => match t with Some t => emit t s4 | None => self s4 end)
            | _ => emit (Name n) s3
            end
      end
  | (Some t, s1) => emit t s1
  end.
Lemma scan_turn : forall paste table fuel nested s, scan paste table (S fuel) nested s = turn paste table (scan paste table fuel nested) (scan paste table fuel true) nested s.
Proof. reflexivity. Qed.
Ltac one_turn :=
  rewrite scan_turn;
  match goal with |- context [turn _ _ ?g ?h _ _] =>
    let G := fresh "G" in let Q := fresh "Q" in remember g as G eqn:Q; try (rewrite <- Q; fail);
    lazymatch goal with |- context [turn _ _ G G _ _] => lazy -[isolated isolate]; rewrite Q; clear Q G
    | |- context [turn _ _ G ?h _ _] => let H := fresh "H" in let R := fresh "R" in remember h as H eqn:R; lazy -[isolated isolate]; rewrite ?R, ?Q; clear Q G R H end
  end.
Lemma endless_argument : forall fuel b x l, exists s, scan side_by_side endless fuel true {| stack := [{| rest := [Open; Name 1; Close]; name := None |}]; below := b; disabled := []; failed := x; log := l |} = More s.
Proof.
  intro fuel. induction fuel as [fuel IH] using (well_founded_induction lt_wf). intros b x l. destruct fuel as [|[|[|fuel]]]; [eexists; reflexivity|eexists; reflexivity|eexists; reflexivity|].
  one_turn. one_turn. one_turn. destruct (IH fuel ltac:(lia) b x ((1, b) :: l)) as [s E]. unfold isolated, isolate. cbn [active stack below disabled failed log names_of flat_map name app]. rewrite E. eexists. reflexivity.
Qed.
Theorem C38_terminates_refuted : keeps_parens side_by_side /\ finite endless /\ forall fuel, exists s, scan side_by_side endless fuel false (start [Name 1; Close]) = More s.
Proof.
  split; [intros t u; reflexivity|]. split; [exists [0; 1]; intros n m H; destruct n as [|[|n]]; cbn; auto; discriminate|].
  intro fuel. destruct fuel as [|[|fuel]]; [eexists; reflexivity|eexists; reflexivity|]. unfold start. one_turn. one_turn. destruct (endless_argument fuel [] false [(1, [])]) as [s E]. unfold isolated, isolate. cbn [active stack below disabled failed log names_of flat_map name app]. rewrite E. eexists. reflexivity.
Qed.
Print Assumptions C38_terminates_refuted.

(** #define f(x) x f    #define id(x) x
    In  f(1)(2)  the second [f] stems from the replacement of [f] and is left alone, as C demands.  In  id(f(1)(2))  and in  id(f(1))(2)  it is replaced
    once more: the text of the first replacement is used up when the parenthesis after the name is looked for. *)
Definition tail (n : nat) : option macro :=
  match n with 0 => function 1 [Argument 0; Tokens [Blank; Name 0]] | 1 => function 1 [Argument 0] | _ => None end.
Definition replaced (n : nat) (s : state) : nat := length (filter (fun r => fst r =? n) (log s)).
Theorem C38_self_refuted :
  (exists s, scan side_by_side tail 50 false (start [Name 0; Open; Other 1; Close; Open; Other 2; Close]) = Ran [Other 1; Name 0; Open; Other 2; Close] s /\ replaced 0 s = 1)
  /\ (exists s, scan side_by_side tail 50 false (start [Name 1; Open; Name 0; Open; Other 1; Close; Open; Other 2; Close; Close]) = Ran [Other 1; Other 2; Name 0] s /\ replaced 0 s = 2)
  /\ exists s, scan side_by_side tail 50 false (start [Name 1; Open; Name 0; Open; Other 1; Close; Close; Open; Other 2; Close]) = Ran [Other 1; Other 2; Name 0] s /\ replaced 0 s = 2.
Proof. split; [|split]; eexists; (split; [vm_compute; reflexivity|reflexivity]). Qed.
Print Assumptions C38_self_refuted.
