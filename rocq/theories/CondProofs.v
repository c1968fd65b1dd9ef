(** Proofs about conditional inclusion (C08). *)
From Verif Require Import Base CondModel CondSpec.

Scheme group_mut := Induction for group Sort Prop
with more_mut := Induction for more Sort Prop.
Combined Scheme group_more_ind from group_mut, more_mut.

Lemma eqb_self : forall f, negb (Nat.eqb f f) = false.
Proof. intro f. rewrite Nat.eqb_refl. reflexivity. Qed.

(** ** Skipped groups *)
Lemma skip_both :
  (forall g, complete g -> no_null g -> forall st out ls, disabled st = true -> run (mkstate st true out) (lines g ++ ls) = run (mkstate st true out) ls) /\
  (forall m, complete_more m -> no_null_more m -> forall f st e d i out ls, e = false ->
     (disabled st = true -> i = false -> run (mkstate (mknode i e d f :: st) true out) (lines_more f m ++ ls) = run (mkstate st true out) ls) /\
     (disabled st = false -> i || d = true -> run (mkstate (mknode i e d f :: st) (negb i) out) (lines_more f m ++ ls) = run (mkstate st false out) ls)).
Proof.
  apply group_more_ind.
  - intros _ _ st out ls D. reflexivity.
  - intros t g IH C N st out ls D. cbn [lines app run step skipping obind]. apply IH; assumption.
  - intros d g IH C N st out ls D. cbn [lines app run step stack skipping effects]. rewrite D. cbn [obind]. apply IH; assumption.
  - intros g IH C N. destruct N.
  - intros f o body IHb m IHm g IHg (C1 & C2 & C3 & C4) (N1 & N2 & N3) st out ls D. cbn [lines app run].
    assert (E : step (mkstate st true out) (Opening f o) = Done (mkstate (mknode false false false f :: st) true out)).
    { destruct o as [[b| |]|[b|]]; cbn [step stack value effects] in *; try contradiction; rewrite ?D; reflexivity. }
    rewrite E. cbn [obind]. rewrite <- !app_assoc. rewrite IHb by (assumption || reflexivity).
    destruct (IHm C3 N2 f st false false false out (lines g ++ ls) eq_refl) as (K & _). rewrite (K D eq_refl). apply IHg; assumption.
  - intros _ _ f st e d i out ls Ee. cbn [lines_more app run step stack file effects]. rewrite eqb_self. cbn [obind]. unfold behind. split; intros -> _; reflexivity.
  - intros c body IHb m IHm (C1 & C2 & C3) (N1 & N2) f st e d i out ls ->. cbn [lines_more app run].
    split; intros D Hi.
    + assert (E : step (mkstate (mknode i false d f :: st) true out) (Elif f c) = Done (mkstate (mknode i false d f :: st) true out)).
      { destruct c; try contradiction; cbn [step stack file is_else is_true is_disabled_elif effects]; rewrite eqb_self, D; subst i; reflexivity. }
      rewrite E. cbn [obind]. rewrite <- app_assoc. rewrite IHb by (try assumption; cbn; rewrite Hi; reflexivity).
      destruct (IHm C3 N2 f st false d i out ls eq_refl) as (K & _). apply K; assumption.
    + assert (E : step (mkstate (mknode i false d f :: st) (negb i) out) (Elif f c) = Done (mkstate (mknode false false true f :: st) true out)).
      { destruct c; try contradiction; cbn [step stack file is_else is_true is_disabled_elif effects]; rewrite eqb_self, D, Hi; reflexivity. }
      rewrite E. cbn [obind]. rewrite <- app_assoc. rewrite IHb by (assumption || reflexivity).
      destruct (IHm C3 N2 f st false true false out ls eq_refl) as (_ & K). apply K; [exact D|reflexivity].
  - intros body IHb C N f st e d i out ls ->. cbn [lines_more app run].
    assert (Fin : forall j sk, run (mkstate (mknode j true d f :: st) sk out) ([Endif f] ++ ls) = run (behind st out) ls).
    { intros j sk. cbn [app run step stack file effects]. rewrite eqb_self. reflexivity. }
    split; intros D Hi.
    + assert (E : step (mkstate (mknode i false d f :: st) true out) (Else f) = Done (mkstate (mknode i true d f :: st) true out)).
      { cbn [step stack file is_else is_true is_disabled_elif effects]. rewrite eqb_self, D. subst i. reflexivity. }
      rewrite E. cbn [obind]. rewrite <- app_assoc. rewrite IHb by (try assumption; cbn; rewrite Hi; reflexivity). rewrite Fin. unfold behind. rewrite D. reflexivity.
    + assert (E : step (mkstate (mknode i false d f :: st) (negb i) out) (Else f) = Done (mkstate (mknode false true d f :: st) true out)).
      { cbn [step stack file is_else is_true is_disabled_elif effects]. rewrite eqb_self, D, Hi. reflexivity. }
      rewrite E. cbn [obind]. rewrite <- app_assoc. rewrite IHb by (assumption || reflexivity). rewrite Fin. unfold behind. rewrite D. reflexivity.
Qed.

(** ** Processed groups *)
Definition continue (st : list node) (out : list effect) (ls : list line) (x : outcome (list effect)) : outcome (list effect) :=
  obind x (fun o => run (mkstate st false (out ++ o)) ls).

Lemma active_both :
  (forall g, complete g -> no_skipped_null g -> forall st out ls, disabled st = false -> run (mkstate st false out) (lines g ++ ls) = continue st out ls (expected g)) /\
  (forall m, complete_more m -> no_skipped_null_more m -> forall f st out ls, disabled st = false ->
     run (mkstate (mknode false false false f :: st) true out) (lines_more f m ++ ls) = continue st out ls (expected_more m)).
Proof.
  destruct skip_both as (SkG & SkM). apply group_more_ind.
  - intros _ _ st out ls D. unfold continue. cbn. rewrite app_nil_r. reflexivity.
  - intros t g IH C N st out ls D. cbn [lines app run step skipping obind stack effects expected]. rewrite IH by assumption. unfold continue.
    destruct (expected g); cbn [obind]; try reflexivity. rewrite <- app_assoc. reflexivity.
  - intros d g IH C N st out ls D. cbn [lines app run step stack effects expected]. rewrite D. cbn [obind]. unfold behind. rewrite D. rewrite IH by assumption. unfold continue.
    destruct (expected g); cbn [obind]; try reflexivity. rewrite <- app_assoc. reflexivity.
  - intros g IH C N st out ls D. cbn [lines app run step stack effects obind expected]. apply IH; assumption.
  - intros f o body IHb m IHm g IHg (C1 & C2 & C3 & C4) (N1 & N2) st out ls D. cbn [lines app run].
    assert (E : step (mkstate st false out) (Opening f o) = match value o with Value b => Done (mkstate (mknode b false false f :: st) (negb b) out) | _ => Reported end).
    { destruct o as [[b| |]|[b|]]; cbn [step stack value effects evaluate] in *; try contradiction; rewrite ?D; reflexivity. }
    rewrite E. cbn [expected]. destruct (value o) as [[|]| |]; cbn [obind negb]; [| |reflexivity|reflexivity].
    + destruct N1 as (N1 & N3). rewrite <- !app_assoc. rewrite IHb by (assumption || reflexivity). unfold continue. destruct (expected body) as [a| |]; cbn [obind]; try reflexivity.
      destruct (SkM m C3 N3 f st false false true (out ++ a) (lines g ++ ls) eq_refl) as (_ & K). cbn [negb] in K. rewrite (K D eq_refl).
      rewrite IHg by assumption. unfold continue. destruct (expected g) as [b| |]; cbn [obind]; try reflexivity. rewrite <- app_assoc. reflexivity.
    + destruct N1 as (N1 & N3). rewrite <- !app_assoc. rewrite (SkG body C2 N1) by reflexivity. rewrite IHm by assumption. unfold continue. destruct (expected_more m) as [a| |]; cbn [obind]; try reflexivity.
      rewrite IHg by assumption. unfold continue. destruct (expected g) as [b| |]; cbn [obind]; try reflexivity. rewrite <- app_assoc. reflexivity.
  - intros _ _ f st out ls D. cbn [lines_more app run step stack file effects]. rewrite eqb_self. cbn [obind expected_more]. unfold continue, behind. cbn [obind]. rewrite D, app_nil_r. reflexivity.
  - intros c body IHb m IHm (C1 & C2 & C3) N f st out ls D. cbn [lines_more app run].
    assert (E : step (mkstate (mknode false false false f :: st) true out) (Elif f c) = match c with Value b => Done (mkstate (mknode b false false f :: st) (negb b) out) | _ => Reported end).
    { destruct c; try contradiction; cbn [step stack file is_else is_true is_disabled_elif effects orb]; rewrite eqb_self, D; reflexivity. }
    rewrite E. cbn [expected_more no_skipped_null_more] in *. destruct c as [[|]| |]; cbn [obind negb]; [| |reflexivity|reflexivity].
    + destruct N as (N1 & N3). rewrite <- !app_assoc. rewrite IHb by (assumption || reflexivity). unfold continue. destruct (expected body) as [a| |]; cbn [obind]; try reflexivity.
      destruct (SkM m C3 N3 f st false false true (out ++ a) ls eq_refl) as (_ & K). cbn [negb] in K. apply (K D eq_refl).
    + destruct N as (N1 & N3). rewrite <- !app_assoc. rewrite (SkG body C2 N1) by reflexivity. apply IHm; assumption.
  - intros body IHb C N f st out ls D. cbn [lines_more app run].
    assert (E : step (mkstate (mknode false false false f :: st) true out) (Else f) = Done (mkstate (mknode true true false f :: st) false out)).
    { cbn [step stack file is_else is_true is_disabled_elif effects orb]. rewrite eqb_self, D. reflexivity. }
    rewrite E. cbn [obind expected_more]. rewrite <- !app_assoc. rewrite IHb by (assumption || reflexivity). unfold continue. destruct (expected body) as [a| |]; cbn [obind]; try reflexivity.
    cbn [app run step stack file effects]. rewrite eqb_self. cbn [obind]. unfold behind. rewrite D. reflexivity.
Qed.

Theorem first_true : forall g, complete g -> no_skipped_null g -> preprocess (lines g) = expected g.
Proof.
  intros g C N. unfold preprocess. rewrite <- (app_nil_r (lines g)). rewrite (proj1 active_both g C N) by reflexivity. unfold continue. destruct (expected g); reflexivity.
Qed.

(** ** Whatever is accepted is balanced *)
Fixpoint completes (st : list node) (ls : list line) : Prop :=
  match st with
  | [] => exists g, ls = lines g
  | nd :: st => exists g m ls', ls = lines g ++ lines_more (file nd) m ++ ls' /\ (is_else nd = true -> m = EndifLine) /\ completes st ls'
  end.
Lemma completes_line : forall st l ls, completes st ls -> (forall g, exists g', lines g' = l :: lines g) -> completes st (l :: ls).
Proof.
  intros [|nd st] l ls K L; cbn in *.
  - destruct K as (g & ->). destruct (L g) as (g' & E). exists g'. symmetry. exact E.
  - destruct K as (g & m & ls' & -> & A & B). destruct (L g) as (g' & E). exists g', m, ls'. rewrite E. auto.
Qed.
Lemma completes_section : forall st f o g m ls, completes st ls -> completes st (Opening f o :: lines g ++ lines_more f m ++ ls).
Proof.
  intros [|nd st] f o g m ls K; cbn in *.
  - destruct K as (g' & ->). exists (Section_ f o g m g'). reflexivity.
  - destruct K as (g' & m' & ls' & -> & A & B). exists (Section_ f o g m g'), m', ls'. split; [|auto]. cbn. rewrite <- !app_assoc. reflexivity.
Qed.

Lemma run_completes : forall ls s out, run s ls = Done out -> completes (stack s) ls.
Proof.
  induction ls as [|l ls IH]; intros s out E; cbn [run] in E.
  - destruct (stack s); [exists Nothing; reflexivity|discriminate].
  - destruct (step s l) as [s'| |] eqn:Es; try discriminate. cbn [obind] in E. apply IH in E. clear IH.
    destruct l as [t|d| |f [c|c]|f c|f|f]; cbn [step] in Es.
    + assert (stack s' = stack s) as Q by (destruct (skipping s); assert (s' = s \/ s' = mkstate (stack s) false (effects s ++ [Emit t])) as [->| ->] by (left + right; congruence); reflexivity).
      rewrite Q in E. apply completes_line; [exact E|]. intro g. exists (TextLine t g). reflexivity.
    + assert (stack s' = stack s) as Q by (destruct (disabled (stack s)); injection Es as <-; reflexivity).
      rewrite Q in E. apply completes_line; [exact E|]. intro g. exists (CommandLine d g). reflexivity.
    + injection Es as <-. cbn [stack] in E. apply completes_line; [exact E|]. intro g. exists (NullLine g). reflexivity.
    + assert (exists b, stack s' = mknode b false false f :: stack s) as (b & Q).
      { destruct c; try discriminate; destruct (disabled (stack s)); cbn [evaluate obind] in Es; try discriminate; injection Es as <-; eexists; reflexivity. }
      rewrite Q in E. cbn [completes file] in E. destruct E as (g & m & ls' & -> & _ & K). apply completes_section. exact K.
    + assert (exists b, stack s' = mknode b false false f :: stack s) as (b & Q) by (destruct c; [|discriminate]; injection Es as <-; eexists; reflexivity).
      rewrite Q in E. cbn [completes file] in E. destruct E as (g & m & ls' & -> & _ & K). apply completes_section. exact K.
    + assert (exists nd st i d, stack s = nd :: st /\ file nd = f /\ is_else nd = false /\ stack s' = mknode i false d f :: st) as (nd & st & i & d & Q & Qf & Qe & Q').
      { destruct c; try discriminate; destruct (stack s) as [|nd st]; try discriminate; destruct (Nat.eqb_spec (file nd) f) as [Ef|]; cbn [negb] in Es; try discriminate;
          destruct (is_else nd) eqn:El; try discriminate; destruct (disabled st); [|destruct (is_true nd || is_disabled_elif nd)| |destruct (is_true nd || is_disabled_elif nd)]; cbn [evaluate obind] in Es; try discriminate;
          injection Es as <-; exists nd, st; eexists; eexists; repeat split; try exact Ef; try exact El. }
      rewrite Q' in E. rewrite Q. cbn [completes file] in *. destruct E as (g & m & ls' & -> & _ & K). exists Nothing, (ElifGroup c g m), ls'. rewrite Qf, Qe. split; [|split; [discriminate|exact K]].
      cbn. rewrite <- app_assoc. reflexivity.
    + assert (exists nd st i d, stack s = nd :: st /\ file nd = f /\ is_else nd = false /\ stack s' = mknode i true d f :: st) as (nd & st & i & d & Q & Qf & Qe & Q').
      { destruct (stack s) as [|nd st]; try discriminate; destruct (Nat.eqb_spec (file nd) f) as [Ef|]; cbn [negb] in Es; try discriminate;
          destruct (is_else nd) eqn:El; try discriminate; destruct (disabled st); injection Es as <-; exists nd, st; eexists; eexists; repeat split; try exact Ef; try exact El. }
      rewrite Q' in E. rewrite Q. cbn [completes file is_else] in *. destruct E as (g & m & ls' & -> & M & K). rewrite (M eq_refl). exists Nothing, (ElseGroup g), ls'. rewrite Qf, Qe. split; [|split; [discriminate|exact K]].
      cbn. rewrite <- app_assoc. reflexivity.
    + destruct (stack s) as [|nd st]; try discriminate. destruct (Nat.eqb_spec (file nd) f) as [Ef|]; cbn [negb] in Es; try discriminate. injection Es as <-. cbn [behind stack] in E.
      exists Nothing, EndifLine, ls. rewrite Ef. split; [reflexivity|]. split; [reflexivity|exact E].
Qed.

Theorem accepted_balanced : forall ls out, preprocess ls = Done out -> exists g, ls = lines g.
Proof. intros ls out E. exact (run_completes ls _ out E). Qed.
Theorem never_crashes : forall ls s, run s ls <> Crash.
Proof.
  induction ls as [|l ls IH]; intros s; cbn [run]; [destruct (stack s); discriminate|]. destruct (step s l) as [s'| |] eqn:E; cbn [obind]; [apply IH|discriminate|].
  exfalso. destruct l as [t|d| |f [c|c]|f c|f|f]; cbn [step] in E; try discriminate;
  repeat (first [discriminate | match type of E with context [match ?x with _ => _ end] => destruct x end; cbn [evaluate obind] in E ]).
Qed.
