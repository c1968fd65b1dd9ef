(** Proofs for C46. *)
From Coq Require Import List ZArith Bool Lia.
From Verif Require Import Base IntTypes CSpec IntModel IntProofs LowerSpec LowerModel LowerProofs BranchSpec BranchModel BranchProofs BranchRun
                          StmtSpec StmtRulesSpec StmtModel FallSpec FallModel.
Import ListNotations.
Open Scope Z_scope.

Section Fall.
Variable first : nat.
Variable ty : nat -> ity.
Variable noreturn : bool.
Notation always := (always first ty).
Notation walk := (walk first ty noreturn).

Lemma always_true : forall e env t v, expr_ok first e -> values_fit first ty env -> beval ty env e = Some (t, v) -> always e = true -> v <> 0.
Proof.
  intros e env t v (V & L & N) F E A. unfold FallModel.always in A. destruct (generate first ty e (mkcounters 0 [])) as [[q c]| |] eqn:G; try discriminate.
  assert (HB : holds_below first ty env (fun x => env x mod 2 ^ width (ty x))) by (intros x Lx; split; [apply F, Lx|reflexivity]).
  pose proof (generate_pushes first ty c env _ e _ q c t v HB V L N E G (grows_refl c)) as (_ & _ & P).
  destruct (literal q) as [l|]; [|discriminate]. destruct P as [_ <-]. rewrite as_u64_zero in A. intro Z0. rewrite Z0 in A. discriminate.
Qed.

Fixpoint has_default (s : stmt) : bool :=
  match s with
  | SSkip | SEffect _ | SBreak | SContinue | SReturn _ | SGoto _ | SSwitch _ _ => false
  | SSeq a b | SIfElse _ a b => has_default a || has_default b
  | SIf _ a | SWhile _ a | SDo a _ | SFor _ _ a | SCase _ _ a | SLabel _ a => has_default a
  | SDefault _ => true
  end.
Fixpoint has_return (s : stmt) : bool :=
  match s with
  | SSkip | SEffect _ | SBreak | SContinue | SGoto _ => false
  | SReturn _ => true
  | SSeq a b | SIfElse _ a b => has_return a || has_return b
  | SIf _ a | SWhile _ a | SDo a _ | SFor _ _ a | SCase _ _ a | SLabel _ a | SSwitch _ a | SDefault a => has_return a
  end.

(** The flags as functions of the flag before the statement. *)
Fixpoint flags (s : stmt) (r : bool) : bool * bool :=
  match s with
  | SSkip | SEffect _ => (r, false)
  | SSeq a b => let x := flags a r in let y := flags b (fst x) in (fst y, snd x || snd y)
  | SIf _ a => (r, snd (flags a r))
  | SIfElse _ a b => let x := flags a r in let y := flags b r in (r || (fst y && fst x), snd x || snd y)
  | SWhile e a => (r || (negb (snd (flags a r)) && always e), false)
  | SDo a e => let x := flags a r in (fst x || (negb (snd x) && always e), false)
  | SFor c _ a => (r || (negb (snd (flags a r)) && always (match c with Some e => e | None => BLit S32 1 end)), false)
  | SBreak => (r, negb r)
  | SContinue | SReturn _ | SGoto _ => (true, false)
  | SSwitch _ a => let x := flags a r in (r || (fst x && has_default a && negb (snd x)), false)
  | SCase _ _ a | SDefault a | SLabel _ a => flags a false
  end.

Lemma walk_flags : forall s r b d w,
  walk s (mkstate r b d w) = mkstate (fst (flags s r)) (b || snd (flags s r)) (d || has_default s) (w || (has_return s && noreturn)).
Proof.
  induction s as [|f|a IHa c IHb|e a IHa|e a IHa c IHb|e a IHa|a IHa e|c0 f a IHa| | |e a IHa|t p a IHa|a IHa|e|n|n a IHa]; intros r b d w;
    cbn [FallModel.walk flags has_default has_return]; unfold with_returns, enter; cbn [returns alive_break defaulted reported fst snd];
    rewrite ?IHa; cbn [returns alive_break defaulted reported fst snd]; rewrite ?IHb; cbn [returns alive_break defaulted reported fst snd];
    rewrite ?orb_false_r, ?orb_false_l, ?orb_assoc, ?andb_orb_distrib_l, ?orb_assoc, ?orb_true_r; try reflexivity.
  destruct r; cbn; rewrite ?orb_false_r, ?orb_true_r; reflexivity.
Qed.

(** ** No label is found where there are none *)
Definition is_name (p : target) : bool := match p with Name _ => true | _ => false end.
Lemma seek_none : forall s l c p k, simple l c s -> (l = true -> is_name p = false) -> (c = true -> is_name p = true) -> seek p s k = None.
Proof.
  induction s as [|f|a IHa b IHb|e a IHa|e a IHa b IHb|e a IHa|a IHa e|c0 f a IHa| | |e a IHa|t q a IHa|a IHa|e|n|n a IHa]; intros l c p k W L C; cbn [seek simple] in *; try reflexivity.
  - destruct W as [Wa Wb]. rewrite (IHa l c) by auto. apply (IHb l c); auto.
  - apply (IHa false false); auto; discriminate.
  - destruct W as [Wa Wb]. rewrite (IHa false false) by (auto; discriminate). apply (IHb false false); auto; discriminate.
  - apply (IHa false false); auto; discriminate.
  - destruct W as [Wa _]. apply (IHa false false); auto; discriminate.
  - apply (IHa false false); auto; discriminate.
  - destruct p; try reflexivity. apply (IHa false true); auto; discriminate.
  - destruct W as [Wc Wa]. specialize (C Wc). destruct p; try discriminate. apply (IHa l c); auto.
  - destruct W as [Wc Wa]. specialize (C Wc). destruct p; try discriminate. apply (IHa l c); auto.
  - destruct W as [Wl Wa]. specialize (L Wl). destruct p; try discriminate; apply (IHa l c); auto.
Qed.

Lemma no_own_default : forall s l, simple l false s -> has_default s = false.
Proof.
  induction s as [|f|a IHa b IHb|e a IHa|e a IHa b IHb|e a IHa|a IHa e|c0 f a IHa| | |e a IHa|t q a IHa|a IHa|e|n|n a IHa]; intros l W; cbn [has_default simple] in *; try reflexivity;
    try (destruct W as [W1 W2]); try discriminate; try (apply orb_false_iff; split); eauto.
Qed.

Lemma default_found : forall s l c k, simple l c s -> has_default s = true -> seek Default s k <> None.
Proof.
  induction s as [|f|a IHa b IHb|e a IHa|e a IHa b IHb|e a IHa|a IHa e|c0 f a IHa| | |e a IHa|t q a IHa|a IHa|e|n|n a IHa]; intros l c k W D; cbn [has_default simple seek] in *; try discriminate.
  - destruct W as [Wa Wb]. apply orb_true_iff in D. unfold orelse. destruct (seek Default a (Kseq b k)) eqn:E; [discriminate|]. destruct D as [D|D]; [|eauto]. exfalso. exact (IHa l c _ Wa D E).
  - rewrite (no_own_default _ _ W) in D. discriminate.
  - destruct W as [Wa Wb]. rewrite (no_own_default _ _ Wa), (no_own_default _ _ Wb) in D. discriminate.
  - rewrite (no_own_default _ _ W) in D. discriminate.
  - destruct W as [W _]. rewrite (no_own_default _ _ W) in D. discriminate.
  - rewrite (no_own_default _ _ W) in D. discriminate.
  - destruct W as [_ W]. eauto.
  - destruct W as [_ W]. eauto.
Qed.

(** ** What may follow a statement: running on behind it, [break], [continue] *)
Variable rt : option ity.
Variable is_main : bool.
Record ways : Type := mkways { on : Prop; out : Prop; again : Prop }.
Definition static (s : stmt) : Prop := (exists l c, simple l c s) /\ stmt_ok first s /\ (noreturn = true -> has_return s = false).
Definition from (r : bool) (s : stmt) (x : ways) : Prop :=
  (fst (flags s r) = true \/ on x) /\ (snd (flags s r) = false \/ out x) /\ (continues s = true -> again x).
Definition good (s : stmt) (x : ways) : Prop := static s /\ from false s x.

Fixpoint after (k : cont) : ways :=
  match k with
  | Kstop => mkways (is_main = true /\ rt = Some S32) True True
  | Kseq b k => let x := after k in mkways (good b x) (out x) (again x)
  | Kwhile e a k => let x := after k in let loop := good (SWhile e a) x in mkways loop (on x) loop
  | Kdo a e k => let x := after k in mkways (static (SDo a e) /\ (always e = true \/ on x)) False False
  | Kfor c f a k => let x := after k in let loop := good (SFor c f a) x in mkways loop (on x) loop
  | Kswitch k => let x := after k in mkways (on x) (on x) (again x)
  end.

Lemma static_simple : forall s l c, simple l c s -> stmt_ok first s -> (noreturn = true -> has_return s = false) -> static s.
Proof. intros s l c A B C. split; [eauto|auto]. Qed.

Lemma seek_good : forall s l c p k s' k' r, simple l c s -> stmt_ok first s -> (noreturn = true -> has_return s = false) ->
  from r s (after k) -> seek p s k = Some (s', k') -> good s' (after k').
Proof.
  induction s as [|f|a IHa b IHb|e a IHa|e a IHa b IHb|e a IHa|a IHa e|c0 f a IHa| | |e a IHa|t q a IHa|a IHa|e|n|n a IHa]; intros l c p k s' k' r W K N F E;
    cbn [seek simple stmt_ok has_return] in *; try discriminate.
  - destruct W as [Wa Wb]. destruct K as [Ka Kb]. destruct F as (F1 & F2 & F3). cbn [flags fst snd continues] in *.
    assert (Na : noreturn = true -> has_return a = false) by (intro H; apply N, orb_false_iff in H; apply H).
    assert (Nb : noreturn = true -> has_return b = false) by (intro H; apply N, orb_false_iff in H; apply H).
    unfold orelse in E. destruct (seek p a (Kseq b k)) as [[s1 k1]|] eqn:Ea.
    + injection E as <- <-. apply (IHa l c p (Kseq b k) s1 k1 r Wa Ka Na); [|exact Ea]. split; [|split]; cbn [after on out again].
      * destruct (fst (flags a r)) eqn:R; [left; reflexivity|]. right. split; [eapply static_simple; eauto|]. split; [exact F1|]. split; [|intro C; apply F3; rewrite C; apply orb_true_r].
        destruct F2 as [F2|F2]; [|right; exact F2]. left. apply orb_false_iff in F2. apply F2.
      * destruct F2 as [F2|F2]; [|right; exact F2]. left. apply orb_false_iff in F2. apply F2.
      * intro C. apply F3. rewrite C. reflexivity.
    + apply (IHb l c p k s' k' (fst (flags a r)) Wb Kb Nb); [|exact E]. split; [exact F1|]. split.
      * destruct F2 as [F2|F2]; [|right; exact F2]. left. apply orb_false_iff in F2. apply F2.
      * intro C. apply F3. rewrite C. apply orb_true_r.
  - rewrite (seek_none a false false) in E by (auto; discriminate). discriminate.
  - destruct W as [Wa Wb]. rewrite (seek_none a false false), (seek_none b false false) in E by (auto; discriminate). discriminate.
  - rewrite (seek_none a false false) in E by (auto; discriminate). discriminate.
  - destruct W as [Wa _]. rewrite (seek_none a false false) in E by (auto; discriminate). discriminate.
  - rewrite (seek_none a false false) in E by (auto; discriminate). discriminate.
  - destruct p; try discriminate. rewrite (seek_none a false true) in E by (auto; discriminate). discriminate.
  - destruct W as [_ W]. destruct K as [_ K]. assert (F' : from false a (after k)) by exact F.
    assert (G : good a (after k)) by (split; [eapply static_simple; eauto|exact F']).
    destruct p as [m|t0 v|]; [eapply IHa; eauto| |eapply IHa; eauto]. destruct (_ =? v); [injection E as <- <-; exact G|]. eapply IHa; eauto.
  - destruct W as [_ W]. assert (F' : from false a (after k)) by exact F.
    assert (G : good a (after k)) by (split; [eapply static_simple; eauto|exact F']).
    destruct p as [m|t0 v|]; [eapply IHa; eauto|eapply IHa; eauto|]. injection E as <- <-; exact G.
  - destruct W as [_ W]. assert (F' : from false a (after k)) by exact F.
    assert (G : good a (after k)) by (split; [eapply static_simple; eauto|exact F']).
    destruct p as [m|t0 v|]; [|eapply IHa; eauto|eapply IHa; eauto]. destruct (Nat.eqb n m); [injection E as <- <-; exact G|]. eapply IHa; eauto.
Qed.

Variable body : stmt.
Hypothesis body_simple : simple true false body.
Hypothesis body_ok : stmt_ok first body.
Hypothesis body_noreturn : noreturn = true -> has_return body = false.
Hypothesis body_from : from false body (after Kstop).

Definition holds (p : progress) : Prop :=
  match p with
  | Running s k env => good s (after k) /\ values_fit first ty env
  | Returned _ _ => noreturn = true -> is_main = true /\ rt = Some S32
  | Ended _ => False
  | Undefined => True
  end.

Lemma skip_good : forall x, on x -> good SSkip x.
Proof. intros x H. split; [split; [exists true, true; exact I|split; [exact I|reflexivity]]|]. split; [right; exact H|]. split; [left; reflexivity|discriminate]. Qed.

Lemma skip_on : forall x, good SSkip x -> on x.
Proof. intros x [_ [[H|H] _]]; [discriminate|exact H]. Qed.

Lemma effect_fit : forall f env env', values_fit first ty env -> effect_value ty f env = Some env' -> values_fit first ty env'.
Proof.
  intros [e|x e] env env' V E; cbn in E; unfold bind in E.
  - destruct (beval ty env e); [|discriminate]. injection E as <-. exact V.
  - destruct (beval ty env e) as [[t v]|]; [|discriminate]. injection E as <-. intros y Y. unfold assigned. destruct (Nat.eqb_spec y x) as [->|]; [apply convert_object|exact (V y Y)].
Qed.

Lemma test_holds : forall e env s1 k1 s2 k2, expr_ok first e -> values_fit first ty env ->
  good s1 (after k1) -> (always e = true \/ good s2 (after k2)) -> holds (test ty e env (s1, k1) (s2, k2)).
Proof.
  intros e env s1 k1 s2 k2 Oe V G1 G2. unfold test. destruct (beval ty env e) as [[t v]|] eqn:E; [|exact I].
  destruct (Z.eqb_spec v 0) as [->|N]; cbn [holds]; split; auto. destruct G2 as [A|G2]; [|exact G2].
  exfalso. exact (always_true e env t 0 Oe V E A eq_refl).
Qed.

Lemma break_good : forall k k', out (after k) -> break_out k = Some k' -> on (after k').
Proof.
  induction k as [|b k IH|e a k IH|a e k IH|c f a k IH|k IH]; intros k' H E; cbn [break_out] in E; try discriminate; cbn [after out] in H; try (injection E as <-); auto. contradiction.
Qed.

Lemma continue_good : forall k s' k', again (after k) -> continue_loop k = Some (s', k') -> good s' (after k').
Proof.
  induction k as [|b k IH|e a k IH|a e k IH|c f a k IH|k IH]; intros s' k' H E; cbn [continue_loop] in E; try discriminate; cbn [after again] in H; try (injection E as <- <-); auto.
  - contradiction.
  - apply skip_good. exact H.
Qed.

Lemma false_or : forall b c, b || c = false -> b = false /\ c = false.
Proof. intros b c H. apply orb_false_iff, H. Qed.

Lemma part_static : forall s, static s -> forall a, (forall l c, simple l c s -> exists l' c', simple l' c' a) -> (stmt_ok first s -> stmt_ok first a) ->
  (has_return s = false -> has_return a = false) -> static a.
Proof. intros s ((l & c & A) & B & C) a X Y Z. split; [eauto|]. split; auto. Qed.

Lemma no_break : forall s, breaks s = false -> forall r, snd (flags s r) = false.
Proof.
  induction s as [|f|a IHa b IHb|e a IHa|e a IHa b IHb|e a IHa|a IHa e|c0 f a IHa| | |e a IHa|t q a IHa|a IHa|e|n|n a IHa]; cbn [breaks flags snd]; intros B r; try reflexivity; try discriminate; auto;
    apply false_or in B; destruct B as [Ba Bb]; rewrite (IHa Ba), (IHb Bb); reflexivity.
Qed.

Theorem step_holds : forall s k env, holds (Running s k env) -> holds (cstep ty rt body is_main s k env).
Proof.
  intros s k env [G V]. destruct s as [|f|a b|e a|e a b|e a|a e|c0 f a| | |e a|t q a|a|e|n|n a]; cbn [cstep].
  - apply skip_on in G. destruct k as [|b k|e a k|a e k|c f a k|k]; cbn [after on] in G.
    + destruct G as [Gm Gr]. rewrite Gm, Gr. intros _. split; assumption.
    + split; auto.
    + split; auto.
    + destruct G as [St G]. apply test_holds; [apply St|exact V| |].
      * split; [exact St|]. split; [|split; [left; reflexivity|discriminate]]. cbn [flags fst].
        destruct St as ((l & c & _ & Br & _) & _). rewrite (no_break a Br). cbn [negb andb]. destruct G as [G|G]; [left; rewrite G; apply orb_true_r|right; exact G].
      * destruct G as [G|G]; [left; exact G|right; apply skip_good, G].
    + destruct f as [f|]; [|split; auto]. destruct (effect_value ty f env) eqn:E; [|exact I]. split; [exact G|]. eapply effect_fit; eauto.
    + split; [|exact V]. apply skip_good, G.
  - destruct (effect_value ty f env) eqn:E; [|exact I]. split; [|eapply effect_fit; eauto]. apply skip_good. destruct G as [_ [[G|G] _]]; [discriminate|exact G].
  - (* sequence *)
    split; [|exact V]. destruct G as (St & F1 & F2 & F3). cbn [flags fst snd continues] in *. pose proof St as ((l & c & Wa & Wb) & (Ka & Kb) & N). cbn [has_return] in N.
    assert (Na : noreturn = true -> has_return a = false) by (intro H; apply N, false_or in H; apply H).
    assert (Nb : noreturn = true -> has_return b = false) by (intro H; apply N, false_or in H; apply H).
    split; [eapply static_simple; eauto|]. split; [|split]; cbn [after on out again].
    + destruct (fst (flags a false)) eqn:R; [left; reflexivity|]. right. split; [eapply static_simple; eauto|]. split; [exact F1|]. split; [|intro C; apply F3; rewrite C; apply orb_true_r].
      destruct F2 as [F2|F2]; [|right; exact F2]. left. apply false_or in F2. apply F2.
    + destruct F2 as [F2|F2]; [|right; exact F2]. left. apply false_or in F2. apply F2.
    + intro C. apply F3. rewrite C. reflexivity.
  - (* if *)
    destruct G as (St & F1 & F2 & F3). cbn [flags fst snd continues] in *. pose proof St as ((l & c & W) & (Ke & Ka) & N). destruct F1 as [F1|F1]; [discriminate|].
    apply test_holds; auto; [|right; apply skip_good, F1]. split; [eapply static_simple; eauto|]. split; [right; exact F1|]. split; [exact F2|exact F3].
  - (* if else *)
    destruct G as (St & F1 & F2 & F3). cbn [flags fst snd continues orb] in *. pose proof St as ((l & c & Wa & Wb) & (Ke & Ka & Kb) & N). cbn [has_return] in N.
    assert (Na : noreturn = true -> has_return a = false) by (intro H; apply N, false_or in H; apply H).
    assert (Nb : noreturn = true -> has_return b = false) by (intro H; apply N, false_or in H; apply H).
    apply test_holds; auto; [|right]; (split; [eapply static_simple; eauto|]; split; [|split]).
    + destruct F1 as [F1|F1]; [left|right; exact F1]. apply andb_true_iff in F1. apply F1.
    + destruct F2 as [F2|F2]; [|right; exact F2]. left. apply false_or in F2. apply F2.
    + intro C. apply F3. rewrite C. reflexivity.
    + destruct F1 as [F1|F1]; [left|right; exact F1]. apply andb_true_iff in F1. apply F1.
    + destruct F2 as [F2|F2]; [|right; exact F2]. left. apply false_or in F2. apply F2.
    + intro C. apply F3. rewrite C. apply orb_true_r.
  - (* while *)
    pose proof G as (St & F1 & _). cbn [flags fst snd orb] in *. pose proof St as ((l & c & W) & (Ke & Ka) & N).
    apply test_holds; auto.
    + split; [eapply static_simple; eauto|]. split; [right; exact G|]. split; [|intros _; exact G]. cbn [after out]. destruct F1 as [F1|F1]; [left|right; exact F1].
      apply andb_true_iff in F1. destruct F1 as [F1 _]. apply negb_true_iff, F1.
    + destruct F1 as [F1|F1]; [left; apply andb_true_iff in F1; apply F1|right; apply skip_good, F1].
  - (* do *)
    split; [|exact V]. destruct G as (St & F1 & _). cbn [flags fst snd] in *. pose proof St as ((l & c & W & Br & Co) & (Ke & Ka) & N).
    split; [eapply static_simple; eauto|]. split; [|split]; cbn [after on out again].
    + apply or_comm in F1. destruct F1 as [F1|F1]; [right; split; auto|]. apply orb_true_iff in F1. destruct F1 as [F1|F1]; [left; exact F1|right; split; [exact St|]]. left. apply andb_true_iff in F1. apply F1.
    + left. apply no_break, Br.
    + rewrite Co. discriminate.
  - (* for *)
    pose proof G as (St & F1 & _). cbn [flags fst snd orb] in *. pose proof St as ((l & c & W) & (Kc & Kf & Ka) & N).
    assert (Gb : good a (after (Kfor c0 f a k))).
    { split; [eapply static_simple; eauto|]. split; [right; exact G|]. split; [|intros _; exact G]. cbn [after out]. destruct F1 as [F1|F1]; [left|right; exact F1].
      apply andb_true_iff in F1. destruct F1 as [F1 _]. apply negb_true_iff, F1. }
    destruct c0 as [e|]; [|split; auto]. apply test_holds; auto.
    destruct F1 as [F1|F1]; [left; apply andb_true_iff in F1; apply F1|right; apply skip_good, F1].
  - (* break *)
    destruct G as (_ & _ & [F|F] & _); [discriminate|]. destruct (break_out k) as [k'|] eqn:E; [|exact I]. split; [|exact V]. apply skip_good. eapply break_good; eauto.
  - destruct G as (_ & _ & _ & F). specialize (F eq_refl). destruct (continue_loop k) as [[s' k']|] eqn:E; [|exact I]. split; [|exact V]. eapply continue_good; eauto.
  - (* switch *)
    destruct (beval ty env e) as [[t v]|]; [|exact I].
    destruct G as (St & F1 & _ & F3). cbn [flags fst snd continues orb] in *. pose proof St as ((l & c & W) & (Ke & Ka) & N). cbn [simple has_return] in W, N.
    assert (Fr : from false a (after (Kswitch k))).
    { split; [|split; [|exact F3]]; cbn [after on out].
      - destruct F1 as [F1|F1]; [left|right; exact F1]. apply andb_true_iff in F1. destruct F1 as [F1 _]. apply andb_true_iff in F1. apply F1.
      - destruct F1 as [F1|F1]; [left|right; exact F1]. apply andb_true_iff in F1. destruct F1 as [_ F1]. apply negb_true_iff, F1. }
    unfold orelse. destruct (seek (Constant (promote t) v) a (Kswitch k)) as [[s' k']|] eqn:E1; [split; [|exact V]; eapply seek_good; eauto|].
    destruct (seek Default a (Kswitch k)) as [[s2 k2]|] eqn:E2; [split; [|exact V]; eapply seek_good; eauto|].
    split; [|exact V]. apply skip_good. destruct F1 as [F1|F1]; [|exact F1]. exfalso. apply andb_true_iff in F1. destruct F1 as [F1 _]. apply andb_true_iff in F1.
    exact (default_found a false true _ W (proj2 F1) E2).
  - split; [|exact V]. destruct G as (St & F). split; [|exact F]. destruct St as ((l & c & _ & W) & (_ & K) & N). eapply static_simple; eauto.
  - split; [|exact V]. destruct G as (St & F). split; [|exact F]. destruct St as ((l & c & _ & W) & K & N). eapply static_simple; eauto.
  - (* return *)
    destruct G as ((_ & _ & N) & _). destruct e as [e|]; [destruct rt as [t|]; [|exact I]; destruct (beval ty env e) as [[t1 v]|]; [|exact I]|destruct rt; [exact I|]]; intro H; specialize (N H); discriminate.
  - destruct (seek (Name n) body Kstop) as [[s' k']|] eqn:E; [|exact I]. split; [|exact V]. eapply seek_good; eauto.
  - split; [|exact V]. destruct G as (St & F). split; [|exact F]. destruct St as ((l & c & _ & W) & K & N). eapply static_simple; eauto.
Qed.

Theorem steps_hold : forall n p, holds p -> holds (csteps ty rt body is_main n p).
Proof.
  induction n as [|n IH]; intros p H; [exact H|]. cbn [csteps]. destruct p; auto. apply IH, step_holds, H.
Qed.
End Fall.

Theorem unwarned : forall first ty noreturn rt is_main body env n,
  stmt_ok first body -> well_structured body -> values_fit first ty env ->
  noreturn = true \/ rt <> None -> warned first ty noreturn rt is_main body = false ->
  holds first ty noreturn rt is_main (csteps ty rt body is_main n (Running body Kstop env)).
Proof.
  intros first ty noreturn rt is_main body env n K W V A Wn. unfold warned in Wn. rewrite walk_flags in Wn. cbn [returns reported orb] in Wn.
  apply false_or in Wn. destruct Wn as [Wr Wm].
  assert (N : noreturn = true -> has_return body = false) by (intros ->; rewrite andb_true_r in Wr; exact Wr).
  assert (F : from first ty false body (after first ty noreturn rt is_main Kstop)).
  { assert (Y : noreturn || match rt with Some _ => true | None => false end = true) by (destruct A as [->|A]; [reflexivity|]; destruct rt; [apply orb_true_r|congruence]).
    rewrite Y, andb_true_r in Wm. apply negb_false_iff in Wm. split; [|split; [right; exact I|intros _; exact I]]. cbn [after on].
    destruct is_main; [|left; exact Wm]. destruct rt as [[]|]; try (left; exact Wm). right. split; reflexivity. }
  apply steps_hold; auto. split; [|exact V]. split; [|exact F]. eapply static_simple; eauto.
Qed.


Lemma has_own_default : forall s, has_default s = false -> own_defaults s = 0%nat.
Proof.
  induction s as [|f|a IHa b IHb|e a IHa|e a IHa b IHb|e a IHa|a IHa e|c0 f a IHa| | |e a IHa|t q a IHa|a IHa|e|n|n a IHa]; cbn [has_default own_defaults]; intro H; try reflexivity; try discriminate; auto;
    apply false_or in H; destruct H as [Ha Hb]; rewrite (IHa Ha), (IHb Hb); reflexivity.
Qed.

Lemma always_literal : forall first ty t p, value_of_bits t p <> 0 -> always first ty (BLit t p) = true.
Proof.
  intros first ty t p N. unfold always. cbn [generate literal literal_expr]. rewrite as_u64_zero. apply negb_true_iff, Z.eqb_neq. exact N.
Qed.

Theorem obvious_returns : forall first ty s, obvious s -> forall r, fst (flags first ty s r) = true.
Proof.
  intros first ty. induction s as [|f|a IHa b IHb|e a IHa|e a IHa b IHb|e a IHa|a IHa e|c0 f a IHa| | |e a IHa|t q a IHa|a IHa|e|n|n a IHa]; cbn [obvious]; intros O r; try contradiction; cbn [flags fst snd]; auto.
  - destruct O as [A B]. rewrite (IHa A), (IHb B). apply orb_true_r.
  - destruct e; try contradiction. destruct O as [N B]. rewrite (no_break first ty a B), (always_literal first ty _ _ N). apply orb_true_r.
  - rewrite (IHa O). reflexivity.
  - destruct c0; [contradiction|]. rewrite (no_break first ty a O), (always_literal first ty S32 1) by (vm_compute; discriminate). apply orb_true_r.
  - destruct O as (A & D & B). rewrite (IHa A), (no_break first ty a B). destruct (has_default a) eqn:E; [apply orb_true_r|]. apply has_own_default in E. contradiction.
Qed.
