(** Proofs for C38. *)
From Coq Require Import List ZArith Lia Bool Wellfounded.
From Verif Require Import MacroModel MacroSpec.
Import ListNotations.
Open Scope Z_scope.

(** ** The flags and the stack *)
Definition inv (s : state) : Prop := NoDup (active s) /\ forall n, In n (disabled s) <-> In n (active s).
Definition shrinks (s s1 : state) : Prop := below s1 = below s /\ log s1 = log s /\ (inv s -> inv s1) /\ incl (disabled s1) (disabled s) /\ incl (active s1) (active s).
Lemma shrinks_refl : forall s, shrinks s s.
Proof. intro s. split; [reflexivity|]. split; [reflexivity|]. split; [auto|]. split; apply incl_refl. Qed.
Lemma shrinks_trans : forall a b c, shrinks a b -> shrinks b c -> shrinks a c.
Proof.
  intros a b c (B1 & L1 & I1 & D1 & A1) (B2 & L2 & I2 & D2 & A2). split; [congruence|]. split; [congruence|]. split; [auto|]. split; eapply incl_tran; eassumption.
Qed.
Lemma shrinks_fail : forall s, shrinks s (fail s).
Proof. intro s. split; [reflexivity|]. split; [reflexivity|]. split; [intro H; exact H|]. split; intros x H; exact H. Qed.

Lemma names_cons : forall n ns, names_of (n :: ns) = match name n with Some m => m :: names_of ns | None => names_of ns end.
Proof. intros n ns. cbn. destruct (name n); reflexivity. Qed.
Definition inv' (ns : list node) (b d : list nat) : Prop := NoDup (names_of ns ++ b) /\ forall n, In n d <-> In n (names_of ns ++ b).
Lemma inv_pop : forall n ns b d, inv' (n :: ns) b d -> inv' ns b (reenable n d).
Proof.
  intros n ns b d [N I]. unfold inv', reenable. rewrite names_cons in *. destruct (name n) as [m|]; [|split; assumption]. cbn [app] in *. inversion N as [|? ? M N1]; subst. split; [exact N1|].
  intro x. split; intro H.
  - apply in_remove in H. destruct H as [H X]. apply I in H. destruct H as [H|H]; [congruence|exact H].
  - apply in_in_remove; [intros ->; contradiction|apply I; right; exact H].
Qed.
Lemma reenable_incl : forall n d, incl (reenable n d) d.
Proof. intros n d x H. unfold reenable in H. destruct (name n); [apply in_remove in H; tauto|exact H]. Qed.
Lemma names_pop : forall n ns, incl (names_of ns) (names_of (n :: ns)).
Proof. intros n ns x H. rewrite names_cons. destruct (name n); [right|]; exact H. Qed.
Lemma settle_ok : forall ns d b, let '(ns1, d1) := settle ns d in (inv' ns b d -> inv' ns1 b d1) /\ incl d1 d /\ incl (names_of ns1) (names_of ns).
Proof.
  induction ns as [|n ns IH]; intros d b; cbn [settle]; [split; [auto|]; split; intros x H; exact H|]. destruct (rest n) as [|t l] eqn:R.
  - specialize (IH (reenable n d) b). destruct (settle ns (reenable n d)) as [ns1 d1]. destruct IH as (I & D & N). split; [intro H; apply I, inv_pop; exact H|]. split; [eapply incl_tran; [exact D|apply reenable_incl]|eapply incl_tran; [exact N|apply names_pop]].
  - split; [auto|]. split; intros x H; exact H.
Qed.
Lemma set_stack_shrinks : forall s ns d, (inv' (stack s) (below s) (disabled s) -> inv' ns (below s) d) -> incl d (disabled s) -> incl (names_of ns) (names_of (stack s)) -> shrinks s (set_stack s ns d).
Proof.
  intros s ns d I D N. split; [reflexivity|]. split; [reflexivity|]. split; [exact I|]. split; [exact D|]. unfold active. cbn [stack below set_stack]. apply incl_app; [apply incl_appl; exact N|apply incl_appr; apply incl_refl].
Qed.
Lemma current_shrinks : forall s, shrinks s (snd (current s)).
Proof.
  intro s. unfold current. pose proof (settle_ok (stack s) (disabled s) (below s)) as H. destruct (settle (stack s) (disabled s)) as [ns d]. destruct H as (I & D & N). apply set_stack_shrinks; assumption.
Qed.
Lemma next_shrinks : forall s, shrinks s (snd (next s)).
Proof.
  intro s. unfold next. pose proof (current_shrinks s) as H. destruct (current s) as [t s1]. cbn [snd] in H. destruct (stack s1) as [|n ns] eqn:E; [exact H|]. cbn [snd]. apply (shrinks_trans _ s1 _ H). apply set_stack_shrinks.
  - rewrite E. intro J. unfold inv' in *. rewrite names_cons in *. cbn [name]. exact J.
  - apply incl_refl.
  - rewrite E, !names_cons. cbn [name]. apply incl_refl.
Qed.
Lemma eat_ok : forall p ns d b, let '(ns1, d1) := eat_nodes p ns d in (inv' ns b d -> inv' ns1 b d1) /\ incl d1 d /\ incl (names_of ns1) (names_of ns).
Proof.
  intros p. induction ns as [|n ns IH]; intros d b; cbn [eat_nodes]; [split; [auto|]; split; intros x H; exact H|]. destruct (drop_while p (rest n)) as [|t l] eqn:R.
  - specialize (IH (reenable n d) b). destruct (eat_nodes p ns (reenable n d)) as [ns1 d1]. destruct IH as (I & D & N). split; [intro H; apply I, inv_pop; exact H|]. split; [eapply incl_tran; [exact D|apply reenable_incl]|eapply incl_tran; [exact N|apply names_pop]].
  - split; [|split; [apply incl_refl|rewrite !names_cons; cbn [name]; apply incl_refl]]. unfold inv'. rewrite !names_cons. cbn [name]. auto.
Qed.
Lemma eat_shrinks : forall p s, shrinks s (eat p s).
Proof.
  intros p s. unfold eat. pose proof (eat_ok p (stack s) (disabled s) (below s)) as H. destruct (eat_nodes p (stack s) (disabled s)) as [ns d]. destruct H as (I & D & N). apply set_stack_shrinks; assumption.
Qed.

(** The state in which a function ends. *)
Definition left_in {A : Set} (r : result A) : state := match r with Ran _ s => s | Assert s => s | More s => s end.
Lemma skip_shrinks : forall fuel depth s, shrinks s (left_in (skip fuel depth s)).
Proof.
  induction fuel as [|fuel IH]; intros depth s; cbn [skip]; [apply shrinks_refl|]. pose proof (next_shrinks s) as H. destruct (next s) as [t s1]. cbn [snd] in H.
  destruct t as [t|]; [|exact H]. destruct t; try (exact (shrinks_trans _ _ _ H (IH _ _))). destruct depth as [|[|d]]; [exact H|exact H|exact (shrinks_trans _ _ _ H (IH _ _))].
Qed.
Lemma collect_shrinks : forall fuel va left depth args cur blank s, shrinks s (left_in (collect fuel va left depth args cur blank s)).
Proof.
  induction fuel as [|fuel IH]; intros va left depth args cur blank s; cbn [collect]; [apply shrinks_refl|]. pose proof (next_shrinks s) as H. destruct (next s) as [t s1]. cbn [snd] in H.
  destruct t as [t|]; [|exact H]. destruct t; cbn [is_space]; try (exact (shrinks_trans _ _ _ H (IH _ _ _ _ _ _ _))).
  - destruct depth as [|[|d]]; [exact H|exact H|exact (shrinks_trans _ _ _ H (IH _ _ _ _ _ _ _))].
  - destruct (depth =? 1)%nat; [|exact (shrinks_trans _ _ _ H (IH _ _ _ _ _ _ _))]. destruct left as [|left]; [destruct va; [exact (shrinks_trans _ _ _ H (IH _ _ _ _ _ _ _))|exact H]|].
    exact (shrinks_trans _ _ _ H (shrinks_trans _ _ _ (eat_shrinks _ _) (IH _ _ _ _ _ _ _))).
Qed.

Definition proper (l : list (nat * list nat)) : Prop := forall n act, In (n, act) l -> ~ In n act.
Definition kept {A : Set} (s : state) (r : result A) : Prop :=
  match r with Ran _ s1 => inv s1 /\ proper (log s1) /\ below s1 = below s | Assert s1 => proper (log s1) | More s1 => proper (log s1) end.

Lemma next_none : forall s s1, next s = (None, s1) -> stack s1 = [].
Proof.
  intros s s1 H. unfold next, current in H. destruct (settle (stack s) (disabled s)) as [ns d] eqn:E. cbn [set_stack stack disabled] in H. destruct ns as [|n ns]; [injection H as <-; reflexivity|].
  exfalso. assert (R : rest n <> []).
  { clear H. revert d n ns E. generalize (disabled s). induction (stack s) as [|m ms IH]; intros d0 d n ns E; cbn [settle] in E; [discriminate|]. destruct (rest m) as [|t l] eqn:R; [exact (IH _ _ _ _ E)|]. injection E as <- <- <-. rewrite R. discriminate. }
  destruct (rest n); [congruence|]. discriminate.
Qed.

Section Expansion.
Variable paste : option tok -> option tok -> list tok.
Variable table : nat -> option macro.
Notation scan := (scan paste table).
Notation expand := (expand paste).
Notation replace := (replace paste).
Notation assemble := (assemble paste).

Lemma scan_empty : forall fuel nested s out s1, scan fuel nested s = Ran out s1 -> stack s1 = [].
Proof.
  induction fuel as [|fuel IH]; intros nested s out s1 H; cbn [MacroModel.scan] in H; [discriminate|]. destruct (next s) as [t s0] eqn:N. destruct t as [t|]; [|injection H as <- <-; exact (next_none _ _ N)].
  assert (E : forall t s0, bind (scan fuel nested s0) (fun out s1 => Ran (if negb nested && is_space t then out else t :: out) s1) = Ran out s1 -> stack s1 = []).
  { intros t0 s2 Q. destruct (scan fuel nested s2) as [o s3|s3|s3] eqn:S; cbn [bind] in Q; try discriminate. injection Q as <- <-. exact (IH _ _ _ _ S). }
  destruct t; try (exact (E _ _ H)). destruct (table n) as [m|]; [|exact (E _ _ H)]. destruct (negb nested && existsb (Nat.eqb n) (disabled s0)); [exact (E _ _ H)|].
  destruct (if function_like m then current (if function_like m then eat is_space s0 else s0) else (Some Open, if function_like m then eat is_space s0 else s0)) as [t s3].
  destruct t as [t|]; [|exact (E _ _ H)]. destruct t; try (exact (E _ _ H)). destruct (nested && existsb (Nat.eqb n) (disabled s3)); [exact (E _ _ H)|].
  destruct (expand (isolated (scan fuel true)) n m s3) as [t s4|s4|s4]; cbn [bind] in H; try discriminate. destruct t; [exact (E _ _ H)|exact (IH _ _ _ _ H)].
Qed.

Lemma replace_kept : forall n m raw ex s, inv s -> proper (log s) -> ~ In n (disabled s) -> kept s (replace n m raw ex s).
Proof.
  intros n m raw ex s I P D. assert (A : ~ In n (active s)) by (intro H; apply D, I; exact H).
  assert (P1 : proper ((n, active s) :: log s)) by (intros x act [H|H]; [injection H as <- <-; exact A|exact (P _ _ H)]).
  unfold MacroModel.replace. destruct (body m); [split; [exact I|split; [exact P1|reflexivity]]|]. destruct (assemble raw ex [] (r :: l)); [|exact P1]. split; [|split; [exact P1|reflexivity]].
  split; unfold active; cbn [stack below disabled set_stack]; rewrite names_cons; cbn [name app].
  - constructor; [exact A|apply I].
  - intro x. cbn [In]. destruct I as [_ I]. specialize (I x). unfold active in I. tauto.
Qed.

Lemma isolated_kept : forall (f : state -> result (list tok)) a s, (forall s, inv s -> proper (log s) -> kept s (f s)) -> (forall s out s1, f s = Ran out s1 -> stack s1 = []) ->
  inv s -> proper (log s) -> kept s (isolated f a s) /\ forall out s1, isolated f a s = Ran out s1 -> stack s1 = stack s.
Proof.
  intros f a s F E I P. unfold isolated. assert (I0 : inv (isolate a s)) by exact I. specialize (F (isolate a s) I0 P). pose proof (E (isolate a s)) as E1. destruct (f (isolate a s)) as [out s1|s1|s1]; cbn [kept] in *.
  - destruct F as (I1 & P1 & B1). specialize (E1 _ _ eq_refl). split; [|intros ? ? Q; injection Q as _ <-; reflexivity]. split; [|split; [exact P1|reflexivity]]. cbn [below isolate] in B1. destruct I1 as [N1 D1]. unfold active in N1, D1. rewrite E1, B1 in *. cbn [names_of flat_map app] in *. split; [exact N1|exact D1].
  - split; [exact F|discriminate].
  - split; [exact F|discriminate].
Qed.

Lemma expand_args_kept : forall f b raw i s, (forall a s, inv s -> proper (log s) -> kept s (f a s) /\ forall out s1, f a s = Ran out s1 -> stack s1 = stack s) ->
  inv s -> proper (log s) -> kept s (expand_args f b i raw s) /\ forall out s1, expand_args f b i raw s = Ran out s1 -> stack s1 = stack s.
Proof.
  intros f b. induction raw as [|a raw IH]; intros i s F I P; cbn [expand_args].
  - split; [split; [exact I|split; [exact P|reflexivity]]|intros ? ? Q; injection Q as _ <-; reflexivity].
  - set (g := if uses i b then match a with [] => Ran [] s | _ :: _ => f a s end else Ran [] s).
    assert (G : kept s g /\ forall out s1, g = Ran out s1 -> stack s1 = stack s).
    { unfold g. assert (Z : kept s (Ran (@nil tok) s) /\ forall out s1, Ran (@nil tok) s = Ran out s1 -> stack s1 = stack s) by (split; [split; [exact I|split; [exact P|reflexivity]]|intros ? ? Q; injection Q as _ <-; reflexivity]).
      destruct (uses i b); [|exact Z]. destruct a; [exact Z|]. exact (F _ s I P). }
    destruct g as [out s1|s1|s1]; cbn [bind kept] in *; [|split; [apply G|discriminate]|split; [apply G|discriminate]]. destruct G as [(I1 & P1 & B1) G]. specialize (G _ _ eq_refl).
    destruct (IH (S i) s1 F I1 P1) as [K E]. destruct (expand_args f b (S i) raw s1) as [outs s2|s2|s2]; cbn [bind kept] in *; [|split; [exact K|discriminate]|split; [exact K|discriminate]].
    destruct K as (I2 & P2 & B2). specialize (E _ _ eq_refl). split; [split; [exact I2|split; [exact P2|congruence]]|intros ? ? Q; injection Q as _ <-; congruence].
Qed.

Lemma kept_shrinks : forall (A : Set) s s1 (r : result A), shrinks s s1 -> kept s1 r -> kept s r.
Proof. intros A s s1 r (B & _) K. destruct r; cbn [kept] in *; [rewrite <- B; exact K|exact K|exact K]. Qed.

Lemma expand_kept : forall f n m s, (forall a s, inv s -> proper (log s) -> kept s (f a s) /\ forall out s1, f a s = Ran out s1 -> stack s1 = stack s) ->
  inv s -> proper (log s) -> ~ In n (disabled s) -> kept s (expand f n m s).
Proof.
  intros f n m s F I P D. unfold MacroModel.expand. destruct (function_like m); [|apply replace_kept; assumption].
  assert (J : forall s1, shrinks s s1 -> inv s1 /\ proper (log s1) /\ ~ In n (disabled s1)).
  { intros s1 (_ & L & I1 & D1 & _). split; [exact (I1 I)|]. split; [rewrite L; exact P|]. intro H. apply D, D1, H. }
  assert (R : forall s1 raw ex, shrinks s s1 -> kept s (replace n m raw ex s1)).
  { intros s1 raw ex H. apply (kept_shrinks _ _ s1); [exact H|]. destruct (J _ H) as (A & B & C). apply replace_kept; assumption. }
  assert (E : forall s1, shrinks s s1 -> kept s (Ran (Some (Name n)) s1)).
  { intros s1 H. destruct (J _ H) as (A & B & C). split; [exact A|]. split; [exact B|apply H]. }
  pose proof (next_shrinks s) as S1. destruct (next s) as [t s1]. cbn [snd] in S1 |- *. destruct (params m =? 0)%nat.
  - pose proof (shrinks_trans _ _ _ S1 (eat_shrinks is_blank s1)) as S2. pose proof (shrinks_trans _ _ _ S2 (current_shrinks _)) as S3. destruct (current (eat is_blank s1)) as [u s3]. cbn [snd] in S3.
    destruct u as [u|]; [|apply R; exact (shrinks_trans _ _ _ S3 (shrinks_fail _))]. destruct u; try (apply R; exact (shrinks_trans _ _ _ S3 (shrinks_fail _))). apply R. exact (shrinks_trans _ _ _ S3 (next_shrinks _)).
  - destruct (body m) as [|r0 l0] eqn:BM.
    + pose proof (shrinks_trans _ _ _ S1 (skip_shrinks (size s1) 1 s1)) as S2. destruct (skip (size s1) 1 s1) as [found s2|s2|s2]; cbn [bind left_in kept] in *; [|apply (J _ S2)|apply (J _ S2)]. destruct found; [apply R; exact S2|apply E; exact (shrinks_trans _ _ _ S2 (shrinks_fail _))].
    + pose proof (shrinks_trans _ _ _ (shrinks_trans _ _ _ S1 (eat_shrinks is_space s1)) (collect_shrinks (size (eat is_space s1)) (varargs m) (params m - 1) 1 [] [] None (eat is_space s1))) as S2.
      destruct (collect (size (eat is_space s1)) (varargs m) (params m - 1) 1 [] [] None (eat is_space s1)) as [c s3|s3|s3]; cbn [bind left_in kept] in *; [|apply (J _ S2)|apply (J _ S2)].
      destruct c as [raw| | |]; try (apply E; exact (shrinks_trans _ _ _ S2 (shrinks_fail _))). destruct (J _ S2) as (A & B & C).
      destruct (expand_args_kept f (r0 :: l0) raw 0%nat s3 F A B) as [K1 K2]. destruct (expand_args f (r0 :: l0) 0 raw s3) as [ex s4|s4|s4]; cbn [bind kept] in *; [|exact K1|exact K1].
      destruct K1 as (I4 & P4 & B4). specialize (K2 _ _ eq_refl). assert (D4 : ~ In n (disabled s4)). { intro H. apply I4 in H. apply C, A. unfold active in *. rewrite K2, B4 in H. exact H. }
      assert (B5 : below s4 = below s) by (rewrite B4; apply S2). pose proof (replace_kept n m raw ex s4 I4 P4 D4) as K. destruct (replace n m raw ex s4) as [x y|y|y]; cbn [kept] in *; [rewrite <- B5; exact K|exact K|exact K].
Qed.

Theorem scan_kept : forall fuel nested s, inv s -> proper (log s) -> kept s (scan fuel nested s).
Proof.
  induction fuel as [|fuel IH]; intros nested s I P; cbn [MacroModel.scan]; [exact P|].
  assert (J : forall s1, shrinks s s1 -> inv s1 /\ proper (log s1)) by (intros s1 (_ & L & I1 & _); split; [exact (I1 I)|rewrite L; exact P]).
  assert (E0 : forall t s1, inv s1 -> proper (log s1) -> below s1 = below s -> kept s (bind (scan fuel nested s1) (fun out s1 => Ran (if negb nested && is_space t then out else t :: out) s1))).
  { intros t s1 A B C. specialize (IH nested s1 A B). destruct (scan fuel nested s1); cbn [bind kept] in *; [rewrite <- C; exact IH|exact IH|exact IH]. }
  assert (E : forall t s1, shrinks s s1 -> kept s (bind (scan fuel nested s1) (fun out s1 => Ran (if negb nested && is_space t then out else t :: out) s1))).
  { intros t s1 H. destruct (J _ H) as [A B]. apply E0; [exact A|exact B|apply H]. }
  pose proof (next_shrinks s) as S1. destruct (next s) as [t s1]. cbn [snd] in S1. destruct t as [t|]; [|destruct (J _ S1) as [A B]; split; [exact A|split; [exact B|apply S1]]].
  destruct t; try (exact (E _ _ S1)). destruct (table n) as [m|]; [|exact (E _ _ S1)]. destruct (negb nested && existsb (Nat.eqb n) (disabled s1)) eqn:OFF; [exact (E _ _ S1)|].
  set (s2 := if function_like m then eat is_space s1 else s1). assert (S2 : shrinks s1 s2) by (unfold s2; destruct (function_like m); [apply eat_shrinks|apply shrinks_refl]).
  assert (S3 : shrinks s2 (snd (if function_like m then current s2 else (Some Open, s2)))) by (destruct (function_like m); [apply current_shrinks|apply shrinks_refl]).
  destruct (if function_like m then current s2 else (Some Open, s2)) as [t s3]. cbn [snd] in S3. pose proof (shrinks_trans _ _ _ S1 (shrinks_trans _ _ _ S2 S3)) as S4.
  destruct t as [t|]; [|exact (E _ _ S4)]. destruct t; try (exact (E _ _ S4)). destruct (nested && existsb (Nat.eqb n) (disabled s3)) eqn:OFF2; [exact (E _ _ S4)|].
  assert (D : ~ In n (disabled s3)).
  { intro H. destruct nested; cbn [negb andb] in OFF, OFF2.
    - assert (existsb (Nat.eqb n) (disabled s3) = true) as X by (apply existsb_exists; exists n; split; [exact H|apply Nat.eqb_refl]). congruence.
    - assert (existsb (Nat.eqb n) (disabled s1) = true) as X by (apply existsb_exists; exists n; split; [apply S2, S3, H|apply Nat.eqb_refl]). congruence. }
  destruct (J _ S4) as [A B]. pose proof (expand_kept (isolated (scan fuel true)) n m s3) as X. specialize (X ltac:(intros a x IX PX; apply isolated_kept; [intros; apply IH; assumption|intros ? ? ?; apply scan_empty|exact IX|exact PX]) A B D).
  destruct (expand (isolated (scan fuel true)) n m s3) as [t s4|s4|s4]; cbn [bind kept] in *; [|exact X|exact X]. destruct X as (I4 & P4 & B4). assert (B5 : below s4 = below s) by (rewrite B4; apply S4).
  destruct t as [t|]; [apply E0; assumption|]. specialize (IH nested s4 I4 P4). destruct (scan fuel nested s4); cbn [kept] in *; [rewrite <- B5; exact IH|exact IH|exact IH].
Qed.
End Expansion.
