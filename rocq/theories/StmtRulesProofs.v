(** Proofs: the parser accepts exactly the functions that keep C's constraints. *)
From Coq Require Import List ZArith Bool Lia.
From Verif Require Import Base IntTypes CSpec IntModel IntProofs LowerSpec LowerModel LowerProofs
                          BranchSpec BranchModel BranchProofs BranchRun StmtSpec StmtModel StmtShape StmtProofs StmtRulesSpec.
Import ListNotations.

Section Rules.
Variable first : nat.
Variable ty : nat -> ity.
Variable rt : option ity.
Notation lower_stmt := (lower_stmt first ty rt).
Notation generate := (generate first ty).

Definition word (v : Z) : Z := wrapu 64 v.
Definition defaults (d : option nat) : nat := match d with Some _ => 1 | None => 0 end.
Definition cases_of (x : inside) (s : stmt) : list Z :=
  match switch_on x with Some (t, _) => map word (own_cases t s) | None => [] end.

Ltac opened H :=
  repeat match type of H with
  | with_expr _ _ _ _ _ = Done _ => let q := fresh "q" in let c := fresh "c" in let G := fresh "Ge" in
      apply with_expr_inv in H; destruct H as (q & c & G & H)
  | obind _ _ = Done _ => let a := fresh "code" in let st := fresh "st" in let A := fresh "A" in
      apply bind_inv in H; destruct H as (a & st & A & H)
  end; try (apply done_inj in H; destruct H as [<- <-]).

Definition same (st st' : flow) : Prop := cases st' = cases st /\ map fst (names st') = map fst (names st) /\ default st' = default st.
Lemma effect_same : forall f st code st', lower_effect first ty f st = Done (code, st') -> same st st'.
Proof. intros [e|y e] st code st' H; cbn [lower_effect] in H; opened H; repeat split. Qed.

Definition state (x : inside) (s : stmt) (st st' : flow) : Prop :=
  cases st' = cases st ++ cases_of x s /\ map fst (names st') = map fst (names st) ++ label_names s /\
  defaults (default st') = (defaults (default st) + own_defaults s)%nat.

Lemma state_same : forall x s a b st st', state x s a b -> same st a -> same b st' -> state x s st st'.
Proof.
  intros x s a b st st' (C & N & D) (C1 & N1 & D1) (C2 & N2 & D2). split; [congruence|]. split; [congruence|]. rewrite D2, D, D1. reflexivity.
Qed.
Lemma state_in : forall x y s st st', switch_on x = switch_on y -> state x s st st' -> state y s st st'.
Proof. intros x y s st st' E (C & N & D). split; [unfold cases_of in *; rewrite <- E; exact C|auto]. Qed.
Lemma same_refl : forall st, same st st. Proof. repeat split. Qed.

(** What the state is after the statement, and the constraints the statement keeps. *)
Definition kept (x : inside) (s : stmt) : Prop :=
  rules ty rt (match continue_label x with Some _ => true | None => false end) (match switch_on x with Some _ => true | None => false end) s.

Definition sane (x : inside) : Prop := break_label x = None -> continue_label x = None /\ switch_on x = None.
Definition sane' (x : inside) : Prop := break_label x <> None -> continue_label x <> None \/ switch_on x <> None.

Lemma wrapu_inj : forall t a b, in_range t a -> in_range t b -> word a = word b -> a = b.
Proof.
  intros t a b A B E. unfold word in E. apply (f_equal (wrapu (width t))) in E. rewrite !case_word in E. apply Z.eqb_eq in E. rewrite mod_eqb in E by assumption. apply Z.eqb_eq, E.
Qed.

Definition distinct (st st' : flow) : Prop :=
  (NoDup (cases st) -> NoDup (cases st')) /\ (NoDup (map fst (names st)) -> NoDup (map fst (names st'))).
Lemma distinct_trans : forall a b c, distinct a b -> distinct b c -> distinct a c.
Proof. intros a b c [A B] [C D]. split; auto. Qed.
Lemma distinct_same : forall st st', same st st' -> distinct st st'.
Proof. intros st st' (C & N & _). split; [rewrite C|rewrite N]; auto. Qed.

Definition facts (x : inside) (s : stmt) (st : flow) (code : list instr) (st' : flow) : Prop :=
  state x s st st' /\ kept x s /\ (forall n, In n (goto_names s) -> In (Goto n) code) /\ distinct st st'.

Lemma facts_nil : forall x s st code st', cases_of x s = [] -> label_names s = [] -> own_defaults s = 0%nat -> same st st' -> kept x s ->
  (forall n, In n (goto_names s) -> In (Goto n) code) -> facts x s st code st'.
Proof.
  intros x s st code st' A B C S0 K G. split; [|split; [exact K|split; [exact G|apply distinct_same, S0]]]. destruct S0 as (E1 & E2 & E3).
  split; [rewrite A, app_nil_r; exact E1|]. split; [rewrite B, app_nil_r; exact E2|]. rewrite C, E3. lia.
Qed.
Lemma facts_app : forall x s a b st c1 st1 st1' c2 st2 code, facts x a st c1 st1 -> same st1 st1' -> facts x b st1' c2 st2 ->
  cases_of x s = cases_of x a ++ cases_of x b -> label_names s = label_names a ++ label_names b -> own_defaults s = (own_defaults a + own_defaults b)%nat ->
  goto_names s = goto_names a ++ goto_names b -> (kept x a -> kept x b -> kept x s) -> (forall i, In i c1 \/ In i c2 -> In i code) ->
  facts x s st code st2.
Proof.
  intros x s a b st c1 st1 st1' c2 st2 code ((C1 & N1 & D1) & K1 & G1 & U1) S0 ((C2 & N2 & D2) & K2 & G2 & U2) EC EN ED EG EK I0.
  pose proof (distinct_same _ _ S0) as US. destruct S0 as (E1 & E2 & E3).
  split; [|split; [auto|split; [|eapply distinct_trans; [exact U1|eapply distinct_trans; [exact US|exact U2]]]]].
  - split; [rewrite C2, E1, C1, EC, app_assoc; reflexivity|]. split; [rewrite N2, E2, N1, EN, app_assoc; reflexivity|]. rewrite D2, E3, D1, ED. lia.
  - intros n Hn. rewrite EG in Hn. apply in_app_or in Hn. apply I0. destruct Hn; auto.
Qed.
Lemma facts_in : forall x y s a st st1 c st2 st' code, facts y a st1 c st2 -> switch_on y = switch_on x -> same st st1 -> same st2 st' ->
  cases_of x s = cases_of x a -> label_names s = label_names a -> own_defaults s = own_defaults a -> goto_names s = goto_names a ->
  (kept y a -> kept x s) -> (forall i, In i c -> In i code) -> facts x s st code st'.
Proof.
  intros x y s a st st1 c st2 st' code (S & K & G & U) E S1 S2 EC EN ED EG EK I0.
  split; [|split; [auto|split; [intros n Hn; rewrite EG in Hn; auto|eapply distinct_trans; [apply distinct_same, S1|eapply distinct_trans; [exact U|apply distinct_same, S2]]]]].
  apply (state_in _ x) in S; [|exact E]. pose proof (state_same _ _ _ _ _ _ S S1 S2) as (A & B & C). split; [rewrite EC; exact A|]. split; [rewrite EN; exact B|]. rewrite ED. exact C.
Qed.
Lemma cases_none : forall x s, (forall t, own_cases t s = []) -> cases_of x s = [].
Proof. intros x s H. unfold cases_of. destruct (switch_on x) as [[t i]|]; [rewrite H|]; reflexivity. Qed.
Lemma cases_two : forall x s a b, (forall t, own_cases t s = own_cases t a ++ own_cases t b) -> cases_of x s = cases_of x a ++ cases_of x b.
Proof. intros x s a b H. unfold cases_of. destruct (switch_on x) as [[t i]|]; [rewrite H, map_app|]; reflexivity. Qed.
Lemma cases_one : forall x s a, (forall t, own_cases t s = own_cases t a) -> cases_of x s = cases_of x a.
Proof. intros x s a H. unfold cases_of. destruct (switch_on x) as [[t i]|]; [rewrite H|]; reflexivity. Qed.

Ltac inside_code := let i := fresh "i" in intro i; rewrite ?in_app_iff; tauto.
Ltac one_part IH A := eapply facts_in; [eapply IH; [..|exact A]| | | | | | | | |]; try reflexivity; try assumption; try (apply cases_one; reflexivity); try (repeat split; fail); try inside_code.

Lemma not_existing : forall v l, existsb (fun w => (w =? v)%Z) l = false -> ~ In v l.
Proof. intros v l E K. assert (X : existsb (fun w => (w =? v)%Z) l = true) by (apply existsb_exists; exists v; split; [exact K|apply Z.eqb_refl]). congruence. Qed.
Lemma not_named : forall (n : nat) (l : list (nat * nat)), existsb (fun y => Nat.eqb (fst y) n) l = false -> ~ In n (map fst l).
Proof.
  intros n l E K. apply in_map_iff in K. destruct K as (y & Y & K). assert (X : existsb (fun y => Nat.eqb (fst y) n) l = true) by (apply existsb_exists; exists y; split; [exact K|apply Nat.eqb_eq, Y]). congruence.
Qed.
Lemma nodup_snoc : forall A (l : list A) a, NoDup l -> ~ In a l -> NoDup (l ++ [a]).
Proof. intros A l a N H. apply NoDup_rev in N. rewrite <- (rev_involutive (l ++ [a])), rev_app_distr. apply NoDup_rev. cbn. constructor; [rewrite <- in_rev; exact H|exact N]. Qed.

Theorem lower_keeps : forall s x st code st', stmt_ok first s -> sane' x -> lower_stmt s x st = Done (code, st') -> facts x s st code st'.
Proof.
  induction s as [|f|a IHa b IHb|e a IHa|e a IHa b IHb|e a IHa|a IHa e|c0 f a IHa| | |e a IHa|t p a IHa|a IHa|e|n|n a IHa];
    intros x st code st' W SA Lo; cbn [StmtModel.lower_stmt stmt_ok] in *.
  - apply done_inj in Lo; destruct Lo as [<- <-]. apply facts_nil; [apply cases_none; reflexivity|reflexivity|reflexivity|repeat split|exact I|intros n []].
  - apply facts_nil; [apply cases_none; reflexivity|reflexivity|reflexivity|eapply effect_same; eauto|exact I|intros n []].
  - opened Lo. destruct W as [Wa Wb]. eapply facts_app; [eapply IHa; eauto|apply same_refl|eapply IHb; eauto|apply cases_two; reflexivity|..]; try reflexivity; try (intros K1 K2; split; assumption); try inside_code.
  - opened Lo. destruct W as [We Wa]. one_part IHa A; try (intro K; exact K).
  - opened Lo. destruct W as (We & Wa & Wb).
    assert (X : facts x (SSeq a b) (with_counts c (label_taken st)) (plain (emit q ++ [Jump_if false (fresh st)]) ++ code0 ++ plain [Jump (fresh st0); Jump_label (fresh st)] ++ code1 ++ plain [Jump_label (fresh st0)]) st1).
    { eapply facts_app; [eapply IHa; eauto| |eapply IHb; eauto|apply cases_two; reflexivity|..]; try reflexivity; try (repeat split; fail); try (intros K1 K2; split; assumption); try inside_code. }
    eapply facts_in; [exact X|..]; try reflexivity; [repeat split|apply same_refl|intro K; exact K|auto].
  - opened Lo. destruct W as [We Wa]. one_part IHa A; try (intro K; exact K); try (intros _; left; discriminate).
  - opened Lo. destruct W as [We Wa]. one_part IHa A; try (intro K; exact K); try (intros _; left; discriminate).
  - opened Lo. destruct W as (We & Wf & Wa). eapply facts_in; [eapply IHa; [exact Wa| |exact A]|..]; try reflexivity; [intros _; left; discriminate|repeat split| |intro K; exact K|inside_code].
    destruct f; [eapply effect_same; eauto|]. apply done_inj in A0; destruct A0 as [_ <-]. apply same_refl.
  - destruct (break_label x) eqn:BL; [|discriminate]. opened Lo. apply facts_nil; [apply cases_none; reflexivity|reflexivity|reflexivity|repeat split| |intros n0 []].
    unfold kept. cbn [rules]. destruct SA as [H|H]; [rewrite BL; discriminate|left; destruct (continue_label x); congruence|right; destruct (switch_on x); congruence].
  - destruct (continue_label x) eqn:BL; [|discriminate]. opened Lo. apply facts_nil; [apply cases_none; reflexivity|reflexivity|reflexivity|repeat split| |intros n0 []].
    unfold kept. cbn [rules]. rewrite BL. reflexivity.
  - opened Lo. destruct W as [We Wa].
    change (counts (with_counts c st)) with c in *. change (names (with_counts c st)) with (names st) in *. change (fresh (with_counts c st)) with (next_label c) in *.
    destruct (generate_typed first ty _ _ _ _ Ge) as [TQ _].
    assert (PT : resolved_type (promotion_cast q) = promote (btype ty e)) by (unfold promotion_cast; rewrite cast_type, TQ; apply promotions_eq). rewrite PT in *.
    assert (SX : sane' (in_switch (next_label c) (promote (btype ty e)) x)) by (intros _; right; discriminate).
    destruct (IHa _ _ _ _ Wa SX A) as ((C1 & N1 & D1) & K1 & G1 & U1 & U2).
    split; [|split; [|split]].
    + split; [rewrite (cases_none x (SSwitch e a)) by reflexivity; rewrite app_nil_r; reflexivity|]. split; [exact N1|]. cbn. lia.
    + unfold kept. cbn [rules]. cbn in C1, D1. specialize (U1 (NoDup_nil _)). rewrite C1 in U1. split; [exact (NoDup_map_inv _ _ U1)|]. split; [|exact K1].
      destruct (default st0); cbn in D1; lia.
    + intros n Hn. rewrite !in_app_iff. auto.
    + split; [auto|exact U2].
  - destruct W as [Wl Wa]. destruct (switch_on x) as [[u id]|] eqn:SX; [|discriminate]. destruct (existsb _ _) eqn:EX; [discriminate|]. opened Lo.
    destruct (IHa _ _ _ _ Wa SA A) as ((C1 & N1 & D1) & K1 & G1 & U1 & U2). apply not_existing in EX.
    split; [|split; [|split]].
    + split; [|split; [exact N1|exact D1]]. rewrite C1. cbn [cases]. unfold cases_of. rewrite SX. cbn [own_cases map]. rewrite <- app_assoc. cbn [app]. rewrite fold_case_value by exact Wl. reflexivity.
    + unfold kept. cbn [rules]. rewrite SX. split; [reflexivity|]. unfold kept in K1. rewrite SX in K1. exact K1.
    + intros n Hn. right. auto.
    + split; [intro N; apply U1; cbn; apply nodup_snoc; assumption|exact U2].
  - destruct (switch_on x) as [y|] eqn:SX; [|discriminate]. destruct (default st) eqn:DF; [discriminate|]. opened Lo.
    destruct (IHa _ _ _ _ W SA A) as ((C1 & N1 & D1) & K1 & G1 & U1 & U2).
    split; [|split; [|split]].
    + split; [exact C1|]. split; [exact N1|]. cbn in D1 |- *. rewrite DF. exact D1.
    + unfold kept in *. cbn [rules]. rewrite SX in *. auto.
    + intros n Hn. right. auto.
    + split; [exact U1|exact U2].
  - assert (X : same st st' /\ (e = None <-> rt = None)).
    { destruct e as [e|]; destruct rt; try discriminate; opened Lo; (split; [repeat split|]); split; congruence. }
    destruct X as [X Y]. apply facts_nil; [apply cases_none; reflexivity|reflexivity|reflexivity|exact X|exact Y|intros n0 []].
  - opened Lo. apply facts_nil; [apply cases_none; reflexivity|reflexivity|reflexivity|repeat split|exact I|intros n0 [<-|[]]; left; reflexivity].
  - destruct (existsb _ _) eqn:EX; [discriminate|]. opened Lo. apply not_named in EX.
    destruct (IHa _ _ _ _ W SA A) as ((C1 & N1 & D1) & K1 & G1 & U1 & U2).
    split; [|split; [|split]].
    + split; [exact C1|]. split; [|exact D1]. rewrite N1. cbn [names label_names]. rewrite map_app, <- app_assoc. reflexivity.
    + exact K1.
    + intros n0 Hn. right. auto.
    + split; [exact U1|]. intro N. apply U2. cbn [names]. rewrite map_app. apply nodup_snoc; assumption.
Qed.

(** ** The other direction *)
Definition fine (e : bexpr) : Prop := forall c, exists q c', generate e c = Done (q, c').
Lemma effect_fine : forall f st, in_effect fine f -> exists code st', lower_effect first ty f st = Done (code, st').
Proof.
  intros [e|y e] st F; cbn [lower_effect in_effect] in *; destruct (F (counts st)) as (q & c & E); unfold with_expr; rewrite E; eexists _, _; reflexivity.
Qed.

(** There is room for the labels, cases and defaults of [s]. *)
Definition room (x : inside) (s : stmt) (st : flow) : Prop :=
  NoDup (cases st ++ cases_of x s) /\ NoDup (map fst (names st) ++ label_names s) /\ (defaults (default st) + own_defaults s <= 1)%nat.
Lemma nodup_front : forall A (l k : list A), NoDup (l ++ k) -> NoDup l.
Proof. induction l as [|a l IH]; intros k N; [constructor|]. inversion N as [|? ? N1 N2]; subst. constructor; [intro K; apply N1, in_or_app; left; exact K|eapply IH, N2]. Qed.
Lemma nodup_middle : forall A (l k : list A) a, NoDup (l ++ a :: k) -> ~ In a l.
Proof. intros A l k a N K. apply NoDup_remove_2 in N. apply N, in_or_app. left. exact K. Qed.

Lemma room_first : forall x s a b st, room x s st -> cases_of x s = cases_of x a ++ cases_of x b -> label_names s = label_names a ++ label_names b ->
  own_defaults s = (own_defaults a + own_defaults b)%nat -> room x a st.
Proof.
  intros x s a b st (A & B & C) E1 E2 E3. rewrite E1, app_assoc in A. rewrite E2, app_assoc in B. rewrite E3 in C.
  split; [exact (nodup_front _ _ _ A)|]. split; [exact (nodup_front _ _ _ B)|lia].
Qed.
Lemma room_second : forall x s a b st st1 st1', room x s st -> cases_of x s = cases_of x a ++ cases_of x b -> label_names s = label_names a ++ label_names b ->
  own_defaults s = (own_defaults a + own_defaults b)%nat -> state x a st st1 -> same st1 st1' -> room x b st1'.
Proof.
  intros x s a b st st1 st1' (A & B & C) E1 E2 E3 (F1 & F2 & F3) (G1 & G2 & G3). rewrite E1, app_assoc in A. rewrite E2, app_assoc in B. rewrite E3 in C.
  split; [rewrite G1, F1; exact A|]. split; [rewrite G2, F2; exact B|rewrite G3, F3; lia].
Qed.
Lemma room_same : forall x y s a st st1, room x s st -> same st st1 -> switch_on y = switch_on x -> cases_of x s = cases_of x a -> label_names s = label_names a ->
  own_defaults s = own_defaults a -> room y a st1.
Proof.
  intros x y s a st st1 (A & B & C) (G1 & G2 & G3) E E1 E2 E3. assert (EY : cases_of y a = cases_of x a) by (unfold cases_of; rewrite E; reflexivity).
  split; [rewrite G1, EY, <- E1; exact A|]. split; [rewrite G2, <- E2; exact B|rewrite G3, <- E3; exact C].
Qed.

Lemma own_range : forall s t v, In v (own_cases t s) -> in_range t v.
Proof.
  induction s as [|f|a IHa b IHb|e a IHa|e a IHa b IHb|e a IHa|a IHa e|c0 f a IHa| | |e a IHa|t0 p0 a IHa|a IHa|e|n|n a IHa]; intros t v H; cbn [own_cases] in H; auto; try contradiction.
  - apply in_app_or in H. destruct H; auto.
  - apply in_app_or in H. destruct H; auto.
  - destruct H as [<-|H]; [apply convert_range|auto].
Qed.
Lemma nodup_words : forall t l, (forall v, In v l -> in_range t v) -> NoDup l -> NoDup (map word l).
Proof.
  induction l as [|a l IH]; intros R N; [constructor|]. inversion N as [|? ? N1 N2]; subst. cbn. constructor; [|apply IH; [intros v K; apply R; right; exact K|exact N2]].
  intro K. apply in_map_iff in K. destruct K as (b & E & K). apply N1. rewrite <- (wrapu_inj t b a); [exact K|apply R; right; exact K|apply R; left; reflexivity|exact E].
Qed.

Lemma case_free : forall v l, ~ In v l -> existsb (fun w => (w =? v)%Z) l = false.
Proof. intros v l H. destruct (existsb _ l) eqn:E; [|reflexivity]. apply existsb_exists in E. destruct E as (w & K & E). apply Z.eqb_eq in E. subst. contradiction. Qed.
Lemma name_free : forall (n : nat) (l : list (nat * nat)), ~ In n (map fst l) -> existsb (fun y => Nat.eqb (fst y) n) l = false.
Proof. intros n l H. destruct (existsb _ l) eqn:E; [|reflexivity]. apply existsb_exists in E. destruct E as (y & K & E). apply Nat.eqb_eq in E. subst. exfalso. apply H, in_map, K. Qed.

Theorem lower_accepts : forall s x st, stmt_ok first s -> sane x -> sane' x -> kept x s -> expressions fine s -> room x s st -> exists code st', lower_stmt s x st = Done (code, st').
Proof.
  induction s as [|f|a IHa b IHb|e a IHa|e a IHa b IHb|e a IHa|a IHa e|c0 f a IHa| | |e a IHa|t p a IHa|a IHa|e|n|n a IHa];
    intros x st W SA SB K F R; cbn [StmtModel.lower_stmt stmt_ok expressions] in *; unfold kept in K; cbn [rules] in K; unfold with_expr.
  - eexists _, _; reflexivity.
  - apply effect_fine, F.
  - destruct W as [Wa Wb], K as [Ka Kb], F as [Fa Fb].
    assert (E : cases_of x (SSeq a b) = cases_of x a ++ cases_of x b) by (apply cases_two; reflexivity).
    destruct (IHa x st Wa SA SB Ka Fa (room_first _ _ _ _ _ R E eq_refl eq_refl)) as (ca & sa & A). destruct (lower_keeps _ _ _ _ _ Wa SB A) as (SS & _).
    destruct (IHb x sa Wb SA SB Kb Fb (room_second _ _ _ _ _ _ _ R E eq_refl eq_refl SS (same_refl _))) as (cb & sb & B). rewrite A. cbn. rewrite B. eexists _, _; reflexivity.
  - destruct W as [We Wa], F as [Fe Fa]. destruct (Fe (counts (label_taken st))) as (q & c & E). rewrite E. cbn [obind].
    edestruct (IHa x) as (ca & sa & A); [exact Wa|exact SA|exact SB|exact K|exact Fa| |rewrite A; eexists _, _; reflexivity].
    eapply room_same; [exact R|..]; try reflexivity; try (repeat split).
  - destruct W as (We & Wa & Wb), K as [Ka Kb], F as (Fe & Fa & Fb). destruct (Fe (counts (label_taken st))) as (q & c & E). rewrite E. cbn [obind].
    assert (EC : cases_of x (SIfElse e a b) = cases_of x a ++ cases_of x b) by (apply cases_two; reflexivity).
    assert (R1 : room x (SIfElse e a b) (with_counts c (label_taken st))) by (eapply room_same; [exact R|..]; try reflexivity; repeat split).
    destruct (IHa x _ Wa SA SB Ka Fa (room_first _ _ _ _ _ R1 EC eq_refl eq_refl)) as (ca & sa & A). rewrite A. cbn [obind].
    destruct (lower_keeps _ _ _ _ _ Wa SB A) as (SS & _).
    destruct (IHb x (label_taken sa) Wb SA SB Kb Fb (room_second _ _ _ _ _ _ _ R1 EC eq_refl eq_refl SS ltac:(repeat split))) as (cb & sb & B). rewrite B. eexists _, _; reflexivity.
  - destruct W as [We Wa], F as [Fe Fa]. destruct (Fe (counts (label_taken (label_taken st)))) as (q & c & E). rewrite E. cbn [obind].
    edestruct (IHa (in_loop (S (fresh st)) (fresh st) x)) as (ca & sa & A); [exact Wa|discriminate|intros _; left; discriminate|exact K|exact Fa| |rewrite A; eexists _, _; reflexivity].
    eapply room_same; [exact R|..]; try reflexivity; try (repeat split).
  - destruct W as [We Wa], F as [Fe Fa].
    edestruct (IHa (in_loop (S (S (fresh st))) (S (fresh st)) x) (label_taken (label_taken (label_taken st)))) as (ca & sa & A); [exact Wa|discriminate|intros _; left; discriminate|exact K|exact Fa| |].
    { eapply room_same; [exact R|..]; try reflexivity; try (repeat split). }
    rewrite A. cbn [obind]. destruct (Fe (counts sa)) as (q & c & E). rewrite E. eexists _, _; reflexivity.
  - destruct W as (We & Wf & Wa), F as (Fe & Ff & Fa). set (e := match c0 with Some e => e | None => BLit S32 1 end).
    assert (F1 : fine e) by (unfold e; destruct c0; [exact Fe|]; intro c; eexists _, _; reflexivity).
    destruct (F1 (counts (label_taken (label_taken (label_taken st))))) as (q & c & E). rewrite E. cbn [obind].
    edestruct (IHa (in_loop (S (S (fresh st))) (S (fresh st)) x)) as (ca & sa & A); [exact Wa|discriminate|intros _; left; discriminate|exact K|exact Fa| |rewrite A; cbn [obind]].
    { eapply room_same; [exact R|..]; try reflexivity; try (repeat split). }
    destruct f as [f|]; [|eexists _, _; reflexivity]. destruct (effect_fine f sa Ff) as (cf & sf & B). rewrite B. eexists _, _; reflexivity.
  - destruct (break_label x) eqn:B; [eexists _, _; reflexivity|]. destruct (SA B) as [C S]. rewrite C, S in K. destruct K; discriminate.
  - destruct (continue_label x); [eexists _, _; reflexivity|discriminate].
  - destruct W as [We Wa], F as [Fe Fa], K as (ND & D1 & K). destruct (Fe (counts st)) as (q & c & E). rewrite E. cbn [obind].
    destruct (generate_typed first ty _ _ _ _ E) as [TQ _].
    assert (PT : resolved_type (promotion_cast q) = promote (btype ty e)) by (unfold promotion_cast; rewrite cast_type, TQ; apply promotions_eq). rewrite PT.
    edestruct (IHa (in_switch (next_label c) (promote (btype ty e)) x) (mkflow (new_label c) [] None (names st))) as (ca & sa & A);
      [exact Wa|discriminate|intros _; right; discriminate|exact K|exact Fa| |].
    { destruct R as (_ & R & _). split; [|split; [exact R|exact D1]]. cbn. eapply nodup_words; [apply own_range|exact ND]. }
    cbn [with_counts counts names]. change (fresh (with_counts c st)) with (next_label c). rewrite A. eexists _, _; reflexivity.
  - destruct W as [Wl Wa], K as [S K]. destruct (switch_on x) as [[u id]|] eqn:SX; [|discriminate]. destruct R as (R1 & R2 & R3).
    assert (EC : cases_of x (SCase t p a) = fold_case u (mklit t p) :: cases_of x a) by (unfold cases_of; rewrite SX; cbn [own_cases map]; rewrite fold_case_value by exact Wl; reflexivity).
    rewrite EC in R1. rewrite case_free by (eapply nodup_middle, R1).
    edestruct (IHa x (mkflow (counts st) (cases st ++ [fold_case u (mklit t p)]) (default st) (names st))) as (ca & sa & A); [exact Wa|exact SA|exact SB|unfold kept; rewrite SX; exact K|exact F| |rewrite A; eexists _, _; reflexivity].
    split; [cbn [cases]; rewrite <- app_assoc; exact R1|auto].
  - destruct K as [S K]. destruct (switch_on x) as [y|] eqn:SX; [|discriminate]. destruct R as (R1 & R2 & R3). cbn [own_defaults] in R3.
    destruct (default st) eqn:DF; [cbn in R3; lia|]. cbn [defaults] in R3.
    edestruct (IHa x (mkflow (new_label (counts st)) (cases st) (Some (fresh st)) (names st))) as (ca & sa & A); [exact W|exact SA|exact SB|unfold kept; rewrite SX; exact K|exact F| |rewrite A; eexists _, _; reflexivity].
    split; [exact R1|]. split; [exact R2|cbn; lia].
  - destruct e as [e|], K as [K1 K2]; destruct rt as [t|].
    + destruct (F (counts st)) as (q & c & E). rewrite E. eexists _, _; reflexivity.
    + specialize (K2 eq_refl). discriminate.
    + specialize (K1 eq_refl). discriminate.
    + eexists _, _; reflexivity.
  - eexists _, _; reflexivity.
  - destruct R as (R1 & R2 & R3). cbn [label_names] in R2. rewrite name_free by (eapply nodup_middle, R2).
    edestruct (IHa x (mkflow (new_label (counts st)) (cases st) (default st) (names st ++ [(n, fresh st)]))) as (ca & sa & A); [exact W|exact SA|exact SB|exact K|exact F| |rewrite A; eexists _, _; reflexivity].
    split; [exact R1|]. split; [|exact R3]. cbn [names]. rewrite map_app, <- app_assoc. exact R2.
Qed.

(** Gotos only come from gotos. *)
Lemma no_goto : forall n c, ~ In (Goto n) (plain c).
Proof. intros n c H. unfold plain in H. apply in_map_iff in H. destruct H as (i & E & _). discriminate. Qed.
Lemma effect_goto : forall f st code st' n, lower_effect first ty f st = Done (code, st') -> ~ In (Goto n) code.
Proof. intros [e|y e] st code st' n H; cbn [lower_effect] in H; opened H; apply no_goto. Qed.
Theorem gotos_from : forall s x st code st' n, lower_stmt s x st = Done (code, st') -> In (Goto n) code -> In n (goto_names s).
Proof.
  induction s as [|f|a IHa b IHb|e a IHa|e a IHa b IHb|e a IHa|a IHa e|c0 f a IHa| | |e a IHa|t p a IHa|a IHa|e|n0|n0 a IHa];
    intros x st code st' n Lo H; cbn [StmtModel.lower_stmt goto_names] in *.
  - apply done_inj in Lo; destruct Lo as [<- <-]. destruct H.
  - exact (effect_goto _ _ _ _ _ Lo H).
  - opened Lo. rewrite in_app_iff in *. destruct H; eauto.
  - opened Lo. rewrite !in_app_iff in H. destruct H as [H|[H|H]]; [destruct (no_goto _ _ H)|eauto|destruct (no_goto _ _ H)].
  - opened Lo. rewrite !in_app_iff in *. destruct H as [H|[H|[H|[H|H]]]]; try (destruct (no_goto _ _ H)); eauto.
  - opened Lo. rewrite !in_app_iff in H. destruct H as [H|[H|H]]; [destruct (no_goto _ _ H)|eauto|destruct (no_goto _ _ H)].
  - opened Lo. rewrite !in_app_iff in H. destruct H as [H|[H|H]]; [destruct (no_goto _ _ H)|eauto|destruct (no_goto _ _ H)].
  - opened Lo. rewrite !in_app_iff in H. destruct H as [H|[H|[H|[H|H]]]]; try (destruct (no_goto _ _ H)); eauto.
    destruct f; [destruct (effect_goto _ _ _ _ _ A0 H)|]. apply done_inj in A0; destruct A0 as [<- _]. destruct H.
  - destruct (break_label x); [|discriminate]. opened Lo. destruct (no_goto _ _ H).
  - destruct (continue_label x); [|discriminate]. opened Lo. destruct (no_goto _ _ H).
  - opened Lo. rewrite !in_app_iff in H. destruct H as [H|[[H|[]]|[H|H]]]; try (destruct (no_goto _ _ H)); try discriminate; eauto.
  - destruct (switch_on x) as [[u id]|]; [|discriminate]. destruct (existsb _ _); [discriminate|]. opened Lo. destruct H as [H|H]; [discriminate|eauto].
  - destruct (switch_on x); [|discriminate]. destruct (default st); [discriminate|]. opened Lo. destruct H as [H|H]; [discriminate|eauto].
  - destruct e as [e|]; destruct rt; try discriminate; opened Lo.
    + rewrite in_app_iff in H. destruct H as [H|[H|[]]]; [destruct (no_goto _ _ H)|discriminate].
    + destruct H as [H|[]]. discriminate.
  - opened Lo. destruct H as [H|[]]. injection H as ->. left. reflexivity.
  - destruct (existsb _ _); [discriminate|]. opened Lo. destruct H as [H|H]; [discriminate|eauto].
Qed.

Lemma label_of_some : forall l n, In n (map fst l) <-> label_of l n <> None.
Proof.
  induction l as [|[a b] l IH]; intros n; cbn [map fst In label_of find]; [split; [intros []|intro H; exfalso; apply H; reflexivity]|].
  unfold label_of. cbn [find fst]. destruct (Nat.eqb_spec a n) as [->|NE]; [split; [discriminate|auto]|].
  change (option_map snd (find (fun y => Nat.eqb (fst y) n) l)) with (label_of l n). rewrite <- IH. intuition.
Qed.

Theorem function_rules : forall is_main body, stmt_ok first body -> (exists r, lower_function first ty rt is_main body = Done r) -> allowed ty rt body.
Proof.
  intros is_main body W [[P c] Lo]. unfold lower_function in Lo. apply bind_inv in Lo. destruct Lo as (code & st & A & Lo).
  destruct (forallb resolved _) eqn:R; [|discriminate]. clear Lo. assert (SB : sane' outermost) by (intro H; exfalso; apply H; reflexivity).
  destruct (lower_keeps _ _ _ _ _ W SB A) as ((_ & N & _) & K & G & _ & U). cbn in N, U. specialize (U (NoDup_nil _)). rewrite N in U.
  split; [exact K|]. split; [exact U|]. intros n Hn. apply G in Hn. rewrite forallb_forall in R. specialize (R _ (in_map (resolve (names st)) _ _ Hn)).
  cbn [resolve] in R. rewrite <- N. apply label_of_some. destruct (label_of (names st) n); [discriminate|discriminate R].
Qed.
Lemma no_default : forall s loop, rules ty rt loop false s -> own_defaults s = 0%nat.
Proof.
  induction s as [|f|a IHa b IHb|e a IHa|e a IHa b IHb|e a IHa|a IHa e|c0 f a IHa| | |e a IHa|t p a IHa|a IHa|e|n|n a IHa]; intros loop K; cbn [rules own_defaults] in *; eauto.
  - destruct K. rewrite (IHa loop), (IHb loop); auto.
  - destruct K. rewrite (IHa loop), (IHb loop); auto.
  - destruct K; discriminate.
  - destruct K; discriminate.
Qed.

Theorem function_accepts : forall is_main body, stmt_ok first body -> allowed ty rt body -> expressions fine body -> exists r, lower_function first ty rt is_main body = Done r.
Proof.
  intros is_main body W (K & ND & I0) F.
  assert (SA : sane outermost) by (split; reflexivity). assert (SB : sane' outermost) by (intro H; exfalso; apply H; reflexivity).
  destruct (lower_accepts body outermost (mkflow (mkcounters 0 []) [] None []) W SA SB K F) as (code & st & A).
  { split; [constructor|]. split; [exact ND|]. rewrite (no_default _ _ K). cbn. lia. }
  unfold lower_function. rewrite A. cbn [obind]. destruct (lower_keeps _ _ _ _ _ W SB A) as ((_ & N & _) & _). cbn in N.
  replace (forallb resolved (map (resolve (names st)) code)) with true; [eexists; reflexivity|]. symmetry. apply forallb_forall. intros i Hi.
  apply in_map_iff in Hi. destruct Hi as (j & <- & Hj). destruct j; try reflexivity. cbn [resolve].
  pose proof (gotos_from _ _ _ _ _ _ A Hj) as G. apply I0 in G. rewrite <- N in G. apply label_of_some in G. destruct (label_of (names st) name); [reflexivity|contradiction].
Qed.
End Rules.
