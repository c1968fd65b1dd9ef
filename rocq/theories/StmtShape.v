(** Proofs about StmtModel.v: labels and cases are placed once. *)
From Coq Require Import List ZArith Bool Lia Permutation.
From Verif Require Import Base IntTypes CSpec IntModel LowerSpec LowerModel BranchSpec BranchModel BranchProofs StmtSpec StmtModel.
Import ListNotations.

Definition mark : Set := (nat + nat * Z)%type.
Definition marks_of (i : instr) : list mark :=
  match i with Plain (Jump_label n) => [inl n] | Case id v => [inr (id, v)] | _ => [] end.
Definition marks (c : list instr) : list mark := flat_map marks_of c.

Lemma marks_app : forall a b, marks (a ++ b) = marks a ++ marks b.
Proof. intros. apply flat_map_app. Qed.
Lemma marks_plain : forall c, marks (plain c) = map inl (labels c).
Proof. induction c as [|i c IH]; [reflexivity|]. unfold plain, marks, labels in *. cbn [map flat_map]. rewrite IH, map_app. destruct i; reflexivity. Qed.
Lemma marks_resolve : forall L c, marks (map (resolve L) c) = marks c.
Proof.
  intros L. induction c as [|i c IH]; [reflexivity|]. unfold marks in *. cbn [map flat_map]. rewrite IH. f_equal.
  destruct i; try reflexivity. cbn [resolve]. destruct (label_of L name); reflexivity.
Qed.

Lemma position_unique : forall f n k p pc i, (forall j, f j = true -> marks_of j = [n]) ->
  NoDup (marks p) -> nth_error p pc = Some i -> f i = true -> k = pc -> position f p = Some k.
Proof.
  intros f n k p pc i F. revert k pc. induction p as [|j p IH]; intros k pc N E Fi ->; [destruct pc; discriminate|].
  unfold marks in N. cbn [flat_map] in N. cbn [position]. destruct pc as [|pc].
  - injection E as ->. rewrite Fi. reflexivity.
  - cbn [nth_error] in E. destruct (f j) eqn:Fj.
    + exfalso. rewrite (F j Fj) in N. cbn [app] in N. apply NoDup_cons_iff in N. apply (proj1 N). apply in_flat_map.
      exists i. split; [eapply nth_error_In, E|]. rewrite (F i Fi). left. reflexivity.
    + rewrite (IH pc pc); auto.
      clear - N. induction (marks_of j) as [|a l IHl]; [exact N|]. apply IHl. inversion N; assumption.
Qed.

Lemma label_position : forall p pc n, NoDup (marks p) -> nth_error p pc = Some (Plain (Jump_label n)) -> position (is_label n) p = Some pc.
Proof.
  intros p pc n N E. eapply (position_unique _ (inl n)); eauto; [|cbn; apply Nat.eqb_refl].
  intros [i| | | |]; try discriminate. destruct i; try discriminate. cbn. intro H. apply Nat.eqb_eq in H. subst. reflexivity.
Qed.
Lemma case_position : forall p pc id v, NoDup (marks p) -> nth_error p pc = Some (Case id v) -> position (is_case id v) p = Some pc.
Proof.
  intros p pc id v N E. eapply (position_unique _ (inr (id, v))); eauto; [|cbn; rewrite Nat.eqb_refl, Z.eqb_refl; reflexivity].
  intros [i| | | |]; try discriminate. cbn. intro H. apply andb_prop in H. destruct H as [A B]. apply Nat.eqb_eq in A. apply Z.eqb_eq in B. subst. reflexivity.
Qed.

(** ** Marks of a statement *)
Section Sep.
Variable sid : option nat.           (* the switch the cases belong to *)

Definition inside_of (lo hi : nat) (own : Z -> Prop) (k : mark) : Prop :=
  match k with inl n => (lo <= n < hi)%nat | inr (id, u) => (lo <= id < hi)%nat \/ sid = Some id /\ own u end.
Definition sep (lo hi : nat) (own : Z -> Prop) (ms : list mark) : Prop :=
  (lo <= hi)%nat /\ NoDup ms /\ Forall (inside_of lo hi own) ms.

Lemma sep_perm : forall lo hi own a b, Permutation a b -> sep lo hi own a -> sep lo hi own b.
Proof. intros lo hi own a b P (L & N & F). split; [exact L|]. split; [eapply Permutation_NoDup; eauto|eapply Permutation_Forall; eauto]. Qed.

Lemma sep_app : forall lo mid hi (o1 o2 o : Z -> Prop) a b, (forall id, sid = Some id -> (id < lo)%nat) ->
  (forall u, o1 u -> ~ o2 u) -> (forall u, o1 u -> o u) -> (forall u, o2 u -> o u) ->
  sep lo mid o1 a -> sep mid hi o2 b -> sep lo hi o (a ++ b).
Proof.
  intros lo mid hi o1 o2 o a b SI D I1 I2 (L1 & N1 & F1) (L2 & N2 & F2). rewrite Forall_forall in F1, F2. split; [lia|]. split.
  - assert (X : forall k, In k a -> ~ In k b).
    { intros k A B. apply F1 in A. apply F2 in B. destruct k as [n|[id u]]; cbn in *; [lia|].
      destruct A as [A|[A A']], B as [B|[B B']]; [lia|apply SI in B; lia|apply SI in A; lia|exact (D u A' B')]. }
    clear - N1 N2 X. induction N1 as [|k a K N IH]; [exact N2|]. cbn [app]. constructor.
    + rewrite in_app_iff. intros [A|B]; [exact (K A)|exact (X k (or_introl eq_refl) B)].
    + apply IH. intros j J. apply X. right. exact J.
  - apply Forall_app. split; apply Forall_forall; intros k K.
    + apply F1 in K. destruct k as [n|[id u]]; cbn in *; [lia|]. destruct K as [K|[K K']]; [left; lia|right; auto].
    + apply F2 in K. destruct k as [n|[id u]]; cbn in *; [lia|]. destruct K as [K|[K K']]; [left; lia|right; auto].
Qed.

Definition none (u : Z) : Prop := False.
Lemma sep_label : forall n, sep n (S n) none [inl n].
Proof. intro n. split; [lia|]. split; [constructor; [intros []|constructor]|]. constructor; [cbn; lia|constructor]. Qed.
Lemma sep_nil : forall n own, sep n n own [].
Proof. intros. split; [lia|]. split; constructor. Qed.

Lemma sep_expr : forall first q c c', shaped first c c' q -> sep (next_label c) (next_label c') none (map inl (labels (emit q))).
Proof.
  intros first q c c' ([G _] & N & R & _). split; [exact G|]. split.
  - apply FinFun.Injective_map_NoDup; [intros a b H; injection H; auto|exact N].
  - apply Forall_forall. intros k K. apply in_map_iff in K. destruct K as (n & <- & K). apply R in K. exact K.
Qed.

(** Without cases of its own. *)
Lemma sep_front : forall lo mid hi own a b, (forall id, sid = Some id -> (id < lo)%nat) ->
  sep lo mid none a -> sep mid hi own b -> sep lo hi own (a ++ b).
Proof. intros lo mid hi own a b SI A B. eapply (sep_app lo mid hi none own own); eauto; intros u []. Qed.
Lemma sep_back : forall lo mid hi own a b, (forall id, sid = Some id -> (id < lo)%nat) ->
  sep lo mid own a -> sep mid hi none b -> sep lo hi own (a ++ b).
Proof. intros lo mid hi own a b SI A B. eapply (sep_app lo mid hi own none own); eauto; intros u []. Qed.
Lemma sep_weak : forall lo hi own ms, sep lo hi none ms -> sep lo hi own ms.
Proof. intros lo hi own ms (L & N & F). split; [exact L|]. split; [exact N|]. eapply Forall_impl; [|exact F]. intros [n|[id u]]; cbn; [auto|]. intros [K|[_ []]]; auto. Qed.
End Sep.

Lemma sep_switch : forall id sid lo hi o own ms, (lo <= id < hi)%nat -> sep (Some id) lo hi o ms -> sep sid lo hi own ms.
Proof.
  intros id sid lo hi o own ms I (L & N & F). split; [exact L|]. split; [exact N|]. eapply Forall_impl; [|exact F].
  intros [n|[j u]]; cbn; [auto|]. intros [K|[K _]]; [left; exact K|]. injection K as <-. left. exact I.
Qed.

Section Shape.
Variable first : nat.
Variable ty : nat -> ity.
Variable rt : option ity.
Notation lower_stmt := (lower_stmt first ty rt).

Definition fresh_cases (st st' : flow) (u : Z) : Prop := In u (cases st') /\ ~ In u (cases st).
Definition grown (st st' : flow) : Prop :=
  grows (counts st) (counts st') /\ incl (cases st) (cases st') /\ incl (names st) (names st') /\
  (forall d, default st = Some d -> default st' = Some d) /\ (NoDup (map fst (names st)) -> NoDup (map fst (names st'))).

Lemma grown_refl : forall st, grown st st.
Proof. intro st. split; [apply grows_refl|]. split; [apply incl_refl|]. split; [apply incl_refl|]. auto. Qed.
Lemma grown_trans : forall a b c, grown a b -> grown b c -> grown a c.
Proof.
  intros a b c (G & C & N & D & U) (G' & C' & N' & D' & U'). split; [eapply grows_trans; eauto|].
  split; [eapply incl_tran; eauto|]. split; [eapply incl_tran; eauto|]. auto.
Qed.
Lemma grown_counts : forall st c, grows (counts st) c -> grown st (with_counts c st).
Proof. intros st c G. split; [exact G|]. split; [apply incl_refl|]. split; [apply incl_refl|]. auto. Qed.
Lemma grown_label : forall st, grown st (label_taken st).
Proof. intro st. apply grown_counts, grows_label. Qed.

Lemma with_expr_inv : forall e st f r, with_expr first ty e st f = Done r ->
  exists q c, generate first ty e (counts st) = Done (q, c) /\ f q (with_counts c st) = Done r.
Proof.
  intros e st f r H. unfold with_expr in H. apply obind_inv in H. destruct H as ([q c] & A & B). eauto.
Qed.
Lemma bind_inv : forall B (x : outcome (list instr * flow)) (f : list instr * flow -> outcome B) r, obind x f = Done r ->
  exists a st, x = Done (a, st) /\ f (a, st) = Done r.
Proof. intros B x f r H. apply obind_inv in H. destruct H as ([a st] & X & Y). eauto. Qed.

Lemma done_inj : forall A B (a c : A) (b d : B), Done (a, b) = Done (c, d) -> a = c /\ b = d.
Proof. intros A B a c b d H. injection H. auto. Qed.
Ltac opened H :=
  repeat match type of H with
  | with_expr _ _ _ _ _ = Done _ => let q := fresh "q" in let c := fresh "c" in let G := fresh "G" in
      apply with_expr_inv in H; destruct H as (q & c & G & H)
  | obind _ _ = Done _ => let a := fresh "code" in let st := fresh "st" in let A := fresh "A" in
      apply bind_inv in H; destruct H as (a & st & A & H)
  end.

Lemma expr_shape : forall e c q c', expr_ok first e -> generate first ty e c = Done (q, c') -> shaped first c c' q.
Proof. intros e c q c' W G. eapply generate_shaped; [apply W|exact G]. Qed.
Lemma cast_shape : forall t c q c', shaped first c c' q -> shaped first c c' (cast_expr t q).
Proof. intros t c q c' S. exact (shaped1 first ty (fun a => Done (cast_expr t a)) c c' q _ (cast_tail t) S eq_refl). Qed.

Lemma marks_expr : forall q c, marks (plain (emit q ++ c)) = map inl (labels (emit q)) ++ marks (plain c).
Proof. intros q c. rewrite !marks_plain, labels_app, map_app. reflexivity. Qed.

Lemma effect_shape : forall sid f st code st', effect_ok first f -> lower_effect first ty f st = Done (code, st') ->
  exists c, st' = with_counts c st /\ grows (counts st) c /\ sep sid (fresh st) (next_label c) none (marks code).
Proof.
  intros sid f st code st' W H. destruct f as [e|x e]; cbn [lower_effect] in H; opened H; apply done_inj in H; destruct H as [<- <-]; exists c; (split; [reflexivity|]).
  - pose proof (expr_shape e _ _ _ W G) as S. split; [apply S|]. rewrite marks_expr. cbn [plain map marks flat_map marks_of app]. rewrite app_nil_r. eapply sep_expr, S.
  - destruct W as [_ W]. pose proof (cast_shape (ty x) _ _ _ (expr_shape e _ _ _ W G)) as S. split; [apply S|].
    rewrite marks_plain. unfold lower_assignment. rewrite !labels_app. cbn [labels flat_map app]. rewrite !app_nil_r. eapply sep_expr, S.
Qed.

Lemma fresh_trans : forall a b c u, incl (cases a) (cases b) -> incl (cases b) (cases c) -> fresh_cases a b u -> fresh_cases a c u.
Proof. intros a b c u A B [X Y]. split; auto. Qed.
Lemma fresh_trans' : forall a b c u, incl (cases a) (cases b) -> fresh_cases b c u -> fresh_cases a c u.
Proof. intros a b c u A [X Y]. split; auto. Qed.

Definition sid_of (x : inside) : option nat := option_map snd (switch_on x).
Definition bounded (x : inside) (n : nat) : Prop := forall id, sid_of x = Some id -> (id < n)%nat.

Lemma sep_two : forall sid a b c ma mb, (forall id, sid = Some id -> (id < fresh a)%nat) -> grown a b -> grown b c ->
  sep sid (fresh a) (fresh b) (fresh_cases a b) ma -> sep sid (fresh b) (fresh c) (fresh_cases b c) mb ->
  sep sid (fresh a) (fresh c) (fresh_cases a c) (ma ++ mb).
Proof.
  intros sid a b c ma mb B G1 G2 A C. eapply sep_app; [exact B| | | |exact A|exact C].
  - intros u [U1 U2] [V1 V2]. auto.
  - intros u. apply fresh_trans; [apply G1|apply G2].
  - intros u. apply fresh_trans', G1.
Qed.


Lemma marks_tail : forall q i c, marks (plain (emit q ++ i :: c)) = map inl (labels (emit q)) ++ marks (plain (i :: c)).
Proof. intros. apply marks_expr. Qed.
Ltac norm := rewrite ?marks_app, ?marks_expr; cbn [plain map marks flat_map marks_of app]; rewrite ?app_nil_r.

Theorem lower_shape : forall s x st code st', stmt_ok first s -> lower_stmt s x st = Done (code, st') -> bounded x (fresh st) ->
  grown st st' /\ sep (sid_of x) (fresh st) (fresh st') (fresh_cases st st') (marks code).
Proof.
  induction s as [|f|a IHa b IHb|e a IHa|e a IHa b IHb|e a IHa|a IHa e|c0 f a IHa| | |e a IHa|t p a IHa|a IHa|e|n|n a IHa];
    intros x st code st' W H B; cbn [StmtModel.lower_stmt stmt_ok] in *.
  - apply done_inj in H; destruct H as [<- <-]. split; [apply grown_refl|]. apply sep_nil.
  - destruct (effect_shape (sid_of x) f st code st' W H) as (c & -> & G & Q). split; [apply grown_counts, G|]. apply sep_weak, Q.
  - opened H. apply done_inj in H; destruct H as [<- <-]. destruct W as [Wa Wb]. destruct (IHa _ _ _ _ Wa A B) as [G1 S1].
    assert (B1 : bounded x (fresh st0)) by (intros id K; apply B in K; destruct S1; lia).
    destruct (IHb _ _ _ _ Wb A0 B1) as [G2 S2]. split; [eapply grown_trans; eauto|]. rewrite marks_app. eapply sep_two; eauto.
  - opened H. apply done_inj in H; destruct H as [<- <-]. destruct W as [We Wa]. pose proof (expr_shape e _ _ _ We G) as Q.
    assert (B1 : bounded x (fresh (with_counts c (label_taken st)))) by (intros id K; apply B in K; destruct Q as [[Q _] _]; unfold fresh in *; cbn in *; lia).
    destruct (IHa _ _ _ _ Wa A B1) as [G1 S1].
    split; [eapply grown_trans; [apply grown_label|]; eapply grown_trans; [apply grown_counts, Q|exact G1]|].
    norm. eapply sep_perm; [rewrite app_assoc; apply Permutation_cons_append|].
    eapply (sep_front _ _ (S (fresh st)) _ _ [_]); [exact B|apply sep_label|].
    eapply sep_front; [intros id K; apply B in K; lia|exact (sep_expr _ _ _ _ _ Q)|exact S1].
  - opened H. apply done_inj in H; destruct H as [<- <-]. destruct W as (We & Wa & Wb). pose proof (expr_shape e _ _ _ We G) as Q.
    assert (B1 : bounded x (fresh (with_counts c (label_taken st)))) by (intros id K; apply B in K; destruct Q as [[Q _] _]; unfold fresh in *; cbn in *; lia).
    destruct (IHa _ _ _ _ Wa A B1) as [G1 S1].
    assert (B2 : bounded x (fresh (label_taken st0))) by (intros id K; apply B1 in K; destruct S1; unfold fresh in *; cbn in *; lia).
    destruct (IHb _ _ _ _ Wb A0 B2) as [G2 S2].
    split; [eapply grown_trans; [apply grown_label|]; eapply grown_trans; [apply grown_counts, Q|]; eapply grown_trans; [exact G1|]; eapply grown_trans; [apply grown_label|exact G2]|].
    norm. eapply (sep_perm _ _ _ _ ([inl (fresh st)] ++ map inl (labels (emit q)) ++ marks code0 ++ [inl (fresh st0)] ++ marks code1)).
    { cbn [app]. rewrite (app_assoc (map inl _) (marks code0) (inl (fresh st) :: _)), (app_assoc (map inl _) (marks code0) (inl (fresh st0) :: _)).
      apply Permutation_cons_app. apply Permutation_app_head. apply Permutation_cons_append. }
    eapply (sep_front _ _ (S (fresh st))); [exact B|apply sep_label|].
    eapply sep_front; [intros id K; apply B in K; lia|exact (sep_expr _ _ _ _ _ Q)|].
    apply (sep_two _ (with_counts c (label_taken st)) st0 st1); [exact B1|exact G1|eapply grown_trans; [apply grown_label|exact G2]|exact S1|].
    eapply (sep_front _ _ (S (fresh st0))); [intros id K; apply B1 in K; destruct S1; unfold fresh in *; cbn in *; lia|apply sep_label|exact S2].
  - opened H. apply done_inj in H; destruct H as [<- <-]. destruct W as [We Wa]. pose proof (expr_shape e _ _ _ We G) as Q.
    assert (B1 : bounded x (fresh (with_counts c (label_taken (label_taken st))))) by (intros id K; apply B in K; destruct Q as [[Q _] _]; unfold fresh in *; cbn in *; lia).
    destruct (IHa _ _ _ _ Wa A B1) as [G1 S1].
    split; [eapply grown_trans; [apply grown_label|]; eapply grown_trans; [apply grown_label|]; eapply grown_trans; [apply grown_counts, Q|exact G1]|].
    norm. change (marks (plain (Jump_label (fresh st) :: ?z))) with ([inl (fresh st)] ++ marks (plain z)). norm.
    eapply (sep_front _ _ (S (fresh st)) _ _ [_]); [exact B|apply sep_label|].
    eapply sep_perm; [rewrite app_assoc; apply Permutation_cons_append|].
    eapply (sep_front _ _ (S (S (fresh st))) _ _ [_]); [intros id K; apply B in K; lia|apply sep_label|].
    eapply sep_front; [intros id K; apply B in K; lia|exact (sep_expr _ _ _ _ _ Q)|exact S1].
  - opened H. apply done_inj in H; destruct H as [<- <-]. destruct W as [We Wa].
    assert (B1 : bounded x (fresh (label_taken (label_taken (label_taken st))))) by (intros id K; apply B in K; unfold fresh in *; cbn in *; lia).
    destruct (IHa _ _ _ _ Wa A B1) as [G1 S1]. pose proof (expr_shape e _ _ _ We G) as Q.
    split; [eapply grown_trans; [apply grown_label|]; eapply grown_trans; [apply grown_label|]; eapply grown_trans; [apply grown_label|]; eapply grown_trans; [exact G1|]; apply grown_counts, Q|].
    norm. change (marks (plain (Jump_label (S (fresh st)) :: ?z))) with ([inl (S (fresh st))] ++ marks (plain z)). norm.
    eapply (sep_front _ _ (S (fresh st)) _ _ [_]); [exact B|apply sep_label|].
    eapply (sep_perm _ _ _ _ ([inl (S (fresh st))] ++ [inl (S (S (fresh st)))] ++ marks code0 ++ map inl (labels (emit q)))).
    { cbn [app]. apply Permutation_cons_app. rewrite app_assoc. apply Permutation_cons_append. }
    eapply (sep_front _ _ (S (S (fresh st))) _ _ [_]); [intros id K; apply B in K; lia|apply sep_label|].
    eapply (sep_front _ _ (S (S (S (fresh st)))) _ _ [_]); [intros id K; apply B in K; lia|apply sep_label|].
    eapply sep_back; [exact B1|exact S1|exact (sep_expr _ _ _ _ _ Q)].
  - destruct W as (We & Wf & Wa). opened H. apply done_inj in H; destruct H as [<- <-].
    assert (Q : shaped first (counts (label_taken (label_taken (label_taken st)))) c q).
    { eapply expr_shape; [|exact G]. destruct c0; [exact We|]. repeat split; cbn; try lia; discriminate. }
    assert (B1 : bounded x (fresh (with_counts c (label_taken (label_taken (label_taken st)))))) by (intros id K; apply B in K; destruct Q as [[Q _] _]; unfold fresh in *; cbn in *; lia).
    destruct (IHa _ _ _ _ Wa A B1) as [G1 S1].
    assert (F : exists c', st1 = with_counts c' st0 /\ grows (counts st0) c' /\ sep (sid_of x) (fresh st0) (next_label c') none (marks code1)).
    { destruct f as [f|]; [exact (effect_shape (sid_of x) f _ _ _ Wf A0)|]. apply done_inj in A0; destruct A0 as [<- <-].
      exists (counts st0). split; [destruct st0; reflexivity|]. split; [apply grows_refl|]. apply sep_nil. }
    destruct F as (c' & -> & G2 & S2).
    split; [eapply grown_trans; [apply grown_label|]; eapply grown_trans; [apply grown_label|]; eapply grown_trans; [apply grown_label|]; eapply grown_trans; [apply grown_counts, Q|]; eapply grown_trans; [exact G1|]; apply grown_counts, G2|].
    norm. change (marks (plain (Jump_label (fresh st) :: ?z))) with ([inl (fresh st)] ++ marks (plain z)). norm.
    eapply (sep_front _ _ (S (fresh st)) _ _ [_]); [exact B|apply sep_label|].
    eapply (sep_perm _ _ _ _ ([inl (S (fresh st))] ++ [inl (S (S (fresh st)))] ++ map inl (labels (emit q)) ++ marks code0 ++ marks code1)).
    { cbn [app]. generalize (marks code0) (marks code1). match goal with |- context [map ?f ?z] => generalize (map f z) end. intros lq l0 l1.
      rewrite (app_assoc lq l0 (_ :: _)). apply Permutation_cons_app. rewrite <- (app_assoc lq l0), !app_assoc. apply Permutation_cons_append. }
    eapply (sep_front _ _ (S (S (fresh st))) _ _ [_]); [intros id K; apply B in K; lia|apply sep_label|].
    eapply (sep_front _ _ (S (S (S (fresh st)))) _ _ [_]); [intros id K; apply B in K; lia|apply sep_label|].
    eapply sep_front; [intros id K; apply B in K; lia|exact (sep_expr _ _ _ _ _ Q)|].
    eapply sep_back; [exact B1|exact S1|exact S2].
  - destruct (break_label x); [|discriminate]. apply done_inj in H; destruct H as [<- <-]. split; [apply grown_refl|]. apply sep_nil.
  - destruct (continue_label x); [|discriminate]. apply done_inj in H; destruct H as [<- <-]. split; [apply grown_refl|]. apply sep_nil.
  - destruct W as [We Wa]. opened H. apply done_inj in H; destruct H as [<- <-].
    pose proof (expr_shape e _ _ _ We G) as Q0. pose proof (cast_shape (perform_integer_promotions (resolved_type q)) _ _ _ Q0) as Q.
    fold (promotion_cast q) in Q. change (counts (with_counts c st)) with c in *. change (names (with_counts c st)) with (names st) in *.
    set (sw := mkflow (new_label c) [] None (names st)) in *. change (fresh (with_counts c st)) with (next_label c) in *.
    assert (B1 : bounded (in_switch (next_label c) (resolved_type (promotion_cast q)) x) (fresh sw)) by (intros id K; injection K as <-; unfold fresh; cbn; lia).
    destruct (IHa _ _ _ _ Wa A B1) as [(G1 & C1 & N1 & D1 & U1) S1].
    split.
    { split; [eapply grows_trans; [apply Q|]; eapply grows_trans; [apply grows_label|exact G1]|]. split; [apply incl_refl|]. split; [exact N1|]. split; [auto|exact U1]. }
    rewrite marks_app. change (marks ([Switch ?a ?b ?d] ++ ?z)) with (marks z). rewrite marks_app.
    replace (marks (plain (emit (promotion_cast q)))) with (map (@inl nat (nat * Z)) (labels (emit (promotion_cast q)))) by (symmetry; apply marks_plain).
    eapply sep_front; [exact B|exact (sep_expr _ _ _ _ _ Q)|].
    eapply sep_perm; [apply Permutation_cons_append|].
    eapply (sep_switch (next_label c)); [destruct S1 as [L1 _]; unfold fresh, sw in *; cbn in *; lia|].
    assert (S1' : sep (Some (next_label c)) (next_label c) (fresh st0) (fresh_cases sw st0) (inl (next_label c) :: marks code0)).
    { destruct S1 as (L1 & N & F). rewrite Forall_forall in F. unfold fresh, sw in L1, F. cbn in L1, F.
      split; [unfold fresh; lia|]. split.
      - constructor; [|exact N]. intro K. apply F in K. cbn in K. lia.
      - constructor; [cbn; unfold fresh; lia|]. apply Forall_forall. intros [k|[j u]] K; apply F in K; cbn in *; [unfold fresh; lia|]. unfold fresh. destruct K as [K|K]; [left; lia|right; exact K]. }
    exact S1'.
  - destruct W as [Wl Wa]. destruct (switch_on x) as [[u id]|] eqn:SX; [|discriminate].
    assert (SI : sid_of x = Some id) by (unfold sid_of; rewrite SX; reflexivity).
    destruct (existsb _ (cases st)) eqn:EX; [discriminate|]. opened H. apply done_inj in H; destruct H as [<- <-].
    set (v := fold_case u (mklit t p)) in *. set (st1 := mkflow (counts st) (cases st ++ [v]) (default st) (names st)) in *.
    assert (NV : ~ In v (cases st)).
    { intro K. assert (X : existsb (fun w : Z => (w =? v)%Z) (cases st) = true) by (apply existsb_exists; exists v; split; [exact K|apply Z.eqb_refl]). congruence. }
    assert (B1 : bounded x (fresh st1)) by (exact B).
    destruct (IHa _ _ _ _ Wa A B1) as [(G1 & C1 & N1 & D1 & U1) S1].
    split. { split; [exact G1|]. split; [intros w K; apply C1; cbn; apply in_or_app; auto|]. split; [exact N1|]. split; [exact D1|exact U1]. }
    unfold bounded in B. rewrite SI in S1, B |- *.
    change (marks ([Case id v] ++ code0)) with ([inr (id, v) : mark] ++ marks code0).
    eapply (sep_app _ (fresh st) (fresh st) _ (fun w => w = v) (fresh_cases st1 st0)); [exact B| | | | |exact S1].
    + intros w -> [_ K]. apply K. cbn. apply in_or_app. right. left. reflexivity.
    + intros w ->. split; [apply C1; cbn; apply in_or_app; right; left; reflexivity|exact NV].
    + intros w [K K']. split; [exact K|]. intro L. apply K'. cbn. apply in_or_app. left. exact L.
    + split; [lia|]. split; [constructor; [intros []|constructor]|]. constructor; [right; auto|constructor].
  - destruct (switch_on x) as [y|] eqn:SX; [|discriminate]. destruct (default st) eqn:DF; [discriminate|]. opened H. apply done_inj in H; destruct H as [<- <-].
    set (st1 := mkflow (new_label (counts st)) (cases st) (Some (fresh st)) (names st)) in *.
    assert (B1 : bounded x (fresh st1)) by (intros id K; apply B in K; unfold fresh in *; cbn in *; lia).
    destruct (IHa _ _ _ _ W A B1) as [(G1 & C1 & N1 & D1 & U1) S1].
    split. { split; [eapply grows_trans; [apply grows_label|exact G1]|]. split; [exact C1|]. split; [exact N1|]. split; [intros d K; congruence|exact U1]. }
    change (marks (plain [Jump_label (fresh st)] ++ code0)) with ([inl (fresh st) : mark] ++ marks code0).
    eapply (sep_front _ _ (S (fresh st))); [exact B|apply sep_label|exact S1].
  - destruct e as [e|].
    + destruct rt as [t|]; [|discriminate]. opened H. apply done_inj in H; destruct H as [<- <-].
      pose proof (cast_shape t _ _ _ (expr_shape e _ _ _ W G)) as Q. split; [apply grown_counts, Q|].
      rewrite marks_app, marks_plain. cbn [marks flat_map marks_of app]. rewrite app_nil_r. apply sep_weak. eapply sep_expr, Q.
    + destruct rt as [t|]; [discriminate|]. apply done_inj in H; destruct H as [<- <-]. split; [apply grown_refl|]. apply sep_nil.
  - apply done_inj in H; destruct H as [<- <-]. split; [apply grown_refl|]. apply sep_nil.
  - destruct (existsb _ (names st)) eqn:EX; [discriminate|]. opened H. apply done_inj in H; destruct H as [<- <-].
    set (st1 := mkflow (new_label (counts st)) (cases st) (default st) (names st ++ [(n, fresh st)])) in *.
    assert (B1 : bounded x (fresh st1)) by (intros id K; apply B in K; unfold fresh in *; cbn in *; lia).
    destruct (IHa _ _ _ _ W A B1) as [(G1 & C1 & N1 & D1 & U1) S1].
    split. { split; [eapply grows_trans; [apply grows_label|exact G1]|]. split; [exact C1|]. split; [intros w K; apply N1; cbn; apply in_or_app; auto|]. split; [exact D1|].
      intro K. apply U1. cbn [names st1]. rewrite map_app. cbn [map fst].
      apply (nodup_disjoint first ty); [exact K|constructor; [intros []|constructor]|]. intros k K1 [<-|[]]. apply in_map_iff in K1. destruct K1 as ([a0 b0] & E0 & K1). cbn in E0. subst a0.
      assert (X : existsb (fun y : nat * nat => Nat.eqb (fst y) n) (names st) = true) by (apply existsb_exists; exists (n, b0); split; [exact K1|apply Nat.eqb_refl]). congruence. }
    change (marks (plain [Jump_label (fresh st)] ++ code0)) with ([inl (fresh st) : mark] ++ marks code0).
    eapply (sep_front _ _ (S (fresh st))); [exact B|apply sep_label|exact S1].
Qed.
End Shape.
