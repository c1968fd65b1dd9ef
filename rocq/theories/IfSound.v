(** What the evaluator of `#if` conditions accepts (C07). *)
From Verif Require Import Base IfModel IfSpec IfProofs.

Section Sound.
Variable is_macro : nat -> bool.

Definition fits (l : Z) (st : list node) : Prop :=
  match st with [] => l <= 13 | n :: _ => match op n with UNARY _ => l <= 2 | BINARY b => l < level b | _ => l <= 13 end end.
Notation pluses k := (repeat (Operator Plus) k).

(** The tokens behind a stack. *)
Inductive opens : list node -> list token -> Prop :=
  | o_nil : opens [] []
  | o_unary : forall st c o k v u, opens st c -> opens (mknode (UNARY o) v u :: st) (c ++ pluses k ++ [unary_token o])
  | o_paren : forall st c k v u, opens st c -> opens (mknode PAREN v u :: st) (c ++ pluses k ++ [LParen])
  | o_binary : forall st c b ts x v u, opens st c -> reads (level b) ts x -> fits (level b) st -> opens (mknode (BINARY b) v u :: st) (c ++ ts ++ [Operator b])
  | o_condition : forall st c ts x v u, opens st c -> reads 12 ts x -> fits 13 st -> opens (mknode CONDITION v u :: st) (c ++ ts ++ [Question])
  | o_true : forall st c ts us x y v u v' u', opens st c -> reads 12 ts x -> reads 13 us y -> fits 13 st ->
      opens (mknode IF_TRUE v u :: mknode CONDITION v' u' :: st) (c ++ ts ++ Question :: us ++ [Colon]).

Definition inv (all : list token) (c : config) : Prop :=
  match c with
  | Operand st ts => exists pre k, all = pre ++ pluses k ++ ts /\ opens st pre
  | After st v u ts => exists pre us e l, all = pre ++ us ++ ts /\ opens st pre /\ reads l us e /\ fits l st /\ stop l ts
  end.

Lemma reads_up : forall l l' ts e, reads l ts e -> l <= l' <= 13 -> reads l' ts e.
Proof. intros l l' ts e R H. destruct (Z.eq_dec l l') as [E|N]; [subst; exact R|]. apply (r_up l l'); [exact R|lia]. Qed.
Lemma reads_pluses : forall k ts e, reads 2 ts e -> exists e', reads 2 (pluses k ++ ts) e'.
Proof. induction k as [|k IH]; intros ts e R; cbn [repeat app]; [eauto|]. destruct (IH _ _ R) as [e' R']. eexists. apply r_plus. exact R'. Qed.
Lemma fits_two : forall st, fits 2 st.
Proof. intros [|n st]; cbn [fits]; [lia|]. destruct (op n); try lia. pose proof (level_range b). lia. Qed.
Lemma stop_two : forall ts, stop 2 ts.
Proof. intros [|t ts]; [left; reflexivity|]. destruct t; try (left; reflexivity); right; cbn; [pose proof (level_range b)|]; lia. Qed.
Lemma pluses_snoc : forall k ts, pluses k ++ Operator Plus :: ts = pluses (S k) ++ ts.
Proof. induction k as [|k IH]; intros; cbn [repeat app]; [reflexivity|]. f_equal. rewrite IH. reflexivity. Qed.


Lemma operator_inv : forall all st v u ts c, inv all (After st v u ts) ->
  (token_precedence (hd_error ts) <> 0 -> fits (token_precedence (hd_error ts)) st) -> operator st v u ts = Next c -> inv all c.
Proof.
  intros all st v u ts c (pre & us & e & l & -> & O & R & F & S) T H. unfold operator in H. destruct ts as [|t ts]; [destruct st; discriminate|].
  destruct t; try (destruct st; discriminate); apply push_next in H; injection H as <-; cbn [inv].
  - exists (pre ++ us ++ [Operator b]), 0%nat. split; [rewrite <- !app_assoc; reflexivity|]. cbn [hd_error token_precedence] in *. pose proof (level_range b) as LR.
    apply o_binary with (x := e); [exact O|apply (reads_up l); [exact R|destruct S as [S|S]; cbn [hd_error token_precedence] in S; lia]|apply T; lia].
  - exists (pre ++ us ++ [Question]), 0%nat. split; [rewrite <- !app_assoc; reflexivity|]. cbn [hd_error token_precedence] in *.
    apply o_condition with (x := e); [exact O|apply (reads_up l); [exact R|destruct S as [S|S]; cbn [hd_error token_precedence] in S; lia]|apply T; lia].
Qed.

Lemma step_inv : forall all c c', Forall representable all -> inv all c -> step is_macro c = Next c' -> inv all c'.
Proof.
  intros all [st ts|st v u ts] c' W I H; cbn [step] in H.
  - destruct I as (pre & k & -> & O). unfold operand in H.
    assert (LIT : forall tok e v u rest, reads 2 tok e -> inv (pre ++ pluses k ++ tok ++ rest) (After st v u rest)).
    { intros tok e v u rest R. destruct (reads_pluses k tok e R) as [e' R']. exists pre, (pluses k ++ tok), e', 2.
      split; [rewrite <- !app_assoc; reflexivity|]. split; [exact O|]. split; [exact R'|]. split; [apply fits_two|apply stop_two]. }
    assert (UN : forall o v u rest, inv (pre ++ pluses k ++ unary_token o :: rest) (Operand (mknode (UNARY o) v u :: st) rest)).
    { intros. exists (pre ++ pluses k ++ [unary_token o]), 0%nat. split; [rewrite <- !app_assoc; reflexivity|]. apply o_unary. exact O. }
    destruct ts as [|t ts]; [discriminate|]. destruct t as [u v|v|n| | | |b| | | | |]; try discriminate.
    + injection H as <-. apply (LIT [Number u v] (Literal u v)). apply r_literal. rewrite !Forall_app in W. exact (Forall_inv (proj2 (proj2 W))).
    + injection H as <-. apply (LIT [Character v] (Char v)). apply r_char. rewrite !Forall_app in W. exact (Forall_inv (proj2 (proj2 W))).
    + injection H as <-. apply (LIT [Identifier n] (Name n)). apply r_name.
    + destruct ts as [|t ts]; [discriminate|]. destruct t as [| |n| | | | | | | | |]; try discriminate.
      * injection H as <-. apply (LIT [Defined; Identifier n] (IsDefined n)). apply r_defined.
      * destruct ts as [|[| |n| | | | | | | | |] ts]; try discriminate. destruct ts as [|[] ts]; try discriminate. injection H as <-.
        apply (LIT [Defined; LParen; Identifier n; RParen] (IsDefined n)). apply r_defined_parens.
    + apply push_next in H. injection H as <-. apply (UN Not).
    + apply push_next in H. injection H as <-. apply (UN Compl).
    + destruct b; try discriminate.
      * injection H as <-. exists pre, (S k). split; [rewrite pluses_snoc; reflexivity|exact O].
      * apply push_next in H. injection H as <-. apply (UN Neg).
    + apply push_next in H. injection H as <-. exists (pre ++ pluses k ++ [LParen]), 0%nat. split; [rewrite <- !app_assoc; reflexivity|]. apply o_paren. exact O.
  - unfold after in H. destruct st as [|n st].
    { apply (operator_inv all [] v u ts c' I); [|exact H]. intros _. cbn [fits]. destruct ts as [|[]]; cbn; try lia. pose proof (level_range b). lia. }
    destruct ((_ && _) || _) eqn:B.
    { apply (operator_inv all (n :: st) v u ts c' I); [|exact H]. intros NZ. assert (T : 3 <= token_precedence (hd_error ts) <= 13) by (destruct ts as [|[]]; cbn in *; try lia; pose proof (level_range b); lia). apply orb_true_iff in B. destruct B as [B|B]; apply andb_true_iff in B; destruct B as [B1 B2].
      - apply Z.ltb_lt in B2. unfold fits. destruct (op n); cbn [operation_precedence] in B2; lia.
      - apply Z.eqb_eq in B1, B2. unfold fits. destruct (op n); cbn [operation_precedence] in *; try lia. pose proof (level_range b). lia. }
    assert (P : stop (operation_precedence (op n)) ts /\ (operation_precedence (op n) = 13 -> token_precedence (hd_error ts) = 0)).
    { apply orb_false_iff in B. destruct B as [B1 B2]. apply andb_false_iff in B1, B2. rewrite negb_false_iff in B1. rewrite Z.eqb_eq, Z.ltb_ge in B1. rewrite !Z.eqb_neq in B2.
      assert (T : token_precedence (hd_error ts) <= 13) by (destruct ts as [|[]]; cbn; try lia; pose proof (level_range b); lia).
      unfold stop. destruct (op n) as [|b| | |]; cbn [operation_precedence] in *; lia. }
    destruct P as [P1 P2]. destruct I as (pre & us & e & l & E & O & R & F & S). subst all.
    inversion O as [|st0 c0 o k v0 u0 O0|st0 c0 k v0 u0 O0|st0 c0 b ts0 x v0 u0 O0 R0 F0|st0 c0 ts0 x v0 u0 O0 R0 F0|st0 c0 ts0 us0 x y v0 u0 v1 u1 O0 R0 R1 F0]; subst; cbn [op] in H.
    + injection H as <-. cbn [fits op] in F. pose proof (reads_level _ _ _ R). assert (l = 2) by lia. subst l.
      destruct (reads_pluses k _ _ (r_unary o us e R)) as [e' R']. exists c0, (pluses k ++ unary_token o :: us), e', 2.
      split; [rewrite <- !app_assoc; reflexivity|]. split; [exact O0|]. split; [exact R'|]. split; [apply fits_two|apply stop_two].
    + destruct ts as [|[] ts]; try discriminate. injection H as <-. cbn [fits op] in F.
      destruct (reads_pluses k _ _ (r_group us e (reads_up _ 13 _ _ R ltac:(lia)))) as [e' R']. exists c0, (pluses k ++ LParen :: us ++ [RParen]), e', 2.
      split; [rewrite <- !app_assoc; cbn [app]; rewrite <- !app_assoc; cbn [app]; reflexivity|]. split; [exact O0|]. split; [exact R'|]. split; [apply fits_two|apply stop_two].
    + destruct (compute _ _ _ _ _) as [[v' u']| |]; try discriminate. injection H as <-. cbn [fits op operation_precedence] in F, P1. pose proof (level_range b).
      exists c0, (ts0 ++ Operator b :: us), (Bin b x e), (level b).
      split; [rewrite <- !app_assoc; reflexivity|]. split; [exact O0|]. split; [rewrite <- level_c in *; apply r_binary; [exact R0|apply (reads_up l); [exact R|lia]]|]. split; [exact F0|exact P1].
    + destruct ts as [|[] ts]; try discriminate. apply push_next in H. apply push_next in H. injection H as <-. cbn [fits op] in F.
      exists (c0 ++ ts0 ++ Question :: us ++ [Colon]), 0%nat.
      split; [rewrite <- !app_assoc; cbn [app]; rewrite <- !app_assoc; cbn [app]; reflexivity|]. apply o_true with (x := x) (y := e); [exact O0|exact R0|apply (reads_up l); [exact R|lia]|exact F0].
    + cbn [op] in H. injection H as <-. cbn [fits op operation_precedence] in F, P1, P2.
      exists c0, (ts0 ++ Question :: us0 ++ Colon :: us), (Cond x y e), 13.
      split; [rewrite <- !app_assoc; cbn [app]; rewrite <- !app_assoc; cbn [app]; reflexivity|]. split; [exact O0|].
      split; [apply r_conditional; [exact R0|exact R1|apply (reads_up l); [exact R|lia]]|]. split; [exact F0|left; apply P2; reflexivity].
Qed.

Lemma run_inv : forall n all c v, Forall representable all -> inv all c -> run is_macro n c = Done v ->
  exists us rest e, all = us ++ rest /\ reads 13 us e /\ token_precedence (hd_error rest) = 0.
Proof.
  induction n as [|n IH]; intros all c v W I H; [discriminate|]. cbn [run] in H. destruct (step is_macro c) as [c'|w| |] eqn:E; try discriminate.
  - exact (IH all c' v W (step_inv all c c' W I E) H).
  - clear IH H. destruct c as [st ts|st x u ts]; cbn [step] in E.
    + exfalso. unfold operand, push in E. destruct ts as [|t ts]; [discriminate|]. destruct t; try discriminate; try (destruct (1024 <=? _); discriminate).
      * destruct ts as [|[] ts]; try discriminate. destruct ts as [|[] ts]; try discriminate. destruct ts as [|[] ts]; discriminate.
      * destruct b; try discriminate. destruct (1024 <=? _); discriminate.
    + assert (A : forall st', operator st' x u ts = Value w -> st' = [] /\ token_precedence (hd_error ts) = 0).
      { intros st' Q. unfold operator, push in Q. destruct ts as [|t ts]; [destruct st'; [split; reflexivity|discriminate]|].
        destruct t; try (destruct st'; [split; reflexivity|discriminate]); destruct (1024 <=? _); discriminate. }
      assert (B : st = [] /\ token_precedence (hd_error ts) = 0).
      { unfold after in E. destruct st as [|n0 st]; [exact (A [] E)|]. destruct ((_ && _) || _); [exact (A _ E)|]. exfalso. destruct (op n0).
        - discriminate.
        - destruct (compute _ _ _ _ _) as [[]| |]; discriminate.
        - destruct ts as [|[]]; discriminate.
        - destruct ts as [|[]]; try discriminate. unfold push in E. destruct (1024 <=? _); [discriminate|]. destruct (1024 <=? _); discriminate.
        - destruct st as [|c st]; [discriminate|]. destruct (op c); discriminate. }
      destruct B as [-> T]. destruct I as (pre & us & e & l & -> & O & R & F & S). inversion O; subst. cbn [fits] in F.
      exists us, ts, e. split; [reflexivity|]. split; [apply (reads_up l); [exact R|pose proof (reads_level _ _ _ R); lia]|exact T].
Qed.

Lemma evaluate_sound : forall ts v, Forall representable ts -> evaluate is_macro ts = Done v ->
  exists us rest e, ts = us ++ rest /\ reads 13 us e /\ token_precedence (hd_error rest) = 0.
Proof. intros ts v W H. apply (run_inv _ ts (Operand [] ts) v W) in H; [exact H|]. exists [], 0%nat. split; [reflexivity|constructor]. Qed.

(** The internal assertions hold. *)
Definition may_trap (b : binary) : Prop := b = Shl \/ b = Shr \/ b = Div \/ b = Mod.
Lemma step_trap : forall all c, inv all c -> step is_macro c = Trap -> exists b, may_trap b /\ In (Operator b) all.
Proof.
  intros all [st ts|st v u ts] I E; cbn [step] in E.
  - exfalso. unfold operand, push in E. destruct ts as [|t ts]; [discriminate|]. destruct t; try discriminate; try (destruct (1024 <=? _); discriminate).
    + destruct ts as [|[] ts]; try discriminate. destruct ts as [|[] ts]; try discriminate. destruct ts as [|[] ts]; discriminate.
    + destruct b; try discriminate. destruct (1024 <=? _); discriminate.
  - unfold after in E. destruct st as [|n st].
    { exfalso. unfold operator, push in E. destruct ts as [|[] ts]; try discriminate; destruct (1024 <=? _); discriminate. }
    destruct ((_ && _) || _) eqn:B.
    { exfalso. assert (NZ : token_precedence (hd_error ts) <> 0).
      { apply orb_true_iff in B. destruct B as [B|B]; apply andb_true_iff in B; destruct B as [B1 B2].
        - apply negb_true_iff, Z.eqb_neq in B1. exact B1.
        - apply Z.eqb_eq in B1, B2. lia. }
      unfold operator, push in E. destruct ts as [|[] ts]; cbn in NZ; try congruence; destruct (1024 <=? _); discriminate. }
    destruct I as (pre & us & e & l & -> & O & R & F & S).
    inversion O as [|st0 c0 o k v0 u0 O0|st0 c0 k v0 u0 O0|st0 c0 b ts0 x v0 u0 O0 R0 F0|st0 c0 ts0 x v0 u0 O0 R0 F0|st0 c0 ts0 us0 x y v0 u0 v1 u1 O0 R0 R1 F0]; subst; cbn [op] in E.
    + discriminate.
    + destruct ts as [|[]]; discriminate.
    + exists b. split; [|rewrite !in_app_iff; cbn; tauto]. unfold may_trap. destruct b; cbn [compute] in E; try discriminate; tauto.
    + exfalso. destruct ts as [|[]]; try discriminate. unfold push in E. destruct (1024 <=? _); [discriminate|]. destruct (1024 <=? _); discriminate.
    + discriminate.
Qed.
Lemma run_trap : forall n all c, Forall representable all -> inv all c -> (size c < n)%nat -> run is_macro n c = Crash -> exists b, may_trap b /\ In (Operator b) all.
Proof.
  induction n as [|n IH]; intros all c W I Z H; [lia|]. cbn [run] in H. destruct (step is_macro c) as [c'|w| |] eqn:E; try discriminate.
  - pose proof (step_size is_macro c c' E). exact (IH all c' W (step_inv all c c' W I E) ltac:(lia) H).
  - exact (step_trap all c I E).
Qed.
Lemma evaluate_trap : forall ts, Forall representable ts -> evaluate is_macro ts = Crash -> exists b, may_trap b /\ In (Operator b) ts.
Proof. intros ts W H. apply (run_trap _ ts _ W) in H; [exact H|exists [], 0%nat; split; [reflexivity|constructor]|cbn [size length]; lia]. Qed.
End Sound.
