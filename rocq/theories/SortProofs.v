From Coq Require Import Permutation Sorted.
From Verif Require Import Base SortModel.

(** A strict weak order, as a boolean test. *)
Definition strict_weak_order {A} (lt : A -> A -> bool) : Prop :=
  (forall x y, lt x y = true -> lt y x = false) /\
  (forall x y z, lt y x = false -> lt z y = false -> lt z x = false).

Section proofs.
  Context {A : Type}.
  Variable lt : A -> A -> bool.
  Hypothesis SWO : strict_weak_order lt.

  Definition le (x y : A) : Prop := lt y x = false.

  Lemma asym : forall x y, lt x y = true -> lt y x = false.
  Proof. exact (proj1 SWO). Qed.
  Lemma le_trans : forall x y z, le x y -> le y z -> le x z.
  Proof. intros x y z. unfold le. intros. eapply (proj2 SWO); eauto. Qed.
  Lemma le_total : forall x y, le x y \/ le y x.
  Proof.
    intros. unfold le. destruct (lt y x) eqn:E; auto. right. apply asym; auto.
  Qed.

  Lemma distribute_spec : forall it p s b,
    distribute lt it p s b =
      (rev (filter (fun x => lt x p) it) ++ s, rev (filter (fun x => negb (lt x p)) it) ++ b).
  Proof.
    induction it; intros; cbn [distribute filter rev app]; auto.
    destruct (lt a p); cbn [negb rev]; rewrite IHit, <- ?app_assoc; reflexivity.
  Qed.

  Definition smaller_of p l := rev (filter (fun x => lt x p) l).
  Definition bigger_of p l := rev (filter (fun x => negb (lt x p)) l).

  Lemma dist : forall it p, distribute lt it p [] [] = (smaller_of p it, bigger_of p it).
  Proof. intros. rewrite distribute_spec, !app_nil_r. reflexivity. Qed.

  Lemma perm_part : forall p l, Permutation l (smaller_of p l ++ bigger_of p l).
  Proof.
    intros. unfold smaller_of, bigger_of.
    rewrite <- (Permutation_rev (filter (fun x => lt x p) l)), <- (Permutation_rev (filter (fun x => negb (lt x p)) l)).
    induction l; cbn; auto. destruct (lt a p); cbn.
    - constructor; auto.
    - apply Permutation_cons_app; auto.
  Qed.

  Lemma smaller_in : forall p l x, In x (smaller_of p l) -> lt x p = true.
  Proof. intros p l x H. apply in_rev in H. apply filter_In in H. tauto. Qed.
  Lemma bigger_in : forall p l x, In x (bigger_of p l) -> le p x.
  Proof.
    intros p l x H. apply in_rev in H. apply filter_In in H. unfold le.
    destruct H. destruct (lt x p); auto; discriminate.
  Qed.
  Lemma smaller_le : forall p l x, In x (smaller_of p l) -> le x p.
  Proof. intros. apply smaller_in in H. unfold le. apply asym; auto. Qed.

  (** blocks [out, stack...] : all of an earlier block before all of a later one *)
  Definition before (a b : list A) : Prop := forall x y, In x a -> In y b -> le x y.
  Fixpoint ordered_blocks (l : list (list A)) : Prop :=
    match l with
    | [] => True
    | a :: r => (forall b, In b r -> before a b) /\ ordered_blocks r
    end.

  Definition inv (orig : list A) (stack : list (list A)) (out : list A) : Prop :=
    Permutation orig (out ++ concat stack) /\
    StronglySorted le out /\ ordered_blocks (out :: stack) /\ Forall (fun l => l <> []) stack.

  Lemma ss_app : forall a b, StronglySorted le a -> StronglySorted le b -> before a b -> StronglySorted le (a ++ b).
  Proof.
    induction a; intros b Ha Hb HB; cbn; auto.
    inversion Ha; subst. constructor.
    - apply IHa; auto. intros x y Hx Hy. apply HB; cbn; auto.
    - apply Forall_app. split; auto. apply Forall_forall. intros y Hy. apply HB; cbn; auto.
  Qed.

  Definition flag (l : list A) : nat :=
    match l with
    | p :: r => match bigger_of p r with [] => 1 | _ => 0 end
    | [] => 0
    end.
  Definition weight (l : list A) : nat := 4 * length l - 3 + flag l.
  Fixpoint total (s : list (list A)) : nat := match s with [] => 0 | l :: r => weight l + total r end.

  Lemma flag_le : forall l, (flag l <= 1)%nat.
  Proof. destruct l; cbn; auto. destruct (bigger_of a l); auto. Qed.

  Lemma in_concat_perm : forall x (s : list (list A)), In x (concat s) <-> exists l, In l s /\ In x l.
  Proof. intros. apply in_concat. Qed.

  Lemma before_app_l : forall a b c, before a c -> before b c -> before (a ++ b) c.
  Proof. intros a b c H1 H2 x y Hx Hy. apply in_app_or in Hx. destruct Hx; auto. Qed.

  Lemma sort_loop_ok : forall n orig stack out, (total stack <= n)%nat -> inv orig stack out ->
    exists res, sort_loop lt (S n) stack out = Some res /\ Permutation orig res /\ StronglySorted le res.
  Proof.
    induction n as [n IH] using (well_founded_induction Wf_nat.lt_wf).
    intros orig stack out Hn (P & SO & OB & NE).
    destruct stack as [|cur stack].
    - exists out. cbn. rewrite app_nil_r in P. auto.
    - inversion NE as [|? ? N1 N2]; subst. cbn [total] in Hn.
      destruct cur as [|p rest]; [congruence|].
      cbn [ordered_blocks] in OB. destruct OB as (OO & CO & OS).
      assert (BOut : before out (p :: rest)) by (apply OO; cbn; auto).
      assert (W1 : (1 <= weight (p :: rest))%nat) by (unfold weight; cbn [length]; lia).
      destruct n as [|n]; [lia|].
      assert (STEP : forall st o, (total st <= n)%nat -> inv orig st o ->
          exists res, sort_loop lt (S n) st o = Some res /\ Permutation orig res /\ StronglySorted le res).
      { intros st o T I. destruct (IH n ltac:(lia) orig st o T I) as (r & R). exists r. exact R. }
      assert (HB : forall o b, before o b -> (forall c, In c stack -> before o c) -> True) by auto. clear HB.
      destruct rest as [|q rest].
      + (* single node *)
        cbn [sort_loop].
        apply STEP; [lia|]. split; [|split; [|split]]; auto.
        * rewrite <- app_assoc. exact P.
        * apply ss_app; auto; repeat constructor.
        * cbn [ordered_blocks]. split; auto.
          intros b Hb. apply before_app_l; [apply OO; cbn; auto|apply CO; auto].
      + set (l := q :: rest) in *.
        pose proof (perm_part p l) as PP.
        assert (NS : forall x, In x (smaller_of p l) -> In x l).
        { intros. eapply Permutation_in; [symmetry; exact PP|]. apply in_or_app; auto. }
        assert (NB : forall x, In x (bigger_of p l) -> In x l).
        { intros. eapply Permutation_in; [symmetry; exact PP|]. apply in_or_app; auto. }
        assert (LEN : (length (smaller_of p l) + length (bigger_of p l) = length l)%nat).
        { rewrite <- app_length. symmetry. apply Permutation_length; auto. }
        change (sort_loop lt (S (S n)) ((p :: l) :: stack) out) with
          (let '(smaller, bigger) := distribute lt l p [] [] in
           let stack := match bigger with [] => stack | _ => bigger :: stack end in
           match smaller with
           | [] => sort_loop lt (S n) stack (out ++ [p])
           | [node] => sort_loop lt (S n) stack (out ++ [node; p])
           | _ => sort_loop lt (S n) ((smaller ++ [p]) :: stack) out
           end).
        rewrite dist. cbv zeta.
        set (sm := smaller_of p l) in *. set (bg := bigger_of p l) in *.
        set (st' := match bg with [] => stack | _ :: _ => bg :: stack end).
        assert (CC : Permutation (concat st') (bg ++ concat stack)).
        { unfold st'. destruct bg; auto. }
        assert (NE' : Forall (fun l => l <> []) st').
        { unfold st'. destruct bg; auto. constructor; auto. discriminate. }
        assert (B1 : forall x, le x p -> (forall y, In y (p :: l) -> True) -> forall b, In b st' -> before [x] b).
        { intros x Hx _ b Hb. unfold st' in Hb.
          assert (Hs : In b stack -> before [x] b).
          { intros I a y [<-|[]] Hy. eapply le_trans; [exact Hx|]. apply (CO b I); cbn; auto. }
          destruct bg as [|b0 bt] eqn:Ebg; auto. destruct Hb as [<-|Hb]; auto.
          intros a y [<-|[]] Hy. eapply le_trans; [exact Hx|]. apply (bigger_in p l). fold bg. rewrite Ebg. exact Hy. }
        assert (B2 : ordered_blocks st').
        { unfold st'. destruct bg eqn:Ebg; auto. cbn [ordered_blocks]. split; auto.
          intros b Hb x y Hx Hy. apply (CO b Hb); auto. right. apply NB. exact Hx. }
        assert (B3 : forall b, In b st' -> before out b).
        { intros b Hb. unfold st' in Hb.
          assert (Hs : In b stack -> before out b) by (intros; apply OO; cbn; auto).
          destruct bg eqn:Ebg; auto. destruct Hb as [<-|Hb]; auto.
          intros x y Hx Hy. apply BOut; auto. right. apply NB. exact Hy. }
        assert (TS : (total st' <= 4 * length bg + total stack)%nat).
        { unfold st'. destruct bg as [|b0 bt] eqn:Ebg; [lia|].
          cbn [total]. unfold weight. pose proof (flag_le (b0 :: bt)). cbn [length]. lia. }
        assert (TS' : bg <> [] -> (total st' + 2 <= 4 * length bg + total stack)%nat).
        { unfold st'. destruct bg as [|b0 bt] eqn:Ebg; [congruence|intros _].
          cbn [total]. unfold weight. pose proof (flag_le (b0 :: bt)). cbn [length]. lia. }
        assert (WL : weight (p :: l) = (4 * S (length l) - 3 + match bg with [] => 1 | _ => 0 end)%nat).
        { unfold weight. cbn [flag length]. fold bg. reflexivity. }
        assert (PO : Permutation (p :: l) (sm ++ p :: bg)).
        { apply Permutation_cons_app. exact PP. }
        destruct sm as [|s1 [|s2 sm']] eqn:Esm.
        * (* no smaller *)
          apply STEP.
          { cbn [length] in LEN. unfold l in *. cbn [length] in *. lia. }
          split; [|split; [|split]]; auto.
          { rewrite P. rewrite <- app_assoc. apply Permutation_app_head. rewrite CC.
            cbn [concat]. rewrite PO. reflexivity. }
          { apply ss_app; auto; [repeat constructor|]. intros x y Hx [<-|[]]. apply BOut; cbn; auto. }
          { cbn [ordered_blocks]. split; auto. intros b Hb. apply before_app_l; auto.
            apply B1; auto. unfold le. destruct (lt p p) eqn:E; auto. pose proof (asym _ _ E). congruence. }
        * (* one smaller *)
          assert (LP : le p p) by (unfold le; destruct (lt p p) eqn:E; auto; pose proof (asym _ _ E); congruence).
          assert (S1 : le s1 p) by (apply (smaller_le p l); fold sm; rewrite Esm; cbn; auto).
          apply STEP.
          { cbn [length] in LEN. unfold l in *. cbn [length] in *. lia. }
          split; [|split; [|split]]; auto.
          { rewrite P. rewrite <- app_assoc. apply Permutation_app_head. rewrite CC.
            cbn [concat]. rewrite PO. reflexivity. }
          { apply ss_app; auto.
            - constructor; [repeat constructor|]. repeat constructor; auto.
            - intros x y Hx [<-|[<-|[]]]; apply BOut; cbn [In]; auto. right. apply NS. cbn; auto. }
          { cbn [ordered_blocks]. split; auto. intros b Hb. apply before_app_l; auto.
            change [s1; p] with ([s1] ++ [p]). apply before_app_l; apply B1; auto. }
        * (* several smaller *)
          assert (SP : forall x, In x (s1 :: s2 :: sm') -> lt x p = true).
          { intros x Hx. apply (smaller_in p l). fold sm. rewrite Esm. exact Hx. }
          assert (FL : flag ((s1 :: s2 :: sm') ++ [p]) = 0%nat).
          { cbn [app flag]. assert (In p (bigger_of s1 (s2 :: sm' ++ [p]))).
            { unfold bigger_of. rewrite <- in_rev. apply filter_In. split.
              - right. apply in_or_app. cbn; auto.
              - rewrite (asym s1 p); auto. apply SP. cbn; auto. }
            destruct (bigger_of s1 (s2 :: sm' ++ [p])); auto. contradiction. }
          apply STEP.
          { cbn [total]. unfold weight at 1. rewrite FL. rewrite app_length. cbn [length] in *.
            destruct bg as [|b0 bt] eqn:Ebg.
            - cbn [length] in *. lia.
            - assert (b0 :: bt <> []) by discriminate. specialize (TS' H). cbn [length] in *. lia. }
          split; [|split; [|split]]; auto.
          { rewrite P. apply Permutation_app_head. cbn [concat]. rewrite CC.
            rewrite PO. rewrite <- !app_assoc. reflexivity. }
          { assert (XL : forall x, In x ((s1 :: s2 :: sm') ++ [p]) -> le x p /\ In x (p :: l)).
            { intros x Hx. apply in_app_or in Hx. destruct Hx as [Hx|[<-|[]]].
              - split; [unfold le; apply asym, SP, Hx|]. right. apply NS. exact Hx.
              - split; [|cbn; auto]. unfold le; destruct (lt p p) eqn:E; auto; pose proof (asym _ _ E); congruence. }
            cbn [ordered_blocks]. split; [|split].
            - intros b [<-|Hb]; auto. intros x y Hx Hy. apply BOut; auto. apply XL; auto.
            - intros b Hb x y Hx Hy. apply (B1 x (proj1 (XL x Hx)) (fun _ _ => I) b Hb); cbn; auto.
            - exact B2. }
          { constructor; auto. discriminate. }
  Qed.

  Theorem sll_sort_ok : forall l, exists fuel res,
    sll_sort lt fuel l = Some res /\ Permutation l res /\ StronglySorted le res.
  Proof.
    intros l. destruct l as [|a [|b l]].
    - exists O, []. repeat split; auto. constructor.
    - exists O, [a]. repeat split; auto. repeat constructor.
    - destruct (sort_loop_ok (total [a :: b :: l]) (a :: b :: l) [a :: b :: l] []) as (r & R).
      + lia.
      + split; [|split; [|split]].
        * cbn. rewrite app_nil_r. reflexivity.
        * constructor.
        * cbn. split; [intros ? _ ? ? []|]. split; auto. intros ? [].
        * repeat constructor. discriminate.
      + eexists _, r. exact R.
  Qed.

  (** more fuel does not change the result *)
  Lemma sort_loop_mono : forall f s o r, sort_loop lt f s o = Some r -> forall f', (f <= f')%nat -> sort_loop lt f' s o = Some r.
  Proof.
    induction f; intros s o r H f' L; [discriminate|]. destruct f'; [lia|].
    cbn [sort_loop] in *. destruct s as [|c s]; auto. destruct c as [|p rest]; auto.
    destruct rest as [|q rest].
    - apply IHf; auto; lia.
    - destruct (distribute lt (q :: rest) p [] []) as [sm bg].
      destruct sm as [|s1 [|s2 sm]]; apply IHf; auto; lia.
  Qed.
End proofs.

Lemma sll_sort_deterministic : forall A (lt : A -> A -> bool) f1 f2 l r1 r2,
  sll_sort lt f1 l = Some r1 -> sll_sort lt f2 l = Some r2 -> r1 = r2.
Proof.
  intros. destruct l as [|a [|b l]]; cbn [sll_sort] in *; try congruence.
  pose proof (sort_loop_mono lt f1 _ _ _ H (Nat.max f1 f2) ltac:(lia)).
  pose proof (sort_loop_mono lt f2 _ _ _ H0 (Nat.max f1 f2) ltac:(lia)). congruence.
Qed.

(** The two orders. *)
Ltac cases := repeat match goal with
  | |- context [if ?a <? ?b then _ else _] => destruct (Z.ltb_spec a b)
  | |- context [if ?a >? ?b then _ else _] => rewrite (Z.gtb_ltb a b)
  | H : context [if ?a <? ?b then _ else _] |- _ => destruct (Z.ltb_spec a b)
  | H : context [if ?a >? ?b then _ else _] |- _ => rewrite (Z.gtb_ltb a b) in H
  end.

Lemma lex_swo : strict_weak_order string_lexically_smaller.
Proof.
  split.
  - induction x as [|a x IH]; intros [|b y]; cbn; intros; auto; try discriminate.
    revert H. cases; intros; try lia; try congruence. apply IH; auto.
  - induction x as [|a x IH]; intros [|b y] [|c z]; cbn; auto; try discriminate.
    cases; intros; try lia; try congruence. eapply IH; eauto.
Qed.

Lemma stage_inj : forall a b, stage_index a = stage_index b -> a = b.
Proof. destruct a, b; cbn; congruence. Qed.

Lemma error_swo : strict_weak_order error_node_smaller_function.
Proof.
  split.
  - intros [cu1 st1 t1] [cu2 st2 t2]. unfold error_node_smaller_function.
    cbn [compilation_unit_index error_stage error_token].
    cases; try lia; try congruence.
    assert (st1 = st2) by (apply stage_inj; lia). subst.
    destruct t1 as [[f1 l1 c1 a1]|], t2 as [[f2 l2 c2 a2]|]; try congruence; auto.
    cbn [file_index line column token_address].
    destruct st2; cases; try lia; try congruence; intros; try lia.
  - intros [cu1 st1 t1] [cu2 st2 t2] [cu3 st3 t3]. unfold error_node_smaller_function.
    cbn [compilation_unit_index error_stage error_token].
    cases; try lia; try congruence.
    assert (st1 = st2) by (apply stage_inj; lia). assert (st2 = st3) by (apply stage_inj; lia). subst.
    destruct t1 as [[f1 l1 c1 a1]|], t2 as [[f2 l2 c2 a2]|], t3 as [[f3 l3 c3 a3]|]; try congruence; auto.
    cbn [file_index line column token_address].
    destruct st3; cases; try lia; try congruence; intros; try lia.
Qed.

(** Lexicographic order, stated independently. *)
Inductive lex_lt : list Z -> list Z -> Prop :=
| lex_nil : forall y b, lex_lt [] (y :: b)
| lex_first : forall x y a b, x < y -> lex_lt (x :: a) (y :: b)
| lex_next : forall x a b, lex_lt a b -> lex_lt (x :: a) (x :: b).

Lemma lex_spec : forall a b, string_lexically_smaller a b = true <-> lex_lt a b.
Proof.
  induction a as [|x a IH]; intros [|y b]; cbn.
  - split; [discriminate|inversion 1].
  - split; [constructor|auto].
  - split; [discriminate|inversion 1].
  - cases.
    + split; auto. intros. constructor; auto.
    + split; [discriminate|]. inversion 1; lia.
    + assert (x = y) by lia. subst. rewrite IH. split; [apply lex_next|]. inversion 1; subst; auto; lia.
Qed.

(** Diagnostics are ordered by compilation unit, stage, then those without position
    first, then position. *)
Definition error_key (e : error_node) : list Z :=
  [compilation_unit_index e; stage_index (error_stage e)] ++
  match error_token e with
  | None => [0]
  | Some t => 1 :: match error_stage e with
                   | stage_tokenize => [file_index t; line t; column t]
                   | _ => [token_address t]
                   end
  end.

Lemma error_spec : forall a b, error_node_smaller_function a b = true <-> lex_lt (error_key a) (error_key b).
Proof.
  intros a b. rewrite <- lex_spec. unfold error_node_smaller_function, error_key.
  destruct a as [cu1 st1 t1], b as [cu2 st2 t2]. cbn [compilation_unit_index error_stage error_token app string_lexically_smaller].
  cases; try tauto.
  assert (st1 = st2) by (apply stage_inj; lia). subst.
  destruct t1 as [[f1 l1 c1 a1]|], t2 as [[f2 l2 c2 a2]|]; cbn [file_index line column token_address];
    try (cbn; tauto).
  destruct st2; cbn [string_lexically_smaller]; cases; try lia; try tauto; cbn; try tauto.
  all: split; intros; try lia; try discriminate; auto.
Qed.
