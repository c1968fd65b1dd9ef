(** Proofs about the search for reachable declarations (C34). *)
From Verif Require Import Base ScopeModel ReachModel ReachSpec.

Section P.
Variable n : nat.
Variable g : nat -> declaration.
Variable obj : bool.
Variable roots : list nat.
Hypothesis Fin : finite n g roots.
Notation R := (reachable g roots).
Hypothesis Roots : forall d, In d roots -> is_function (g d) = true -> defined (g d) = true -> intrinsic (g d) = false /\ inline_asm (g d) = false.

Lemma reach_bound : forall d, R d -> (d < n)%nat.
Proof. destruct Fin as (A & B). induction 1; eauto. Qed.

(** What holds after every step: [stack] is what is still to be followed. *)
Record inv (stack : list (list nat)) (s : state) : Prop := mkinv {
  i_reach : forall d, flag s d = true -> R d;
  i_stack : forall l d, In l stack -> In d l -> R d;
  i_closed : forall d e, flag s d = true -> In e (refs (g d)) -> flag s e = true \/ exists l, In l stack /\ In e l;
  i_code : forall d, In d (code s) <-> flag s d = true /\ has_code (g d) = true;
  i_code1 : NoDup (code s);
  i_data : forall d, In d (data s) <-> flag s d = true /\ has_data (g d) = true;
  i_data1 : NoDup (data s);
  i_lib : forall d, In d (libraries s) -> flag s d = true /\ is_import (g d) = true /\ obj = false;
  i_lib' : forall d, flag s d = true -> is_import (g d) = true -> obj = false -> In d roots \/ In d (libraries s);
  i_lib1 : NoDup (libraries s) }.

Lemma flag_set : forall s d e, flag (set_flag s d) e = true <-> e = d \/ flag s e = true.
Proof. intros s d e. cbn. destruct (Nat.eqb_spec e d); split; auto. intros [A|A]; [contradiction|exact A]. Qed.

Lemma flag_visit : forall s d, flag (visit g obj s d) = flag (set_flag s d).
Proof. intros s d. unfold visit. destruct (is_function (g d)), (intrinsic (g d)), (defined (g d)), obj, (exported (g d)), (inline_asm (g d)), (external (g d)); reflexivity. Qed.
Lemma flag_visit_root : forall s d, flag (visit_root g s d) = flag (set_flag s d).
Proof. intros s d. unfold visit_root. destruct (is_function (g d)), (defined (g d)); reflexivity. Qed.

Definition add (b : bool) (l : list nat) (d : nat) : list nat := if b then l ++ [d] else l.
Lemma in_add : forall b l d e, In e (add b l d) <-> In e l \/ b = true /\ e = d.
Proof. intros [|] l d e; cbn [add]; [rewrite in_app_iff; cbn|]; intuition congruence. Qed.
Lemma nodup_add : forall b l d, NoDup l -> ~ In d l -> NoDup (add b l d).
Proof.
  intros [|] l d Nd Ni; [|exact Nd]. cbn. induction Nd as [|x l A B IH]; cbn; [constructor; [auto|constructor]|].
  constructor; [|apply IH; intro Q; apply Ni; right; exact Q]. rewrite in_app_iff. cbn. intros [Q|[->|[]]]; [contradiction|]. apply Ni. left. reflexivity.
Qed.

Lemma visit_lists : forall s d, code (visit g obj s d) = add (has_code (g d)) (code s) d /\ data (visit g obj s d) = add (has_data (g d)) (data s) d /\
  libraries (visit g obj s d) = add (is_import (g d) && negb obj) (libraries s) d.
Proof.
  intros s d. unfold visit, has_code, has_data, is_import. destruct (is_function (g d)), (intrinsic (g d)), (defined (g d)), obj, (exported (g d)), (inline_asm (g d)), (external (g d)); auto.
Qed.
Lemma visit_root_lists : forall s d, In d roots -> code (visit_root g s d) = add (has_code (g d)) (code s) d /\ data (visit_root g s d) = add (has_data (g d)) (data s) d /\
  libraries (visit_root g s d) = libraries s.
Proof.
  intros s d Hr. pose proof (Roots d Hr) as Q. unfold visit_root, has_code, has_data. destruct (is_function (g d)), (defined (g d)); cbn in *; auto.
  destruct (Q eq_refl eq_refl) as (-> & ->). auto.
Qed.

(** Flagging one declaration, with the list entries that go with it. *)
Lemma mark : forall stack stack' s s' d b, inv stack s -> flag s d = false -> R d ->
  flag s' = flag (set_flag s d) -> code s' = add (has_code (g d)) (code s) d -> data s' = add (has_data (g d)) (data s) d ->
  libraries s' = add b (libraries s) d -> (b = true <-> is_import (g d) = true /\ obj = false) \/ b = false /\ In d roots ->
  (forall l e, In l stack' -> In e l -> R e) ->
  (forall e, In e (refs (g d)) -> flag s' e = true \/ exists l, In l stack' /\ In e l) ->
  (forall l e, In l stack -> In e l -> flag s' e = true \/ exists l', In l' stack' /\ In e l') -> inv stack' s'.
Proof.
  intros stack stack' s s' d b I Fd Rd Ef Ec Ed El Hb Hs Hr Hk.
  assert (F : forall e, flag s' e = true <-> e = d \/ flag s e = true) by (intro e; rewrite Ef; apply flag_set).
  constructor.
  - intros e He. apply F in He as [->|He]; [exact Rd|apply (i_reach _ _ I e He)].
  - exact Hs.
  - intros a e Ha He. apply F in Ha as [->|Ha]; [apply Hr, He|]. destruct (i_closed _ _ I a e Ha He) as [Q|(l & L1 & L2)]; [left; apply F; auto|apply (Hk l e L1 L2)].
  - intro e. rewrite Ec, in_add, F, (i_code _ _ I). intuition (subst; auto).
  - rewrite Ec. apply nodup_add; [apply (i_code1 _ _ I)|]. rewrite (i_code _ _ I). intuition congruence.
  - intro e. rewrite Ed, in_add, F, (i_data _ _ I). intuition (subst; auto).
  - rewrite Ed. apply nodup_add; [apply (i_data1 _ _ I)|]. rewrite (i_data _ _ I). intuition congruence.
  - intro e. rewrite El, in_add, F. intros [Q|(Q & ->)].
    + destruct (i_lib _ _ I e Q) as (A & B & C). auto.
    + destruct Hb as [Hb|(Hb & _)]; [|congruence]. apply Hb in Q as (A & B). auto.
  - intros e Q A B. rewrite El, in_add. apply F in Q as [->|Q].
    + destruct Hb as [Hb|(_ & Hb)]; [|auto]. right. right. split; [apply Hb; auto|reflexivity].
    + destruct (i_lib' _ _ I e Q A B); auto.
  - rewrite El. apply nodup_add; [apply (i_lib1 _ _ I)|]. intro Q. destruct (i_lib _ _ I d Q) as (A & _). congruence.
Qed.

(** The work left: two for every declaration not yet found and one for each of its references. *)
Definition cost (d : nat) : nat := 2 + length (refs (g d)).
Fixpoint total (f : nat -> bool) (k : nat) : nat := match k with O => 0 | S k => (if f k then 0 else cost k) + total f k end.
Definition pending (stack : list (list nat)) : nat := fold_right (fun l a => S (length l) + a)%nat O stack.

Lemma total_mark : forall s d k, flag s d = false -> (d < k)%nat -> (total (flag (set_flag s d)) k + cost d = total (flag s) k)%nat.
Proof.
  intros s d k Fd. induction k as [|k IH]; intro L; [lia|]. cbn [total].
  assert (Ek : flag (set_flag s d) k = if Nat.eqb k d then true else flag s k) by reflexivity. rewrite Ek. clear Ek. destruct (Nat.eqb_spec k d) as [->|Q].
  - rewrite Fd. assert (E : forall m, (m <= d)%nat -> total (flag (set_flag s d)) m = total (flag s) m).
    { induction m as [|m IHm]; intro Lm; [reflexivity|]. cbn [total]. rewrite IHm by lia. cbn [flag set_flag]. destruct (Nat.eqb_spec m d); [lia|reflexivity]. }
    rewrite E by lia. lia.
  - rewrite <- IH by lia. lia.
Qed.
Lemma total_le : forall f f' k, (forall d, f d = true -> f' d = true) -> (total f' k <= total f k)%nat.
Proof. intros f f' k H. induction k as [|k IH]; cbn [total]; [lia|]. specialize (H k). destruct (f k), (f' k); lia || (rewrite H in *; [congruence|reflexivity]). Qed.

Lemma search_ok : forall fuel stack s, inv stack s -> (pending stack + total (flag s) n <= fuel)%nat ->
  exists s', search g obj fuel stack s = Done s' /\ inv [] s' /\ (forall d, flag s d = true -> flag s' d = true) /\ (forall l d, In l stack -> In d l -> flag s' d = true).
Proof.
  induction fuel as [|fuel IH]; intros stack s I M.
  - destruct stack as [|node below]; [|cbn in M; lia]. exists s. cbn. split; [reflexivity|]. split; [exact I|]. split; [auto|intros l d []].
  - destruct stack as [|[|d next] below].
    + exists s. cbn. split; [reflexivity|]. split; [exact I|]. split; [auto|intros l d []].
    + cbn [search]. destruct (IH below s) as (s' & E & I' & F1 & F2).
      * destruct I as [A B C D D1 E E1 G G1 G2]. constructor; try assumption.
        -- intros l d Hl. apply B. right. exact Hl.
        -- intros d e Hd He. destruct (C d e Hd He) as [Q|(l & [<-|L] & L2)]; [auto|destruct L2|right; exists l; auto].
      * unfold pending in *; cbn [fold_right length] in *; lia.
      * exists s'. split; [exact E|]. split; [exact I'|]. split; [exact F1|]. intros l d [<-|Hl] Hd; [destruct Hd|eauto].
    + cbn [search]. destruct (flag s d) eqn:Fd.
      * destruct (IH (next :: below) s) as (s' & E & I' & F1 & F2).
        -- destruct I as [A B C D D1 E E1 G G1 G2]. constructor; try assumption.
           ++ intros l e [<-|Hl] He; [apply (B (d :: next)); [left; reflexivity|right; exact He]|apply (B l); [right; exact Hl|exact He]].
           ++ intros a e Ha He. destruct (C a e Ha He) as [Q|(l & [<-|L] & L2)]; [auto| |right; exists l; split; [right; exact L|exact L2]].
              destruct L2 as [<-|L2]; [left; exact Fd|right; exists next; split; [left; reflexivity|exact L2]].
        -- unfold pending in *; cbn [fold_right length] in *; lia.
        -- exists s'. split; [exact E|]. split; [exact I'|]. split; [exact F1|]. intros l e [<-|Hl] He; [destruct He as [<-|He]|].
           ++ apply F1, Fd.
           ++ apply (F2 next); [left; reflexivity|exact He].
           ++ apply (F2 l); [right; exact Hl|exact He].
      * assert (Rd : R d) by (apply (i_stack _ _ I (d :: next)); left; reflexivity).
        pose proof (reach_bound d Rd) as Bd. pose proof (total_mark s d n Fd Bd) as T.
        destruct (visit_lists s d) as (V1 & V2 & V3). pose proof (flag_visit s d) as V0.
        set (stack' := match refs (g d) with [] => next :: below | first => first :: next :: below end).
        assert (Hs : forall l, In l (next :: below) -> In l stack') by (intros l Hl; unfold stack'; destruct (refs (g d)); [exact Hl|right; exact Hl]).
        assert (I1 : inv stack' (visit g obj s d)).
        { eapply mark; [exact I|exact Fd|exact Rd|exact V0|exact V1|exact V2|exact V3| | | |].
          - left. destruct (is_import (g d)), obj; cbn; intuition congruence.
          - assert (Q : forall l e, In l (next :: below) -> In e l -> R e).
            { intros l e [<-|Hl] He; [apply (i_stack _ _ I (d :: next) e)|apply (i_stack _ _ I l e)]; cbn; auto. }
            intros l e Hl He. unfold stack' in Hl. destruct (refs (g d)) as [|x xs] eqn:Er; [eapply Q; eassumption|].
            destruct Hl as [<-|Hl]; [|eapply Q; eassumption]. apply by_reference with d; [exact Rd|]. rewrite Er. exact He.
          - intros e He. right. unfold stack'. destruct (refs (g d)) as [|x xs] eqn:Er; [destruct He|]. exists (x :: xs). split; [left; reflexivity|exact He].
          - intros l e [<-|Hl] He.
            + destruct He as [<-|He]; [left; rewrite V0; apply flag_set; auto|]. right. exists next. split; [apply Hs; left; reflexivity|exact He].
            + right. exists l. split; [apply Hs; right; exact Hl|exact He]. }
        destruct (IH stack' (visit g obj s d)) as (s' & E & I' & F1 & F2).
        -- exact I1.
        -- rewrite V0. unfold stack', cost, pending in *. destruct (refs (g d)) as [|x xs]; cbn [fold_right length] in *; lia.
        -- exists s'. split; [|split; [exact I'|split]].
           ++ unfold stack' in E. destruct (refs (g d)); exact E.
           ++ intros e He. apply F1. rewrite V0. apply flag_set. auto.
           ++ intros l e [<-|Hl] He; [destruct He as [<-|He]|].
              ** apply F1. rewrite V0. apply flag_set. auto.
              ** apply (F2 next); [apply Hs; left; reflexivity|exact He].
              ** apply (F2 l); [apply Hs; right; exact Hl|exact He].
Qed.

Definition enough : nat := 1 + total (fun _ => false) n.

Lemma roots_ok : forall fuel rs s, incl rs roots -> inv [] s -> (total (fun _ => false) n <= fuel)%nat ->
  exists s', search_roots g obj fuel rs s = Done s' /\ inv [] s' /\ (forall d, flag s d = true -> flag s' d = true) /\ (forall d, In d rs -> flag s' d = true).
Proof.
  intros fuel rs. induction rs as [|d rs IH]; intros s Hr I M.
  - exists s. cbn. auto.
  - assert (Hd : In d roots) by (apply Hr; left; reflexivity). assert (Hr' : incl rs roots) by (intros x Hx; apply Hr; right; exact Hx).
    cbn [search_roots]. destruct (flag s d) eqn:Fd.
    + destruct (IH s Hr' I M) as (s' & E & I' & F1 & F2). exists s'. split; [exact E|]. split; [exact I'|]. split; [exact F1|]. intros e [<-|He]; auto.
    + assert (Rd : R d) by (apply by_root; exact Hd). pose proof (reach_bound d Rd) as Bd. pose proof (total_mark s d n Fd Bd) as T.
      assert (Ts : (total (flag s) n <= total (fun _ => false) n)%nat) by (apply total_le; discriminate).
      destruct (visit_root_lists s d Hd) as (V1 & V2 & V3). pose proof (flag_visit_root s d) as V0.
      assert (I1 : forall stack', (forall l, In l stack' -> l = refs (g d)) -> (refs (g d) = [] \/ In (refs (g d)) stack') -> inv stack' (visit_root g s d)).
      { intros stack' H1 H2. eapply mark with (b := false); [exact I|exact Fd|exact Rd|exact V0|exact V1|exact V2|exact V3| | | |].
        - right. split; [reflexivity|exact Hd].
        - intros l e Hl He. rewrite (H1 l Hl) in He. apply by_reference with d; assumption.
        - intros e He. right. exists (refs (g d)). split; [|exact He]. destruct H2 as [H2|H2]; [rewrite H2 in He; destruct He|exact H2].
        - intros l e []. }
      destruct (refs (g d)) as [|x xs] eqn:Er.
      * assert (I2 : inv [] (visit_root g s d)) by (apply I1; [intros l []|left; reflexivity]).
        destruct (IH (visit_root g s d) Hr' I2 M) as (s' & E & I' & F1 & F2). exists s'. split; [exact E|]. split; [exact I'|]. split.
        -- intros e He. apply F1. rewrite V0. apply flag_set. auto.
        -- intros e [<-|He]; [apply F1; rewrite V0; apply flag_set; auto|auto].
      * assert (I2 : inv [x :: xs] (visit_root g s d)) by (apply I1; [intros l [<-|[]]; reflexivity|right; left; reflexivity]).
        destruct (search_ok fuel [x :: xs] (visit_root g s d) I2) as (s1 & E1 & I3 & G1 & G2).
        -- rewrite V0. unfold cost in T. rewrite Er in T. unfold pending. cbn [fold_right length] in *. lia.
        -- rewrite E1. cbn [obind]. destruct (IH s1 Hr' I3 M) as (s' & E & I' & F1 & F2). exists s'. split; [exact E|]. split; [exact I'|]. split.
           ++ intros e He. apply F1, G1. rewrite V0. apply flag_set. auto.
           ++ intros e [<-|He]; [apply F1, G1; rewrite V0; apply flag_set; auto|auto].
Qed.

Lemma find_ok : forall fuel, (total (fun _ => false) n <= fuel)%nat -> exists s, find_reachable g obj fuel roots = Done s /\
  (forall d, flag s d = true <-> R d) /\
  (forall d, In d (code s) <-> R d /\ has_code (g d) = true) /\ NoDup (code s) /\
  (forall d, In d (data s) <-> R d /\ has_data (g d) = true) /\ NoDup (data s) /\
  (forall d, ~ In d roots -> (In d (libraries s) <-> R d /\ is_import (g d) = true /\ obj = false)) /\ NoDup (libraries s).
Proof.
  intros fuel M. destruct (roots_ok fuel roots (mkstate (fun _ => false) [] [] [] []) (incl_refl _)) as (s & E & I & _ & F).
  - constructor; cbn [flag code data libraries]; first [apply NoDup_nil|intros; intuition (try discriminate; try contradiction)].
  - exact M.
  - exists s. split; [exact E|]. assert (A : forall d, flag s d = true <-> R d).
    { intro d. split; [apply (i_reach _ _ I)|]. induction 1 as [d Hd|d e Hd IH He]; [apply F, Hd|]. destruct (i_closed _ _ I d e IH He) as [Q|(l & [] & _)]. exact Q. }
    split; [exact A|]. split; [intro d; rewrite <- A; apply (i_code _ _ I)|]. split; [apply (i_code1 _ _ I)|].
    split; [intro d; rewrite <- A; apply (i_data _ _ I)|]. split; [apply (i_data1 _ _ I)|]. split; [|apply (i_lib1 _ _ I)].
    intros d Nd. split.
    + intro Q. destruct (i_lib _ _ I d Q) as (B & C & D). apply A in B. auto.
    + intros (B & C & D). apply A in B. destruct (i_lib' _ _ I d B C D); [contradiction|assumption].
Qed.
End P.
