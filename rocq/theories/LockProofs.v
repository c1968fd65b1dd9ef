From Verif Require Import Base IntProofs LockModel.

Definition requests (t : list event) : list nat := flat_map (fun e => match e with Request i => [i] | _ => [] end) t.
Definition enters (t : list event) : list nat := flat_map (fun e => match e with Enter i => [i] | _ => [] end) t.
Definition leaves (t : list event) : list nat := flat_map (fun e => match e with Leave i => [i] | _ => [] end) t.

Lemma nth_set_same : forall l i t x, nth_error l i = Some x -> nth_error (set_thread i t l) i = Some t.
Proof. induction l; destruct i; cbn; intros; try discriminate; auto. eapply IHl; eauto. Qed.
Lemma nth_set_other : forall l i j t, i <> j -> nth_error (set_thread i t l) j = nth_error l j.
Proof. induction l; destruct i, j; cbn; intros; auto; try congruence. Qed.
Lemma length_set : forall l i t, length (set_thread i t l) = length l.
Proof. induction l; destruct i; cbn; intros; auto. Qed.

(** The tickets [w, w+1, ...] are held by the threads of the queue in this order. *)
Fixpoint holds (l : list thread) (w : Z) (q : list nat) : Prop :=
  match q with
  | [] => True
  | i :: q => nth_error l i = Some (Spinning (wraps 64 w)) /\ holds l (w + 1) q
  end.

Record linv (n : nat) (t : list event) (s : system) (W : Z) (inside : option nat) (q : list nat) : Prop := mklinv
  { li_len : length (threads s) = n;
    li_work : ticket_in_work s = wraps 64 W;
    li_given : tickets_given_out s = wraps 64 (W + Z.of_nat (length (match inside with Some i => i :: q | None => q end)));
    li_nodup : NoDup (match inside with Some i => i :: q | None => q end);
    li_inside : match inside with Some i => nth_error (threads s) i = Some Inside | None => True end;
    li_holds : holds (threads s) (match inside with Some _ => W + 1 | None => W end) q;
    li_rest : forall i x, nth_error (threads s) i = Some x -> ~ In i (match inside with Some i => i :: q | None => q end) -> x = Outside;
    li_enters : exists served, requests t = served ++ (match inside with Some i => i :: q | None => q end) /\
                  enters t = served ++ (match inside with Some i => [i] | None => [] end) /\ leaves t = served }.

Lemma holds_in : forall q l w i, holds l w q -> In i q -> exists k, 0 <= k < Z.of_nat (length q) /\ nth_error l i = Some (Spinning (wraps 64 (w + k))).
Proof.
  induction q as [|j q IH]; intros l w i H I; [destruct I|]. destruct H as [H1 H2]. destruct I as [->|I].
  - exists 0. rewrite Z.add_0_r. cbn. split; [lia|auto].
  - destruct (IH _ _ _ H2 I) as [k [K E]]. exists (k + 1). split; [cbn [length]; lia|].
    replace (w + (k + 1)) with (w + 1 + k) by lia. auto.
Qed.

Lemma holds_set : forall q l w i t, holds l w q -> ~ In i q -> holds (set_thread i t l) w q.
Proof.
  induction q as [|j q IH]; intros l w i t H N; cbn; auto. destruct H as [H1 H2].
  assert (i <> j) by (intros ->; apply N; left; auto).
  rewrite nth_set_other by auto. split; auto. apply IH; auto. intros I; apply N; right; auto.
Qed.

Lemma holds_app : forall q l w i, holds l w q -> nth_error l i = Some (Spinning (wraps 64 (w + Z.of_nat (length q)))) -> holds l w (q ++ [i]).
Proof.
  induction q as [|j q IH]; intros l w i H N; cbn.
  - cbn in N. rewrite Z.add_0_r in N. auto.
  - destruct H as [H1 H2]. split; auto. apply IH; auto. rewrite N. f_equal. f_equal. f_equal. cbn [length]. lia.
Qed.

Lemma wraps_add1 : forall x, wraps 64 (wraps 64 x + 1) = wraps 64 (x + 1).
Proof.
  intros. apply wraps_mod. rewrite <- Zplus_mod_idemp_l, wraps_mod_eq by lia. apply Zplus_mod_idemp_l.
Qed.

Lemma wraps_inj_small : forall w k, 0 <= k < 2 ^ 64 -> wraps 64 w = wraps 64 (w + k) -> k = 0.
Proof.
  intros w k K E.
  assert (M : w mod 2 ^ 64 = (w + k) mod 2 ^ 64) by (rewrite <- (wraps_mod_eq 64 w), <- (wraps_mod_eq 64 (w + k)) by lia; congruence).
  pose proof (Z.div_mod w (2 ^ 64) ltac:(lia)) as D1. pose proof (Z.div_mod (w + k) (2 ^ 64) ltac:(lia)) as D2.
  rewrite M in D1. assert (k = 2 ^ 64 * ((w + k) / 2 ^ 64 - w / 2 ^ 64)) by lia. nia.
Qed.

Lemma nodup_bound : forall q n, NoDup q -> (forall i, In i q -> (i < n)%nat) -> (length q <= n)%nat.
Proof.
  intros q n N H. rewrite <- (seq_length n 0). apply NoDup_incl_length; auto.
  intros i I. apply in_seq. specialize (H i I). lia.
Qed.

Lemma requests_app : forall a b, requests (a ++ b) = requests a ++ requests b.
Proof. intros. apply flat_map_app. Qed.
Lemma enters_app : forall a b, enters (a ++ b) = enters a ++ enters b.
Proof. intros. apply flat_map_app. Qed.
Lemma leaves_app : forall a b, leaves (a ++ b) = leaves a ++ leaves b.
Proof. intros. apply flat_map_app. Qed.

Lemma lock_step_inv : forall n t s e s' W inside q, Z.of_nat n < 2 ^ 64 ->
  linv n t s W inside q -> lock_step s e s' -> exists W' inside' q', linv n (t ++ [e]) s' W' inside' q'.
Proof.
  intros n t s e s' W ins q Hn [L WK GV ND IN HO RE EN] ST.
  destruct EN as (served & E1 & E2 & E3).
  set (all := match ins with Some i => i :: q | None => q end) in *.
  destruct ST as [g w l i N | g w l i tk N EQ | g w l i N]; cbn [threads ticket_in_work tickets_given_out] in *.
  - (* request *)
    exists W, ins, (q ++ [i]).
    assert (NI : ~ In i all).
    { intros I. unfold all in I. destruct ins as [j|].
      - destruct I as [->|I]; [rewrite N in IN; discriminate|]. destruct (holds_in _ _ _ _ HO I) as [k [_ E]]. rewrite N in E. discriminate.
      - destruct (holds_in _ _ _ _ HO I) as [k [_ E]]. rewrite N in E. discriminate. }
    assert (NQ : ~ In i q) by (intros I; apply NI; unfold all; destruct ins; [right|]; auto).
    assert (ALL : match ins with Some j => j :: q ++ [i] | None => q ++ [i] end = all ++ [i]) by (unfold all; destruct ins; reflexivity).
    constructor; cbn [threads ticket_in_work tickets_given_out]; rewrite ?ALL.
    + rewrite length_set. auto.
    + auto.
    + rewrite GV, wraps_add1, app_length. cbn [length]. f_equal. lia.
    + apply NoDup_rev in ND. rewrite <- (rev_involutive (all ++ [i])). apply NoDup_rev. rewrite rev_app_distr. cbn.
      constructor; auto. rewrite <- in_rev. auto.
    + destruct ins as [j|]; auto. rewrite nth_set_other; auto. intros ->. apply NI. left; auto.
    + apply holds_app; [apply holds_set; auto|]. rewrite (nth_set_same _ _ _ _ N). f_equal. f_equal. rewrite GV.
      f_equal. unfold all. destruct ins; cbn [length]; lia.
    + intros j x Nj NJ. destruct (Nat.eq_dec i j) as [->|NE]; [exfalso; apply NJ; apply in_or_app; right; left; auto|].
      rewrite nth_set_other in Nj by auto. eapply RE; eauto. intros I. apply NJ. apply in_or_app. auto.
    + exists served. rewrite requests_app, enters_app, leaves_app. cbn. rewrite !app_nil_r, E1, <- app_assoc. auto.
  - (* enter *)
    assert (NI : In i all) by (destruct (in_dec Nat.eq_dec i all); auto; specialize (RE i _ N n0); discriminate).
    assert (BND : (length all <= n)%nat).
    { apply nodup_bound; auto. intros j I. rewrite <- L. apply nth_error_Some. unfold all in I. destruct ins as [k|].
      - destruct I as [->|I]; [congruence|]. destruct (holds_in _ _ _ _ HO I) as [? [_ E]]. congruence.
      - destruct (holds_in _ _ _ _ HO I) as [? [_ E]]. congruence. }
    destruct ins as [j|]; cbn [length] in *.
    + (* somebody is inside: impossible *)
      exfalso. unfold all in NI. destruct NI as [->|I]; [rewrite N in IN; discriminate|].
      destruct (holds_in _ _ _ _ HO I) as [k [K E]]. rewrite N in E. injection E as E. subst tk.
      rewrite E in WK. unfold all in BND. cbn [length] in BND.
      assert (1 + k = 0); [|lia]. apply (wraps_inj_small W); [lia|]. rewrite <- WK. f_equal. lia.
    + unfold all in NI. destruct q as [|j q]; [destruct NI|].
      destruct HO as [H1 H2].
      assert (i = j).
      { destruct NI as [->|I]; auto. exfalso. destruct (holds_in _ _ _ _ H2 I) as [k [K E]]. rewrite N in E. injection E as E.
        subst tk. rewrite E in WK. unfold all in BND. cbn [length] in BND.
        assert (1 + k = 0); [|lia]. apply (wraps_inj_small W); [lia|]. rewrite <- WK. f_equal. lia. }
      subst j. exists W, (Some i), q. assert (ND1 := proj1 (proj1 (NoDup_cons_iff _ _) ND)). assert (ND2 := proj2 (proj1 (NoDup_cons_iff _ _) ND)).
      constructor; cbn [threads ticket_in_work tickets_given_out]; auto.
      * rewrite length_set. auto.
      * apply (nth_set_same _ _ _ _ N).
      * apply holds_set; auto.
      * intros j x Nj NJ. destruct (Nat.eq_dec i j) as [->|NE]; [exfalso; apply NJ; left; auto|].
        rewrite nth_set_other in Nj by auto. eapply RE; eauto.
      * exists served. rewrite requests_app, enters_app, leaves_app. cbn. rewrite !app_nil_r, E1, E2, app_nil_r. auto.
  - (* leave *)
    assert (NI : In i all) by (destruct (in_dec Nat.eq_dec i all); auto; specialize (RE i _ N n0); discriminate).
    assert (II : ins = Some i).
    { unfold all in NI. destruct ins as [j|].
      - destruct NI as [->|I]; auto. destruct (holds_in _ _ _ _ HO I) as [k [K E]]. rewrite N in E. discriminate.
      - destruct (holds_in _ _ _ _ HO NI) as [k [K E]]. rewrite N in E. discriminate. }
    subst ins. unfold all in *. assert (ND1 := proj1 (proj1 (NoDup_cons_iff _ _) ND)). assert (ND2 := proj2 (proj1 (NoDup_cons_iff _ _) ND)).
    exists (W + 1), None, q. constructor; cbn [threads ticket_in_work tickets_given_out]; auto.
    + rewrite length_set. auto.
    + rewrite WK. apply wraps_add1.
    + rewrite GV. f_equal. cbn [length]. lia.
    + apply holds_set; auto.
    + intros j x Nj NJ. destruct (Nat.eq_dec i j) as [->|NE].
      * rewrite (nth_set_same _ _ _ _ N) in Nj. congruence.
      * rewrite nth_set_other in Nj by auto. eapply RE; eauto. intros [->|I]; auto.
    + exists (served ++ [i]). rewrite requests_app, enters_app, leaves_app. cbn. rewrite !app_nil_r, E1, E2, <- app_assoc.
      cbn [app]. rewrite E3. auto.
Qed.

Lemma lock_inv : forall n t s, Z.of_nat n < 2 ^ 64 -> execution n t s -> exists W inside q, linv n t s W inside q.
Proof.
  intros n t s Hn E. induction E as [|t s e s' E IH ST].
  - exists 0, None, []. constructor; cbn; auto.
    + apply repeat_length.
    + constructor.
    + intros i x N _. apply nth_error_In in N. apply repeat_spec in N. auto.
    + exists []. auto.
  - destruct IH as (W & i & q & I). eapply lock_step_inv; eauto.
Qed.

Lemma linv_exclusive : forall n t s W ins q i j, linv n t s W ins q ->
  nth_error (threads s) i = Some Inside -> nth_error (threads s) j = Some Inside -> i = j.
Proof.
  intros n t s W ins q i j [L WK GV ND IN HO RE EN] Ni Nj.
  assert (A : forall k, nth_error (threads s) k = Some Inside -> ins = Some k).
  { intros k Nk. destruct ins as [m|].
    - destruct (in_dec Nat.eq_dec k (m :: q)) as [[->|I]|NI]; auto.
      + destruct (holds_in _ _ _ _ HO I) as [? [_ E]]. rewrite Nk in E. discriminate.
      + specialize (RE k _ Nk NI). discriminate.
    - destruct (in_dec Nat.eq_dec k q) as [I|NI].
      + destruct (holds_in _ _ _ _ HO I) as [? [_ E]]. rewrite Nk in E. discriminate.
      + specialize (RE k _ Nk NI). discriminate. }
  apply A in Ni. apply A in Nj. congruence.
Qed.

Lemma linv_fifo : forall n t s W ins q, linv n t s W ins q -> exists waiting, requests t = enters t ++ waiting /\
  (forall i, In i waiting <-> exists tk, nth_error (threads s) i = Some (Spinning tk)).
Proof.
  intros n t s W ins q [L WK GV ND IN HO RE EN]. destruct EN as (served & E1 & E2 & E3).
  exists q. split.
  - rewrite E1, E2. destruct ins; rewrite <- app_assoc; reflexivity.
  - intros i. split.
    + intros I. destruct (holds_in _ _ _ _ HO I) as [k [_ E]]. eauto.
    + intros [tk N]. destruct ins as [j|].
      * destruct (in_dec Nat.eq_dec i (j :: q)) as [[->|I]|NI]; auto; [congruence|]. specialize (RE i _ N NI). discriminate.
      * destruct (in_dec Nat.eq_dec i q) as [I|NI]; auto. specialize (RE i _ N NI). discriminate.
Qed.

Lemma linv_progress : forall n t s W ins q, linv n t s W ins q ->
  (exists i tk, nth_error (threads s) i = Some (Spinning tk)) ->
  exists i s', lock_step s (Leave i) s' \/ lock_step s (Enter i) s'.
Proof.
  intros n t s W ins q I [i [tk N]]. destruct (linv_fifo _ _ _ _ _ _ I) as [wt [_ F]].
  destruct I as [L WK GV ND IN HO RE EN]. destruct s as [g w l]. cbn [threads ticket_in_work tickets_given_out] in *.
  destruct ins as [j|].
  - exists j. eexists. left. apply step_leave. auto.
  - destruct q as [|j q].
    + exfalso. specialize (RE i _ N (fun H => H)). discriminate.
    + destruct HO as [H1 _]. exists j. eexists. right. eapply step_enter; eauto.
Qed.
