(** The state in which the stage ends. *)
From Coq Require Import List Bool Arith Lia Permutation. Import ListNotations.
From Verif Require Import SleepSpec SleepModel SleepProofs SleepSteps SleepLogic.

Lemma cnt_in : forall l e, In e l <-> 0 < cnt l e.
Proof. intros. rewrite (count_occ_In Nat.eq_dec). lia. Qed.

Section Run.
Variable ist : nat -> atom -> bool.
Variable hash : atom -> purpose -> nat.
Variable p : program.
Variable order : list nat.
Hypothesis H_order : NoDup order.

Lemma initial_tables : forall units capacity n, 0 < capacity -> tables_inv hash (initial order units capacity n).
Proof.
  intros units capacity n C. constructor.
  - cbn [initial tables threads]. intros m t M. apply nth_error_In in M. apply repeat_spec in M. subst t. constructor; cbn [empty_table nodes threads_in_flight copying is_locked].
    + rewrite repeat_length. exact C.
    + intros i x X. apply nth_error_In in X. apply repeat_spec in X. discriminate.
    + intros x X. apply repeat_spec in X. discriminate.
    + rewrite total_zero; [lia|]. intros q Q. apply repeat_spec in Q. subst q. reflexivity.
    + discriminate.
    + apply total_zero. intros q Q. apply repeat_spec in Q. subst q. reflexivity.
  - cbn [initial threads]. intros i q k t Q K. apply nth_error_In in Q. apply repeat_spec in Q. subst q. discriminate.
Qed.

Lemma initial_entries : forall units capacity n, entries_inv order (initial order units capacity n).
Proof.
  intros units capacity n. constructor; cbn [initial queue threads finished tables in_flight].
  - intros e. rewrite !total_zero; [cbn [count_occ]; lia | |].
    + intros t T. apply repeat_spec in T. subst t. unfold table_count. cbn [empty_table nodes]. apply total_zero.
      intros c X. apply repeat_spec in X. subst c. reflexivity.
    + intros q Q. apply repeat_spec in Q. subst q. reflexivity.
  - rewrite total_zero; [lia|]. intros q Q. apply repeat_spec in Q. subst q. reflexivity.
Qed.

Lemma initial_logic : forall units capacity n, logic_inv ist p (initial order units capacity n).
Proof.
  intros units capacity n.
  assert (NE : forall f, ~ est (initial order units capacity n) f) by (intros [m|m]; cbn; [tauto | discriminate]).
  constructor.
  - cbn [initial threads]. intros i q Q. apply nth_error_In in Q. apply repeat_spec in Q. subst q. apply thread_none; (reflexivity || discriminate).
  - intros k e (m & t & x & l & A & B & _). cbn [initial tables] in A. apply nth_error_In in A. apply repeat_spec in A. subst t.
    cbn [empty_table nodes] in B. apply repeat_spec in B. discriminate.
  - intros e [].
  - intros f H. destruct (NE f H).
  - intros x a b H. discriminate.
  - intros f H. destruct (NE f H).
Qed.

Lemma step_threads : forall s i, exists q, threads (step ist hash p s i) = upd i q (threads s) \/ threads (step ist hash p s i) = threads s.
Proof.
  intros s i. unfold step. destruct (nth_error (threads s) i) as [q|]; [|exists Idle; auto].
  destruct q; unfold in_table, update_table;
    try (match goal with |- context [perform] => destruct (nth_error p e) as [d|]; [destruct (nth_error (actions d) j) as [x|]; [destruct (perform_threads ist s i e j (in_unit d) x) as (_ & q & B & _); exists q; left; exact B|]|] end);
    repeat match goal with |- context [threads (match ?y with _ => _ end)] => destruct y end; ((eexists; left; reflexivity) || (exists Idle; right; reflexivity)).
Qed.

Lemma fault_step : forall s i l, In (Fault l) (threads s) -> In (Fault l) (threads (step ist hash p s i)).
Proof.
  intros s i l H. apply In_nth_error in H. destruct H as (j & H). destruct (Nat.eq_dec i j) as [<- | N].
  - unfold step. rewrite H. eapply nth_error_In. exact H.
  - destruct (step_threads s i) as (q & [E | E]); rewrite E; [|eapply nth_error_In; exact H].
    apply (nth_error_In _ j). rewrite upd_other by exact N. exact H.
Qed.

Lemma run_faultless : forall schedule s, faultless (run ist hash p schedule s) -> faultless s.
Proof.
  induction schedule as [|i r IH]; intros s H; [exact H|]. cbn [run] in H. intros l X. eapply (IH _ H l). apply fault_step. exact X.
Qed.

Lemma run_tables : forall schedule s, tables_inv hash s -> entries_inv order s ->
  tables_inv hash (run ist hash p schedule s) /\ entries_inv order (run ist hash p schedule s).
Proof.
  induction schedule as [|i r IH]; intros s T E; [auto|]. cbn [run]. apply IH; [eapply step_tables | apply step_entries]; eauto.
Qed.

Lemma asleep_cnt : forall s e, cnt (asleep s) e = total (table_count e) (tables s).
Proof.
  intros s e. unfold asleep. rewrite cnt_flat_map. apply total_ext. intros t _. rewrite cnt_flat_map. unfold table_count. apply total_ext.
  intros [[k [l|]]|] _; reflexivity.
Qed.

Lemma asleep_sleeper : forall s e, In e (asleep s) <-> exists k, sleeper s k e.
Proof.
  intros s e. unfold asleep, sleeper. rewrite in_flat_map. split.
  - intros (t & T & H). apply in_flat_map in H. destruct H as (c & C & H). destruct c as [[k [l|]]|]; [|destruct H|destruct H].
    apply In_nth_error in T. destruct T as (m & T).
    exists k, m, t, (mknode k (Some l)), l. cbn. auto.
  - intros (k & m & t & n & l & A & B & C & D & E). exists t. split; [eapply nth_error_In; exact A|]. apply in_flat_map. exists (Some n). split; [exact B|].
    destruct n as [k' sl]. cbn in D. subst sl. exact E.
Qed.

Hypothesis H_flags : forall d x, In d p -> In x (actions d) ->
  match x with Declare a b | Declare_array a b => b = ist (in_unit d) a | _ => True end.
Hypothesis H_lists : forall d j a, In d p -> nth_error (actions d) j = Some (Initialize_list a) ->
  exists j' b, j' < j /\ (nth_error (actions d) j' = Some (Declare a b) \/ nth_error (actions d) j' = Some (Declare_array a b)).
Hypothesis H_strings : forall d a, In d p -> ~ In (Initialize_string a) (actions d).

Lemma run_logic : forall schedule s, tables_inv hash s -> entries_inv order s -> logic_inv ist p s -> faultless (run ist hash p schedule s) ->
  logic_inv ist p (run ist hash p schedule s).
Proof.
  induction schedule as [|i r IH]; intros s T E L F; [exact L|]. cbn [run] in *.
  apply IH; auto; [eapply step_tables; eauto | apply step_entries; auto |].
  eapply step_logic; eauto. eapply run_faultless. exact F.
Qed.

Section End_.
Variable s : state.
Hypothesis T : tables_inv hash s.
Hypothesis E : entries_inv order s.
Hypothesis L : logic_inv ist p s.
Hypothesis H_ended : ended s = true.

Lemma end_queue : queue s = [] /\ forall q, In q (threads s) -> q = Idle.
Proof.
  apply Nat.eqb_eq in H_ended. pose proof (ei_flight _ _ E) as F. rewrite H_ended in F. split.
  - apply length_zero_iff_nil. lia.
  - intros q Q. assert (B : busy q = 0) by (apply (total_zero_inv _ busy (threads s)); [lia | exact Q]). destruct q; [reflexivity | discriminate ..].
Qed.

Lemma end_count : forall e, cnt (finished s) e + cnt (asleep s) e = cnt order e.
Proof.
  intros e. destruct end_queue as [Q I]. rewrite asleep_cnt. pose proof (ei_count _ _ E e) as C. rewrite Q in C.
  rewrite (total_zero _ (fun q => cnt (held q) e) (threads s)) in C; [cbn [count_occ] in C; lia|]. intros q H. rewrite (I q H). reflexivity.
Qed.

Lemma end_asleep : forall e, In e (asleep s) -> exists d j x f, nth_error p e = Some d /\ nth_error (actions d) j = Some x /\
  In f (needs ist (in_unit d) x) /\ passed ist s d j /\ ~ est s f.
Proof.
  intros e H. apply asleep_sleeper in H. destruct H as (k & H). destruct (li_nodes _ _ _ L _ _ H) as (f & -> & (d & j & x & A & B & C & D) & Z).
  exists d, j, x, f. repeat split; auto. intros X. destruct (li_awake _ _ _ L f X) as [(i & q & Q & W) | [(t & n & G & N & K & Sl) | [_ [_ Qt]]]].
  - apply nth_error_In in Q. apply (proj2 end_queue) in Q. subst q. discriminate.
  - destruct H as (m & t' & n' & l & M & N' & K' & Sl' & _). unfold get_table in G.
    assert (m = number (k_space (keyf f))). { pose proof (to_nodes _ _ _ _ (ti_tables _ _ T _ _ M) _ N') as [Y _]. rewrite K' in Y. congruence. }
    subst m. assert (t' = t) by congruence. subst t'. apply In_nth_error in N. destruct N as (a & N). apply In_nth_error in N'. destruct N' as (b & N').
    assert (a = b) by (eapply (hashed_unique hash); eauto; [exact (to_hashed _ _ _ _ (ti_tables _ _ T _ _ M)) | congruence]). subst b. congruence.
  - exact (Qt e H).
Qed.

Hypothesis H_all : forall e d, nth_error p e = Some d -> In e order.

Lemma end_facts : forall f, resolvable ist p f <-> est s f.
Proof.
  split; [|apply (li_facts _ _ _ L)]. induction 1 as [d before x after f I A G _ IH].
  apply In_nth_error in I. destruct I as (e & P).
  assert (X : nth_error (actions d) (length before) = Some x) by (rewrite A, nth_error_app2, Nat.sub_diag by lia; reflexivity).
  pose proof (proj1 (cnt_in _ _) (H_all e d P)) as O. pose proof (end_count e) as EC.
  destruct (in_dec Nat.eq_dec e (finished s)) as [F | F].
  - destruct (li_finished _ _ _ L e F) as (d' & P' & PA). assert (d' = d) by congruence. subst d'.
    eapply (PA (length before)); [apply nth_error_Some; congruence | exact X | right; exact G].
  - assert (AS : In e (asleep s)). { apply cnt_in. rewrite (proj1 (count_occ_not_In Nat.eq_dec _ _) F) in EC. lia. }
    destruct (end_asleep e AS) as (d' & j & y & g & P' & Y & N & PA & NE). assert (d' = d) by congruence. subst d'.
    destruct (lt_eq_lt_dec j (length before)) as [[Lt | ->] | Gt].
    + exfalso. apply NE. apply (IH y g); [|exact N]. rewrite A, nth_error_app1 in Y by exact Lt. eapply nth_error_In. exact Y.
    + assert (y = x) by congruence. subst y. destruct x; cbn [gives needs In] in G, N; contradiction.
    + eapply (PA (length before)); [exact Gt | exact X | right; exact G].
Qed.

Lemma end_finished : forall e d, nth_error p e = Some d -> (In e (finished s) <-> processable ist p d) /\ (In e (asleep s) <-> ~ processable ist p d).
Proof.
  intros e d P.
  assert (A1 : In e (finished s) -> processable ist p d).
  { intros F y g Y G. destruct (li_finished _ _ _ L e F) as (d' & P' & PA). assert (d' = d) by congruence. subst d'.
    apply In_nth_error in Y. destruct Y as (j & Y). apply end_facts. eapply (PA j); [apply nth_error_Some; congruence | exact Y | left; exact G]. }
  assert (A2 : In e (asleep s) -> ~ processable ist p d).
  { intros F PR. destruct (end_asleep e F) as (d' & j & y & g & P' & Y & N & PA & NE). assert (d' = d) by congruence. subst d'.
    apply NE. apply end_facts. apply (PR y g); [eapply nth_error_In; exact Y | exact N]. }
  assert (A3 : In e (finished s) \/ In e (asleep s)).
  { pose proof (proj1 (cnt_in _ _) (H_all e d P)) as O. pose proof (end_count e) as EC. rewrite !cnt_in. lia. }
  split; split; auto; intros H; destruct A3; auto; [exfalso; apply A2; auto | exfalso; apply H; auto].
Qed.
End End_.
End Run.
