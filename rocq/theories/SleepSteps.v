(** Invariants of the stage: the tables and the accounting of the entries. *)
From Coq Require Import List Bool Arith Lia Permutation. Import ListNotations.
From Verif Require Import SleepSpec SleepModel SleepProofs.

Definition on (m : nat) (k : key) : nat := if number (k_space k) =? m then 1 else 0.

(** Threads counted by [threads_in_flight] of table [m]. *)
Definition inside (m : nat) (q : pc) : nat :=
  match q with
  | Probe _ k _ _ | Load _ k _ | Push _ k _ _ | Requeue _ k | Insert _ k _ _ | Count _ k | Swap _ k _ _ _ | Leave _ k _ => on m k
  | _ => 0
  end.
(** Threads that have locked table [m]. *)
Definition locker (m : nat) (q : pc) : nat :=
  match q with Grow_recheck _ k | Grow_wait _ k | Grow_copy _ k | Grow_unlock _ k => on m k | _ => 0 end.

Definition own (o : operation) : list nat := match o with Sleep _ => [] | Wake c => [entry_of c] end.
(** The entries a thread is responsible for. *)
Definition held (q : pc) : list nat :=
  match q with
  | Idle => []
  | Parse e _ | Set_size e _ _ => [e]
  | Grow_check o _ | Grow_lock o _ | Grow_recheck o _ | Grow_wait o _ | Grow_copy o _ | Grow_unlock o _ | Enter o _
  | Probe o _ _ _ | Insert o _ _ _ => [operation_entry o]
  | Load e _ _ | Push e _ _ _ | Requeue e _ => [e]
  | Count o _ => own o
  | Swap c _ _ _ _ => [entry_of c]
  | Leave o _ l => match o with Sleep _ => [] | Wake c => entry_of c :: l end
  | Append c l => entry_of c :: l
  | Finish (Some e) => [e]
  | Finish None => []
  | Fault l => l
  end.
Definition busy (q : pc) : nat := match q with Idle => 0 | _ => 1 end.

Definition cell_count (e : nat) (c : option node) : nat :=
  match c with Some n => match sleepers n with Some l => cnt l e | None => 0 end | None => 0 end.
Definition table_count (e : nat) (t : table) : nat := total (cell_count e) (nodes t).

Section Stage.
Variable ist : nat -> atom -> bool.
Variable hash : atom -> purpose -> nat.
Variable p : program.
Variable order : list nat.
Hypothesis H_order : NoDup order.

Definition key_of (q : pc) : option key :=
  match q with
  | Probe _ k _ _ | Load _ k _ | Push _ k _ _ | Insert _ k _ _ | Swap _ k _ _ _ | Grow_copy _ k => Some k
  | _ => None
  end.

Definition on_path (l : list (option node)) (k : key) (n index : nat) : Prop := exists d, d <= n /\ reached hash l k d index.
Definition has (l : list (option node)) (k : key) (index : nat) (old : option (list nat)) : Prop :=
  exists n, nth_error l index = Some (Some n) /\ n_key n = k /\ evolved old (sleepers n).

(** What a thread knows about the table it is in. *)
Definition local_ok (t : table) (q : pc) : Prop :=
  match q with
  | Probe _ k n index => on_path (nodes t) k n index
  | Insert _ k n index => on_path (nodes t) k n index /\ n < length (nodes t)
  | Load _ k index => exists n, nth_error (nodes t) index = Some (Some n) /\ n_key n = k
  | Push _ k index l => l <> [] /\ has (nodes t) k index (Some l)
  | Swap _ k n index old => on_path (nodes t) k n index /\ old <> Some [] /\ has (nodes t) k index old
  | Grow_copy _ _ => copying t = true
  | _ => True
  end.

Record table_ok (threads : list pc) (m : nat) (t : table) : Prop := {
  to_size : 0 < length (nodes t);
  to_hashed : hashed hash (nodes t);
  to_nodes : forall n, In (Some n) (nodes t) -> number (k_space (n_key n)) = m /\ sleepers n <> Some [];
  to_inside : total (inside m) threads <= threads_in_flight t;
  to_copying : copying t = true -> threads_in_flight t = 0;
  to_locker : total (locker m) threads = if is_locked t then 1 else 0 }.

Record tables_inv (s : state) : Prop := {
  ti_tables : forall m t, nth_error (tables s) m = Some t -> table_ok (threads s) m t;
  ti_threads : forall i q k t, nth_error (threads s) i = Some q -> key_of q = Some k -> get_table s (k_space k) = Some t -> local_ok t q }.

Record entries_inv (s : state) : Prop := {
  ei_count : forall e, cnt (queue s) e + total (fun q => cnt (held q) e) (threads s) + cnt (finished s) e + total (table_count e) (tables s) = cnt order e;
  ei_flight : in_flight s = length (queue s) + total busy (threads s) }.

Lemma local_evolves : forall t t' q, evolves (nodes t) (nodes t') -> (copying t = true -> copying t' = true \/ forall o k, q <> Grow_copy o k) ->
  local_ok t q -> local_ok t' q.
Proof.
  intros t t' q E C H. destruct q; cbn [local_ok] in *; auto.
  - destruct (C H) as [? | N]; [assumption | exfalso; eapply N; reflexivity].
  - destruct H as (d & D & R). exists d. split; [exact D | eapply reached_evolves; eauto].
  - destruct H as (n & N & K). destruct E as [_ E]. destruct (E _ _ N) as (n' & N' & K' & _). exists n'. split; [exact N' | congruence].
  - destruct H as (L & n & N & K & V). destruct E as [_ E]. destruct (E _ _ N) as (n' & N' & K' & V').
    split; [exact L|]. exists n'. repeat split; [exact N' | congruence | eapply evolved_trans; eauto].
  - destruct H as ((d & D & R) & L). split; [|destruct E as [-> _]; exact L]. exists d. split; [exact D | eapply reached_evolves; eauto].
  - destruct H as ((d & D & R) & L & n & N & K & V). split; [exists d; split; [exact D | eapply reached_evolves; eauto]|].
    split; [exact L|]. destruct E as [_ E]. destruct (E _ _ N) as (n' & N' & K' & V').
    exists n'. repeat split; [exact N' | congruence | eapply evolved_trans; eauto].
Qed.

Lemma local_inside : forall t t' q k, key_of q = Some k -> inside (number (k_space k)) q = 0 -> local_ok t q ->
  (copying t = true -> copying t' = true \/ forall o k, q <> Grow_copy o k) -> local_ok t' q.
Proof.
  intros t t' q k K I L C. destruct q; cbn [key_of] in K; try discriminate; injection K as ->; cbn [inside] in I; unfold on in I; rewrite ?Nat.eqb_refl in I; try discriminate.
  cbn [local_ok] in *. destruct (C L) as [? | N]; [assumption | exfalso; eapply N; reflexivity].
Qed.

Ltac use_total f := match goal with H : nth_error ?l ?i = Some ?y |- context [upd ?i ?x ?l] => pose proof (total_upd _ f l i x y H) end.

(** A step that leaves the tables alone. *)
Lemma tables_pc : forall s s' i q q', tables_inv s -> nth_error (threads s) i = Some q ->
  tables s' = tables s -> threads s' = upd i q' (threads s) ->
  (forall m, m < length (tables s) -> inside m q' <= inside m q /\ locker m q' = locker m q) ->
  (forall k t, key_of q' = Some k -> get_table s (k_space k) = Some t -> local_ok t q') ->
  tables_inv s'.
Proof.
  intros s s' i q q' [T L] Hq E1 E2 In1 K. constructor.
  - intros m t M. rewrite E1 in M. destruct (T m t M). rewrite E2. assert (Lm : m < length (tables s)) by (apply nth_error_Some; congruence).
    destruct (In1 m Lm) as [In2 Lo]. constructor; auto.
    + pose proof (total_upd _ (inside m) _ _ q' _ Hq). lia.
    + pose proof (total_upd _ (locker m) _ _ q' _ Hq). lia.
  - intros j r k t Hr Kr G. unfold get_table in *. rewrite E1 in G. rewrite E2 in Hr.
    destruct (upd_cases _ _ _ _ _ _ Hr) as [(_ & -> & _) | (N & Hr')]; [apply (K k t Kr G) | eapply L; eauto].
Qed.

(** A step that changes table [m]. *)
Lemma tables_table : forall s s' i q q' m t t', tables_inv s -> nth_error (threads s) i = Some q ->
  nth_error (tables s) m = Some t ->
  tables s' = upd m t' (tables s) -> threads s' = upd i q' (threads s) ->
  0 < length (nodes t') -> hashed hash (nodes t') ->
  (forall n, In (Some n) (nodes t') -> number (k_space (n_key n)) = m /\ sleepers n <> Some []) ->
  inside m q' + threads_in_flight t <= threads_in_flight t' + inside m q ->
  (copying t' = true -> threads_in_flight t' = 0) ->
  locker m q' + (if is_locked t then 1 else 0) = locker m q + (if is_locked t' then 1 else 0) ->
  (forall m', m' <> m -> inside m' q' <= inside m' q /\ locker m' q' = locker m' q) ->
  (evolves (nodes t) (nodes t') \/ threads_in_flight t = 0) ->
  ((copying t = true -> copying t' = true) \/ locker m q = 1) ->
  (forall k, key_of q' = Some k -> number (k_space k) = m /\ local_ok t' q') ->
  tables_inv s'.
Proof.
  intros s s' i q q' m t t' [T L] Hq Hm E1 E2 S1 S2 S3 S4 S5 S6 S7 S8 S9 S10. pose proof (T m t Hm) as [T1 T2 T3 T4 T5 T6].
  assert (Lm : m < length (tables s)) by (apply nth_error_Some; congruence).
  constructor.
  - intros m' t2 M. rewrite E1 in M. rewrite E2. destruct (upd_cases _ _ _ _ _ _ M) as [(<- & -> & _) | (N & M')].
    + constructor; auto.
      * pose proof (total_upd _ (inside m) _ _ q' _ Hq). lia.
      * pose proof (total_upd _ (locker m) _ _ q' _ Hq). lia.
    + destruct (T m' t2 M') as [U1 U2 U3 U4 U5 U6]. destruct (S7 m' ltac:(congruence)) as [V1 V2]. constructor; auto.
      * pose proof (total_upd _ (inside m') _ _ q' _ Hq). lia.
      * pose proof (total_upd _ (locker m') _ _ q' _ Hq). lia.
  - intros j r k t2 Hr Kr G. unfold get_table in *. rewrite E1 in G. rewrite E2 in Hr.
    destruct (upd_cases _ _ _ _ _ _ Hr) as [(_ & -> & _) | (N & Hr')].
    + destruct (S10 k Kr) as [A B]. rewrite A in G. rewrite (upd_same _ _ _ _ _ Hm) in G. injection G as <-. exact B.
    + destruct (upd_cases _ _ _ _ _ _ G) as [(A & -> & _) | (A & G')].
      * assert (G0 : nth_error (tables s) (number (k_space k)) = Some t) by congruence.
        pose proof (L j r k t Hr' Kr G0) as LO.
        assert (C : copying t = true -> copying t' = true \/ forall o k, r <> Grow_copy o k).
        { intros Ct. destruct S9 as [S9 | S9]; [left; auto|]. right. intros o k0 ->.
          cbn [key_of] in Kr. injection Kr as ->. pose proof (total_two _ (locker m) _ i j _ _ N Hq Hr') as TT. cbn [locker] in TT.
          unfold on in TT. rewrite <- A, Nat.eqb_refl in TT. destruct (is_locked t); lia. }
        destruct S8 as [S8 | S8]; [eapply local_evolves; eauto|].
        eapply local_inside; eauto. rewrite <- A. pose proof (total_in _ (inside m) _ _ _ Hr'). lia.
      * eapply L; eauto.
Qed.

Lemma node_at_some : forall t i n, node_at t i = Some n <-> nth_error (nodes t) i = Some (Some n).
Proof. intros. unfold node_at. destruct (nth_error (nodes t) i) as [[m|]|]; split; congruence. Qed.

(** Equal heads are equal lists: no entry sleeps twice. *)
Lemma heads : forall s m t i n old, entries_inv s -> nth_error (tables s) m = Some t -> nth_error (nodes t) i = Some (Some n) ->
  sleepers n <> Some [] -> old <> Some [] -> evolved old (sleepers n) -> same_head (sleepers n) old = true -> sleepers n = old.
Proof.
  intros s m t i n old [E _] M N Z Z' V H. destruct V as [V | (l & pre & -> & V)].
  - rewrite V in *. destruct old as [[|x l]|]; cbn in H; try discriminate; reflexivity.
  - rewrite V in *. destruct l as [|x l]; [congruence|]. destruct pre as [|y pre]; [reflexivity|]. exfalso.
    cbn in H. apply Nat.eqb_eq in H. subst y. specialize (E x).
    pose proof (total_in _ (table_count x) _ _ _ M) as A. pose proof (total_in _ (cell_count x) _ _ _ N) as B.
    cbn [cell_count] in B. rewrite V in B. cbn [app] in B. rewrite count_occ_cons_eq in B by reflexivity. rewrite count_occ_app in B.
    rewrite count_occ_cons_eq in B by reflexivity. unfold table_count in A at 1.
    pose proof (proj1 (NoDup_count_occ Nat.eq_dec order) H_order x). lia.
Qed.

Ltac inv_table H := unfold in_table; destruct (get_table _ _) as [t|] eqn:H.

Ltac no_table I Hq := eapply (tables_pc _ _ _ _ _ I Hq); try reflexivity; cbn [inside locker key_of]; intros; try lia; try discriminate; auto.
(** The table is missing. *)
Lemma missing_on : forall s k m, get_table s (k_space k) = None -> m < length (tables s) -> on m k = 0.
Proof.
  intros s k m G L. unfold get_table in G. apply nth_error_None in G. unfold on. destruct (Nat.eqb_spec (number (k_space k)) m); [lia | reflexivity].
Qed.
Ltac gone I Hq G := no_table I Hq; rewrite ?(missing_on _ _ _ G) by assumption; try lia.
Ltac with_table I Hq G := eapply (tables_table _ _ _ _ _ _ _ _ I Hq G); try reflexivity;
   cbn [inside locker key_of set_growth set_nodes nodes amount_of_nodes is_locked threads_in_flight copying];
   unfold on; rewrite ?Nat.eqb_refl; try discriminate;
   try (intros ?m' ?Nm'; rewrite ?(proj2 (Nat.eqb_neq _ m') (not_eq_sym Nm')); lia); try lia; auto using evolves_refl.

Lemma perform_threads : forall s i e j u x, tables (perform ist s i e j u x) = tables s /\
  exists q, threads (perform ist s i e j u x) = upd i q (threads s) /\ inside 0 q = 0 /\ (forall m, inside m q = 0) /\ (forall m, locker m q = 0) /\ key_of q = None
    /\ held q = [e] /\ busy q = 1 /\ queue (perform ist s i e j u x) = queue s /\ in_flight (perform ist s i e j u x) = in_flight s
    /\ finished (perform ist s i e j u x) = finished s.
Proof.
  intros s i e j u x. unfold perform, sleep.
  repeat match goal with |- context [match ?y with _ => _ end] => destruct y eqn:? end;
    (split; [reflexivity | eexists; cbn [threads set_pc set_facts]; repeat split; try reflexivity]).
Qed.

Lemma resume_facts : forall c, (forall m, inside m (resume c) = 0) /\ (forall m, locker m (resume c) = 0) /\ key_of (resume c) = None /\ held (resume c) = [entry_of c] /\ busy (resume c) = 1.
Proof. destruct c; repeat split. Qed.

Lemma step_tables : forall s i, tables_inv s -> entries_inv s -> tables_inv (step ist hash p s i).
Proof.
  intros s i I EI. unfold step. destruct (nth_error (threads s) i) as [q|] eqn:Hq; [|exact I].
  destruct q.
  - (* Idle *) destruct (queue s) as [|e r]; [exact I|]. no_table I Hq.
  - (* Parse *) destruct (nth_error p e) as [d|]; [|no_table I Hq]. destruct (nth_error (actions d) j) as [x|]; [|no_table I Hq].
    destruct (perform_threads s i e j (in_unit d) x) as (A & q & B & _ & C1 & C2 & C3 & _).
    eapply (tables_pc _ _ _ _ q I Hq); auto; intros; rewrite ?C1, ?C2; cbn; try lia. congruence.
  - no_table I Hq.
  - (* Grow_check *) inv_table G; [|gone I Hq G]. destruct (is_locked t); [exact I|]. destruct (full t); no_table I Hq.
  - (* Grow_lock *) inv_table G; [|gone I Hq G]. destruct (is_locked t) eqn:Lk; [no_table I Hq|].
    unfold get_table in G. pose proof (ti_tables _ I _ _ G) as [T1 T2 T3 T4 T5 T6].
    with_table I Hq G. rewrite Lk. reflexivity.
  - (* Grow_recheck *) inv_table G; [destruct (full t)|]; [no_table I Hq | no_table I Hq | gone I Hq G].
  - (* Grow_wait *) inv_table G; [|gone I Hq G]. destruct (Nat.eqb_spec (threads_in_flight t) 0) as [F | F]; [|exact I].
    unfold get_table in G. pose proof (ti_tables _ I _ _ G) as [T1 T2 T3 T4 T5 T6].
    with_table I Hq G. cbn [local_ok]. intros k0 K0. injection K0 as <-. auto.
  - (* Grow_copy *) inv_table G; [|gone I Hq G].
    pose proof (ti_threads _ I _ _ _ _ Hq eq_refl G) as LO. cbn [local_ok] in LO.
    unfold get_table in G. pose proof (ti_tables _ I _ _ G) as [T1 T2 T3 T4 T5 T6].
    destruct (grow_spec hash (nodes t) T1 T2) as (L1 & L2 & L3 & L4).
    with_table I Hq G.
    intros n N. apply T3. apply L4. exact N.
  - (* Grow_unlock *) inv_table G; [|gone I Hq G].
    unfold get_table in G. pose proof (ti_tables _ I _ _ G) as [T1 T2 T3 T4 T5 T6].
    pose proof (total_in _ (locker (number (k_space k))) _ _ _ Hq) as TL. cbn [locker] in TL. unfold on in TL. rewrite Nat.eqb_refl in TL.
    with_table I Hq G. destruct (is_locked t); lia.
  - (* Enter *) inv_table G; [|gone I Hq G]. destruct (copying t) eqn:Cp; [no_table I Hq|].
    unfold get_table in G. pose proof (ti_tables _ I _ _ G) as [T1 T2 T3 T4 T5 T6].
    with_table I Hq G.
    + left. congruence.
    + intros k0 K0. injection K0 as <-. split; [reflexivity|]. cbn [local_ok set_growth nodes]. exists 0. split; [lia|].
      split; [unfold start, slot, capacity; rewrite Nat.add_0_r; reflexivity | intros d' D'; lia].
  - (* Probe *) inv_table G; [|gone I Hq G].
    pose proof (ti_threads _ I _ _ _ _ Hq eq_refl G) as LO. cbn [local_ok] in LO.
    pose proof G as G'. unfold get_table in G'. pose proof (ti_tables _ I _ _ G') as [T1 T2 T3 T4 T5 T6].
    destruct (Nat.ltb_spec i0 (capacity t)) as [Lt | Ge]; [|no_table I Hq].
    destruct (node_at t index) as [m|] eqn:N.
    + apply node_at_some in N. destruct (key_eqb (n_key m) k) eqn:K.
      * apply key_eqb_spec in K. destruct o; no_table I Hq; match goal with H : Some _ = Some _ |- _ => injection H as <- end;
          match goal with H : get_table _ _ = Some ?t0 |- _ => assert (t0 = t) by congruence; subst t0 end; cbn [local_ok].
        -- exists m. auto.
        -- split; [exact LO|]. split; [apply (T3 m); eapply nth_error_In; exact N|]. exists m. auto using evolved_refl.
      * apply key_eqb_neq in K. no_table I Hq. match goal with H : Some _ = Some _ |- _ => injection H as <- end.
        match goal with H : get_table _ _ = Some ?t0 |- _ => assert (t0 = t) by congruence; subst t0 end. cbn [local_ok].
        destruct LO as (d & D & E & B). exists (S d). split; [lia|]. split.
        -- unfold next_index, capacity. rewrite E. apply slot_S. exact T1.
        -- intros d' D'. destruct (Nat.eq_dec d' d) as [-> | Nd]; [|apply B; lia]. exists m. rewrite <- E. auto.
    + no_table I Hq. match goal with H : Some _ = Some _ |- _ => injection H as <- end.
      match goal with H : get_table _ _ = Some ?t0 |- _ => assert (t0 = t) by congruence; subst t0 end. cbn [local_ok].
      split; [exact LO | exact Lt].
  - (* Load *) inv_table G; [|gone I Hq G].
    pose proof (ti_threads _ I _ _ _ _ Hq eq_refl G) as (n & N & K).
    pose proof G as G'. unfold get_table in G'. pose proof (ti_tables _ I _ _ G') as [T1 T2 T3 T4 T5 T6].
    rewrite (proj2 (node_at_some _ _ _) N). pose proof (proj2 (T3 n ltac:(eapply nth_error_In; exact N))) as NE.
    destruct (sleepers n) as [l|] eqn:Sl; no_table I Hq. match goal with H : Some _ = Some _ |- _ => injection H as <- end.
    match goal with H : get_table _ _ = Some ?t0 |- _ => assert (t0 = t) by congruence; subst t0 end. cbn [local_ok].
    split; [congruence|]. exists n. rewrite Sl. auto using evolved_refl.
  - (* Push *) inv_table G; [|gone I Hq G].
    pose proof (ti_threads _ I _ _ _ _ Hq eq_refl G) as (NE & n & N & K & V).
    pose proof G as G'. unfold get_table in G'. pose proof (ti_tables _ I _ _ G') as [T1 T2 T3 T4 T5 T6].
    rewrite (proj2 (node_at_some _ _ _) N). destruct (same_head (sleepers n) (Some expected)) eqn:SH.
    + assert (E : sleepers n = Some expected).
      { eapply heads; eauto; [apply (T3 n); eapply nth_error_In; exact N | congruence]. }
      with_table I Hq G'.
      * rewrite upd_length. exact T1.
      * apply change_hashed; auto. rewrite E. right. exists expected, [e]. auto.
      * intros m M. apply In_nth_error in M. destruct M as (x & M). destruct (upd_cases _ _ _ _ _ _ M) as [(_ & Q & _) | (_ & Q)].
        -- injection Q as ->. cbn. split; [apply (T3 n); eapply nth_error_In; exact N | discriminate].
        -- apply T3. eapply nth_error_In. exact Q.
      * left. apply change_evolves; [exact N|]. rewrite E. right. exists expected, [e]. auto.
    + no_table I Hq. match goal with H : Some _ = Some _ |- _ => injection H as <- end.
      match goal with H : get_table _ _ = Some ?t0 |- _ => assert (t0 = t) by congruence; subst t0 end. cbn [local_ok]. exists n. auto.
  - (* Requeue *) no_table I Hq.
  - (* Insert *) inv_table G; [|gone I Hq G].
    pose proof (ti_threads _ I _ _ _ _ Hq eq_refl G) as ((d & D & R) & Lt).
    pose proof G as G'. unfold get_table in G'. pose proof (ti_tables _ I _ _ G') as [T1 T2 T3 T4 T5 T6].
    destruct (node_at t index) as [m|] eqn:N.
    + no_table I Hq. match goal with H : Some _ = Some _ |- _ => injection H as <- end.
      match goal with H : get_table _ _ = Some ?t0 |- _ => assert (t0 = t) by congruence; subst t0 end. cbn [local_ok].
      exists d. split; [lia | exact R].
    + assert (F : nth_error (nodes t) index = Some None).
      { unfold node_at in N. destruct (nth_error (nodes t) index) as [[m|]|] eqn:Q; try discriminate; [reflexivity|].
        apply nth_error_None in Q. destruct R as [-> _]. pose proof (slot_lt hash (nodes t) k d T1). lia. }
      with_table I Hq G'.
      * rewrite upd_length. exact T1.
      * apply (insert_hashed hash _ (mknode k (match o with Sleep e => Some [e] | Wake _ => None end)) d); auto. lia.
      * intros m M. apply In_nth_error in M. destruct M as (x & M). destruct (upd_cases _ _ _ _ _ _ M) as [(_ & Q & _) | (_ & Q)].
        -- injection Q as ->. cbn. split; [reflexivity | destruct o; discriminate].
        -- apply T3. eapply nth_error_In. exact Q.
      * left. apply insert_evolves. exact F.
  - (* Count *) inv_table G; [|gone I Hq G].
    unfold get_table in G. pose proof (ti_tables _ I _ _ G) as [T1 T2 T3 T4 T5 T6]. with_table I Hq G.
  - (* Swap *) inv_table G; [|gone I Hq G].
    pose proof (ti_threads _ I _ _ _ _ Hq eq_refl G) as (OP & NE & n & N & K & V).
    pose proof G as G'. unfold get_table in G'. pose proof (ti_tables _ I _ _ G') as [T1 T2 T3 T4 T5 T6].
    rewrite (proj2 (node_at_some _ _ _) N). destruct (same_head (sleepers n) expected) eqn:SH.
    + with_table I Hq G'.
      * rewrite upd_length. exact T1.
      * apply change_hashed; auto. left. reflexivity.
      * intros m M. apply In_nth_error in M. destruct M as (x & M). destruct (upd_cases _ _ _ _ _ _ M) as [(_ & Q & _) | (_ & Q)].
        -- injection Q as ->. cbn. split; [apply (T3 n); eapply nth_error_In; exact N | discriminate].
        -- apply T3. eapply nth_error_In. exact Q.
      * left. apply change_evolves; [exact N|]. left. reflexivity.
    + no_table I Hq. match goal with H : Some _ = Some _ |- _ => injection H as <- end.
      match goal with H : get_table _ _ = Some ?t0 |- _ => assert (t0 = t) by congruence; subst t0 end. cbn [local_ok].
      destruct OP as (d & D & R). exists d. split; [lia | exact R].
  - (* Leave *) inv_table G; [|gone I Hq G].
    unfold get_table in G. pose proof (ti_tables _ I _ _ G) as [T1 T2 T3 T4 T5 T6].
    pose proof (total_in _ (inside (number (k_space k))) _ _ _ Hq) as TL. cbn [inside] in TL. unfold on in TL. rewrite Nat.eqb_refl in TL.
    assert (Q : forall q', q' = (match o with Sleep _ => Finish None | Wake c => match result with [] => resume c | _ => Append c result end end) ->
              (forall m, inside m q' = 0) /\ (forall m, locker m q' = 0) /\ key_of q' = None).
    { intros q' ->. destruct o as [e|c]; [repeat split|]. destruct (resume_facts c) as (A & B & C & _). destruct result; [auto | repeat split]. }
    destruct (Q _ eq_refl) as (Q1 & Q2 & Q3).
    eapply (tables_table _ _ _ _ _ _ _ _ I Hq G); try reflexivity; cbn [set_growth nodes amount_of_nodes is_locked threads_in_flight copying]; auto using evolves_refl.
    + rewrite Q1. cbn [inside]. unfold on. rewrite Nat.eqb_refl. lia.
    + intros C. rewrite (T5 C). reflexivity.
    + intros m' N. rewrite Q1, Q2. cbn [locker]. lia.
    + intros k0 K0. congruence.
  - (* Append *) destruct (resume_facts c) as (A & B & C & _).
    eapply (tables_pc _ _ _ _ _ I Hq); try reflexivity; intros; rewrite ?A, ?B; cbn; try lia; congruence.
  - (* Finish *) no_table I Hq.
  - exact I.
Qed.

Lemma entries_pc : forall s s' i q q', entries_inv s -> nth_error (threads s) i = Some q ->
  tables s' = tables s -> threads s' = upd i q' (threads s) ->
  (forall e, cnt (queue s') e + cnt (held q') e + cnt (finished s') e = cnt (queue s) e + cnt (held q) e + cnt (finished s) e) ->
  (in_flight s = length (queue s) + total busy (threads s) -> busy q <= total busy (threads s) ->
   in_flight s' + (length (queue s) + busy q) = in_flight s + (length (queue s') + busy q')) ->
  entries_inv s'.
Proof.
  intros s s' i q q' [C F] Hq E1 E2 E3 E4. constructor.
  - intros e. rewrite E1, E2. pose proof (total_upd _ (fun q => cnt (held q) e) _ _ q' _ Hq) as U. cbn beta in U. specialize (C e). specialize (E3 e). lia.
  - rewrite E2. pose proof (total_upd _ busy _ _ q' _ Hq) as U. pose proof (total_in _ busy _ _ _ Hq). specialize (E4 F ltac:(lia)). lia.
Qed.

Lemma entries_table : forall s s' i q q' m t t', entries_inv s -> nth_error (threads s) i = Some q -> nth_error (tables s) m = Some t ->
  tables s' = upd m t' (tables s) -> threads s' = upd i q' (threads s) -> queue s' = queue s -> finished s' = finished s -> in_flight s' = in_flight s ->
  (forall e, cnt (held q') e + table_count e t' = cnt (held q) e + table_count e t) -> busy q' = busy q ->
  entries_inv s'.
Proof.
  intros s s' i q q' m t t' [C F] Hq Hm E1 E2 E3 E4 E5 E6 E7. constructor.
  - intros e. rewrite E1, E2, E3, E4. pose proof (total_upd _ (fun q => cnt (held q) e) _ _ q' _ Hq) as U. cbn beta in U.
    pose proof (total_upd _ (table_count e) _ _ t' _ Hm) as V. specialize (C e). specialize (E6 e). lia.
  - rewrite E2, E3, E5. pose proof (total_upd _ busy _ _ q' _ Hq) as U. lia.
Qed.

Ltac pc_only EI Hq := eapply (entries_pc _ _ _ _ _ EI Hq); try reflexivity; cbn [set_pc set_queue queue finished in_flight held busy];
  intros; rewrite ?count_occ_app, ?app_length; cbn [length]; try lia.
Ltac table_only EI Hq G := eapply (entries_table _ _ _ _ _ _ _ _ EI Hq G); try reflexivity; cbn [held busy]; intros; try reflexivity.

Lemma step_entries : forall s i, tables_inv s -> entries_inv s -> entries_inv (step ist hash p s i).
Proof.
  intros s i I EI. unfold step. destruct (nth_error (threads s) i) as [q|] eqn:Hq; [|exact EI].
  destruct q.
  - (* Idle *) destruct (queue s) as [|e r] eqn:Q; [exact EI|]. pc_only EI Hq; rewrite Q; cbn [length] in *; try lia. cbn [count_occ]. destruct (Nat.eq_dec e e0); lia.
  - (* Parse *) destruct (nth_error p e) as [d|]; [|pc_only EI Hq]. destruct (nth_error (actions d) j) as [x|]; [|pc_only EI Hq].
    destruct (perform_threads s i e j (in_unit d) x) as (A & q & B & _ & _ & _ & _ & C1 & C2 & C3 & C4 & C5).
    eapply (entries_pc _ _ _ _ q EI Hq); auto; intros; rewrite ?C1, ?C2, ?C3, ?C4, ?C5; cbn [held busy]; lia.
  - pc_only EI Hq.
  - inv_table G; [|pc_only EI Hq]. destruct (is_locked t); [exact EI|]. destruct (full t); pc_only EI Hq.
  - inv_table G; [|pc_only EI Hq]. destruct (is_locked t); [pc_only EI Hq|]. table_only EI Hq G.
  - inv_table G; [destruct (full t)|]; pc_only EI Hq.
  - inv_table G; [|pc_only EI Hq]. destruct (threads_in_flight t =? 0); [|exact EI]. table_only EI Hq G.
  - inv_table G; [|pc_only EI Hq]. unfold get_table in G. pose proof (ti_tables _ I _ _ G) as [T1 T2 T3 T4 T5 T6].
    destruct (grow_spec hash (nodes t) T1 T2) as (L1 & L2 & L3 & L4).
    table_only EI Hq G. unfold table_count. cbn [nodes]. rewrite L2; reflexivity.
  - inv_table G; [|pc_only EI Hq]. table_only EI Hq G.
  - inv_table G; [|pc_only EI Hq]. destruct (copying t); [pc_only EI Hq|]. table_only EI Hq G.
  - inv_table G; [|pc_only EI Hq]. destruct (i0 <? capacity t); [|pc_only EI Hq]. destruct (node_at t index); [|pc_only EI Hq].
    destruct (key_eqb _ _); [destruct o|]; pc_only EI Hq.
  - inv_table G; [|pc_only EI Hq]. destruct (node_at t index) as [m|]; [destruct (sleepers m)|]; pc_only EI Hq.
  - (* Push *) inv_table G; [|pc_only EI Hq].
    pose proof (ti_threads _ I _ _ _ _ Hq eq_refl G) as (NE & n & N & K & V).
    pose proof G as G'. unfold get_table in G'. pose proof (ti_tables _ I _ _ G') as [T1 T2 T3 T4 T5 T6].
    rewrite (proj2 (node_at_some _ _ _) N). destruct (same_head (sleepers n) (Some expected)) eqn:SH; [|pc_only EI Hq].
    assert (E : sleepers n = Some expected).
    { eapply heads; eauto; [apply (T3 n); eapply nth_error_In; exact N | congruence]. }
    table_only EI Hq G'. unfold table_count. cbn [set_nodes nodes].
    pose proof (total_upd _ (cell_count e0) _ _ (Some (mknode (n_key n) (Some (e :: expected)))) _ N) as U. cbn [cell_count sleepers] in U.
    rewrite E in U. cbn [count_occ] in *. destruct (Nat.eq_dec e e0); lia.
  - (* Requeue *) pc_only EI Hq. cbn [count_occ]. lia.
  - (* Insert *) inv_table G; [|pc_only EI Hq]. destruct (node_at t index) as [m|] eqn:N; [pc_only EI Hq|].
    pose proof (ti_threads _ I _ _ _ _ Hq eq_refl G) as ((d & D & R) & Lt).
    pose proof G as G'. unfold get_table in G'. pose proof (ti_tables _ I _ _ G') as [T1 T2 T3 T4 T5 T6].
    assert (F : nth_error (nodes t) index = Some None).
    { unfold node_at in N. destruct (nth_error (nodes t) index) as [[m|]|] eqn:Q; try discriminate; [reflexivity|].
      apply nth_error_None in Q. destruct R as [-> _]. pose proof (slot_lt hash (nodes t) k d T1). lia. }
    table_only EI Hq G'. unfold table_count. cbn [set_nodes nodes].
    pose proof (total_upd _ (cell_count e) _ _ (Some (mknode k (match o with Sleep e => Some [e] | Wake _ => None end))) _ F) as U. cbn [cell_count sleepers] in U.
    destruct o as [x|c]; cbn [own operation_entry count_occ] in *; lia.
  - (* Count *) inv_table G; [|destruct o; pc_only EI Hq]. destruct o; table_only EI Hq G.
  - (* Swap *) inv_table G; [|pc_only EI Hq].
    pose proof (ti_threads _ I _ _ _ _ Hq eq_refl G) as (OP & NE & n & N & K & V).
    pose proof G as G'. unfold get_table in G'. pose proof (ti_tables _ I _ _ G') as [T1 T2 T3 T4 T5 T6].
    rewrite (proj2 (node_at_some _ _ _) N). destruct (same_head (sleepers n) expected) eqn:SH; [|pc_only EI Hq].
    assert (E : sleepers n = expected).
    { eapply heads; eauto; apply (T3 n); eapply nth_error_In; exact N. }
    table_only EI Hq G'. unfold table_count. cbn [set_nodes nodes].
    pose proof (total_upd _ (cell_count e) _ _ (Some (mknode (n_key n) None)) _ N) as U. cbn [cell_count sleepers] in U.
    rewrite E in U. destruct expected as [l|]; cbn [count_occ]; destruct (Nat.eq_dec (entry_of c) e); lia.
  - (* Leave *) inv_table G; [|destruct o; pc_only EI Hq].
    assert (Q : forall q', q' = (match o with Sleep _ => Finish None | Wake c => match result with [] => resume c | _ => Append c result end end) ->
              held q' = held (Leave o k result) /\ busy q' = 1).
    { intros q' ->. destruct o as [e|c]; [auto|]. destruct (resume_facts c) as (_ & _ & _ & A & B). destruct result; auto. }
    destruct (Q _ eq_refl) as [Q1 Q2].
    eapply (entries_table _ _ _ _ _ _ _ _ EI Hq G); try reflexivity; [|exact Q2].
    intros e. rewrite Q1. reflexivity.
  - (* Append *) destruct (resume_facts c) as (_ & _ & _ & A & B). eapply (entries_pc _ _ _ _ _ EI Hq); try reflexivity; cbn [set_pc set_queue queue finished in_flight];
    intros; rewrite ?A, ?B, ?count_occ_app, ?app_length; cbn [held busy]; [|lia]. cbn [count_occ]. destruct (Nat.eq_dec (entry_of c) e); lia.
  - (* Finish *) destruct done as [e|]; pc_only EI Hq; cbn [count_occ]; try lia. destruct (Nat.eq_dec e e0); lia.
  - exact EI.
Qed.
End Stage.
