(** With enough room in the tables no thread faults. *)
From Coq Require Import List Bool Arith Lia Permutation. Import ListNotations.
From Verif Require Import SleepSpec SleepModel SleepProofs SleepSteps SleepLogic SleepEnd.

Lemma nodup_map_on : forall A B (f : A -> B) l, (forall a b, In a l -> In b l -> f a = f b -> a = b) -> NoDup l -> NoDup (map f l).
Proof.
  induction l as [|x l IH]; intros I N; cbn [map]; [constructor|]. inversion N; subst. constructor.
  - intros H. apply in_map_iff in H. destruct H as (y & E & Y). apply H1. rewrite (I x y); auto; [left; reflexivity | right; exact Y].
  - apply IH; [|assumption]. intros a b A1 B1. apply I; right; assumption.
Qed.

Lemma slot_inj : forall hash l k a b, a < length l -> b < length l -> slot hash l k a = slot hash l k b -> a = b.
Proof.
  intros hash l k a b A B H. unfold slot in H. set (h := hash (k_atom k) (k_purpose k)) in *. set (L := length l) in *.
  pose proof (Nat.div_mod (h + a) L ltac:(lia)) as D1. pose proof (Nat.div_mod (h + b) L ltac:(lia)) as D2. rewrite H in D1.
  set (x := (h + a) / L) in *. set (y := (h + b) / L) in *. set (r := (h + b) mod L) in *.
  destruct (lt_eq_lt_dec x y) as [[X | X] | X]; [exfalso | subst x; rewrite X in D1; lia | exfalso].
  - assert (L * y >= L * x + L) by nia. lia.
  - assert (L * x >= L * y + L) by nia. lia.
Qed.

Definition counting (m : nat) (q : pc) : nat := match q with Count _ k => on m k | _ => 0 end.

Definition op_key (q : pc) : option key :=
  match q with
  | Grow_check _ k | Grow_lock _ k | Grow_recheck _ k | Grow_wait _ k | Grow_copy _ k | Grow_unlock _ k | Enter _ k
  | Probe _ k _ _ | Load _ k _ | Push _ k _ _ | Requeue _ k | Insert _ k _ _ | Count _ k | Swap _ k _ _ _ | Leave _ k _ => Some k
  | _ => None
  end.

Section Room.
Variable ist : nat -> atom -> bool.
Variable hash : atom -> purpose -> nat.
Variable p : program.
Variable order : list nat.
Hypothesis H_order : NoDup order.
Hypothesis H_in : forall e, In e order -> e < length p.
Variable units cap : nat.

(** The facts an action is about. *)
Definition mentions (u : nat) (x : action) : list fact :=
  needs ist u x ++ gives ist u x ++ match x with Need_in_list a _ => [Size_known (visible ist u a)] | _ => [] end.
Definition facts_of (d : declaration) : list fact := flat_map (mentions (in_unit d)) (actions d).
Definition all_facts : list fact := flat_map facts_of p.
Notation K := (length all_facts).
Notation N := (length order).

Hypothesis H_units : forall d, In d p -> in_unit d < units.
Hypothesis H_room : 2 * K + N + 4 <= cap.
Hypothesis H_flags : forall d x, In d p -> In x (actions d) ->
  match x with Declare a b | Declare_array a b => b = ist (in_unit d) a | _ => True end.
Hypothesis H_lists : forall d j a, In d p -> nth_error (actions d) j = Some (Initialize_list a) ->
  exists j' b, j' < j /\ (nth_error (actions d) j' = Some (Declare a b) \/ nth_error (actions d) j' = Some (Declare_array a b)).
Hypothesis H_strings : forall d a, In d p -> ~ In (Initialize_string a) (actions d).

Definition usable (k : key) : Prop := exists f, In f all_facts /\ k = keyf f.

Definition keys (l : list (option node)) : list key := flat_map (fun c => match c with Some n => [n_key n] | None => [] end) l.

Lemma keys_length : forall l, length (keys l) = total taken l.
Proof. unfold keys. induction l as [|[n|] l IH]; cbn [flat_map app total taken length]; lia. Qed.

Lemma keys_in : forall l k, In k (keys l) <-> exists n, In (Some n) l /\ n_key n = k.
Proof.
  intros l k. unfold keys. rewrite in_flat_map. split.
  - intros ([n|] & I & H); [|destruct H]. destruct H as [<- | []]. exists n. auto.
  - intros (n & I & E). exists (Some n). split; [exact I | left; exact E].
Qed.

Lemma keys_nodup : forall l, (forall i j m n, nth_error l i = Some (Some m) -> nth_error l j = Some (Some n) -> n_key m = n_key n -> i = j) -> NoDup (keys l).
Proof.
  induction l as [|c l IH]; intros U; [constructor|].
  assert (R : NoDup (keys l)). { apply IH. intros i j m n Hi Hj E. assert (S i = S j) by (eapply U; eauto). lia. }
  destruct c as [n|]; [|exact R]. change (keys (Some n :: l)) with (n_key n :: keys l). constructor; [|exact R].
  intros H. apply keys_in in H. destruct H as (m & I & E). apply In_nth_error in I. destruct I as (j & J).
  assert (0 = S j); [|lia]. eapply (U 0 (S j) n m); eauto.
Qed.

Lemma keys_bound : forall l, (forall k, In k l -> usable k) -> NoDup l -> length l <= K.
Proof.
  intros l U ND. rewrite <- (map_length keyf). apply NoDup_incl_length; [exact ND|]. intros k I. destruct (U k I) as (f & F & ->). apply in_map. exact F.
Qed.

Lemma taken_bound : forall l, hashed hash l -> (forall n, In (Some n) l -> usable (n_key n)) -> total taken l <= K.
Proof.
  intros l H U. rewrite <- keys_length. apply keys_bound.
  - intros k I. apply keys_in in I. destruct I as (n & I & <-). auto.
  - apply keys_nodup. intros. eapply hashed_unique; eauto.
Qed.

Lemma before_bound : forall l k d, hashed hash l -> (forall n, In (Some n) l -> usable (n_key n)) -> before hash l k d -> d <= length l -> d <= K.
Proof.
  intros l k d H U B D.
  set (f := fun d' => match nth_error l (slot hash l k d') with Some (Some n) => n_key n | _ => k end).
  assert (F : forall a, a < d -> exists n, nth_error l (slot hash l k a) = Some (Some n) /\ f a = n_key n).
  { intros a A. destruct (B a A) as (n & X & _). exists n. unfold f. rewrite X. auto. }
  rewrite <- (seq_length d 0), <- (map_length f). apply keys_bound.
  - intros k' I. apply in_map_iff in I. destruct I as (a & <- & I). apply in_seq in I. destruct (F a ltac:(lia)) as (n & X & ->). apply U. eapply nth_error_In. exact X.
  - apply nodup_map_on; [|apply seq_NoDup]. intros a b A1 B1 E. apply in_seq in A1. apply in_seq in B1.
    destruct (F a ltac:(lia)) as (n & X & E1). destruct (F b ltac:(lia)) as (m & Y & E2).
    eapply (slot_inj hash l k); try lia. eapply hashed_unique; eauto. congruence.
Qed.

(** How often a thread may have failed at a node. *)
Definition w (s : option (list nat)) : nat := match s with None => N + 2 | Some l => 1 + length l end.
Definition weight (l : list (option node)) (k : key) (i : nat) : nat :=
  match nth_error l i with Some (Some n) => if key_eqb (n_key n) k then w (sleepers n) else 1 | _ => 0 end.

Definition probe_ok (l : list (option node)) (k : key) (i n : nat) (x : nat) : Prop := exists d, d <= K /\ reached hash l k d i /\ n <= 2 * d + x.

Definition room_at (t : table) (q : pc) : Prop :=
  match q with
  | Probe _ k n i => probe_ok (nodes t) k i n (weight (nodes t) k i)
  | Insert _ k n i => probe_ok (nodes t) k i n 0
  | Swap _ k n i old => probe_ok (nodes t) k i n (w old) /\ forall l, old = Some l -> length l <= N
  | _ => True
  end.

Definition growing (q : pc) : bool :=
  match q with Grow_lock _ _ | Grow_recheck _ _ | Grow_wait _ _ | Grow_copy _ _ | Grow_unlock _ _ | Fault _ => true | _ => false end.

Record room_ok (s : state) (q : pc) : Prop := {
  ro_key : forall k, op_key q = Some k -> usable k;
  ro_sleep : forall e k, sleeping q = Some (e, k) -> usable k;
  ro_growing : growing q = false;
  ro_at : forall k t, op_key q = Some k -> get_table s (k_space k) = Some t -> room_at t q }.

Record room_table (threads : list pc) (m : nat) (t : table) : Prop := {
  rt_length : length (nodes t) = cap;
  rt_locked : is_locked t = false;
  rt_copying : copying t = false;
  rt_amount : amount_of_nodes t + total (counting m) threads = total taken (nodes t);
  rt_keys : forall n, In (Some n) (nodes t) -> usable (n_key n) }.

Record room_inv (s : state) : Prop := {
  ri_tables : length (tables s) = 2 + units;
  ri_table : forall m t, nth_error (tables s) m = Some t -> room_table (threads s) m t;
  ri_threads : forall i q, nth_error (threads s) i = Some q -> room_ok s q }.

Lemma room_faultless : forall s, room_inv s -> faultless s.
Proof. intros s R l H. apply In_nth_error in H. destruct H as (i & H). pose proof (ro_growing _ _ (ri_threads _ R _ _ H)). discriminate. Qed.

Lemma usable_table : forall s k, room_inv s -> usable k -> exists t, get_table s (k_space k) = Some t.
Proof.
  intros s k R (f & F & ->). unfold all_facts in F. apply in_flat_map in F. destruct F as (d & D & F).
  unfold facts_of in F. apply in_flat_map in F. destruct F as (x & X & F). pose proof (H_units d D) as U.
  assert (NB : number (space_of (entity_of f)) < 2 + units).
  { assert (V : forall a, number (space_of (visible ist (in_unit d) a)) < 2 + units) by (intros a; unfold visible; destruct (ist (in_unit d) a); cbn; lia).
    assert (DM : forall dm, In f (demands ist (in_unit d) dm) -> number (space_of (entity_of f)) < 2 + units).
    { intros [a|a|a] I; cbn [demands In] in I; repeat (destruct I as [<- | I]; [cbn [entity_of]; first [apply V | cbn; lia]|]); destruct I. }
    unfold mentions in F. rewrite !in_app_iff in F. destruct F as [F | [F | F]]; destruct x; cbn [needs gives In] in F; try contradiction; try (eapply DM; exact F);
      repeat (destruct F as [<- | F]; [cbn [entity_of]; first [apply V | cbn; lia]|]); destruct F. }
  unfold get_table. destruct (nth_error (tables s) (number (k_space (keyf f)))) as [t|] eqn:E; [eauto|].
  apply nth_error_None in E. rewrite (ri_tables _ R) in E. destruct f; cbn [keyf k_space entity_of] in *; lia.
Qed.

Lemma list_bound : forall s m t n l, entries_inv order s -> nth_error (tables s) m = Some t -> In (Some n) (nodes t) -> sleepers n = Some l -> length l <= N.
Proof.
  intros s m t n l E M I Sl. apply In_nth_error in I. destruct I as (i & I).
  assert (C : forall e, cnt l e <= cnt order e).
  { intros e. pose proof (ei_count _ _ E e). pose proof (total_in _ (table_count e) _ _ _ M) as A.
    pose proof (total_in _ (cell_count e) _ _ _ I) as B. unfold table_count in A at 1. cbn [cell_count] in B. rewrite Sl in B. lia. }
  apply NoDup_incl_length.
  - apply (NoDup_count_occ Nat.eq_dec). intros e. pose proof (proj1 (NoDup_count_occ Nat.eq_dec order) H_order e). specialize (C e). lia.
  - intros e H. apply (count_occ_In Nat.eq_dec). apply (count_occ_In Nat.eq_dec) in H. specialize (C e). lia.
Qed.

Lemma w_evolved : forall a b, evolved a b -> (forall l, a = Some l -> length l <= N) -> w a <= w b.
Proof.
  intros a b [-> | (l & pre & -> & ->)] B; cbn [w].
  - destruct a as [l|]; cbn [w]; [specialize (B l eq_refl); lia | lia].
  - rewrite app_length. lia.
Qed.

Lemma weight_evolves : forall l l' k i, evolves l l' -> (forall n x, In (Some n) l -> sleepers n = Some x -> length x <= N) -> weight l k i <= weight l' k i.
Proof.
  intros l l' k i [_ E] B. unfold weight. destruct (nth_error l i) as [[n|]|] eqn:X; [|lia|lia].
  destruct (E _ _ X) as (n' & Y & Q & V). rewrite Y, Q. destruct (key_eqb (n_key n) k); [|lia]. apply w_evolved; [exact V|]. intros x. apply B. eapply nth_error_In. exact X.
Qed.

Lemma room_at_evolves : forall t t' q, evolves (nodes t) (nodes t') -> (forall n x, In (Some n) (nodes t) -> sleepers n = Some x -> length x <= N) ->
  room_at t q -> room_at t' q.
Proof.
  intros t t' q E B H. destruct q; cbn [room_at] in *; auto; [| |destruct H as [H HB]; split; [|exact HB]];
    destruct H as (d & D & R & L); exists d; (split; [exact D | split; [eapply reached_evolves; eauto | ]]); try exact L.
  pose proof (weight_evolves _ _ k index E B). lia.
Qed.

(** A step that leaves the tables alone. *)
Lemma room_pc : forall s s' i q q', room_inv s -> nth_error (threads s) i = Some q -> tables s' = tables s -> threads s' = upd i q' (threads s) ->
  (forall m, counting m q' = counting m q) -> (room_ok s q -> room_ok s q') -> room_inv s'.
Proof.
  intros s s' i q q' [A B C] Hq E1 E2 Co RO. constructor.
  - congruence.
  - intros m t M. rewrite E1 in M. destruct (B m t M) as [B1 B2 B3 B4 B5]. constructor; auto. rewrite E2.
    pose proof (total_upd _ (counting m) _ _ q' _ Hq). rewrite Co in H. lia.
  - intros j r H. rewrite E2 in H. assert (X : room_ok s r -> room_ok s' r).
    { intros [R1 R2 R3 R4]. constructor; auto. intros k t K1 G. unfold get_table in *. rewrite E1 in G. eauto. }
    destruct (upd_cases _ _ _ _ _ _ H) as [(_ & -> & _) | (_ & H')]; apply X; eauto.
Qed.

(** A step that changes a table. *)
Lemma room_set : forall s s' i q q' m t t', room_inv s -> entries_inv order s -> nth_error (threads s) i = Some q -> nth_error (tables s) m = Some t ->
  tables s' = upd m t' (tables s) -> threads s' = upd i q' (threads s) ->
  is_locked t' = false -> copying t' = false -> evolves (nodes t) (nodes t') -> (forall n, In (Some n) (nodes t') -> usable (n_key n)) ->
  amount_of_nodes t' + counting m q' + total taken (nodes t) = amount_of_nodes t + counting m q + total taken (nodes t') ->
  (forall m', m' <> m -> counting m' q' = counting m' q) ->
  (room_ok s q -> (forall k, op_key q' = Some k -> usable k) /\ (forall e k, sleeping q' = Some (e, k) -> usable k) /\ growing q' = false /\
     (forall k, op_key q' = Some k -> number (k_space k) = m /\ room_at t' q' \/ forall t, room_at t q')) ->
  room_inv s'.
Proof.
  intros s s' i q q' m t t' [A B C] EN Hq Hm E1 E2 F1 F2 F3 F4 F5 F6 F7. constructor.
  - rewrite E1, upd_length. exact A.
  - intros m' t2 M. rewrite E1 in M. rewrite E2. destruct (upd_cases _ _ _ _ _ _ M) as [(<- & -> & _) | (Ne & M')].
    + destruct (B m t Hm) as [B1 B2 B3 B4 B5]. constructor; auto; [destruct F3; congruence|]. pose proof (total_upd _ (counting m) _ _ q' _ Hq). lia.
    + destruct (B m' t2 M') as [B1 B2 B3 B4 B5]. constructor; auto. pose proof (total_upd _ (counting m') _ _ q' _ Hq) as U. rewrite F6 in U by congruence. lia.
  - intros j r H. rewrite E2 in H. destruct (upd_cases _ _ _ _ _ _ H) as [(_ & -> & _) | (Ne & H')].
    + destruct (F7 (C _ _ Hq)) as (G1 & G2 & G3 & G4). constructor; auto. intros k t2 K1 G. destruct (G4 k K1) as [[Y Z] | Z]; [|apply Z].
      unfold get_table in G. rewrite Y, E1, (upd_same _ _ _ _ _ Hm) in G. injection G as <-. exact Z.
    + destruct (C _ _ H') as [R1 R2 R3 R4]. constructor; auto. intros k t2 K1 G. unfold get_table in *. rewrite E1 in G.
      destruct (upd_cases _ _ _ _ _ _ G) as [(Y & -> & _) | (_ & G')]; [|eauto].
      eapply room_at_evolves; [exact F3 | | eapply R4; eauto; congruence]. intros n x I Sl. eapply list_bound; eauto.
Qed.

Lemma mentioned : forall d x f, In d p -> In x (actions d) -> In f (mentions (in_unit d) x) -> usable (keyf f).
Proof.
  intros d x f D X F. exists f. split; [|reflexivity]. unfold all_facts. apply in_flat_map. exists d. split; [exact D|].
  unfold facts_of. apply in_flat_map. exists x. auto.
Qed.

Lemma not_full : forall s m t, room_inv s -> tables_inv hash s -> nth_error (tables s) m = Some t -> full t = false.
Proof.
  intros s m t R T M. destruct (ri_table _ R _ _ M) as [B1 B2 B3 B4 B5].
  pose proof (taken_bound (nodes t) (to_hashed _ _ _ _ (ti_tables _ _ T _ _ M)) B5) as TB.
  unfold full, capacity. rewrite B1. apply Nat.ltb_ge. pose proof (Nat.div2_odd cap) as D. destruct (Nat.odd cap); cbn [Nat.b2n] in D; lia.
Qed.

Lemma room_check : forall s e o k, usable k -> (forall k', sleep_op o k = Some (e, k') -> usable k') -> (forall e' k', sleep_op o k = Some (e', k') -> e' = e) -> room_ok s (Grow_check o k).
Proof.
  intros s e o k U SL EQ. constructor; cbn [op_key sleeping growing room_at]; auto.
  - intros k' H. injection H as <-. exact U.
  - intros e' k' H. pose proof (EQ _ _ H). subst e'. eauto.
Qed.

Lemma room_parse : forall s e j, room_ok s (Parse e j).
Proof. intros. constructor; try discriminate. reflexivity. Qed.

Lemma room_perform : forall s i e j d x, room_inv s -> logic_inv ist p s -> nth_error (threads s) i = Some (Parse e j) -> In d p ->
  In x (actions d) -> room_inv (perform ist s i e j (in_unit d) x).
Proof.
  intros s i e j d x R L Hq D X.
  assert (GO : forall s', tables s' = tables s -> threads s' = upd i (Parse e (S j)) (threads s) -> room_inv s').
  { intros s' E1 E2. eapply (room_pc _ _ _ _ _ R Hq E1 E2); [reflexivity|]. intros _. apply room_parse. }
  assert (SL : forall k s', usable k -> tables s' = tables s -> threads s' = upd i (sleep e k) (threads s) -> room_inv s').
  { intros k s' U E1 E2. eapply (room_pc _ _ _ _ _ R Hq E1 E2); [reflexivity|]. intros _. apply (room_check _ e); auto.
    - intros k' H. injection H as <-. exact U.
    - intros e' k' H. injection H as <- _. reflexivity. }
  assert (WK : forall c k s', usable k -> entry_of c = e -> (forall e' k', sleep_cont c = Some (e', k') -> usable k') -> tables s' = tables s ->
              threads s' = upd i (Grow_check (Wake c) k) (threads s) -> room_inv s').
  { intros c k s' U EQ SC E1 E2. eapply (room_pc _ _ _ _ _ R Hq E1 E2); [reflexivity|]. intros _. apply (room_check _ e); auto.
    - intros k' H. eapply SC. exact H.
    - intros e' k' H. destruct c; try discriminate. injection H as <- _. exact EQ. }
  pose proof (fun f => mentioned d x f D X) as ME. unfold mentions in ME.
  destruct x as [dm|a flag|a flag|a|a dm|a|a]; cbn [perform needs gives app] in *.
  - destruct (missing ist s (in_unit d) dm) as [k|] eqn:Mi; [|apply GO; reflexivity].
    destruct (missing_some ist _ _ _ _ Mi) as (f & -> & F1 & _). eapply SL; try reflexivity. apply ME. rewrite !in_app_iff. auto.
  - destruct (lookup s _ a); [apply GO; reflexivity|]. eapply (WK (Go_on e (S j))); try reflexivity; [|discriminate].
    rewrite <- (key_visible ist). apply ME. left. reflexivity.
  - destruct (lookup s _ a) as [old|] eqn:Lk.
    + destruct (size_known s _ a); [apply GO; reflexivity|]. eapply (WK (Go_on e (S j))); try reflexivity; [|discriminate].
      rewrite (wake_same ist p s _ _ _ L Lk). apply ME. right. left. reflexivity.
    + eapply (WK (Go_on e (S j))); try reflexivity; [|discriminate]. rewrite <- (key_visible ist). apply ME. left. reflexivity.
  - destruct (lookup s _ a); [apply GO; reflexivity|]. eapply (WK (Go_on e (S j))); try reflexivity; [|discriminate].
    apply (ME (Known (Tag a))). left. reflexivity.
  - destruct (missing ist s (in_unit d) dm) as [k|] eqn:Mi; [|apply GO; reflexivity].
    destruct (missing_some ist _ _ _ _ Mi) as (f & -> & F1 & _).
    assert (U : usable (keyf f)) by (apply ME; rewrite !in_app_iff; auto).
    destruct (lookup s _ a) as [old|] eqn:Lk; [|eapply SL; try reflexivity; exact U].
    destruct (size_known s _ a); [eapply SL; try reflexivity; exact U|].
    eapply (WK (Then_sleep e (keyf f))); try reflexivity.
    + rewrite (wake_same ist p s _ _ _ L Lk). apply ME. rewrite !in_app_iff. right. left. reflexivity.
    + intros e' k' H. injection H as _ <-. exact U.
  - destruct (lookup s _ a) as [old|] eqn:Lk; [|apply GO; reflexivity].
    destruct (size_known s _ a); [apply GO; reflexivity|].
    eapply (WK (Then_set e j _)); try reflexivity; [|discriminate].
    rewrite (wake_same ist p s _ _ _ L Lk). apply ME. left. reflexivity.
  - exfalso. exact (H_strings d a D X).
Qed.

(** The same key, the same entry. *)
Lemma room_same : forall s q q', op_key q' = op_key q -> sleeping q' = sleeping q -> growing q' = false ->
  (forall k t, op_key q = Some k -> get_table s (k_space k) = Some t -> room_at t q') -> room_ok s q -> room_ok s q'.
Proof. intros s q q' E1 E2 E3 E4 [A B C D]. constructor; rewrite ?E1, ?E2; auto. Qed.

Lemma room_resume : forall s c, (forall e k, sleep_cont c = Some (e, k) -> usable k) -> room_ok s (resume c).
Proof.
  intros s c H. destruct c as [e j|e k|e j k]; cbn [resume].
  - apply room_parse.
  - apply (room_check _ e); [eapply H; reflexivity | |].
    + intros k' X. injection X as <-. eapply H. reflexivity.
    + intros e' k' X. injection X as <- _. reflexivity.
  - constructor; try discriminate. reflexivity.
Qed.

Ltac room_step R Hq := eapply (room_pc _ _ _ _ _ R Hq); try reflexivity; apply room_same; try reflexivity; cbn [op_key]; intros k0 t0 K0 G0; injection K0 as <-;
  match goal with G : get_table _ _ = Some ?t |- _ => assert (t0 = t) by congruence; subst t0 end.

Lemma step_room : forall s i, room_inv s -> tables_inv hash s -> entries_inv order s -> logic_inv ist p s -> room_inv (step ist hash p s i).
Proof.
  intros s i R T EI L. unfold step. destruct (nth_error (threads s) i) as [q|] eqn:Hq; [|exact R].
  pose proof (ri_threads _ R _ _ Hq) as RO.
  assert (KU : forall k, op_key q = Some k -> exists t, get_table s (k_space k) = Some t) by (intros k H; apply (usable_table _ _ R); eapply (ro_key _ _ RO); exact H).
  destruct q; pose proof (ro_growing _ _ RO) as GR; try discriminate; cbn [op_key] in KU; unfold in_table;
    try (destruct (KU _ eq_refl) as (t & G); rewrite G).
  - (* Idle *) destruct (queue s); [exact R|]. eapply (room_pc _ _ _ _ _ R Hq); try reflexivity. intros _. apply room_parse.
  - (* Parse *)
    assert (EP : e < length p).
    { apply H_in. apply (count_occ_In Nat.eq_dec). pose proof (ei_count _ _ EI e) as C. pose proof (total_in _ (fun q => cnt (held q) e) _ _ _ Hq) as B.
      cbn [held] in B. rewrite count_occ_cons_eq in B by reflexivity. lia. }
    destruct (nth_error p e) as [d|] eqn:P; [|apply nth_error_None in P; lia].
    destruct (nth_error (actions d) j) as [x|] eqn:A.
    + apply room_perform; auto; eapply nth_error_In; eauto.
    + eapply (room_pc _ _ _ _ _ R Hq); try reflexivity. intros _. constructor; try discriminate. reflexivity.
  - (* Set_size *) eapply (room_pc _ _ _ _ _ R Hq); try reflexivity. intros _. apply room_parse.
  - (* Grow_check *) unfold get_table in G. rewrite (rt_locked _ _ _ (ri_table _ R _ _ G)), (not_full _ _ _ R T G). room_step R Hq; try exact Logic.I.
  - (* Enter *) pose proof G as G'. unfold get_table in G'. destruct (ri_table _ R _ _ G') as [B1 B2 B3 B4 B5]. rewrite B3.
    eapply (room_set _ _ _ _ _ _ _ _ R EI Hq G'); try reflexivity; auto using evolves_refl.
    intros [R1 R2 R3 R4]. split; [exact R1|]. split; [exact R2|]. split; [reflexivity|]. intros k0 K0; injection K0 as <-. left. split; [reflexivity|].
    cbn [room_at set_growth nodes]. exists 0. split; [lia|]. split; [|lia]. split; [unfold start, slot, capacity; rewrite Nat.add_0_r; reflexivity | intros d' D'; lia].
  - (* Probe *) pose proof G as G'. unfold get_table in G'. destruct (ri_table _ R _ _ G') as [B1 B2 B3 B4 B5].
    pose proof (to_hashed _ _ _ _ (ti_tables _ _ T _ _ G')) as HS.
    pose proof (ro_at _ _ RO _ _ eq_refl G) as (d & D & RE & LE).
    assert (WB : weight (nodes t) k index <= N + 2).
    { unfold weight. destruct (nth_error (nodes t) index) as [[n|]|] eqn:X; [|lia|lia]. destruct (key_eqb (n_key n) k); [|lia]. destruct (sleepers n) as [l|] eqn:Sl; cbn [w]; [|lia].
      pose proof (list_bound s _ t n l EI G' (nth_error_In _ _ X) Sl). lia. }
    unfold capacity. rewrite B1. destruct (Nat.ltb_spec i0 cap) as [Lt | Ge]; [|lia].
    destruct (node_at t index) as [n|] eqn:X.
    + apply node_at_some in X. assert (WX : weight (nodes t) k index = if key_eqb (n_key n) k then w (sleepers n) else 1) by (unfold weight; rewrite X; reflexivity).
      destruct (key_eqb (n_key n) k) eqn:KE.
      * destruct o; room_step R Hq; try exact Logic.I. cbn [room_at]. split; [exists d; rewrite <- WX; auto|].
        intros l Sl. exact (list_bound s _ t n l EI G' (nth_error_In _ _ X) Sl).
      * apply key_eqb_neq in KE.
        assert (RE' : reached hash (nodes t) k (S d) (next_index t index)).
        { destruct RE as [-> BE]. split; [unfold next_index, capacity; apply slot_S; lia|].
          intros d' D'. destruct (Nat.eq_dec d' d) as [-> | Nd]; [eauto | apply BE; lia]. }
        assert (D2 : S d <= K) by (eapply (before_bound (nodes t) k); [exact HS | exact B5 | apply RE' | lia]).
        room_step R Hq. cbn [room_at]. exists (S d). split; [exact D2|]. split; [exact RE' | lia].
    + assert (WX : weight (nodes t) k index = 0).
      { unfold weight, node_at in *. destruct (nth_error (nodes t) index) as [[n|]|]; [discriminate | reflexivity | reflexivity]. }
      room_step R Hq. cbn [room_at]. exists d. rewrite WX in LE. auto.
  - (* Load *) pose proof (ti_threads _ _ T _ _ _ _ Hq eq_refl G) as (n & X & KX). rewrite (proj2 (node_at_some _ _ _) X).
    destruct (sleepers n); room_step R Hq; try exact Logic.I.
  - (* Push *) pose proof (ti_threads _ _ T _ _ _ _ Hq eq_refl G) as (NE & n & X & KX & V). rewrite (proj2 (node_at_some _ _ _) X).
    destruct (same_head (sleepers n) (Some expected)) eqn:SH; [|room_step R Hq; try exact Logic.I].
    pose proof G as G'. unfold get_table in G'. destruct (ri_table _ R _ _ G') as [B1 B2 B3 B4 B5]. pose proof (ti_tables _ _ T _ _ G') as [T1 T2 T3 T4 T5 T6].
    assert (E : sleepers n = Some expected).
    { eapply heads; eauto; [apply (T3 n); eapply nth_error_In; exact X | congruence]. }
    eapply (room_set _ _ _ _ _ _ _ _ R EI Hq G'); try reflexivity; auto; cbn [set_nodes nodes amount_of_nodes counting].
    + apply change_evolves; [exact X|]. rewrite E. right. exists expected, [e]. auto.
    + intros m M. apply In_nth_error in M. destruct M as (x & M). destruct (upd_cases _ _ _ _ _ _ M) as [(_ & Q & _) | (_ & Q)].
      * injection Q as ->. cbn [n_key]. apply B5. eapply nth_error_In. exact X.
      * apply B5. eapply nth_error_In. exact Q.
    + pose proof (total_upd _ taken _ _ (Some (mknode (n_key n) (Some (e :: expected)))) _ X) as U. cbn [taken] in U. lia.
    + intros [R1 R2 R3 R4]. split; [exact R1|]. split; [discriminate|]. split; [reflexivity|]. intros k0 K0; injection K0 as <-. right. intros t0. exact Logic.I.
  - (* Requeue *) eapply (room_pc _ _ _ _ _ R Hq); try reflexivity. intros [R1 R2 R3 R4]. constructor; cbn [op_key sleeping growing room_at] in *; try discriminate; auto.
  - (* Insert *)
    pose proof (ro_at _ _ RO _ _ eq_refl G) as (d & D & RE & LE).
    pose proof G as G'. unfold get_table in G'. destruct (ri_table _ R _ _ G') as [B1 B2 B3 B4 B5]. pose proof (ti_tables _ _ T _ _ G') as [T1 T2 T3 T4 T5 T6].
    destruct (node_at t index) as [m|] eqn:X.
    + apply node_at_some in X. room_step R Hq. cbn [room_at]. exists d. split; [exact D|]. split; [exact RE|].
      assert (1 <= weight (nodes t) k index); [|lia]. unfold weight. rewrite X. destruct (key_eqb (n_key m) k); [|lia]. destruct (sleepers m); cbn [w]; lia.
    + assert (F : nth_error (nodes t) index = Some None).
      { unfold node_at in X. destruct (nth_error (nodes t) index) as [[m|]|] eqn:Q; try discriminate; [reflexivity|].
        apply nth_error_None in Q. destruct RE as [-> _]. pose proof (slot_lt hash (nodes t) k d T1). lia. }
      eapply (room_set _ _ _ _ _ _ _ _ R EI Hq G'); try reflexivity; auto; cbn [set_nodes nodes amount_of_nodes counting].
      * apply insert_evolves. exact F.
      * intros m M. apply In_nth_error in M. destruct M as (x & M). destruct (upd_cases _ _ _ _ _ _ M) as [(_ & Q & _) | (_ & Q)].
        -- injection Q as ->. cbn [n_key]. eapply (ro_key _ _ RO). reflexivity.
        -- apply B5. eapply nth_error_In. exact Q.
      * pose proof (total_upd _ taken _ _ (Some (mknode k (match o with Sleep e => Some [e] | Wake _ => None end))) _ F) as U. cbn [taken] in U.
        unfold on. rewrite Nat.eqb_refl. lia.
      * intros m' Ne. unfold on. rewrite (proj2 (Nat.eqb_neq _ m')) by congruence. reflexivity.
      * intros [R1 R2 R3 R4]. split; [exact R1|]. split; [intros e0 k0 H; destruct o; [discriminate | eapply R2; exact H]|]. split; [reflexivity|]. intros k0 K0; injection K0 as <-. right. intros t0. exact Logic.I.
  - (* Count *) pose proof G as G'. unfold get_table in G'. destruct (ri_table _ R _ _ G') as [B1 B2 B3 B4 B5].
    eapply (room_set _ _ _ _ _ _ _ _ R EI Hq G'); try reflexivity; auto using evolves_refl; cbn [set_growth nodes amount_of_nodes counting].
    + unfold on. rewrite Nat.eqb_refl. lia.
    + intros m' Ne. unfold on. rewrite (proj2 (Nat.eqb_neq _ m')) by congruence. reflexivity.
    + intros [R1 R2 R3 R4]. split; [exact R1|]. split; [exact R2|]. split; [reflexivity|]. intros k0 K0; injection K0 as <-. right. intros t0. exact Logic.I.
  - (* Swap *)
    pose proof (ro_at _ _ RO _ _ eq_refl G) as ((d & D & RE & LE) & LB).
    pose proof (ti_threads _ _ T _ _ _ _ Hq eq_refl G) as (OP & NE & n & X & KX & V). rewrite (proj2 (node_at_some _ _ _) X).
    pose proof G as G'. unfold get_table in G'. destruct (ri_table _ R _ _ G') as [B1 B2 B3 B4 B5]. pose proof (ti_tables _ _ T _ _ G') as [T1 T2 T3 T4 T5 T6].
    destruct (same_head (sleepers n) expected) eqn:SH.
    + eapply (room_set _ _ _ _ _ _ _ _ R EI Hq G'); try reflexivity; auto; cbn [set_nodes nodes amount_of_nodes counting].
      * apply change_evolves; [exact X|]. left. reflexivity.
      * intros m M. apply In_nth_error in M. destruct M as (x & M). destruct (upd_cases _ _ _ _ _ _ M) as [(_ & Q & _) | (_ & Q)].
        -- injection Q as ->. cbn [n_key]. apply B5. eapply nth_error_In. exact X.
        -- apply B5. eapply nth_error_In. exact Q.
      * pose proof (total_upd _ taken _ _ (Some (mknode (n_key n) None)) _ X) as U. cbn [taken] in U. lia.
      * intros [R1 R2 R3 R4]. split; [exact R1|]. split; [exact R2|]. split; [reflexivity|]. intros k0 K0; injection K0 as <-. right. intros t0. exact Logic.I.
    + room_step R Hq. cbn [room_at]. exists d. split; [exact D|]. split; [exact RE|].
      unfold weight. rewrite X, (proj2 (key_eqb_spec _ _) KX).
      destruct V as [V | (l & pre & -> & V)]; rewrite V in *.
      * destruct expected as [l|]; [|discriminate]. cbn [w] in *. specialize (LB l eq_refl). lia.
      * cbn [w] in *. rewrite app_length. destruct pre as [|y pre]; [|cbn [length]; lia].
        cbn [app] in SH. destruct l as [|y l]; [congruence|]. cbn in SH. rewrite Nat.eqb_refl in SH. discriminate.
  - (* Leave *) pose proof G as G'. unfold get_table in G'. destruct (ri_table _ R _ _ G') as [B1 B2 B3 B4 B5].
    set (q' := match o with Sleep _ => Finish None | Wake c => match result with [] => resume c | _ => Append c result end end).
    assert (Q : room_ok s (Leave o k result) -> forall s', room_ok s' q').
    { intros [R1 R2 R3 R4] s'. unfold q'. destruct o as [e|c]; [constructor; try discriminate; reflexivity|].
      destruct result; [apply room_resume; exact R2|]. constructor; try discriminate; [exact R2 | reflexivity]. }
    assert (AT : forall t0, room_at t0 q') by (intros t0; unfold q'; destruct o as [e|[e j|e k'|e j k']]; [|destruct result ..]; exact Logic.I).
    assert (CO : forall m, counting m q' = 0) by (intros m; unfold q'; destruct o as [e|[e j|e k'|e j k']]; [|destruct result ..]; reflexivity).
    eapply (room_set _ _ _ _ _ _ _ _ R EI Hq G'); try reflexivity; auto using evolves_refl; cbn [set_growth nodes amount_of_nodes counting].
    + intros X. destruct (Q X s) as [R1 R2 R3 R4]. auto.
  - (* Append *) eapply (room_pc _ _ _ _ _ R Hq); try reflexivity; [destruct c; reflexivity|]. intros [R1 R2 R3 R4]. apply room_resume. exact R2.
  - (* Finish *) eapply (room_pc _ _ _ _ _ R Hq); try reflexivity. intros _. constructor; try discriminate. reflexivity.
Qed.

Lemma initial_room : forall n, room_inv (initial order units cap n).
Proof.
  intros n. constructor; cbn [initial tables threads].
  - rewrite repeat_length. reflexivity.
  - intros m t M. apply nth_error_In in M. apply repeat_spec in M. subst t. constructor; cbn [empty_table nodes is_locked copying amount_of_nodes]; auto.
    + apply repeat_length.
    + rewrite !total_zero; [reflexivity | |]; intros x X; apply repeat_spec in X; subst x; reflexivity.
    + intros x X. apply repeat_spec in X. discriminate.
  - intros i q Q. apply nth_error_In in Q. apply repeat_spec in Q. subst q. constructor; try discriminate. reflexivity.
Qed.

Lemma step_all : forall s i, room_inv s -> tables_inv hash s -> entries_inv order s -> logic_inv ist p s ->
  room_inv (step ist hash p s i) /\ tables_inv hash (step ist hash p s i) /\ entries_inv order (step ist hash p s i) /\ logic_inv ist p (step ist hash p s i).
Proof.
  intros s i R T E L. pose proof (step_room s i R T E L) as R'. split; [exact R'|]. split; [eapply step_tables; eauto|]. split; [apply step_entries; auto|].
  eapply step_logic; eauto. apply room_faultless. exact R'.
Qed.

Lemma run_all : forall schedule s, room_inv s -> tables_inv hash s -> entries_inv order s -> logic_inv ist p s ->
  let s' := run ist hash p schedule s in room_inv s' /\ tables_inv hash s' /\ entries_inv order s' /\ logic_inv ist p s'.
Proof.
  induction schedule as [|i r IH]; intros s R T E L; [cbn; auto|]. cbn [run]. destruct (step_all s i R T E L) as (R' & T' & E' & L'). apply IH; assumption.
Qed.
End Room.

(** An action is about at most three facts. *)
Lemma facts_bound : forall ist p, length (all_facts ist p) <= 3 * length (flat_map actions p).
Proof.
  intros ist. unfold all_facts. induction p as [|d p IH]; [cbn; lia|]. cbn [flat_map]. rewrite !app_length.
  enough (length (facts_of ist d) <= 3 * length (actions d)) by lia. unfold facts_of. induction (actions d) as [|x l IH']; [cbn; lia|].
  cbn [flat_map length]. rewrite app_length. enough (length (mentions ist (in_unit d) x) <= 3) by lia.
  unfold mentions. destruct x as [dm|a b|a b|a|a dm|a|a]; cbn [needs gives app length]; try lia; destruct dm; cbn; lia.
Qed.
