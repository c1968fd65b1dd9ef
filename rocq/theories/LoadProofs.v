(** Proofs for C36. *)
From Verif Require Import Base ScopeSpec ScopeProofs LayoutProofs LoadModel LoadSpec.

Section P.
Variables (capacity : Z) (hash : nat -> Z) (entry_path : nat -> nat) (U : list nat).
Hypothesis CP : pow2 capacity.
Hypothesis UC : Z.of_nat (length U) <= capacity.
Notation idx := (index capacity hash).
Notation stepm := (step capacity hash entry_path).

Definition owner (p : pc) : option nat := match p with Probe _ f _ _ | Swap _ f _ _ | Reread _ f _ _ | Compare _ f _ _ _ | LoadFile _ f _ | Finish _ f _ => Some f | _ => None end.
Definition cont (p : pc) : option nat := match p with Begin _ k | Probe _ _ _ k | Swap _ _ _ k | Reread _ _ _ k | Compare _ _ _ _ k | Wait _ _ k | LoadFile _ _ k | Finish _ _ k | Opened _ _ k => k | _ => None end.
Definition goal (p : pc) : option nat :=
  match p with Begin p _ | Probe p _ _ _ | Swap p _ _ _ | Reread p _ _ _ | Compare p _ _ _ _ | Wait p _ _ | LoadFile p _ _ | Finish p _ _ | Opened p _ _ => Some p
  | EntryRead e | EntrySwap e | EntryWait e | EntryGet e => Some (entry_path e) | _ => None end.
Definition working (p : pc) (f : nat) : Prop := match p with LoadFile _ g _ | Finish _ g _ => g = f | _ => False end.

Definition pub (s : state) (f : nat) : Prop := exists j, slot s j = Some f.
Definition seen (s : state) (p : nat) (i : Z) : Prop := forall i', 0 <= i' < i -> exists o, slot s (idx p i') = Some o /\ path s o <> p.
Definition mine (s : state) (p f : nat) (i : Z) : Prop := path s f = p /\ tokens s f = false /\ ~ pub s f /\ 0 <= i <= capacity /\ seen s p i.

Definition fact (s : state) (p : pc) : Prop :=
  match p with
  | Idle | Begin _ _ | EntryRead _ | EntrySwap _ => True
  | Probe p f i _ => mine s p f i
  | Swap p f i _ => mine s p f i /\ i < capacity
  | Reread p f i _ => mine s p f i /\ i < capacity /\ slot s (idx p i) <> None
  | Compare p f i o _ => mine s p f i /\ i < capacity /\ slot s (idx p i) = Some o
  | Wait p o _ => pub s o /\ path s o = p
  | LoadFile p f _ => pub s f /\ path s f = p /\ tokens s f = false
  | Finish p f _ => pub s f /\ path s f = p /\ tokens s f = true
  | Opened p f _ => pub s f /\ path s f = p /\ in_progress s f = false
  | EntryWait e => entry s e <> Unloaded
  | EntryGet e => exists f, entry s e = Loaded f
  | Fault => False
  end.

(** Every answer comes after the file it names was tokenised. *)
Definition answered (es : list event) : Prop :=
  forall a t r f b, es = a ++ Return t r f :: b -> exists g u, f = Some g /\ In (Tokenise u g (wanted entry_path r)) a.

Record inv (s : state) : Prop := mkinv {
  i_slot : forall j f, slot s j = Some f -> (f < fresh s)%nat /\ In (path s f) U /\ exists i, 0 <= i < capacity /\ idx (path s f) i = j /\ forall i', 0 <= i' < i -> slot s (idx (path s f) i') <> None;
  i_inj : forall j j' f g, slot s j = Some f -> slot s j' = Some g -> path s f = path s g -> j = j';
  i_own : forall t f, owner (threads s t) = Some f -> (f < fresh s)%nat /\ in_progress s f = true /\ forall u, owner (threads s u) = Some f -> u = t;
  i_cont : forall t e, cont (threads s t) = Some e -> entry s e = Loading /\ goal (threads s t) = Some (entry_path e) /\ forall u, cont (threads s u) = Some e -> u = t;
  i_fact : forall t, fact s (threads s t);
  i_goal : forall t p, goal (threads s t) = Some p -> In p U;
  i_entry : forall e f, entry s e = Loaded f -> pub s f /\ path s f = entry_path e /\ in_progress s f = false;
  i_done : forall f, (f < fresh s)%nat -> in_progress s f = false -> tokens s f = true;
  i_tok1 : forall t f p, In (Tokenise t f p) (trace s) -> tokens s f = true /\ pub s f /\ path s f = p;
  i_tok2 : forall f, (f < fresh s)%nat -> tokens s f = true -> exists t, In (Tokenise t f (path s f)) (trace s);
  i_nodup : NoDup (tokenised (trace s));
  i_busy : forall f, pub s f -> in_progress s f = true -> exists t, working (threads s t) f;
  i_loading : forall e, entry s e = Loading -> exists t, cont (threads s t) = Some e;
  i_answered : answered (trace s) }.

Lemma upd_same : forall A (f : nat -> A) x v, upd f x v x = v.
Proof. intros. unfold upd. rewrite Nat.eqb_refl. reflexivity. Qed.
Lemma upd_other : forall A (f : nat -> A) x v y, y <> x -> upd f x v y = f y.
Proof. intros A f x v y N. unfold upd. destruct (Nat.eqb_spec y x); [contradiction|reflexivity]. Qed.

Lemma idx_range : forall p i, 0 <= idx p i < capacity.
Proof. intros. unfold index. rewrite land_mask by exact CP. apply Z.mod_pos_bound, pow2_gt, CP. Qed.
Lemma idx_inj : forall p i j, 0 <= i < capacity -> 0 <= j < capacity -> idx p i = idx p j -> i = j.
Proof.
  intros p i j I J E. unfold index in E. rewrite !land_mask in E by exact CP. assert (0 < capacity) by (apply pow2_gt, CP).
  assert (Q : (i - j) mod capacity = 0). { replace (i - j) with ((i + hash p) - (j + hash p)) by lia. rewrite Zminus_mod, E, Z.sub_diag. apply Z.mod_0_l. lia. }
  apply Z.mod_divide in Q; [|lia]. destruct Q as (q & Q). assert (q = 0) by nia. lia.
Qed.

(** The table is never full of other files. *)
Lemma not_full : forall s p, inv s -> In p U -> ~ seen s p capacity.
Proof.
  intros s p J I Sn. assert (C0 : 0 < capacity) by (apply pow2_gt, CP).
  set (at_ := fun k : nat => match slot s (idx p (Z.of_nat k)) with Some o => path s o | None => O end).
  assert (N : NoDup (p :: map at_ (seq 0 (Z.to_nat capacity)))).
  { constructor.
    - rewrite in_map_iff. intros (k & E & K). apply in_seq in K. destruct (Sn (Z.of_nat k)) as (o & O1 & O2); [lia|]. unfold at_ in E. rewrite O1 in E. contradiction.
    - apply nodup_map_inj; [|apply seq_NoDup]. intros x y X Y E. apply in_seq in X, Y. destruct (Sn (Z.of_nat x)) as (o & O1 & _); [lia|]. destruct (Sn (Z.of_nat y)) as (q & Q1 & _); [lia|]. unfold at_ in E. rewrite O1, Q1 in E.
      assert (D := i_inj _ J _ _ _ _ O1 Q1 E). apply idx_inj in D; lia. }
  assert (S : incl (p :: map at_ (seq 0 (Z.to_nat capacity))) U).
  { intros x [<-|X]; [exact I|]. apply in_map_iff in X as (k & <- & K). apply in_seq in K. destruct (Sn (Z.of_nat k)) as (o & O1 & _); [lia|]. unfold at_. rewrite O1. exact (proj1 (proj2 (i_slot _ J _ _ O1))). }
  apply NoDup_incl_length in S; [|exact N]. cbn [length] in S. rewrite map_length, seq_length in S. lia.
Qed.

Lemma answered_snoc : forall es e, answered es -> (forall t r f, e = Return t r f -> exists g u, f = Some g /\ In (Tokenise u g (wanted entry_path r)) es) -> answered (es ++ [e]).
Proof.
  intros es e A H a t r f b E. destruct b as [|x b] using rev_ind.
  - apply app_inj_tail in E as (-> & ->). apply (H t r f eq_refl).
  - clear IHb. rewrite app_comm_cons, app_assoc in E. apply app_inj_tail in E as (E & _). exact (A a t r f b E).
Qed.

(** Steps that change nothing but the position of a thread. *)
Lemma inv_goto : forall s t q, inv s -> (owner q = None \/ owner q = owner (threads s t)) -> cont q = cont (threads s t) -> goal q = goal (threads s t) -> (forall f, ~ working (threads s t) f) ->
  fact s q -> inv (goto s t q).
Proof.
  intros s t q [is_ ij io ic if_ ig ie id it1 it2 ind ib il ia] Ow Co Go Wk F. constructor; cbn [goto slot path in_progress tokens fresh entry threads trace]; try assumption.
  - intros u f. unfold upd. destruct (Nat.eqb_spec u t) as [->|N]; intro O.
    + destruct Ow as [Ow|Ow]; [congruence|]. rewrite Ow in O. destruct (io t f O) as (A & B & C). split; [exact A|]. split; [exact B|]. intros v. destruct (Nat.eqb_spec v t) as [->|]; [reflexivity|apply C].
    + destruct (io u f O) as (A & B & C). split; [exact A|]. split; [exact B|]. intros v. destruct (Nat.eqb_spec v t) as [->|]; [|apply C]. intro V. apply C. destruct Ow as [Ow|Ow]; congruence.
  - intros u e. unfold upd. destruct (Nat.eqb_spec u t) as [->|N]; intro O.
    + rewrite Co in O. destruct (ic t e O) as (A & B & C). split; [exact A|]. split; [congruence|]. intros v. destruct (Nat.eqb_spec v t) as [->|]; [reflexivity|apply C].
    + destruct (ic u e O) as (A & B & C). split; [exact A|]. split; [exact B|]. intros v. destruct (Nat.eqb_spec v t) as [->|]; [|apply C]. intro V. apply C. congruence.
  - intro u. unfold upd. destruct (Nat.eqb_spec u t) as [->|N]; [exact F|apply if_].
  - intros u p. unfold upd. destruct (Nat.eqb_spec u t) as [->|N]; [rewrite Go|]; apply ig.
  - intros f Pf Bf. destruct (ib f Pf Bf) as (u & W). exists u. unfold upd. destruct (Nat.eqb_spec u t) as [->|N]; [exfalso; exact (Wk f W)|exact W].
  - intros e E. destruct (il e E) as (u & W). exists u. unfold upd. destruct (Nat.eqb_spec u t) as [->|N]; [congruence|exact W].
Qed.

(** How facts survive changes by others. *)
Record ext (s s' : state) : Prop := mkext {
  e_slot : forall j f, slot s j = Some f -> slot s' j = Some f;
  e_path : forall f, (f < fresh s)%nat -> path s' f = path s f;
  e_entry : forall e, entry s e <> Unloaded -> entry s' e <> Unloaded;
  e_loaded : forall e f, entry s e = Loaded f -> entry s' e = Loaded f;
  e_done : forall f, (f < fresh s)%nat -> in_progress s f = false -> in_progress s' f = false }.

Lemma pub_ext : forall s s' f, ext s s' -> pub s f -> pub s' f.
Proof. intros s s' f X (j & E). exists j. exact (e_slot _ _ X _ _ E). Qed.

Lemma fact_ext : forall s s' q, inv s -> ext s s' -> (forall f, owner q = Some f -> (f < fresh s)%nat /\ tokens s' f = tokens s f /\ (pub s' f -> pub s f)) -> fact s q -> fact s' q.
Proof.
  intros s s' q J X O F. assert (PB : forall f, pub s f -> (f < fresh s)%nat) by (intros f (j & E); exact (proj1 (i_slot _ J _ _ E))).
  assert (M : forall p f i, owner q = Some f -> mine s p f i -> mine s' p f i).
  { intros p f i Oq (M1 & M2 & M3 & M4 & M5). destruct (O f Oq) as (Q1 & Q2 & Q3). split; [rewrite (e_path _ _ X) by exact Q1; exact M1|]. split; [congruence|]. split; [auto|]. split; [exact M4|].
    intros i' I'. destruct (M5 i' I') as (o & O1 & O2). exists o. split; [exact (e_slot _ _ X _ _ O1)|]. rewrite (e_path _ _ X); [exact O2|]. apply PB. exists (idx p i'). exact O1. }
  destruct q; cbn [fact owner] in *; auto.
  - destruct F as (F1 & F2). split; auto.
  - destruct F as (F1 & F2 & F3). split; [auto|]. split; [auto|]. destruct (slot s (idx p i)) eqn:E; [|congruence]. rewrite (e_slot _ _ X _ _ E). discriminate.
  - destruct F as (F1 & F2 & F3). split; [auto|]. split; [auto|]. exact (e_slot _ _ X _ _ F3).
  - destruct F as (F1 & F2). split; [exact (pub_ext _ _ _ X F1)|]. rewrite (e_path _ _ X) by (apply PB, F1). exact F2.
  - destruct F as (F1 & F2 & F3). destruct (O f eq_refl) as (Q1 & Q2 & Q3). split; [exact (pub_ext _ _ _ X F1)|]. rewrite (e_path _ _ X) by (apply PB, F1). split; congruence.
  - destruct F as (F1 & F2 & F3). destruct (O f eq_refl) as (Q1 & Q2 & Q3). split; [exact (pub_ext _ _ _ X F1)|]. rewrite (e_path _ _ X) by (apply PB, F1). split; congruence.
  - destruct F as (F1 & F2 & F3). split; [exact (pub_ext _ _ _ X F1)|]. rewrite (e_path _ _ X) by (apply PB, F1). split; [exact F2|]. apply (e_done _ _ X); [apply PB, F1|exact F3].
  - exact (e_entry _ _ X _ F).
  - destruct F as (f & F). exists f. exact (e_loaded _ _ X _ _ F).
Qed.

(** What every step that also changes shared memory owes for the positions of the threads. *)
Lemma threads_part : forall s s' t q, inv s -> ext s s' -> (fresh s <= fresh s')%nat -> threads s' = upd (threads s) t q ->
  (forall f, owner q = Some f -> (f < fresh s')%nat /\ in_progress s' f = true /\ forall u, u <> t -> owner (threads s u) <> Some f) ->
  (forall u f, u <> t -> owner (threads s u) = Some f -> in_progress s' f = in_progress s f /\ tokens s' f = tokens s f /\ (pub s' f -> pub s f)) ->
  (forall e, cont q = Some e -> entry s' e = Loading /\ goal q = Some (entry_path e) /\ forall u, u <> t -> cont (threads s u) <> Some e) ->
  (forall u e, u <> t -> cont (threads s u) = Some e -> entry s' e = entry s e) ->
  (forall p, goal q = Some p -> In p U) ->
  fact s' q ->
  (forall u f, owner (threads s' u) = Some f -> (f < fresh s')%nat /\ in_progress s' f = true /\ forall v, owner (threads s' v) = Some f -> v = u) /\
  (forall u e, cont (threads s' u) = Some e -> entry s' e = Loading /\ goal (threads s' u) = Some (entry_path e) /\ forall v, cont (threads s' v) = Some e -> v = u) /\
  (forall u, fact s' (threads s' u)) /\
  (forall u p, goal (threads s' u) = Some p -> In p U).
Proof.
  intros s s' t q J X FR T O1 O2 C1 C2 G F. rewrite T. split; [|split; [|split]].
  - intros u f. unfold upd. destruct (Nat.eqb_spec u t) as [->|N]; intro O.
    + destruct (O1 f O) as (A & B & C). split; [exact A|]. split; [exact B|]. intros v. destruct (Nat.eqb_spec v t) as [->|Nv]; [reflexivity|]. intro V. destruct (C v Nv V).
    + destruct (i_own _ J u f O) as (A & B & C). destruct (O2 u f N O) as (A' & _ & _). split; [lia|]. split; [congruence|]. intros v. destruct (Nat.eqb_spec v t) as [->|Nv]; [|apply C].
      intro V. destruct (proj2 (proj2 (O1 f V)) u N O).
  - intros u e. unfold upd. destruct (Nat.eqb_spec u t) as [->|N]; intro O.
    + destruct (C1 e O) as (A & B & C). split; [exact A|]. split; [exact B|]. intros v. destruct (Nat.eqb_spec v t) as [->|Nv]; [reflexivity|]. intro V. destruct (C v Nv V).
    + destruct (i_cont _ J u e O) as (A & B & C). split; [rewrite (C2 u e N O); exact A|]. split; [exact B|]. intros v. destruct (Nat.eqb_spec v t) as [->|Nv]; [|apply C].
      intro V. destruct (proj2 (proj2 (C1 e V)) u N O).
  - intro u. unfold upd. destruct (Nat.eqb_spec u t) as [->|N]; [exact F|]. apply (fact_ext s s' _ J X); [|apply (i_fact _ J)].
    intros f O. destruct (O2 u f N O) as (_ & A & B). split; [exact (proj1 (i_own _ J u f O))|]. split; [exact A|exact B].
  - intros u p. unfold upd. destruct (Nat.eqb_spec u t) as [->|N]; [apply G|apply (i_goal _ J)].
Qed.

Lemma set_slot_same : forall f j v, set_slot f j v j = v.
Proof. intros. unfold set_slot. rewrite Z.eqb_refl. reflexivity. Qed.
Lemma set_slot_other : forall f j v x, x <> j -> set_slot f j v x = f x.
Proof. intros f j v x N. unfold set_slot. destruct (Z.eqb_spec x j); [contradiction|reflexivity]. Qed.

Ltac fields := cbn [goto emit slot path in_progress tokens fresh entry threads trace].
Ltac fields_in H := cbn [goto emit slot path in_progress tokens fresh entry threads trace] in H.

Lemma inv_begin : forall s t p k, inv s -> threads s t = Begin p k -> inv (stepm s t).
Proof.
  intros s t p k J E. unfold step. rewrite E. set (s' := goto _ _ _).
  assert (PB : forall f, pub s f -> (f < fresh s)%nat) by (intros f (j & Q); exact (proj1 (i_slot _ J _ _ Q))).
  assert (X : ext s s') by (constructor; unfold s'; fields; intros; try assumption; rewrite upd_other by lia; auto).
  assert (NP : ~ pub s (fresh s)) by (intro P; apply PB in P; lia).
  destruct (threads_part s s' t (Probe p (fresh s) 0 k) J X) as (TO & TC & TF & TG); unfold s'; fields.
  - lia.
  - reflexivity.
  - cbn [owner]. intros f [= <-]. split; [lia|]. split; [apply upd_same|]. intros u _ O. apply (i_own _ J) in O as (O & _). lia.
  - intros u f N O. apply (i_own _ J) in O as (O & _). rewrite !upd_other by lia. auto.
  - intros e C. cbn [cont goal] in *. assert (C' : cont (threads s t) = Some e) by (rewrite E; exact C). destruct (i_cont _ J t e C') as (A & B & D). rewrite E in B. split; [exact A|]. split; [exact B|]. intros u N V. exact (N (D u V)).
  - reflexivity.
  - intros x G. cbn [goal] in G. apply (i_goal _ J t). rewrite E. exact G.
  - cbn [fact]. split; [fields; apply upd_same|]. split; [fields; apply upd_same|]. split; [exact NP|]. split; [assert (0 < capacity) by (apply pow2_gt, CP); lia|]. intros i I. lia.
  - constructor; try assumption; unfold s'; fields.
    + intros j f Q. destruct (i_slot _ J j f Q) as (A & B & D). rewrite !upd_other by lia. split; [lia|]. split; assumption.
    + intros j j' f g Q Q' EQ. assert (A := proj1 (i_slot _ J _ _ Q)). assert (B := proj1 (i_slot _ J _ _ Q')). rewrite !upd_other in EQ by lia. exact (i_inj _ J _ _ _ _ Q Q' EQ).
    + intros e f Q. destruct (i_entry _ J e f Q) as (A & B & D). assert (A' := PB _ A). rewrite !upd_other by lia. split; [exact A|]. split; assumption.
    + intros f L P. destruct (Nat.eq_dec f (fresh s)) as [->|N]; [rewrite upd_same in P; discriminate|]. rewrite upd_other in * by exact N. apply (i_done _ J); [lia|exact P].
    + intros u f x I. destruct (i_tok1 _ J u f x I) as (A & B & D). assert (B' := PB _ B). rewrite !upd_other by lia. auto.
    + intros f L P. destruct (Nat.eq_dec f (fresh s)) as [->|N]; [rewrite upd_same in P; discriminate|]. rewrite upd_other in * by exact N. apply (i_tok2 _ J); [lia|exact P].
    + exact (i_nodup _ J).
    + intros f P B. assert (P' := PB _ P). rewrite upd_other in B by lia. destruct (i_busy _ J f P B) as (u & W). exists u. destruct (Nat.eq_dec u t) as [->|N]; [rewrite E in W; destruct W|]. rewrite upd_other by exact N. exact W.
    + intros e L. destruct (i_loading _ J e L) as (u & W). exists u. destruct (Nat.eq_dec u t) as [->|N]; [rewrite E in W; rewrite upd_same; exact W|]. rewrite upd_other by exact N. exact W.
    + exact (i_answered _ J).
Qed.

Lemma inv_swap : forall s t p f i k, inv s -> threads s t = Swap p f i k -> inv (stepm s t).
Proof.
  intros s t p f i k J E. assert (F := i_fact _ J t). rewrite E in F. destruct F as ((M1 & M2 & M3 & M4 & M5) & IC). unfold step. rewrite E.
  destruct (slot s (idx p i)) as [o|] eqn:SL.
  - apply inv_goto; rewrite ?E; auto. cbn [fact]. split; [repeat split; auto; lia|]. split; [exact IC|]. rewrite SL. discriminate.
  - set (s' := goto _ _ _). destruct (i_own _ J t f) as (O1 & O2 & O3); [rewrite E; reflexivity|].
    assert (PS : forall j x, slot s j = Some x -> set_slot (slot s) (idx p i) (Some f) j = Some x). { intros j x Q. rewrite set_slot_other; [exact Q|]. intros ->. congruence. }
    assert (SP : forall j x, set_slot (slot s) (idx p i) (Some f) j = Some x -> (j = idx p i /\ x = f) \/ slot s j = Some x).
    { intros j x Q. destruct (Z.eq_dec j (idx p i)) as [->|N]; [left; rewrite set_slot_same in Q; split; congruence|right; rewrite set_slot_other in Q by exact N; exact Q]. }
    assert (X : ext s s') by (constructor; unfold s'; fields; auto).
    assert (PUB : forall x, pub s' x -> x = f \/ pub s x). { intros x (j & Q). unfold s' in Q. fields_in Q. destruct (SP _ _ Q) as [(_ & ->)|Q']; [left; reflexivity|right; exists j; exact Q']. }
    assert (PF : pub s' f) by (exists (idx p i); unfold s'; fields; apply set_slot_same).
    assert (NEW : forall j g, slot s j = Some g -> path s g <> p).
    { intros j g Q EP. destruct (i_slot _ J j g Q) as (_ & _ & i2 & I2 & J2 & B2). rewrite EP in *. destruct (Z.lt_trichotomy i2 i) as [L|[L|L]].
      - destruct (M5 i2) as (o & Q1 & Q2); [lia|]. rewrite J2, Q in Q1. injection Q1 as <-. contradiction.
      - subst i2. rewrite J2 in SL. congruence.
      - apply (B2 i); [lia|exact SL]. }
    destruct (threads_part s s' t (LoadFile p f k) J X) as (TO & TC & TF & TG); unfold s'; fields.
    + lia.
    + reflexivity.
    + cbn [owner]. intros x [= <-]. split; [exact O1|]. split; [exact O2|]. intros u N V. exact (N (O3 u V)).
    + intros u x N O. split; [reflexivity|]. split; [reflexivity|]. intro P. destruct (PUB _ P) as [->|P']; [destruct (N (O3 u O))|exact P'].
    + intros e C. cbn [cont goal] in *. assert (C' : cont (threads s t) = Some e) by (rewrite E; exact C). destruct (i_cont _ J t e C') as (A & B & D). rewrite E in B. split; [exact A|]. split; [exact B|]. intros u N V. exact (N (D u V)).
    + reflexivity.
    + intros x G. cbn [goal] in G. apply (i_goal _ J t). rewrite E. exact G.
    + cbn [fact]. split; [exact PF|]. split; [exact M1|exact M2].
    + constructor; try assumption; unfold s'; fields.
      * intros j x Q. destruct (SP _ _ Q) as [(-> & ->)|Q'].
        -- split; [exact O1|]. rewrite M1. split; [apply (i_goal _ J t); rewrite E; reflexivity|]. exists i. split; [lia|]. split; [reflexivity|].
           intros i' I'. destruct (M5 i' I') as (o & Q1 & _). rewrite (PS _ _ Q1). discriminate.
        -- destruct (i_slot _ J j x Q') as (A & B & i2 & I2 & J2 & B2). split; [exact A|]. split; [exact B|]. exists i2. split; [exact I2|]. split; [exact J2|].
           intros i' I'. specialize (B2 i' I'). destruct (slot s (idx (path s x) i')) as [y|] eqn:Y; [|congruence]. rewrite (PS _ _ Y). discriminate.
      * intros j j' x y Q Q' EQ. destruct (SP _ _ Q) as [(-> & ->)|Q1]; destruct (SP _ _ Q') as [(-> & ->)|Q2]; [reflexivity| | |exact (i_inj _ J _ _ _ _ Q1 Q2 EQ)].
        -- destruct (NEW _ _ Q2). congruence.
        -- destruct (NEW _ _ Q1). congruence.
      * intros e x Q. destruct (i_entry _ J e x Q) as (A & B & D). split; [exact (pub_ext _ _ _ X A)|]. split; assumption.
      * exact (i_done _ J).
      * intros u x y I. destruct (i_tok1 _ J u x y I) as (A & B & D). split; [exact A|]. split; [exact (pub_ext _ _ _ X B)|exact D].
      * exact (i_tok2 _ J).
      * exact (i_nodup _ J).
      * intros x P B. destruct (PUB _ P) as [->|P']; [exists t; rewrite upd_same; reflexivity|]. destruct (i_busy _ J x P' B) as (u & W). exists u. destruct (Nat.eq_dec u t) as [->|N]; [rewrite E in W; destruct W|]. rewrite upd_other by exact N. exact W.
      * intros e L. destruct (i_loading _ J e L) as (u & W). exists u. destruct (Nat.eq_dec u t) as [->|N]; [rewrite E in W; rewrite upd_same; exact W|]. rewrite upd_other by exact N. exact W.
      * exact (i_answered _ J).
Qed.

Lemma tokenised_app : forall a b, tokenised (a ++ b) = tokenised a ++ tokenised b.
Proof. intros. apply flat_map_app. Qed.
Lemma in_tokenised : forall es p, In p (tokenised es) <-> exists t f, In (Tokenise t f p) es.
Proof.
  intros es p. unfold tokenised. rewrite in_flat_map. split.
  - intros (e & I & P). destruct e; try destruct P as [->|[]]; try destruct P. eauto.
  - intros (t & f & I). exists (Tokenise t f p). split; [exact I|left; reflexivity].
Qed.

Lemma inv_load : forall s t p f k, inv s -> threads s t = LoadFile p f k -> inv (stepm s t).
Proof.
  intros s t p f k J E. assert (F := i_fact _ J t). rewrite E in F. destruct F as (F1 & F2 & F3). unfold step. rewrite E. set (s' := goto _ _ _).
  destruct (i_own _ J t f) as (O1 & O2 & O3); [rewrite E; reflexivity|].
  assert (X : ext s s') by (constructor; unfold s'; fields; auto).
  destruct (threads_part s s' t (Finish p f k) J X) as (TO & TC & TF & TG); unfold s'; fields.
  - lia.
  - reflexivity.
  - cbn [owner]. intros x [= <-]. split; [exact O1|]. split; [exact O2|]. intros u N V. exact (N (O3 u V)).
  - intros u x N O. split; [reflexivity|]. split; [|auto]. rewrite upd_other; [reflexivity|]. intros ->. exact (N (O3 u O)).
  - intros e C. cbn [cont goal] in *. assert (C' : cont (threads s t) = Some e) by (rewrite E; exact C). destruct (i_cont _ J t e C') as (A & B & D). rewrite E in B. split; [exact A|]. split; [exact B|]. intros u N V. exact (N (D u V)).
  - reflexivity.
  - intros x G. cbn [goal] in G. apply (i_goal _ J t). rewrite E. exact G.
  - cbn [fact]. fields. rewrite upd_same. auto.
  - constructor; try assumption; unfold s'; fields.
    + exact (i_slot _ J).
    + exact (i_inj _ J).
    + exact (i_entry _ J).
    + intros x L P. destruct (Nat.eq_dec x f) as [->|N]; [apply upd_same|]. rewrite upd_other by exact N. exact (i_done _ J x L P).
    + intros u x y I. apply in_app_or in I as [I|[[= <- <- <-]|[]]].
      * destruct (i_tok1 _ J u x y I) as (A & B & D). split; [|auto]. destruct (Nat.eq_dec x f) as [->|N]; [apply upd_same|]. rewrite upd_other by exact N. exact A.
      * rewrite upd_same. auto.
    + intros x L P. destruct (Nat.eq_dec x f) as [->|N].
      * exists t. apply in_or_app. right. left. congruence.
      * rewrite upd_other in P by exact N. destruct (i_tok2 _ J x L P) as (u & I). exists u. apply in_or_app. left. exact I.
    + rewrite tokenised_app. cbn [tokenised flat_map app]. apply nodup_snoc; [exact (i_nodup _ J)|]. intro I. apply in_tokenised in I as (u & g & I). destruct (i_tok1 _ J u g p I) as (A & (j & B) & D). destruct F1 as (j' & F1).
      assert (j = j') by (apply (i_inj _ J _ _ _ _ B F1); congruence). subst j'. assert (f = g) by congruence. congruence.
    + intros x P B. destruct (i_busy _ J x P B) as (u & W). exists u. destruct (Nat.eq_dec u t) as [->|N]; [rewrite E in W; rewrite upd_same; exact W|]. rewrite upd_other by exact N. exact W.
    + intros e L. destruct (i_loading _ J e L) as (u & W). exists u. destruct (Nat.eq_dec u t) as [->|N]; [rewrite E in W; rewrite upd_same; exact W|]. rewrite upd_other by exact N. exact W.
    + apply answered_snoc; [exact (i_answered _ J)|]. discriminate.
Qed.

Lemma inv_finish : forall s t p f k, inv s -> threads s t = Finish p f k -> inv (stepm s t).
Proof.
  intros s t p f k J E. assert (F := i_fact _ J t). rewrite E in F. destruct F as (F1 & F2 & F3). unfold step. rewrite E. set (s' := goto _ _ _).
  destruct (i_own _ J t f) as (O1 & O2 & O3); [rewrite E; reflexivity|].
  assert (DN : forall x, in_progress s x = false -> upd (in_progress s) f false x = false). { intros x Q. unfold upd. destruct (Nat.eqb x f); [reflexivity|exact Q]. }
  assert (X : ext s s') by (constructor; unfold s'; fields; auto).
  destruct (threads_part s s' t (Opened p f k) J X) as (TO & TC & TF & TG); unfold s'; fields.
  - lia.
  - reflexivity.
  - discriminate.
  - intros u x N O. rewrite upd_other by (intros ->; exact (N (O3 u O))). auto.
  - intros e C. cbn [cont goal] in *. assert (C' : cont (threads s t) = Some e) by (rewrite E; exact C). destruct (i_cont _ J t e C') as (A & B & D). rewrite E in B. split; [exact A|]. split; [exact B|]. intros u N V. exact (N (D u V)).
  - reflexivity.
  - intros x G. cbn [goal] in G. apply (i_goal _ J t). rewrite E. exact G.
  - cbn [fact]. fields. rewrite upd_same. auto.
  - constructor; try assumption; unfold s'; fields.
    + exact (i_slot _ J).
    + exact (i_inj _ J).
    + intros e x Q. destruct (i_entry _ J e x Q) as (A & B & D). auto.
    + intros x L P. destruct (Nat.eq_dec x f) as [->|N]; [exact F3|]. rewrite upd_other in P by exact N. exact (i_done _ J x L P).
    + exact (i_tok1 _ J).
    + exact (i_tok2 _ J).
    + exact (i_nodup _ J).
    + intros x P B. destruct (Nat.eq_dec x f) as [->|Nx]; [rewrite upd_same in B; discriminate|]. rewrite upd_other in B by exact Nx. destruct (i_busy _ J x P B) as (u & W). exists u. destruct (Nat.eq_dec u t) as [->|N]; [rewrite E in W; cbn in W; congruence|]. rewrite upd_other by exact N. exact W.
    + intros e L. destruct (i_loading _ J e L) as (u & W). exists u. destruct (Nat.eq_dec u t) as [->|N]; [rewrite E in W; rewrite upd_same; exact W|]. rewrite upd_other by exact N. exact W.
    + exact (i_answered _ J).
Qed.

Lemma inv_opened : forall s t p f k, inv s -> threads s t = Opened p f k -> inv (stepm s t).
Proof.
  intros s t p f k J E. assert (F := i_fact _ J t). rewrite E in F. destruct F as (F1 & F2 & F3). unfold step. rewrite E.
  assert (PB : forall f, pub s f -> (f < fresh s)%nat) by (intros x (j & Q); exact (proj1 (i_slot _ J _ _ Q))).
  destruct k as [e|]; set (s' := goto _ _ _).
  - destruct (i_cont _ J t e) as (C1 & C2 & C3); [rewrite E; reflexivity|]. rewrite E in C2. cbn [goal] in C2. injection C2 as C2.
    assert (X : ext s s').
    { constructor; unfold s'; fields; auto.
      - intros x N. unfold upd. destruct (Nat.eqb x e); [discriminate|exact N].
      - intros x y N. rewrite upd_other; [exact N|]. intros ->. congruence. }
    destruct (threads_part s s' t (EntryWait e) J X) as (TO & TC & TF & TG); unfold s'; fields.
    + lia.
    + reflexivity.
    + discriminate.
    + auto.
    + discriminate.
    + intros u x N C. rewrite upd_other; [reflexivity|]. intros ->. exact (N (C3 u C)).
    + intros x [= <-]. apply (i_goal _ J t). rewrite E. cbn [goal]. congruence.
    + cbn [fact]. fields. rewrite upd_same. discriminate.
    + constructor; try assumption; unfold s'; fields; try apply J.
      * intros x y Q. destruct (Nat.eq_dec x e) as [->|N]; [|rewrite upd_other in Q by exact N; exact (i_entry _ J x y Q)]. rewrite upd_same in Q. injection Q as <-. split; [exact F1|]. split; [congruence|exact F3].
      * intros x P B. destruct (i_busy _ J x P B) as (u & W). exists u. destruct (Nat.eq_dec u t) as [->|N]; [rewrite E in W; destruct W|]. rewrite upd_other by exact N. exact W.
      * intros x L. destruct (Nat.eq_dec x e) as [->|Nx]; [rewrite upd_same in L; discriminate|]. rewrite upd_other in L by exact Nx. destruct (i_loading _ J x L) as (u & W). exists u. destruct (Nat.eq_dec u t) as [->|N]; [rewrite E in W; cbn in W; congruence|]. rewrite upd_other by exact N. exact W.
  - assert (X : ext s s') by (constructor; unfold s'; fields; auto).
    destruct (threads_part s s' t Idle J X) as (TO & TC & TF & TG); unfold s'; fields; try discriminate; auto.
    + exact I.
    + constructor; try assumption; unfold s'; fields; try apply J.
      * intros u x y I. apply in_app_or in I as [I|[[=]|[]]]. exact (i_tok1 _ J u x y I).
      * intros x L P. destruct (i_tok2 _ J x L P) as (u & I). exists u. apply in_or_app. left. exact I.
      * rewrite tokenised_app. cbn [tokenised flat_map]. rewrite app_nil_r. exact (i_nodup _ J).
      * intros x P B. destruct (i_busy _ J x P B) as (u & W). exists u. destruct (Nat.eq_dec u t) as [->|N]; [rewrite E in W; destruct W|]. rewrite upd_other by exact N. exact W.
      * intros x L. destruct (i_loading _ J x L) as (u & W). exists u. destruct (Nat.eq_dec u t) as [->|N]; [rewrite E in W; discriminate|]. rewrite upd_other by exact N. exact W.
      * apply answered_snoc; [exact (i_answered _ J)|]. intros u r x [= <- <- <-]. exists f. destruct (i_tok2 _ J f (PB _ F1) (i_done _ J _ (PB _ F1) F3)) as (v & I). exists v. split; [reflexivity|]. cbn [wanted]. rewrite <- F2. exact I.
Qed.

Lemma inv_entry_swap : forall s t e, inv s -> threads s t = EntrySwap e -> inv (stepm s t).
Proof.
  intros s t e J E. unfold step. rewrite E. destruct (entry s e) eqn:EE.
  2,3: apply inv_goto; rewrite ?E; auto; cbn [fact]; congruence.
  set (s' := goto _ _ _).
  assert (X : ext s s').
  { constructor; unfold s'; fields; auto.
    - intros x N. unfold upd. destruct (Nat.eqb x e); [discriminate|exact N].
    - intros x y N. rewrite upd_other; [exact N|]. intros ->. congruence. }
  destruct (threads_part s s' t (Begin (entry_path e) (Some e)) J X) as (TO & TC & TF & TG); unfold s'; fields.
  - lia.
  - reflexivity.
  - discriminate.
  - auto.
  - cbn [cont goal]. intros x [= <-]. rewrite upd_same. split; [reflexivity|]. split; [reflexivity|]. intros u N C. apply (i_cont _ J) in C as (C & _). congruence.
  - intros u x N C. rewrite upd_other; [reflexivity|]. intros ->. apply (i_cont _ J) in C as (C & _). congruence.
  - intros x G. apply (i_goal _ J t). rewrite E. exact G.
  - exact I.
  - constructor; try assumption; unfold s'; fields; try apply J.
    + intros x y Q. destruct (Nat.eq_dec x e) as [->|N]; [rewrite upd_same in Q; discriminate|]. rewrite upd_other in Q by exact N. exact (i_entry _ J x y Q).
    + intros x P B. destruct (i_busy _ J x P B) as (u & W). exists u. destruct (Nat.eq_dec u t) as [->|N]; [rewrite E in W; destruct W|]. rewrite upd_other by exact N. exact W.
    + intros x L. destruct (Nat.eq_dec x e) as [->|Nx]; [exists t; rewrite upd_same; reflexivity|]. rewrite upd_other in L by exact Nx. destruct (i_loading _ J x L) as (u & W). exists u. destruct (Nat.eq_dec u t) as [->|N]; [rewrite E in W; discriminate|]. rewrite upd_other by exact N. exact W.
Qed.

(** An event that is not [Tokenise], by a thread that owns nothing before and after. *)
Lemma inv_emit : forall s t ev q, inv s -> owner (threads s t) = None -> cont (threads s t) = None -> (forall f, ~ working (threads s t) f) ->
  owner q = None -> cont q = None -> (forall p, goal q = Some p -> In p U) -> fact s q -> tokenised [ev] = [] ->
  (forall u r f, ev = Return u r f -> exists g v, f = Some g /\ In (Tokenise v g (wanted entry_path r)) (trace s)) -> inv (goto (emit s ev) t q).
Proof.
  intros s t ev q J O C W OQ CQ GQ FQ TE AN. set (s' := goto _ _ _).
  assert (X : ext s s') by (constructor; unfold s'; fields; auto).
  destruct (threads_part s s' t q J X) as (TO & TC & TF & TG); unfold s'; fields; try congruence; auto.
  constructor; try assumption; unfold s'; fields; try apply J.
    + intros u x y I. apply in_app_or in I as [I|[->|[]]]; [exact (i_tok1 _ J u x y I)|discriminate].
    + intros x L P. destruct (i_tok2 _ J x L P) as (u & I). exists u. apply in_or_app. left. exact I.
    + rewrite tokenised_app, TE, app_nil_r. exact (i_nodup _ J).
    + intros x P B. destruct (i_busy _ J x P B) as (u & Q). exists u. destruct (Nat.eq_dec u t) as [->|N]; [destruct (W x Q)|]. rewrite upd_other by exact N. exact Q.
    + intros x L. destruct (i_loading _ J x L) as (u & Q). exists u. destruct (Nat.eq_dec u t) as [->|N]; [congruence|]. rewrite upd_other by exact N. exact Q.
    + apply answered_snoc; [exact (i_answered _ J)|exact AN].
Qed.

Lemma inv_step : forall s t, inv s -> inv (stepm s t).
Proof.
  intros s t J. assert (F := i_fact _ J t). destruct (threads s t) eqn:E; cbn [fact] in F.
  - unfold step. rewrite E. exact J.
  - exact (inv_begin s t _ _ J E).
  - unfold step. rewrite E. destruct (Z.ltb_spec i capacity).
    + destruct (slot s (idx p i)) as [o|] eqn:SL; apply inv_goto; rewrite ?E; auto; cbn [fact]; auto.
    + exfalso. destruct F as (_ & _ & _ & L & S). replace i with capacity in S by lia. apply (not_full s p J); [|exact S]. apply (i_goal _ J t). rewrite E. reflexivity.
  - exact (inv_swap s t _ _ _ _ J E).
  - unfold step. rewrite E. destruct F as (F1 & F2 & F3). destruct (slot s (idx p i)) as [o|] eqn:SL; [|congruence]. apply inv_goto; rewrite ?E; auto. cbn [fact]. auto.
  - unfold step. rewrite E. destruct F as (F1 & F2 & F3). destruct (Nat.eqb_spec p (path s o)) as [Q|Q]; apply inv_goto; rewrite ?E; auto; cbn [fact].
    + split; [exists (idx p i); exact F3|congruence].
    + destruct F1 as (M1 & M2 & M3 & M4 & M5). split; [exact M1|]. split; [exact M2|]. split; [exact M3|]. split; [lia|]. intros i' I'. destruct (Z.eq_dec i' i) as [->|N]; [exists o; split; congruence|]. apply M5. lia.
  - unfold step. rewrite E. destruct (in_progress s o) eqn:B; [exact J|]. apply inv_goto; rewrite ?E; auto. cbn [fact]. destruct F. auto.
  - exact (inv_load s t _ _ _ J E).
  - exact (inv_finish s t _ _ _ J E).
  - exact (inv_opened s t _ _ _ J E).
  - unfold step. rewrite E. destruct (entry s e) eqn:EE; apply inv_goto; rewrite ?E; auto; cbn [fact]; auto; congruence.
  - exact (inv_entry_swap s t _ J E).
  - unfold step. rewrite E. destruct (entry s e) eqn:EE; [congruence|exact J|]. apply inv_goto; rewrite ?E; auto. cbn [fact]. eauto.
  - unfold step. rewrite E. destruct F as (f & F). rewrite F. apply inv_emit; rewrite ?E; auto; try discriminate; try exact I.
    intros u r x [= <- <- <-]. destruct (i_entry _ J e f F) as (A & B & D). assert (PB : (f < fresh s)%nat) by (destruct A as (j & A); exact (proj1 (i_slot _ J _ _ A))).
    exists f. destruct (i_tok2 _ J f PB (i_done _ J _ PB D)) as (v & I). exists v. split; [reflexivity|]. cbn [wanted]. rewrite <- B. exact I.
  - destruct F.
Qed.

Lemma inv_create : inv create.
Proof.
  constructor; cbn; try discriminate; try contradiction; auto.
  all: try (intros; exfalso; lia). all: try constructor.
  all: try (intros f (j & Q); discriminate). intros a t r f b Q. destruct a; discriminate.
Qed.

Lemma inv_choose : forall s c, (forall t r, c = Calls t r -> In (wanted entry_path r) U) -> inv s -> inv (choose capacity hash entry_path s c).
Proof.
  intros s c H J. destruct c as [t r|t]; cbn [choose]; [|apply inv_step; exact J]. specialize (H t r eq_refl). destruct (threads s t) eqn:E; try exact J.
  apply inv_emit; rewrite ?E; auto; try (destruct r; reflexivity); try discriminate; try (destruct r; exact I).
  intros p G. destruct r; cbn in G; injection G as <-; exact H.
Qed.

Lemma inv_fold : forall cs s, incl (asked entry_path cs) U -> inv s -> inv (fold_left (choose capacity hash entry_path) cs s).
Proof.
  induction cs as [|c cs IH]; intros s H J; [exact J|]. cbn [fold_left]. apply IH.
  - intros x X. apply H. unfold asked in *. cbn [flat_map]. apply in_or_app. right. exact X.
  - apply inv_choose; [|exact J]. intros t r ->. apply H. left. reflexivity.
Qed.

(** Unless all threads are idle, one of them can move. *)
Definition waits (p : pc) : Prop := match p with Wait _ _ _ | EntryWait _ => True | _ => False end.
Lemma moves_now : forall s t, inv s -> threads s t <> Idle -> ~ waits (threads s t) -> threads (stepm s t) t <> threads s t.
Proof.
  intros s t J N W. assert (F := i_fact _ J t). unfold step. destruct (threads s t) eqn:E; cbn [waits fact] in W, F; try contradiction; try (exfalso; exact (W I)); fields; try (rewrite upd_same; discriminate).
  - destruct (i <? capacity); fields; rewrite upd_same; [destruct (slot s (idx p i))|]; discriminate.
  - destruct (slot s (idx p i)); fields; rewrite upd_same; discriminate.
  - rewrite upd_same. destruct (slot s (idx p i)); discriminate.
  - rewrite upd_same. destruct (Nat.eqb p (path s o)); discriminate.
  - destruct k; fields; rewrite upd_same; discriminate.
  - rewrite upd_same. destruct (entry s e); discriminate.
  - destruct (entry s e); fields; rewrite upd_same; discriminate.
Qed.

Lemma inv_moves : forall s t, inv s -> threads s t <> Idle -> exists u, threads s u <> Idle /\ threads (stepm s u) u <> threads s u.
Proof.
  intros s t J N.
  assert (HW : forall u p o k, threads s u = Wait p o k -> exists u, threads s u <> Idle /\ threads (stepm s u) u <> threads s u).
  { intros u p o k E. assert (F := i_fact _ J u). rewrite E in F. destruct F as (P & _). destruct (in_progress s o) eqn:B.
    - destruct (i_busy _ J o P B) as (v & W). exists v. assert (threads s v <> Idle) by (intro Q; rewrite Q in W; exact W). split; [assumption|]. apply moves_now; auto. intro W'. destruct (threads s v); cbn in W, W'; contradiction.
    - exists u. rewrite E. split; [discriminate|]. unfold step. rewrite E, B. fields. rewrite upd_same. discriminate. }
  assert (D : forall p, waits p \/ ~ waits p) by (intros []; cbn; auto).
  destruct (D (threads s t)) as [W|W]; [|exists t; split; [exact N|apply moves_now; assumption]].
  destruct (threads s t) eqn:E; try destruct W; [exact (HW _ _ _ _ E)|].
  destruct (entry s e) eqn:EE.
  - exfalso. assert (F := i_fact _ J t). rewrite E in F. exact (F EE).
  - destruct (i_loading _ J e EE) as (u & C). destruct (D (threads s u)) as [W|W].
    + destruct (threads s u) eqn:Eu; try destruct W; [exact (HW _ _ _ _ Eu)|discriminate].
    + exists u. assert (threads s u <> Idle) by (intro Q; rewrite Q in C; discriminate). split; [assumption|]. apply moves_now; assumption.
  - exists t. rewrite E. split; [discriminate|]. unfold step. rewrite E, EE. fields. rewrite upd_same. discriminate.
Qed.
End P.

Lemma run_inv : forall capacity hash entry_path cs, pow2 capacity -> Z.of_nat (length (nodup Nat.eq_dec (asked entry_path cs))) <= capacity ->
  inv capacity hash entry_path (nodup Nat.eq_dec (asked entry_path cs)) (run capacity hash entry_path cs).
Proof.
  intros capacity hash entry_path cs CP UC. unfold run. apply inv_fold; [exact CP|exact UC| |apply inv_create].
  intros x X. apply nodup_In. exact X.
Qed.
