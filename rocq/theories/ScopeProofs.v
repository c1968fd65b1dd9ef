(** Proofs about scopes (C21). *)
From Verif Require Import Base ScopeModel ScopeSpec.

(** ** Probing *)
Definition pow2 (c : Z) : Prop := exists k, 0 <= k /\ c = 2 ^ k.
Lemma land_mask : forall c x, pow2 c -> Z.land x (c - 1) = x mod c.
Proof. intros c x (k & Hk & ->). replace (2 ^ k - 1) with (Z.ones k) by (rewrite Z.ones_equiv; lia). apply Z.land_ones, Hk. Qed.
Lemma pow2_gt : forall c, pow2 c -> 0 < c.
Proof. intros c (k & Hk & ->). apply pow2_pos, Hk. Qed.

Lemma indices_in : forall c h i, pow2 c -> In i (indices c h) <-> 0 <= i < c.
Proof.
  intros c h i P. pose proof (pow2_gt c P). unfold indices. rewrite in_map_iff. split.
  - intros (j & <- & _). rewrite land_mask by exact P. apply Z.mod_pos_bound. lia.
  - intro Hi. exists (Z.to_nat ((i - h) mod c)). pose proof (Z.mod_pos_bound (i - h) c ltac:(lia)).
    split; [|apply in_seq; lia]. rewrite land_mask by exact P. rewrite Z2Nat.id by lia. rewrite Zplus_mod_idemp_l.
    replace (i - h + h) with i by lia. apply Z.mod_small. lia.
Qed.
Lemma nodup_map_inj : forall A B (f : A -> B) l, (forall x y, In x l -> In y l -> f x = f y -> x = y) -> NoDup l -> NoDup (map f l).
Proof.
  intros A B f l. induction l as [|a l IH]; intros Inj N; [constructor|]. inversion N as [|? ? Na N']; subst. cbn. constructor.
  - rewrite in_map_iff. intros (y & E & Hy). assert (y = a) by (apply Inj; cbn; auto). subst. contradiction.
  - apply IH; [|exact N']. intros x y Hx Hy. apply Inj; cbn; auto.
Qed.
Lemma indices_nodup : forall c h, pow2 c -> NoDup (indices c h).
Proof.
  intros c h P. pose proof (pow2_gt c P). unfold indices. apply nodup_map_inj; [|apply seq_NoDup].
  intros x y Hx Hy E. apply in_seq in Hx, Hy. rewrite !land_mask in E by exact P.
  assert ((Z.of_nat x - Z.of_nat y) mod c = 0).
  { replace (Z.of_nat x - Z.of_nat y) with ((Z.of_nat x + h) - (Z.of_nat y + h)) by lia. rewrite Zminus_mod, E, Z.sub_diag. reflexivity. }
  apply Z.mod_divide in H0; [|lia]. destruct H0 as (q & Hq). assert (q = 0) by nia. lia.
Qed.

Definition nonempty (e : entry) : bool := match e with Empty => false | _ => true end.
Definition is_entry (e : entry) : bool := match e with Entry _ => true | _ => false end.
Definition base (c : Z) : list Z := map Z.of_nat (seq 0 (Z.to_nat c)).
Lemma base_in : forall c i, In i (base c) <-> 0 <= i < c.
Proof.
  intros c i. unfold base. rewrite in_map_iff. split.
  - intros (j & <- & Hj). apply in_seq in Hj. lia.
  - intro. exists (Z.to_nat i). split; [lia|]. apply in_seq. lia.
Qed.
Lemma base_nodup : forall c, NoDup (base c).
Proof. intro c. apply nodup_map_inj; [intros; lia|apply seq_NoDup]. Qed.
Lemma base_length : forall c, 0 <= c -> Z.of_nat (length (base c)) = c.
Proof. intros c H. unfold base. rewrite map_length, seq_length. lia. Qed.

(** How many entries the slots hold. *)
Definition count (t : Z -> entry) (is : list Z) : nat := length (filter (fun i => is_entry (t i)) is).
Lemma count_put : forall t is i e, NoDup is -> In i is -> (count (put_at t i e) is + (if is_entry (t i) then 1 else 0) = count t is + (if is_entry e then 1 else 0))%nat.
Proof.
  intros t is i e N. unfold count. induction is as [|a is IH]; intros Hi; [destruct Hi|]. inversion N as [|? ? Na N']; subst. cbn [filter].
  destruct (Z.eq_dec a i) as [->|D].
  - assert (Ex : filter (fun j => is_entry (put_at t i e j)) is = filter (fun j => is_entry (t j)) is).
    { apply filter_ext_in. intros j Hj. unfold put_at. destruct (j =? i) eqn:Q; [apply Z.eqb_eq in Q; congruence|reflexivity]. }
    rewrite Ex. unfold put_at at 1. rewrite Z.eqb_refl. destruct (is_entry e), (is_entry (t i)); cbn [length]; lia.
  - destruct Hi as [->|Hi]; [contradiction|]. specialize (IH N' Hi).
    assert (Hp : put_at t i e a = t a) by (unfold put_at; destruct (a =? i) eqn:Q; [apply Z.eqb_eq in Q; congruence|reflexivity]).
    rewrite Hp. destruct (is_entry (t a)); cbn [length]; lia.
Qed.
Lemma free_slot : forall t is, (count t is < length is)%nat -> exists i, In i is /\ is_entry (t i) = false.
Proof.
  intros t is. unfold count. induction is as [|a is IH]; cbn [filter length]; [lia|].
  destruct (is_entry (t a)) eqn:E; [|intro; exists a; cbn; auto]. cbn [length]. intro H.
  destruct IH as (i & Hi & Ei); [lia|]. exists i. cbn. auto.
Qed.

Section S.
Variable H : name -> Z.
Notation hash d := (H (d_name d)).

(** The declarations of [n] along [is]. *)
Definition sl (n : name) (e : entry) : list decl := match e with Entry d => if name_eq (d_name d) n then [d] else [] | _ => [] end.
Definition named (n : name) (t : Z -> entry) (is : list Z) : list decl := flat_map (fun i => sl n (t i)) is.

(** Behind a free slot of a chain there is nothing of its hash. *)
Definition sealed (t : Z -> entry) (h : Z) (is : list Z) : Prop :=
  forall A i B, is = A ++ i :: B -> t i = Empty -> forall j d, In j B -> t j = Entry d -> hash d <> h.
Record ok (t : Z -> entry) (c : Z) : Prop := {
  ok_clean : forall i, 0 <= i < c -> t i <> Tomb;
  ok_tight : forall h, sealed t h (indices c h) }.

Lemma sealed_tail : forall t h i is, sealed t h (i :: is) -> sealed t h is.
Proof. intros t h i is S A j B -> E. apply (S (i :: A) j B); [reflexivity|exact E]. Qed.
Lemma sealed_empty : forall t n i is, sealed t (H n) (i :: is) -> t i = Empty -> named n t is = [].
Proof.
  intros t n i is S E. unfold named. assert (G : forall j, In j is -> sl n (t j) = []).
  { intros j Hj. destruct (t j) as [| |d] eqn:Ej; try reflexivity. cbn. destruct (name_eq (d_name d) n) as [En|]; [|reflexivity].
    destruct (S [] i is eq_refl E j d Hj Ej). congruence. }
  clear S. induction is as [|a is IH]; [reflexivity|]. cbn [flat_map]. rewrite G by (left; reflexivity). apply IH. intros j Hj. apply G. right. exact Hj.
Qed.

Lemma lookup_in_ok : forall t n is, (forall i, In i is -> t i <> Tomb) -> sealed t (H n) is ->
  lookup_in t is n = Done (hd_error (named n t is)).
Proof.
  intros t n is. induction is as [|i is IH]; intros C S; [reflexivity|]. cbn [lookup_in named flat_map].
  destruct (t i) as [| |d] eqn:E.
  - fold (named n t is). rewrite (sealed_empty _ _ _ _ S E). reflexivity.
  - destruct (C i (or_introl eq_refl) E).
  - cbn [sl]. unfold names_match. destruct (name_eq n (d_name d)) as [->|N].
    + destruct (name_eq (d_name d) (d_name d)); [reflexivity|congruence].
    + destruct (name_eq (d_name d) n); [congruence|]. cbn [app]. apply IH; [intros; apply C; right; assumption|eapply sealed_tail, S].
Qed.

(** The hash a slot holds. *)
Definition shape (e : entry) : option (option Z) := match e with Empty => None | Tomb => Some None | Entry d => Some (Some (hash d)) end.

Lemma put_other : forall t i e j, j <> i -> put_at t i e j = t j.
Proof. intros. unfold put_at. destruct (j =? i) eqn:Q; [apply Z.eqb_eq in Q; congruence|reflexivity]. Qed.
Lemma put_same : forall t i e, put_at t i e i = e.
Proof. intros. unfold put_at. rewrite Z.eqb_refl. reflexivity. Qed.
Lemma named_ext : forall n t t' is, (forall i, In i is -> sl n (t' i) = sl n (t i)) -> named n t' is = named n t is.
Proof. intros n t t' is E. unfold named. induction is as [|i is IH]; [reflexivity|]. cbn [flat_map]. rewrite E by (left; reflexivity). f_equal. apply IH. intros; apply E; right; assumption. Qed.

(** Filling the first free slot of a chain. *)
Lemma fill_ok : forall t t' c p h, pow2 c -> ok t c -> 0 <= p < c -> t p = Empty -> shape (t' p) = Some (Some h) -> (forall j, j <> p -> shape (t' j) = shape (t j)) ->
  (exists A B, indices c h = A ++ p :: B /\ forall i, In i A -> t i <> Empty) -> ok t' c.
Proof.
  intros t t' c p h Pc [C T] Hp E E' Sh (A & B & Ei & Ha). split.
  - intros i Hi Q. destruct (Z.eq_dec i p) as [->|N]; [rewrite Q in E'; discriminate|]. specialize (Sh i N). rewrite Q in Sh.
    destruct (t i) eqn:Q2; try discriminate. destruct (C i Hi Q2).
  - intros h' A' i B' Es Em j d Hj Ej Hd.
    assert (Ni : i <> p) by (intros ->; rewrite Em in E'; discriminate).
    assert (Emt : t i = Empty). { specialize (Sh i Ni). rewrite Em in Sh. destruct (t i); try discriminate. reflexivity. }
    destruct (Z.eq_dec j p) as [->|N].
    + rewrite Ej in E'. cbn in E'. assert (Hh : h' = h) by congruence.
      rewrite Hh, Ei in Es. assert (In i A).
      { clear - Es Hj Ni Ei Pc. pose proof (indices_nodup c h Pc) as Nd. rewrite Ei in Nd. revert A' Es Nd. clear Ei. induction A as [|a A IH]; intros A' Es Nd.
        - destruct A' as [|a' A']; cbn in Es.
          + assert (p = i) by congruence. congruence.
          + assert (Eb : B = A' ++ i :: B') by congruence. cbn in Nd. inversion Nd as [|? ? Np _]. destruct Np. rewrite Eb. apply in_or_app. right. right. exact Hj.
        - destruct A' as [|a' A']; cbn in Es; [left; congruence|right]. cbn in Nd. inversion Nd as [|? ? _ Nd2]. apply (IH A'); [congruence|exact Nd2]. }
      apply (Ha i H0). exact Emt.
    + specialize (Sh j N). rewrite Ej in Sh. destruct (t j) as [| |d'] eqn:Q; try discriminate. cbn in Sh.
      apply (T h' A' i B' Es Emt j d' Hj Q). congruence.
Qed.

Lemma place_ok : forall is t d w, NoDup is -> (forall i, In i is -> t i <> Tomb) -> (exists i, In i is /\ t i = Empty) -> sealed t (hash d) is ->
  exists t' p A B e, place t is d w = Done (t', w || match named (d_name d) t is with [] => false | _ => true end) /\
    is = A ++ p :: B /\ (forall i, In i A -> t i <> Empty) /\ t p = Empty /\ t' p = Entry e /\ d_name e = d_name d /\
    (forall j, j <> p -> shape (t' j) = shape (t j)) /\
    (forall j, ~ In j is -> t' j = t j) /\
    (forall n j, n <> d_name d -> sl n (t' j) = sl n (t j)) /\
    named (d_name d) t' is = d :: named (d_name d) t is.
Proof.
  induction is as [|i is IH]; intros t d w Nd C (f & Hf & Ef) S; [destruct Hf|].
  inversion Nd as [|? ? Ni Nd']; subst. cbn [place].
  destruct (t i) as [| |r] eqn:E.
  - exists (put_at t i (Entry d)), i, [], is, d. pose proof (sealed_empty _ _ _ _ S E) as Z.
    assert (Nm : named (d_name d) t (i :: is) = []) by (cbn [named flat_map]; rewrite E; exact Z).
    rewrite Nm, orb_false_r. split; [reflexivity|]. split; [reflexivity|]. split; [intros ? []|]. split; [exact E|]. split; [apply put_same|].
    split; [reflexivity|]. split; [intros j Hj; rewrite put_other by exact Hj; reflexivity|]. split.
    { intros j Hj. apply put_other. intros ->. apply Hj. left. reflexivity. }
    split.
    { intros n j N. destruct (Z.eq_dec j i) as [->|Q]; [rewrite put_same, E; cbn; destruct (name_eq (d_name d) n); congruence|rewrite put_other by exact Q; reflexivity]. }
    cbn [named flat_map]. rewrite put_same. cbn [sl]. destruct (name_eq (d_name d) (d_name d)) as [_|]; [|congruence]. cbn [app]. f_equal.
    fold (named (d_name d) (put_at t i (Entry d)) is). rewrite (named_ext _ t); [exact Z|]. intros j Hj. rewrite put_other; [reflexivity|]. intros ->. contradiction.
  - destruct (C i (or_introl eq_refl) E).
  - assert (Ff : In f is) by (destruct Hf as [->|Hf]; [congruence|exact Hf]).
    unfold names_match. destruct (name_eq (d_name d) (d_name r)) as [Er|Nr].
    + assert (Ext : forall j, In j is -> put_at t i (Entry d) j = t j) by (intros j Hj; apply put_other; intros ->; contradiction).
      assert (Sh : forall j, shape (put_at t i (Entry d) j) = shape (t j)).
      { intro j. destruct (Z.eq_dec j i) as [->|Q]; [rewrite put_same, E; cbn; congruence|rewrite put_other by exact Q; reflexivity]. }
      destruct (IH (put_at t i (Entry d)) r true Nd') as (t' & p & A & B & e & P1 & P2 & P3 & P4 & P5 & P6 & P7 & P8 & P9 & P10).
      * intros j Hj. rewrite Ext by exact Hj. apply C. right. exact Hj.
      * exists f. rewrite Ext by exact Ff. auto.
      * rewrite <- Er. intros A j B Es Ej k d' Hk Ek. rewrite Ext in Ej, Ek by (rewrite Es; apply in_or_app; cbn; auto).
        apply (S (i :: A) j B) with (j := k) (d := d'); [cbn; congruence|exact Ej|exact Hk|exact Ek].
      * exists t', p, (i :: A), B, e.
        assert (Pi : In p is) by (rewrite P2; apply in_or_app; cbn; auto).
        assert (Nm : named (d_name d) t (i :: is) = r :: named (d_name d) t is).
        { cbn [named flat_map]. rewrite E. cbn [sl]. destruct (name_eq (d_name r) (d_name d)); [reflexivity|congruence]. }
        assert (Nme : named (d_name r) (put_at t i (Entry d)) is = named (d_name d) t is).
        { rewrite <- Er. apply named_ext. intros j Hj. rewrite Ext by exact Hj. reflexivity. }
        rewrite Nm, orb_true_r. split; [rewrite P1; reflexivity|]. split; [cbn; congruence|]. split.
        { intros j [<-|Hj]; [congruence|]. specialize (P3 j Hj). rewrite Ext in P3; [exact P3|]. rewrite P2. apply in_or_app. auto. }
        split; [rewrite Ext in P4 by exact Pi; exact P4|]. split; [exact P5|]. split; [congruence|]. split; [intros j Hj; rewrite P7 by exact Hj; apply Sh|].
        split; [intros j Hj; rewrite P8 by (intro; apply Hj; right; assumption); apply put_other; intros ->; apply Hj; left; reflexivity|].
        split.
        { intros n j N. rewrite P9 by congruence. destruct (Z.eq_dec j i) as [->|Q]; [|rewrite put_other by exact Q; reflexivity].
          rewrite put_same, E. cbn. destruct (name_eq (d_name d) n), (name_eq (d_name r) n); congruence. }
        change (sl (d_name d) (t' i) ++ named (d_name d) t' is = d :: r :: named (d_name d) t is). rewrite P8 by exact Ni. rewrite put_same. cbn [sl].
        destruct (name_eq (d_name d) (d_name d)); [|congruence]. cbn [app]. f_equal. rewrite <- Nme, Er. exact P10.
    + destruct (IH t d w Nd') as (t' & p & A & B & e & P1 & P2 & P3 & P4 & P5 & P6 & P7 & P8 & P9 & P10).
      * intros j Hj. apply C. right. exact Hj.
      * exists f. auto.
      * eapply sealed_tail, S.
      * exists t', p, (i :: A), B, e.
        assert (Nm : named (d_name d) t (i :: is) = named (d_name d) t is).
        { cbn [named flat_map]. rewrite E. cbn [sl]. destruct (name_eq (d_name r) (d_name d)); [congruence|reflexivity]. }
        rewrite Nm. split; [exact P1|]. split; [cbn; congruence|]. split; [intros j [<-|Hj]; [congruence|apply P3, Hj]|].
        split; [exact P4|]. split; [exact P5|]. split; [exact P6|]. split; [exact P7|]. split; [intros j Hj; apply P8; intro; apply Hj; right; assumption|].
        split; [exact P9|]. change (sl (d_name d) (t' i) ++ named (d_name d) t' is = d :: named (d_name d) t is). rewrite P8 by exact Ni. rewrite E. cbn [sl].
        destruct (name_eq (d_name r) (d_name d)); [congruence|]. cbn [app]. exact P10.
Qed.

Lemma insert_new_ok : forall is t d, NoDup is -> (exists i, In i is /\ t i = Empty) ->
  exists p A B, is = A ++ p :: B /\ (forall i, In i A -> t i <> Empty) /\ t p = Empty /\ insert_new t is d = put_at t p (Entry d).
Proof.
  induction is as [|i is IH]; intros t d Nd (f & Hf & Ef); [destruct Hf|]. inversion Nd as [|? ? Ni Nd']; subst. cbn [insert_new].
  destruct (t i) as [| |r] eqn:E.
  - exists i, [], is. split; [reflexivity|]. split; [intros ? []|]. auto.
  - destruct (IH t d Nd') as (p & A & B & P1 & P2 & P3 & P4); [exists f; destruct Hf as [->|Hf]; [congruence|auto]|].
    exists p, (i :: A), B. split; [cbn; congruence|]. split; [intros j [<-|Hj]; [congruence|apply P2, Hj]|]. auto.
  - destruct (IH t d Nd') as (p & A & B & P1 & P2 & P3 & P4); [exists f; destruct Hf as [->|Hf]; [congruence|auto]|].
    exists p, (i :: A), B. split; [cbn; congruence|]. split; [intros j [<-|Hj]; [congruence|apply P2, Hj]|]. auto.
Qed.

Lemma named_app : forall n t a b, named n t (a ++ b) = named n t a ++ named n t b.
Proof. intros. unfold named. apply flat_map_app. Qed.
Lemma named_nil : forall n t is, (forall i, In i is -> sl n (t i) = []) -> named n t is = [].
Proof. intros n t is. induction is as [|i is IH]; intro E; [reflexivity|]. cbn. rewrite E by (left; reflexivity). apply IH. intros; apply E; right; assumption. Qed.
Lemma count_entry : forall t is i d, In i is -> t i = Entry d -> (0 < count t is)%nat.
Proof.
  intros t is i d Hi E. unfold count. assert (In i (filter (fun j => is_entry (t j)) is)) by (apply filter_In; rewrite E; auto).
  destruct (filter _ is); [contradiction|cbn; lia].
Qed.
Lemma room : forall t c h, pow2 c -> ok t c -> (Z.of_nat (count t (base c)) < c) -> exists i, In i (indices c h) /\ t i = Empty.
Proof.
  intros t c h P [C _] Hc. pose proof (pow2_gt c P). destruct (free_slot t (base c)) as (i & Hi & Ei).
  { pose proof (base_length c ltac:(lia)). lia. }
  apply base_in in Hi. exists i. split; [apply indices_in; assumption|]. specialize (C i Hi). destruct (t i); [reflexivity|congruence|discriminate].
Qed.

(** One more entry at the end of the chain of its hash. *)
Lemma append_ok : forall t c d, pow2 c -> ok t c -> Z.of_nat (count t (base c)) < c ->
  let t' := insert_new t (indices c (hash d)) d in
  ok t' c /\ count t' (base c) = S (count t (base c)) /\
  (forall n, H n = hash d -> named n t' (indices c (H n)) = named n t (indices c (H n)) ++ sl n (Entry d)) /\
  (forall n i, n <> d_name d -> sl n (t' i) = sl n (t i)).
Proof.
  intros t c d P O Hc t'. destruct (insert_new_ok (indices c (hash d)) t d (indices_nodup _ _ P) (room t c (hash d) P O Hc)) as (p & A & B & E1 & E2 & E3 & E4).
  unfold t'. rewrite E4. clear t' E4.
  assert (Hp : 0 <= p < c) by (apply (indices_in c (hash d) p P); rewrite E1; apply in_or_app; cbn; auto).
  assert (Sl : forall n i, n <> d_name d -> sl n (put_at t p (Entry d) i) = sl n (t i)).
  { intros n i N. destruct (Z.eq_dec i p) as [->|Q]; [|rewrite put_other by exact Q; reflexivity]. rewrite put_same, E3. cbn. destruct (name_eq (d_name d) n); congruence. }
  split; [|split; [|split; [|exact Sl]]].
  - apply (fill_ok t _ c p (hash d) P O Hp E3); [rewrite put_same; reflexivity|intros j Hj; rewrite put_other by exact Hj; reflexivity|eauto].
  - pose proof (count_put t (base c) p (Entry d) (base_nodup c) ltac:(apply base_in; exact Hp)) as Q. rewrite E3 in Q. cbn in Q. lia.
  - intros n En. rewrite En, E1. pose proof (indices_nodup c (hash d) P) as Nd. rewrite E1 in Nd. apply NoDup_remove in Nd. destruct Nd as (_ & Np).
    assert (Ex : forall l, (forall i, In i l -> In i (A ++ B)) -> named n (put_at t p (Entry d)) l = named n t l).
    { intros l Hl. apply named_ext. intros i Hi. rewrite put_other; [reflexivity|]. intros ->. apply Np, Hl, Hi. }
    rewrite !named_app. cbn [named flat_map]. fold (named n t B). fold (named n (put_at t p (Entry d)) B).
    rewrite (Ex A), (Ex B) by (intros; apply in_or_app; auto). rewrite put_same, E3. cbn [sl app].
    assert (Nb : named n t B = []).
    { apply named_nil. intros j Hj. destruct (t j) as [| |d'] eqn:Ej; try reflexivity. cbn. destruct (name_eq (d_name d') n) as [Q|]; [|reflexivity].
      destruct (ok_tight _ _ O (hash d) A p B E1 E3 j d' Hj Ej). congruence. }
    rewrite Nb, !app_nil_r. reflexivity.
Qed.

Section Grow.
Variables (orig : Z -> entry) (oc nc : Z) (K : nat).
Hypothesis Poc : pow2 oc.
Hypothesis Pnc : pow2 nc.
Hypothesis Oorig : ok orig oc.
Hypothesis HK : Z.of_nat K < nc.

Lemma chain_ok : forall h is past old new, past ++ is = indices oc h ->
  (forall i, In i is -> old i = orig i \/ (old i = Tomb /\ exists d, orig i = Entry d /\ hash d <> h)) ->
  ok new nc -> (forall n, H n = h -> named n new (indices nc h) = named n orig past) ->
  (count new (base nc) + count old (base oc) <= K)%nat ->
  let '(old', new') := move_chain H old new is nc h in
  ok new' nc /\ (forall n, H n = h -> named n new' (indices nc h) = named n orig (indices oc h)) /\
  (forall n i, H n <> h -> sl n (new' i) = sl n (new i)) /\
  (forall i d, In i is -> orig i = Entry d -> hash d = h -> old' i = Tomb) /\
  (forall i, old' i = old i \/ (old' i = Tomb /\ exists d, orig i = Entry d /\ hash d = h)) /\
  (count new' (base nc) + count old' (base oc) <= K)%nat.
Proof.
  intros h. induction is as [|i is IH]; intros past old new Ep Ho On Nm Ct.
  - cbn [move_chain]. rewrite app_nil_r in Ep. subst past. split; [exact On|]. split; [exact Nm|]. split; [auto|]. split; [intros ? ? []|]. split; [auto|exact Ct].
  - cbn [move_chain].
    assert (Ep' : (past ++ [i]) ++ is = indices oc h) by (rewrite <- app_assoc; exact Ep).
    assert (Hi : 0 <= i < oc) by (apply (indices_in oc h i Poc); rewrite <- Ep; apply in_or_app; cbn; auto).
    assert (Skip : (forall d, orig i = Entry d -> hash d <> h) ->
      let '(old', new') := move_chain H old new is nc h in
      ok new' nc /\ (forall n, H n = h -> named n new' (indices nc h) = named n orig (indices oc h)) /\
      (forall n i, H n <> h -> sl n (new' i) = sl n (new i)) /\
      (forall j d, In j (i :: is) -> orig j = Entry d -> hash d = h -> old' j = Tomb) /\
      (forall i, old' i = old i \/ (old' i = Tomb /\ exists d, orig i = Entry d /\ hash d = h)) /\
      (count new' (base nc) + count old' (base oc) <= K)%nat).
    { intro Nh. specialize (IH (past ++ [i]) old new Ep' ltac:(intros j Hj; apply Ho; right; exact Hj) On).
      destruct (move_chain H old new is nc h) as (old' & new'). destruct IH as (I1 & I2 & I3 & I4 & I5 & I6).
      - intros n En. rewrite Nm by exact En. rewrite named_app. cbn [named flat_map]. destruct (orig i) as [| |d] eqn:Q; cbn [sl]; rewrite ?app_nil_r; try reflexivity.
        destruct (name_eq (d_name d) n); [destruct (Nh d eq_refl); congruence|]. cbn [app]. rewrite app_nil_r. reflexivity.
      - exact Ct.
      - split; [exact I1|]. split; [exact I2|]. split; [exact I3|]. split; [|auto]. intros j d [<-|Hj] Ed Hd; [destruct (Nh d Ed Hd)|eapply I4; eassumption]. }
    destruct (old i) as [| |d] eqn:E.
    + assert (Eo : orig i = Empty) by (destruct (Ho i (or_introl eq_refl)) as [Q|(Q & _)]; congruence).
      split; [exact On|]. split.
      { intros n En. rewrite Nm by exact En. rewrite <- Ep, named_app. cbn [named flat_map]. rewrite Eo. cbn [sl app]. fold (named n orig is).
        rewrite (named_nil n orig is); [rewrite app_nil_r; reflexivity|]. intros j Hj. destruct (orig j) as [| |d'] eqn:Ej; try reflexivity. cbn.
        destruct (name_eq (d_name d') n); [|reflexivity]. destruct (ok_tight _ _ Oorig h past i is (eq_sym Ep) Eo j d' Hj Ej). congruence. }
      split; [auto|]. split; [|auto]. intros j d [<-|Hj] Ed Hd; [congruence|]. destruct (ok_tight _ _ Oorig h past i is (eq_sym Ep) Eo j d Hj Ed Hd).
    + apply Skip. intros d Ed. destruct (Ho i (or_introl eq_refl)) as [Q|(_ & d' & Q & N)]; [|congruence]. rewrite E in Q. destruct (ok_clean _ _ Oorig i Hi). congruence.
    + assert (Eo : orig i = Entry d) by (destruct (Ho i (or_introl eq_refl)) as [Q|(Q & _)]; congruence).
      destruct (hash d =? h) eqn:Hh; [apply Z.eqb_eq in Hh|apply Z.eqb_neq in Hh; apply Skip; intros; congruence].
      pose proof (count_entry old (base oc) i d ltac:(apply base_in; exact Hi) E) as C0.
      destruct (append_ok new nc d Pnc On ltac:(lia)) as (A1 & A2 & A3 & A4). rewrite Hh in A1, A2, A3, A4.
      assert (Nd : NoDup (i :: is)).
      { pose proof (indices_nodup oc h Poc) as Nd. rewrite <- Ep in Nd. clear - Nd. induction past as [|a past IHp]; [exact Nd|]. inversion Nd; auto. }
      inversion Nd as [|? ? Ni Nd']; subst.
      specialize (IH (past ++ [i]) (put_at old i Tomb) (insert_new new (indices nc (hash d)) d) Ep').
      destruct (move_chain H (put_at old i Tomb) (insert_new new (indices nc (hash d)) d) is nc (hash d)) as (old' & new').
      destruct IH as (I1 & I2 & I3 & I4 & I5 & I6).
      * intros j Hj. rewrite put_other by (intros ->; contradiction). apply Ho. right. exact Hj.
      * exact A1.
      * intros n En. rewrite <- En at 2. rewrite A3 by exact En. rewrite En, Nm by exact En. rewrite named_app. f_equal. cbn [named flat_map]. rewrite Eo, app_nil_r. reflexivity.
      * pose proof (count_put old (base oc) i Tomb (base_nodup oc) ltac:(apply base_in; exact Hi)) as Q. rewrite E in Q. cbn in Q. lia.
      * split; [exact I1|]. split; [exact I2|]. split; [intros n j Hn; rewrite I3 by exact Hn; apply A4; congruence|]. split.
        { intros j d' [<-|Hj] Ed Hd; [|eapply I4; eassumption]. destruct (I5 i) as [Q|(Q & _)]; [rewrite Q; apply put_same|exact Q]. }
        split; [|exact I6]. intro j. destruct (I5 j) as [Q|Q]; [|right; exact Q]. destruct (Z.eq_dec j i) as [->|N].
        -- right. split; [rewrite Q; apply put_same|]. exists d. auto.
        -- left. rewrite Q. apply put_other. exact N.
Qed.

Record growing (old new : Z -> entry) (M : Z -> Prop) : Prop := {
  g_old : forall i, 0 <= i < oc -> old i = orig i \/ (old i = Tomb /\ exists d, orig i = Entry d /\ M (hash d));
  g_tomb : forall i d, 0 <= i < oc -> orig i = Entry d -> M (hash d) -> old i = Tomb;
  g_new : ok new nc;
  g_moved : forall n, M (H n) -> named n new (indices nc (H n)) = named n orig (indices oc (H n));
  g_unmoved : forall n i, ~ M (H n) -> sl n (new i) = [];
  g_count : (count new (base nc) + count old (base oc) <= K)%nat }.

Lemma move_all_ok : forall l old new M, (forall i, In i l -> 0 <= i < oc) -> growing old new M ->
  let '(old', new') := move_all H old new l oc nc in
  exists M' : Z -> Prop, growing old' new' M' /\ (forall h, M h -> M' h) /\ (forall i d, In i l -> orig i = Entry d -> M' (hash d)).
Proof.
  induction l as [|i l IH]; intros old new M Hl G.
  - cbn [move_all]. exists M. split; [exact G|]. split; [auto|intros ? ? []].
  - cbn [move_all]. assert (Hi : 0 <= i < oc) by (apply Hl; left; reflexivity).
    assert (Hl' : forall j, In j l -> 0 <= j < oc) by (intros; apply Hl; right; assumption).
    destruct (old i) as [| |d] eqn:E.
    + specialize (IH old new M Hl' G). destruct (move_all H old new l oc nc) as (old' & new'). destruct IH as (M' & I1 & I2 & I3).
      exists M'. split; [exact I1|]. split; [exact I2|]. intros j d [<-|Hj] Ed; [|eapply I3; eassumption].
      destruct (g_old _ _ _ G i Hi) as [Q|(Q & _)]; congruence.
    + specialize (IH old new M Hl' G). destruct (move_all H old new l oc nc) as (old' & new'). destruct IH as (M' & I1 & I2 & I3).
      exists M'. split; [exact I1|]. split; [exact I2|]. intros j d [<-|Hj] Ed; [|eapply I3; eassumption].
      destruct (g_old _ _ _ G i Hi) as [Q|(_ & d' & Q & Md)]; [congruence|]. apply I2. congruence.
    + assert (Eo : orig i = Entry d) by (destruct (g_old _ _ _ G i Hi) as [Q|(Q & _)]; congruence).
      assert (Nm : ~ M (hash d)) by (intro Q; pose proof (g_tomb _ _ _ G i d Hi Eo Q); congruence).
      pose proof (chain_ok (hash d) (indices oc (hash d)) [] old new eq_refl) as C.
      destruct (move_chain H old new (indices oc (hash d)) nc (hash d)) as (old1 & new1).
      destruct C as (C1 & C2 & C3 & C4 & C5 & C6).
      * intros j Hj. apply (indices_in oc _ _ Poc) in Hj. destruct (g_old _ _ _ G j Hj) as [Q|(Q & d' & Q1 & Q2)]; [auto|right]. split; [exact Q|].
        exists d'. split; [exact Q1|]. intros Q3. rewrite Q3 in Q2. contradiction.
      * apply G.
      * intros n En. cbn. apply named_nil. intros j _. apply (g_unmoved _ _ _ G). rewrite En. exact Nm.
      * apply G.
      * assert (G1 : growing old1 new1 (fun h => M h \/ h = hash d)).
        { split.
          - intros j Hj. destruct (C5 j) as [Q|(Q & d' & Q1 & Q2)]; [|right; split; [exact Q|exists d'; auto]].
            rewrite Q. destruct (g_old _ _ _ G j Hj) as [R|(R & d' & R1 & R2)]; [auto|right; split; [exact R|exists d'; auto]].
          - intros j d' Hj Ed [Md|Hd].
            + pose proof (g_tomb _ _ _ G j d' Hj Ed Md) as R. destruct (C5 j) as [Q|(Q & _)]; congruence.
            + eapply C4; [apply (indices_in oc _ _ Poc); exact Hj|exact Ed|exact Hd].
          - exact C1.
          - intros n [Mn|Hn].
            + rewrite <- (g_moved _ _ _ G n Mn). apply named_ext. intros j _. apply C3. intros Q. rewrite Q in Mn. contradiction.
            + rewrite Hn. apply C2. exact Hn.
          - intros n j Nn. rewrite C3 by tauto. apply (g_unmoved _ _ _ G). tauto.
          - exact C6. }
        specialize (IH old1 new1 _ Hl' G1). destruct (move_all H old1 new1 l oc nc) as (old' & new'). destruct IH as (M' & I1 & I2 & I3).
        exists M'. split; [exact I1|]. split; [auto|]. intros j d' [<-|Hj] Ed; [|eapply I3; eassumption]. apply I2. right. congruence.
Qed.
End Grow.

(** ** A scope holds the declarations of a list, newest first *)
Record holds (s : scope) (ds : list decl) : Prop := {
  h_amount : amount s = Z.of_nat (length ds);
  h_cap : (capacity s = 0 /\ ds = []) \/ (pow2 (capacity s) /\ 8 <= capacity s);
  h_ok : ok (declarations s) (capacity s);
  h_count : (count (declarations s) (base (capacity s)) <= length ds)%nat;
  h_load : 2 * Z.of_nat (length ds) <= capacity s;
  h_named : forall n, named n (declarations s) (indices (capacity s) (H n)) = filter (fun d => if name_eq (d_name d) n then true else false) ds }.

Lemma ok_empty : forall c, ok (fun _ => Empty) c.
Proof. intro c. split; [discriminate|]. intros h A i B _ _ j d _ E. discriminate. Qed.
Lemma holds_new : forall f, holds (mkscope f (fun _ => Empty) 0 0) [].
Proof. intro f. split; cbn; auto; try lia. apply ok_empty. Qed.

Lemma grow_holds : forall s ds, holds s ds -> 2 * amount s = capacity s -> holds (grow H s) ds /\ 2 * Z.of_nat (length ds) < capacity (grow H s) /\ pow2 (capacity (grow H s)) /\ is_function_scope (grow H s) = is_function_scope s.
Proof.
  intros s ds [Ha Hc Ho Hn Hl Hd] E. unfold grow. fold (base (capacity s)).
  destruct Hc as [(C0 & ->)|(Pc & C8)].
  - rewrite C0. cbn in Ha. cbn. split; [|split; [lia|split; [exists 3; split; [lia|reflexivity]|reflexivity]]].
    split; cbn; auto; try lia; [right; split; [exists 3; split; [lia|reflexivity]|lia]|apply ok_empty].
  - replace (Z.max (2 * capacity s) 8) with (2 * capacity s) by lia.
    assert (Pn : pow2 (2 * capacity s)) by (destruct Pc as (k & Hk & ->); exists (k + 1); split; [lia|]; rewrite Z.pow_add_r by lia; lia).
    assert (G0 : growing (declarations s) (capacity s) (2 * capacity s) (length ds) (declarations s) (fun _ => Empty) (fun _ => False)).
    { split; try tauto; try reflexivity; [apply ok_empty|]. assert (Q : count (fun _ => Empty) (base (2 * capacity s)) = 0%nat) by (unfold count; induction (base (2 * capacity s)); [reflexivity|assumption]). lia. }
    pose proof (move_all_ok (declarations s) (capacity s) (2 * capacity s) (length ds) Pc Pn Ho ltac:(lia) (base (capacity s)) (declarations s) (fun _ => Empty) (fun _ => False)
      ltac:(intros i Hi; apply base_in; exact Hi) G0) as MA.
    destruct (move_all H (declarations s) (fun _ => Empty) (base (capacity s)) (capacity s) (2 * capacity s)) as (old' & new').
    destruct MA as (M & G & _ & V). cbn [is_function_scope declarations amount capacity].
    split; [|split; [lia|split; [exact Pn|reflexivity]]]. split; cbn [is_function_scope declarations amount capacity].
    + exact Ha.
    + right. split; [exact Pn|lia].
    + apply G.
    + pose proof (g_count _ _ _ _ _ _ _ G). lia.
    + lia.
    + intro n. rewrite <- Hd.
      assert (D : M (H n) \/ (forall i, In i (indices (capacity s) (H n)) -> sl n (declarations s i) = [])).
      { destruct (named n (declarations s) (indices (capacity s) (H n))) as [|d r] eqn:Q.
        - right. intros i Hi. destruct (sl n (declarations s i)) as [|x y] eqn:Z; [reflexivity|].
          assert (In x (named n (declarations s) (indices (capacity s) (H n)))) by (apply in_flat_map; exists i; rewrite Z; cbn; auto). rewrite Q in H0. destruct H0.
        - left. assert (I : In d (named n (declarations s) (indices (capacity s) (H n)))) by (rewrite Q; left; reflexivity).
          apply in_flat_map in I. destruct I as (i & Hi & Hs). destruct (declarations s i) as [| |d'] eqn:Ei; try destruct Hs. cbn in Hs.
          destruct (name_eq (d_name d') n) as [<-|]; [|destruct Hs]. eapply V; [apply base_in; apply (indices_in _ (H (d_name d')) _ Pc); exact Hi|exact Ei]. }
      destruct D as [Mn|Z]; [apply (g_moved _ _ _ _ _ _ _ G n Mn)|]. rewrite (named_nil _ _ _ Z).
      destruct (named n new' (indices (2 * capacity s) (H n))) as [|x r] eqn:R; [reflexivity|exfalso].
      assert (Q : ~ M (H n)) by (intro Mn; pose proof (g_moved _ _ _ _ _ _ _ G n Mn) as R'; rewrite (named_nil _ _ _ Z) in R'; congruence).
      rewrite (named_nil n new') in R; [discriminate|]. intros i _. apply (g_unmoved _ _ _ _ _ _ _ G n i Q).
Qed.

Lemma register_holds : forall s ds d, holds s ds ->
  exists s', register_in_scope H s d = Done (s', match latest (d_name d) ds with None => false | Some _ => true end) /\
    holds s' (d :: ds) /\ is_function_scope s' = is_function_scope s.
Proof.
  intros s ds d Hs. unfold register_in_scope.
  assert (G : exists s1, (if 2 * amount s =? capacity s then grow H s else s) = s1 /\ holds s1 ds /\ 2 * Z.of_nat (length ds) < capacity s1 /\ pow2 (capacity s1) /\ is_function_scope s1 = is_function_scope s).
  { destruct (2 * amount s =? capacity s) eqn:Q; eexists; (split; [reflexivity|]).
    - apply Z.eqb_eq in Q. apply (grow_holds s ds Hs Q).
    - apply Z.eqb_neq in Q. pose proof Hs as [Ha Hc Ho Hn Hl Hd]. split; [exact Hs|]. destruct Hc as [(C0 & ->)|(Pc & C8)]; [cbn in Ha; lia|]. split; [lia|auto]. }
  destruct G as (s1 & -> & H1 & Lt & Pc & Hf). clear Hs. destruct H1 as [Ha Hc Ho Hn Hl Hd].
  set (t := declarations s1) in *. set (c := capacity s1) in *.
  assert (C8 : 8 <= c) by (destruct Hc as [(C0 & _)|(_ & C8)]; [pose proof (pow2_gt c Pc); lia|exact C8]).
  destruct (place_ok (indices c (hash d)) t d false (indices_nodup _ _ Pc)) as (t' & p & A & B & e & P1 & P2 & P3 & P4 & P5 & P6 & P7 & P8 & P9 & P10).
  - intros i Hi. apply (ok_clean _ _ Ho). apply (indices_in c (hash d) i Pc). exact Hi.
  - apply room; [exact Pc|exact Ho|lia].
  - apply (ok_tight _ _ Ho).
  - assert (Hp : 0 <= p < c) by (apply (indices_in c (hash d) p Pc); rewrite P2; apply in_or_app; cbn; auto).
    rewrite P1. cbn [obind orb]. eexists. split; [|split].
    + rewrite Hd. unfold latest.
      assert (Q : forall l, (match filter (fun d0 => if name_eq (d_name d0) (d_name d) then true else false) l with [] => false | _ => true end) =
        (match find (fun d0 => if name_eq (d_name d0) (d_name d) then true else false) l with None => false | Some _ => true end)).
      { induction l as [|a l IH]; [reflexivity|]. cbn [filter find]. destruct (name_eq (d_name a) (d_name d)); [reflexivity|exact IH]. }
      rewrite Q. reflexivity.
    + split; cbn [is_function_scope declarations amount capacity length].
      * lia.
      * right. auto.
      * apply (fill_ok t t' c p (hash d) Pc Ho Hp P4); [rewrite P5; cbn; congruence|exact P7|eauto].
      * assert (Q : count t' (base c) = count (put_at t p (Entry e)) (base c)).
        { unfold count. f_equal. apply filter_ext. intro i. destruct (Z.eq_dec i p) as [->|N]; [rewrite put_same, P5; reflexivity|rewrite put_other by exact N].
          specialize (P7 i N). destruct (t' i), (t i); cbn in *; congruence. }
        rewrite Q. pose proof (count_put t (base c) p (Entry e) (base_nodup c) ltac:(apply base_in; exact Hp)) as R. rewrite P4 in R. cbn in R. lia.
      * destruct Pc as (k & Hk & Ek). assert (c = 2 * 2 ^ (k - 1)) by (rewrite Ek; apply pow2_split; destruct (Z.eq_dec k 0) as [->|]; [cbn in Ek|]; lia). lia.
      * intro n. cbn [filter]. destruct (name_eq (d_name d) n) as [<-|N].
        -- rewrite P10, Hd. reflexivity.
        -- rewrite <- Hd. apply named_ext. intros i _. apply P9. congruence.
    + exact Hf.
Qed.

Lemma find_filter : forall (f : decl -> bool) l, hd_error (filter f l) = find f l.
Proof. intros f l. induction l as [|a l IH]; [reflexivity|]. cbn. destruct (f a); [reflexivity|exact IH]. Qed.

Lemma lookup_holds : forall s ds n, holds s ds -> lookup_in (declarations s) (indices (capacity s) (H n)) n = Done (latest n ds).
Proof.
  intros s ds n [Ha Hc Ho Hn Hl Hd]. rewrite lookup_in_ok; [rewrite Hd, find_filter; reflexivity| |apply (ok_tight _ _ Ho)].
  intros i Hi. destruct Hc as [(C0 & ->)|(Pc & _)]; [rewrite C0 in Hi; destruct Hi|]. apply (ok_clean _ _ Ho). apply (indices_in _ (H n) i Pc). exact Hi.
Qed.

Definition both (s : scope) (p : bool * list decl) : Prop := is_function_scope s = fst p /\ holds s (snd p).

Lemma lookup_meaning : forall global scopes ps n, Forall2 both scopes ps -> lookup_declaration H global scopes n = Done (meaning global ps n).
Proof.
  intros global scopes ps n F. induction F as [|s (f & ds) scopes ps (Hf & Hh) F IH]; [reflexivity|]. cbn [fst snd] in *. cbn [lookup_declaration meaning].
  rewrite (lookup_holds _ _ _ Hh). cbn [obind]. destruct (latest n ds); [reflexivity|]. rewrite Hf. destruct f; [reflexivity|exact IH].
Qed.

(** Which events of a history hide a declaration of the same scope. *)
Fixpoint hides (scopes : list (bool * list decl)) (es : list event) : list bool :=
  match es with
  | [] => []
  | Enter f :: es => false :: hides ((f, []) :: scopes) es
  | Leave :: es => false :: hides (tl scopes) es
  | Declare d :: es =>
      match scopes with
      | [] => []
      | (f, ds) :: outer => (match latest (d_name d) ds with None => false | Some _ => true end) :: hides ((f, d :: ds) :: outer) es
      end
  end.

Lemma run_ok : forall es scopes ps ps', Forall2 both scopes ps -> opened ps es = Some ps' ->
  exists scopes', run H scopes es = Done (scopes', hides ps es) /\ Forall2 both scopes' ps'.
Proof.
  induction es as [|e es IH]; intros scopes ps ps' F O.
  - cbn in O. assert (ps' = ps) by congruence. subst. exists scopes. auto.
  - destruct e as [f| |d]; cbn [opened] in O; cbn [run hides].
    + cbn [step obind]. destruct (IH (mkscope f (fun _ => Empty) 0 0 :: scopes) ((f, []) :: ps) ps') as (scopes' & R & F').
      * constructor; [split; [reflexivity|apply holds_new]|exact F].
      * exact O.
      * rewrite R. cbn. eauto.
    + inversion F as [|s p scopes0 ps0 B F0]; subst; [discriminate|]. cbn [step obind tl]. destruct (IH _ _ _ F0 O) as (scopes' & R & F'). rewrite R. cbn. eauto.
    + inversion F as [|s p scopes0 ps0 B F0]; subst; [discriminate|]. destruct p as (f & ds). destruct B as (Bf & Bh). cbn [fst snd] in *.
      destruct (register_holds s ds d Bh) as (s' & R1 & H1 & Hf). cbn [step]. rewrite R1. cbn [obind].
      destruct (IH (s' :: scopes0) ((f, d :: ds) :: ps0) ps') as (scopes' & R & F').
      * constructor; [split; [cbn; congruence|exact H1]|exact F0].
      * exact O.
      * rewrite R. cbn. eauto.
Qed.

Theorem scopes_ok : forall global es ps n, opened [] es = Some ps ->
  exists scopes ws, run H [] es = Done (scopes, ws) /\ lookup_declaration H global scopes n = Done (meaning global ps n).
Proof.
  intros global es ps n O. destruct (run_ok es [] [] ps ltac:(constructor) O) as (scopes & R & F). exists scopes, (hides [] es). split; [exact R|].
  apply lookup_meaning. exact F.
Qed.
End S.
