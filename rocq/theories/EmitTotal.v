(** The code generator for integer expressions never meets one of its internal errors: lemmas. *)
From Coq Require Import List ZArith Bool Lia Permutation.
From Verif Require Import Base EncModel EmitModel EmitBasics.
Import ListNotations.
Open Scope Z_scope.

Inductive kind : Set := KVal | KImm | KCond.
(** What is known of a location: its number, its size, its locks, its kind. *)
Record item : Set := mkitem { iid : nat; isz : Z; ilk : Z; ikd : kind }.

Definition runs {A} (e : M A) (s : emitter) (Q : A -> emitter -> Prop) : Prop :=
  exists a s', e s = Done (a, s') /\ Q a s'.

Lemma runs_bind : forall A B (e : M A) (f : A -> M B) s P Q,
  runs e s P -> (forall a s', P a s' -> runs (f a) s' Q) -> runs (bind e f) s Q.
Proof.
  intros A B e f s P Q (a & s1 & E & H) F. destruct (F a s1 H) as (b & s2 & E2 & H2).
  exists b, s2. split; [|exact H2]. unfold bind. rewrite E. cbn [obind]. exact E2.
Qed.
Lemma runs_ret : forall A (a : A) s (Q : A -> emitter -> Prop), Q a s -> runs (ret a) s Q.
Proof. intros. exists a, s. split; [reflexivity|assumption]. Qed.
Lemma runs_weaken : forall A (e : M A) s (P Q : A -> emitter -> Prop), runs e s P -> (forall a s', P a s' -> Q a s') -> runs e s Q.
Proof. intros A e s P Q (a & s1 & E & H) F. exists a, s1. auto. Qed.
Lemma runs_assertion : forall b s (Q : unit -> emitter -> Prop), b = true -> Q tt s -> runs (assertion b) s Q.
Proof. intros b s Q -> H. apply runs_ret, H. Qed.

Definition off_ok (off : Z) : Prop := -2147483648 <= off <= 2147483647.

Definition state_ok (s : emitter) (x : item) (st : loc_state) : Prop :=
  match st, ikd x with
  | Loaded r, KVal => rmap s r = Some (iid x)
  | RegRel b None k off, KVal => b = 0%nat /\ off_ok off
  | Immediate _, KImm => True
  | Conditional c, KCond => (exists o, set_opcode c = Done o) /\ (exists d, negate_condition c = Done d) /\ (isz x = 4 \/ isz x = 1)
  | _, _ => False
  end.

Section Total.
Variable ss : Z.

(** [n]: how many more registers can be spilled before the slots are out of reach. *)
Record well (n : Z) (s : emitter) (K : list item) : Prop := {
  w_bp : exists p, nth_error (heap s) 0 = Some (mkloc (Loaded 5) 8 p 0) /\ 0 <= p;
  w_map : forall r id, rmap s r = Some id -> In r volatile /\ exists x, In x K /\ iid x = id /\
            exists l, nth_error (heap s) id = Some l /\ l_state l = Loaded r;
  w_items : forall x, In x K -> iid x <> 0%nat /\ is_size (isz x) = true /\ 0 <= ilk x /\
            exists st, nth_error (heap s) (iid x) = Some (mkloc st (isz x) (ilk x) 0) /\ state_ok s x st;
  w_nodup : NoDup (map iid K);
  w_tsa : 0 <= n /\ 0 <= ss /\ 0 <= tsa s /\ ss + tsa s + 16 * n <= 2147483648 }.

Lemma well_less : forall n m s K, well n s K -> 0 <= m <= n -> well m s K.
Proof. intros n m s K [A B C D E] H. split; auto. lia. Qed.

Lemma well_perm : forall n s K K', Permutation K K' -> well n s K -> well n s K'.
Proof.
  intros n s K K' P [A B C D E]. split; auto.
  - intros r id H. destruct (B r id H) as (V & x & I & R). split; [exact V|]. exists x. split; [eapply Permutation_in; eassumption|exact R].
  - intros x I. apply C. eapply Permutation_in; [symmetry; eassumption|exact I].
  - eapply Permutation_NoDup; [apply Permutation_map; eassumption|exact D].
Qed.

Lemma same_item : forall n s K x y, well n s K -> In x K -> In y K -> iid x = iid y -> x = y.
Proof.
  intros n s K x y W Ix Iy E. pose proof (w_nodup _ _ _ W) as D. clear W.
  induction K as [|z K IH]; [contradiction|]. cbn in D. apply NoDup_cons_iff in D. destruct D as (N & D).
  destruct Ix as [->|Ix], Iy as [->|Iy]; auto.
  - exfalso. apply N. rewrite E. apply List.in_map. exact Iy.
  - exfalso. apply N. rewrite <- E. apply List.in_map. exact Ix.
Qed.

(** The owner of a register. *)
Lemma owner : forall n s K r id, well n s K -> rmap s r = Some id -> In r volatile /\ exists x, In x K /\ iid x = id /\ ikd x = KVal /\ nth_error (heap s) id = Some (mkloc (Loaded r) (isz x) (ilk x) 0).
Proof.
  intros n s K r id W H. destruct (w_map _ _ _ W r id H) as (V & x & I & E & l & Hl & Sl). split; [exact V|]. exists x.
  destruct (w_items _ _ _ W x I) as (_ & _ & _ & st & Hs & Ok). rewrite E in Hs. assert (l = mkloc st (isz x) (ilk x) 0) by congruence. subst l.
  cbn in Sl. subst st. split; [exact I|]. split; [exact E|]. split; [|exact Hs]. unfold state_ok in Ok. destruct (ikd x); try contradiction. reflexivity.
Qed.
Lemma one_register : forall n s K r q id, well n s K -> rmap s r = Some id -> rmap s q = Some id -> r = q.
Proof.
  intros n s K r q id W A B. destruct (owner _ _ _ _ _ W A) as (_ & x & _ & _ & _ & Hx). destruct (owner _ _ _ _ _ W B) as (_ & y & _ & _ & _ & Hy).
  congruence.
Qed.

(** Locked values stay in their registers. *)
Definition pins (K : list item) (s s' : emitter) : Prop :=
  forall r x, In x K -> 0 < ilk x -> rmap s r = Some (iid x) -> rmap s' r = Some (iid x).
Lemma pins_refl : forall K s, pins K s s.
Proof. intros K s r x _ _ H. exact H. Qed.
Lemma pins_trans : forall K a b c, pins K a b -> pins K b c -> pins K a c.
Proof. intros K a b c A B r x I L H. apply B; auto. Qed.
Lemma pins_same : forall K a b, (forall r, rmap b r = rmap a r) -> pins K a b.
Proof. intros K a b E r x I L H. rewrite E. exact H. Qed.
Lemma pins_incl : forall K K' a b, incl K K' -> pins K' a b -> pins K a b.
Proof. intros K K' a b I A r x H L. apply A; auto. Qed.

Definition shrinks (r : Z) (s s' : emitter) : Prop := forall q i, q <> r -> rmap s' q = Some i -> rmap s q = Some i.

Lemma nth_replace : forall A (l : list A) n m x, nth_error (replace_nth n x l) m = if Nat.eqb n m then (match nth_error l m with Some _ => Some x | None => None end) else nth_error l m.
Proof.
  induction l as [|h t IH]; intros n m x.
  - replace (replace_nth n x []) with (@nil A) by (destruct n; reflexivity). destruct (Nat.eqb n m), m; reflexivity.
  - destruct n as [|n], m as [|m]; cbn; try reflexivity. apply IH.
Qed.

(** Changing one location. *)
Lemma set_item : forall n s K x x' st f, well n s (x :: K) -> iid x' = iid x -> is_size (isz x') = true -> 0 <= ilk x' ->
  (forall q, rmap s q = Some (iid x) -> st = Loaded q) ->
  nth_error (heap s) (iid x) <> None ->
  f = rmap s ->
  state_ok s x' st ->
  well n (in_map f (in_heap (replace_nth (iid x) (mkloc st (isz x') (ilk x') 0) (heap s)) s)) (x' :: K).
Proof.
  intros n s K x x' st f W E Z L Q Nn -> Ok. pose proof W as [A B C D T]. 
  assert (I0 : iid x <> 0%nat) by (apply (C x); left; reflexivity).
  split; cbn [heap rmap tsa in_heap in_map].
  - destruct A as (p & A & P). exists p. rewrite nth_replace. destruct (Nat.eqb_spec (iid x) 0); [contradiction|]. auto.
  - intros r id H. destruct (B r id H) as (V & y & I & Ey & l & Hl & Sl). split; [exact V|].
    rewrite nth_replace. destruct (Nat.eqb_spec (iid x) id) as [e|ne].
    + exists x'. split; [left; reflexivity|]. split; [congruence|]. rewrite Hl. eexists. split; [reflexivity|]. cbn. apply Q. congruence.
    + exists y. destruct I as [->|I]; [congruence|]. split; [right; exact I|]. split; [exact Ey|]. eauto.
  - intros y [<-|I].
    + rewrite E. split; [exact I0|]. split; [exact Z|]. split; [exact L|]. exists st. rewrite nth_replace, Nat.eqb_refl.
      destruct (nth_error (heap s) (iid x)); [|contradiction]. split; [reflexivity|exact Ok].
    + destruct (C y (or_intror I)) as (N0 & Zy & Ly & sy & Hy & Oky). split; [exact N0|]. split; [exact Zy|]. split; [exact Ly|]. exists sy.
      rewrite nth_replace. destruct (Nat.eqb_spec (iid x) (iid y)) as [e|ne]; [|auto].
      exfalso. cbn in D. apply NoDup_cons_iff in D. apply (proj1 D). rewrite e. apply List.in_map. exact I.
  - cbn. rewrite E. exact D.
  - exact T.
Qed.

Lemma item_state : forall n s K x, well n s K -> In x K -> iid x <> 0%nat /\ is_size (isz x) = true /\ 0 <= ilk x /\
  exists st, nth_error (heap s) (iid x) = Some (mkloc st (isz x) (ilk x) 0) /\ state_ok s x st.
Proof. intros n s K x W I. apply (w_items _ _ _ W x I). Qed.

Lemma get_item : forall n s K x (Q : location -> emitter -> Prop), well n s K -> In x K ->
  (forall st, nth_error (heap s) (iid x) = Some (mkloc st (isz x) (ilk x) 0) -> state_ok s x st -> Q (mkloc st (isz x) (ilk x) 0) s) -> runs (get (iid x)) s Q.
Proof.
  intros n s K x Q W I H. destruct (item_state _ _ _ _ W I) as (_ & _ & _ & st & Hs & Ok). exists (mkloc st (isz x) (ilk x) 0), s.
  unfold get. rewrite Hs. split; [reflexivity|]. apply H; assumption.
Qed.

(** modify of size and locks, state unchanged. *)
Lemma modify_item : forall n s K x x' f, well n s (x :: K) -> iid x' = iid x -> is_size (isz x') = true -> 0 <= ilk x' -> ikd x' = ikd x -> (ikd x = KCond -> isz x' = 4 \/ isz x' = 1) ->
  (forall st, f (mkloc st (isz x) (ilk x) 0) = mkloc st (isz x') (ilk x') 0) ->
  runs (modify (iid x) f) s (fun _ s' => well n s' (x' :: K) /\ rmap s' = rmap s).
Proof.
  intros n s K x x' f W E Z L Kd Kc F. unfold modify. eapply runs_bind.
  { eapply get_item with (K := x :: K); [exact W|left; reflexivity|]. intros st Hs Ok. exact (conj eq_refl (conj Hs Ok) : (fun l s' => s' = s /\ nth_error (heap s) (iid x) = Some l /\ state_ok s x (l_state l)) _ _). }
  cbv beta. intros [st z lk pf] s1 (-> & Hs & Ok). cbn in Ok.
  destruct (item_state _ _ _ _ W (or_introl eq_refl)) as (_ & _ & _ & st' & Hs' & _).
  assert (mkloc st z lk pf = mkloc st' (isz x) (ilk x) 0) as Em by congruence. rewrite Em. injection Em as -> -> -> ->.
  eexists _, _. split; [reflexivity|]. rewrite F. split; [|reflexivity].
  apply (set_item n s K x x' st' (rmap s) W E Z L); auto.
  - intros q Hq. destruct (owner _ _ _ _ _ W Hq) as (_ & y & _ & _ & _ & Hy). congruence.
  - congruence.
  - unfold state_ok in *. rewrite E, Kd. destruct st'; auto; destruct (ikd x); auto. destruct Ok as (O1 & O2 & O3). split; [exact O1|]. split; [exact O2|]. apply Kc. reflexivity.
Qed.

Lemma well_out : forall n s K bs, well n s K -> well n (in_code (code s ++ bs) s) K.
Proof. intros n s K bs [A B C D E]. split; auto. Qed.
Lemma runs_out : forall n s K bs, well n s K -> runs (out bs) s (fun _ s' => well n s' K /\ rmap s' = rmap s).
Proof. intros. eexists _, _. split; [reflexivity|]. split; [apply well_out; assumption|reflexivity]. Qed.
Lemma well_rolling : forall n s K k, well n s K -> well n (in_rolling k s) K.
Proof. intros n s K k [A B C D E]. split; auto. Qed.

(** New locations. *)
Lemma well_new : forall n s K x st r, well n s K -> iid x = length (heap s) -> is_size (isz x) = true -> ilk x = 0 ->
  match st with Loaded q => q = r /\ In r volatile /\ rmap s r = None /\ ikd x = KVal
              | _ => state_ok s x st end ->
  well n (match st with Loaded _ => in_map (fun q => if q =? r then Some (iid x) else rmap s q) (in_heap (heap s ++ [mkloc st (isz x) 0 0]) s)
                      | _ => in_heap (heap s ++ [mkloc st (isz x) 0 0]) s end) (x :: K).
Proof.
  intros n s K x st r W E Z L H. pose proof W as [A B C D T].
  assert (Old : forall i l, nth_error (heap s) i = Some l -> nth_error (heap s ++ [mkloc st (isz x) 0 0]) i = Some l).
  { intros i l Hi. rewrite nth_error_app1; [exact Hi|]. apply nth_error_Some. congruence. }
  assert (New : nth_error (heap s ++ [mkloc st (isz x) 0 0]) (iid x) = Some (mkloc st (isz x) 0 0)).
  { rewrite E, nth_error_app2, Nat.sub_diag by lia. reflexivity. }
  assert (H0 : iid x <> 0%nat). { destruct A as (p & A & _). rewrite E. destruct (heap s); [discriminate|cbn; lia]. }
  assert (Fr : forall y, In y K -> iid y <> iid x).
  { intros y I X. destruct (C y I) as (_ & _ & _ & sy & Hy & _). rewrite X, E in Hy. assert (nth_error (heap s) (length (heap s)) <> None) by congruence. apply nth_error_Some in H1. lia. }
  assert (Nd : NoDup (map iid (x :: K))).
  { cbn. constructor; [|exact D]. intro X. apply in_map_iff in X. destruct X as (y & Ey & Iy). exact (Fr y Iy Ey). }
  assert (Bp : exists p, nth_error (heap s ++ [mkloc st (isz x) 0 0]) 0 = Some (mkloc (Loaded 5) 8 p 0) /\ 0 <= p).
  { destruct A as (p & A & P). exists p. split; [apply Old, A|exact P]. }
  destruct st as [q|v|b i k off|c|].
  - destruct H as (-> & V & F & Kd). split; cbn [heap rmap tsa in_heap in_map]; auto.
    + intros q id Hq. destruct (Z.eqb_spec q r) as [->|Nq].
      * injection Hq as <-. split; [exact V|]. exists x. split; [left; reflexivity|]. split; [reflexivity|]. eexists. split; [exact New|reflexivity].
      * destruct (B q id Hq) as (V' & y & I & Ey & l & Hl & Sl). split; [exact V'|]. exists y. split; [right; exact I|]. split; [exact Ey|]. exists l. auto.
    + intros y [<-|I].
      * split; [exact H0|]. split; [exact Z|]. split; [lia|]. eexists. split; [rewrite L; exact New|]. unfold state_ok. rewrite Kd. cbn. rewrite Z.eqb_refl. reflexivity.
      * destruct (C y I) as (N0 & Zy & Ly & sy & Hy & Oky). split; [exact N0|]. split; [exact Zy|]. split; [exact Ly|]. exists sy. split; [apply Old, Hy|].
        unfold state_ok in *. destruct sy; auto. destruct (ikd y); auto. cbn. destruct (Z.eqb_spec r0 r) as [->|]; [congruence|exact Oky].
  - split; cbn [heap rmap tsa in_heap]; auto.
    + intros q id Hq. destruct (B q id Hq) as (V' & y & I & Ey & l & Hl & Sl). split; [exact V'|]. exists y. split; [right; exact I|]. split; [exact Ey|]. exists l. auto.
    + intros y [<-|I].
      * split; [exact H0|]. split; [exact Z|]. split; [lia|]. eexists. split; [rewrite L; exact New|]. exact H.
      * destruct (C y I) as (N0 & Zy & Ly & sy & Hy & Oky). split; [exact N0|]. split; [exact Zy|]. split; [exact Ly|]. exists sy. split; [apply Old, Hy|exact Oky].
  - split; cbn [heap rmap tsa in_heap]; auto.
    + intros q id Hq. destruct (B q id Hq) as (V' & y & I & Ey & l & Hl & Sl). split; [exact V'|]. exists y. split; [right; exact I|]. split; [exact Ey|]. exists l. auto.
    + intros y [<-|I].
      * split; [exact H0|]. split; [exact Z|]. split; [lia|]. eexists. split; [rewrite L; exact New|]. exact H.
      * destruct (C y I) as (N0 & Zy & Ly & sy & Hy & Oky). split; [exact N0|]. split; [exact Zy|]. split; [exact Ly|]. exists sy. split; [apply Old, Hy|exact Oky].
  - split; cbn [heap rmap tsa in_heap]; auto.
    + intros q id Hq. destruct (B q id Hq) as (V' & y & I & Ey & l & Hl & Sl). split; [exact V'|]. exists y. split; [right; exact I|]. split; [exact Ey|]. exists l. auto.
    + intros y [<-|I].
      * split; [exact H0|]. split; [exact Z|]. split; [lia|]. eexists. split; [rewrite L; exact New|]. exact H.
      * destruct (C y I) as (N0 & Zy & Ly & sy & Hy & Oky). split; [exact N0|]. split; [exact Zy|]. split; [exact Ly|]. exists sy. split; [apply Old, Hy|exact Oky].
  - contradiction.
Qed.

Lemma loaded_new : forall n s K r k, well n s K -> rmap s r = None -> In r volatile -> is_size k = true ->
  runs (emit_location_loaded r k) s (fun id s' => well n s' (mkitem id k 0 KVal :: K) /\ rmap s' r = Some id /\
    (forall q, q <> r -> rmap s' q = rmap s q)).
Proof.
  intros n s K r k W F V Z. unfold emit_location_loaded, runs. rewrite F. eexists _, _. split; [reflexivity|].
  split; [|split].
  - apply (well_new n s K (mkitem (length (heap s)) k 0 KVal) (Loaded r) r W); cbn; auto.
  - cbn. rewrite Z.eqb_refl. reflexivity.
  - intros q Nq. cbn. apply Z.eqb_neq in Nq. rewrite Nq. reflexivity.
Qed.

(** Spilling. *)
Lemma is_size_cases : forall n, is_size n = true -> n = 1 \/ n = 2 \/ n = 4 \/ n = 8.
Proof. intros n H. unfold is_size in H. rewrite !orb_true_iff, !Z.eqb_eq in H. lia. Qed.

Lemma spill_runs : forall n s K r x, well (n + 1) s K -> 0 <= n -> In x K -> rmap s r = Some (iid x) -> ilk x = 0 ->
  runs (spill_register ss r) s (fun _ s' => well n s' K /\ (forall q, rmap s' q = if q =? r then None else rmap s q)).
Proof.
  intros n s K r x W Hn I H L. pose proof W as [A B C D T]. destruct (owner _ _ _ _ _ W H) as (V & y & Iy & Ey & Ky & Hy).
  assert (y = x) by (eapply same_item; eauto). subst y. rewrite L in Hy. destruct (C x I) as (N0 & Z & _ & _).
  pose proof (is_size_cases _ Z) as Zc.
  unfold runs, spill_register. rewrite H. unfold bind, get. rewrite Hy. cbn [obind l_prevent_spilling l_size l_prevent_freeing].
  unfold assertion. rewrite Z.eqb_refl, Z. cbn [obind ret]. unfold allocate_temporary. cbn [obind].
  eexists _, _. split; [reflexivity|]. split; [|reflexivity].
  pose proof (align_up_ge (tsa s) (isz x) ltac:(lia)) as (Al & _).
  set (t := align_up (tsa s) (isz x) + isz x) in *.
  split; cbn [heap rmap tsa in_heap in_map in_code in_tsa].
  - destruct A as (p & A & P). exists p. rewrite nth_replace. destruct (Nat.eqb_spec (iid x) 0); [contradiction|]. auto.
  - intros q id Hq. destruct (Z.eqb_spec q r) as [|Nq]; [discriminate|]. destruct (B q id Hq) as (Vq & z & Iz & Ez & l & Hl & Sl).
    split; [exact Vq|]. exists z. split; [exact Iz|]. split; [exact Ez|]. exists l. rewrite nth_replace.
    destruct (Nat.eqb_spec (iid x) id) as [e|]; [|auto]. exfalso. apply Nq. eapply one_register; [exact W|exact Hq|congruence].
  - intros z Iz. destruct (C z Iz) as (M0 & Zz & Lz & sz & Hz & Okz). split; [exact M0|]. split; [exact Zz|]. split; [exact Lz|].
    rewrite nth_replace. destruct (Nat.eqb_spec (iid x) (iid z)) as [e|ne].
    + assert (z = x) by (eapply same_item; eauto). subst z. rewrite Hy. eexists. split; [rewrite L; reflexivity|]. unfold state_ok. rewrite Ky.
      split; [reflexivity|]. unfold off_ok. lia.
    + exists sz. split; [exact Hz|]. unfold state_ok in *. destruct sz; auto. destruct (ikd z); auto. cbn.
      destruct (Z.eqb_spec r0 r) as [->|]; [congruence|exact Okz].
  - exact D.
  - lia.
Qed.

Lemma specific_runs : forall n s K r, well (n + 1) s K -> 0 <= n -> (forall x, In x K -> rmap s r = Some (iid x) -> ilk x = 0) ->
  runs (allocate_specific_register ss r) s (fun q s' => q = r /\ well n s' K /\ (forall q, rmap s' q = if q =? r then None else rmap s q)).
Proof.
  intros n s K r W Hn U. unfold runs, allocate_specific_register. destruct (rmap s r) as [id|] eqn:E.
  - destruct (owner _ _ _ _ _ W E) as (_ & x & I & Ex & _ & _). subst id.
    destruct (spill_runs n s K r x W Hn I E (U x I eq_refl)) as (u & s' & Es & P). exists r, s'. unfold bind. rewrite Es. cbn. auto.
  - eexists _, _. split; [reflexivity|]. split; [reflexivity|]. split; [eapply well_less; [exact W|lia]|].
    intro q. destruct (Z.eqb_spec q r) as [->|]; auto.
Qed.

Lemma first_some : forall ok rs r, first_reg ok rs = Some r -> In r rs /\ ok r = true.
Proof.
  induction rs as [|q rs IH]; intros r H; cbn in H; [discriminate|]. destruct (ok q) eqn:E.
  - injection H as <-. split; [left; reflexivity|exact E].
  - destruct (IH r H). split; [right; assumption|assumption].
Qed.
Lemma first_none : forall ok rs, first_reg ok rs = None -> forall r, In r rs -> ok r = false.
Proof.
  induction rs as [|q rs IH]; intros H r I; [contradiction|]. cbn in H. destruct (ok q) eqn:E; [discriminate|].
  destruct I as [<-|I]; [exact E|exact (IH H r I)].
Qed.
Lemma in_order : forall a r, In r (search_order a) <-> In r volatile.
Proof.
  intros a r. unfold search_order. rewrite in_app_iff. rewrite <- (firstn_skipn a volatile) at 3. rewrite in_app_iff. tauto.
Qed.

Definition is_locked (x : item) : bool := 0 <? ilk x.
Definition few (K : list item) : Prop := (length (filter is_locked K) <= 6)%nat.

Lemma NoDup_map_inj : forall A B (f : A -> B) l, NoDup l -> (forall a b, In a l -> In b l -> f a = f b -> a = b) -> NoDup (map f l).
Proof.
  induction l as [|a l IH]; intros D H; [constructor|]. apply NoDup_cons_iff in D. destruct D as (N & D). cbn. constructor.
  - intro X. apply in_map_iff in X. destruct X as (b & E & I). apply N. rewrite (H a b); auto; [left; reflexivity|right; exact I].
  - apply IH; [exact D|]. intros x y Ix Iy. apply H; right; assumption.
Qed.

Lemma allocate_runs : forall n s K, well (n + 1) s K -> 0 <= n -> few K ->
  runs (allocate_register ss) s (fun r s' => In r volatile /\ rmap s' r = None /\ well n s' K /\ pins K s s' /\ (forall q i, rmap s' q = Some i -> rmap s q = Some i)).
Proof.
  intros n s K W Hn F. unfold runs, allocate_register. set (s0 := in_rolling _ s).
  assert (W0 : well (n + 1) s0 K) by (apply well_rolling, W).
  assert (R0 : rmap s0 = rmap s) by reflexivity.
  destruct (first_reg _ (search_order (rolling s))) as [r|] eqn:E.
  - apply first_some in E. destruct E as (I & O). apply in_order in I. exists r, s0. split; [reflexivity|]. split; [exact I|].
    assert (Er : rmap s0 r = None) by (destruct (rmap s0 r); [discriminate|reflexivity]). split; [exact Er|]. split; [eapply well_less; [exact W0|lia]|]. split; [apply pins_same; reflexivity|]. rewrite R0. auto.
  - pose proof (first_none _ _ E) as All. clear E.
    destruct (first_reg _ (search_order (rolling s))) as [r|] eqn:E.
    + apply first_some in E. destruct E as (I & O). apply in_order in I. destruct (rmap s0 r) as [id|] eqn:Er; [|discriminate].
      destruct (owner _ _ _ _ _ W0 Er) as (_ & x & Ix & Ex & _ & Hx). rewrite Hx in O. cbn in O. apply Z.eqb_eq in O. subst id.
      destruct (spill_runs n s0 K r x W0 Hn Ix Er O) as (u & s' & Es & W' & R'). exists r, s'. unfold bind. rewrite Es. split; [reflexivity|].
      split; [exact I|]. split; [rewrite R', Z.eqb_refl; reflexivity|]. split; [exact W'|]. split.
      * intros q y Iy Ly Hy. rewrite R'. destruct (Z.eqb_spec q r) as [->|]; [|rewrite R0; exact Hy]. rewrite R0 in Er. rewrite Er in Hy. injection Hy as Hy.
        assert (y = x) by (eapply same_item; eauto). subst. lia.
      * intros q i Hq. rewrite R' in Hq. destruct (q =? r); [discriminate|]. rewrite R0 in Hq. exact Hq.
    + exfalso. pose proof (first_none _ _ E) as All2. clear E.
      assert (Own : forall r, In r volatile -> exists x, In x K /\ is_locked x = true /\ rmap s0 r = Some (iid x)).
      { intros r V. pose proof (All r (proj2 (in_order _ _) V)) as A1. pose proof (All2 r (proj2 (in_order _ _) V)) as A2. cbv beta in A1, A2.
        destruct (rmap s0 r) as [id|] eqn:Er; [|discriminate]. destruct (owner _ _ _ _ _ W0 Er) as (_ & x & Ix & Ex & _ & Hx). exists x.
        rewrite Hx in A2. cbn in A2. apply Z.eqb_neq in A2. split; [exact Ix|]. split; [|congruence]. unfold is_locked. apply Z.ltb_lt.
        destruct (item_state _ _ _ _ W0 Ix) as (_ & _ & L & _). lia. }
      set (g := fun r => match rmap s0 r with Some i => i | None => O end).
      assert (ND : NoDup (map g volatile)).
      { apply NoDup_map_inj; [unfold volatile; repeat constructor; cbn; lia|]. intros a b Ia Ib Eg. destruct (Own a Ia) as (x & _ & _ & Ra), (Own b Ib) as (y & _ & _ & Rb).
        unfold g in Eg. rewrite Ra, Rb in Eg. eapply one_register; [exact W0|exact Ra|congruence]. }
      assert (Inc : incl (map g volatile) (map iid (filter is_locked K))).
      { intros i Hi. apply in_map_iff in Hi. destruct Hi as (r & <- & V). destruct (Own r V) as (x & Ix & Lx & Rx). unfold g. rewrite Rx.
        apply List.in_map. apply filter_In. auto. }
      pose proof (NoDup_incl_length ND Inc) as Le. rewrite !map_length in Le. unfold few in F. cbn [length volatile] in Le. lia.
Qed.

Lemma op_runs : forall n s K p op a b k, well n s K -> legacy p = 0 -> runs (emit_op p op a b k) s (fun _ s' => well n s' K /\ rmap s' = rmap s).
Proof.
  intros n s K p op a b k W P. unfold emit_op, emit_register_op, emit_prefixes_and_opcode. rewrite P, Z.bits_0.
  unfold runs, bind, lift. cbn [obind]. eexists _, _. split; [reflexivity|]. split; [apply well_out, W|reflexivity].
Qed.

Lemma ext_runs : forall n s K p op e x r, well n s K -> legacy p = 0 -> In x K -> rmap s r = Some (iid x) ->
  runs (emit_reg_extended_op p op e (iid x)) s (fun _ s' => well n s' K /\ rmap s' = rmap s).
Proof.
  intros n s K p op e x r W P I R. destruct (owner _ _ _ _ _ W R) as (_ & y & Iy & Ey & _ & Hy).
  unfold emit_reg_extended_op. eapply runs_bind with (P := fun l s' => s' = s /\ l_state l = Loaded r).
  { eexists _, _. unfold get. rewrite Hy. split; [reflexivity|]. auto. }
  intros l s1 (-> & ->). apply op_runs; assumption.
Qed.

Lemma rr_runs : forall n s K p op x y rx ry, well n s K -> legacy p = 0 -> In x K -> In y K -> rmap s rx = Some (iid x) -> rmap s ry = Some (iid y) -> isz x = isz y ->
  runs (emit_register_register p op (iid x) (iid y)) s (fun _ s' => well n s' K /\ rmap s' = rmap s).
Proof.
  intros n s K p op x y rx ry W P Ix Iy Rx Ry Z. destruct (owner _ _ _ _ _ W Rx) as (_ & x' & Ix' & Ex & _ & Hx). destruct (owner _ _ _ _ _ W Ry) as (_ & y' & Iy' & Ey & _ & Hy).
  assert (x' = x) by (eapply same_item; eauto). assert (y' = y) by (eapply same_item; eauto). subst x' y'.
  unfold emit_register_register. eapply runs_bind with (P := fun l s' => s' = s /\ l = mkloc (Loaded rx) (isz x) (ilk x) 0).
  { eexists _, _. unfold get. rewrite Hx. split; [reflexivity|]. auto. }
  intros l s1 (-> & ->). eapply runs_bind with (P := fun l s' => s' = s /\ l = mkloc (Loaded ry) (isz y) (ilk y) 0).
  { eexists _, _. unfold get. rewrite Hy. split; [reflexivity|]. auto. }
  intros l s1 (-> & ->). cbn [l_state l_size]. eapply runs_bind with (P := fun _ s' => s' = s).
  { apply runs_assertion; [apply Z.eqb_eq, Z|reflexivity]. }
  intros _ s1 ->. apply op_runs; assumption.
Qed.

(** Dropping a location that owns no register. *)
Lemma well_drop : forall n s K x, well n s (x :: K) -> (forall r, rmap s r <> Some (iid x)) -> well n s K.
Proof.
  intros n s K x [A B C D T] H. split; auto.
  - intros r id Hr. destruct (B r id Hr) as (V & y & [->|I] & E & R).
    + exfalso. apply (H r). congruence.
    + split; [exact V|]. exists y. auto.
  - intros y I. apply C. right. exact I.
  - cbn in D. apply NoDup_cons_iff in D. apply D.
Qed.

Lemma free_runs : forall n s K x, well n s (x :: K) -> ilk x = 0 ->
  runs (free_emit_location (iid x)) s (fun _ s' => well n s' K /\ (forall q, rmap s q <> Some (iid x) -> rmap s' q = rmap s q) /\ (forall q i, rmap s' q = Some i -> rmap s q = Some i /\ i <> iid x)).
Proof.
  intros n s K x W L. pose proof W as [A B C D T]. destruct (C x (or_introl eq_refl)) as (N0 & Z & _ & st & Hs & Ok). rewrite L in Hs.
  assert (Nd : ~ In (iid x) (map iid K)) by (cbn in D; apply NoDup_cons_iff in D; apply D).
  assert (Heap : (length (heap s) >= 2)%nat).
  { assert (iid x < length (heap s))%nat by (apply nth_error_Some; congruence). lia. }
  assert (Fin : forall f, (forall q, f q = Some (iid x) -> False) -> (forall q i, f q = Some i -> rmap s q = Some i) -> (forall q, rmap s q <> Some (iid x) -> f q = rmap s q) ->
    well n (in_heap (replace_nth (iid x) (with_state Freed (mkloc st (isz x) 0 0)) (heap s)) (in_map f s)) K).
  { intros f F0 F1 F2. split; cbn [heap rmap tsa in_heap in_map].
    - destruct A as (p & A & P). exists p. rewrite nth_replace. destruct (Nat.eqb_spec (iid x) 0); [contradiction|]. auto.
    - intros q id Hq. destruct (B q id (F1 q id Hq)) as (V & y & [->|I] & E & l & Hl & Sl); [exfalso; apply (F0 q); congruence|].
      split; [exact V|]. exists y. split; [exact I|]. split; [exact E|]. exists l. rewrite nth_replace.
      destruct (Nat.eqb_spec (iid x) id) as [e|]; [|auto]. exfalso. apply Nd. rewrite e, <- E. apply List.in_map. exact I.
    - intros y I. destruct (C y (or_intror I)) as (M0 & Zy & Ly & sy & Hy & Oky). split; [exact M0|]. split; [exact Zy|]. split; [exact Ly|]. exists sy.
      rewrite nth_replace. destruct (Nat.eqb_spec (iid x) (iid y)) as [e|ne]; [exfalso; apply Nd; rewrite e; apply List.in_map; exact I|].
      split; [exact Hy|]. unfold state_ok in *. destruct sy; auto. destruct (ikd y); auto. cbn. rewrite F2 by congruence. exact Oky.
    - cbn in D. apply NoDup_cons_iff in D. apply D.
    - exact T. }
  unfold runs, free_emit_location. destruct (length (heap s)) as [|[|len]] eqn:El; try lia. cbn [free_loc].
  unfold register_bp. destruct (Nat.eqb_spec (iid x) 0) as [|_]; [contradiction|].
  unfold bind at 1, get at 1. rewrite Hs. cbn [obind l_state l_prevent_freeing l_prevent_spilling]. cbn [Z.eqb negb orb].
  assert (None' : forall r, st <> Loaded r -> rmap s r <> Some (iid x)).
  { intros r X Hr. destruct (owner _ _ _ _ _ W Hr) as (_ & y & _ & _ & _ & Hy). congruence. }
  destruct st as [r|v|b i k off|c|].
  - unfold bind, set_map, get, set. cbn [obind heap in_map]. rewrite Hs. cbn [obind]. eexists _, _. split; [reflexivity|].
    assert (Rr : rmap s r = Some (iid x)) by (unfold state_ok in Ok; destruct (ikd x); [exact Ok|contradiction|contradiction]).
    assert (Only : forall q, q <> r -> rmap s q <> Some (iid x)) by (intros q Nq Hq; apply Nq; eapply one_register; [exact W|exact Hq|exact Rr]).
    split; [|split].
    + apply Fin.
      * intros q Hq. destruct (Z.eqb_spec q r); [discriminate|]. exact (Only q n0 Hq).
      * intros q i Hq. destruct (q =? r); [discriminate|exact Hq].
      * intros q Hq. destruct (Z.eqb_spec q r) as [->|]; [contradiction|reflexivity].
    + intros q Hq. cbn. destruct (Z.eqb_spec q r) as [->|]; [contradiction|reflexivity].
    + intros q i Hq. cbn in Hq. destruct (Z.eqb_spec q r) as [|Nq]; [discriminate|]. split; [exact Hq|]. intros ->. exact (Only q Nq Hq).
  - unfold bind, ret, get, set. cbn [obind]. rewrite Hs. cbn [obind]. eexists _, _. split; [reflexivity|].
    assert (Nq : forall q, rmap s q <> Some (iid x)) by (intro q; apply None'; discriminate).
    split; [apply (Fin (rmap s)); auto; intros q Hq; exact (Nq q Hq)|]. split; [reflexivity|]. intros q i Hq. split; [exact Hq|]. intros ->. exact (Nq q Hq).
  - unfold state_ok in Ok. destruct i; [contradiction|]. destruct (ikd x); try contradiction. destruct Ok as (-> & _). cbn [free_loc Nat.eqb register_bp].
    unfold bind, ret, get, set. cbn [obind]. rewrite Hs. cbn [obind]. eexists _, _. split; [reflexivity|].
    assert (Nq : forall q, rmap s q <> Some (iid x)) by (intro q; apply None'; discriminate).
    split; [apply (Fin (rmap s)); auto; intros q Hq; exact (Nq q Hq)|]. split; [reflexivity|]. intros q i Hq. split; [exact Hq|]. intros ->. exact (Nq q Hq).
  - unfold bind, ret, get, set. cbn [obind]. rewrite Hs. cbn [obind]. eexists _, _. split; [reflexivity|].
    assert (Nq : forall q, rmap s q <> Some (iid x)) by (intro q; apply None'; discriminate).
    split; [apply (Fin (rmap s)); auto; intros q Hq; exact (Nq q Hq)|]. split; [reflexivity|]. intros q i Hq. split; [exact Hq|]. intros ->. exact (Nq q Hq).
  - unfold state_ok in Ok. destruct (ikd x); contradiction.
Qed.

Lemma well_ext : forall n s s' K, well n s K -> (forall i, nth_error (heap s') i = nth_error (heap s) i) -> rmap s' = rmap s -> tsa s' = tsa s -> well n s' K.
Proof.
  intros n s s' K [A B C D T] H R E. split; rewrite ?R, ?E; auto.
  - rewrite H. exact A.
  - intros r id Hr. destruct (B r id Hr) as (V & y & I & Ey & l & Hl & Sl). split; [exact V|]. exists y. rewrite H. eauto.
  - intros x I. destruct (C x I) as (N0 & Z & L & st & Hs & Ok). split; [exact N0|]. split; [exact Z|]. split; [exact L|]. exists st. rewrite H. split; [exact Hs|].
    unfold state_ok in *. destruct st; auto. rewrite R. exact Ok.
Qed.

Definition relock (d : Z) (x : item) : item := mkitem (iid x) (isz x) (ilk x + d) (ikd x).

Lemma lock_runs : forall ld n s K x r, well n s (x :: K) -> rmap s r = Some (iid x) ->
  runs (prevent_spilling_with ld (iid x)) s (fun _ s' => well n s' (relock 1 x :: K) /\ rmap s' = rmap s).
Proof.
  intros ld n s K x r W R. destruct (item_state _ _ _ _ W (or_introl eq_refl)) as (N0 & Z & L & _).
  unfold prevent_spilling_with. eapply runs_bind.
  { apply (modify_item n s K x (relock 1 x) (with_ps 1) W); cbn; auto; try lia. intros Kc. destruct (owner _ _ _ _ _ W R) as (_ & y & Iy & Ey & Ky & _).
    assert (y = x) by (eapply same_item; eauto; left; reflexivity). subst. congruence. }
  intros _ s1 (W1 & R1). rewrite <- R1 in R. destruct (owner _ _ _ _ _ W1 R) as (_ & y & Iy & Ey & _ & Hy).
  eapply runs_bind with (P := fun l s' => s' = s1 /\ l_state l = Loaded r).
  { eexists _, _. unfold get. rewrite Hy. split; [reflexivity|]. auto. }
  intros l s2 (-> & ->). apply runs_ret. auto.
Qed.

Lemma allow_runs : forall n s K x r, well n s (x :: K) -> rmap s r = Some (iid x) -> 0 < ilk x ->
  runs (allow_spilling (iid x)) s (fun _ s' => well n s' (relock (-1) x :: K) /\ rmap s' = rmap s).
Proof.
  intros n s K x r W R L. destruct (item_state _ _ _ _ W (or_introl eq_refl)) as (N0 & Z & _). destruct (owner _ _ _ _ _ W R) as (_ & y & Iy & Ey & Ky & Hy).
  assert (y = x) by (eapply same_item; eauto; left; reflexivity). subst y.
  unfold allow_spilling, unlock. eapply runs_bind with (P := fun _ s' => well n s' (relock (-1) x :: K) /\ rmap s' = rmap s).
  { pose proof (modify_item n s K x (relock (-1) x) (with_ps (-1)) W eq_refl Z ltac:(cbn; lia) eq_refl ltac:(congruence) ltac:(reflexivity)) as (u & s1 & E1 & Q).
    exists u, s1. split; [|exact Q]. rewrite <- E1. unfold modify, bind, get. rewrite Hy. cbn [obind l_prevent_spilling]. unfold assertion.
    destruct (Z.ltb_spec 0 (ilk x)); [reflexivity|lia]. }
  intros _ s1 (W1 & R1). rewrite <- R1 in R. destruct (owner _ _ _ _ _ W1 R) as (_ & z & _ & _ & _ & Hz).
  eapply runs_bind with (P := fun l s' => s' = s1 /\ l_state l = Loaded r).
  { eexists _, _. unfold get. rewrite Hz. split; [reflexivity|]. auto. }
  intros l s2 (-> & ->). apply runs_ret. auto.
Qed.

(** [emit_load_gpr] on the frame pointer. *)
Definition loads_bp (ld : nat -> M nat) : Prop := forall s p, nth_error (heap s) 0 = Some (mkloc (Loaded 5) 8 p 0) -> ld 0%nat s = Done (0%nat, s).

Lemma relative_runs : forall ld n s K p op r x k off, loads_bp ld -> well n s K -> legacy p = 0 -> In x K ->
  nth_error (heap s) (iid x) = Some (mkloc (RegRel 0%nat None k off) (isz x) (ilk x) 0) -> off_ok off ->
  runs (register_relative_with ld p op r (iid x) None) s (fun _ s' => well n s' K /\ rmap s' = rmap s).
Proof.
  intros ld n s K p op r x k off Ld W P I Hs Ho. destruct (item_state _ _ _ _ W I) as (N0 & Z & L & _). destruct (w_bp _ _ _ W) as (q & Hb & Q).
  assert (E1 : Nat.eqb (iid x) 0 = false) by (apply Nat.eqb_neq; exact N0). assert (E2 : Nat.eqb 0 (iid x) = false) by (apply Nat.eqb_neq; auto).
  set (i := iid x) in *.
  unfold runs, register_relative_with. unfold bind at 1. unfold get at 1. rewrite Hs. cbn [obind l_state l_size]. rewrite Z. unfold assertion at 1.
  unfold bind at 1. cbn [ret obind].
  unfold prevent_spilling_with, allow_spilling, unlock, modify.
  set (s1 := in_heap (replace_nth i (mkloc (RegRel 0 None k off) (isz x) (ilk x + 1) 0) (heap s)) s).
  assert (A1 : nth_error (heap s1) i = Some (mkloc (RegRel 0 None k off) (isz x) (ilk x + 1) 0)) by (unfold s1; cbn [heap in_heap]; rewrite nth_replace, Nat.eqb_refl, Hs; reflexivity).
  assert (B1 : nth_error (heap s1) 0 = Some (mkloc (Loaded 5) 8 q 0)) by (unfold s1; cbn [heap in_heap]; rewrite nth_replace, E1; exact Hb).
  set (s2 := in_heap (replace_nth i (mkloc (RegRel 0 None k off) (isz x) (ilk x + 1) 0) (heap s1)) s1).
  assert (A2 : nth_error (heap s2) i = Some (mkloc (RegRel 0 None k off) (isz x) (ilk x + 1) 0)) by (unfold s2; cbn [heap in_heap]; rewrite nth_replace, Nat.eqb_refl, A1; reflexivity).
  assert (B2 : nth_error (heap s2) 0 = Some (mkloc (Loaded 5) 8 q 0)) by (unfold s2; cbn [heap in_heap]; rewrite nth_replace, E1; exact B1).
  set (s3 := in_heap (replace_nth 0 (mkloc (Loaded 5) 8 (q + 1) 0) (heap s2)) s2).
  assert (A3 : nth_error (heap s3) i = Some (mkloc (RegRel 0 None k off) (isz x) (ilk x + 1) 0)) by (unfold s3; cbn [heap in_heap]; rewrite nth_replace, E2; exact A2).
  assert (B3 : nth_error (heap s3) 0 = Some (mkloc (Loaded 5) 8 (q + 1) 0)) by (unfold s3; cbn [heap in_heap]; rewrite nth_replace, Nat.eqb_refl, B2; reflexivity).
  set (s4 := in_heap (replace_nth i (mkloc (RegRel 0 None k off) (isz x) (ilk x + 1 + -1) 0) (heap s3)) s3).
  assert (A4 : nth_error (heap s4) i = Some (mkloc (RegRel 0 None k off) (isz x) (ilk x + 1 + -1) 0)) by (unfold s4; cbn [heap in_heap]; rewrite nth_replace, Nat.eqb_refl, A3; reflexivity).
  assert (B4 : nth_error (heap s4) 0 = Some (mkloc (Loaded 5) 8 (q + 1) 0)) by (unfold s4; cbn [heap in_heap]; rewrite nth_replace, E1; exact B3).
  set (s5 := in_heap (replace_nth 0 (mkloc (Loaded 5) 8 (q + 1 + -1) 0) (heap s4)) s4).
  assert (A5 : nth_error (heap s5) i = Some (mkloc (RegRel 0 None k off) (isz x) (ilk x + 1 + -1) 0)) by (unfold s5; cbn [heap in_heap]; rewrite nth_replace, E2; exact A4).
  assert (B5 : nth_error (heap s5) 0 = Some (mkloc (Loaded 5) 8 (q + 1 + -1) 0)) by (unfold s5; cbn [heap in_heap]; rewrite nth_replace, Nat.eqb_refl, B4; reflexivity).
  assert (W5 : well n s5 K).
  { apply (well_ext n s); auto. intro j. destruct (Nat.eqb_spec i j) as [<-|Nj].
    - rewrite A5, Hs. do 2 f_equal. lia.
    - destruct (Nat.eqb_spec 0 j) as [<-|Nj0].
      + rewrite B5, Hb. do 2 f_equal. lia.
      + unfold s5, s4, s3, s2, s1. cbn [heap in_heap]. repeat rewrite nth_replace.
        replace (Nat.eqb i j) with false by (symmetry; apply Nat.eqb_neq; exact Nj). replace (Nat.eqb 0 j) with false by (symmetry; apply Nat.eqb_neq; exact Nj0). reflexivity. }
  assert (Ew : forall B (f : unit -> M B),
     (((l <- get i ;; set i (with_ps 1 l)) ;;;
       l <- get i ;;
       match l_state l with
       | RegRel base index sc off =>
           base' <- ld base ;;
           (l <- get i ;; set i (match l_state l with RegRel _ i sc off => with_state (RegRel base' i sc off) l | _ => l end)) ;;;
           (l <- get base' ;; set base' (with_ps 1 l)) ;;;
           match index with
           | None => ret tt
           | Some j =>
               i' <- ld j ;;
               (l <- get i ;; set i (match l_state l with RegRel b _ sc off => with_state (RegRel b (Some i') sc off) l | _ => l end)) ;;;
               (l <- get i' ;; set i' (with_ps 1 l))
           end
       | _ => ret tt
       end) ;;; f tt) s = f tt s3).
  { intros B f. unfold bind, get, set. rewrite Hs. cbn [obind]. change (in_heap (replace_nth i (with_ps 1 (mkloc (RegRel 0 None k off) (isz x) (ilk x) 0)) (heap s)) s) with s1.
    rewrite A1. cbn [obind l_state]. rewrite (Ld s1 q B1). cbn [obind]. rewrite A1. cbn [obind l_state].
    change (in_heap (replace_nth i (with_state (RegRel 0 None k off) (mkloc (RegRel 0 None k off) (isz x) (ilk x + 1) 0)) (heap s1)) s1) with s2.
    rewrite B2. cbn [obind]. change (in_heap (replace_nth 0 (with_ps 1 (mkloc (Loaded 5) 8 q 0)) (heap s2)) s2) with s3. reflexivity. }
  rewrite (Ew _ (fun _ => _)). clear Ew.
  unfold bind at 1 2 3. unfold get at 1. rewrite A3. cbn [obind l_prevent_spilling]. unfold assertion at 1. destruct (Z.ltb_spec 0 (ilk x + 1)) as [_|X]; [|lia]. cbn [ret obind].
  unfold bind at 1. unfold ret at 1. cbn [obind]. unfold set at 1. cbn [obind].
  change (in_heap (replace_nth i (with_ps (-1) (mkloc (RegRel 0 None k off) (isz x) (ilk x + 1) 0)) (heap s3)) s3) with s4.
  unfold bind at 1. unfold get at 1. rewrite A4. cbn [obind l_state].
  unfold bind at 1 2. unfold get at 1. rewrite B4. cbn [obind l_prevent_spilling]. unfold bind at 1. unfold assertion at 1. destruct (Z.ltb_spec 0 (q + 1)) as [_|X]; [|lia]. cbn [ret obind].
  unfold set at 1. cbn [obind].
  change (in_heap (replace_nth 0 (with_ps (-1) (mkloc (Loaded 5) 8 (q + 1) 0)) (heap s4)) s4) with s5.
  unfold ret at 1. cbn [obind].
  unfold bind at 1. unfold get at 1. rewrite A5. cbn [obind l_state].
  unfold bind at 1. unfold loaded_register at 1. unfold bind at 1. unfold get at 1. rewrite B5. cbn [obind l_state ret].
  unfold bind, ret, assertion, lift, emit_register_relative. cbn [obind]. cbn [m_ir m_offset m_base m_index m_size negb andb].
  unfold off_ok in Ho. destruct (Z.gtb_spec off 2147483647); [lia|]. destruct (Z.ltb_spec off (-2147483648)); [lia|]. cbn [orb].
  unfold emit_prefixes_and_opcode. rewrite P, Z.bits_0. cbn [obind emit_immediate fst].
  eexists _, _. split; [reflexivity|]. split; [apply well_out, W5|reflexivity].
Qed.

Lemma not_loaded : forall n s K x st, well n s K -> In x K -> nth_error (heap s) (iid x) = Some (mkloc st (isz x) (ilk x) 0) -> (forall r, st <> Loaded r) ->
  forall q, rmap s q <> Some (iid x).
Proof. intros n s K x st W I H X q Hq. destruct (owner _ _ _ _ _ W Hq) as (_ & y & _ & _ & _ & Hy). apply (X q). congruence. Qed.

Lemma get_runs : forall n s K x, well n s K -> In x K ->
  runs (get (iid x)) s (fun l s' => s' = s /\ exists st, l = mkloc st (isz x) (ilk x) 0 /\ nth_error (heap s) (iid x) = Some l /\ state_ok s x st).
Proof.
  intros n s K x W I. eapply get_item; [exact W|exact I|]. intros st Hs Ok. split; [reflexivity|]. exists st. auto.
Qed.

(** What an operation may do to the registers: locked values keep theirs. *)
Lemma into_free : forall n s K r k, well (n + 1) s K -> 0 <= n -> In r volatile -> is_size k = true ->
  (forall y, In y K -> rmap s r = Some (iid y) -> ilk y = 0) ->
  runs (allocate_specific_register ss r ;;; emit_location_loaded r k) s
    (fun id s' => well n s' (mkitem id k 0 KVal :: K) /\ rmap s' r = Some id /\ pins K s s' /\ (forall q, q <> r -> rmap s' q = rmap s q)).
Proof.
  intros n s K r k W Hn V Z U. eapply runs_bind; [apply (specific_runs n s K r W Hn U)|]. cbv beta. intros _ s1 (_ & W1 & R1).
  assert (F1 : rmap s1 r = None) by (rewrite R1, Z.eqb_refl; reflexivity).
  eapply runs_weaken; [apply (loaded_new n s1 K r k W1 F1 V Z)|]. cbv beta. intros id s2 (W2 & R2 & O2).
  assert (O : forall q, q <> r -> rmap s2 q = rmap s q). { intros q Nq. rewrite O2, R1 by exact Nq. apply Z.eqb_neq in Nq. rewrite Nq. reflexivity. }
  split; [exact W2|]. split; [exact R2|]. split; [|exact O].
  intros q y Iy Ly Hy. rewrite O; [exact Hy|]. intros ->. specialize (U y Iy Hy). lia.
Qed.

Lemma bind_assoc : forall A B C (e : M A) (f : A -> M B) (g : B -> M C) s, (bind (bind e f) g) s = (bind e (fun a => bind (f a) g)) s.
Proof. intros. unfold bind. destruct (e s) as [[a s1]| |]; reflexivity. Qed.

Lemma runs_assoc : forall A B C (e : M A) (f : A -> M B) (g : B -> M C) s Q, runs (bind (bind e f) g) s Q -> runs (bind e (fun a => bind (f a) g)) s Q.
Proof. intros A B C e f g s Q (c & s' & E & H). exists c, s'. rewrite <- bind_assoc. auto. Qed.

Lemma load_into_runs : forall ld n s K x r, loads_bp ld -> well (n + 1) s (x :: K) -> 0 <= n -> ilk x = 0 -> In r volatile ->
  (forall y, In y K -> rmap s r = Some (iid y) -> ilk y = 0) ->
  runs (load_into_specific_with ss ld (iid x) r) s
    (fun id s' => well n s' (mkitem id (isz x) 0 KVal :: K) /\ rmap s' r = Some id /\ pins K s s' /\ shrinks r s s').
Proof.
  intros ld n s K x r Ld W Hn L V U. destruct (item_state _ _ _ _ W (or_introl eq_refl)) as (N0 & Z & _).
  assert (Ux : forall y, In y (x :: K) -> rmap s r = Some (iid y) -> ilk y = 0) by (intros y [<-|I]; auto).
  unfold load_into_specific_with. eapply runs_bind; [apply (get_runs _ _ _ _ W (or_introl eq_refl))|]. cbv beta.
  intros l s0 (-> & st & -> & Hs & Ok). cbn [l_state l_size]. eapply runs_bind with (P := fun _ s' => s' = s); [apply runs_assertion; auto|]. intros _ s0 ->.
  assert (Drop : (forall q, st <> Loaded q) -> well (n + 1) s K).
  { intro X. eapply well_drop; [exact W|]. eapply not_loaded; [exact W|left; reflexivity|exact Hs|exact X]. }
  destruct st as [r0|v|b i k off|c|].
  - assert (Kx : ikd x = KVal /\ rmap s r0 = Some (iid x)) by (unfold state_ok in Ok; destruct (ikd x); [auto|contradiction|contradiction]). destruct Kx as (Kx & Rx).
    destruct (Z.eqb_spec r0 r) as [->|Nr].
    + apply runs_ret. replace (mkitem (iid x) (isz x) 0 KVal) with x by (destruct x; cbn in *; congruence).
      split; [eapply well_less; [exact W|lia]|]. split; [exact Rx|]. split; [apply pins_refl|]. intros q i _ H. exact H.
    + apply runs_assoc. eapply runs_bind; [apply (into_free n s (x :: K) r (isz x) W Hn V Z Ux)|]. cbv beta. intros id s1 (W1 & R1 & P1 & O1).
      assert (Nid : id <> iid x). { pose proof (w_nodup _ _ _ W1) as D. cbn in D. apply NoDup_cons_iff in D. intro X. apply (proj1 D). left. auto. }
      eapply runs_bind; [apply (rr_runs n s1 _ no_prefix _ (mkitem id (isz x) 0 KVal) x r r0 W1 eq_refl); cbn; auto; rewrite O1 by exact Nr; exact Rx|].
      cbv beta. intros _ s2 (W2 & R2). eapply runs_bind; [apply (free_runs n s2 (mkitem id (isz x) 0 KVal :: K) x); [eapply well_perm; [apply perm_swap|exact W2]|exact L]|].
      cbv beta. intros _ s3 (W3 & O3 & S3). apply runs_ret. split; [exact W3|]. rewrite R2 in O3, S3.
      split; [rewrite O3 by congruence; exact R1|]. split.
      * intros q y Iy Ly Hy. assert (q <> r) by (intros ->; specialize (U y Iy Hy); lia).
        assert (iid y <> iid x). { pose proof (w_nodup _ _ _ W) as D. cbn in D. apply NoDup_cons_iff in D. intro X. apply (proj1 D). rewrite <- X. apply List.in_map. exact Iy. }
        rewrite O3; rewrite O1 by assumption; congruence.
      * intros q i Nq Hq. apply S3 in Hq. rewrite O1 in Hq by exact Nq. apply Hq.
  - specialize (Drop ltac:(discriminate)). destruct (v =? 0).
    + apply runs_assoc. eapply runs_bind; [apply (into_free n s K r (isz x) Drop Hn V Z U)|]. cbv beta. intros id s1 (W1 & R1 & P1 & O1).
      eapply runs_bind; [apply (rr_runs n s1 _ no_prefix _ (mkitem id (isz x) 0 KVal) (mkitem id (isz x) 0 KVal) r r W1 eq_refl); cbn; auto|].
      cbv beta. intros _ s2 (W2 & R2). apply runs_ret. rewrite R2. split; [exact W2|]. split; [exact R1|].
      split; [intros q y Iy Ly Hy; rewrite R2; apply P1; assumption|]. intros q i Nq Hq. rewrite R2, O1 in Hq by exact Nq. exact Hq.
    + eapply runs_bind; [apply (runs_out _ s K _ Drop)|]. cbv beta. intros _ s0 (W0 & R0). 
      eapply runs_weaken; [apply (into_free n s0 K r (isz x) W0 Hn V Z); rewrite R0; exact U|]. cbv beta. intros id s1 (W1 & R1 & P1 & O1).
      split; [exact W1|]. split; [exact R1|]. split; [intros q y Iy Ly Hy; apply P1; auto; rewrite R0; exact Hy|]. intros q i Nq Hq. rewrite O1, R0 in Hq by exact Nq. exact Hq.
  - unfold state_ok in Ok. destruct i; [contradiction|]. destruct (ikd x); try contradiction. destruct Ok as (-> & Ho).
    eapply runs_bind; [apply (relative_runs ld _ s _ no_prefix _ r x k off Ld W eq_refl (or_introl eq_refl) Hs Ho)|]. cbv beta. intros _ s1 (W1 & R1).
    eapply runs_bind; [apply (free_runs _ s1 K x W1 L)|]. cbv beta. intros _ s2 (W2 & O2 & S2).
    assert (Nx : forall q, rmap s q <> Some (iid x)) by (eapply not_loaded; [exact W|left; reflexivity|exact Hs|discriminate]).
    assert (R2 : forall q, rmap s2 q = rmap s q) by (intro q; rewrite O2, R1 by (rewrite R1; apply Nx); reflexivity).
    eapply runs_weaken; [apply (into_free n s2 K r (isz x) W2 Hn V Z); rewrite R2; exact U|]. cbv beta. intros id s3 (W3 & R3 & P3 & O3).
    split; [exact W3|]. split; [exact R3|]. split; [intros q y Iy Ly Hy; apply P3; auto; rewrite R2; exact Hy|]. intros q i Nq Hq. rewrite O3, R2 in Hq by exact Nq. exact Hq.
  - specialize (Drop ltac:(discriminate)). unfold state_ok in Ok. destruct (ikd x); try contradiction. destruct Ok as ((o & Ho) & _ & Zc).
    eapply runs_bind with (P := fun _ s' => s' = s); [apply runs_assertion; [destruct Zc as [-> | ->]; reflexivity|reflexivity]|]. intros _ s0 ->.
    eapply runs_bind with (P := fun _ s' => s' = s); [unfold runs, lift; rewrite Ho; eexists _, _; split; reflexivity|]. intros o' s0 ->.
    apply runs_assoc. eapply runs_bind; [apply (into_free n s K r (isz x) Drop Hn V Z U)|]. cbv beta. intros id s1 (W1 & R1 & P1 & O1).
    eapply runs_bind; [apply (ext_runs n s1 _ no_prefix _ 0 (mkitem id (isz x) 0 KVal) r W1 eq_refl); cbn; auto|]. cbv beta. intros _ s2 (W2 & R2).
    eapply runs_bind with (P := fun _ s' => well n s' (mkitem id (isz x) 0 KVal :: K) /\ rmap s' = rmap s2).
    { destruct (isz x =? 1); [apply runs_ret; auto|].
      apply (rr_runs n s2 _ no_prefix _ (mkitem id (isz x) 0 KVal) (mkitem id (isz x) 0 KVal) r r W2 eq_refl); cbn; auto; rewrite R2; exact R1. }
    intros _ s3 (W3 & R3). apply runs_ret. rewrite R3, R2. split; [exact W3|]. split; [exact R1|].
    split; [intros q y Iy Ly Hy; rewrite R3, R2; apply P1; assumption|]. intros q i Nq Hq. rewrite R3, R2, O1 in Hq by exact Nq. exact Hq.
  - unfold state_ok in Ok. destruct (ikd x); contradiction.
Qed.

Lemma loads_bp_fuel : forall f, loads_bp (load_gpr ss (S f)).
Proof. intros f s p H. cbn [load_gpr]. unfold bind, get. rewrite H. reflexivity. Qed.
Lemma loads_bp_load : loads_bp (emit_load_gpr ss).
Proof. intros s p H. unfold emit_load_gpr. eapply loads_bp_fuel, H. Qed.

Lemma load_runs : forall n s K x, well (n + 2) s (x :: K) -> 0 <= n -> ilk x = 0 -> few K ->
  runs (emit_load_gpr ss (iid x)) s
    (fun id s' => well n s' (mkitem id (isz x) 0 KVal :: K) /\ (exists r, rmap s' r = Some id) /\ pins K s s').
Proof.
  intros n s K x W Hn L F. destruct (item_state _ _ _ _ W (or_introl eq_refl)) as (N0 & Z & _ & st & Hs & Ok).
  assert (Heap : (length (heap s) > iid x)%nat) by (apply nth_error_Some; congruence).
  unfold emit_load_gpr, runs. destruct (length (heap s)) as [|len]; [lia|]. cbn [load_gpr].
  change (runs (l <- get (iid x) ;; match l_state l with Loaded _ => ret (iid x) | _ => r <- allocate_register ss ;; load_into_specific_with ss (load_gpr ss (S len)) (iid x) r end) s
    (fun id s' => well n s' (mkitem id (isz x) 0 KVal :: K) /\ (exists r, rmap s' r = Some id) /\ pins K s s')).
  eapply runs_bind; [apply (get_runs _ _ _ _ W (or_introl eq_refl))|]. cbv beta. intros l s0 (-> & st' & -> & Hs' & Ok'). cbn [l_state].
  assert (Gen : runs (r <- allocate_register ss ;; load_into_specific_with ss (load_gpr ss (S len)) (iid x) r) s
    (fun id s' => well n s' (mkitem id (isz x) 0 KVal :: K) /\ (exists r, rmap s' r = Some id) /\ pins K s s')).
  { eapply runs_bind; [apply (allocate_runs (n + 1) s (x :: K)); [replace (n + 1 + 1) with (n + 2) by lia; exact W|lia|]|].
    - unfold few in *. cbn [filter]. unfold is_locked at 1. rewrite L. exact F.
    - cbv beta. intros r s1 (V & R1 & W1 & P1 & S1).
      eapply runs_weaken; [apply (load_into_runs _ n s1 K x r (loads_bp_fuel len) W1 Hn L V); intros y _ Hy; congruence|]. cbv beta.
      intros id s2 (W2 & R2 & P2 & _). split; [exact W2|]. split; [exists r; exact R2|]. eapply pins_trans; [eapply pins_incl; [|exact P1]; intros y; right; assumption|exact P2]. }
  destruct st' as [r0|v|b i k off|c|]; try exact Gen.
  assert (Kx : ikd x = KVal /\ rmap s r0 = Some (iid x)) by (unfold state_ok in Ok'; destruct (ikd x); [auto|contradiction|contradiction]). destruct Kx as (Kx & Rx).
  apply runs_ret. replace (mkitem (iid x) (isz x) 0 KVal) with x by (destruct x; cbn in *; congruence).
  split; [eapply well_less; [exact W|lia]|]. split; [exists r0; exact Rx|apply pins_refl].
Qed.

(** The rest of the stack: nothing is locked between two instructions. *)
Definition free_all (R : list item) : Prop := Forall (fun x => ilk x = 0) R.
Lemma free_filter : forall R, free_all R -> filter is_locked R = [].
Proof. intros R H. induction H as [|x R Hx _ IH]; [reflexivity|]. cbn [filter]. unfold is_locked. rewrite Hx. exact IH. Qed.
Lemma few_free : forall H R, (length H <= 6)%nat -> free_all R -> few (H ++ R).
Proof.
  intros H R Le F. unfold few. rewrite filter_app, (free_filter R F), app_nil_r.
  assert (length (filter is_locked H) <= length H)%nat; [|lia]. clear. induction H as [|x H IH]; [auto|]. cbn [filter]. destruct (is_locked x); cbn; lia.
Qed.
Lemma differ : forall n s x y K, well n s (x :: y :: K) -> iid x <> iid y.
Proof. intros n s x y K W. pose proof (w_nodup _ _ _ W) as D. cbn in D. apply NoDup_cons_iff in D. intro X. apply (proj1 D). left. auto. Qed.
Lemma runs_get_at : forall s id l, nth_error (heap s) id = Some l -> runs (get id) s (fun l' s' => s' = s /\ l' = l).
Proof. intros s id l H. eexists _, _. unfold get. rewrite H. split; [reflexivity|]. auto. Qed.

(** The end of [emit_binary_op] and the register case. *)
Definition done (n : Z) (k : Z) (R : list item) : nat -> emitter -> Prop :=
  fun id s' => well n s' (mkitem id k 0 KVal :: R) /\ exists r, rmap s' r = Some id.

Lemma finish_binary : forall n s R d r y k, well n s (mkitem d k 1 KVal :: y :: R) -> rmap s r = Some d -> ilk y = 0 ->
  runs (allow_spilling d ;;; free_emit_location (iid y) ;;; ret d) s (done n k R).
Proof.
  intros n s R d r y k W Rd L. eapply runs_bind; [apply (allow_runs n s (y :: R) (mkitem d k 1 KVal) r W Rd); cbn; lia|].
  cbv beta. intros _ s1 (W1 & R1). unfold relock in W1. cbn in W1.
  eapply runs_bind; [apply (free_runs n s1 (mkitem d k 0 KVal :: R) y); [eapply well_perm; [apply perm_swap|exact W1]|exact L]|].
  cbv beta. intros _ s2 (W2 & O2 & _). apply runs_ret. split; [exact W2|]. exists r. rewrite O2; rewrite R1; [exact Rd|].
  pose proof (differ _ _ _ _ _ W) as X. cbn in X. congruence.
Qed.

Lemma binary_op_runs : forall n s R xl xr size sg ext c8 opc, well (n + 4) s (xl :: xr :: R) -> 0 <= n -> free_all (xl :: xr :: R) -> ikd xr <> KCond ->
  isz xl = isz xr -> isz xl = 4 \/ isz xl = 8 ->
  runs (emit_binary_op ss no_prefix (iid xl) (iid xr) size sg ext c8 opc) s (done n (isz xl) R).
Proof.
  intros n s R xl xr size sg ext c8 opc W Hn Fr Kr Zs Z4. inversion Fr as [|? ? Ll Fr1]; subst. inversion Fr1 as [|? ? Lr FR]; subst.
  set (k := isz xl) in *.
  unfold emit_binary_op. eapply runs_bind.
  { apply (load_runs (n + 2) s (xr :: R) xl); [replace (n + 2 + 2) with (n + 4) by lia; exact W|lia|exact Ll|]. apply (few_free [] (xr :: R)); [cbn; lia|exact Fr1]. }
  cbv beta. intros d s1 (W1 & (r & R1) & _). fold k in W1.
  eapply runs_bind; [apply (lock_runs _ _ s1 (xr :: R) (mkitem d k 0 KVal) r W1 R1)|]. cbv beta. unfold relock. cbn [iid isz ilk ikd Z.add].
  intros _ s2 (W2 & R2). rewrite <- R2 in R1.
  destruct (owner _ _ _ _ _ W2 R1) as (_ & y & Iy & Ey & _ & Hd). assert (y = mkitem d k 1 KVal) by (eapply same_item; eauto; left; reflexivity). subst y. cbn in Hd.
  eapply runs_bind; [apply (runs_get_at _ _ _ Hd)|]. cbv beta. intros ld s0 (-> & ->).
  eapply runs_bind; [apply (get_runs _ _ _ xr W2); right; left; reflexivity|]. cbv beta. intros lr s0 (-> & st & -> & Hr & Ok). cbn [l_state l_size].
  assert (WL : forall m s3 y, well m s3 (mkitem d k 1 KVal :: y :: R) -> isz y = k -> (exists q, rmap s3 q = Some (iid y)) -> rmap s3 r = Some d ->
     runs (ls <- get (iid y) ;; assertion (k =? l_size ls) ;;; emit_register_register no_prefix (one_byte_opcode (if l_size ls =? 1 then c8 else opc)) d (iid y) ;;; ret (iid y)) s3 (fun id s' => id = iid y /\ well m s' (mkitem d k 1 KVal :: y :: R) /\ rmap s' r = Some d)).
  { intros m s3 y W3 Zy (q & Rq) Rd. eapply runs_bind; [apply (get_runs _ _ _ y W3); right; left; reflexivity|]. cbv beta.
    intros l s0 (-> & sy & -> & _ & _). cbn [l_size]. eapply runs_bind with (P := fun _ s' => s' = s3); [apply runs_assertion; [apply Z.eqb_eq; auto|reflexivity]|].
    intros _ s0 ->. eapply runs_bind; [apply (rr_runs m s3 _ no_prefix _ (mkitem d k 1 KVal) y r q W3 eq_refl); cbn; auto|]. cbv beta.
    intros _ s4 (W4 & R4). apply runs_ret. rewrite R4. auto. }
  eapply runs_bind with (P := fun id s' => exists y, id = iid y /\ ilk y = 0 /\ well n s' (mkitem d k 1 KVal :: y :: R) /\ rmap s' r = Some d).
  - destruct st as [q|v|b i kk off|c|].
    + eapply runs_weaken; [apply (WL (n + 2) s2 xr W2 (eq_sym Zs)); [|exact R1]|].
      * unfold state_ok in Ok. destruct (ikd xr); try contradiction. exists q. exact Ok.
      * cbv beta. intros id s3 (-> & W3 & R3). exists xr. split; [reflexivity|]. split; [exact Lr|]. split; [eapply well_less; [exact W3|lia]|exact R3].
    + rewrite <- Zs. assert (Ez : (isz xl =? 1) = false) by (apply Z.eqb_neq; unfold k in *; lia). fold k in Ez |- *. rewrite Ez. cbn [andb].
      destruct ((k =? 8) || ((k =? 4) && negb sg && (2147483647 <? v))).
      * eapply runs_bind.
        { apply (load_runs n s2 (mkitem d k 1 KVal :: R) xr); [eapply well_perm; [apply perm_swap|exact W2]|exact Hn|exact Lr|]. apply (few_free [mkitem d k 1 KVal] R); [cbn; lia|exact FR]. }
        cbv beta. intros id s3 (W3 & (q & R3) & P3). rewrite <- Zs in W3.
        assert (Rd3 : rmap s3 r = Some d) by (apply (P3 r (mkitem d k 1 KVal)); [left; reflexivity|cbn; lia|exact R1]).
        eapply runs_bind; [apply (modify_item n s3 _ (mkitem id k 0 KVal) (mkitem id k 0 KVal) (with_size k) W3); cbn; try reflexivity; try lia|].
        { unfold k in *; destruct Z4 as [-> | ->]; reflexivity. }
        { discriminate. }
        cbv beta. intros _ s4 (W4 & R4).
        eapply runs_weaken; [apply (WL n s4 (mkitem id k 0 KVal)); [eapply well_perm; [apply perm_swap|exact W4]|reflexivity|exists q; cbn; congruence|congruence]|].
        cbv beta. intros id' s5 (-> & W5 & R5). exists (mkitem id k 0 KVal). auto.
      * eapply runs_bind with (P := fun _ s' => s' = s2); [apply runs_ret; reflexivity|]. intros _ s0 ->.
        eapply runs_bind; [apply (ext_runs (n + 2) s2 _ no_prefix _ ext (mkitem d k 1 KVal) r W2 eq_refl (or_introl eq_refl) R1)|]. cbv beta. intros _ s3 (W3 & R3).
        eapply runs_bind; [apply (get_runs _ _ _ xr W3); right; left; reflexivity|]. cbv beta. intros lr s0 (-> & st & -> & _ & _). cbn [l_size].
        eapply runs_bind; [apply (runs_out (n + 2) s3 _ _ W3)|]. cbv beta. intros _ s4 (W4 & R4). apply runs_ret. exists xr. split; [reflexivity|]. split; [exact Lr|].
        split; [eapply well_less; [exact W4|lia]|congruence].
    + unfold state_ok in Ok. destruct i; [contradiction|]. destruct (ikd xr); try contradiction. destruct Ok as (-> & Ho).
      eapply runs_bind with (P := fun _ s' => s' = s2); [apply runs_assertion; [apply Z.eqb_eq; exact Zs|reflexivity]|]. intros _ s0 ->.
      eapply runs_bind with (P := fun q s' => q = r /\ s' = s2).
      { unfold loaded_register. eapply runs_bind; [apply (runs_get_at _ _ _ Hd)|]. cbv beta. intros l s0 (-> & ->). apply runs_ret. auto. }
      intros q s0 (-> & ->). eapply runs_bind; [apply (relative_runs _ (n + 2) s2 _ no_prefix _ r xr kk off loads_bp_load W2 eq_refl); [right; left; reflexivity|exact Hr|exact Ho]|].
      cbv beta. intros _ s3 (W3 & R3). apply runs_ret. exists xr. split; [reflexivity|]. split; [exact Lr|]. split; [eapply well_less; [exact W3|lia]|congruence].
    + unfold state_ok in Ok. destruct (ikd xr); try contradiction; congruence.
    + unfold state_ok in Ok. destruct (ikd xr); contradiction.
  - cbv beta. intros id s3 (y & -> & Ly & W3 & R3). eapply finish_binary; eassumption.
Qed.

Lemma match_one : forall A (r : Z) (a b : A), match Loaded r with Loaded 1 => a | _ => b end = if r =? 1 then a else b.
Proof. intros A [|[p|p|]|p] a b; reflexivity. Qed.

Lemma volatile_in : In 0 volatile /\ In 1 volatile /\ In 2 volatile.
Proof. unfold volatile. cbn. lia. Qed.

Lemma shift_runs : forall n s R xl xr ext, well (n + 4) s (xl :: xr :: R) -> 0 <= n -> free_all (xl :: xr :: R) -> (ikd xr = KImm -> isz xr = 1) ->
  runs (emit_shift ss (iid xl) (iid xr) ext) s (done n (isz xl) R).
Proof.
  intros n s R xl xr ext W Hn Fr Kr. inversion Fr as [|? ? Ll Fr1]; subst. inversion Fr1 as [|? ? Lr FR]; subst.
  destruct (item_state _ _ _ xl W (or_introl eq_refl)) as (_ & Zl & _).
  unfold emit_shift. eapply runs_bind; [apply (get_runs _ _ _ xl W); left; reflexivity|]. cbv beta. intros l s0 (-> & sl & -> & _ & _).
  eapply runs_bind; [apply (get_runs _ _ _ xr W); right; left; reflexivity|]. cbv beta. intros lr s0 (-> & st & -> & Hr & Ok). cbn [l_state l_size].
  assert (Gen : forall count, (forall m, m = n + 2 -> runs count s (fun id s' => well m s' (mkitem id (isz xr) 0 KVal :: xl :: R) /\ rmap s' 1 = Some id)) ->
    runs (count <- count ;; prevent_spilling ss count ;;; loaded <- emit_load_gpr ss (iid xl) ;;
          emit_reg_extended_op no_prefix (one_byte_opcode 0xD3) ext loaded ;;; modify loaded (with_size (isz xl)) ;;;
          allow_spilling count ;;; free_emit_location count ;;; ret loaded) s (done n (isz xl) R)).
  { intros count Hc. eapply runs_bind; [apply (Hc (n + 2) eq_refl)|]. cbv beta. intros c s1 (W1 & R1).
    eapply runs_bind; [apply (lock_runs _ _ s1 (xl :: R) (mkitem c (isz xr) 0 KVal) 1 W1 R1)|]. cbv beta. unfold relock. cbn [iid isz ilk ikd Z.add]. intros _ s2 (W2 & R2). rewrite <- R2 in R1.
    eapply runs_bind.
    { apply (load_runs n s2 (mkitem c (isz xr) 1 KVal :: R) xl); [eapply well_perm; [apply perm_swap|exact W2]|exact Hn|exact Ll|apply (few_free [mkitem c (isz xr) 1 KVal] R); [cbn; lia|exact FR]]. }
    cbv beta. intros d s3 (W3 & (q & R3) & P3).
    assert (R3c : rmap s3 1 = Some c) by (apply (P3 1 (mkitem c (isz xr) 1 KVal)); [left; reflexivity|cbn; lia|exact R1]).
    eapply runs_bind; [apply (ext_runs n s3 _ no_prefix _ ext (mkitem d (isz xl) 0 KVal) q W3 eq_refl (or_introl eq_refl) R3)|]. cbv beta. intros _ s4 (W4 & R4).
    eapply runs_bind; [apply (modify_item n s4 _ (mkitem d (isz xl) 0 KVal) (mkitem d (isz xl) 0 KVal) (with_size (isz xl)) W4); cbn; try reflexivity; try lia; try assumption; discriminate|].
    cbv beta. intros _ s5 (W5 & R5).
    eapply runs_bind; [apply (allow_runs n s5 (mkitem d (isz xl) 0 KVal :: R) (mkitem c (isz xr) 1 KVal) 1); [eapply well_perm; [apply perm_swap|exact W5]|cbn; congruence|cbn; lia]|].
    cbv beta. unfold relock. cbn [iid isz ilk ikd Z.add Z.pos_sub]. intros _ s6 (W6 & R6).
    eapply runs_bind; [apply (free_runs n s6 (mkitem d (isz xl) 0 KVal :: R) (mkitem c (isz xr) 0 KVal) W6 eq_refl)|]. cbv beta. intros _ s7 (W7 & O7 & _).
    apply runs_ret. split; [exact W7|]. exists q. pose proof (differ _ _ _ _ _ W6) as X. cbn in X, O7. rewrite O7; rewrite R6, R5, R4, R3; congruence. }
  assert (Load : forall m, m = n + 2 -> (rmap s 1 = Some (iid xr) -> False) -> runs (cl <- allocate_specific_register ss REGISTER_C ;; emit_load_into_specific_gpr ss (iid xr) cl) s
     (fun id s' => well m s' (mkitem id (isz xr) 0 KVal :: xl :: R) /\ rmap s' 1 = Some id)).
  { intros m -> Hx. eapply runs_bind; [apply (specific_runs (n + 3) s (xl :: xr :: R) 1); [replace (n + 3 + 1) with (n + 4) by lia; exact W|lia|]|].
    - intros y Iy _. eapply Forall_forall in Fr; [exact Fr|exact Iy].
    - cbv beta. intros cl s1 (-> & W1 & R1). change REGISTER_C with 1.
      eapply runs_weaken; [apply (load_into_runs _ (n + 2) s1 (xl :: R) xr 1 loads_bp_load); [eapply well_perm; [apply perm_swap|]; replace (n + 2 + 1) with (n + 3) by lia; exact W1|lia|exact Lr|apply volatile_in|]|].
      + intros y _ Hy. rewrite R1 in Hy. discriminate.
      + cbv beta. intros id s2 (W2 & R2 & _). auto. }
  destruct st as [q|v|b i kk off|c|].
  - apply Gen. intros m Em. pose proof (match_one (M nat) q (ret (iid xr)) (cl <- allocate_specific_register ss REGISTER_C ;; emit_load_into_specific_gpr ss (iid xr) cl)) as Mo.
    cbv beta iota in Mo. rewrite Mo. clear Mo.
    assert (Rq : rmap s q = Some (iid xr) /\ ikd xr = KVal) by (unfold state_ok in Ok; destruct (ikd xr); [auto|contradiction|contradiction]). destruct Rq as (Rq & Kx).
    destruct (Z.eqb_spec q 1) as [->|Nq].
    + apply runs_ret. replace (mkitem (iid xr) (isz xr) 0 KVal) with xr by (destruct xr; cbn in *; congruence). split; [|exact Rq].
      eapply well_less; [eapply well_perm; [apply perm_swap|exact W]|lia].
    + apply Load; [exact Em|]. intro X. apply Nq. eapply one_register; [exact W|exact Rq|exact X].
  - assert (Ki : ikd xr = KImm) by (unfold state_ok in Ok; destruct (ikd xr); [contradiction|reflexivity|contradiction]).
    eapply runs_bind with (P := fun _ s' => s' = s); [apply runs_assertion; [apply Z.eqb_eq; auto|reflexivity]|]. intros _ s0 ->.
    assert (W' : well (n + 4) s (xl :: R)).
    { eapply well_drop; [eapply well_perm; [apply perm_swap|exact W]|]. eapply not_loaded; [exact W|right; left; reflexivity|exact Hr|discriminate]. }
    eapply runs_bind; [apply (load_runs n s R xl); [eapply well_less; [exact W'|lia]|exact Hn|exact Ll|apply (few_free [] R); [cbn; lia|exact FR]]|].
    cbv beta. intros d s1 (W1 & (q & R1) & _).
    eapply runs_bind; [apply (ext_runs n s1 _ no_prefix _ ext (mkitem d (isz xl) 0 KVal) q W1 eq_refl (or_introl eq_refl) R1)|]. cbv beta. intros _ s2 (W2 & R2).
    eapply runs_bind; [apply (runs_out n s2 _ _ W2)|]. cbv beta. intros _ s3 (W3 & R3). apply runs_ret. split; [exact W3|]. exists q. congruence.
  - apply Gen. intros m Em. apply Load; [exact Em|]. eapply not_loaded; [exact W|right; left; reflexivity|exact Hr|discriminate].
  - apply Gen. intros m Em. apply Load; [exact Em|]. eapply not_loaded; [exact W|right; left; reflexivity|exact Hr|discriminate].
  - unfold state_ok in Ok. destruct (ikd xr); contradiction.
Qed.

Lemma zero_runs : forall n s R x r, well n s (x :: R) -> rmap s r = Some (iid x) -> ilk x = 0 ->
  runs (emit_compare_to_zero (iid x)) s (fun id s' => well n s' (mkitem id 4 0 KCond :: R) /\ nth_error (heap s') id = Some (mkloc (Conditional COMP_unequals) 4 0 0)).
Proof.
  intros n s R x r W Rx L. unfold emit_compare_to_zero. eapply runs_bind; [apply (get_runs _ _ _ x W); left; reflexivity|]. cbv beta. intros l s0 (-> & st & -> & _ & _). cbn [l_size].
  eapply runs_bind; [apply (rr_runs n s _ no_prefix _ x x r r W eq_refl); auto; left; reflexivity|]. cbv beta. intros _ s1 (W1 & R1).
  eapply runs_bind; [apply (free_runs n s1 R x W1 L)|]. cbv beta. intros _ s2 (W2 & _).
  unfold emit_location_conditional. eexists _, _. split; [reflexivity|]. split.
  - apply (well_new n s2 R (mkitem (length (heap s2)) 4 0 KCond) (Conditional COMP_unequals) 0 W2); auto. cbn. split; [eauto|]. split; [eauto|lia].
  - cbn. rewrite nth_error_app2, Nat.sub_diag by lia. reflexivity.
Qed.

Lemma cast_runs : forall n s R x k op, well (n + 2) s (x :: R) -> 0 <= n -> free_all (x :: R) -> ikd x <> KCond -> is_size k = true ->
  runs (emit_integer_cast ss (iid x) k op) s (done n k R).
Proof.
  intros n s R x k op W Hn Fr Kx Zk. inversion Fr as [|? ? L FR]; subst.
  unfold emit_integer_cast. eapply runs_bind; [apply (modify_item (n + 2) s R x (mkitem (iid x) k 0 (ikd x)) (with_size k) W); cbn; auto; try lia; [congruence|intro st; rewrite L; reflexivity]|].
  cbv beta. intros _ s1 (W1 & R1). set (x1 := mkitem (iid x) k 0 (ikd x)) in *. change (iid x) with (iid x1).
  eapply runs_bind; [apply (get_runs _ _ _ x1 W1); left; reflexivity|]. cbv beta. intros l s0 (-> & st & -> & Hs & Ok). cbn [l_state].
  destruct st as [q|v|b i kk off|c|].
  - assert (Rq : rmap s1 q = Some (iid x1) /\ ikd x1 = KVal) by (unfold state_ok in Ok; destruct (ikd x1); [auto|contradiction|contradiction]). destruct Rq as (Rq & K1).
    eapply runs_bind; [apply (rr_runs (n + 2) s1 _ no_prefix _ x1 x1 q q W1 eq_refl); auto; left; reflexivity|]. cbv beta. intros _ s2 (W2 & R2). apply runs_ret.
    split; [|exists q; congruence]. replace (mkitem (iid x1) k 0 KVal) with x1 by (unfold x1 in *; cbn in *; congruence). eapply well_less; [exact W2|lia].
  - eapply runs_weaken; [apply (load_runs n s1 R x1 W1 Hn eq_refl); apply (few_free [] R); [cbn; lia|exact FR]|]. cbv beta. intros id s2 (W2 & R2 & _). split; assumption.
  - unfold state_ok in Ok. destruct i; [contradiction|]. destruct (ikd x1) eqn:K1; try contradiction. destruct Ok as (-> & Ho).
    eapply runs_bind; [apply (allocate_runs (n + 1) s1 (x1 :: R)); [replace (n + 1 + 1) with (n + 2) by lia; exact W1|lia|apply (few_free [x1] R); [cbn; lia|exact FR]]|].
    cbv beta. intros r s2 (V & F2 & W2 & P2 & S2).
    assert (Hs2 : exists k2 off2, nth_error (heap s2) (iid x1) = Some (mkloc (RegRel 0%nat None k2 off2) (isz x1) (ilk x1) 0) /\ off_ok off2).
    { destruct (item_state _ _ _ x1 W2 (or_introl eq_refl)) as (_ & _ & _ & st2 & Hs2 & Ok2). unfold state_ok in Ok2. rewrite K1 in Ok2. destruct st2 as [q|v|b2 i2 k2 off2|c|]; try contradiction.
      - exfalso. apply S2 in Ok2. revert Ok2. eapply not_loaded; [exact W1|left; reflexivity|exact Hs|discriminate].
      - destruct i2; [contradiction|]. destruct Ok2 as (-> & O2). eauto. }
    destruct Hs2 as (k2 & off2 & Hs2 & Ho2).
    eapply runs_bind; [apply (relative_runs _ (n + 1) s2 _ no_prefix _ r x1 k2 off2 loads_bp_load W2 eq_refl (or_introl eq_refl) Hs2 Ho2)|]. cbv beta. intros _ s3 (W3 & R3).
    eapply runs_bind; [apply (free_runs (n + 1) s3 R x1 W3 eq_refl)|]. cbv beta. intros _ s4 (W4 & O4 & S4).
    eapply runs_weaken; [apply (loaded_new (n + 1) s4 R r k W4); [|exact V|exact Zk]|].
    + destruct (rmap s4 r) eqn:E; [|reflexivity]. apply S4 in E. rewrite R3, F2 in E. destruct E; discriminate.
    + cbv beta. intros id s5 (W5 & R5 & _). split; [eapply well_less; [exact W5|lia]|exists r; exact R5].
  - unfold state_ok in Ok. cbn in Ok. destruct (ikd x); try contradiction; congruence.
  - unfold state_ok in Ok. cbn in Ok. destruct (ikd x); contradiction.
Qed.

Lemma dmm_runs : forall n s R xl xr es eu sg md, well (n + 5) s (xl :: xr :: R) -> 0 <= n -> free_all (xl :: xr :: R) -> isz xl = 4 \/ isz xl = 8 ->
  runs (emit_dmm ss (iid xl) (iid xr) (isz xl) es eu sg md) s (done n (isz xl) R).
Proof.
  intros n s R xl xr es eu sg md W Hn Fr Z4. inversion Fr as [|? ? Ll Fr1]; subst. inversion Fr1 as [|? ? Lr FR]; subst.
  set (k := isz xl) in *. assert (Zk : is_size k = true) by (destruct Z4 as [-> | ->]; reflexivity).
  destruct volatile_in as (V0 & _ & V2). unfold emit_dmm.
  eapply runs_bind with (P := fun _ s' => s' = s); [apply runs_assertion; [destruct Z4 as [-> | ->]; reflexivity|reflexivity]|]. intros _ s0 ->.
  eapply runs_bind; [apply (specific_runs (n + 4) s (xl :: xr :: R) 2); [replace (n + 4 + 1) with (n + 5) by lia; exact W|lia|intros y Iy _; eapply Forall_forall in Fr; [exact Fr|exact Iy]]|].
  cbv beta. intros q s1 (-> & W1 & R1).
  eapply runs_bind; [apply (loaded_new (n + 4) s1 _ 2 k W1); [rewrite R1; reflexivity|exact V2|exact Zk]|]. cbv beta. intros u s2 (W2 & R2 & _).
  eapply runs_bind; [apply (lock_runs _ _ s2 _ (mkitem u k 0 KVal) 2 W2 R2)|]. cbv beta. unfold relock. cbn [iid isz ilk ikd Z.add]. intros _ s3 (W3 & R3). rewrite <- R3 in R2. clear R3.
  assert (Un : forall y, In y (mkitem u k 1 KVal :: xl :: xr :: R) -> rmap s3 0 = Some (iid y) -> ilk y = 0).
  { intros y [<-|Iy] Hy; [|eapply Forall_forall in Fr; [exact Fr|exact Iy]]. exfalso. pose proof (one_register _ _ _ _ _ _ W3 R2 Hy). discriminate. }
  eapply runs_bind; [apply (specific_runs (n + 3) s3 (mkitem u k 1 KVal :: xl :: xr :: R) 0); [replace (n + 3 + 1) with (n + 4) by lia; exact W3|lia|exact Un]|].
  cbv beta. intros q s4 (-> & W4 & R4).
  assert (R4u : rmap s4 2 = Some u) by (rewrite R4; exact R2).
  eapply runs_bind; [apply (loaded_new (n + 3) s4 _ 0 k W4); [rewrite R4; reflexivity|exact V0|exact Zk]|]. cbv beta. intros l0 s5 (W5 & R5 & O5).
  assert (R5u : rmap s5 2 = Some u) by (rewrite O5 by discriminate; exact R4u).
  eapply runs_bind; [apply (lock_runs _ _ s5 _ (mkitem l0 k 0 KVal) 0 W5 R5)|]. cbv beta. unfold relock. cbn [iid isz ilk ikd Z.add]. intros _ s6 (W6 & R6).
  eapply runs_bind; [apply (allow_runs _ s6 _ (mkitem l0 k 1 KVal) 0 W6); [rewrite R6; exact R5|cbn; lia]|]. cbv beta. unfold relock. cbn [iid isz ilk ikd Z.add Z.pos_sub]. intros _ s7 (W7 & R7).
  assert (E7 : rmap s7 = rmap s5) by congruence. rewrite <- E7 in R5, R5u. clear R6 R7 E7 O5.
  eapply runs_bind; [apply (load_into_runs _ (n + 2) s7 (mkitem l0 k 0 KVal :: mkitem u k 1 KVal :: xr :: R) xl 0 loads_bp_load)|].
  { replace (n + 2 + 1) with (n + 3) by lia. eapply well_perm; [|exact W7]. change (mkitem l0 k 0 KVal :: mkitem u k 1 KVal :: xl :: xr :: R) with ([mkitem l0 k 0 KVal; mkitem u k 1 KVal] ++ xl :: xr :: R).
    symmetry. exact (Permutation_middle [mkitem l0 k 0 KVal; mkitem u k 1 KVal] (xr :: R) xl). }
  { lia. } { exact Ll. } { exact V0. }
  { intros y [<-|[<-|Iy]] Hy; [reflexivity| |eapply Forall_forall in Fr1; [exact Fr1|exact Iy]]. exfalso. pose proof (one_register _ _ _ _ _ _ W7 R5u Hy). discriminate. }
  cbv beta. fold k. intros lo s8 (W8 & R8 & P8 & S8).
  assert (R8u : rmap s8 2 = Some u) by (apply (P8 2 (mkitem u k 1 KVal)); [right; left; reflexivity|cbn; lia|exact R5u]).
  assert (W8' : well (n + 2) s8 (mkitem lo k 0 KVal :: mkitem u k 1 KVal :: xr :: R)).
  { eapply (well_drop _ _ _ (mkitem l0 k 0 KVal)); [eapply well_perm; [apply perm_swap|exact W8]|]. cbn [iid]. intros r Hr. pose proof (differ _ _ _ _ _ W8) as X. cbn in X.
    destruct (Z.eqb_spec r 0) as [->|Nr]; [congruence|]. apply S8 in Hr; [|exact Nr]. apply Nr. eapply one_register; [exact W7|exact Hr|exact R5]. }
  eapply runs_bind; [apply (lock_runs _ _ s8 _ (mkitem lo k 0 KVal) 0 W8' R8)|]. cbv beta. unfold relock. cbn [iid isz ilk ikd Z.add]. intros _ s9 (W9 & R9). rewrite <- R9 in R8, R8u. clear R9.
  eapply runs_bind with (P := fun _ s' => well (n + 2) s' (mkitem lo k 1 KVal :: mkitem u k 1 KVal :: xr :: R) /\ rmap s' = rmap s9).
  { destruct sg; [apply runs_out, W9|].
    apply (rr_runs (n + 2) s9 _ no_prefix _ (mkitem u k 1 KVal) (mkitem u k 1 KVal) 2 2 W9 eq_refl); cbn; auto. }
  intros _ s10 (W10 & R10). rewrite <- R10 in R8, R8u. clear R10.
  assert (W10' : well (n + 2) s10 (xr :: mkitem lo k 1 KVal :: mkitem u k 1 KVal :: R)).
  { eapply well_perm; [|exact W10]. change (mkitem lo k 1 KVal :: mkitem u k 1 KVal :: xr :: R) with ([mkitem lo k 1 KVal; mkitem u k 1 KVal] ++ xr :: R). symmetry. exact (Permutation_middle [mkitem lo k 1 KVal; mkitem u k 1 KVal] R xr). }
  eapply runs_bind; [apply (get_runs _ _ _ xr W10'); left; reflexivity|]. cbv beta. intros l s0 (-> & st & -> & Hr & Ok). cbn [l_state l_size].
  assert (Nl : lo <> iid xr /\ u <> iid xr).
  { pose proof (w_nodup _ _ _ W10') as D. cbn in D. apply NoDup_cons_iff in D. split; intro X; apply (proj1 D); rewrite X; [left|right; left]; reflexivity. }
  set (e := if sg then es else eu).
  set (P := fun (_ : unit) s' => well n s' (mkitem lo k 1 KVal :: mkitem u k 1 KVal :: R) /\ rmap s' 0 = Some lo /\ rmap s' 2 = Some u).
  assert (Gen : runs (loaded <- emit_load_gpr ss (iid xr) ;; emit_reg_extended_op no_prefix (one_byte_opcode 0xF7) e loaded ;;; free_emit_location loaded) s10 P).
  { eapply runs_bind; [apply (load_runs n s10 _ xr W10' Hn Lr); apply (few_free [mkitem lo k 1 KVal; mkitem u k 1 KVal] R); [cbn; lia|exact FR]|].
    cbv beta. intros id s11 (W11 & (q & R11) & P11).
    assert (A : rmap s11 0 = Some lo) by (apply (P11 0 (mkitem lo k 1 KVal)); [left; reflexivity|cbn; lia|exact R8]).
    assert (B : rmap s11 2 = Some u) by (apply (P11 2 (mkitem u k 1 KVal)); [right; left; reflexivity|cbn; lia|exact R8u]).
    eapply runs_bind; [apply (ext_runs n s11 _ no_prefix _ e (mkitem id (isz xr) 0 KVal) q W11 eq_refl (or_introl eq_refl) R11)|]. cbv beta. intros _ s12 (W12 & R12).
    eapply runs_weaken; [apply (free_runs n s12 _ (mkitem id (isz xr) 0 KVal) W12 eq_refl)|]. cbv beta. intros a0 s13 (W13 & O13 & _). split; [exact W13|].
    cbn [iid] in O13. rewrite R12 in O13. assert (D : lo <> id /\ u <> id).
    { pose proof (w_nodup _ _ _ W12) as D. cbn in D. apply NoDup_cons_iff in D. split; intro X; apply (proj1 D); rewrite X; [left|right; left]; reflexivity. }
    destruct D as (D1 & D2). split; rewrite O13; congruence. }
  assert (Hk : forall s', P tt s' ->
     runs (allow_spilling lo ;;; allow_spilling u ;;; modify u (with_size k) ;;; modify lo (with_size k) ;;;
           (if md then free_emit_location lo ;;; ret u else free_emit_location u ;;; ret lo)) s' (done n k R)).
  { intros s' (Wa & Ra & Rb).
    eapply runs_bind; [apply (allow_runs _ s' _ (mkitem lo k 1 KVal) 0 Wa Ra); cbn; lia|]. cbv beta. unfold relock. cbn [iid isz ilk ikd Z.add Z.pos_sub]. intros _ t1 (X1 & Y1).
    eapply runs_bind; [apply (allow_runs n t1 (mkitem lo k 0 KVal :: R) (mkitem u k 1 KVal) 2); [eapply well_perm; [apply perm_swap|exact X1]|cbn; congruence|cbn; lia]|].
    cbv beta. unfold relock. cbn [iid isz ilk ikd Z.add Z.pos_sub]. intros _ t2 (X2 & Y2).
    eapply runs_bind; [apply (modify_item n t2 _ (mkitem u k 0 KVal) (mkitem u k 0 KVal) (with_size k) X2); cbn; try reflexivity; try lia; try assumption; discriminate|].
    cbv beta. intros _ t3 (X3 & Y3).
    eapply runs_bind; [apply (modify_item n t3 (mkitem u k 0 KVal :: R) (mkitem lo k 0 KVal) (mkitem lo k 0 KVal) (with_size k)); cbn; try reflexivity; try lia; try assumption; try discriminate; eapply well_perm; [apply perm_swap|exact X3]|].
    cbv beta. intros _ t4 (X4 & Y4). assert (E4 : rmap t4 = rmap s') by congruence. rewrite <- E4 in Ra, Rb. pose proof (differ _ _ _ _ _ X4) as Df. cbn in Df.
    destruct md.
    - eapply runs_bind; [apply (free_runs n t4 _ (mkitem lo k 0 KVal) X4 eq_refl)|]. cbv beta. intros _ t5 (X5 & O5 & _). apply runs_ret. split; [exact X5|]. exists 2. cbn [iid] in O5. rewrite O5; congruence.
    - eapply runs_bind; [apply (free_runs n t4 (mkitem lo k 0 KVal :: R) (mkitem u k 0 KVal)); [eapply well_perm; [apply perm_swap|exact X4]|reflexivity]|]. cbv beta. intros _ t5 (X5 & O5 & _). apply runs_ret. split; [exact X5|]. exists 0. cbn [iid] in O5. rewrite O5; congruence. }
  eapply runs_bind with (P := P); [|intros [] s' Hs'; apply Hk; exact Hs'].
  destruct st as [q|v|b i kk off|c|]; try exact Gen.
  destruct (4 <=? isz xr); [|exact Gen].
  unfold state_ok in Ok. destruct i; [contradiction|]. destruct (ikd xr); try contradiction. destruct Ok as (-> & Ho).
  eapply runs_bind; [apply (relative_runs _ (n + 2) s10 _ no_prefix _ e xr kk off loads_bp_load W10' eq_refl (or_introl eq_refl) Hr Ho)|]. cbv beta. intros _ s11 (W11 & R11).
  eapply runs_weaken; [apply (free_runs (n + 2) s11 _ xr W11 Lr)|]. cbv beta. intros a0 s12 (W12 & O12 & _). split; [eapply well_less; [exact W12|lia]|].
  rewrite R11 in O12. split; rewrite O12; try congruence; rewrite ?R8, ?R8u; intro X; injection X as X; [apply (proj1 Nl)|apply (proj2 Nl)]; exact X.
Qed.
End Total.
