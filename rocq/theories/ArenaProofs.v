From Verif Require Import Base IntProofs UtilModel UtilSpec UtilProofs ArenaModel ArenaSpec.

Section proofs.
  Variable gbase : Z.
  Variable growth : Z -> Z.
  Hypothesis gbase_ok : 0 < gbase < 2 ^ 61 /\ (4096 | gbase).
  Hypothesis growth_ok : forall x, 0 <= x <= 2 ^ 40 -> 0 <= growth x < 2 ^ 62.

  Definition below (new old : block) : Prop := address old + size old <= address new.

  Record Blocks (lo hi : Z) (l : list block) : Prop := mkBlocks
    { bl_in : Forall (fun b => 0 <= size b /\ (alignment b | address b) /\
                ((lo <= address b /\ address b + size b <= hi) \/ (address b = 0 /\ size b = 0))) l;
      bl_order : ForallOrdPairs below l }.

  Definition uninit (s : slot) : Prop :=
    base (arena_of s) = 0 /\ current (arena_of s) = 0 /\ end_of_committed_memory (arena_of s) = 0 /\
    reserved (arena_of s) = 0 /\ temp_count (arena_of s) = 0 /\ temps s = [] /\ Blocks 0 0 (owned s).

  Fixpoint temps_ok (lo hi n : Z) (l : list ((Z * Z) * list block)) : Prop :=
    match l with
    | [] => n = 0
    | ((saved, idx), blocks) :: r => lo <= saved <= hi /\ idx = n /\ Blocks lo saved blocks /\ temps_ok lo saved (n - 1) r
    end.

  Definition init (g : Z) (s : slot) : Prop :=
    let a := arena_of s in
    0 < reserved a /\ gbase + 4096 <= base a /\ base a + reserved a <= gbase + g /\
    (4096 | base a) /\ (4096 | reserved a) /\ (4096 | end_of_committed_memory a) /\
    base a <= current a <= end_of_committed_memory a /\ end_of_committed_memory a <= base a + reserved a /\
    (0 <= constant_grow_amount a < 2 ^ 32) /\
    Blocks (base a) (current a) (owned s) /\ temps_ok (base a) (current a) (temp_count a) (temps s).

  Definition ok_slot (g : Z) (s : slot) : Prop := uninit s \/ init g s.

  Definition apart (s t : slot) : Prop :=
    reserved (arena_of s) = 0 \/ reserved (arena_of t) = 0 \/
    base (arena_of s) + reserved (arena_of s) <= base (arena_of t) \/
    base (arena_of t) + reserved (arena_of t) <= base (arena_of s).

  Record inv (w : world) : Prop := mkinv
    { inv_g : 4096 <= global_reserved w <= global_dynamic_memory_size /\ (4096 | global_reserved w);
      inv_slots : Forall (ok_slot (global_reserved w)) (slots w);
      inv_apart : forall i j s t, i <> j -> nth_error (slots w) i = Some s -> nth_error (slots w) j = Some t -> apart s t }.

  (** How one slot may change. *)
  Definition gok (g : Z) : Prop := 4096 <= g <= global_dynamic_memory_size /\ (4096 | g).
  Definition moved (g : Z) (s : slot) (g' : Z) (s' : slot) : Prop :=
    g <= g' /\ gok g' /\ ok_slot g' s' /\
    ((g' = g /\ base (arena_of s') = base (arena_of s) /\ reserved (arena_of s') = reserved (arena_of s)) \/
     (gbase + g <= base (arena_of s'))).

  Lemma ok_mono : forall g g' s, g <= g' -> ok_slot g s -> ok_slot g' s.
  Proof. intros g g' s L [U|I]; [left; auto|right]. unfold init in *. intuition lia. Qed.

  Lemma Blocks_mono : forall lo hi lo' hi' l, Blocks lo hi l -> lo' <= lo -> hi <= hi' -> Blocks lo' hi' l.
  Proof.
    intros lo hi lo' hi' l [B O] L H. constructor; auto. eapply Forall_impl; [|exact B].
    cbn. intros b [S [A [[X Y]|Z]]]; intuition lia.
  Qed.

  Lemma Blocks_zero : forall l lo hi, Blocks 0 0 l -> Blocks lo hi l.
  Proof.
    intros l lo hi [B O]. constructor; auto. eapply Forall_impl; [|exact B].
    cbn. intros b [S [A [[X Y]|Z]]]; intuition lia.
  Qed.

  Lemma temps_mono : forall l lo hi hi' n, temps_ok lo hi n l -> hi <= hi' -> temps_ok lo hi' n l.
  Proof. destruct l as [|[[sv ix] bl] r]; cbn; intuition lia. Qed.

  Lemma nth_update_same : forall A (l : list A) i x y, nth_error l i = Some y -> nth_error (update i x l) i = Some x.
  Proof. induction l; destruct i; cbn; intros; try discriminate; auto. eapply IHl; eauto. Qed.
  Lemma nth_update_other : forall A (l : list A) i j x, i <> j -> nth_error (update i x l) j = nth_error l j.
  Proof. induction l; destruct i, j; cbn; intros; auto; try congruence. Qed.
  Lemma Forall_update : forall A (P : A -> Prop) l i x, Forall P l -> P x -> Forall P (update i x l).
  Proof. induction l; destruct i; cbn; intros; auto; inversion H; subst; constructor; auto. Qed.

  Lemma on_slot_inv : forall w i f w',
    inv w -> on_slot w i f = Done w' ->
    (forall s g' s', nth_error (slots w) i = Some s -> ok_slot (global_reserved w) s ->
        f (global_reserved w) s = Done (g', s') -> moved (global_reserved w) s g' s') ->
    inv w'.
  Proof.
    intros w i f w' [G S A] E M. unfold on_slot in E.
    destruct (nth_error (slots w) i) as [s|] eqn:N; [|discriminate].
    destruct (f (global_reserved w) s) as [[g' s']| |] eqn:F; try discriminate.
    cbn in E. injection E as <-.
    assert (OS : ok_slot (global_reserved w) s) by (rewrite Forall_forall in S; apply S; eapply nth_error_In; eauto).
    destruct (M s g' s' eq_refl OS F) as (L & GO & O & R).
    constructor; cbn [global_reserved slots].
    - exact GO.
    - apply Forall_update; auto. eapply Forall_impl; [|exact S]. intros; eapply ok_mono; eauto.
    - assert (AP : forall j t, j <> i -> nth_error (slots w) j = Some t -> apart s' t).
      { intros j t NE Nj. destruct R as [(_ & B & RE)|NW].
        - specialize (A i j s t ltac:(auto) N Nj). unfold apart in *. rewrite B, RE. auto.
        - assert (OT : ok_slot (global_reserved w) t) by (rewrite Forall_forall in S; apply S; eapply nth_error_In; eauto).
          unfold apart. destruct OT as [U|I]; [unfold uninit in U; tauto|]. unfold init in I. intuition lia. }
      intros j k t u NE Nj Nk.
      destruct (Nat.eq_dec i j) as [<-|Nij]; destruct (Nat.eq_dec i k) as [<-|Nik].
      + congruence.
      + rewrite (nth_update_same _ _ _ _ _ N) in Nj. injection Nj as <-.
        rewrite nth_update_other in Nk by auto. apply (AP k u); auto.
      + rewrite (nth_update_same _ _ _ _ _ N) in Nk. injection Nk as <-.
        rewrite nth_update_other in Nj by auto. specialize (AP j t ltac:(auto) Nj). unfold apart in *. tauto.
      + rewrite nth_update_other in Nj, Nk by auto. apply (A j k t u); auto.
  Qed.

  Lemma div_sum : forall a b, (4096 | a) -> (4096 | b) -> (4096 | a + b).
  Proof. intros; apply Z.divide_add_r; auto. Qed.

  Lemma ensure_ok : forall g s g' a', gok g -> ok_slot g s -> ensure gbase g (arena_of s) = Done (g', a') ->
    g <= g' /\ gok g' /\ init g' (mkslot a' (temps s) (owned s)) /\ moved g s g' (mkslot a' (temps s) (owned s)).
  Proof.
    intros g s g' a' G OS E. unfold ensure in E. destruct OS as [U|I].
    - destruct U as (B & C & EN & R & T & TS & BL). rewrite R in E. cbn [Z.eqb] in E.
      unfold create_memory_arena in E.
      destruct (gbase + g + default_arena_size >? gbase + global_dynamic_memory_size) eqn:GT; [discriminate|].
      injection E as <- <-.
      assert (D : (4096 | default_arena_size)) by (exists 2097152; reflexivity).
      assert (DP : default_arena_size = 8589934592) by reflexivity.
      destruct G as [G1 G2]. destruct gbase_ok as [GB GD].
      assert (GO : gok (g + default_arena_size)) by (split; [lia|apply div_sum; auto]).
      assert (IN : init (g + default_arena_size)
         (mkslot (mkarena (gbase + g) (gbase + g) (gbase + g) default_arena_size mega_byte 0) (temps s) (owned s))).
      { unfold init. cbn. rewrite TS. cbn [temps_ok].
        assert (mega_byte = 2 ^ 20) by reflexivity.
        repeat (split; [first [lia | apply div_sum; auto | apply D | apply Blocks_zero; auto]|]). auto. }
      split; [lia|]. split; auto. split; auto. split; [lia|]. split; auto. split; [right; auto|].
      right. cbn. lia.
    - assert (R : 0 < reserved (arena_of s)) by (unfold init in I; tauto).
      replace (reserved (arena_of s) =? 0) with false in E by lia. injection E as <- <-.
      destruct s as [a t o]. cbn [arena_of temps owned] in *.
      split; [lia|]. split; auto. split; auto. split; [lia|]. split; auto. split; [right; auto|]. left. auto.
  Qed.

  Lemma moved_trans : forall g s g1 s1 g2 s2, moved g s g1 s1 -> moved g1 s1 g2 s2 -> moved g s g2 s2.
  Proof.
    intros g s g1 s1 g2 s2 (L1 & G1 & O1 & R1) (L2 & G2 & O2 & R2).
    split; [lia|]. split; auto. split; auto.
    destruct R2 as [(-> & B2 & RE2)|N2].
    - destruct R1 as [(-> & B1 & RE1)|N1]; [left|right; lia]. rewrite B2, RE2. auto.
    - right. lia.
  Qed.

  Lemma pow_page : forall al, power_of_two al -> al <= 4096 -> (al | 4096).
  Proof.
    intros al [k [K ->]] L. assert (k <= 12).
    { destruct (Z_le_gt_dec k 12); auto. assert (2 ^ 13 <= 2 ^ k) by (apply Z.pow_le_mono_r; lia). change (2 ^ 13) with 8192 in H. lia. }
    exists (2 ^ (12 - k)). rewrite <- Z.pow_add_r by lia. replace (12 - k + k) with 12 by lia. reflexivity.
  Qed.

  Lemma pow_of_check : forall al, negb (is_power_of_two al) = false -> 0 <= al <= 4096 -> power_of_two al.
  Proof. intros al P L. apply negb_false_iff in P. apply is_pow2_spec; auto. lia. Qed.

  (** Aligning inside of committed pages stays inside. *)
  Lemma aligned_below : forall al c e r, power_of_two al -> al <= 4096 -> (4096 | e) -> c <= e ->
    least (fun x => c <= x /\ (al | x)) r -> c <= r <= e /\ (al | r).
  Proof.
    intros al c e r P L E C [[R1 R2] M]. split; auto. split; auto. apply M. split; auto.
    eapply Z.divide_trans; [apply pow_page; eauto|auto].
  Qed.

  Lemma gok_bound : forall g, gok g -> 0 <= gbase + g < 2 ^ 62.
  Proof. intros g [G _]. destruct gbase_ok. assert (global_dynamic_memory_size = 2 ^ 40) by reflexivity. lia. Qed.

  Lemma set_current_init : forall g a ts ow c, init g (mkslot a ts ow) -> current a <= c <= end_of_committed_memory a ->
    init g (mkslot (set_current a c) ts ow).
  Proof.
    intros g a ts ow c I C. unfold init in *. cbn in *. destruct I as (A1 & A2 & A3 & A4 & A5 & A6 & A7 & A8 & AC & A9 & A10).
    repeat (split; [first [lia|assumption|eapply Blocks_mono; [exact A9|lia|lia]]|]).
    eapply temps_mono; [exact A10|lia].
  Qed.

  Lemma moved_current : forall g a ts ow c, gok g -> init g (mkslot (set_current a c) ts ow) ->
    moved g (mkslot a ts ow) g (mkslot (set_current a c) ts ow).
  Proof. intros. split; [lia|]. split; auto. split; [right; auto|]. left. auto. Qed.

  Lemma push_align_moved : forall g s al g' a', gok g -> ok_slot g s -> 0 <= al ->
    push_align gbase g (arena_of s) al = Done (g', a') -> moved g s g' (mkslot a' (temps s) (owned s)).
  Proof.
    intros g s al g' a' G OS AL E. unfold push_align in E.
    destruct (ensure gbase g (arena_of s)) as [[g1 a1]| |] eqn:EN; try discriminate. cbn [obind] in E.
    destruct (ensure_ok _ _ _ _ G OS EN) as (L1 & G1 & I1 & M1).
    destruct (negb (al <=? page)) eqn:C1; [discriminate|]. destruct (negb (is_power_of_two al)) eqn:C2; [discriminate|].
    unfold page in C1.
    assert (P : power_of_two al) by (apply pow_of_check; auto; lia).
    pose proof (gok_bound _ G1) as GB.
    pose proof I1 as I1'. unfold init in I1'. cbn in I1'. destruct I1' as (A1 & A2 & A3 & A4 & A5 & A6 & A7 & A8 & AC & A9 & A10).
    destruct gbase_ok as [GB0 _].
    destruct (align_up_ok (current a1) al) as [r [E1 LE]]; try lia; auto.
    rewrite E1 in E. cbn [obind] in E. injection E as <- <-.
    destruct (aligned_below al _ _ _ P ltac:(lia) A6 (proj2 A7) LE) as [R1 R2].
    eapply moved_trans; [exact M1|]. apply moved_current; auto. apply set_current_init; auto.
  Qed.

  Lemma push_zero_align_moved : forall g s al g' a', gok g -> ok_slot g s -> 0 <= al ->
    push_zero_align gbase g (arena_of s) al = Done (g', a') -> moved g s g' (mkslot a' (temps s) (owned s)).
  Proof.
    intros g s al g' a' G OS AL E. unfold push_zero_align in E.
    destruct (negb (al <=? page)) eqn:C1; [discriminate|]. destruct (negb (is_power_of_two al)) eqn:C2; [discriminate|].
    unfold page in C1.
    assert (P : power_of_two al) by (apply pow_of_check; auto; lia).
    destruct (Z.land (current (arena_of s)) (al - 1) =? 0) eqn:Z0.
    - injection E as <- <-. destruct s as [a t o]. cbn [arena_of temps owned] in *.
      split; [lia|]. split; auto.
    - pose proof OS as OS'. destruct OS as [U|I].
      + unfold uninit in U. destruct U as (_ & C & _). rewrite C in Z0. cbn in Z0. discriminate.
      + pose proof I as I1'. unfold init in I1'. destruct I1' as (A1 & A2 & A3 & A4 & A5 & A6 & A7 & A8 & AC & A9 & A10).
        pose proof (gok_bound _ G) as GB. destruct gbase_ok as [GB0 _].
        destruct (align_up_ok (current (arena_of s)) al) as [r [E1 LE]]; try lia; auto.
        rewrite E1 in E. cbn [obind] in E.
        destruct (ensure gbase g (arena_of s)) as [[g1 a1]| |] eqn:EN; try discriminate. cbn [obind] in E.
        injection E as <- <-.
        unfold ensure in EN. replace (reserved (arena_of s) =? 0) with false in EN by lia. injection EN as <- <-.
        destruct (aligned_below al _ _ _ P ltac:(lia) A6 (proj2 A7) LE) as [R1 R2].
        destruct s as [a t o]. cbn [arena_of temps owned] in *.
        apply moved_current; auto. apply set_current_init; auto.
  Qed.

  Lemma least_page : forall x r, least (fun y => x <= y /\ (4096 | y)) r -> x <= r < x + 4096 /\ (4096 | r).
  Proof.
    intros x r [[R1 R2] M]. split; auto. split; auto.
    destruct (Z_lt_ge_dec r (x + 4096)); auto.
    specialize (M (r - 4096) ltac:(split; [lia|apply Z.divide_sub_r; auto; exists 1; reflexivity])). lia.
  Qed.

  Lemma page_pow : power_of_two page. Proof. exists 12. split; [lia|reflexivity]. Qed.

  Lemma grow_moved : forall g s size g' a', gok g -> ok_slot g s -> 0 <= size < 2 ^ 40 ->
    grow_arena gbase growth g (arena_of s) size = Done (g', a') ->
    moved g s g' (mkslot a' (temps s) (owned s)) /\ init g' (mkslot a' (temps s) (owned s)) /\
    (exists a1, ensure gbase g (arena_of s) = Done (g', a1) /\ base a' = base a1 /\ current a' = current a1 /\
       end_of_committed_memory a1 + size <= end_of_committed_memory a').
  Proof.
    intros g s sz g' a' G OS SZ E. unfold grow_arena in E.
    destruct (ensure gbase g (arena_of s)) as [[g1 a1]| |] eqn:EN; try discriminate. cbn [obind] in E.
    destruct (ensure_ok _ _ _ _ G OS EN) as (L1 & G1 & I1 & M1).
    pose proof I1 as I1'. unfold init in I1'. cbn in I1'. destruct I1' as (A1 & A2 & A3 & A4 & A5 & A6 & A7 & A8 & AC & A9 & A10).
    pose proof (gok_bound _ G1) as GB. destruct gbase_ok as [GB0 GBD].
    assert (GS : global_dynamic_memory_size = 2 ^ 40) by reflexivity.
    assert (MB : mega_byte = 2 ^ 20) by reflexivity.
    set (cs := end_of_committed_memory a1 - base a1) in *.
    assert (CS : 0 <= cs <= 2 ^ 40) by (unfold cs; destruct G1; lia).
    pose proof (growth_ok cs CS) as GR.
    destruct (align_up_ok (Z.max (growth cs) (cs + Z.max (constant_grow_amount a1) mega_byte)) page) as [r1 [E1 LE1]];
      try (unfold page; lia); [apply page_pow|].
    rewrite E1 in E. cbn [obind] in E. destruct (least_page _ _ LE1) as [R1 D1].
    destruct (align_up_ok sz page) as [r2 [E2 LE2]]; try (unfold page; lia); [apply page_pow|].
    rewrite E2 in E. cbn [obind] in E. destruct (least_page _ _ LE2) as [R2 D2].
    set (gt := Z.max (cs + r2) (Z.min r1 (reserved a1))) in *.
    destruct (gt >? reserved a1) eqn:GT; [discriminate|]. injection E as <- <-.
    assert (DC : (4096 | cs)) by (unfold cs; apply Z.divide_sub_r; auto).
    assert (DG : (4096 | gt)).
    { unfold gt. destruct (Z.max_spec (cs + r2) (Z.min r1 (reserved a1))) as [[_ ->]|[_ ->]]; [|apply div_sum; auto].
      destruct (Z.min_spec r1 (reserved a1)) as [[_ ->]|[_ ->]]; auto. }
    assert (GG : cs + sz <= gt <= reserved a1) by (unfold gt in *; lia).
    assert (IN : init g1 (mkslot (set_end a1 (base a1 + gt)) (temps s) (owned s))).
    { unfold init. cbn. unfold cs in *.
      repeat (split; [first [lia|assumption|apply div_sum; auto]|]). exact A10. }
    split; [|split; [exact IN|]].
    - eapply moved_trans; [exact M1|]. split; [lia|]. split; auto. split; [right; exact IN|]. left. auto.
    - exists a1. cbn. split; auto. split; auto. split; auto. unfold cs in *. lia.
  Qed.

  Lemma init_current : forall g s, init g s -> 0 <= current (arena_of s) < 2 ^ 62 \/ g > global_dynamic_memory_size.
  Proof.
    intros g s I. unfold init in I. destruct (Z_le_gt_dec g global_dynamic_memory_size); [left|right; auto].
    destruct gbase_ok. assert (global_dynamic_memory_size = 2 ^ 40) by reflexivity. lia.
  Qed.

  Lemma push_moved : forall g s sz al g' a' r, gok g -> ok_slot g s -> 0 <= sz < 2 ^ 40 -> 0 <= al ->
    push_struct_ gbase growth g (arena_of s) sz al = Done (g', a', r) ->
    moved g s g' (mkslot a' (temps s) (mkblock r sz al :: owned s)).
  Proof.
    intros g s sz al g' a' r G OS SZ AL E. unfold push_struct_ in E.
    destruct (negb (is_power_of_two al)) eqn:C2; [discriminate|]. destruct (negb (al <=? page)) eqn:C1; [discriminate|].
    unfold page in C1.
    assert (P : power_of_two al) by (apply pow_of_check; auto; lia).
    pose proof (gok_bound _ G) as GB. destruct gbase_ok as [GB0 GBD].
    set (c := align_with_mask (current (arena_of s)) al) in *.
    assert (CC : 0 <= current (arena_of s) < 2 ^ 62).
    { destruct OS as [U|I]; [unfold uninit in U; destruct U as (_ & -> & _); lia|].
      destruct (init_current _ _ I); auto. destruct G. lia. }
    pose proof (align_with_mask_ok (current (arena_of s)) al ltac:(lia) P ltac:(lia)) as LE. fold c in LE.
    cbv zeta in E. cbn [set_current current end_of_committed_memory] in E.
    destruct (negb (c <=? end_of_committed_memory (arena_of s))) eqn:C3; [discriminate|].
    (* the slot after the alignment *)
    set (s1 := mkslot (set_current (arena_of s) c) (temps s) (owned s)).
    assert (M0 : ok_slot g s1 /\ moved g s g s1 /\ (uninit s -> c = 0)).
    { destruct OS as [U|I].
      - assert (U' := U). destruct U' as (B & C & EN & R & T & TS & BL).
        assert (C0 : c = 0) by (destruct LE as [[? ?] M]; specialize (M 0); assert (c <= 0) by (apply M; split; [lia|exists 0; lia]); lia).
        assert (U1 : uninit s1) by (unfold uninit, s1; cbn; rewrite C0; tauto).
        split; [left; auto|]. split; auto. split; [lia|]. split; auto. split; [left; auto|]. left. auto.
      - assert (I' := I). unfold init in I'. destruct I' as (A1 & A2 & A3 & A4 & A5 & A6 & A7 & A8 & AC & A9 & A10).
        destruct (aligned_below al _ _ _ P ltac:(lia) A6 (proj2 A7) LE) as [R1 R2].
        assert (I1 : init g s1) by (unfold s1; destruct s as [a t o]; cbn [arena_of temps owned] in *; apply set_current_init; auto).
        split; [right; auto|]. split.
        + split; [lia|]. split; auto. split; [right; auto|]. left. auto.
        + intros (B & _). lia. }
    destruct M0 as (OS1 & M1 & U0).
    assert (ADD : forall g2 a2, gok g2 -> ok_slot g2 (mkslot a2 (temps s) (owned s)) -> (al | current a2) ->
       current a2 + sz <= end_of_committed_memory a2 ->
       moved g2 (mkslot a2 (temps s) (owned s)) g2 (mkslot (set_current a2 (current a2 + sz)) (temps s) (mkblock (current a2) sz al :: owned s))).
    { intros g2 a2 G2 O2 D2 L2. split; [lia|]. split; auto. split; [|left; auto].
      destruct O2 as [U2|I2].
      - left. unfold uninit in *. cbn in *. destruct U2 as (B & C & EN & R & T & TS & [BI BO]).
        assert (sz = 0) by lia. subst sz. rewrite C. repeat (split; [assumption || reflexivity|]).
        split.
        + constructor; auto. cbn. split; [lia|]. split; [exists 0; lia|]. right; auto.
        + constructor; auto. eapply Forall_impl; [|exact BI]. cbn. intros b (? & ? & [?|?]); unfold below; cbn; lia.
      - right. unfold init in *. cbn in *. destruct I2 as (A1 & A2 & A3 & A4 & A5 & A6 & A7 & A8 & AC & [BI BO] & A10).
        repeat (split; [first [lia|assumption]|]). split.
        + split.
          * constructor; cbn; [split; [lia|]; split; auto; left; lia|].
            eapply Forall_impl; [|exact BI]. cbn. intros b (? & ? & [?|?]); intuition lia.
          * constructor; auto. eapply Forall_impl; [|exact BI]. cbn. intros b (? & ? & [?|?]); unfold below; cbn; lia.
        + eapply temps_mono; [exact A10|lia]. }
    destruct (sz >? end_of_committed_memory (arena_of s) - c) eqn:GT.
    - destruct (grow_arena gbase growth g (set_current (arena_of s) c) sz) as [[g2 a2]| |] eqn:GE; try discriminate.
      cbn [obind] in E. injection E as <- <- <-.
      destruct (grow_moved g s1 sz g2 a2 G OS1 SZ GE) as (M2 & I2 & a1 & EN & EB & EC & EE). cbn [s1 temps owned] in M2, I2.
      cbn [s1 arena_of] in EN.
      eapply moved_trans; [exact M1|]. eapply moved_trans; [exact M2|].
      assert (INV2 := M2). destruct INV2 as (_ & G2 & O2 & _).
      assert (D2 : (al | current a2)).
      { rewrite EC. unfold ensure in EN. cbn [s1 arena_of set_current reserved] in EN. destruct (reserved (arena_of s) =? 0) eqn:RZ.
        - unfold create_memory_arena in EN.
          destruct (gbase + g + default_arena_size >? gbase + global_dynamic_memory_size); [discriminate|]. injection EN as <- <-. cbn.
          eapply Z.divide_trans; [apply pow_page; eauto; lia|]. apply div_sum; auto. apply G.
        - injection EN as <- <-. cbn. apply LE. }
      apply ADD; auto.
      rewrite EC.
      assert (current a1 <= end_of_committed_memory a1).
      { destruct (ensure_ok _ s1 _ _ G OS1 EN) as (_ & _ & II & _). unfold init in II. cbn in II. lia. }
      lia.
    - cbn [obind] in E. injection E as <- <- <-. eapply moved_trans; [exact M1|]. unfold s1.
      apply ADD; cbn; auto; [apply LE|lia].
  Qed.

  Lemma begin_moved : forall g s g' a' t, gok g -> ok_slot g s ->
    begin_temporary_memory gbase g (arena_of s) = Done (g', a', t) ->
    moved g s g' (mkslot a' ((t, owned s) :: temps s) (owned s)).
  Proof.
    intros g s g' a' t G OS E. unfold begin_temporary_memory in E.
    destruct (ensure gbase g (arena_of s)) as [[g1 a1]| |] eqn:EN; try discriminate. cbn [obind] in E.
    injection E as <- <- <-. destruct (ensure_ok _ _ _ _ G OS EN) as (L1 & G1 & I1 & M1).
    eapply moved_trans; [exact M1|]. split; [lia|]. split; auto. split; [|left; auto]. right.
    unfold init in *. cbn in *. destruct I1 as (A1 & A2 & A3 & A4 & A5 & A6 & A7 & A8 & AC & A9 & A10).
    repeat (split; [first [lia|assumption]|]).
    replace (temp_count a1 + 1 - 1) with (temp_count a1) by lia. repeat split; auto; try lia; apply A9.
  Qed.

  Lemma end_moved : forall g s t bl rest a', gok g -> ok_slot g s -> temps s = (t, bl) :: rest ->
    end_temporary_memory (arena_of s) t = Done a' -> moved g s g (mkslot a' rest bl) /\ current a' = fst t.
  Proof.
    intros g s [sv ix] bl rest a' G OS T E. destruct OS as [U|I]; [unfold uninit in U; destruct U as (_ & _ & _ & _ & _ & U & _); congruence|].
    unfold init in I. rewrite T in I. cbn [temps_ok] in I.
    destruct I as (A1 & A2 & A3 & A4 & A5 & A6 & A7 & A8 & AC & A9 & B1 & B2 & B3 & B4).
    destruct gbase_ok as [GB0 GBD].
    unfold end_temporary_memory in E. rewrite B2, Z.eqb_refl in E. cbn [negb set_temp_count current base] in E.
    replace (sv =? 0) with false in E by lia.
    destruct (negb (sv <=? current (arena_of s))) eqn:C; [discriminate|]. injection E as <-.
    split; [|reflexivity]. split; [lia|]. split; auto. split; [|left; auto]. right.
    unfold init. cbn. repeat (split; [first [lia|assumption]|]). exact B4.
  Qed.

  Lemma solidify_moved : forall g s t bl rest a', gok g -> ok_slot g s -> temps s = (t, bl) :: rest ->
    solidify_temporary_memory (arena_of s) t = Done a' -> moved g s g (mkslot a' rest (owned s)).
  Proof.
    intros g s [sv ix] bl rest a' G OS T E. destruct OS as [U|I]; [unfold uninit in U; destruct U as (_ & _ & _ & _ & _ & U & _); congruence|].
    unfold init in I. rewrite T in I. cbn [temps_ok] in I.
    destruct I as (A1 & A2 & A3 & A4 & A5 & A6 & A7 & A8 & AC & A9 & B1 & B2 & B3 & B4).
    unfold solidify_temporary_memory in E. cbn [snd] in E. rewrite B2, Z.eqb_refl in E. cbn [negb] in E. injection E as <-.
    split; [lia|]. split; auto. split; [|left; auto]. right.
    unfold init. cbn. repeat (split; [first [lia|assumption]|]). eapply temps_mono; [exact B4|lia].
  Qed.

  Lemma reset_moved : forall g s, gok g -> ok_slot g s -> temps s = [] -> moved g s g (mkslot (arena_reset (arena_of s)) [] []).
  Proof.
    intros g s G OS T. split; [lia|]. split; auto. split; [|left; auto].
    assert (NB : forall lo hi, Blocks lo hi []) by (intros; constructor; constructor).
    destruct OS as [U|I].
    - left. unfold uninit in *. cbn. intuition.
    - right. unfold init in *. cbn. rewrite T in I. cbn [temps_ok] in I. destruct I as (A1 & A2 & A3 & A4 & A5 & A6 & A7 & A8 & AC & A9 & A10).
      repeat (split; [first [lia|assumption|apply NB]|]). auto.
  Qed.

  Lemma step_inv : forall w o w', inv w -> sane o -> step gbase growth w o = Done w' -> inv w'.
  Proof.
    intros w o w' I S E. pose proof (inv_g w I) as G.
    destruct o; cbn [step] in E; cbn [sane] in S.
    - (* Create *)
      destruct S as (S1 & S2 & S3). destruct I as [_ SL AP].
      unfold create_memory_arena in E.
      destruct (gbase + global_reserved w + size >? gbase + global_dynamic_memory_size) eqn:GT; [discriminate|].
      cbn [obind] in E. injection E as <-. destruct G as [G1 G2]. destruct gbase_ok as [GB0 GBD].
      set (ns := mkslot (mkarena (gbase + global_reserved w) (gbase + global_reserved w) (gbase + global_reserved w) size constant_grow 0) [] []).
      assert (NI : init (global_reserved w + size) ns).
      { unfold init, ns. cbn. repeat (split; [first [lia|apply div_sum; auto|assumption|constructor; constructor]|]). reflexivity. }
      assert (NA : forall t, In t (slots w) -> apart t ns).
      { intros t It. rewrite Forall_forall in SL. destruct (SL t It) as [U|I]; unfold apart, ns; cbn; [unfold uninit in U; tauto|unfold init in I; lia]. }
      constructor; cbn [global_reserved slots].
      + split; [lia|apply div_sum; auto].
      + apply Forall_app. split; [eapply Forall_impl; [|exact SL]; intros; eapply ok_mono; eauto; lia|]. constructor; [right; auto|constructor].
      + intros i j s t NE Ni Nj.
        destruct (Nat.lt_ge_cases i (length (slots w))) as [Li|Li]; destruct (Nat.lt_ge_cases j (length (slots w))) as [Lj|Lj].
        * rewrite nth_error_app1 in Ni, Nj by auto. apply (AP i j); auto.
        * rewrite nth_error_app1 in Ni by auto. rewrite nth_error_app2 in Nj by auto.
          destruct (j - length (slots w))%nat as [|k]; cbn in Nj; [|destruct k; discriminate]. injection Nj as <-.
          apply NA. eapply nth_error_In; eauto.
        * rewrite nth_error_app1 in Nj by auto. rewrite nth_error_app2 in Ni by auto.
          destruct (i - length (slots w))%nat as [|k]; cbn in Ni; [|destruct k; discriminate]. injection Ni as <-.
          assert (apart t ns) by (apply NA; eapply nth_error_In; eauto). unfold apart in *. tauto.
        * rewrite nth_error_app2 in Ni, Nj by auto.
          destruct (i - length (slots w))%nat as [|k] eqn:Ei; cbn in Ni; [|destruct k; discriminate].
          destruct (j - length (slots w))%nat as [|k] eqn:Ej; cbn in Nj; [|destruct k; discriminate]. lia.
    - (* Declare_zero *)
      injection E as <-. destruct I as [_ SL AP].
      constructor; cbn [global_reserved slots]; auto.
      + apply Forall_app. split; auto. constructor; [|constructor]. left. unfold uninit. cbn. repeat split; constructor.
      + intros i j s t NE Ni Nj. set (ns := mkslot zero_arena [] []) in *.
        assert (NA : forall t, apart t ns) by (intros; unfold apart, ns; cbn; tauto).
        assert (NB : forall t, apart ns t) by (intros; unfold apart, ns; cbn; tauto).
        destruct (Nat.lt_ge_cases i (length (slots w))) as [Li|Li].
        * destruct (Nat.lt_ge_cases j (length (slots w))) as [Lj|Lj].
          -- rewrite nth_error_app1 in Ni, Nj by auto. apply (AP i j); auto.
          -- rewrite nth_error_app2 in Nj by auto.
             destruct (j - length (slots w))%nat as [|k]; cbn in Nj; [|destruct k; discriminate]. injection Nj as <-. apply NA.
        * rewrite nth_error_app2 in Ni by auto.
          destruct (i - length (slots w))%nat as [|k]; cbn in Ni; [|destruct k; discriminate]. injection Ni as <-. apply NB.
    - eapply on_slot_inv; eauto. cbn beta. intros s g' s' N OS F.
      destruct (push_struct_ gbase growth (global_reserved w) (arena_of s) size alignment) as [[[g2 a2] r]| |] eqn:PE; try discriminate.
      cbn [obind] in F. injection F as <- <-. eapply push_moved; eauto; lia.
    - eapply on_slot_inv; eauto. cbn beta. intros s g' s' N OS F.
      destruct (push_align gbase (global_reserved w) (arena_of s) alignment) as [[g2 a2]| |] eqn:PE; try discriminate.
      cbn [obind] in F. injection F as <- <-. eapply push_align_moved; eauto.
    - eapply on_slot_inv; eauto. cbn beta. intros s g' s' N OS F.
      destruct (push_zero_align gbase (global_reserved w) (arena_of s) alignment) as [[g2 a2]| |] eqn:PE; try discriminate.
      cbn [obind] in F. injection F as <- <-. eapply push_zero_align_moved; eauto.
    - eapply on_slot_inv; eauto. cbn beta. intros s g' s' N OS F.
      destruct (begin_temporary_memory gbase (global_reserved w) (arena_of s)) as [[[g2 a2] t]| |] eqn:PE; try discriminate.
      cbn [obind] in F. injection F as <- <-. eapply begin_moved; eauto.
    - eapply on_slot_inv; eauto. cbn beta. intros s g' s' N OS F.
      destruct (temps s) as [|[t bl] rest] eqn:T; [discriminate|].
      destruct (end_temporary_memory (arena_of s) t) as [a2| |] eqn:PE; try discriminate.
      cbn [obind] in F. injection F as <- <-. eapply end_moved; eauto.
    - eapply on_slot_inv; eauto. cbn beta. intros s g' s' N OS F.
      destruct (temps s) as [|[t bl] rest] eqn:T; [discriminate|].
      destruct (solidify_temporary_memory (arena_of s) t) as [a2| |] eqn:PE; try discriminate.
      cbn [obind] in F. injection F as <- <-. eapply solidify_moved; eauto.
    - eapply on_slot_inv; eauto. cbn beta. intros s g' s' N OS F.
      destruct (temps s) eqn:T; [|discriminate]. injection F as <- <-. apply reset_moved; auto.
  Qed.

  Lemma run_inv : forall ops w w', inv w -> Forall sane ops -> run gbase growth ops w = Done w' -> inv w'.
  Proof.
    induction ops as [|o ops IH]; cbn [run]; intros w w' I S E; [injection E as <-; auto|].
    inversion S; subst. destruct (step gbase growth w o) as [w1| |] eqn:SE; try discriminate. cbn [obind] in E.
    apply (IH w1); auto. apply (step_inv w o); auto.
  Qed.

  Lemma start_inv : inv start.
  Proof.
    constructor; cbn.
    - split; [vm_compute; split; congruence|exists 1; reflexivity].
    - constructor.
    - intros. destruct i; discriminate.
  Qed.

  (** *** consequences *)
  Lemma in_slot_range : forall g s b, ok_slot g s -> In b (owned s) ->
    0 <= size b /\ (alignment b | address b) /\
    ((address b = 0 /\ size b = 0) \/
     (0 < reserved (arena_of s) /\ base (arena_of s) <= address b /\
      address b + size b <= current (arena_of s) <= end_of_committed_memory (arena_of s) /\
      end_of_committed_memory (arena_of s) <= base (arena_of s) + reserved (arena_of s) /\ 0 < base (arena_of s))).
  Proof.
    intros g s b OS I. destruct gbase_ok as [GB _].
    destruct OS as [U|J].
    - destruct U as (_ & _ & _ & _ & _ & _ & [BI _]). rewrite Forall_forall in BI. specialize (BI b I). cbn in BI.
      destruct BI as (X & Y & [Z|Z]); intuition lia.
    - unfold init in J. destruct J as (A1 & A2 & A3 & A4 & A5 & A6 & A7 & A8 & AC & [BI BO] & A10).
      rewrite Forall_forall in BI. specialize (BI b I). cbn in BI. destruct BI as (X & Y & [Z|Z]); intuition lia.
  Qed.

  Lemma fop_app : forall (R : block -> block -> Prop) l m, ForallOrdPairs R l -> ForallOrdPairs R m ->
    (forall x y, In x l -> In y m -> R x y) -> ForallOrdPairs R (l ++ m).
  Proof.
    induction l as [|x l IH]; intros m L M H; cbn; auto. inversion L; subst. constructor.
    - apply Forall_app. split; auto. apply Forall_forall. intros; apply H; [left|]; auto.
    - apply IH; auto. intros; apply H; [right|]; auto.
  Qed.

  Lemma fop_impl : forall (R Q : block -> block -> Prop) l, ForallOrdPairs R l -> (forall x y, R x y -> Q x y) -> ForallOrdPairs Q l.
  Proof. induction 1; intros HQ; constructor; auto. eapply Forall_impl; [|eassumption]. cbn. auto. Qed.

  Lemma inv_disjoint : forall w, inv w -> ForallOrdPairs disjoint (all_blocks w).
  Proof.
    intros [g sl] [G S A]. unfold all_blocks. cbn [slots global_reserved] in *. clear G.
    induction sl as [|s sl IH]; cbn [flat_map]; [constructor|].
    inversion S as [|? ? OS S']; subst. apply fop_app.
    - assert (BO : ForallOrdPairs below (owned s)).
      { destruct OS as [U|J]; [destruct U as (_ & _ & _ & _ & _ & _ & [_ ?]); auto|].
        unfold init in J. destruct J as (_ & _ & _ & _ & _ & _ & _ & _ & _ & [_ ?] & _); auto. }
      eapply fop_impl; [exact BO|]. unfold below, disjoint. intros; right; auto.
    - apply IH; auto. intros i j s1 t NE N1 N2. apply (A (Datatypes.S i) (Datatypes.S j)); auto.
    - intros x y Ix Iy. apply in_flat_map in Iy. destruct Iy as [t [It Iy]].
      apply In_nth_error in It. destruct It as [k Nk].
      specialize (A 0%nat (Datatypes.S k) s t ltac:(lia) eq_refl Nk).
      rewrite Forall_forall in S'. assert (OT : ok_slot g t) by (apply S'; eapply nth_error_In; eauto).
      pose proof (in_slot_range _ _ _ OS Ix). pose proof (in_slot_range _ _ _ OT Iy).
      unfold apart in A. unfold disjoint. intuition lia.
  Qed.

  Lemma inv_blocks : forall w, inv w -> forall s b, In s (slots w) -> In b (owned s) -> (alignment b | address b) /\ within_committed s b.
  Proof.
    intros w [G S A] s b Is Ib. rewrite Forall_forall in S.
    pose proof (in_slot_range _ _ _ (S s Is) Ib). unfold within_committed. intuition lia.
  Qed.

  (** *** temporary memory *)
  Definition view (w : world) (i : nat) : option (list ((Z * Z) * list block)) := option_map temps (nth_error (slots w) i).

  Lemma step_other_temps : forall w o w' i s, step gbase growth w o = Done w' -> touches i o = false ->
    nth_error (slots w) i = Some s -> view w' i = Some (temps s).
  Proof.
    intros w o w' i s E T N. unfold view.
    assert (OTHER : forall j f, on_slot w j f = Done w' ->
       (forall g' s', j = i -> f (global_reserved w) s = Done (g', s') -> temps s' = temps s) ->
       option_map temps (nth_error (slots w') i) = Some (temps s)).
    { intros j f O H. unfold on_slot in O. destruct (nth_error (slots w) j) as [sj|] eqn:Nj; [|discriminate].
      destruct (f (global_reserved w) sj) as [[g' s']| |] eqn:F; try discriminate. cbn in O. injection O as <-. cbn [slots].
      destruct (Nat.eq_dec j i) as [->|NE].
      - rewrite (nth_update_same _ _ _ _ _ Nj). cbn. f_equal. assert (sj = s) by congruence. subst sj. apply (H g' s'); auto.
      - rewrite nth_update_other by auto. rewrite N. reflexivity. }
    destruct o; cbn [step] in E; cbn [touches] in T.
    - destruct (create_memory_arena gbase (global_reserved w) size constant_grow) as [[g a]| |]; try discriminate.
      cbn in E. injection E as <-. cbn [slots]. rewrite nth_error_app1; [rewrite N; reflexivity|].
      apply nth_error_Some. congruence.
    - injection E as <-. cbn [slots]. rewrite nth_error_app1; [rewrite N; reflexivity|]. apply nth_error_Some. congruence.
    - eapply OTHER; eauto. cbn beta. intros g' s' _ F.
      destruct (push_struct_ gbase growth (global_reserved w) (arena_of s) size alignment) as [[[g2 a2] r]| |]; try discriminate.
      cbn in F. injection F as <- <-. reflexivity.
    - eapply OTHER; eauto. cbn beta. intros g' s' _ F.
      destruct (push_align gbase (global_reserved w) (arena_of s) alignment) as [[g2 a2]| |]; try discriminate.
      cbn in F. injection F as <- <-. reflexivity.
    - eapply OTHER; eauto. cbn beta. intros g' s' _ F.
      destruct (push_zero_align gbase (global_reserved w) (arena_of s) alignment) as [[g2 a2]| |]; try discriminate.
      cbn in F. injection F as <- <-. reflexivity.
    - apply Nat.eqb_neq in T. eapply OTHER; eauto. intros; congruence.
    - apply Nat.eqb_neq in T. eapply OTHER; eauto. intros; congruence.
    - apply Nat.eqb_neq in T. eapply OTHER; eauto. intros; congruence.
    - apply Nat.eqb_neq in T. eapply OTHER; eauto. intros; congruence.
  Qed.

  Lemma run_app : forall a b w, run gbase growth (a ++ b) w = obind (run gbase growth a w) (run gbase growth b).
  Proof.
    induction a as [|o a IH]; cbn [app run]; intros; auto.
    destruct (step gbase growth w o); cbn [obind]; auto.
  Qed.

  Lemma begin_temps : forall w i s w', step gbase growth w (Begin i) = Done w' -> nth_error (slots w) i = Some s ->
    exists s' g1 a1, nth_error (slots w') i = Some s' /\ ensure gbase (global_reserved w) (arena_of s) = Done (g1, a1) /\
      temps s' = ((current a1, temp_count a1 + 1), owned s) :: temps s.
  Proof.
    intros w i s w' E N. cbn [step] in E. unfold on_slot in E. rewrite N in E. unfold begin_temporary_memory in E.
    destruct (ensure gbase (global_reserved w) (arena_of s)) as [[g1 a1]| |] eqn:EN; try discriminate. cbn in E. injection E as <-.
    cbn [slots]. rewrite (nth_update_same _ _ _ _ _ N). eexists _, g1, a1. split; [reflexivity|]. split; auto.
  Qed.

  Lemma nested_temps : forall i l, nested i l -> forall w w' s, run gbase growth l w = Done w' ->
    nth_error (slots w) i = Some s -> view w' i = Some (temps s).
  Proof.
    induction 1 as [|o l T H IH|l m Hl IHl Hm IHm|l m Hl IHl Hm IHm]; intros w w' s E N.
    - cbn in E. injection E as <-. unfold view. rewrite N. reflexivity.
    - cbn [run] in E. destruct (step gbase growth w o) as [w1| |] eqn:SE; try discriminate. cbn [obind] in E.
      pose proof (step_other_temps _ _ _ _ _ SE T N) as V. unfold view in V.
      destruct (nth_error (slots w1) i) as [s1|] eqn:N1; [|discriminate]. cbn in V. injection V as V.
      rewrite (IH _ _ _ E N1). congruence.
    - cbn [run] in E. destruct (step gbase growth w (Begin i)) as [w1| |] eqn:SE; try discriminate. cbn [obind] in E.
      destruct (begin_temps _ _ _ _ SE N) as (s1 & g1 & a1 & N1 & _ & T1).
      rewrite run_app in E. destruct (run gbase growth l w1) as [w2| |] eqn:RL; try discriminate. cbn [obind] in E.
      pose proof (IHl _ _ _ RL N1) as V. unfold view in V. destruct (nth_error (slots w2) i) as [s2|] eqn:N2; [|discriminate].
      cbn in V. injection V as V. cbn [run] in E.
      destruct (step gbase growth w2 (End i)) as [w3| |] eqn:SE3; try discriminate. cbn [obind] in E.
      cbn [step] in SE3. unfold on_slot in SE3. rewrite N2, V, T1 in SE3.
      destruct (end_temporary_memory (arena_of s2) (current a1, temp_count a1 + 1)) as [a3| |]; try discriminate. cbn in SE3. injection SE3 as <-.
      refine (eq_trans (IHm _ _ _ E _) _); [cbn [slots]; apply (nth_update_same _ _ _ _ _ N2)|]. reflexivity.
    - cbn [run] in E. destruct (step gbase growth w (Begin i)) as [w1| |] eqn:SE; try discriminate. cbn [obind] in E.
      destruct (begin_temps _ _ _ _ SE N) as (s1 & g1 & a1 & N1 & _ & T1).
      rewrite run_app in E. destruct (run gbase growth l w1) as [w2| |] eqn:RL; try discriminate. cbn [obind] in E.
      pose proof (IHl _ _ _ RL N1) as V. unfold view in V. destruct (nth_error (slots w2) i) as [s2|] eqn:N2; [|discriminate].
      cbn in V. injection V as V. cbn [run] in E.
      destruct (step gbase growth w2 (Solidify i)) as [w3| |] eqn:SE3; try discriminate. cbn [obind] in E.
      cbn [step] in SE3. unfold on_slot in SE3. rewrite N2, V, T1 in SE3.
      destruct (solidify_temporary_memory (arena_of s2) (current a1, temp_count a1 + 1)) as [a3| |]; try discriminate. cbn in SE3. injection SE3 as <-.
      refine (eq_trans (IHm _ _ _ E _) _); [cbn [slots]; apply (nth_update_same _ _ _ _ _ N2)|]. reflexivity.
  Qed.

  (** The whole scope: the bump pointer is what it was (what lazy creation made it), the
      owned blocks are those from before. *)
  Lemma scope_ok : forall w i l w' s, inv w -> Forall sane l -> nested i l -> nth_error (slots w) i = Some s ->
    run gbase growth (Begin i :: l ++ [End i]) w = Done w' ->
    exists s' g1 a1, nth_error (slots w') i = Some s' /\ ensure gbase (global_reserved w) (arena_of s) = Done (g1, a1) /\
      current (arena_of s') = current a1 /\ owned s' = owned s /\ temps s' = temps s.
  Proof.
    intros w i l w' s I SA NE N E. cbn [run] in E.
    destruct (step gbase growth w (Begin i)) as [w1| |] eqn:SE; try discriminate. cbn [obind] in E.
    destruct (begin_temps _ _ _ _ SE N) as (s1 & g1 & a1 & N1 & EN & T1).
    rewrite run_app in E. destruct (run gbase growth l w1) as [w2| |] eqn:RL; try discriminate. cbn [obind] in E.
    pose proof (nested_temps _ _ NE _ _ _ RL N1) as V. unfold view in V. destruct (nth_error (slots w2) i) as [s2|] eqn:N2; [|discriminate].
    cbn in V. injection V as V. cbn [run] in E.
    destruct (step gbase growth w2 (End i)) as [w3| |] eqn:SE3; try discriminate. cbn [obind] in E. injection E as <-.
    assert (I1 : inv w1) by (apply (step_inv w (Begin i)); cbn; auto).
    assert (I2 : inv w2) by (eapply run_inv; eauto).
    cbn [step] in SE3. unfold on_slot in SE3. rewrite N2, V, T1 in SE3.
    destruct (end_temporary_memory (arena_of s2) (current a1, temp_count a1 + 1)) as [a3| |] eqn:EE; try discriminate. cbn in SE3. injection SE3 as <-.
    assert (O2 : ok_slot (global_reserved w2) s2) by (pose proof (inv_slots _ I2) as F; rewrite Forall_forall in F; apply F; eapply nth_error_In; eauto).
    destruct (end_moved (global_reserved w2) s2 _ _ _ _ (inv_g _ I2) O2 (eq_trans V T1) EE) as [_ C].
    exists (mkslot a3 (temps s) (owned s)), g1, a1. cbn [slots]. rewrite (nth_update_same _ _ _ _ _ N2).
    split; [reflexivity|]. split; auto.
  Qed.

  (** *** progress *)
  Lemma push_succeeds : forall w i s sz al, inv w -> nth_error (slots w) i = Some s -> 0 < reserved (arena_of s) ->
    0 <= sz < 2 ^ 40 -> power_of_two al -> al <= 4096 ->
    end_of_committed_memory (arena_of s) - base (arena_of s) + sz + 4095 < reserved (arena_of s) + 1 ->
    exists w', step gbase growth w (Push i sz al) = Done w'.
  Proof.
    intros w i s sz al I N R SZ P L FIT. pose proof (inv_g _ I) as G.
    assert (OS : ok_slot (global_reserved w) s) by (pose proof (inv_slots _ I) as F; rewrite Forall_forall in F; apply F; eapply nth_error_In; eauto).
    destruct OS as [U|IN]; [unfold uninit in U; destruct U as (_ & _ & _ & U & _); lia|].
    assert (IN' := IN). unfold init in IN'. destruct IN' as (A1 & A2 & A3 & A4 & A5 & A6 & A7 & A8 & AC & A9 & A10).
    pose proof (gok_bound _ G) as GB. destruct gbase_ok as [GB0 GBD].
    assert (AP : 0 < al) by (destruct P as [k [K ->]]; apply pow2_pos; auto).
    cbn [step]. unfold on_slot. rewrite N. unfold push_struct_.
    rewrite (proj2 (is_pow2_spec al ltac:(lia)) P). cbn [negb]. unfold page. replace (al <=? 4096) with true by lia. cbn [negb].
    pose proof (align_with_mask_ok (current (arena_of s)) al ltac:(lia) P ltac:(lia)) as LE.
    destruct (aligned_below al _ _ _ P ltac:(lia) A6 (proj2 A7) LE) as [R1 R2].
    cbv zeta. cbn [set_current current end_of_committed_memory].
    replace (align_with_mask (current (arena_of s)) al <=? end_of_committed_memory (arena_of s)) with true by lia. cbn [negb].
    destruct (sz >? end_of_committed_memory (arena_of s) - align_with_mask (current (arena_of s)) al).
    - unfold grow_arena, ensure. cbn [set_current reserved]. replace (reserved (arena_of s) =? 0) with false by lia. cbn [obind].
      cbn [set_current end_of_committed_memory base constant_grow_amount reserved].
      set (cs := end_of_committed_memory (arena_of s) - base (arena_of s)) in *.
      assert (GS : global_dynamic_memory_size = 2 ^ 40) by reflexivity.
      assert (MB : mega_byte = 2 ^ 20) by reflexivity.
      assert (CS : 0 <= cs <= 2 ^ 40) by (unfold cs; destruct G; lia).
      pose proof (growth_ok cs CS) as GR.
      destruct (align_up_ok (Z.max (growth cs) (cs + Z.max (constant_grow_amount (arena_of s)) mega_byte)) page) as [r1 [E1 LE1]];
        try (unfold page; lia); [apply page_pow|].
      rewrite E1. cbn [obind].
      destruct (align_up_ok sz page) as [r2 [E2 LE2]]; try (unfold page; lia); [apply page_pow|].
      rewrite E2. cbn [obind]. destruct (least_page _ _ LE2) as [R3 D2].
      replace (Z.max (cs + r2) (Z.min r1 (reserved (arena_of s))) >? reserved (arena_of s)) with false by lia.
      cbn [obind]. eexists. reflexivity.
    - cbn [obind]. eexists. reflexivity.
  Qed.

  Lemma end_succeeds : forall w i s t rest, inv w -> nth_error (slots w) i = Some s -> temps s = t :: rest ->
    exists w', step gbase growth w (End i) = Done w'.
  Proof.
    intros w i s [[sv ix] bl] rest I N T. pose proof (inv_g _ I) as G.
    assert (OS : ok_slot (global_reserved w) s) by (pose proof (inv_slots _ I) as F; rewrite Forall_forall in F; apply F; eapply nth_error_In; eauto).
    destruct OS as [U|IN]; [unfold uninit in U; destruct U as (_ & _ & _ & _ & _ & U & _); congruence|].
    unfold init in IN. rewrite T in IN. cbn [temps_ok] in IN.
    destruct IN as (A1 & A2 & A3 & A4 & A5 & A6 & A7 & A8 & AC & A9 & B1 & B2 & B3 & B4).
    cbn [step]. unfold on_slot. rewrite N, T. unfold end_temporary_memory. rewrite B2, Z.eqb_refl. cbn [negb].
    cbn [set_temp_count current base]. replace (sv <=? current (arena_of s)) with true by lia. cbn [negb obind].
    eexists. reflexivity.
  Qed.
End proofs.
