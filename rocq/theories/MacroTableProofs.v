(** Proofs about the macro table (C09). *)
From Coq Require Import Permutation.
From Verif Require Import Base ScopeModel ScopeProofs MacroTableModel MacroTableSpec.

Definition hdq (l : list nat) (q : option nat) : option nat := match l with [] => q | x :: _ => Some x end.
Fixpoint lastp (l : list nat) (p : option nat) : option nat := match l with [] => p | x :: r => lastp r (Some x) end.

Lemma lastp_app : forall a b p, lastp (a ++ b) p = lastp b (lastp a p).
Proof. induction a as [|x a IH]; intros b p; [reflexivity|]. cbn. apply IH. Qed.
Lemma hdq_app : forall a b q, hdq (a ++ b) q = hdq a (hdq b q).
Proof. intros [|x a] b q; reflexivity. Qed.

Section M.
Variable def : Type.
Variable same : def -> def -> bool.
Variable H : name -> Z.
Notation memory := (memory def).
Notation node := (node def).
Notation n_name := (n_name def). Notation n_def := (n_def def). Notation n_builtin := (n_builtin def).
Notation n_next := (n_next def). Notation n_prev := (n_prev def).
Notation write := (write def). Notation set_next := (set_next def). Notation set_prev := (set_prev def).

(** Nodes [l] are linked, from [p] before the first to [q] behind the last. *)
Fixpoint seg (h : memory) (p : option nat) (l : list nat) (q : option nat) : Prop :=
  match l with
  | [] => True
  | x :: r => n_prev (h x) = p /\ n_next (h x) = hdq r q /\ seg h (Some x) r q
  end.
Definition dll (h : memory) (d : dlist) (l : list nat) : Prop := fst d = hdq l None /\ snd d = lastp l None /\ seg h None l None.

Lemma seg_app : forall h a b p q, seg h p (a ++ b) q <-> seg h p a (hdq b q) /\ seg h (lastp a p) b q.
Proof.
  intros h a b. induction a as [|x a IH]; intros p q; cbn [app seg lastp]; [tauto|]. rewrite IH, hdq_app. tauto.
Qed.
Lemma seg_ext : forall h h' l p q, (forall x, In x l -> h' x = h x) -> seg h p l q -> seg h' p l q.
Proof.
  intros h h' l. induction l as [|x l IH]; intros p q E; [auto|]. cbn [seg]. rewrite E by (left; reflexivity). intros (A & B & C).
  split; [exact A|]. split; [exact B|]. apply IH; [intros; apply E; right; assumption|exact C].
Qed.
Lemma dll_ext : forall h h' d l, (forall x, In x l -> h' x = h x) -> dll h d l -> dll h' d l.
Proof. intros h h' d l E (A & B & C). split; [exact A|]. split; [exact B|]. eapply seg_ext; eassumption. Qed.

Definition same_payload (h h' : memory) : Prop := forall x, n_name (h' x) = n_name (h x) /\ n_def (h' x) = n_def (h x) /\ n_builtin (h' x) = n_builtin (h x).
Lemma payload_refl : forall h, same_payload h h.
Proof. intros h x. auto. Qed.
Lemma payload_trans : forall a b c, same_payload a b -> same_payload b c -> same_payload a c.
Proof. intros a b c A B x. destruct (A x) as (A1 & A2 & A3), (B x) as (B1 & B2 & B3). repeat split; congruence. Qed.
Lemma payload_next : forall h a x, same_payload h (write h a (set_next x (h a))).
Proof. intros h a x b. unfold MacroTableModel.write. destruct (Nat.eqb_spec b a) as [->|]; auto. Qed.
Lemma payload_prev : forall h a x, same_payload h (write h a (set_prev x (h a))).
Proof. intros h a x b. unfold MacroTableModel.write. destruct (Nat.eqb_spec b a) as [->|]; auto. Qed.

Lemma write_same : forall h a n, write h a n a = n.
Proof. intros. unfold MacroTableModel.write. rewrite Nat.eqb_refl. reflexivity. Qed.
Lemma write_other : forall h a n b, b <> a -> write h a n b = h b.
Proof. intros. unfold MacroTableModel.write. destruct (Nat.eqb_spec b a); [contradiction|reflexivity]. Qed.

Lemma hdq_some : forall l q x, hdq l q = Some x -> l = [] /\ q = Some x \/ exists r, l = x :: r.
Proof. intros [|y r] q x E; cbn in E; [auto|]. right. exists r. congruence. Qed.

(** ** The three list operations *)
Lemma push_back_ok : forall h d l a, dll h d l -> ~ In a l -> NoDup l ->
  exists d' h', dll_push_back def d a h = Done (d', h') /\ dll h' d' (l ++ [a]) /\ same_payload h h' /\ (forall x, ~ In x l -> x <> a -> h' x = h x).
Proof.
  intros h (f & la) l a (E1 & E2 & S) Na Nd. cbn [fst snd] in *. unfold dll_push_back. cbn [fst snd].
  destruct l as [|z l0] using rev_ind.
  - cbn in E1, E2. subst f la. cbn [put_prev put_next obind]. eexists. eexists. split; [reflexivity|]. split; [|split].
    + split; [reflexivity|]. split; [reflexivity|]. cbn [app seg hdq]. rewrite write_same. cbn. rewrite write_same. auto.
    + eapply payload_trans; [apply payload_prev|apply payload_next].
    + intros x _ Nx. rewrite !write_other by exact Nx. reflexivity.
  - clear IHl0. rewrite hdq_app in E1. cbn [hdq] in E1. destruct f as [f0|]; [|destruct l0; discriminate]. rewrite lastp_app in E2. cbn [lastp] in E2. subst la.
    assert (Nza : z <> a) by (intros ->; apply Na; apply in_or_app; cbn; auto).
    cbn [put_prev put_next obind]. eexists. eexists. split; [reflexivity|].
    set (h1 := write h a (set_prev (Some z) (h a))). set (h2 := write h1 z (set_next (Some a) (h1 z))). set (h3 := write h2 a (set_next None (h2 a))).
    assert (Ea : h3 a = set_next None (set_prev (Some z) (h a))).
    { unfold h3. rewrite write_same. unfold h2. rewrite write_other by congruence. unfold h1. rewrite write_same. reflexivity. }
    assert (Ez : h3 z = set_next (Some a) (h z)).
    { unfold h3. rewrite write_other by congruence. unfold h2. rewrite write_same. unfold h1. rewrite write_other by congruence. reflexivity. }
    assert (Eo : forall x, x <> a -> x <> z -> h3 x = h x).
    { intros x A B. unfold h3. rewrite write_other by congruence. unfold h2. rewrite write_other by congruence. unfold h1. rewrite write_other by congruence. reflexivity. }
    apply seg_app in S. destruct S as (S1 & S2). cbn [seg hdq] in S1, S2. destruct S2 as (Z1 & Z2 & _).
    split; [|split].
    + split; [cbn [fst]; rewrite !hdq_app; cbn [hdq]; exact E1|]. split; [cbn [snd]; rewrite lastp_app; reflexivity|].
      rewrite <- app_assoc. apply seg_app. cbn [app hdq]. split.
      * eapply seg_ext; [|exact S1]. intros x Hx. apply Eo; [intros ->; apply Na; apply in_or_app; auto|].
        intros ->. apply NoDup_remove_2 in Nd. apply Nd. rewrite app_nil_r. exact Hx.
      * cbn [seg hdq]. rewrite Ez, Ea. cbn. auto.
    + eapply payload_trans; [apply payload_prev|]. eapply payload_trans; [apply payload_next|apply payload_next].
    + intros x Nx Nxa. apply Eo; [exact Nxa|]. intros ->. apply Nx. apply in_or_app. cbn. auto.
Qed.

Lemma push_front_ok : forall h d l a, dll h d l -> ~ In a l -> NoDup l ->
  exists d' h', dll_push_front def d a h = Done (d', h') /\ dll h' d' (a :: l) /\ same_payload h h' /\ (forall x, ~ In x l -> x <> a -> h' x = h x).
Proof.
  intros h (f & la) l a (E1 & E2 & S) Na Nd. cbn [fst snd] in *. unfold dll_push_front. cbn [fst snd].
  destruct l as [|z l].
  - cbn in E1, E2. subst f la. cbn [put_prev put_next obind]. eexists. eexists. split; [reflexivity|]. split; [|split].
    + split; [reflexivity|]. split; [reflexivity|]. cbn [seg hdq]. rewrite write_same. cbn. rewrite write_same. auto.
    + eapply payload_trans; [apply payload_next|apply payload_prev].
    + intros x _ Nx. rewrite !write_other by exact Nx. reflexivity.
  - cbn [hdq] in E1. subst f. cbn [put_prev put_next obind]. eexists. eexists. split; [reflexivity|].
    assert (Nza : z <> a) by (intros ->; apply Na; cbn; auto).
    set (h1 := write h a (set_next (Some z) (h a))). set (h2 := write h1 z (set_prev (Some a) (h1 z))). set (h3 := write h2 a (set_prev None (h2 a))).
    assert (Ea : h3 a = set_prev None (set_next (Some z) (h a))).
    { unfold h3. rewrite write_same. unfold h2. rewrite write_other by congruence. unfold h1. rewrite write_same. reflexivity. }
    assert (Ez : h3 z = set_prev (Some a) (h z)).
    { unfold h3. rewrite write_other by congruence. unfold h2. rewrite write_same. unfold h1. rewrite write_other by congruence. reflexivity. }
    assert (Eo : forall x, x <> a -> x <> z -> h3 x = h x).
    { intros x A B. unfold h3. rewrite write_other by congruence. unfold h2. rewrite write_other by congruence. unfold h1. rewrite write_other by congruence. reflexivity. }
    cbn [seg] in S. destruct S as (S1 & S2 & S3). inversion Nd as [|? ? Nz _]; subst.
    split; [|split].
    + split; [reflexivity|]. split; [exact eq_refl|]. cbn [seg hdq]. rewrite Ea, Ez. cbn. split; [reflexivity|]. split; [reflexivity|]. split; [reflexivity|]. split; [exact S2|].
      eapply seg_ext; [|exact S3]. intros x Hx. apply Eo; [intros ->; apply Na; cbn; auto|intros ->; contradiction].
    + eapply payload_trans; [apply payload_next|]. eapply payload_trans; [apply payload_prev|apply payload_prev].
    + intros x Nx Nxa. apply Eo; [exact Nxa|]. intros ->. apply Nx. cbn. auto.
Qed.

Lemma lastp_none : forall l p, lastp l (Some p) <> None.
Proof. induction l as [|x l IH]; intros p; cbn; [discriminate|apply IH]. Qed.
Lemma lastp_in : forall l p x, lastp l p = Some x -> In x l \/ p = Some x.
Proof. induction l as [|y l IH]; intros p x E; cbn in *; [auto|]. destruct (IH _ _ E) as [I|I]; [auto|left; left; congruence]. Qed.

Lemma remove_ok : forall h d A a B, dll h d (A ++ a :: B) -> NoDup (A ++ a :: B) ->
  exists d' h', dll_remove def d a h = Done (d', h') /\ dll h' d' (A ++ B) /\ same_payload h h' /\ (forall x, ~ In x (A ++ B) -> h' x = h x).
Proof.
  intros h (f & la) A a B (E1 & E2 & S) Nd. cbn [fst snd] in *. unfold dll_remove. cbn [fst snd].
  rewrite hdq_app in E1. cbn [hdq] in E1. rewrite lastp_app in E2. cbn [lastp] in E2.
  apply seg_app in S. cbn [hdq] in S. destruct S as (SA & SB). cbn [seg] in SB. destruct SB as (Pa & Na & SB).
  pose proof (NoDup_remove_1 _ _ _ Nd) as Nd'. pose proof (NoDup_remove_2 _ _ _ Nd) as NaAB.
  destruct A as [|y A].
  - cbn [hdq] in E1. subst f. cbn [is_ptr]. rewrite Nat.eqb_refl. rewrite Na. cbn [app] in *.
    destruct B as [|z B].
    + cbn. eexists. eexists. split; [reflexivity|]. split; [|split; [apply payload_refl|auto]]. split; [reflexivity|]. split; [reflexivity|exact I].
    + cbn [hdq put_prev obind]. eexists. eexists. split; [reflexivity|]. split; [|split; [apply payload_prev|]].
      * split; [reflexivity|]. split; [cbn [snd lastp] in *; exact E2|]. cbn [seg] in SB |- *. destruct SB as (S1 & S2 & S3). rewrite write_same. cbn. split; [reflexivity|]. split; [exact S2|].
        inversion Nd' as [|? ? Nz _]; subst. eapply seg_ext; [|exact S3]. intros x Hx. apply write_other. intros ->. contradiction.
      * intros x Hx. apply write_other. intros ->. apply Hx. left. reflexivity.
  - cbn [hdq] in E1. subst f. cbn [is_ptr]. destruct (Nat.eqb_spec y a) as [->|Nya]; [destruct NaAB; cbn; auto|].
    destruct B as [|z B].
    + cbn [lastp] in E2. subst la. cbn [is_ptr]. rewrite Nat.eqb_refl. rewrite Pa.
      destruct (lastp (y :: A) None) as [b|] eqn:Lb; [|cbn in Lb; destruct (lastp_none _ _ Lb)].
      cbn [put_next obind]. eexists. eexists. split; [reflexivity|]. rewrite app_nil_r in *. split; [|split; [apply payload_next|]].
      * split; [reflexivity|]. split; [cbn [snd]; symmetry; exact Lb|].
        assert (Ib : In b (y :: A)) by (destruct (lastp_in _ _ _ Lb) as [I|I]; [exact I|discriminate]).
        destruct (exists_last (l := y :: A) ltac:(discriminate)) as (A0 & b' & EA). rewrite EA in *. rewrite lastp_app in Lb. cbn [lastp] in Lb. assert (b' = b) by congruence. subst b'.
        apply seg_app in SA. cbn [hdq seg] in SA. destruct SA as (S1 & S2 & S3 & _). apply seg_app. cbn [hdq seg]. rewrite write_same. cbn. split; [|auto].
        eapply seg_ext; [|exact S1]. intros x Hx. apply write_other. intros ->. apply NoDup_remove_2 in Nd'. apply Nd'. rewrite app_nil_r. exact Hx.
      * intros x Hx. apply write_other. intros ->. apply Hx. destruct (lastp_in _ _ _ Lb) as [I|I]; [exact I|discriminate].
    + assert (Nla : is_ptr la a = false).
      { rewrite E2. cbn [lastp]. destruct (lastp B (Some z)) as [w|] eqn:Lw; [|reflexivity]. cbn. destruct (Nat.eqb_spec w a) as [->|]; [|reflexivity].
        destruct NaAB. apply in_or_app. right. destruct (lastp_in _ _ _ Lw) as [I|I]; [right; exact I|left; congruence]. }
      rewrite Nla, Pa, Na. cbn [hdq].
      destruct (lastp (y :: A) None) as [b|] eqn:Lb; [|cbn in Lb; destruct (lastp_none _ _ Lb)].
      assert (Ib : In b (y :: A)) by (destruct (lastp_in _ _ _ Lb) as [I|I]; [exact I|discriminate]).
      cbn [put_next obind]. set (h1 := write h b (set_next (Some z) (h b))).
      assert (Nba : a <> b) by (intros ->; apply NaAB; apply in_or_app; auto).
      assert (Ha1 : h1 a = h a) by (unfold h1; apply write_other; exact Nba). rewrite Ha1, Na, Pa. cbn [hdq put_prev obind].
      set (h2 := write h1 z (set_prev (Some b) (h1 z))). eexists. eexists. split; [reflexivity|].
      assert (Nbz : b <> z).
      { intros ->. destruct (in_split _ _ Ib) as (U & V & EU). rewrite EU in Nd'. rewrite <- app_assoc in Nd'. cbn [app] in Nd'. apply NoDup_remove_2 in Nd'. apply Nd'.
        apply in_or_app. right. apply in_or_app. right. left. reflexivity. }
      assert (Eb : h2 b = set_next (Some z) (h b)) by (unfold h2; rewrite write_other by congruence; unfold h1; apply write_same).
      assert (Ez : h2 z = set_prev (Some b) (h z)) by (unfold h2; rewrite write_same; unfold h1; rewrite write_other by congruence; reflexivity).
      assert (Eo : forall x, x <> b -> x <> z -> h2 x = h x).
      { intros x X1 X2. unfold h2. rewrite write_other by exact X2. unfold h1. apply write_other. exact X1. }
      split; [|split].
      * split; [cbn; reflexivity|]. split; [cbn [snd]; rewrite E2; rewrite lastp_app; reflexivity|].
        destruct (exists_last (l := y :: A) ltac:(discriminate)) as (A0 & b' & EA). rewrite EA in *. rewrite lastp_app in Lb. cbn [lastp] in Lb. assert (b' = b) by congruence. subst b'.
        apply seg_app in SA. cbn [hdq seg] in SA. destruct SA as (S1 & S2 & S3 & _). cbn [seg] in SB. destruct SB as (B1 & B2 & B3).
        rewrite <- app_assoc in Nd' |- *. cbn [app] in Nd' |- *. apply seg_app. cbn [hdq seg]. rewrite Eb, Ez. cbn [MacroTableModel.n_prev MacroTableModel.n_next MacroTableModel.set_next MacroTableModel.set_prev hdq].
        split; [|split; [exact S2|split; [reflexivity|split; [reflexivity|split; [exact B2|]]]]].
        -- eapply seg_ext; [|exact S1]. intros x Hx. apply Eo.
           ++ intros ->. apply NoDup_remove_2 in Nd'. apply Nd'. apply in_or_app. auto.
           ++ intros ->. destruct (in_split _ _ Hx) as (U & V & EU). rewrite EU in Nd'. rewrite <- app_assoc in Nd'. cbn [app] in Nd'. apply NoDup_remove_2 in Nd'. apply Nd'.
              apply in_or_app. right. apply in_or_app. right. right. left. reflexivity.
        -- eapply seg_ext; [|exact B3]. intros x Hx. apply NoDup_remove_2 in Nd' as Q. apply Eo.
           ++ intros ->. apply Q. apply in_or_app. right. right. exact Hx.
           ++ intros ->. change (A0 ++ b :: z :: B) with (A0 ++ [b] ++ z :: B) in Nd'. rewrite app_assoc in Nd'. apply NoDup_remove_2 in Nd'. apply Nd'. apply in_or_app. auto.
      * eapply payload_trans; [apply payload_next|apply payload_prev].
      * intros x Hx. apply Eo; intros ->; apply Hx; apply in_or_app; [left; exact Ib|right; left; reflexivity].
Qed.

(** ** Looking up *)
Lemma find_node_ok : forall h n l fuel p, (length l <= fuel)%nat -> seg h p l None ->
  find_node def fuel h (hdq l None) n = Done (find (fun a => names_match (n_name (h a)) n) l).
Proof.
  intros h n l. induction l as [|x l IH]; intros fuel p F S; [destruct fuel; reflexivity|].
  cbn [hdq]. destruct fuel as [|fuel]; [cbn in F; lia|]. cbn [find_node find]. cbn [seg] in S. destruct S as (_ & E & S).
  destruct (names_match (n_name (h x)) n); [reflexivity|]. rewrite E. eapply IH; [cbn in F; lia|exact S].
Qed.

(** ** Moving nodes into larger lists *)
Fixpoint nexts (h : memory) (l : list nat) : Prop :=
  match l with [] => True | x :: r => n_next (h x) = hdq r None /\ nexts h r end.
Lemma seg_nexts : forall h l p, seg h p l None -> nexts h l.
Proof. intros h l. induction l as [|x l IH]; intros p; cbn; [auto|]. intros (_ & A & B). split; [exact A|eapply IH, B]. Qed.
Lemma nexts_ext : forall h h' l, (forall x, In x l -> h' x = h x) -> nexts h l -> nexts h' l.
Proof. intros h h' l. induction l as [|x l IH]; intros E; cbn; [auto|]. rewrite E by (left; reflexivity). intros (A & B). split; [exact A|apply IH; [intros; apply E; right; assumption|exact B]]. Qed.

Definition home (h : memory) (m : Z) (x : nat) : Z := Z.land (H (n_name (h x))) m.
Lemma home_payload : forall h h' m x, same_payload h h' -> home h' m x = home h m x.
Proof. intros h h' m x P. unfold home. destruct (P x) as (-> & _). reflexivity. Qed.

(** Lists [N] in [new], all nodes at home with respect to [m]. *)
Record stored (h : memory) (new : Z -> dlist) (m : Z) (N : Z -> list nat) : Prop := mkstored {
  st_dll : forall i, dll h (new i) (N i);
  st_nodup : forall i, NoDup (N i);
  st_home : forall i x, In x (N i) -> home h m x = i }.

Lemma put_list_same : forall (ls : Z -> dlist) i l, put_list ls i l i = l.
Proof. intros. unfold put_list. rewrite Z.eqb_refl. reflexivity. Qed.
Lemma put_list_other : forall (ls : Z -> dlist) i l j, j <> i -> put_list ls i l j = ls j.
Proof. intros. unfold put_list. destruct (Z.eqb_spec j i); [contradiction|reflexivity]. Qed.
Definition upd (N : Z -> list nat) (i : Z) (l : list nat) : Z -> list nat := fun j => if j =? i then l else N j.
Lemma upd_same : forall N i l, upd N i l i = l.
Proof. intros. unfold upd. rewrite Z.eqb_refl. reflexivity. Qed.
Lemma upd_other : forall N i l j, j <> i -> upd N i l j = N j.
Proof. intros. unfold upd. destruct (Z.eqb_spec j i); [contradiction|reflexivity]. Qed.

Lemma stored_disjoint : forall h new m N i j x, stored h new m N -> In x (N i) -> In x (N j) -> i = j.
Proof. intros h new m N i j x S A B. rewrite <- (st_home _ _ _ _ S i x A). apply (st_home _ _ _ _ S j x B). Qed.

(** one list replaced, by one over the same nodes plus or minus [a]. *)
Lemma stored_put : forall h new m N i d' h' l', stored h new m N -> dll h' d' l' -> same_payload h h' -> NoDup l' ->
  (forall x, In x l' -> home h m x = i) -> (forall x, home h m x <> i -> h' x = h x) -> stored h' (put_list new i d') m (upd N i l').
Proof.
  intros h new m N i d' h' l' S D P Nd Hm F. constructor.
  - intro j. destruct (Z.eq_dec j i) as [->|Q]; [rewrite put_list_same, upd_same; exact D|]. rewrite put_list_other, upd_other by exact Q.
    eapply dll_ext; [|apply (st_dll _ _ _ _ S)]. intros x Hx. apply F. rewrite (st_home _ _ _ _ S j x Hx). exact Q.
  - intro j. destruct (Z.eq_dec j i) as [->|Q]; [rewrite upd_same; exact Nd|rewrite upd_other by exact Q; apply (st_nodup _ _ _ _ S)].
  - intros j x. rewrite (home_payload h h' m x P). destruct (Z.eq_dec j i) as [->|Q]; [rewrite upd_same; apply Hm|rewrite upd_other by exact Q; apply (st_home _ _ _ _ S)].
Qed.

Lemma inside_land : forall x m c, pow2 c -> m = c - 1 -> inside (Z.land x m) c = true.
Proof.
  intros x m c P ->. rewrite land_mask by exact P. pose proof (Z.mod_pos_bound x c (pow2_gt _ P)). unfold inside. destruct (0 <=? x mod c) eqn:A, (x mod c <? c) eqn:B; try reflexivity; lia.
Qed.

Lemma move_nodes_ok : forall c m l fuel new h N, pow2 c -> m = c - 1 -> (length l <= fuel)%nat -> nexts h l -> NoDup l -> (forall i x, In x l -> ~ In x (N i)) -> stored h new m N ->
  exists new' h' N', move_nodes def H fuel (hdq l None) c m new h = Done (new', h') /\ stored h' new' m N' /\ same_payload h h' /\
    (forall i x, In x (N' i) <-> In x (N i) \/ In x l /\ home h m x = i) /\ (forall x, ~ In x l -> (forall i, ~ In x (N i)) -> h' x = h x).
Proof.
  intros c m l. induction l as [|a l IH]; intros fuel new h N Pc Em F Nx Nd Dj S.
  - exists new, h, N. split; [destruct fuel; reflexivity|]. split; [exact S|]. split; [apply payload_refl|]. split; [cbn; tauto|auto].
  - cbn [hdq]. destruct fuel as [|fuel]; [cbn in F; lia|]. cbn [move_nodes]. cbn [nexts] in Nx. destruct Nx as (Ea & Nx). inversion Nd as [|a0 l0 Na Nd' [E0 E0']]; clear a0 l0 E0 E0'.
    rewrite (inside_land _ _ _ Pc Em). fold (home h m a). set (i := home h m a).
    destruct (push_back_ok h (new i) (N i) a (st_dll _ _ _ _ S i) (Dj i a (or_introl eq_refl)) (st_nodup _ _ _ _ S i)) as (d' & h1 & E1 & D1 & P1 & F1).
    rewrite E1. cbn [obind].
    assert (S1 : stored h1 (put_list new i d') m (upd N i (N i ++ [a]))).
    { eapply stored_put; [exact S|exact D1|exact P1| | |].
      - apply Permutation_NoDup with (l := a :: N i); [apply Permutation_cons_append|]. constructor; [apply Dj; left; reflexivity|apply (st_nodup _ _ _ _ S)].
      - intros x Hx. apply in_app_or in Hx as [Hx|[<-|[]]]; [apply (st_home _ _ _ _ S i x Hx)|reflexivity].
      - intros x Hx. apply F1; [intro Q; apply Hx; apply (st_home _ _ _ _ S i x Q)|intros ->; apply Hx; reflexivity]. }
    rewrite Ea.
    destruct (IH fuel (put_list new i d') h1 (upd N i (N i ++ [a]))) as (new' & h' & N' & E2 & S2 & P2 & M2 & F2).
    + exact Pc.
    + exact Em.
    + cbn in F. lia.
    + eapply nexts_ext; [|exact Nx]. intros x Hx. apply F1; [apply Dj; right; exact Hx|intros ->; contradiction].
    + exact Nd'.
    + intros j x Hx. destruct (Z.eq_dec j i) as [->|Q].
      * rewrite upd_same. intro Hi. apply in_app_or in Hi as [Hi|[<-|[]]]; [apply (Dj i x); [right; exact Hx|exact Hi]|contradiction].
      * rewrite upd_other by exact Q. apply Dj. right. exact Hx.
    + exact S1.
    + exists new', h', N'. split; [exact E2|]. split; [exact S2|]. split; [eapply payload_trans; eassumption|]. split.
      * intros j x. rewrite M2. rewrite (home_payload h h1 m x P1). destruct (Z.eq_dec j i) as [->|Q].
        -- rewrite upd_same, in_app_iff. cbn [In]. split.
           ++ intros [[A|[<-|[]]]|(A & B)]; auto.
           ++ intros [A|([<-|A] & B)]; auto.
        -- rewrite upd_other by exact Q. cbn [In]. split.
           ++ intros [A|(A & B)]; auto.
           ++ intros [A|([<-|A] & B)]; auto. destruct Q. symmetry. exact B.
      * intros x A B. rewrite F2.
        -- apply F1; [apply B|intros ->; apply A; left; reflexivity].
        -- intro Q. apply A. right. exact Q.
        -- intros j. destruct (Z.eq_dec j i) as [->|Q]; [rewrite upd_same|rewrite upd_other by exact Q; apply B].
           intro Hi. apply in_app_or in Hi as [Hi|[<-|[]]]; [apply (B i Hi)|apply A; left; reflexivity].
Qed.

Lemma move_lists_ok : forall c m old L fuel is new h N, pow2 c -> m = c - 1 -> NoDup is -> (forall i, In i is -> fst (old i) = hdq (L i) None /\ (length (L i) <= fuel)%nat /\ nexts h (L i) /\ NoDup (L i)) ->
  (forall i j x, In i is -> In x (L i) -> ~ In x (N j)) -> (forall i j x, In x (L i) -> In x (L j) -> i = j) -> stored h new m N ->
  exists new' h' N', move_lists def H is old fuel c m new h = Done (new', h') /\ stored h' new' m N' /\ same_payload h h' /\
    (forall i x, In x (N' i) <-> In x (N i) \/ (exists k, In k is /\ In x (L k)) /\ home h m x = i) /\ (forall x, (forall k, ~ In x (L k)) -> (forall i, ~ In x (N i)) -> h' x = h x).
Proof.
  intros c m old L fuel is. induction is as [|i is IH]; intros new h N Pc Em Nd Ol Dj Du S.
  - exists new, h, N. split; [reflexivity|]. split; [exact S|]. split; [apply payload_refl|]. split; [|auto]. intros i x. split; [auto|]. intros [A|((k & [] & _) & _)]. exact A.
  - cbn [move_lists]. inversion Nd as [|i0 l0 Ni Nd' [E0 E0']]; clear i0 l0 E0 E0'. destruct (Ol i (or_introl eq_refl)) as (O1 & O2 & O3 & O4). rewrite O1.
    destruct (move_nodes_ok c m (L i) fuel new h N Pc Em O2 O3 O4) as (new1 & h1 & N1 & E1 & S1 & P1 & M1 & F1).
    + intros j x Hx. apply (Dj i j x); [left; reflexivity|exact Hx].
    + exact S.
    + rewrite E1. cbn [obind]. destruct (IH new1 h1 N1 Pc Em Nd') as (new' & h' & N' & E2 & S2 & P2 & M2 & F2).
      * intros k Hk. destruct (Ol k (or_intror Hk)) as (K1 & K2 & K3 & K4). split; [exact K1|]. split; [exact K2|]. split; [|exact K4].
        eapply nexts_ext; [|exact K3]. intros x Hx. apply F1.
        -- intro Q. assert (i = k) by (eapply Du; eassumption). subst. contradiction.
        -- intro j. apply (Dj k j x); [right; exact Hk|exact Hx].
      * intros k j x Hk Hx Q. apply M1 in Q as [Q|(Q & _)]; [apply (Dj k j x (or_intror Hk) Hx Q)|]. assert (i = k) by (eapply Du; eassumption). subst. contradiction.
      * exact Du.
      * exact S1.
      * exists new', h', N'. split; [exact E2|]. split; [exact S2|]. split; [eapply payload_trans; eassumption|]. split.
        -- intros j x. rewrite M2, M1, (home_payload h h1 m x P1). split.
           ++ intros [[A|(A & B)]|((k & A & B) & C)]; [auto|right; split; [exists i; cbn; auto|exact B]|right; split; [exists k; cbn; auto|exact C]].
           ++ intros [A|((k & [<-|A] & B) & C)]; [auto|auto|right; split; [exists k; auto|exact C]].
        -- intros x A B. rewrite F2; [apply F1; [apply A|exact B]|exact A|]. intros j Q. apply M1 in Q as [Q|(Q & _)]; [apply (B j Q)|apply (A i Q)].
Qed.

(** ** The table *)
Notation table := (table def).
Notation lists := (lists def). Notation capacity := (capacity def). Notation mask := (mask def). Notation mem := (mem def). Notation fresh := (fresh def). Notation amount := (amount def).
Record rep (t : table) (L : Z -> list nat) : Prop := mkrep {
  r_cap : capacity t = 0 /\ (forall i, L i = []) \/ pow2 (capacity t) /\ mask t = capacity t - 1;
  r_st : stored (mem t) (lists t) (mask t) L;
  r_fresh : forall i x, In x (L i) -> (x < fresh t)%nat;
  r_names : forall i j x y, In x (L i) -> In y (L j) -> n_name (mem t x) = n_name (mem t y) -> x = y;
  r_amount : 0 <= amount t }.

Definition has (t : table) (L : Z -> list nat) (n : name) (x : nat) : Prop := (exists i, In x (L i)) /\ n_name (mem t x) = n.

Lemma match_iff : forall a b, names_match a b = true <-> a = b.
Proof. intros a b. unfold names_match. destruct (name_eq a b); split; congruence. Qed.

Lemma short : forall (l : list nat) n, NoDup l -> (forall x, In x l -> (x < n)%nat) -> (length l <= n)%nat.
Proof.
  intros l n Nd B. rewrite <- (seq_length n 0). apply NoDup_incl_length; [exact Nd|]. intros x Hx. apply in_seq. specialize (B x Hx). lia.
Qed.

Lemma lookup_ok : forall t L n, rep t L -> capacity t <> 0 ->
  (exists x, has t L n x /\ lookup_define def H t n = Done (Some x)) \/ ((forall x, ~ has t L n x) /\ lookup_define def H t n = Done None).
Proof.
  intros t L n R C. unfold lookup_define. destruct (r_cap _ _ R) as [(Q & _)|(Q1 & Q2)]; [contradiction|]. rewrite (inside_land _ _ _ Q1 Q2).
  set (i := Z.land (H n) (mask t)). pose proof (r_st _ _ R) as S. destruct (st_dll _ _ _ _ S i) as (D1 & D2 & D3). rewrite D1.
  rewrite (find_node_ok (mem t) n (L i) (fresh t) None); [|apply short; [apply (st_nodup _ _ _ _ S)|apply (r_fresh _ _ R)]|exact D3].
  destruct (find _ (L i)) as [x|] eqn:F.
  - left. exists x. apply find_some in F as (A & B). apply match_iff in B. split; [|reflexivity]. split; [exists i; exact A|exact B].
  - right. split; [|reflexivity]. intros x ((j & A) & B). pose proof (st_home _ _ _ _ S j x A) as E. unfold home in E. rewrite B in E. fold i in E. subst j.
    pose proof (find_none _ _ F x A) as Q. cbn beta in Q. rewrite B in Q. assert (names_match n n = true) by (apply match_iff; reflexivity). congruence.
Qed.

Definition in_range (t : table) (L : Z -> list nat) : Prop := forall i x, In x (L i) -> 0 <= i < capacity t.
Lemma rep_range : forall t L, rep t L -> in_range t L.
Proof.
  intros t L R i x Hx. destruct (r_cap _ _ R) as [(_ & E)|(P & E)]; [rewrite E in Hx; destruct Hx|].
  rewrite <- (st_home _ _ _ _ (r_st _ _ R) i x Hx). unfold home. rewrite E, land_mask by exact P. apply Z.mod_pos_bound. apply pow2_gt. exact P.
Qed.

Lemma grow_ok : forall t L, rep t L -> exists t' L', grow def H t = Done t' /\ rep t' L' /\ pow2 (capacity t') /\ fresh t' = fresh t /\ amount t' = amount t /\
  same_payload (mem t) (mem t') /\ (forall x, (exists i, In x (L' i)) <-> (exists i, In x (L i))).
Proof.
  intros t L R. unfold grow. pose proof (r_st _ _ R) as S. set (nm := 2 * Z.max (capacity t) 256 - 1).
  assert (Pn : pow2 (2 * Z.max (capacity t) 256)).
  { assert (Q : pow2 (Z.max (capacity t) 256)).
    { destruct (r_cap _ _ R) as [(-> & _)|(P & _)]; [exists 8; split; [lia|reflexivity]|]. destruct (Z.max_spec (capacity t) 256) as [(_ & ->)|(_ & ->)]; [exists 8; split; [lia|reflexivity]|exact P]. }
    destruct Q as (k & K1 & K2). exists (k + 1). split; [lia|]. rewrite K2, Z.pow_add_r by lia. lia. }
  destruct (move_lists_ok (2 * Z.max (capacity t) 256) nm (lists t) L (fresh t) (base (capacity t)) (fun _ => (None, None)) (mem t) (fun _ => [])) as (new' & h' & N' & E & S' & P & M & F).
  - exact Pn.
  - reflexivity.
  - apply base_nodup.
  - intros i _. destruct (st_dll _ _ _ _ S i) as (D1 & D2 & D3). split; [exact D1|]. split; [apply short; [apply (st_nodup _ _ _ _ S)|apply (r_fresh _ _ R)]|]. split; [eapply seg_nexts, D3|apply (st_nodup _ _ _ _ S)].
  - intros i j x _ _ [].
  - intros i j x A B. eapply stored_disjoint; eassumption.
  - constructor; [intro i; split; [reflexivity|split; [reflexivity|exact I]]|intro; constructor|intros i x []].
  - unfold base in E. rewrite E. cbn [obind]. eexists. exists N'. split; [reflexivity|].
    assert (I : forall x, (exists i, In x (N' i)) <-> (exists i, In x (L i))).
    { intro x. split.
      - intros (i & Q). apply M in Q as [[]|((k & _ & Q) & _)]. exists k. exact Q.
      - intros (k & Q). exists (home (mem t) nm x). apply M. right. split; [|reflexivity]. exists k. split; [|exact Q]. apply base_in. eapply rep_range; eassumption. }
    split; [|split; [exact Pn|split; [reflexivity|split; [reflexivity|split; [exact P|exact I]]]]].
    constructor; cbn [MacroTableModel.capacity MacroTableModel.mask MacroTableModel.mem MacroTableModel.lists MacroTableModel.fresh MacroTableModel.amount].
    + right. split; [exact Pn|reflexivity].
    + exact S'.
    + intros i x Q. destruct (proj1 (I x) (ex_intro _ i Q)) as (k & K). eapply r_fresh; eassumption.
    + intros i j x y A B En. destruct (P x) as (Px & _), (P y) as (Py & _). rewrite Px, Py in En. destruct (proj1 (I x) (ex_intro _ i A)) as (k & K), (proj1 (I y) (ex_intro _ j B)) as (k' & K'). eapply r_names; eassumption.
    + apply (r_amount _ _ R).
Qed.

(** Definitions are kept up to [Rel]; the comparison is only trusted on definitions with [Ok]. *)
Variable Ok : def -> Prop.
Variable Rel : def -> def -> Prop.
Hypothesis Rel_refl : forall d, Rel d d.
Hypothesis same_Rel : forall a b, Ok a -> Ok b -> same a b = true -> Rel b a.

(** What the table says, as the specification's map. *)
Definition says (t : table) (L : Z -> list nat) (m : macros def) : Prop := forall n,
  match m n with
  | None => forall x, ~ has t L n x
  | Some (d, b) => exists x, has t L n x /\ (Rel (n_def (mem t x)) d /\ (b = false -> Ok (n_def (mem t x)))) /\ n_builtin (mem t x) = b
  end.

Lemma has_unique : forall t L n x y, rep t L -> has t L n x -> has t L n y -> x = y.
Proof. intros t L n x y R ((i & A) & B) ((j & C) & D). eapply r_names; try eassumption. congruence. Qed.

Lemma write_rep : forall t L a n', rep t L -> ~ (exists i, In a (L i)) -> a = fresh t ->
  rep (mktable def (lists t) (capacity t) (mask t) (amount t) (write (mem t) a n') (S a)) L.
Proof.
  intros t L a n' R Na Ea. assert (O : forall i x, In x (L i) -> write (mem t) a n' x = mem t x) by (intros i x Hx; apply write_other; intros ->; apply Na; exists i; exact Hx).
  constructor; cbn [MacroTableModel.capacity MacroTableModel.mask MacroTableModel.mem MacroTableModel.lists MacroTableModel.fresh MacroTableModel.amount].
  - apply (r_cap _ _ R).
  - destruct (r_st _ _ R) as [D N Hm]. constructor; [|exact N|].
    + intro i. eapply dll_ext; [|apply D]. intros x Hx. eapply O; exact Hx.
    + intros i x Hx. unfold home. rewrite (O i x Hx). apply Hm. exact Hx.
  - intros i x Hx. pose proof (r_fresh _ _ R i x Hx). lia.
  - intros i j x y A B. rewrite (O i x A), (O j y B). eapply r_names; eassumption.
  - apply (r_amount _ _ R).
Qed.

Lemma register_ok : forall t L m n d b, rep t L -> says t L m -> m n = None -> (b = false -> Ok d) ->
  exists t' L', register_define def H t n d b = Done t' /\ rep t' L' /\ says t' L' (set_macro def m n (Some (d, b))) /\ capacity t' <> 0.
Proof.
  intros t L m n d b R Sy Mn Od. pose proof (r_amount _ _ R) as Am.
  unfold register_define. set (a := fresh t).
  set (t0 := mktable def (lists t) (capacity t) (mask t) (amount t) (write (mem t) a (mknode def n d b None None)) (S a)).
  assert (Na : ~ (exists i, In a (L i))) by (intros (i & Q); pose proof (r_fresh _ _ R i a Q); unfold a in *; lia).
  assert (R0 : rep t0 L) by (apply write_rep; [exact R|exact Na|reflexivity]).
  assert (P0 : forall x, x <> a -> mem t0 x = mem t x) by (intros x Nx; apply write_other; exact Nx).
  assert (A0 : mem t0 a = mknode def n d b None None) by apply write_same.
  assert (G : exists t1 L1, (if 2 * amount t0 + 1 >? capacity t0 then grow def H t0 else Done t0) = Done t1 /\ rep t1 L1 /\ pow2 (capacity t1) /\ fresh t1 = S a /\
     same_payload (mem t0) (mem t1) /\ (forall x, (exists i, In x (L1 i)) <-> (exists i, In x (L i)))).
  { destruct (2 * amount t0 + 1 >? capacity t0) eqn:Q.
    - destruct (grow_ok t0 L R0) as (t1 & L1 & E & R1 & C1 & F1 & _ & P1 & I1). exists t1, L1. repeat (split; [assumption|]). exact I1.
    - exists t0, L. split; [reflexivity|]. split; [exact R0|]. split; [|split; [reflexivity|split; [apply payload_refl|tauto]]].
      destruct (r_cap _ _ R0) as [(Z0 & _)|(P & _)]; [|exact P]. rewrite Z.gtb_ltb in Q. apply Z.ltb_ge in Q. rewrite Z0 in Q. cbn [MacroTableModel.amount t0] in Q. lia. }
  destruct G as (t1 & L1 & -> & R1 & C1 & F1 & P1 & I1). cbn [obind].
  assert (M1 : mask t1 = capacity t1 - 1) by (destruct (r_cap _ _ R1) as [(Z0 & _)|(_ & Q)]; [pose proof (pow2_gt _ C1); lia|exact Q]).
  rewrite (inside_land _ _ _ C1 M1). set (i := Z.land (H n) (mask t1)). pose proof (r_st _ _ R1) as S1.
  assert (Na1 : ~ In a (L1 i)) by (intro Q; apply Na; apply I1; exists i; exact Q).
  destruct (push_front_ok (mem t1) (lists t1 i) (L1 i) a (st_dll _ _ _ _ S1 i) Na1 (st_nodup _ _ _ _ S1 i)) as (d' & h' & E & D & P & F).
  rewrite E. cbn [obind]. destruct (P1 a) as (N1 & D1 & B1). rewrite A0 in N1, D1, B1. cbn in N1, D1, B1.
  assert (Ha : home (mem t1) (mask t1) a = i) by (unfold home; rewrite N1; reflexivity).
  assert (S2 : stored h' (put_list (lists t1) i d') (mask t1) (upd L1 i (a :: L1 i))).
  { eapply stored_put; [exact S1|exact D|exact P| | |].
    - constructor; [exact Na1|apply (st_nodup _ _ _ _ S1)].
    - intros x [<-|Hx]; [exact Ha|apply (st_home _ _ _ _ S1 i x Hx)].
    - intros x Hx. apply F; [intro Q; apply Hx; apply (st_home _ _ _ _ S1 i x Q)|intros ->; apply Hx; exact Ha]. }
  assert (I2 : forall x, (exists j, In x (upd L1 i (a :: L1 i) j)) <-> x = a \/ (exists j, In x (L j))).
  { intro x. rewrite <- I1. split.
    - intros (j & Q). destruct (Z.eq_dec j i) as [->|Nj]; [rewrite upd_same in Q; destruct Q as [<-|Q]; [auto|right; exists i; exact Q]|rewrite upd_other in Q by exact Nj; right; exists j; exact Q].
    - intros [->|(j & Q)]; [exists i; rewrite upd_same; left; reflexivity|]. exists j. destruct (Z.eq_dec j i) as [->|Nj]; [rewrite upd_same; right; exact Q|rewrite upd_other by exact Nj; exact Q]. }
  assert (Pt : forall x, (exists j, In x (L j)) -> n_name (h' x) = n_name (mem t x) /\ n_def (h' x) = n_def (mem t x) /\ n_builtin (h' x) = n_builtin (mem t x)).
  { intros x Hx. assert (Nx : x <> a) by (intros ->; contradiction). destruct (P x) as (-> & -> & ->), (P1 x) as (-> & -> & ->). rewrite (P0 x Nx). auto. }
  destruct (P a) as (N2 & D2 & B2). rewrite N1 in N2. rewrite D1 in D2. rewrite B1 in B2.
  eexists. exists (upd L1 i (a :: L1 i)). split; [reflexivity|]. split; [|split].
  - constructor; cbn [MacroTableModel.capacity MacroTableModel.mask MacroTableModel.mem MacroTableModel.lists MacroTableModel.fresh MacroTableModel.amount].
    + destruct (r_cap _ _ R1) as [(Z0 & _)|Q]; [pose proof (pow2_gt _ C1); lia|right; exact Q].
    + exact S2.
    + intros j x Q. destruct (proj1 (I2 x) (ex_intro _ j Q)) as [->|(k & K)]; [lia|]. pose proof (r_fresh _ _ R k x K). unfold a in *. lia.
    + intros j k x y A B En. destruct (proj1 (I2 x) (ex_intro _ j A)) as [->|X], (proj1 (I2 y) (ex_intro _ k B)) as [->|Y]; [reflexivity| | |].
      * exfalso. rewrite N2 in En. destruct (Pt y Y) as (Q & _). specialize (Sy n). rewrite Mn in Sy. apply (Sy y). split; [exact Y|congruence].
      * exfalso. rewrite N2 in En. destruct (Pt x X) as (Q & _). specialize (Sy n). rewrite Mn in Sy. apply (Sy x). split; [exact X|congruence].
      * destruct (Pt x X) as (Qx & _), (Pt y Y) as (Qy & _), X as (jx & X), Y as (jy & Y). eapply (r_names _ _ R); try eassumption. congruence.
    + pose proof (r_amount _ _ R1). lia.
  - intro k. unfold set_macro, has. cbn [MacroTableModel.mem]. destruct (name_eq k n) as [->|Nk].
    + exists a. split; [split; [apply I2; auto|exact N2]|]. cbn [MacroTableModel.mem]. rewrite D2. auto.
    + specialize (Sy k). destruct (m k) as [(dk & bk)|].
      * destruct Sy as (x & (X & Xn) & Xd & Xb). destruct (Pt x X) as (Q1 & Q2 & Q3). exists x. split; [split; [apply I2; auto|congruence]|]. rewrite Q2, Q3. split; assumption.
      * intros x (X & Xn). apply I2 in X as [->|X]; [congruence|]. destruct (Pt x X) as (Q1 & _). apply (Sy x). split; [exact X|congruence].
  - cbn [MacroTableModel.capacity]. pose proof (pow2_gt _ C1). lia.
Qed.

Definition good (t : table) (m : macros def) : Prop := exists L, rep t L /\ says t L m /\ capacity t <> 0.

Lemma says_ext : forall t L m m', (forall n, m' n = m n) -> says t L m -> says t L m'.
Proof. intros t L m m' E Sy n. rewrite E. apply Sy. Qed.

Lemma overwrite_ok : forall t L m n d x, rep t L -> says t L m -> has t L n x -> Ok d ->
  let t' := mktable def (lists t) (capacity t) (mask t) (amount t) (write (mem t) x (mknode def n d false (n_next (mem t x)) (n_prev (mem t x)))) (fresh t) in
  rep t' L /\ says t' L (set_macro def m n (Some (d, false))).
Proof.
  intros t L m n d x R Sy Hx Od t'. destruct Hx as (Hi & En) eqn:Hx0. clear Hx0.
  assert (Nm : forall y, n_name (mem t' y) = n_name (mem t y)).
  { intro y. cbn. destruct (Nat.eq_dec y x) as [->|Q]; [rewrite write_same; symmetry; exact En|rewrite write_other by exact Q; reflexivity]. }
  assert (Sg : forall l p q, seg (mem t) p l q -> seg (mem t') p l q).
  { induction l as [|y l IH]; intros p q; cbn [seg]; [auto|]. intros (A & B & C). split; [|split; [|apply IH, C]]; cbn;
    (destruct (Nat.eq_dec y x) as [->|Q]; [rewrite write_same|rewrite write_other by exact Q]); assumption. }
  split.
  - constructor; cbn [MacroTableModel.capacity MacroTableModel.mask MacroTableModel.lists MacroTableModel.fresh MacroTableModel.amount t'].
    + apply (r_cap _ _ R).
    + destruct (r_st _ _ R) as [D N Hm]. constructor; [|exact N|].
      * intro i. destruct (D i) as (D1 & D2 & D3). split; [exact D1|]. split; [exact D2|]. apply (Sg _ _ _ D3).
      * intros i y Hy. fold t'. unfold home. rewrite Nm. apply Hm. exact Hy.
    + apply (r_fresh _ _ R).
    + intros i j y z A B. fold t'. rewrite !Nm. eapply r_names; eassumption.
    + apply (r_amount _ _ R).
  - intro k. unfold set_macro, has. destruct (name_eq k n) as [->|Nk].
    + exists x. rewrite Nm. split; [split; assumption|]. cbn. rewrite write_same. auto.
    + specialize (Sy k). destruct (m k) as [(dk & bk)|].
      * destruct Sy as (y & (Y & Yn) & Yd & Yb). exists y. rewrite Nm. split; [split; assumption|]. cbn. rewrite write_other by congruence. auto.
      * intros y (Y & Yn). rewrite Nm in Yn. apply (Sy y). split; assumption.
Qed.

Lemma define_ok : forall t m n d, good t m -> Ok d ->
  match m n with
  | Some (_, true) => define_macro def same H t n d = Reported
  | _ => exists t', define_macro def same H t n d = Done t' /\ good t' (set_macro def m n (Some (d, false)))
  end.
Proof.
  intros t m n d (L & R & Sy & C) Od. unfold define_macro. pose proof (Sy n) as Sn.
  destruct (lookup_ok t L n R C) as [(x & Hx & ->)|(Hx & ->)]; cbn [obind].
  - destruct (m n) as [(dn & bn)|] eqn:Mn; [|destruct (Sn x Hx)]. destruct Sn as (y & Hy & Yd & Yb).
    assert (y = x) by (eapply has_unique; eassumption). subst y. rewrite Yb. destruct bn; [reflexivity|].
    destruct (same d (n_def (mem t x))) eqn:Sm.
    + destruct Yd as (Yd & Yo). apply same_Rel in Sm; [|exact Od|auto]. exists t. split; [reflexivity|]. exists L. split; [exact R|]. split; [|exact C].
      intro k. unfold set_macro. destruct (name_eq k n) as [->|]; [|apply Sy]. exists x. auto.
    + eexists. split; [reflexivity|]. exists L. destruct (overwrite_ok t L m n d x R Sy Hx Od) as (A & B). split; [exact A|]. split; [exact B|exact C].
  - destruct (m n) as [(dn & bn)|] eqn:Mn; [destruct Sn as (y & Hy & _); destruct (Hx y Hy)|].
    destruct (register_ok t L m n d false R Sy Mn (fun _ => Od)) as (t' & L' & E & R' & S' & C'). exists t'. split; [exact E|]. exists L'. auto.
Qed.

Lemma undef_ok : forall t m n, good t m -> exists t', undef_macro def H t n = Done t' /\ good t' (set_macro def m n None).
Proof.
  intros t m n (L & R & Sy & C). unfold undef_macro. pose proof (Sy n) as Sn.
  destruct (lookup_ok t L n R C) as [(x & Hx & ->)|(Hx & ->)]; cbn [obind].
  - destruct Hx as ((i & Hi) & En). pose proof (r_st _ _ R) as S. pose proof (st_home _ _ _ _ S i x Hi) as Ei. unfold home in Ei.
    assert (Q : inside (Z.land (H (n_name (mem t x))) (mask t)) (capacity t) = true) by (destruct (r_cap _ _ R) as [(Q & _)|(Q1 & Q2)]; [contradiction|exact (inside_land _ _ _ Q1 Q2)]).
    rewrite Q. clear Q. rewrite Ei.
    destruct (in_split _ _ Hi) as (A & B & EL). pose proof (st_dll _ _ _ _ S i) as D. pose proof (st_nodup _ _ _ _ S i) as Nd. rewrite EL in D, Nd.
    destruct (remove_ok (mem t) (lists t i) A x B D Nd) as (d' & h' & E & D' & P & F). rewrite E. cbn [obind].
    eexists. split; [reflexivity|]. exists (upd L i (A ++ B)).
    assert (NxAB : ~ In x (A ++ B)) by (apply NoDup_remove_2; exact Nd).
    assert (I2 : forall y, (exists j, In y (upd L i (A ++ B) j)) <-> y <> x /\ exists j, In y (L j)).
    { intro y. split.
      - intros (j & Q). destruct (Z.eq_dec j i) as [->|Nj].
        + rewrite upd_same in Q. split; [intros ->; contradiction|]. exists i. rewrite EL. apply in_app_or in Q. apply in_or_app. cbn. tauto.
        + rewrite upd_other in Q by exact Nj. split; [|exists j; exact Q]. intros ->. apply Nj. eapply stored_disjoint; eassumption.
      - intros (Nx & j & Q). exists j. destruct (Z.eq_dec j i) as [->|Nj]; [|rewrite upd_other by exact Nj; exact Q]. rewrite upd_same. rewrite EL in Q.
        apply in_app_or in Q. apply in_or_app. cbn in Q. destruct Q as [Q|[Q|Q]]; [auto|congruence|auto]. }
    split; [|split; [|exact C]].
    + constructor; cbn [MacroTableModel.capacity MacroTableModel.mask MacroTableModel.mem MacroTableModel.lists MacroTableModel.fresh MacroTableModel.amount].
      * destruct (r_cap _ _ R) as [(Z0 & _)|Q]; [contradiction|right; exact Q].
      * eapply stored_put; [exact S|exact D'|exact P|eapply NoDup_remove_1, Nd| |].
        -- intros y Hy. apply (st_home _ _ _ _ S i y). rewrite EL. apply in_app_or in Hy. apply in_or_app. cbn. tauto.
        -- intros y Hy. apply F. intro Q. apply Hy. apply (st_home _ _ _ _ S i y). rewrite EL. apply in_app_or in Q. apply in_or_app. cbn. tauto.
      * intros j y Q. destruct (proj1 (I2 y) (ex_intro _ j Q)) as (_ & k & K). eapply r_fresh; eassumption.
      * intros j k y z Y Z Eyz. destruct (P y) as (Py & _), (P z) as (Pz & _). rewrite Py, Pz in Eyz.
        destruct (proj1 (I2 y) (ex_intro _ j Y)) as (_ & ky & Ky), (proj1 (I2 z) (ex_intro _ k Z)) as (_ & kz & Kz). eapply r_names; eassumption.
      * apply (r_amount _ _ R).
    + intro k. unfold set_macro, has. cbn [MacroTableModel.mem]. destruct (name_eq k n) as [->|Nk].
      * intros y (Y & Yn). apply I2 in Y as (Nyx & j & Y). destruct (P y) as (Py & _). apply Nyx. eapply (r_names _ _ R); [exact Y|exact Hi|congruence].
      * specialize (Sy k). destruct (m k) as [(dk & bk)|].
        -- destruct Sy as (y & (Y & Yn) & Yd & Yb). destruct (P y) as (P1 & P2 & P3). exists y. cbn [MacroTableModel.mem]. rewrite P2, P3. split; [|split; assumption].
           split; [apply I2; split; [intros ->; congruence|exact Y]|congruence].
        -- intros y (Y & Yn). apply I2 in Y as (_ & Y). destruct (P y) as (P1 & _). apply (Sy y). split; [exact Y|congruence].
  - exists t. split; [reflexivity|]. exists L. split; [exact R|]. split; [|exact C]. intro k. unfold set_macro. destruct (name_eq k n) as [->|]; [exact Hx|apply Sy].
Qed.

Definition ok_directive (x : directive def) : Prop := match x with Define _ d => Ok d | Undef _ => True end.
Lemma run_good : forall ds t m, good t m -> Forall ok_directive ds ->
  match after def m ds with
  | Done m' => exists t', run def same H t ds = Done t' /\ good t' m'
  | Reported => run def same H t ds = Reported
  | Crash => False
  end.
Proof.
  induction ds as [|[n d|n] ds IH]; intros t m G Fo; cbn [after run]; try (inversion Fo as [|? ? O1 Fo']; subst).
  - exists t. auto.
  - pose proof (define_ok t m n d G O1) as D. destruct (m n) as [(dn & [|])|] eqn:Mn.
    + rewrite D. reflexivity.
    + destruct D as (t1 & -> & G1). apply IH; [exact G1|exact Fo'].
    + destruct D as (t1 & -> & G1). apply IH; [exact G1|exact Fo'].
  - destruct (undef_ok t m n G) as (t1 & -> & G1). apply IH; [exact G1|exact Fo'].
Qed.

Lemma builtins_good : forall bs t L m, rep t L -> says t L m -> NoDup (map fst bs) -> (forall n, In n (map fst bs) -> m n = None) -> (capacity t <> 0 \/ bs <> []) ->
  exists t', register_builtins def H t bs = Done t' /\ good t' (fold_left (fun m '(n, d) => set_macro def m n (Some (d, true))) bs m).
Proof.
  induction bs as [|(n & d) bs IH]; intros t L m R Sy Nd Fr C.
  - destruct C as [C|C]; [|contradiction]. exists t. split; [reflexivity|]. exists L. auto.
  - cbn [register_builtins fold_left]. cbn [map fst] in Nd. inversion Nd as [|? ? Nn Nd']; subst.
    destruct (register_ok t L m n d true R Sy (Fr n (or_introl eq_refl)) ltac:(discriminate)) as (t' & L' & E & R' & S' & C'). rewrite E. cbn [obind].
    eapply IH; [exact R'|exact S'|exact Nd'| |left; exact C'].
    intros k Hk. unfold set_macro. destruct (name_eq k n) as [->|]; [contradiction|apply Fr; right; exact Hk].
Qed.

Lemma start_good : forall junk bs, bs <> [] -> NoDup (map fst bs) -> exists t, start def H junk bs = Done t /\ good t (predefined def bs).
Proof.
  intros junk bs Ne Nd. unfold start, predefined. eapply (builtins_good bs _ (fun _ => []) (fun _ => None)); [| |exact Nd|auto|right; exact Ne].
  - constructor; cbn; [left; auto| |intros i x []|intros i j x y []|lia].
    constructor; [intro i; split; [reflexivity|split; [reflexivity|exact I]]|intro; constructor|intros i x []].
  - intros n x ((i & []) & _).
Qed.

Theorem macros_ok : forall junk bs ds, bs <> [] -> NoDup (map fst bs) -> Forall ok_directive ds ->
  exists t0, start def H junk bs = Done t0 /\
  match after def (predefined def bs) ds with
  | Done m => exists t, run def same H t0 ds = Done t /\ forall n, exists o, definition_of def H t n = Done o /\ match m n, o with None, None => True | Some (d, _), Some d' => Rel d' d | _, _ => False end
  | Reported => run def same H t0 ds = Reported
  | Crash => False
  end.
Proof.
  intros junk bs ds Ne Nd Fo. destruct (start_good junk bs Ne Nd) as (t0 & E & G). exists t0. split; [exact E|]. pose proof (run_good ds t0 _ G Fo) as Q.
  destruct (after def (predefined def bs) ds) as [m| |]; [|exact Q|exact Q]. destruct Q as (t & Et & (L & R & Sy & C)). exists t. split; [exact Et|]. intro n.
  unfold definition_of. specialize (Sy n). destruct (lookup_ok t L n R C) as [(x & Hx & ->)|(Hx & ->)]; cbn [obind].
  - destruct (m n) as [(d & b)|]; [|destruct (Sy x Hx)]. destruct Sy as (y & Hy & Yd & _). assert (y = x) by (eapply has_unique; eassumption). subst y. eexists. split; [reflexivity|]. apply Yd.
  - destruct (m n) as [(d & b)|]; [destruct Sy as (y & Hy & _); destruct (Hx y Hy)|]. exists None. split; [reflexivity|exact I].
Qed.
End M.
