(** The code generator and the machine side by side: which values the emit locations of
    a state of the generator stand for, and how the primitive steps (spilling, allocating,
    freeing, loading) keep them. *)
From Coq Require Import Permutation.
From Verif Require Import Base X64Decode X64Machine EncModel EncSpec EncProofs EncProps EmitModel StepProofs ExecProofs EmitBasics.

Ltac unbind E a s1 E1 := apply bind_inv in E; destruct E as (a & s1 & E1 & E).

(** What a location stands for.  [Rv n v]: the [n]-byte value [v] (in a register or a
    temporary stack slot); [Im n w]: a constant; [Bp]: the frame pointer; [Lv b off n]: the
    [n] bytes in memory at [b + off]; [Sl n k v]: a temporary stack slot used at size [n]
    whose low [k] bytes are [v]. *)
Inductive op : Set :=
| Rv (n v : Z)
| Im (n w : Z)
| Bp
| Lv (b : op) (off n : Z)
| Sl (n k v : Z).

Definition osize (o : op) : Z :=
  match o with Rv n _ => n | Im n _ => n | Bp => 8 | Lv _ _ n => n | Sl n _ _ => n end.

Definition item : Set := (op * nat * list nat)%type.

Lemma replace_same : forall A (l : list A) n x y, nth_error l n = Some y -> nth_error (replace_nth n x l) n = Some x.
Proof. induction l as [|h t IH]; intros [|n] x y H; cbn in *; try discriminate; eauto. Qed.
Lemma replace_diff : forall A (l : list A) n m x, n <> m -> nth_error (replace_nth n x l) m = nth_error l m.
Proof. induction l as [|h t IH]; intros [|n] [|m] x H; cbn; try congruence; auto. Qed.
Lemma replace_id : forall A (l : list A) n x, nth_error l n = Some x -> replace_nth n x l = l.
Proof. induction l as [|h t IH]; intros [|n] x H; cbn in *; try discriminate; [congruence|]. f_equal. auto. Qed.
Lemma replace_replace : forall A (l : list A) n x y, replace_nth n x (replace_nth n y l) = replace_nth n x l.
Proof. induction l as [|h t IH]; intros [|n] x y; cbn; auto. f_equal. auto. Qed.
Lemma nth_error_lt : forall A (l : list A) n x, nth_error l n = Some x -> (n < length l)%nat.
Proof. intros. apply nth_error_Some. congruence. Qed.
Lemma nth_error_new : forall A (l : list A) x, nth_error (l ++ [x]) (length l) = Some x.
Proof. intros. rewrite nth_error_app2, Nat.sub_diag by lia. reflexivity. Qed.
Lemma nth_error_old : forall A (l : list A) x n y, nth_error l n = Some y -> nth_error (l ++ [x]) n = Some y.
Proof. intros. rewrite nth_error_app1; [assumption|]. eapply nth_error_lt; eassumption. Qed.

Lemma volatile_plain : forall r, In r volatile -> plain_reg r /\ is_register r /\ r <> 5 /\ r <> 12 /\ r <> 13.
Proof. intros r H. cbn in H. unfold plain_reg, is_register. intuition (subst; lia). Qed.

Definition trans (s : emitter) (m : machine) (s' : emitter) (m' : machine) : Prop :=
  exists bs, code s' = code s ++ bs /\ runs bs m m'.
Lemma trans_refl : forall s s' m, code s' = code s -> trans s m s' m.
Proof. intros. exists []. rewrite app_nil_r. split; [assumption|apply runs_nil]. Qed.
Lemma trans_trans : forall a ma b mb c mc, trans a ma b mb -> trans b mb c mc -> trans a ma c mc.
Proof.
  intros a ma b mb c mc (x & E & R) (y & E' & R'). exists (x ++ y).
  split; [rewrite E', E, app_assoc; reflexivity|eapply runs_app; eassumption].
Qed.

(** ** Inverting the monad *)
Lemma get_inv' : forall id s l s', get id s = Done (l, s') -> nth_error (heap s) id = Some l /\ s' = s.
Proof. intros id s l s' E. apply get_inv in E. destruct E as (l1 & E1 & E). split; congruence. Qed.
Lemma assertion_inv' : forall b s u s', assertion b s = Done (u, s') -> b = true /\ s' = s.
Proof. intros b s u s' E. apply assertion_inv in E. destruct E as (A & B). split; congruence. Qed.
Lemma ret_inv : forall A (a b : A) s s', ret a s = Done (b, s') -> b = a /\ s' = s.
Proof. intros A a b s s' E. unfold ret in E. split; congruence. Qed.
Lemma lift_inv' : forall A (x : outcome A) s a s', lift x s = Done (a, s') -> x = Done a /\ s' = s.
Proof. intros A x s a s' E. apply lift_inv in E. destruct E as (b & E & E'). split; congruence. Qed.
Lemma out_inv : forall bs s u s', out bs s = Done (u, s') -> s' = in_code (code s ++ bs) s.
Proof. intros bs s u s' E. unfold out in E. congruence. Qed.
Lemma set_inv : forall id l s u s', set id l s = Done (u, s') -> s' = in_heap (replace_nth id l (heap s)) s.
Proof. intros id l s u s' E. unfold set in E. congruence. Qed.
Lemma modify_inv : forall id f s u s', modify id f s = Done (u, s') ->
  exists l, nth_error (heap s) id = Some l /\ s' = in_heap (replace_nth id (f l) (heap s)) s.
Proof.
  intros id f s u s' E. unfold modify in E. apply bind_inv in E. destruct E as (l & s1 & E1 & E).
  apply get_inv' in E1. destruct E1 as (E1 & ->). exists l. split; [exact E1|]. eapply set_inv, E.
Qed.
Lemma unlock_inv : forall id s u s', unlock id s = Done (u, s') ->
  exists l, nth_error (heap s) id = Some l /\ 0 < l_prevent_spilling l /\ s' = in_heap (replace_nth id (with_ps (-1) l) (heap s)) s.
Proof.
  intros id s u s' E. unfold unlock in E. apply bind_inv in E. destruct E as (l & s1 & E1 & E).
  apply get_inv' in E1. destruct E1 as (E1 & ->). apply bind_inv in E. destruct E as (u1 & s1 & E2 & E).
  apply assertion_inv' in E2. destruct E2 as (E2 & ->). exists l. split; [exact E1|]. split; [lia|]. eapply set_inv, E.
Qed.
Lemma loaded_register_inv : forall id s r s', loaded_register id s = Done (r, s') ->
  s' = s /\ exists l, nth_error (heap s) id = Some l /\ l_state l = Loaded r.
Proof.
  intros id s r s' E. unfold loaded_register in E. apply bind_inv in E. destruct E as (l & s1 & E1 & E).
  apply get_inv' in E1. destruct E1 as (E1 & ->). destruct (l_state l) eqn:S; try discriminate. apply ret_inv in E. destruct E as (-> & ->).
  split; [reflexivity|]. exists l. auto.
Qed.


Lemma replace_comm : forall A (l : list A) a b x y, a <> b -> replace_nth a x (replace_nth b y l) = replace_nth b y (replace_nth a x l).
Proof. induction l as [|h t IH]; intros [|a] [|b] x y H; cbn; try congruence. f_equal. apply IH. congruence. Qed.
Lemma in_heap_same : forall s, in_heap (heap s) s = s.
Proof. intros []. reflexivity. Qed.
Lemma with_ps_back : forall l, with_ps (-1) (with_ps 1 l) = l.
Proof. intros []. unfold with_ps. cbn. f_equal. lia. Qed.

Lemma bind_done : forall A B (e : M A) (f : A -> M B) s a s1, e s = Done (a, s1) -> bind e f s = f a s1.
Proof. intros A B e f s a s1 H. unfold bind. rewrite H. reflexivity. Qed.
Lemma get_done : forall s id l, nth_error (heap s) id = Some l -> get id s = Done (l, s).
Proof. intros s id l H. unfold get. rewrite H. reflexivity. Qed.

Section Sim.
Variables (ss TL : Z) (regs0 : Z -> Z).
Let bpv := regs0 5.
Hypothesis H_ss : 0 <= ss.
Hypothesis H_TL : 0 <= TL.
Hypothesis H_off : ss + TL <= 2 ^ 31.
Hypothesis H_bp : ss + TL <= bpv < 2 ^ 64.

(** The temporary stack slots. *)
Definition spill_area (a : Z) : Prop := bpv - ss - TL <= a < bpv - ss.

Record wf (s : emitter) (m : machine) (M0 : Z -> Z) : Prop := mkwf {
  wf_bp : exists l, nth_error (heap s) 0 = Some l /\ l_state l = Loaded 5 /\ l_size l = 8;
  wf_map : forall r id, rmap s r = Some id -> In r volatile /\
             exists l, nth_error (heap s) id = Some l /\ l_state l = Loaded r /\ is_size_P (l_size l);
  wf_ps : forall id l, nth_error (heap s) id = Some l -> 0 <= l_prevent_spilling l /\ 0 <= l_prevent_freeing l;
  wf_regs : forall r, ~ In r volatile -> regs m r = regs0 r;
  wf_word : forall r, word (regs m r);
  wf_tsa : 0 <= tsa s <= TL;
  wf_mem : forall a, ~ spill_area a -> mem m a = M0 a }.

Inductive holds (s : emitter) (m : machine) : op -> nat -> list nat -> Prop :=
| HBp : holds s m Bp 0%nat []
| HReg : forall id l r n v, nth_error (heap s) id = Some l -> l_state l = Loaded r -> l_size l = n -> is_size_P n ->
    rmap s r = Some id -> regs m r mod 2 ^ (8 * n) = v -> holds s m (Rv n v) id [id]
| HSlot : forall id l t n v, nth_error (heap s) id = Some l -> l_state l = RegRel 0 None 0 (- (ss + t)) -> l_size l = n ->
    is_size_P n -> n <= t <= tsa s -> load (Z.to_nat n) (mem m) (bpv - ss - t) = v -> holds s m (Rv n v) id [id]
| HIm : forall id l n w, nth_error (heap s) id = Some l -> l_state l = Immediate w -> l_size l = n -> is_size_P n ->
    holds s m (Im n w) id [id]
| HLv : forall id l ib off n b fp, nth_error (heap s) id = Some l -> l_state l = RegRel ib None 0 off -> l_size l = n ->
    holds s m b ib fp -> holds s m (Lv b off n) id (id :: fp)
| HSl : forall id l t n k v, nth_error (heap s) id = Some l -> l_state l = RegRel 0 None 0 (- (ss + t)) -> l_size l = n ->
    is_size_P n -> is_size_P k -> k <= t <= tsa s -> load (Z.to_nat k) (mem m) (bpv - ss - t) = v -> holds s m (Sl n k v) id [id].

Definition item_ok (s : emitter) (m : machine) (x : item) : Prop := holds s m (fst (fst x)) (snd (fst x)) (snd x).

Record sim (s : emitter) (m : machine) (M0 : Z -> Z) (L : list item) : Prop := mksim {
  sim_wf : wf s m M0;
  sim_holds : Forall (item_ok s m) L;
  sim_nodup : NoDup (concat (map snd L)) }.

(** The locations outside [fp] are unchanged, or they were unlocked registers and have
    been spilled. *)
Definition spilled (s' : emitter) (id : nat) (l : location) : Prop :=
  l_prevent_spilling l = 0 /\ exists r t, l_state l = Loaded r /\
    nth_error (heap s') id = Some (mkloc (RegRel 0 None 0 (- (ss + t))) (l_size l) 0 (l_prevent_freeing l)).
Definition frame (s s' : emitter) (fp : list nat) : Prop := forall id l,
  nth_error (heap s) id = Some l -> ~ In id fp -> nth_error (heap s') id = Some l \/ spilled s' id l.

Lemma frame_refl : forall s fp, frame s s fp.
Proof. intros s fp id l H _. left. exact H. Qed.
Lemma frame_trans : forall a b c f1 f2, frame a b f1 -> frame b c f2 ->
  (forall id, In id f2 -> (id < length (heap a))%nat -> In id f1) -> frame a c f1.
Proof.
  intros a b c f1 f2 F1 F2 H id l E N. pose proof (nth_error_lt _ _ _ _ E) as Lt.
  assert (N2 : ~ In id f2) by (intro; apply N, H; assumption).
  destruct (F1 id l E N) as [E1|(P & r & t & S & E1)].
  - exact (F2 id l E1 N2).
  - right. split; [exact P|]. exists r, t. split; [exact S|].
    destruct (F2 _ _ E1 N2) as [E2|(_ & r' & t' & S' & _)]; [exact E2|]. discriminate.
Qed.
Lemma frame_weaken : forall a b f f', frame a b f -> (forall id, In id f -> In id f') -> frame a b f'.
Proof. intros a b f f' F H id l E N. apply (F id l E). auto. Qed.

Lemma frame_locked : forall s s' fp id l, frame s s' fp -> nth_error (heap s) id = Some l -> ~ In id fp ->
  l_prevent_spilling l <> 0 -> nth_error (heap s') id = Some l.
Proof. intros s s' fp id l F E N P. destruct (F id l E N) as [H|(P0 & _)]; [exact H|contradiction]. Qed.
Lemma frame_unloaded : forall s s' fp id l, frame s s' fp -> nth_error (heap s) id = Some l -> ~ In id fp ->
  (forall r, l_state l <> Loaded r) -> nth_error (heap s') id = Some l.
Proof. intros s s' fp id l F E N P. destruct (F id l E N) as [H|(_ & r & t & S & _)]; [exact H|]. destruct (P r S). Qed.

(** ** Keeping what locations stand for *)
Definition loc_ok (s : emitter) (m : machine) (s' : emitter) (m' : machine) (id : nat) : Prop :=
  exists l l', nth_error (heap s) id = Some l /\ nth_error (heap s') id = Some l' /\ l_size l' = l_size l /\
   ((l_state l' = l_state l /\ forall r, l_state l = Loaded r -> rmap s r = Some id ->
       rmap s' r = Some id /\ regs m' r mod 2 ^ (8 * l_size l) = regs m r mod 2 ^ (8 * l_size l))
    \/ (exists r t, l_state l = Loaded r /\ l_state l' = RegRel 0 None 0 (- (ss + t)) /\ l_size l <= t <= tsa s' /\
        load (Z.to_nat (l_size l)) (mem m') (bpv - ss - t) = regs m r mod 2 ^ (8 * l_size l))).
Definition slots_kept (s : emitter) (m : machine) (s' : emitter) (m' : machine) : Prop :=
  tsa s <= tsa s' /\ forall a, bpv - ss - tsa s <= a < bpv - ss -> mem m' a = mem m a.

Lemma slot_load : forall s m s' m' t k, slots_kept s m s' m' -> 0 <= k <= t -> t <= tsa s -> tsa s <= TL ->
  load (Z.to_nat k) (mem m') (bpv - ss - t) = load (Z.to_nat k) (mem m) (bpv - ss - t).
Proof.
  intros s m s' m' t k (_ & H) Hk Ht HT. apply load_agree. intros i Hi.
  rewrite wrapu_id by lia. apply H. lia.
Qed.

Lemma holds_keep : forall s m s' m' o id fp, holds s m o id fp -> tsa s <= TL ->
  (forall i, In i fp -> loc_ok s m s' m' i) -> slots_kept s m s' m' -> holds s' m' o id fp.
Proof.
  intros s m s' m' o id fp H HT. induction H as [|id l r n v E S Z P R V|id l t n v E S Z P T V|id l n w E S Z P
     |id l ib off n b fp E S Z H IH|id l t n k v E S Z P K T V]; intros Hl Hs.
  - constructor.
  - destruct (Hl id (or_introl eq_refl)) as (l0 & l' & E0 & E' & Z' & C). assert (l0 = l) by congruence. subst l0.
    destruct C as [(S' & C)|(r' & t & Sr & S' & T & V')].
    + destruct (C r S R) as (R' & V'). eapply HReg with (r := r); [exact E'|congruence|congruence|exact P|exact R'|]. subst n. congruence.
    + assert (r' = r) by congruence. subst r'. subst n.
      eapply HSlot; [exact E'|exact S'|exact Z'|exact P|lia|congruence].
  - destruct (Hl id (or_introl eq_refl)) as (l0 & l' & E0 & E' & Z' & C). assert (l0 = l) by congruence. subst l0.
    destruct C as [(S' & _)|(r' & t' & Sr & _)]; [|congruence].
    eapply HSlot with (t := t); [exact E'|congruence|congruence|exact P|destruct Hs; lia|].
    rewrite (slot_load s m s' m' t n Hs) by (unfold is_size_P in P; lia). exact V.
  - destruct (Hl id (or_introl eq_refl)) as (l0 & l' & E0 & E' & Z' & C). assert (l0 = l) by congruence. subst l0.
    destruct C as [(S' & _)|(r' & t' & Sr & _)]; [|congruence].
    eapply HIm; [exact E'|rewrite S'; exact S|congruence|exact P].
  - destruct (Hl id (or_introl eq_refl)) as (l0 & l' & E0 & E' & Z' & C). assert (l0 = l) by congruence. subst l0.
    destruct C as [(S' & _)|(r' & t' & Sr & _)]; [|congruence].
    eapply HLv; [exact E'|rewrite S'; exact S|congruence|]. apply IH; [|exact Hs]. intros i Hi. apply Hl. right. exact Hi.
  - destruct (Hl id (or_introl eq_refl)) as (l0 & l' & E0 & E' & Z' & C). assert (l0 = l) by congruence. subst l0.
    destruct C as [(S' & _)|(r' & t' & Sr & _)]; [|congruence].
    eapply HSl; [exact E'|rewrite S'; exact S|congruence|exact P|exact K|destruct Hs; lia|].
    rewrite (slot_load s m s' m' t k Hs) by (unfold is_size_P in K; lia). exact V.
Qed.

Lemma sim_keep : forall s m s' m' M0 M1 L, sim s m M0 L -> wf s' m' M1 ->
  (forall i, In i (concat (map snd L)) -> loc_ok s m s' m' i) -> slots_kept s m s' m' -> sim s' m' M1 L.
Proof.
  intros s m s' m' M0 M1 L [W H N] W' Hl Hs. split; [exact W'| |exact N].
  clear N. induction L as [|((o, id), fp) L IH]; constructor.
  - inversion H as [|? ? Hx Ht]; subst. unfold item_ok in *. cbn [fst snd] in *.
    eapply holds_keep; [exact Hx|apply (wf_tsa _ _ _ W)| |exact Hs].
    intros i Hi. apply Hl. cbn. apply in_or_app. left. exact Hi.
  - inversion H; subst. apply IH; [assumption|]. intros i Hi. apply Hl. cbn. apply in_or_app. right. exact Hi.
Qed.

Lemma holds_ids : forall s m o id fp, holds s m o id fp -> forall i, In i fp -> exists l, nth_error (heap s) i = Some l.
Proof.
  intros s m o id fp H. induction H; intros i Hi; try (destruct Hi as [<-|[]]; eexists; eassumption); [destruct Hi|].
  destruct Hi as [<-|Hi]; [eexists; eassumption|auto].
Qed.
Lemma sim_ids : forall s m M0 L i, sim s m M0 L -> In i (concat (map snd L)) -> exists l, nth_error (heap s) i = Some l.
Proof.
  intros s m M0 L i [_ H _] Hi. apply in_concat in Hi. destruct Hi as (fp & Hf & Hi).
  apply in_map_iff in Hf. destruct Hf as (x & <- & Hx). rewrite Forall_forall in H. eapply holds_ids; [apply H, Hx|exact Hi].
Qed.
Lemma sim_fresh : forall s m M0 L, sim s m M0 L -> ~ In (length (heap s)) (concat (map snd L)).
Proof. intros s m M0 L H Hi. destruct (sim_ids _ _ _ _ _ H Hi) as (l & E). apply nth_error_lt in E. lia. Qed.

Lemma sim_drop : forall s m M0 x L, sim s m M0 (x :: L) -> sim s m M0 L.
Proof.
  intros s m M0 x L [W H N]. inversion H; subst. split; try assumption.
  cbn in N. clear - N. induction (snd x) as [|a l IH]; [exact N|]. apply IH. inversion N. assumption.
Qed.
Lemma NoDup_app_intro : forall A (a b : list A), NoDup a -> NoDup b -> (forall x, In x a -> ~ In x b) -> NoDup (a ++ b).
Proof.
  intros A a b Ha Hb H. induction Ha as [|x a Nx Ha IH]; [exact Hb|]. cbn. constructor.
  - rewrite in_app_iff. intros [|]; [contradiction|]. eapply H; [left; reflexivity|assumption].
  - apply IH. intros y Hy. apply H. right. exact Hy.
Qed.
Lemma NoDup_app_elim : forall A (a b : list A), NoDup (a ++ b) -> NoDup a /\ NoDup b /\ (forall x, In x a -> ~ In x b).
Proof.
  intros A a b. induction a as [|x a IH]; intro H; [split; [constructor|split; [exact H|intros ? []]]|].
  cbn in H. inversion H as [|? ? Nx H']; subst. destruct (IH H') as (A1 & A2 & A3). split; [|split].
  - constructor; [|exact A1]. intro. apply Nx, in_or_app. left. assumption.
  - exact A2.
  - intros y [<-|Hy]; [intro; apply Nx, in_or_app; right; assumption|apply A3, Hy].
Qed.
Lemma sim_perm : forall s m M0 L L', Permutation L L' -> sim s m M0 L -> sim s m M0 L'.
Proof.
  intros s m M0 L L' P [W H N]. split; [exact W| |].
  - eapply Permutation_Forall; eassumption.
  - eapply Permutation_NoDup; [|exact N].
    clear - P. induction P; cbn; auto.
    + apply Permutation_app_head. exact IHP.
    + rewrite !app_assoc. apply Permutation_app_tail, Permutation_app_comm.
    + eapply perm_trans; eassumption.
Qed.
Lemma sim_swap : forall s m M0 x y L, sim s m M0 (x :: y :: L) -> sim s m M0 (y :: x :: L).
Proof. intros. eapply sim_perm; [apply perm_swap|eassumption]. Qed.
Lemma sim_head : forall s m M0 o id fp L, sim s m M0 ((o, id, fp) :: L) -> holds s m o id fp.
Proof. intros s m M0 o id fp L [_ H _]. inversion H. assumption. Qed.
Lemma sim_disjoint : forall s m M0 x y L i, sim s m M0 (x :: y :: L) -> In i (snd x) -> ~ In i (snd y).
Proof.
  intros s m M0 x y L i [_ _ N] Hx Hy. cbn in N. destruct (NoDup_app_elim _ _ _ N) as (_ & _ & D).
  apply (D i Hx). apply in_or_app. left. exact Hy.
Qed.

(** Replace the head. *)
Lemma sim_cons : forall s m M0 o id fp L, sim s m M0 L -> holds s m o id fp ->
  NoDup fp -> (forall i, In i fp -> ~ In i (concat (map snd L))) -> sim s m M0 ((o, id, fp) :: L).
Proof.
  intros s m M0 o id fp L [W H N] Hh Hn Hd. split; [exact W|constructor; assumption|].
  cbn. apply NoDup_app_intro; assumption.
Qed.

(** The id of an operand is in its footprint, except for the frame pointer. *)
Lemma holds_id : forall s m o id fp, holds s m o id fp -> o = Bp /\ id = 0%nat /\ fp = [] \/ o <> Bp /\ In id fp.
Proof. intros s m o id fp H. destruct H; try (right; split; [discriminate|left; reflexivity]). left. auto. Qed.

Lemma holds_nonzero : forall s m M0 o id fp, wf s m M0 -> holds s m o id fp -> ~ In 0%nat fp.
Proof.
  intros s m M0 o id fp W H. destruct (wf_bp _ _ _ W) as (l0 & E0 & S0 & _).
  induction H as [|id l r n v E S Z P R V|id l t n v E S Z P T V|id l n w E S Z P
     |id l ib off n b fp E S Z H IH|id l t n k v E S Z P K T V]; intro Hi; cbn [In] in Hi.
  - exact Hi.
  - destruct Hi as [->|[]]. destruct (wf_map _ _ _ W r 0%nat R) as (Hv & _). assert (r = 5) by congruence. subst r. cbn in Hv. lia.
  - destruct Hi as [->|[]]. congruence.
  - destruct Hi as [->|[]]. congruence.
  - destruct Hi as [->|Hi]; [congruence|]. auto.
  - destruct Hi as [->|[]]. congruence.
Qed.

(** ** Changing locks, sizes of unused locations and other small steps *)
Definition same_loc (l l' : location) : Prop := l_state l' = l_state l /\ l_size l' = l_size l.

Lemma sim_locks : forall s m M0 L id l l', sim s m M0 L -> nth_error (heap s) id = Some l -> same_loc l l' ->
  0 <= l_prevent_spilling l' -> 0 <= l_prevent_freeing l' -> sim (in_heap (replace_nth id l' (heap s)) s) m M0 L.
Proof.
  intros s m M0 L id l l' H E (S & Z) Hp Hq.
  assert (G : forall i k, nth_error (heap s) i = Some k ->
    exists k', nth_error (replace_nth id l' (heap s)) i = Some k' /\ l_state k' = l_state k /\ l_size k' = l_size k).
  { intros i k Ei. destruct (Nat.eq_dec id i) as [<-|Hn].
    - exists l'. assert (k = l) by congruence. subst k. split; [eapply replace_same; exact E|auto].
    - exists k. rewrite replace_diff by exact Hn. auto. }
  eapply sim_keep; [exact H| | |].
  - destruct (sim_wf _ _ _ _ H) as [B Mp Ps R W T Mm]. split; cbn [heap rmap tsa in_heap]; try assumption.
    + destruct B as (k & Ek & Sk & Zk). destruct (G _ _ Ek) as (k' & Ek' & S' & Z'). exists k'. split; [exact Ek'|]. split; congruence.
    + intros r i Er. destruct (Mp r i Er) as (Hv & k & Ek & Sk & Zk). split; [exact Hv|].
      destruct (G _ _ Ek) as (k' & Ek' & S' & Z'). exists k'. split; [exact Ek'|]. split; congruence.
    + intros i k Ek. destruct (Nat.eq_dec id i) as [<-|Hn].
      * rewrite (replace_same _ _ _ _ _ E) in Ek. assert (k = l') by congruence. subst k. auto.
      * rewrite replace_diff in Ek by exact Hn. eapply Ps, Ek.
  - intros i Hi. destruct (sim_ids _ _ _ _ _ H Hi) as (k & Ek). destruct (G _ _ Ek) as (k' & Ek' & S' & Z').
    exists k, k'. split; [exact Ek|]. split; [exact Ek'|]. split; [exact Z'|]. left. split; [exact S'|]. auto.
  - split; [cbn; lia|]. auto.
Qed.

(** Code appended, jumps recorded, rolling index: irrelevant to [sim]. *)
Lemma sim_irrelevant : forall s s' m M0 L, heap s' = heap s -> rmap s' = rmap s -> tsa s' = tsa s -> sim s m M0 L -> sim s' m M0 L.
Proof.
  intros s s' m M0 L Hh Hm Ht H. eapply sim_keep; [exact H| | |].
  - destruct (sim_wf _ _ _ _ H) as [B Mp Ps R W T Mm]. split; rewrite ?Hh, ?Hm, ?Ht; assumption.
  - intros i Hi. destruct (sim_ids _ _ _ _ _ H Hi) as (k & Ek). exists k, k. rewrite Hh, Hm. repeat split; auto.
  - split; [lia|auto].
Qed.

(** A new location. *)
Lemma sim_new : forall s m M0 L l, sim s m M0 L -> 0 <= l_prevent_spilling l -> 0 <= l_prevent_freeing l -> sim (in_heap (heap s ++ [l]) s) m M0 L.
Proof.
  intros s m M0 L l H Hp Hq. eapply sim_keep; [exact H| | |].
  - destruct (sim_wf _ _ _ _ H) as [B Mp Ps R W T Mm]. split; cbn [heap rmap tsa in_heap]; try assumption.
    + destruct B as (k & Ek & Sk & Zk). exists k. split; [apply nth_error_old, Ek|auto].
    + intros r i Er. destruct (Mp r i Er) as (Hv & k & Ek & Sk & Zk). split; [exact Hv|]. exists k.
      split; [apply nth_error_old, Ek|auto].
    + intros i k Ek. destruct (Nat.lt_ge_cases i (length (heap s))).
      * rewrite nth_error_app1 in Ek by assumption. eapply Ps, Ek.
      * assert (i = length (heap s)).
        { apply nth_error_lt in Ek. rewrite app_length in Ek. cbn in Ek. lia. }
        subst i. rewrite nth_error_new in Ek. assert (k = l) by congruence. subst k. auto.
  - intros i Hi. destruct (sim_ids _ _ _ _ _ H Hi) as (k & Ek). exists k, k. cbn [heap rmap in_heap].
    split; [exact Ek|]. split; [apply nth_error_old, Ek|]. split; [reflexivity|]. left. auto.
  - split; [cbn; lia|auto].
Qed.

Lemma frame_new : forall s l fp, frame s (in_heap (heap s ++ [l]) s) fp.
Proof. intros s l fp id k E _. left. apply nth_error_old, E. Qed.

(** ** Writing registers *)
Lemma mod_le : forall a b k n, 0 <= k <= n -> a mod 2 ^ n = b mod 2 ^ n -> a mod 2 ^ k = b mod 2 ^ k.
Proof.
  intros a b k n Hk H.
  assert (G : forall x, x mod 2 ^ k = (x mod 2 ^ n) mod 2 ^ k).
  { intro x. replace n with (k + (n - k)) by lia. rewrite Z.pow_add_r by lia.
    pose proof (pow2_pos k ltac:(lia)). pose proof (pow2_pos (n - k) ltac:(lia)).
    rewrite Z.rem_mul_r by lia. rewrite (Z.mul_comm (2 ^ k)), Z.mod_add by lia. rewrite Z.mod_mod by lia. reflexivity. }
  rewrite (G a), (G b), H. reflexivity.
Qed.

(** A register nobody owns. *)
Lemma wf_write : forall s m M0 r size v m', wf s m M0 -> wrote m m' r size v -> In r volatile -> wf s m' M0.
Proof.
  intros s m M0 r size v m' [B Mp Ps R W T Mm] [Wo Wv Wf Ww Wm] Hr. split; try assumption.
  - intros q Hq. rewrite Wo; [apply R, Hq|congruence].
  - intro q. destruct (Z.eq_dec q r) as [->|Hn]; [apply Ww, W|rewrite Wo by exact Hn; apply W].
  - intros a Ha. rewrite Wm. apply Mm, Ha.
Qed.

Lemma sim_write : forall s m M0 L r size v m', sim s m M0 L -> wrote m m' r size v -> In r volatile ->
  (forall id, rmap s r = Some id -> ~ In id (concat (map snd L))) -> sim s m' M0 L.
Proof.
  intros s m M0 L r size v m' H Wr Hr Hn. eapply sim_keep; [exact H| | |].
  - eapply wf_write; [apply H|exact Wr|exact Hr].
  - intros i Hi. destruct (sim_ids _ _ _ _ _ H Hi) as (k & Ek). exists k, k. repeat (split; [assumption || reflexivity|]).
    left. split; [reflexivity|]. intros q Sq Rq. split; [exact Rq|].
    destruct (Z.eq_dec q r) as [->|Hq]; [destruct (Hn i Rq Hi)|]. rewrite (w_other _ _ _ _ _ Wr) by exact Hq. reflexivity.
  - split; [lia|]. intros. rewrite (w_mem _ _ _ _ _ Wr). reflexivity.
Qed.

(** The register of the head operand. *)
Lemma sim_write_head : forall s m M0 L r n v0 size v m' id fp, sim s m M0 ((Rv n v0, id, fp) :: L) -> wrote m m' r size v ->
  rmap s r = Some id -> n <= size -> is_size_P size ->
  sim s m' M0 ((Rv n (v mod 2 ^ (8 * n)), id, fp) :: L).
Proof.
  intros s m M0 L r n v0 size v m' id fp H Wr Hr Hsz Hss.
  destruct (wf_map _ _ _ (sim_wf _ _ _ _ H) r id Hr) as (Hv & l & E & S & Zl).
  pose proof (sim_head _ _ _ _ _ _ _ H) as Hh.
  assert (Hf : fp = [id] /\ l_size l = n /\ is_size_P n).
  { inversion Hh as [|? l0 ? ? ? E0 S0 Z0 P0| ? l0 ? ? ? E0 S0 Z0 P0| | |]; subst; (split; [reflexivity|]); assert (l0 = l) by congruence; subst; split; auto. }
  destruct Hf as (-> & Z & P).
  pose proof (sim_drop _ _ _ _ _ H) as H'.
  assert (Nd : ~ In id (concat (map snd L))).
  { destruct H as [_ _ N]. cbn in N. inversion N. assumption. }
  apply sim_cons.
  - eapply sim_write; [exact H'|exact Wr|exact Hv|]. intros id' E' Hi. assert (id' = id) by congruence. subst. contradiction.
  - eapply HReg; [exact E|exact S|exact Z|exact P|exact Hr|]. eapply mod_le with (n := 8 * size); [unfold is_size_P in *; lia|].
    apply (w_value _ _ _ _ _ Wr).
  - constructor; [intros []|constructor].
  - intros i [<-|[]]. exact Nd.
Qed.

(** Overwriting a register of the head operand leaves some operand. *)
Lemma holds_write : forall s m r size v m' o id fp, holds s m o id fp -> wrote m m' r size v ->
  exists o', holds s m' o' id fp /\ (o = Bp -> o' = Bp) /\ osize o' = osize o.
Proof.
  intros s m r size v m' o id fp H Wr.
  induction H as [|id l q n x E S Z P R V|id l t n x E S Z P T V|id l n w E S Z P
     |id l ib off n b fp E S Z H IH|id l t n k x E S Z P K T V].
  - exists Bp. split; [constructor|auto].
  - eexists. split; [eapply HReg; eauto|]. split; [discriminate|reflexivity].
  - eexists. split; [eapply HSlot; eauto|]. split; [discriminate|reflexivity].
  - eexists. split; [eapply HIm; eauto|]. split; [discriminate|reflexivity].
  - destruct IH as (b' & Hb & _ & _). exists (Lv b' off n). split; [eapply HLv; eauto|]. split; [discriminate|reflexivity].
  - eexists. split; [eapply HSl; eauto|]. split; [discriminate|reflexivity].
Qed.

Lemma sim_write_any : forall s m M0 L r size v m' o id fp, sim s m M0 ((o, id, fp) :: L) -> wrote m m' r size v -> In r volatile ->
  (forall i, rmap s r = Some i -> In i fp \/ ~ In i (concat (map snd L))) ->
  exists o', sim s m' M0 ((o', id, fp) :: L) /\ osize o' = osize o.
Proof.
  intros s m M0 L r size v m' o id fp H Wr Hr Hi.
  pose proof (sim_drop _ _ _ _ _ H) as H'. pose proof (sim_head _ _ _ _ _ _ _ H) as Hh.
  destruct H as [W _ N]. cbn in N. destruct (NoDup_app_elim _ _ _ N) as (N1 & N2 & D).
  destruct (holds_write _ _ _ _ _ _ _ _ _ Hh Wr) as (o' & Ho & _ & Zo). exists o'. split; [|exact Zo].
  apply sim_cons; try assumption.
  eapply sim_write; [exact H'|exact Wr|exact Hr|]. intros i E. destruct (Hi i E) as [Hf|Hf]; [apply D, Hf|exact Hf].
Qed.

(** Flags and pc do not matter. *)
Lemma sim_same : forall s m m' M0 L, regs m' = regs m -> mem m' = mem m -> sim s m M0 L -> sim s m' M0 L.
Proof.
  intros s m m' M0 L Hr Hm H. eapply sim_keep; [exact H| | |].
  - destruct (sim_wf _ _ _ _ H) as [B Mp Ps R W T Mm]. split; rewrite ?Hr, ?Hm; assumption.
  - intros i Hi. destruct (sim_ids _ _ _ _ _ H Hi) as (k & Ek). exists k, k. rewrite Hr. repeat split; auto.
  - split; [lia|]. intros. rewrite Hm. reflexivity.
Qed.

(** ** Spilling *)
Lemma emitted_spill : forall r n off, is_register r -> is_s32 off -> is_size_P n ->
  emitted (emit_spill_store r n off) (requested no_prefix 0 (op8 n 0x88) r 5 false n (RmMem (BaseReg 5) None off)) [].
Proof.
  intros r n off Hr Ho Hn tail. rewrite C14_spill_store_decodes by assumption. cbn [app].
  unfold op8. destruct (n =? 1); reflexivity.
Qed.

Lemma spill_spec : forall r s u s' m M0 L, sim s m M0 L -> spill_register ss r s = Done (u, s') -> tsa s' <= TL ->
  exists m', trans s m s' m' /\ sim s' m' M0 L /\ frame s s' [] /\ fl m' = fl m /\ regs m' = regs m /\
    rmap s' r = None /\ (forall q, q <> r -> rmap s' q = rmap s q) /\ length (heap s') = length (heap s).
Proof.
  intros r s u s' m M0 L H E HT. unfold spill_register in E. destruct (rmap s r) as [id|] eqn:Er; [|discriminate].
  destruct (wf_map _ _ _ (sim_wf _ _ _ _ H) r id Er) as (Hv & l & El & Sl & Zl).
  destruct (volatile_plain r Hv) as (Pr & Ir & N5 & N12 & N13).
  apply bind_inv in E. destruct E as (l1 & s1 & E1 & E). apply get_inv in E1. destruct E1 as (l2 & El2 & E1).
  assert (l1 = l /\ s1 = s) as (-> & ->) by (split; congruence). clear E1 l2 El2.
  apply bind_inv in E. destruct E as (u1 & s1 & E1 & E). apply assertion_inv in E1. destruct E1 as (Hp & E1).
  assert (s1 = s) by congruence. subst s1. clear E1. apply Z.eqb_eq in Hp.
  apply bind_inv in E. destruct E as (u2 & s1 & E1 & E). apply assertion_inv in E1. destruct E1 as (_ & E1).
  assert (s1 = s) by congruence. subst s1. clear E1.
  set (n := l_size l) in *.
  remember (align_up (tsa s) n + n) as t eqn:Et.
  assert (Hn : 1 <= n <= 8) by (unfold is_size_P in Zl; lia).
  pose proof (align_up_ge (tsa s) n ltac:(lia)) as (HA & _).
  unfold bind, obind, allocate_temporary, set, set_map, out in E. rewrite <- Et in E. cbn [heap rmap tsa code in_heap in_tsa in_map] in E.
  match type of E with Done (_, ?x) = _ => assert (Es : s' = x) by congruence end. clear E.
  set (nl := mkloc (RegRel register_bp None 0 (- (ss + t))) n 0 (l_prevent_freeing l)) in *.
  assert (Hh : heap s' = replace_nth id nl (heap s)) by (rewrite Es; reflexivity).
  assert (Hm : rmap s' = fun q => if q =? r then None else rmap s q) by (rewrite Es; reflexivity).
  assert (Ht : tsa s' = t) by (rewrite Es; reflexivity).
  assert (Hc : code s' = code s ++ emit_spill_store r n (- (ss + t))) by (rewrite Es; reflexivity).
  clear Es. rewrite Ht in HT.
  pose proof (wf_tsa _ _ _ (sim_wf _ _ _ _ H)) as HT0.
  destruct (I_mov_store _ r 5 false n 5 None (- (ss + t)) m
             (emitted_spill r n (- (ss + t)) Ir ltac:(unfold is_s32; lia) Zl) Zl Pr) as (m' & Rn & Rr & Rf & Rm).
  assert (Ha : ea m 5 None (- (ss + t)) = bpv - ss - t).
  { unfold ea. rewrite (wf_regs _ _ _ (sim_wf _ _ _ _ H) 5) by (cbn; lia). fold bpv. rewrite wrapu_id by lia. lia. }
  rewrite Ha in Rm.
  assert (Hout : forall a, ~ (bpv - ss - t <= a < bpv - ss - t + n) -> mem m' a = mem m a).
  { intros a Hna. rewrite Rm. apply store_other. intros (i & Hi & ->). apply Hna. rewrite wrapu_id by lia. lia. }
  exists m'. split; [exists (emit_spill_store r n (- (ss + t))); auto|]. split; [|split; [|split; [exact Rf|split; [exact Rr|]]]].
  - eapply sim_keep; [exact H| | |].
    + destruct (sim_wf _ _ _ _ H) as [B Mp Ps R W T Mm]. split.
      * destruct B as (k & Ek & Sk & Zk). exists k. split; [|auto]. rewrite Hh. rewrite replace_diff; [exact Ek|].
        intro Hx. subst id. congruence.
      * intros q i Eq. rewrite Hm in Eq. destruct (Z.eqb_spec q r); [discriminate|].
        destruct (Mp q i Eq) as (Hq & k & Ek & Sk & Zk). split; [exact Hq|]. exists k. split; [|auto].
        rewrite Hh. rewrite replace_diff; [exact Ek|]. intro Hx. subst id. congruence.
      * intros i k Ek. rewrite Hh in Ek. destruct (Nat.eq_dec id i) as [<-|Hx].
        -- rewrite (replace_same _ _ _ _ _ El) in Ek. injection Ek as <-. cbn. split; [lia|]. apply (Ps _ _ El).
        -- rewrite replace_diff in Ek by exact Hx. eapply Ps, Ek.
      * intros q Hq. rewrite Rr. apply R, Hq.
      * intro q. rewrite Rr. apply W.
      * lia.
      * intros a Ha'. rewrite Hout; [apply Mm, Ha'|]. unfold spill_area in Ha'. lia.
    + intros i Hi. destruct (sim_ids _ _ _ _ _ H Hi) as (k & Ek). unfold loc_ok. rewrite Hh, Hm, Ht.
      destruct (Nat.eq_dec id i) as [<-|Hx].
      * assert (k = l) by congruence. subst k. exists l, nl. split; [exact El|]. split; [eapply replace_same; exact El|].
        split; [reflexivity|]. right. exists r, t. split; [exact Sl|]. split; [reflexivity|]. fold n. split; [lia|].
        rewrite Rm. rewrite load_store_same by lia. rewrite Z2Nat.id by lia. apply Z.mod_mod.
        pose proof (pow2_pos (8 * n) ltac:(lia)). lia.
      * exists k, k. split; [exact Ek|]. split; [rewrite replace_diff by exact Hx; exact Ek|]. split; [reflexivity|].
        left. split; [reflexivity|]. intros q Sq Rq. rewrite Rr. split; [|reflexivity].
        destruct (Z.eqb_spec q r) as [->|]; [congruence|exact Rq].
    + split; [lia|]. intros a Ha'. apply Hout. lia.
  - intros i k Ek _. rewrite Hh. destruct (Nat.eq_dec id i) as [<-|Hx].
    + right. assert (k = l) by congruence. subst k. split; [exact Hp|]. exists r, t. split; [exact Sl|].
      rewrite Hh. eapply replace_same; exact El.
    + left. rewrite replace_diff by exact Hx. exact Ek.
  - rewrite Hm, Hh. split; [rewrite Z.eqb_refl; reflexivity|]. split; [|apply length_replace].
    intros q Hq. destruct (Z.eqb_spec q r); [contradiction|reflexivity].
Qed.

(** What a step that only spills guarantees. *)
Record spills (s : emitter) (m : machine) (s' : emitter) (m' : machine) (M0 : Z -> Z) (L : list item) : Prop := {
  sp_trans : trans s m s' m';
  sp_sim : sim s' m' M0 L;
  sp_frame : frame s s' [];
  sp_fl : fl m' = fl m;
  sp_regs : regs m' = regs m;
  sp_map : forall q k, rmap s' q = Some k -> rmap s q = Some k;
  sp_len : length (heap s') = length (heap s) }.

Lemma specific_spec : forall r s r' s' m M0 L, sim s m M0 L -> allocate_specific_register ss r s = Done (r', s') -> tsa s' <= TL ->
  r' = r /\ exists m', spills s m s' m' M0 L /\ rmap s' r = None /\ (forall q, q <> r -> rmap s' q = rmap s q) /\
    (rmap s r = None -> s' = s /\ m' = m).
Proof.
  intros r s r' s' m M0 L H E HT. unfold allocate_specific_register in E. destruct (rmap s r) eqn:Er.
  - apply bind_inv in E. destruct E as (u & s1 & E1 & E2). unfold ret in E2.
    assert (r' = r /\ s1 = s') as (-> & ->) by (split; congruence). split; [reflexivity|].
    destruct (spill_spec r s u s' m M0 L H E1 HT) as (m' & A & B & C & D & E & F & G & I). exists m'.
    split; [|split; [exact F|split; [exact G|discriminate]]]. split; try assumption.
    intros q k Hq. destruct (Z.eq_dec q r) as [->|Hn]; [congruence|]. rewrite G in Hq by exact Hn. exact Hq.
  - assert (r' = r /\ s' = s) as (-> & ->) by (split; congruence). split; [reflexivity|]. exists m.
    split; [|split; [exact Er|split; [reflexivity|auto]]]. split; auto.
    + apply trans_refl. reflexivity.
    + apply frame_refl.
Qed.

Lemma first_reg_in : forall ok rs r, first_reg ok rs = Some r -> In r rs /\ ok r = true.
Proof.
  intros ok rs r. induction rs as [|q rs IH]; intro H; [discriminate|]. cbn [first_reg] in H.
  destruct (ok q) eqn:E; [assert (q = r) by congruence; subst; split; [left; reflexivity|exact E]|].
  destruct (IH H). split; [right; assumption|assumption].
Qed.
Lemma search_order_volatile : forall n r, In r (search_order n) -> In r volatile.
Proof.
  intros n r H. unfold search_order in H. rewrite <- (firstn_skipn n volatile). apply in_app_or in H. apply in_or_app. tauto.
Qed.

Lemma allocate_spec : forall s r s' m M0 L, sim s m M0 L -> allocate_register ss s = Done (r, s') -> tsa s' <= TL ->
  exists m', spills s m s' m' M0 L /\ In r volatile /\ rmap s' r = None.
Proof.
  intros s r s' m M0 L H E HT. unfold allocate_register in E. cbv zeta in E.
  match type of E with context [in_rolling ?n s] => set (s1 := in_rolling n s) in * end.
  assert (H1 : sim s1 m M0 L) by (eapply sim_irrelevant; [| | |exact H]; reflexivity).
  destruct (first_reg _ _) as [q|] eqn:F.
  - assert (r = q /\ s' = s1) as (-> & ->) by (split; congruence). exists m. apply first_reg_in in F. destruct F as (Hq & Hok).
    split; [|split; [eapply search_order_volatile, Hq|destruct (rmap s1 q); [discriminate|reflexivity]]].
    split; auto.
    + apply trans_refl. reflexivity.
    + intros id l El _. left. exact El.
  - clear F. destruct (first_reg _ _) as [q|] eqn:F; [|discriminate]. apply first_reg_in in F. destruct F as (Hq & _).
    apply bind_inv in E. destruct E as (u & s2 & E1 & E2). unfold ret in E2.
    assert (r = q /\ s2 = s') as (-> & ->) by (split; congruence).
    destruct (spill_spec q s1 u s' m M0 L H1 E1 HT) as (m' & A & B & C & D & E & G & G' & I). exists m'.
    split; [|split; [eapply search_order_volatile, Hq|exact G]].
    split; try assumption.
    intros x k Hx. destruct (Z.eq_dec x q) as [->|Hn]; [congruence|]. rewrite G' in Hx by exact Hn. exact Hx.
Qed.

(** ** A register becomes a location *)
Lemma loaded_spec : forall r n s id s' m M0 L, sim s m M0 L -> emit_location_loaded r n s = Done (id, s') ->
  In r volatile -> is_size_P n ->
  id = length (heap s) /\ rmap s r = None /\ code s' = code s /\ tsa s' = tsa s /\
  heap s' = heap s ++ [mkloc (Loaded r) n 0 0] /\ rmap s' = (fun q => if q =? r then Some id else rmap s q) /\
  sim s' m M0 ((Rv n (regs m r mod 2 ^ (8 * n)), id, [id]) :: L).
Proof.
  intros r n s id s' m M0 L H E Hr Hn. unfold emit_location_loaded in E. destruct (rmap s r) eqn:Er; [discriminate|].
  unfold bind, obind, new, set_map, ret in E. cbn [heap rmap in_heap] in E.
  assert (id = length (heap s)) by congruence.
  match type of E with Done (_, ?x) = _ => assert (Es : s' = x) by congruence end. clear E.
  assert (Hh : heap s' = heap s ++ [mkloc (Loaded r) n 0 0]) by (rewrite Es; reflexivity).
  assert (Hm : rmap s' = fun q => if q =? r then Some id else rmap s q) by (rewrite Es, H0; reflexivity).
  split; [exact H0|]. split; [reflexivity|]. split; [rewrite Es; reflexivity|]. split; [rewrite Es; reflexivity|].
  split; [exact Hh|]. split; [exact Hm|].
  assert (Ht : tsa s' = tsa s) by (rewrite Es; reflexivity). clear Es.
  pose proof (sim_fresh _ _ _ _ H) as Hf.
  apply sim_cons.
  - eapply sim_keep; [exact H| | |].
    + destruct (sim_wf _ _ _ _ H) as [B Mp Ps R W T Mm]. split; rewrite ?Hh, ?Hm, ?Ht; try assumption.
      * destruct B as (k & Ek & Sk & Zk). exists k. split; [apply nth_error_old, Ek|auto].
      * intros q i Eq. destruct (Z.eqb_spec q r) as [->|].
        -- split; [exact Hr|]. injection Eq as <-. eexists. rewrite H0. split; [apply nth_error_new|]. split; [reflexivity|exact Hn].
        -- destruct (Mp q i Eq) as (Hv & k & Ek & Sk & Zk). split; [exact Hv|]. exists k. split; [apply nth_error_old, Ek|auto].
      * intros i k Ek. destruct (Nat.lt_ge_cases i (length (heap s))).
        -- rewrite nth_error_app1 in Ek by assumption. eapply Ps, Ek.
        -- assert (i = length (heap s)) by (apply nth_error_lt in Ek; rewrite app_length in Ek; cbn in Ek; lia).
           subst i. rewrite nth_error_new in Ek. injection Ek as <-. cbn. lia.
    + intros i Hi. destruct (sim_ids _ _ _ _ _ H Hi) as (k & Ek). exists k, k. rewrite Hh, Hm.
      split; [exact Ek|]. split; [apply nth_error_old, Ek|]. split; [reflexivity|]. left. split; [reflexivity|].
      intros q Sq Rq. split; [|reflexivity]. destruct (Z.eqb_spec q r); [congruence|exact Rq].
    + split; [lia|auto].
  - eapply HReg; [rewrite Hh, H0; apply nth_error_new|reflexivity|reflexivity|exact Hn|rewrite Hm, Z.eqb_refl; reflexivity|reflexivity].
  - constructor; [intros []|constructor].
  - intros i [<-|[]]. rewrite H0. exact Hf.
Qed.

(** ** Freeing *)
Definition clear (s : emitter) (fp : list nat) : Prop :=
  forall i l, In i fp -> nth_error (heap s) i = Some l -> l_prevent_spilling l = 0 /\ l_prevent_freeing l = 0.

(** Only locations of the footprint change; registers are only released. *)
Record freed (s s' : emitter) (m : machine) (M0 : Z -> Z) (fp : list nat) : Prop := {
  f_code : code s' = code s;
  f_tsa : tsa s' = tsa s;
  f_len : length (heap s') = length (heap s);
  f_heap : forall i, ~ In i fp -> nth_error (heap s') i = nth_error (heap s) i;
  f_map : forall q, rmap s' q = rmap s q \/ (rmap s' q = None /\ exists i, rmap s q = Some i /\ In i fp);
  f_wf : wf s' m M0;
  f_clear : clear s fp -> forall i q, In i fp -> rmap s' q <> Some i }.

Lemma freed_same : forall s m M0 fp, wf s m M0 -> (clear s fp -> forall i q, In i fp -> rmap s q <> Some i) -> freed s s m M0 fp.
Proof. intros. split; auto. Qed.

Lemma wf_free_one : forall s m M0 id l, wf s m M0 -> nth_error (heap s) id = Some l -> id <> 0%nat ->
  (forall q, rmap s q <> Some id) -> wf (in_heap (replace_nth id (with_state Freed l) (heap s)) s) m M0.
Proof.
  intros s m M0 id l [B Mp Ps R W T Mm] E N Hq. split; cbn [heap rmap tsa in_heap]; try assumption.
  - destruct B as (k & Ek & Sk & Zk). exists k. rewrite replace_diff by exact N. auto.
  - intros q i Eq. destruct (Mp q i Eq) as (Hv & k & Ek & Sk & Zk). split; [exact Hv|]. exists k.
    rewrite replace_diff; [auto|]. intros ->. apply (Hq q Eq).
  - intros i k Ek. destruct (Nat.eq_dec id i) as [<-|Hx].
    + rewrite (replace_same _ _ _ _ _ E) in Ek. assert (k = with_state Freed l) by congruence. subst k. apply (Ps _ _ E).
    + rewrite replace_diff in Ek by exact Hx. eapply Ps, Ek.
Qed.

Lemma wf_unmap : forall s m M0 r, wf s m M0 -> wf (in_map (fun q => if q =? r then None else rmap s q) s) m M0.
Proof.
  intros s m M0 r [B Mp Ps R W T Mm]. split; cbn [heap rmap tsa in_map]; try assumption.
  intros q i Eq. destruct (q =? r); [discriminate|]. apply Mp, Eq.
Qed.

Lemma unmapped : forall s m M0 id l, wf s m M0 -> nth_error (heap s) id = Some l -> (forall r, l_state l <> Loaded r) ->
  forall q, rmap s q <> Some id.
Proof.
  intros s m M0 id l W E N q Eq. destruct (wf_map _ _ _ W q id Eq) as (_ & k & Ek & Sk & _).
  assert (k = l) by congruence. subst k. apply (N q Sk).
Qed.

Lemma free_zero : forall fuel s u s', free_loc fuel 0 s = Done (u, s') -> s' = s.
Proof. intros [|fuel] s u s' E; [discriminate|]. cbn in E. unfold ret in E. congruence. Qed.

Lemma free_loc_spec : forall s m M0 o id fp, holds s m o id fp -> wf s m M0 -> NoDup fp ->
  forall fuel u s', free_loc fuel id s = Done (u, s') -> freed s s' m M0 fp.
Proof.
  intros s m M0 o id fp H W.
  assert (One : forall s1 id l, wf s1 m M0 -> nth_error (heap s1) id = Some l -> id <> 0%nat -> (forall q, rmap s1 q <> Some id) ->
     code s1 = code s -> tsa s1 = tsa s -> length (heap s1) = length (heap s) ->
     forall fp, (forall i, ~ In i fp -> nth_error (heap s1) i = nth_error (heap s) i) -> In id fp ->
     (forall q, rmap s1 q = rmap s q \/ (rmap s1 q = None /\ exists i, rmap s q = Some i /\ In i fp)) ->
     (clear s fp -> forall i q, In i fp -> rmap s1 q <> Some i) ->
     freed s (in_heap (replace_nth id (with_state Freed l) (heap s1)) s1) m M0 fp).
  { intros s1 id' l W1 E N Hq Hc Ht Hl fp' Hh Hi Hm Hcl. split; cbn [heap rmap tsa code in_heap]; auto.
    - rewrite length_replace. exact Hl.
    - intros i Ni. rewrite replace_diff; [apply Hh, Ni|]. intros ->. contradiction.
    - apply wf_free_one; assumption. }
  induction H as [|id l r n v E S Z P R V|id l t n v E S Z P T V|id l n w E S Z P
     |id l ib off n b fp E S Z H IH|id l t n k v E S Z P K T V]; intros Nd fuel u s' F.
  - assert (s' = s) by (eapply free_zero, F). subst s'. apply freed_same; [exact W|]. intros _ i q [].
  - destruct fuel as [|fuel]; [discriminate|]. cbn [free_loc] in F.
    destruct (Nat.eqb_spec id register_bp) as [Hb|Hb].
    { exfalso. eapply holds_nonzero; [exact W|eapply HReg; eassumption|]. left. exact Hb. }
    apply bind_inv in F. destruct F as (l1 & s1 & F1 & F). apply get_inv in F1. destruct F1 as (l2 & El2 & F1).
    assert (l1 = l /\ s1 = s) as (-> & ->) by (split; congruence). clear F1 l2 El2. rewrite S in F.
    destruct (negb (l_prevent_freeing l =? 0) || negb (l_prevent_spilling l =? 0)) eqn:P0.
    2: { unfold set_map, bind, obind, get, set in F. cbn [heap in_map] in F. rewrite E in F.
      assert (Es : s' = in_heap (replace_nth id (with_state Freed l) (heap (in_map (fun q => if q =? r then None else rmap s q) s)))
                        (in_map (fun q => if q =? r then None else rmap s q) s)) by congruence.
      subst s'. apply One; cbn [heap rmap code tsa in_map]; auto.
      * apply wf_unmap, W.
      * intros q. destruct (Z.eqb_spec q r); [discriminate|]. intro Eq.
        destruct (wf_map _ _ _ W q id Eq) as (_ & k & Ek & Sk & _). congruence.
      * left. reflexivity.
      * intro q. destruct (Z.eqb_spec q r) as [->|]; [right|left; reflexivity]. split; [reflexivity|]. exists id. split; [exact R|left; reflexivity].
      * intros _ i q [<-|[]]. destruct (Z.eqb_spec q r); [discriminate|]. intro Eq.
        destruct (wf_map _ _ _ W q id Eq) as (_ & k & Ek & Sk & _). congruence. }
    assert (s' = s) by (unfold ret in F; congruence). subst s'. apply freed_same; [exact W|].
      intros C. exfalso. destruct (C id l (or_introl eq_refl) E) as (C1 & C2). rewrite C1, C2 in P0. discriminate.
  - destruct fuel as [|fuel]; [discriminate|]. cbn [free_loc] in F.
    destruct (Nat.eqb_spec id register_bp) as [Hb|Hb].
    { exfalso. eapply holds_nonzero; [exact W|eapply HSlot; eassumption|]. left. exact Hb. }
    apply bind_inv in F. destruct F as (l1 & s1 & F1 & F). apply get_inv in F1. destruct F1 as (l2 & El2 & F1).
    assert (l1 = l /\ s1 = s) as (-> & ->) by (split; congruence). clear F1 l2 El2. rewrite S in F.
    assert (U : forall q, rmap s q <> Some id) by (eapply unmapped; [exact W|exact E|congruence]).
    destruct (negb (l_prevent_freeing l =? 0) || negb (l_prevent_spilling l =? 0)) eqn:P0.
    2: { apply bind_inv in F. destruct F as (u1 & s1 & F1 & F). apply bind_inv in F1. destruct F1 as (u2 & s2 & F1 & F2).
      apply free_zero in F1. subst s2. assert (s1 = s) by (unfold ret in F2; congruence). subst s1.
      unfold bind, obind, get, set in F. rewrite E in F.
      match type of F with Done (_, ?x) = _ => assert (Es : s' = x) by congruence end. subst s'. apply One; auto; try reflexivity.
      * left. reflexivity.
      * intros _ i q [<-|[]]. apply U. }
    assert (s' = s) by (unfold ret in F; congruence). subst s'. apply freed_same; [exact W|].
      intros C. exfalso. destruct (C id l (or_introl eq_refl) E) as (C1 & C2). rewrite C1, C2 in P0. discriminate.
  - destruct fuel as [|fuel]; [discriminate|]. cbn [free_loc] in F.
    destruct (Nat.eqb_spec id register_bp) as [Hb|Hb].
    { exfalso. eapply holds_nonzero; [exact W|eapply HIm; eassumption|]. left. exact Hb. }
    apply bind_inv in F. destruct F as (l1 & s1 & F1 & F). apply get_inv in F1. destruct F1 as (l2 & El2 & F1).
    assert (l1 = l /\ s1 = s) as (-> & ->) by (split; congruence). clear F1 l2 El2. rewrite S in F.
    assert (U : forall q, rmap s q <> Some id) by (eapply unmapped; [exact W|exact E|congruence]).
    destruct (negb (l_prevent_freeing l =? 0) || negb (l_prevent_spilling l =? 0)) eqn:P0.
    2: { unfold ret, bind, obind, get, set in F. rewrite E in F.
      match type of F with Done (_, ?x) = _ => assert (Es : s' = x) by congruence end. subst s'. apply One; auto; try reflexivity.
      * left. reflexivity.
      * intros _ i q [<-|[]]. apply U. }
    assert (s' = s) by (unfold ret in F; congruence). subst s'. apply freed_same; [exact W|].
      intros C. exfalso. destruct (C id l (or_introl eq_refl) E) as (C1 & C2). rewrite C1, C2 in P0. discriminate.
  - destruct fuel as [|fuel]; [discriminate|]. cbn [free_loc] in F.
    destruct (Nat.eqb_spec id register_bp) as [Hb|Hb].
    { exfalso. eapply holds_nonzero; [exact W|eapply HLv; eassumption|]. left. exact Hb. }
    inversion Nd as [|? ? Nid Nd']; subst x l0.
    apply bind_inv in F. destruct F as (l1 & s1 & F1 & F). apply get_inv in F1. destruct F1 as (l2 & El2 & F1).
    assert (l1 = l /\ s1 = s) as (-> & ->) by (split; congruence). clear F1 l2 El2. rewrite S in F.
    assert (U : forall q, rmap s q <> Some id) by (eapply unmapped; [exact W|exact E|congruence]).
    destruct (negb (l_prevent_freeing l =? 0) || negb (l_prevent_spilling l =? 0)) eqn:P0.
    2: { apply bind_inv in F. destruct F as (u1 & s1 & F1 & F). apply bind_inv in F1. destruct F1 as (u2 & s2 & F1 & F2).
      assert (s1 = s2) by (unfold ret in F2; congruence). subst s2. clear F2.
      destruct (IH Nd' _ _ _ F1) as [Fc Ft Fl Fh Fm Fw Fcl].
      unfold bind, obind, get, set in F. rewrite (Fh id Nid), E in F.
      match type of F with Done (_, ?x) = _ => assert (Es : s' = x) by congruence end. subst s'.
      assert (U1 : forall q, rmap s1 q <> Some id).
      { intros q Eq. destruct (Fm q) as [Fq|(Fq & _)]; [apply (U q); congruence|congruence]. }
      apply One; auto.
      * rewrite (Fh id Nid). exact E.
      * intros i Ni. apply Fh. intro. apply Ni. right. assumption.
      * left. reflexivity.
      * intro q. destruct (Fm q) as [Fq|(Fq & i & Ei & Hi)]; [left; exact Fq|right]. split; [exact Fq|]. exists i. split; [exact Ei|right; exact Hi].
      * intros C i q [<-|Hi]; [apply U1|]. apply Fcl; [|exact Hi]. intros j k Hj. apply C. right. exact Hj. }
    assert (s' = s) by (unfold ret in F; congruence). subst s'. apply freed_same; [exact W|].
      intros C. exfalso. destruct (C id l (or_introl eq_refl) E) as (C1 & C2). rewrite C1, C2 in P0. discriminate.
  - destruct fuel as [|fuel]; [discriminate|]. cbn [free_loc] in F.
    destruct (Nat.eqb_spec id register_bp) as [Hb|Hb].
    { exfalso. eapply holds_nonzero; [exact W|eapply HSl; eassumption|]. left. exact Hb. }
    apply bind_inv in F. destruct F as (l1 & s1 & F1 & F). apply get_inv in F1. destruct F1 as (l2 & El2 & F1).
    assert (l1 = l /\ s1 = s) as (-> & ->) by (split; congruence). clear F1 l2 El2. rewrite S in F.
    assert (U : forall q, rmap s q <> Some id) by (eapply unmapped; [exact W|exact E|congruence]).
    destruct (negb (l_prevent_freeing l =? 0) || negb (l_prevent_spilling l =? 0)) eqn:P0.
    2: { apply bind_inv in F. destruct F as (u1 & s1 & F1 & F). apply bind_inv in F1. destruct F1 as (u2 & s2 & F1 & F2).
      apply free_zero in F1. subst s2. assert (s1 = s) by (unfold ret in F2; congruence). subst s1.
      unfold bind, obind, get, set in F. rewrite E in F.
      match type of F with Done (_, ?x) = _ => assert (Es : s' = x) by congruence end. subst s'. apply One; auto; try reflexivity.
      * left. reflexivity.
      * intros _ i q [<-|[]]. apply U. }
    assert (s' = s) by (unfold ret in F; congruence). subst s'. apply freed_same; [exact W|].
      intros C. exfalso. destruct (C id l (or_introl eq_refl) E) as (C1 & C2). rewrite C1, C2 in P0. discriminate.
Qed.

Lemma free_spec : forall o id fp s u s' m M0 L, sim s m M0 ((o, id, fp) :: L) -> free_emit_location id s = Done (u, s') ->
  freed s s' m M0 fp /\ sim s' m M0 L /\ frame s s' fp /\ trans s m s' m.
Proof.
  intros o id fp s u s' m M0 L H F.
  assert (Nd : NoDup fp /\ forall i, In i fp -> ~ In i (concat (map snd L))).
  { destruct H as [_ _ N]. cbn in N. destruct (NoDup_app_elim _ _ _ N) as (N1 & _ & D). auto. }
  destruct Nd as (Nd & D).
  assert (G : freed s s' m M0 fp) by (eapply free_loc_spec; [eapply sim_head, H|apply H|exact Nd|exact F]).
  split; [exact G|]. destruct G as [Fc Ft Fl Fh Fm Fw _]. split; [|split].
  - eapply sim_keep; [eapply sim_drop, H|exact Fw| |].
    + intros i Hi. destruct (sim_ids _ _ _ _ _ (sim_drop _ _ _ _ _ H) Hi) as (k & Ek).
      assert (Ni : ~ In i fp) by (intro Hx; apply (D i Hx Hi)).
      exists k, k. split; [exact Ek|]. split; [rewrite Fh by exact Ni; exact Ek|]. split; [reflexivity|]. left. split; [reflexivity|].
      intros q Sq Rq. split; [|reflexivity]. destruct (Fm q) as [->|(_ & j & Ej & Hj)]; [exact Rq|]. assert (j = i) by congruence. subst. contradiction.
    + split; [lia|auto].
  - intros i l E Ni. left. rewrite Fh by exact Ni. exact E.
  - apply trans_refl. exact Fc.
Qed.

(** ** Values *)
(** [M0] is the memory outside the temporary slots. *)
Fixpoint val (M0 : Z -> Z) (o : op) : Z :=
  match o with
  | Rv n v => v
  | Im n w => w mod 2 ^ (8 * n)
  | Bp => bpv
  | Lv b off n => load (Z.to_nat n) M0 (wrapu 64 (val M0 b + off))
  | Sl n k v => v mod 2 ^ (8 * n)
  end.
(** An access of [n] bytes at [a] that does not touch the temporary slots. *)
Definition outside (a n : Z) : Prop := forall i, 0 <= i < n -> ~ spill_area (wrapu 64 (a + i)).
Fixpoint good (M0 : Z -> Z) (o : op) : Prop :=
  match o with
  | Lv b off n => good M0 b /\ osize b = 8 /\ outside (val M0 b + off) n
  | Sl n k v => n <= k
  | _ => True
  end.
Definition loaded (M0 : Z -> Z) (o : op) : op := match o with Bp => Bp | _ => Rv (osize o) (val M0 o) end.

Lemma val_loaded : forall M0 o, val M0 (loaded M0 o) = val M0 o.
Proof. intros M0 []; reflexivity. Qed.
Lemma osize_loaded : forall M0 o, osize (loaded M0 o) = osize o.
Proof. intros M0 []; reflexivity. Qed.

Lemma outside_load : forall s m M0 a n, wf s m M0 -> outside a n -> 0 <= n -> load (Z.to_nat n) (mem m) (wrapu 64 a) = load (Z.to_nat n) M0 (wrapu 64 a).
Proof.
  intros s m M0 a n W Ho Hn. rewrite !load_wrap. apply load_agree. intros i Hi. apply (wf_mem _ _ _ W). apply Ho. lia.
Qed.

(** The location [id] is register [r], of [n] bytes. *)
Definition in_reg (s : emitter) (id : nat) (r n : Z) : Prop :=
  exists l, nth_error (heap s) id = Some l /\ l_state l = Loaded r /\ l_size l = n.

(** A loaded operand sits in its register. *)
Lemma holds_loaded : forall s m M0 o id fp r l, holds s m o id fp -> wf s m M0 -> nth_error (heap s) id = Some l -> l_state l = Loaded r ->
  l_size l = osize o /\ is_size_P (osize o) /\ regs m r mod 2 ^ (8 * osize o) = val M0 o /\
  (o = Bp /\ r = 5 /\ id = 0%nat /\ fp = [] \/ (exists v, o = Rv (osize o) v) /\ In r volatile /\ rmap s r = Some id /\ fp = [id]).
Proof.
  intros s m M0 o id fp r l H W E S.
  destruct H as [|id l0 q n v E0 S0 Z P R V|id l0 t n v E0 S0 Z P T V|id l0 n w E0 S0 Z P
     |id l0 ib off n b fp E0 S0 Z H|id l0 t n k v E0 S0 Z P K T V]; try (assert (l0 = l) by congruence; subst l0); try congruence.
  - destruct (wf_bp _ _ _ W) as (l0 & E0 & S0 & Z0). assert (l0 = l) by congruence. subst l0. assert (r = 5) by congruence. subst r.
    split; [exact Z0|]. split; [unfold is_size_P; cbn; lia|]. split; [|left; auto].
    cbn [osize val]. rewrite (wf_regs _ _ _ W 5) by (cbn; lia). fold bpv. apply Z.mod_small. change (8 * 8) with 64. lia.
  - assert (q = r) by congruence. subst q. split; [exact Z|]. split; [exact P|]. split; [exact V|]. right.
    split; [exists v; reflexivity|]. split; [apply (wf_map _ _ _ W r id R)|auto].
Qed.

(** A memory operand: where its base is. *)
Lemma holds_relative : forall s m o id fp l ib idx sc off, holds s m o id fp -> nth_error (heap s) id = Some l ->
  l_state l = RegRel ib idx sc off -> id <> 0%nat ->
  idx = None /\ sc = 0 /\ l_size l = osize o /\
  exists b fpb, holds s m b ib fpb /\ fp = id :: fpb /\
    ((exists n, o = Lv b off n) \/
     (b = Bp /\ exists t k v, off = - (ss + t) /\ is_size_P k /\ k <= t <= tsa s /\ load (Z.to_nat k) (mem m) (bpv - ss - t) = v /\
        (o = Rv k v \/ exists n, o = Sl n k v))).
Proof.
  intros s m o id fp l ib idx sc off H E S N0.
  destruct H as [|id l0 q n v E0 S0 Z P R V|id l0 t n v E0 S0 Z P T V|id l0 n w E0 S0 Z P
     |id l0 ib' off' n b fp E0 S0 Z H|id l0 t n k v E0 S0 Z P K T V]; try (assert (l0 = l) by congruence; subst l0); try congruence.
  - rewrite S in S0. injection S0 as -> -> -> ->. repeat (split; [reflexivity || assumption|]). exists Bp, [].
    split; [constructor|]. split; [reflexivity|]. right. split; [reflexivity|]. exists t, n, v. auto 10.
  - rewrite S in S0. injection S0 as -> -> -> ->. repeat (split; [reflexivity || assumption|]). exists b, fp.
    split; [exact H|]. split; [reflexivity|]. left. exists n. reflexivity.
  - rewrite S in S0. injection S0 as -> -> -> ->. repeat (split; [reflexivity || assumption|]). exists Bp, [].
    split; [constructor|]. split; [reflexivity|]. right. split; [reflexivity|]. exists t, k, v. eauto 10.
Qed.
(** Changing a location nothing depends on. *)
Lemma sim_set : forall s m M0 L id l', sim s m M0 L -> ~ In id (concat (map snd L)) -> id <> 0%nat ->
  (forall q, rmap s q <> Some id) -> 0 <= l_prevent_spilling l' -> 0 <= l_prevent_freeing l' ->
  sim (in_heap (replace_nth id l' (heap s)) s) m M0 L.
Proof.
  intros s m M0 L id l' H Ni N0 U Hp Hf.
  destruct (nth_error (heap s) id) as [l|] eqn:E.
  2: { replace (replace_nth id l' (heap s)) with (heap s); [rewrite in_heap_same; exact H|].
       revert E. generalize (heap s) as h. clear. intro h. revert id. induction h as [|x h IH]; intros [|id] E; cbn in *; try discriminate; try reflexivity.
       f_equal. apply IH, E. }
  eapply sim_keep; [exact H| | |].
  - destruct (sim_wf _ _ _ _ H) as [B Mp Ps R W T Mm]. split; cbn [heap rmap tsa in_heap]; try assumption.
    + destruct B as (k & Ek & Sk & Zk). exists k. rewrite replace_diff by exact N0. auto.
    + intros r i Er. destruct (Mp r i Er) as (Hv & k & Ek & Sk & Zk). split; [exact Hv|]. exists k.
      rewrite replace_diff; [auto|]. intros ->. apply (U r Er).
    + intros i k Ek. destruct (Nat.eq_dec id i) as [<-|Hn].
      * rewrite (replace_same _ _ _ _ _ E) in Ek. assert (k = l') by congruence. subst k. auto.
      * rewrite replace_diff in Ek by exact Hn. eapply Ps, Ek.
  - intros i Hi. destruct (sim_ids _ _ _ _ _ H Hi) as (k & Ek). exists k, k. cbn [heap rmap in_heap].
    split; [exact Ek|]. split; [rewrite replace_diff; [exact Ek|congruence]|]. split; [reflexivity|]. left. auto.
  - split; [cbn; lia|auto].
Qed.

(** The base of a memory operand as an operand of its own. *)
Lemma sim_base : forall s m M0 L o id b ib fpb, sim s m M0 ((o, id, id :: fpb) :: L) -> holds s m b ib fpb ->
  sim s m M0 ((b, ib, fpb) :: L) /\ ~ In id fpb /\ ~ In id (concat (map snd L)).
Proof.
  intros s m M0 L o id b ib fpb H Hb. pose proof (sim_drop _ _ _ _ _ H) as H'.
  destruct H as [_ _ N]. cbn in N. inversion N as [|? ? Nid N']; subst. destruct (NoDup_app_elim _ _ _ N') as (N1 & N2 & D).
  split; [apply sim_cons; assumption|]. split; intro Hi; apply Nid, in_or_app; [left|right]; exact Hi.
Qed.

Lemma clear_sub : forall s f g, clear s f -> (forall i, In i g -> In i f) -> clear s g.
Proof. intros s f g C H i l Hi. apply C, H, Hi. Qed.

Definition ready (s : emitter) (id : nat) : Prop := exists r n, in_reg s id r n.

(** What loading an operand guarantees. *)
Definition loads (s : emitter) (m : machine) (s' : emitter) (m' : machine) (M0 : Z -> Z) (L : list item)
                 (fp : list nat) (id id' : nat) (o' : op) : Prop :=
  exists fp', sim s' m' M0 ((o', id', fp') :: L) /\ trans s m s' m' /\ frame s s' fp /\
   (exists r, in_reg s' id' r (osize o')) /\
   (forall q k, rmap s' q = Some k -> rmap s q = Some k \/ In k fp') /\
   (clear s fp -> clear s' fp') /\
   (ready s id /\ id' = id /\ s' = s /\ m' = m /\ fp' = fp \/ (length (heap s) <= id')%nat).


(** A location that cannot be spilled. *)
Definition pinned (s : emitter) (id : nat) : Prop :=
  id = 0%nat \/ exists l r, nth_error (heap s) id = Some l /\ l_state l = Loaded r /\ l_prevent_spilling l <> 0.
(** Nothing of the operand is locked, or the base is. *)
Definition loadable (s : emitter) (id : nat) (fp : list nat) : Prop :=
  clear s fp \/ exists l, nth_error (heap s) id = Some l /\
    match l_state l with RegRel ib _ _ _ => pinned s ib | _ => True end.

Lemma pinned_ready : forall s m M0 id, wf s m M0 -> pinned s id -> ready s id.
Proof.
  intros s m M0 id W [->|(l & r & E & S & _)].
  - destruct (wf_bp _ _ _ W) as (l & E & S & Z). exists 5, 8, l. auto.
  - exists r, (l_size l), l. auto.
Qed.
Lemma ready_loadable : forall s id fp, ready s id -> loadable s id fp.
Proof. intros s id fp (r & n & l & E & S & _). right. exists l. rewrite S. auto. Qed.

Definition load_ok (load : nat -> M nat) : Prop := forall s m M0 L o id fp id' s',
  sim s m M0 ((o, id, fp) :: L) -> loadable s id fp -> good M0 o -> load id s = Done (id', s') -> tsa s' <= TL ->
  exists m', loads s m s' m' M0 L fp id id' (loaded M0 o) /\ (ready s id -> id' = id /\ s' = s /\ m' = m).

Definition reloaded (M0 : Z -> Z) (o : op) : op := match o with Lv b off n => Lv (loaded M0 b) off n | _ => o end.
(** The low [k] bytes of a memory operand. *)
Definition peek (M0 : Z -> Z) (o : op) (k : Z) : Z :=
  match o with
  | Lv b off _ => load (Z.to_nat k) M0 (wrapu 64 (val M0 b + off))
  | _ => val M0 o mod 2 ^ (8 * k)
  end.
Definition readable (M0 : Z -> Z) (o : op) (k : Z) : Prop :=
  match o with
  | Lv b off _ => outside (val M0 b + off) k
  | Rv n _ => k <= n
  | Sl n k0 _ => k <= k0 /\ k <= n
  | _ => False
  end.
Definition base_of (o : op) : op := match o with Lv b _ _ => b | _ => Bp end.

Lemma base_address : forall t, 0 <= t <= TL -> wrapu 64 (bpv + - (ss + t)) = bpv - ss - t.
Proof. intros t Ht. rewrite wrapu_id by lia. lia. Qed.

Lemma emit_rr_done' : forall p opc reg base index scale disp size imm r,
  emit_register_relative p opc reg (mkmem base index scale disp false size) imm = Done r -> is_s32 disp.
Proof.
  intros p opc reg base index scale disp size imm r. unfold emit_register_relative.
  cbn [m_ir m_offset negb andb]. unfold is_s32.
  destruct ((disp >? 2147483647) || (disp <? -2147483648)) eqn:E; [discriminate|].
  intros _. apply orb_false_iff in E. lia.
Qed.

Lemma rr_spec : forall ld p opc reg id imm s u s' m M0 L o fp l ib idx sc off,
  load_ok ld -> (forall id, quiet (ld id)) -> sim s m M0 ((o, id, fp) :: L) ->
  nth_error (heap s) id = Some l -> l_state l = RegRel ib idx sc off ->
  clear s fp \/ ready s ib -> good M0 (base_of o) -> osize (base_of o) = 8 ->
  register_relative_with ld p opc reg id imm s = Done (u, s') -> tsa s' <= TL ->
  exists m1 s1 rb bs fp1,
    trans s m s1 m1 /\ sim s1 m1 M0 ((reloaded M0 o, id, fp1) :: L) /\ frame s s1 fp /\
    (exists ib', nth_error (heap s1) id = Some (with_state (RegRel ib' None 0 off) l)) /\
    emit_register_relative p opc reg (mkmem rb INVALID_REGISTER 0 off false (osize o)) imm = Done bs /\
    is_size_P (osize o) /\
    s' = in_code (code s1 ++ fst bs) s1 /\ (rb = 5 \/ In rb volatile) /\
    regs m1 rb = val M0 (base_of o) /\ is_s32 off /\
    (forall k, 0 < k <= 8 -> readable M0 o k -> load (Z.to_nat k) (mem m1) (wrapu 64 (regs m1 rb + off)) = peek M0 o k) /\
    (forall q k, rmap s1 q = Some k -> rmap s q = Some k \/ In k fp1) /\
    (clear s fp -> clear s1 fp1) /\
    (forall i, In i fp1 -> In i fp \/ (length (heap s) <= i)%nat) /\ In id fp1 /\
    (ready s ib -> m1 = m /\ s1 = s /\ fp1 = fp).
Proof.
  intros ld p opc reg id imm s u s' m M0 L o fp l ib idx sc off Hld Hq H E S Hc Hg Ho8 R HT.
  pose proof (sim_wf _ _ _ _ H) as W. pose proof (sim_head _ _ _ _ _ _ _ H) as Hh.
  assert (N0 : id <> 0%nat). { intros ->. destruct (wf_bp _ _ _ W) as (k & Ek & Sk & _). congruence. }
  destruct (holds_relative _ _ _ _ _ _ _ _ _ _ Hh E S N0) as (-> & -> & Hsz & b & fpb & Hb & -> & Hcase).
  assert (Eb : base_of o = b).
  { destruct Hcase as [(n & ->)|(-> & t & k & v & _ & _ & _ & _ & [->|(n & ->)])]; reflexivity. }
  rewrite Eb in Hg, Ho8.
  destruct (sim_base _ _ _ _ _ _ _ _ _ H Hb) as (HB & Nid & NidL).
  assert (U : forall q, rmap s q <> Some id) by (eapply unmapped; [exact W|exact E|congruence]).
  unfold register_relative_with in R. unbind R l1 s1 R1. apply get_inv' in R1. destruct R1 as (E1 & ->).
  assert (l1 = l) by congruence. subst l1. clear E1. rewrite S in R.
  unbind R u1 s1 R1. apply assertion_inv' in R1. destruct R1 as (Hn & ->). apply is_size_spec in Hn.
  unbind R u2 s5 R1. unfold prevent_spilling_with in R1.
  unbind R1 u3 s1 R2. apply modify_inv in R2. destruct R2 as (l1 & E1 & Es1).
  assert (l1 = l) by congruence. subst l1. clear E1.
  unbind R1 l1 s2 R2. apply get_inv' in R2. destruct R2 as (E1 & Ex). subst s2.
  assert (E1' : nth_error (heap s1) id = Some (with_ps 1 l)) by (rewrite Es1; eapply replace_same; exact E).
  assert (l1 = with_ps 1 l) by congruence. subst l1. clear E1.
  change (l_state (with_ps 1 l)) with (l_state l) in R1. rewrite S in R1.
  unbind R1 ib' sb R2. unbind R1 u4 s3 R3. unbind R1 u5 s4 R4. apply ret_inv in R1. destruct R1 as (_ & ->).
  (* the rest of the run *)
  unbind R u6 s6 R5. unfold allow_spilling in R5. unbind R5 u7 s7 R6. unbind R5 l7 s8 R7.
  apply get_inv' in R7. destruct R7 as (E7 & Ex). subst s8.
  unbind R l6 s8 R8. apply get_inv' in R8. destruct R8 as (E6 & Ex). subst s8.
  assert (Hpsl : 0 <= l_prevent_spilling l /\ 0 <= l_prevent_freeing l) by (apply (wf_ps _ _ _ W id l E)).
  (* loading the base *)
  assert (HB1 : sim s1 m M0 ((b, ib, fpb) :: L)).
  { rewrite Es1. eapply sim_locks; [exact HB|exact E|split; reflexivity|cbn; lia|cbn; lia]. }
  assert (Hheap1 : forall i, i <> id -> nth_error (heap s1) i = nth_error (heap s) i).
  { intros i Hi. rewrite Es1. cbn. apply replace_diff. congruence. }
  assert (Hready : ready s ib -> ready s1 ib).
  { intros (r & n & k & Ek & Sk & Zk). exists r, n, k. rewrite Hheap1; [auto|]. intros ->. congruence. }
  assert (HC1 : loadable s1 ib fpb).
  { destruct Hc as [Hc|Hc]; [left|apply ready_loadable, Hready, Hc]. intros i k Hi Ek. rewrite Hheap1 in Ek by congruence.
    apply (Hc i k); [right; exact Hi|exact Ek]. }
  assert (HTb : tsa sb <= TL).
  { assert (tsa s3 = tsa sb) by (apply modify_inv in R3; destruct R3 as (? & _ & ->); reflexivity).
    assert (tsa s4 = tsa s3) by (apply modify_inv in R4; destruct R4 as (? & _ & ->); reflexivity).
    assert (tsa s7 = tsa s4) by (apply unlock_inv in R6; destruct R6 as (? & _ & _ & ->); reflexivity).
    assert (tsa s6 = tsa s7).
    { destruct (l_state l7) as [|?|bb ii ? ?| |] in R5; try (apply ret_inv in R5; destruct R5 as (_ & ->); reflexivity).
      unbind R5 u8 s9 R9. apply unlock_inv in R9. destruct R9 as (? & _ & _ & ->).
      destruct ii; [apply unlock_inv in R5; destruct R5 as (? & _ & _ & ->)|apply ret_inv in R5; destruct R5 as (_ & ->)]; reflexivity. }
    assert (tsa s6 <= tsa s').
    { assert (Q : quiet (match l_state l6 with
              | RegRel base index sc off =>
                b <- loaded_register base ;;
                i <- match index with None => ret INVALID_REGISTER | Some i => loaded_register i end ;;
                assertion (match imm with Some (n, _) => n <=? l_size l6 | None => true end) ;;;
                bs <- lift (emit_register_relative p opc reg (mkmem b i sc off false (l_size l6)) imm) ;;
                out (fst bs)
              | _ => crash end)) by quiet_auto.
      eapply q_tsa, (Q _ _ _ R). }
    lia. }
  destruct (Hld _ _ _ _ _ _ _ _ _ HB1 HC1 Hg R2 HTb) as (m1 & (fpb' & Hsb & Htr & Hfr & (rb & Hrb) & Hmap & Hclr & Hid) & Hrd).
  assert (Nid' : ib' <> id).
  { destruct Hid as [(_ & -> & _ & _ & ->)|Hge].
    - destruct (holds_id _ _ _ _ _ Hb) as [(_ & -> & _)|(_ & Hi)]; congruence.
    - apply nth_error_lt in E1'. lia. }
  assert (Eidb : nth_error (heap sb) id = Some (with_ps 1 l)).
  { eapply frame_unloaded; [exact Hfr|exact E1'|exact Nid|]. cbn. congruence. }
  destruct Hrb as (lb & Elb & Slb & Zlb).
  set (l' := with_state (RegRel ib' None 0 off) l).
  apply modify_inv in R3. destruct R3 as (la & Ea & Es3). assert (la = with_ps 1 l) by congruence. subst la. clear Ea.
  change (l_state (with_ps 1 l)) with (l_state l) in Es3. rewrite S in Es3.
  change (with_state (RegRel ib' None 0 off) (with_ps 1 l)) with (with_ps 1 l') in Es3.
  apply modify_inv in R4. destruct R4 as (la & Ea & Es4). rewrite Es3 in Ea. cbn [heap in_heap] in Ea.
  rewrite replace_diff in Ea by congruence. assert (la = lb) by congruence. subst la. clear Ea.
  rewrite Es3 in Es4. cbn [heap in_heap] in Es4.
  apply unlock_inv in R6. destruct R6 as (la & Ea & _ & Es7). rewrite Es4 in Ea. cbn [heap in_heap] in Ea.
  rewrite replace_diff in Ea by congruence. rewrite (replace_same _ _ _ _ _ Eidb) in Ea.
  assert (la = with_ps 1 l') by congruence. subst la. clear Ea.
  rewrite Es4 in Es7. cbn [heap in_heap] in Es7. rewrite with_ps_back in Es7.
  rewrite (replace_comm _ _ id ib') in Es7 by congruence. rewrite replace_replace in Es7.
  rewrite Es7 in E7. cbn [heap in_heap] in E7. rewrite replace_diff in E7 by congruence.
  rewrite (replace_same _ _ _ _ _ Eidb) in E7. assert (l7 = l') by congruence. subst l7. clear E7.
  change (l_state l') with (RegRel ib' None 0 off) in R5. cbv iota in R5.
  unbind R5 u8 s9 R9. apply unlock_inv in R9. destruct R9 as (la & Ea & _ & Es9).
  rewrite Es7 in Ea. cbn [heap in_heap] in Ea. rewrite (replace_comm _ _ ib' id) in Ea by congruence.
  rewrite replace_diff in Ea by congruence. rewrite (replace_same _ _ _ _ _ Elb) in Ea.
  assert (la = with_ps 1 lb) by congruence. subst la. clear Ea.
  rewrite Es7 in Es9. cbn [heap in_heap] in Es9. rewrite with_ps_back, replace_replace in Es9.
  rewrite (replace_comm _ _ ib' id) in Es9 by congruence. rewrite (replace_id _ _ _ _ Elb) in Es9.
  apply ret_inv in R5. destruct R5 as (_ & ->).
  assert (Es6 : s9 = in_heap (replace_nth id l' (heap sb)) sb) by (rewrite Es9; reflexivity). clear Es9 Es7 Es4 Es3 s7 s4 s3.
  assert (E6' : nth_error (heap s9) id = Some l') by (rewrite Es6; cbn; eapply replace_same; exact Eidb).
  assert (l6 = l') by congruence. subst l6. clear E6.
  change (l_state l') with (RegRel ib' None 0 off) in R. cbv iota in R.
  change (l_size l') with (l_size l) in R.
  unbind R rb' s10 R10. apply loaded_register_inv in R10. destruct R10 as (-> & lb' & Elb' & Slb').
  assert (rb' = rb).
  { rewrite Es6 in Elb'. cbn [heap in_heap] in Elb'. rewrite replace_diff in Elb' by congruence. congruence. }
  subst rb'. clear lb' Elb' Slb'.
  unbind R r0 s10 R10. apply ret_inv in R10. destruct R10 as (-> & ->).
  unbind R u9 s10 R10. apply assertion_inv' in R10. destruct R10 as (_ & ->).
  unbind R bs s10 R10. apply lift_inv' in R10. destruct R10 as (Hbs & ->). apply out_inv in R.
  pose proof (sim_wf _ _ _ _ Hsb) as Wb.
  assert (Hv8 : regs m1 rb = val M0 b).
  { destruct (holds_loaded _ _ _ _ _ _ _ _ (sim_head _ _ _ _ _ _ _ Hsb) Wb Elb Slb) as (_ & _ & Hv & _).
    rewrite osize_loaded, Ho8, val_loaded in Hv. rewrite Z.mod_small in Hv; [exact Hv|]. apply (wf_word _ _ _ Wb rb). }
  assert (Hrbv : rb = 5 \/ In rb volatile).
  { destruct (holds_loaded _ _ _ _ _ _ _ _ (sim_head _ _ _ _ _ _ _ Hsb) Wb Elb Slb) as (_ & _ & _ & [(_ & -> & _)|(_ & Hv & _)]); auto. }
  assert (NidL' : ~ In id (concat (map snd ((loaded M0 b, ib', fpb') :: L)))).
  { cbn. intro Hi. apply in_app_or in Hi. destruct Hi as [Hi|Hi]; [|contradiction].
    destruct Hid as [(_ & _ & _ & _ & ->)|Hge]; [contradiction|].
    destruct (holds_loaded _ _ _ _ _ _ _ _ (sim_head _ _ _ _ _ _ _ Hsb) Wb Elb Slb) as (_ & _ & _ & [(_ & _ & _ & ->)|(_ & _ & _ & ->)]);
      [destruct Hi|destruct Hi as [Hi|[]]; congruence]. }
  assert (Ub : forall q, rmap sb q <> Some id) by (eapply unmapped; [exact Wb|exact Eidb|cbn; congruence]).
  assert (Hs9 : sim s9 m1 M0 ((loaded M0 b, ib', fpb') :: L)).
  { rewrite Es6. apply sim_set; [exact Hsb|exact NidL'|exact N0|exact Ub|cbn; lia|cbn; lia]. }
  (* what the operand is now *)
  assert (Hslot : forall t k v, off = - (ss + t) -> b = Bp -> is_size_P k -> k <= t <= tsa s -> load (Z.to_nat k) (mem m) (bpv - ss - t) = v ->
     ib' = 0%nat /\ sb = s1 /\ m1 = m /\ fpb' = [] /\ rb = 5).
  { intros t k v _ -> _ _ _. inversion Hb; subst ib fpb.
    assert (R0 : ready s1 0%nat).
    { destruct (wf_bp _ _ _ W) as (k0 & Ek0 & Sk0 & Zk0). exists 5, 8, k0. rewrite Hheap1; [auto|congruence]. }
    destruct (Hrd R0) as (-> & -> & ->).
    destruct (holds_loaded _ _ _ _ _ _ _ _ (sim_head _ _ _ _ _ _ _ Hsb) Wb Elb Slb) as (_ & _ & _ & [(_ & A & B & C)|(A & _)]).
    - auto.
    - destruct A as (x & A). discriminate. }
  assert (Hnew : holds s9 m1 (reloaded M0 o) id (id :: fpb')).
  { destruct Hcase as [(n & ->)|(-> & t & k & v & Ho & Hk & Ht & Hv & Hoo)].
    - cbn [reloaded]. eapply HLv; [exact E6'|reflexivity|exact Hsz|apply (sim_head _ _ _ _ _ _ _ Hs9)].
    - destruct (Hslot t k v Ho eq_refl Hk Ht Hv) as (-> & -> & -> & -> & ->).
      assert (Ht9 : tsa s9 = tsa s) by (rewrite Es6, Es1; reflexivity).
      destruct Hoo as [->|(n & ->)]; cbn [reloaded].
      + eapply HSlot; [exact E6'|cbn; rewrite Ho; reflexivity|exact Hsz|exact Hk|lia|exact Hv].
      + eapply HSl; [exact E6'|cbn; rewrite Ho; reflexivity|exact Hsz| |exact Hk|lia|exact Hv]. change (osize (Sl n k v)) with n in Hsz. rewrite <- Hsz. exact Hn. }
  exists m1, s9, rb, bs, (id :: fpb').
  assert (Htr9 : trans s m s9 m1).
  { destruct Htr as (x & Ex & Rx). exists x. split; [|exact Rx]. rewrite Es6. cbn [code in_heap]. rewrite Ex, Es1. reflexivity. }
  split; [exact Htr9|]. split.
  { apply sim_cons; [eapply sim_drop, Hs9|exact Hnew| |].
    - destruct Hs9 as [_ _ N]. cbn in N. destruct (NoDup_app_elim _ _ _ N) as (N1 & _ & _). constructor; [|exact N1].
      intro Hi. apply NidL'. cbn. apply in_or_app. left. exact Hi.
    - destruct Hs9 as [_ _ N]. cbn in N. destruct (NoDup_app_elim _ _ _ N) as (_ & _ & D). intros i [<-|Hi]; [exact NidL|apply D, Hi]. }
  split.
  { intros i k Ek Ni. assert (Hi : i <> id) by (intro; apply Ni; left; congruence).
    assert (Ek1 : nth_error (heap s1) i = Some k) by (rewrite Hheap1 by exact Hi; exact Ek).
    assert (Ni' : ~ In i fpb) by (intro; apply Ni; right; assumption).
    assert (G : forall x, nth_error (heap sb) i = x -> nth_error (heap s9) i = x).
    { intros x Hx. rewrite Es6. cbn. rewrite replace_diff by congruence. exact Hx. }
    destruct (Hfr i k Ek1 Ni') as [Hk|(P & r & t & Sr & Hk)]; [left; apply G, Hk|right]. split; [exact P|]. exists r, t. split; [exact Sr|apply G, Hk]. }
  split; [exists ib'; exact E6'|]. rewrite <- Hsz. split; [exact Hbs|]. split; [exact Hn|]. split; [exact R|]. split; [exact Hrbv|].
  rewrite Eb. split; [exact Hv8|]. split; [exact (emit_rr_done' _ _ _ _ _ _ _ _ _ _ Hbs)|]. split.
  { intros k Hk Hr. rewrite Hv8. destruct Hcase as [(n & ->)|(-> & t & k0 & v & Ho & Hk0 & Ht & Hv & Hoo)].
    - cbn [peek readable] in *. apply (outside_load s9 m1); [apply Hs9|exact Hr|lia].
    - destruct (Hslot t k0 v Ho eq_refl Hk0 Ht Hv) as (-> & -> & -> & -> & ->).
      pose proof (wf_tsa _ _ _ W) as HT0. cbn [val]. rewrite Ho, base_address by (unfold is_size_P in Hk0; lia).
      assert (Hkk : k <= k0 /\ peek M0 o k = v mod 2 ^ (8 * k)).
      { destruct Hoo as [->|(n & ->)]; cbn [peek readable val] in *; [split; [exact Hr|reflexivity]|]. destruct Hr as (Hr & Hr'). split; [exact Hr|].
        apply mod_le with (n := 8 * n); [lia|]. apply Z.mod_mod. pose proof (pow2_pos (8 * n) ltac:(lia)). lia. }
      destruct Hkk as (Hkk & ->). rewrite <- Hv.
      replace (8 * k) with (8 * Z.of_nat (Z.to_nat k)) by lia.
      rewrite load_prefix by lia. reflexivity. }
  split.
  { intros q k Ek. rewrite Es6 in Ek. cbn [rmap in_heap] in Ek. destruct (Hmap q k Ek) as [Hx|Hx]; [left; rewrite Es1 in Hx; exact Hx|right; right; exact Hx]. }
  split.
  { intros C i k [<-|Hi] Ek.
    - assert (k = l') by congruence. subst k. cbn. apply (C id l); [left; reflexivity|exact E].
    - assert (Hi' : i <> id) by (intros ->; apply NidL'; cbn; apply in_or_app; left; exact Hi).
      rewrite Es6 in Ek. cbn [heap in_heap] in Ek. rewrite replace_diff in Ek by congruence.
      apply (Hclr) with (i := i); [|exact Hi|exact Ek]. intros j x Hj Ej. rewrite Hheap1 in Ej by congruence.
      apply (C j x); [right; exact Hj|exact Ej]. }
  split.
  { intros i [<-|Hi]; [left; left; reflexivity|]. destruct Hid as [(_ & _ & _ & _ & ->)|Hge]; [left; right; exact Hi|].
    destruct (holds_loaded _ _ _ _ _ _ _ _ (sim_head _ _ _ _ _ _ _ Hsb) Wb Elb Slb) as (_ & _ & _ & [(_ & _ & _ & ->)|(_ & _ & _ & ->)]);
      [destruct Hi|]. destruct Hi as [<-|[]]. right. rewrite Es1 in Hge. cbn in Hge. rewrite length_replace in Hge. exact Hge. }
  split; [left; reflexivity|].
  intro Hrs. destruct (Hrd (Hready Hrs)) as (-> & -> & ->). split; [reflexivity|]. split.
  - rewrite Es6, Es1. cbn. rewrite replace_replace. unfold l'.
    replace (with_state (RegRel ib None 0 off) l) with l by (destruct l; cbn in *; unfold with_state; cbn; congruence).
    rewrite (replace_id _ _ _ _ E). destruct s. reflexivity.
  - destruct Hid as [(_ & _ & _ & _ & ->)|Hge]; [reflexivity|].
    destruct (holds_id _ _ _ _ _ Hb) as [(_ & -> & ->)|(_ & Hi)].
    + f_equal. destruct (holds_loaded _ _ _ _ _ _ _ _ (sim_head _ _ _ _ _ _ _ Hsb) Wb Elb Slb) as (_ & _ & _ & [(_ & _ & _ & ->)|(_ & _ & X & _)]); [reflexivity|].
      apply (wf_map _ _ _ Wb) in X. destruct X as (Xv & k & Ek & Sk & _). destruct (wf_bp _ _ _ Wb) as (k' & Ek' & Sk' & _).
      assert (rb = 5) by congruence. subst rb. cbn in Xv. lia.
    + apply nth_error_lt in Elb. lia.
Qed.
(** ** Loading *)
Lemma wrote_narrow : forall m m' r n k v, wrote m m' r n v -> 0 < k <= n -> (4 <= k -> k = n) -> wrote m m' r k v.
Proof.
  intros m m' r n k v [A B C D E] Hk H4. split; auto.
  - eapply mod_le; [|exact B]. lia.
  - intro H. rewrite (H4 H). apply C. rewrite <- (H4 H). exact H.
Qed.

Lemma requested_1 : forall mp o reg base hi rm, requested no_prefix mp o reg base hi 1 rm = requested no_prefix mp o reg base hi 4 rm.
Proof. reflexivity. Qed.

(** [xor r, r], also when 0x33 is used for a single byte. *)
Lemma I_xor_self : forall bs r n m, emitted bs (requested no_prefix 0 0x33 r r false n (RmReg r)) [] -> is_size_P n -> plain_reg r ->
  exists m', runs bs m m' /\ wrote m m' r n 0.
Proof.
  intros bs r n m He Hn Hr.
  assert (G : forall k, k = 2 \/ k = 4 \/ k = 8 -> emitted bs (requested no_prefix 0 0x33 r r false k (RmReg r)) [] ->
     exists m', runs bs m m' /\ wrote m m' r k 0).
  { intros k Hk Hek.
    destruct (I_alu bs 6 r r false k (RmReg r) m (Z.lxor (regs m r mod 2 ^ (8 * k)) (regs m r mod 2 ^ (8 * k)))
                (result_flags (8 * k) (Z.lxor (regs m r mod 2 ^ (8 * k)) (regs m r mod 2 ^ (8 * k))) false false)) as (m' & R & Wr & _).
    - replace (op8 k (8 * 6 + 2)) with 0x33 by (unfold op8; destruct (Z.eqb_spec k 1); [lia|reflexivity]). exact Hek.
    - auto.
    - unfold is_size_P. lia.
    - exact Hr.
    - exact Hr.
    - reflexivity.
    - exists m'. split; [exact R|]. rewrite Z.lxor_nilpotent in Wr. exact Wr. }
  destruct Hn as [->|Hn].
  - destruct (G 4 ltac:(lia)) as (m' & R & Wr); [rewrite <- requested_1; exact He|].
    exists m'. split; [exact R|]. eapply wrote_narrow; [exact Wr|lia|lia].
  - apply (G n); [exact Hn|exact He].
Qed.

Lemma legal0 : forall o, existsb (Z.eqb o) [0x8A; 0x8B; 0x33; 0x32; 0x88; 0x89; 0x02; 0x03; 0x0A; 0x0B; 0x22; 0x23; 0x2A; 0x2B; 0x3A; 0x3B;
    0x80; 0x81; 0x83; 0x84; 0x85; 0xC0; 0xC1; 0xD3; 0xF7; 0x8D; 0xC6; 0xC7; 0x63; 0x69] = true -> legal_opcode 0 o.
Proof.
  intros o H. apply existsb_exists in H. destruct H as (x & Hx & Hxo). apply Z.eqb_eq in Hxo. subst x. cbn in Hx.
  unfold legal_opcode. repeat (destruct Hx as [<-|Hx]; [split; [lia|left; repeat split; (reflexivity || lia)]|]). destruct Hx.
Qed.
Lemma legal1 : forall o, existsb (Z.eqb o) [0xB6; 0xB7; 0xBE; 0xBF] = true \/ 0x90 <= o <= 0x9F -> legal_opcode 1 o.
Proof.
  intros o H. assert (0 <= o < 256 /\ o <> 0x38 /\ o <> 0x3A).
  { destruct H as [H|H]; [|lia]. apply existsb_exists in H. destruct H as (x & Hx & Hxo). apply Z.eqb_eq in Hxo. subst x. cbn in Hx. lia. }
  unfold legal_opcode. split; [lia|]. right. left. split; [reflexivity|]. lia.
Qed.

Lemma base_register : forall rb, rb = 5 \/ In rb volatile -> is_register rb /\ rb <> 12 /\ rb <> 13.
Proof.
  intros rb [->|H]; [unfold is_register; lia|]. apply volatile_plain in H. tauto.
Qed.

(** The instruction [register_relative_with] emits. *)
Lemma emitted_rel : forall mp o reg rb off size im bs, legal_opcode mp o -> is_register reg -> rb = 5 \/ In rb volatile -> immediate_ok im ->
  emit_register_relative no_prefix (opcode_bytes mp o) reg (mkmem rb INVALID_REGISTER 0 off false size) im = Done bs ->
  emitted (fst bs) (requested no_prefix mp o reg rb (high (-1)) size (RmMem (BaseReg rb) None off)) (immediate_bytes im).
Proof.
  intros mp o reg rb off size im bs Ho Hr Hb Hi E. destruct (base_register _ Hb) as (B1 & B2 & B3).
  exact (emitted_mem mp o reg rb None 0 off size im bs Ho Hr B1 B2 B3 I ltac:(lia) Hi E).
Qed.
Lemma rmval_rel : forall m n rb off, rmval m n (RmMem (BaseReg rb) None off) = load (Z.to_nat n) (mem m) (wrapu 64 (regs m rb + off)).
Proof. intros. cbn [rmval]. unfold ea. rewrite Z.add_0_r. reflexivity. Qed.

Lemma peek_val : forall s m M0 o id fp l ib idx sc off, holds s m o id fp -> good M0 o -> id <> 0%nat -> nth_error (heap s) id = Some l ->
  l_state l = RegRel ib idx sc off -> is_size_P (osize o) ->
  readable M0 o (osize o) /\ peek M0 o (osize o) = val M0 o /\ good M0 (base_of o) /\ osize (base_of o) = 8.
Proof.
  intros s m M0 o id fp l ib idx sc off H G N0 E S P.
  destruct (holds_relative _ _ _ _ _ _ _ _ _ _ H E S N0) as (_ & _ & _ & b & fpb & Hb & _ & Hc).
  destruct Hc as [(n & ->)|(-> & t & k & v & Ho & Hk & Ht & Hv & [->|(n & ->)])]; cbn [good readable osize peek val base_of] in *.
  - tauto.
  - split; [lia|]. split; [|auto]. apply Z.mod_small. rewrite <- Hv. pose proof (load_range (Z.to_nat k) (mem m) (bpv - ss - t)) as R.
    replace (8 * Z.of_nat (Z.to_nat k)) with (8 * k) in R by (unfold is_size_P in Hk; lia). exact R.
  - split; [lia|]. split; [|auto]. apply Z.mod_mod. pose proof (pow2_pos (8 * n) ltac:(unfold is_size_P in P; lia)). lia.
Qed.

Lemma sim_code : forall s m M0 L c, sim s m M0 L -> sim (in_code c s) m M0 L.
Proof. intros s m M0 L c H. eapply (sim_irrelevant s); [reflexivity|reflexivity|reflexivity|exact H]. Qed.

Lemma spills_clear : forall s m s' m' M0 L fp, spills s m s' m' M0 L -> (forall i, In i fp -> exists l, nth_error (heap s) i = Some l) -> clear s fp -> clear s' fp.
Proof.
  intros s m s' m' M0 L fp Sp Hex C i l' Hi E'. destruct (Hex i Hi) as (l & E).
  destruct (sp_frame _ _ _ _ _ _ Sp i l E (fun x => x)) as [E1|(_ & r & t & _ & E1)].
  - assert (l' = l) by congruence. subst. apply (C i l Hi E).
  - assert (l' = mkloc (RegRel 0 None 0 (- (ss + t))) (l_size l) 0 (l_prevent_freeing l)) by congruence. subst. split; [reflexivity|]. apply (C i l Hi E).
Qed.

Lemma loaded_no_bp : forall M0 o, o <> Bp -> loaded M0 o = Rv (osize o) (val M0 o).
Proof. intros M0 [] H; try reflexivity. congruence. Qed.

(** The last steps of a load: the value is in [r], the register is taken. *)
Lemma take_spec : forall r n v s id' s' m M0 L, sim s m M0 L -> In r volatile -> is_size_P n -> regs m r mod 2 ^ (8 * n) = v ->
  (_ <- allocate_specific_register ss r ;; emit_location_loaded r n) s = Done (id', s') -> tsa s' <= TL ->
  exists m', sim s' m' M0 ((Rv n v, id', [id']) :: L) /\ trans s m s' m' /\ frame s s' [] /\ in_reg s' id' r n /\
    (forall q k, rmap s' q = Some k -> rmap s q = Some k \/ k = id') /\ clear s' [id'] /\ (length (heap s) <= id')%nat.
Proof.
  intros r n v s id' s' m M0 L H Hr Hn Hv E HT. unbind E r' s1 E1.
  assert (HT1 : tsa s1 <= TL) by (pose proof (q_tsa _ _ (quiet_loaded r n _ _ _ E)); lia).
  destruct (specific_spec r s r' s1 m M0 L H E1 HT1) as (-> & m' & Sp & _ & _ & _).
  destruct (loaded_spec r n s1 id' s' m' M0 L (sp_sim _ _ _ _ _ _ Sp) E Hr Hn) as (Hid & _ & Hc & _ & Hh & Hm & Hs).
  exists m'. rewrite (sp_regs _ _ _ _ _ _ Sp), Hv in Hs. split; [exact Hs|]. split.
  { eapply trans_trans; [apply Sp|apply trans_refl, Hc]. }
  split; [|split; [|split; [|split]]].
  - eapply frame_trans with (b := s1) (f2 := []); [apply Sp| |intros ? []]. intros i l El _. left. rewrite Hh. apply nth_error_old, El.
  - exists (mkloc (Loaded r) n 0 0). split; [rewrite Hh, Hid; apply nth_error_new|auto].
  - intros q k Eq. rewrite Hm in Eq. destruct (q =? r); [right; congruence|left; eapply sp_map; [exact Sp|exact Eq]].
  - intros i l [<-|[]] El. rewrite Hh, Hid, nth_error_new in El. injection El as <-. split; reflexivity.
  - rewrite Hid, (sp_len _ _ _ _ _ _ Sp). lia.
Qed.

Lemma load_specific_spec : forall ld s m M0 L o id fp r id' s',
  load_ok ld -> (forall id, quiet (ld id)) -> sim s m M0 ((o, id, fp) :: L) -> loadable s id fp -> good M0 o -> o <> Bp ->
  In r volatile -> (forall k, rmap s r = Some k -> k = id \/ ~ In k (fp ++ concat (map snd L))) ->
  load_into_specific_with ss ld id r s = Done (id', s') -> tsa s' <= TL ->
  exists m', loads s m s' m' M0 L fp id id' (Rv (osize o) (val M0 o)) /\ in_reg s' id' r (osize o).
Proof.
  intros ld s m M0 L o id fp r id' s' Hld Hq H Hc Hg Hb Hr Hown E HT.
  pose proof (sim_wf _ _ _ _ H) as W. pose proof (sim_head _ _ _ _ _ _ _ H) as Hh.
  unfold load_into_specific_with in E. unbind E l s1 E1. apply get_inv' in E1. destruct E1 as (El & ->).
  unbind E u1 s1 E1. apply assertion_inv' in E1. destruct E1 as (Hn & ->). apply is_size_spec in Hn.
  assert (N0 : id <> 0%nat).
  { intros ->. destruct (holds_id _ _ _ _ _ Hh) as [(Hx & _)|(_ & Hx)]; [congruence|]. eapply holds_nonzero; eassumption. }
  assert (Hfp : In id fp) by (destruct (holds_id _ _ _ _ _ Hh) as [(Hx & _)|(_ & Hx)]; [congruence|exact Hx]).
  assert (Hex : forall i, In i fp -> exists l, nth_error (heap s) i = Some l) by (eapply holds_ids; exact Hh).
  destruct (volatile_plain r Hr) as (Pr & Ir & R5 & R12 & R13).
  destruct (l_state l) as [r0|w|ib idx sc off|c|] eqn:S.
  - destruct (holds_loaded _ _ _ _ _ _ _ _ Hh W El S) as (Hsz & Hp & Hv & [(Hx & _)|((v & Ho) & Hv0 & Rm0 & Hf)]); [congruence|].
    assert (Hval : o = Rv (osize o) (val M0 o)) by (rewrite Ho; reflexivity).
    destruct (Z.eqb_spec r0 r) as [->|Hrr].
    + apply ret_inv in E. destruct E as (-> & ->). exists m.
      assert (IR : in_reg s id r (osize o)) by (exists l; auto).
      split; [|exact IR]. exists fp. rewrite <- Hval. split; [exact H|]. split; [apply trans_refl; reflexivity|]. split; [apply frame_refl|].
      split; [exists r; exact IR|]. split; [auto|]. split; [auto|]. left. split; [exists r, (osize o); exact IR|auto].
    + unbind E u2 s1 E1. unbind E into s2 E2. unbind E u3 s3 E3. unbind E u4 s4 E4. apply ret_inv in E. destruct E as (-> & ->).
      assert (HT1 : tsa s1 <= TL).
      { pose proof (q_tsa _ _ (quiet_loaded _ _ _ _ _ E2)). pose proof (q_tsa _ _ (quiet_register_register _ _ _ _ _ _ _ E3)).
        pose proof (q_tsa _ _ (quiet_free _ _ _ _ E4)). lia. }
      destruct (specific_spec r s u2 s1 m M0 _ H E1 HT1) as (-> & m1 & Sp & Rn & Ro & _).
      destruct (loaded_spec r (l_size l) s1 into s2 m1 M0 _ (sp_sim _ _ _ _ _ _ Sp) E2 Hr Hn) as (Hid & _ & Hc2 & Ht2 & Hh2 & Hm2 & Hs2).
      unfold emit_register_register in E3. unbind E3 la s5 E5. apply get_inv' in E5. destruct E5 as (Ea & ->).
      unbind E3 lb s5 E5. apply get_inv' in E5. destruct E5 as (Eb & ->).
      assert (la = mkloc (Loaded r) (l_size l) 0 0) by (rewrite Hh2, Hid, nth_error_new in Ea; congruence). subst la.
      cbn [l_state] in E3. destruct (l_state lb) as [rb| | | |] eqn:Sb; try discriminate.
      unbind E3 u5 s5 E5. apply assertion_inv' in E5. destruct E5 as (Hse & ->). cbn [l_size] in Hse, E3. apply Z.eqb_eq in Hse.
      unfold emit_op in E3. unbind E3 bs s5 E5. apply lift_inv' in E5. destruct E5 as (Hbs & ->). apply out_inv in E3.
      pose proof (sim_wf _ _ _ _ Hs2) as W2.
      pose proof (sim_head _ _ _ _ _ _ _ (sim_swap _ _ _ _ _ _ Hs2)) as Hh3.
      destruct (holds_loaded _ _ _ _ _ _ _ _ Hh3 W2 Eb Sb) as (_ & _ & Hvb & [(Hx & _)|(_ & Hrb & _)]); [congruence|].
      destruct (volatile_plain rb Hrb) as (Pb & Ib & _).
      assert (Em : emitted (bs ++ []) (requested no_prefix 0 (op8 (l_size l) 0x8A) r rb false (l_size l) (RmReg rb)) []).
      { apply emitted_reg; [apply legal0; unfold op8; destruct (l_size l =? 1); reflexivity|exact Ir|exact Ib|].
        unfold op8. destruct (l_size l =? 1); exact Hbs. }
      rewrite app_nil_r in Em.
      destruct (I_mov bs r rb false (l_size l) (RmReg rb) m1 Em Hn Pr Pb) as (m2 & Rn2 & Wr & _).
      assert (Hmr : rmap s2 r = Some into) by (rewrite Hm2, Z.eqb_refl; reflexivity).
      pose proof (sim_write_head _ _ _ _ _ _ _ _ _ _ _ _ Hs2 Wr Hmr ltac:(lia) Hn) as Hs3.
      cbn [rmval] in Hs3. rewrite Z.mod_mod in Hs3 by (pose proof (pow2_pos (8 * l_size l) ltac:(unfold is_size_P in Hn; lia)); lia).
      rewrite Hsz, Hvb in Hs3. apply sim_code with (c := code s2 ++ bs) in Hs3. rewrite <- E3 in Hs3.
      apply sim_swap in Hs3. destruct (free_spec _ _ _ _ _ _ _ _ _ Hs3 E4) as ([Fc Ft Fl Fh Fm Fw Fcl] & Hs4 & Ff & Tr4).
      assert (Hge : (length (heap s) <= into)%nat) by (rewrite Hid, (sp_len _ _ _ _ _ _ Sp); lia).
      assert (Nin : ~ In into fp).
      { intro Hi. destruct (Hex _ Hi) as (k & Ek). apply nth_error_lt in Ek. lia. }
      assert (Ei4 : nth_error (heap s4) into = Some (mkloc (Loaded r) (l_size l) 0 0)) by (rewrite Fh by exact Nin; rewrite E3; exact Ea).
      assert (IR : in_reg s4 into r (osize o)) by (eexists; split; [exact Ei4|split; [reflexivity|exact Hsz]]).
      exists m2. split; [|exact IR]. exists [into]. split; [exact Hs4|]. split.
      { eapply trans_trans; [apply Sp|]. eapply trans_trans; [|exact Tr4]. exists bs. split; [|exact Rn2]. rewrite E3. cbn. congruence. }
      split.
      { eapply frame_trans with (b := s1) (f2 := fp); [eapply frame_weaken; [apply Sp|intros ? []]| |auto].
        intros i k Ek Ni. left. rewrite Fh by exact Ni. rewrite E3. cbn. rewrite Hh2. apply nth_error_old, Ek. }
      split; [exists r; exact IR|]. split.
      { intros q k Eq. destruct (Fm q) as [Fq|(Fq & _)]; [|congruence]. rewrite Fq, E3 in Eq. cbn in Eq. rewrite Hm2 in Eq.
        destruct (q =? r); [right; left; congruence|left; eapply sp_map; [exact Sp|exact Eq]]. }
      split; [|right; exact Hge]. intros _ i k [<-|[]] Ek. rewrite Ei4 in Ek. injection Ek as <-. split; reflexivity.
  - assert (Hop : o = Im (l_size l) w /\ fp = [id]).
    { destruct Hh as [|id l0 q n v E0 S0 Z P R V|id l0 t n v E0 S0 Z P T V|id l0 n w0 E0 S0 Z P
     |id l0 ib' off' n b fp E0 S0 Z Hb'|id l0 t n k v E0 S0 Z P K T V]; try (assert (l0 = l) by congruence; subst l0); try congruence. split; congruence. }
    destruct Hop as (Ho & Hf). pose proof (sim_drop _ _ _ _ _ H) as HL.
    assert (HownL : forall k, rmap s r = Some k -> ~ In k (concat (map snd L))).
    { intros k Ek. destruct (Hown k Ek) as [->|Hk]; [|intro; apply Hk, in_or_app; right; assumption].
      exfalso. destruct (wf_map _ _ _ W r id Ek) as (_ & k & Ek' & Sk & _). congruence. }
    destruct (Z.eqb_spec w 0) as [Hw|Hw].
    + unbind E u2 s1 E1. unbind E into s2 E2. unbind E u3 s3 E3. apply ret_inv in E. destruct E as (-> & ->).
      assert (HT2 : tsa s2 <= TL) by (pose proof (q_tsa _ _ (quiet_register_register _ _ _ _ _ _ _ E3)); lia).
      destruct (take_spec r (l_size l) (regs m r mod 2 ^ (8 * l_size l)) s into s2 m M0 L HL Hr Hn eq_refl) as (m1 & Hs2 & T2 & F2 & IR & Mp & Cl & Ge);
        [unfold bind; rewrite E1; cbn [obind]; exact E2|exact HT2|].
      unfold emit_register_register in E3. unbind E3 la s5 E5. apply get_inv' in E5. destruct E5 as (Ea & ->).
      unbind E3 lb s5 E5. apply get_inv' in E5. destruct E5 as (Eb & ->).
      destruct IR as (lr & Elr & Slr & Zlr). assert (la = lr) by congruence. assert (lb = lr) by congruence. subst la lb.
      rewrite Slr in E3. unbind E3 u5 s5 E5. apply assertion_inv' in E5. destruct E5 as (_ & ->).
      unfold emit_op in E3. unbind E3 bs s5 E5. apply lift_inv' in E5. destruct E5 as (Hbs & ->). apply out_inv in E3.
      pose proof (emitted_reg 0 0x33 r r (l_size lr) bs [] (legal0 0x33 eq_refl) Ir Ir Hbs) as Em. rewrite app_nil_r, Zlr in Em.
      destruct (I_xor_self bs r (l_size l) m1 Em Hn Pr) as (m2 & Rn2 & Wr).
      destruct (holds_loaded _ _ _ _ _ _ _ _ (sim_head _ _ _ _ _ _ _ Hs2) (sim_wf _ _ _ _ Hs2) Elr Slr) as (_ & _ & _ & [(Hx & _)|(_ & _ & Hmr & _)]);
        [discriminate|].
      pose proof (sim_write_head _ _ _ _ _ _ _ _ _ _ _ _ Hs2 Wr Hmr ltac:(lia) Hn) as Hs3.
      apply sim_code with (c := code s2 ++ bs) in Hs3. rewrite <- E3 in Hs3.
      assert (IR : in_reg s3 into r (osize o)) by (exists lr; rewrite E3, Ho; cbn; auto).
      exists m2. split; [|exact IR]. exists [into]. rewrite Ho. cbn [val osize]. rewrite Hw.
      split; [exact Hs3|]. split; [eapply trans_trans; [exact T2|]; exists bs; split; [rewrite E3; reflexivity|exact Rn2]|].
      split. { rewrite E3. intros i k Ek Ni. destruct (F2 i k Ek (fun x => x)) as [Hk|Hk]; [left; exact Hk|right; exact Hk]. }
      rewrite Ho in IR. split; [exists r; exact IR|]. split; [intros q k Eq; rewrite E3 in Eq; destruct (Mp q k Eq) as [|Hk]; [auto|right; left; congruence]|].
      split; [|right; exact Ge]. intros _. rewrite E3. exact Cl.
    + unbind E u2 s1 E1. apply out_inv in E1.
      destruct (I_mov_imm r (l_size l) w m Pr Hn) as (m1 & Rn1 & Wr & _).
      pose proof (sim_write _ _ _ _ _ _ _ _ HL Wr Hr HownL) as Hs1.
      apply sim_code with (c := code s ++ emit_mov_immediate r (l_size l) w) in Hs1. rewrite <- E1 in Hs1.
      destruct (take_spec r (l_size l) (w mod 2 ^ (8 * l_size l)) s1 id' s' m1 M0 L Hs1 Hr Hn (w_value _ _ _ _ _ Wr) E HT) as (m2 & Hs2 & T2 & F2 & IR & Mp & Cl & Ge).
      exists m2. rewrite Ho. cbn [osize val]. split; [|exact IR]. exists [id']. split; [exact Hs2|].
      split; [eapply trans_trans; [|exact T2]; exists (emit_mov_immediate r (l_size l) w); split; [rewrite E1; reflexivity|exact Rn1]|].
      split. { rewrite E1 in F2. intros i k Ek Ni. exact (F2 i k Ek (fun x => x)). }
      split; [exists r; exact IR|]. split; [intros q k Eq; destruct (Mp q k Eq) as [Hk|Hk]; [left; rewrite E1 in Hk; exact Hk|right; left; congruence]|].
      split; [intros _; exact Cl|right; rewrite E1 in Ge; exact Ge].
  - assert (Hc' : clear s fp \/ ready s ib).
    { destruct Hc as [Hc|(k & Ek & Hk)]; [left; exact Hc|right]. assert (k = l) by congruence. subst k. rewrite S in Hk.
      eapply pinned_ready; [exact W|exact Hk]. }
    clear Hc.
    destruct (peek_val _ _ _ _ _ _ _ _ _ _ _ Hh Hg N0 El S) as (Hrd & Hpk & Hgb & Ho8).
    { destruct (holds_relative _ _ _ _ _ _ _ _ _ _ Hh El S N0) as (_ & _ & <- & _). exact Hn. }
    unbind E u2 s2 E1. unbind E u3 s3 E2.
    assert (HT2 : tsa s2 <= TL).
    { pose proof (q_tsa _ _ (quiet_free _ _ _ _ E2)).
      assert (tsa s3 <= tsa s'). { unbind E u4 s4 E3. pose proof (q_tsa _ _ (quiet_specific _ _ _ _ _ E3)). pose proof (q_tsa _ _ (quiet_loaded _ _ _ _ _ E)). lia. }
      lia. }
    destruct (rr_spec ld no_prefix _ r id None s u2 s2 m M0 L o fp l ib idx sc off Hld Hq H El S Hc' Hgb Ho8 E1 HT2)
      as (m1 & s1 & rb & bs & fp1 & T1 & Hs1 & F1 & (ib' & Eid1) & Hbs & Hosz & Es2 & Hrb & Hrbv & Hs32 & Hval & Hmap & Hclr & Hfp1 & Hin1 & Hsame).
    assert (Hsz : l_size l = osize o) by (destruct (holds_relative _ _ _ _ _ _ _ _ _ _ Hh El S N0) as (_ & _ & -> & _); reflexivity).
    assert (Em : emitted (fst bs) (requested no_prefix 0 (op8 (osize o) 0x8A) r rb (high (-1)) (osize o) (RmMem (BaseReg rb) None off)) []).
    { apply (emitted_rel 0 (op8 (osize o) 0x8A) r rb off (osize o) None bs); [apply legal0; unfold op8; destruct (osize o =? 1); reflexivity|exact Ir|exact Hrb|exact I|].
      rewrite Hsz in Hbs. unfold op8. destruct (osize o =? 1); exact Hbs. }
    destruct (I_mov _ r rb _ (osize o) (RmMem (BaseReg rb) None off) m1 Em Hosz Pr I) as (m2 & Rn2 & Wr & _).
    assert (Hv2 : regs m2 r mod 2 ^ (8 * osize o) = val M0 o).
    { rewrite (w_value _ _ _ _ _ Wr), rmval_rel. rewrite Hval by (assumption || (unfold is_size_P in Hosz; lia)). rewrite Hpk.
      rewrite <- Hpk at 2. rewrite <- Hpk. rewrite <- (Hval (osize o)) by (assumption || (unfold is_size_P in Hosz; lia)).
      rewrite <- rmval_rel. apply Z.mod_small, rmval_range, Hosz. }
    destruct (sim_write_any _ _ _ _ _ _ _ _ _ _ _ Hs1 Wr Hr) as (o' & Hs2 & _).
    { intros k Ek. destruct (Hmap r k Ek) as [Hk|Hk]; [|left; exact Hk]. right. destruct (Hown k Hk) as [->|Hk']; [|intro; apply Hk', in_or_app; right; assumption].
      exfalso. destruct (wf_map _ _ _ W r id Hk) as (_ & k & Ek' & Sk & _). congruence. }
    apply sim_code with (c := code s1 ++ fst bs) in Hs2. rewrite <- Es2 in Hs2.
    destruct (free_spec _ _ _ _ _ _ _ _ _ Hs2 E2) as ([Fc Ft Fl Fh Fm Fw Fcl] & Hs3 & Ff & Tr3).
    destruct (take_spec r (l_size l) (val M0 o) s3 id' s' m2 M0 L Hs3 Hr Hn ltac:(rewrite Hsz; exact Hv2) E HT) as (m3 & Hs4 & T4 & F4 & IR & Mp & Cl & Ge).
    rewrite Hsz in Hs4, IR. exists m3. split; [|exact IR]. exists [id']. split; [exact Hs4|].
    assert (Hlen : (length (heap s) <= length (heap s1))%nat).
    { pose proof (q_heap _ _ (quiet_register_relative_with ld Hq _ _ _ _ _ _ _ _ E1)) as Q. rewrite Es2 in Q. exact Q. }
    split. { eapply trans_trans; [exact T1|]. eapply trans_trans; [|eapply trans_trans; [exact Tr3|exact T4]].
             exists (fst bs). split; [rewrite Es2; reflexivity|exact Rn2]. }
    split. { eapply frame_trans with (b := s3) (f2 := []); [|exact F4|intros ? []].
             eapply frame_trans with (b := s1) (f2 := fp1); [exact F1| |].
             - intros i k Ek Ni. left. rewrite Fh by exact Ni. rewrite Es2. exact Ek.
             - intros i Hi Lt. destruct (Hfp1 i Hi) as [|]; [assumption|lia]. }
    split; [exists r; exact IR|]. split.
    { intros q k Eq. destruct (Mp q k Eq) as [Hk|Hk]; [|right; left; congruence]. left.
      assert (Hk1 : rmap s1 q = Some k). { destruct (Fm q) as [Fq|(Fq & _)]; [|congruence]. rewrite Fq, Es2 in Hk. exact Hk. }
      destruct Hc' as [Hc|Hc]; [|destruct (Hsame Hc) as (_ & Hs1s & _); rewrite Hs1s in Hk1; exact Hk1].
      destruct (Hmap q k Hk1) as [Hx|Hx]; [exact Hx|]. exfalso. apply (Fcl) with (i := k) (q := q); [|exact Hx|exact Hk].
      rewrite Es2. apply Hclr, Hc. }
    split; [intros _; exact Cl|]. right. rewrite Fl, Es2 in Ge. cbn in Ge. lia.
  - exfalso. destruct Hh as [|id l0 q n v E0 S0 Z P R V|id l0 t n v E0 S0 Z P T V|id l0 n w0 E0 S0 Z P
     |id l0 ib' off' n b fp E0 S0 Z Hb'|id l0 t n k v E0 S0 Z P K T V]; try (assert (l0 = l) by congruence; subst l0); congruence.
  - discriminate.
Qed.

Lemma spills_refl_len : forall s m s' m' M0 L, spills s m s' m' M0 L -> (length (heap s) <= length (heap s'))%nat.
Proof. intros. rewrite (sp_len _ _ _ _ _ _ H). lia. Qed.

Lemma not_ready_spills : forall s m s' m' M0 L id, spills s m s' m' M0 L -> (exists l, nth_error (heap s) id = Some l) -> ready s' id -> ready s id.
Proof.
  intros s m s' m' M0 L id Sp (l & El) (r & n & l' & El' & Sl' & Zl').
  destruct (sp_frame _ _ _ _ _ _ Sp id l El (fun x => x)) as [E1|(_ & r1 & t & Sr & E1)].
  - exists r, n, l. assert (l' = l) by congruence. subst. auto.
  - exists r1, (l_size l), l. auto.
Qed.

Lemma spills_loadable : forall s m s' m' M0 L id fp, spills s m s' m' M0 L ->
  (forall i, In i fp -> exists l, nth_error (heap s) i = Some l) -> loadable s id fp -> loadable s' id fp.
Proof.
  intros s m s' m' M0 L id fp Sp Hex [C|(l & E & Hl)]; [left; eapply spills_clear; eassumption|right].
  destruct (sp_frame _ _ _ _ _ _ Sp id l E (fun x => x)) as [E1|(_ & r & t & Sr & E1)].
  - exists l. split; [exact E1|]. destruct (l_state l) as [|?|ib idx sc off| |]; try exact I.
    destruct Hl as [->|(k & r & Ek & Sk & Pk)]; [left; reflexivity|right]. exists k, r. split; [|auto].
    eapply frame_locked; [apply Sp|exact Ek|intros []|exact Pk].
  - eexists. split; [exact E1|]. left. reflexivity.
Qed.

Lemma load_gpr_ok : forall fuel, load_ok (load_gpr ss fuel).
Proof.
  induction fuel as [|fuel IH]; intros s m M0 L o id fp id' s' H Hc Hg E HT; [discriminate|].
  pose proof (sim_wf _ _ _ _ H) as W. pose proof (sim_head _ _ _ _ _ _ _ H) as Hh.
  cbn [load_gpr] in E. unbind E l s1 E1. apply get_inv' in E1. destruct E1 as (El & ->).
  assert (Hred : ready s id -> exists r, l_state l = Loaded r).
  { intros (r & n & l' & El' & Sl' & _). exists r. congruence. }
  destruct (l_state l) as [r0|w|ib idx sc off|c|] eqn:S.
  - apply ret_inv in E. destruct E as (-> & ->). exists m. split; [|auto]. exists fp.
    destruct (holds_loaded _ _ _ _ _ _ _ _ Hh W El S) as (Hsz & Hp & Hv & Hcase).
    assert (loaded M0 o = o) as ->. { destruct Hcase as [(-> & _)|((v & ->) & _)]; reflexivity. }
    assert (IR : in_reg s id r0 (osize o)) by (exists l; auto).
    split; [exact H|]. split; [apply trans_refl; reflexivity|]. split; [apply frame_refl|]. split; [exists r0; exact IR|].
    split; [auto|]. split; [auto|]. left. split; [exists r0, (osize o); exact IR|auto].
  - unbind E r s1 E1.
    assert (HT1 : tsa s1 <= TL) by (pose proof (q_tsa _ _ (quiet_load_into _ _ (quiet_load_fuel ss fuel) _ _ _ _ _ E)); lia).
    destruct (allocate_spec s r s1 m M0 _ H E1 HT1) as (m1 & Sp & Hr & Rn).
    assert (Hb : o <> Bp). { intros ->. inversion Hh; subst. destruct (wf_bp _ _ _ W) as (k & Ek & Sk & _). congruence. }
    assert (Hex : forall i, In i fp -> exists l, nth_error (heap s) i = Some l) by (eapply holds_ids; exact Hh).
    destruct (load_specific_spec (load_gpr ss fuel) s1 m1 M0 L o id fp r id' s' IH (quiet_load_fuel ss fuel) (sp_sim _ _ _ _ _ _ Sp)
                (spills_loadable _ _ _ _ _ _ _ _ Sp Hex Hc) Hg Hb Hr) as (m2 & (fp' & A & B & C & D & F & G & K) & IR);
      [intros k Ek; congruence|exact E|exact HT|].
    exists m2. rewrite loaded_no_bp by exact Hb. split; [|intro Hrd; destruct (Hred Hrd); congruence].
    exists fp'. split; [exact A|]. split; [eapply trans_trans; [apply Sp|exact B]|].
    split; [eapply frame_trans with (b := s1) (f2 := fp); [eapply frame_weaken; [apply Sp|intros ? []]|exact C|auto]|].
    split; [exact D|]. split; [intros q k Eq; destruct (F q k Eq) as [Hx|Hx]; [left; eapply sp_map; [exact Sp|exact Hx]|right; exact Hx]|].
    split; [intro Hcl; apply G; eapply spills_clear; [exact Sp|exact Hex|exact Hcl]|].
    destruct K as [(K & _)|K]; [|right; rewrite <- (sp_len _ _ _ _ _ _ Sp); exact K].
    exfalso. destruct (Hred (not_ready_spills _ _ _ _ _ _ _ Sp (ex_intro _ l El) K)). congruence.
  - unbind E r s1 E1.
    assert (HT1 : tsa s1 <= TL) by (pose proof (q_tsa _ _ (quiet_load_into _ _ (quiet_load_fuel ss fuel) _ _ _ _ _ E)); lia).
    destruct (allocate_spec s r s1 m M0 _ H E1 HT1) as (m1 & Sp & Hr & Rn).
    assert (Hb : o <> Bp). { intros ->. inversion Hh; subst. destruct (wf_bp _ _ _ W) as (k & Ek & Sk & _). congruence. }
    assert (Hex : forall i, In i fp -> exists l, nth_error (heap s) i = Some l) by (eapply holds_ids; exact Hh).
    destruct (load_specific_spec (load_gpr ss fuel) s1 m1 M0 L o id fp r id' s' IH (quiet_load_fuel ss fuel) (sp_sim _ _ _ _ _ _ Sp)
                (spills_loadable _ _ _ _ _ _ _ _ Sp Hex Hc) Hg Hb Hr) as (m2 & (fp' & A & B & C & D & F & G & K) & IR);
      [intros k Ek; congruence|exact E|exact HT|].
    exists m2. rewrite loaded_no_bp by exact Hb. split; [|intro Hrd; destruct (Hred Hrd); congruence].
    exists fp'. split; [exact A|]. split; [eapply trans_trans; [apply Sp|exact B]|].
    split; [eapply frame_trans with (b := s1) (f2 := fp); [eapply frame_weaken; [apply Sp|intros ? []]|exact C|auto]|].
    split; [exact D|]. split; [intros q k Eq; destruct (F q k Eq) as [Hx|Hx]; [left; eapply sp_map; [exact Sp|exact Hx]|right; exact Hx]|].
    split; [intro Hcl; apply G; eapply spills_clear; [exact Sp|exact Hex|exact Hcl]|].
    destruct K as [(K & _)|K]; [|right; rewrite <- (sp_len _ _ _ _ _ _ Sp); exact K].
    exfalso. destruct (Hred (not_ready_spills _ _ _ _ _ _ _ Sp (ex_intro _ l El) K)). congruence.
  - exfalso. destruct Hh as [|id l0 q n v E0 S0 Z P R V|id l0 t n v E0 S0 Z P T V|id l0 n w0 E0 S0 Z P
     |id l0 ib' off' n b fp E0 S0 Z Hb'|id l0 t n k v E0 S0 Z P K T V]; try (assert (l0 = l) by congruence; subst l0); try congruence.
    destruct (wf_bp _ _ _ W) as (k & Ek & Sk & _). congruence.
  - exfalso. destruct Hh as [|id l0 q n v E0 S0 Z P R V|id l0 t n v E0 S0 Z P T V|id l0 n w0 E0 S0 Z P
     |id l0 ib' off' n b fp E0 S0 Z Hb'|id l0 t n k v E0 S0 Z P K T V]; try (assert (l0 = l) by congruence; subst l0); try congruence.
    destruct (wf_bp _ _ _ W) as (k & Ek & Sk & _). congruence.
Qed.

Lemma load_ok_emit : load_ok (emit_load_gpr ss).
Proof. intros s m M0 L o id fp id' s' H Hc Hg E HT. exact (load_gpr_ok _ s m M0 L o id fp id' s' H Hc Hg E HT). Qed.
#[local] Hint Resolve quiet_loaded quiet_conditional quiet_relative quiet_stack_relative quiet_immediate quiet_spill quiet_specific quiet_allocate
  quiet_free quiet_prevent_freeing quiet_allow_freeing quiet_unlock quiet_allow_spilling quiet_loaded_register quiet_emit_op quiet_ext_op
  quiet_register_register quiet_register_relative_with quiet_load quiet_load_specific quiet_prevent_spilling quiet_rr quiet_ri quiet_load_address quiet_store quiet_binary_op
  quiet_dmm quiet_shift quiet_compare_to_zero quiet_integer_cast quiet_load_bitfield : quiet.
(** The rest of a computation does not give temporaries back. *)
Ltac later E Q := match type of E with ?c ?s1 = Done (_, ?s2) =>
  let q := fresh in assert (q : quiet c) by quiet_auto; pose proof (q_tsa _ _ (q _ _ _ E)) as Q; clear q end.
(** ** Operations on a loaded destination *)
Lemma lock_inv : forall s id l u s', nth_error (heap s) id = Some l -> (forall a b c d, l_state l <> RegRel a b c d) ->
  prevent_spilling ss id s = Done (u, s') -> s' = in_heap (replace_nth id (with_ps 1 l) (heap s)) s.
Proof.
  intros s id l u s' E S P. unfold prevent_spilling, prevent_spilling_with in P. unbind P u1 s1 P1.
  apply modify_inv in P1. destruct P1 as (k & Ek & Es1). assert (k = l) by congruence. subst k.
  unbind P l1 s2 P2. apply get_inv' in P2. destruct P2 as (E1 & ->). rewrite Es1 in E1. cbn in E1.
  rewrite (replace_same _ _ _ _ _ E) in E1. assert (l1 = with_ps 1 l) by congruence. subst l1.
  change (l_state (with_ps 1 l)) with (l_state l) in P. destruct (l_state l) as [?|?|a b c d| |]; try (apply ret_inv in P; destruct P as (_ & ->); exact Es1).
  destruct (S a b c d eq_refl).
Qed.
Lemma allow_inv : forall s id l u s', nth_error (heap s) id = Some l -> (forall a b c d, l_state l <> RegRel a b c d) ->
  allow_spilling id s = Done (u, s') -> s' = in_heap (replace_nth id (with_ps (-1) l) (heap s)) s /\ 0 < l_prevent_spilling l.
Proof.
  intros s id l u s' E S P. unfold allow_spilling in P. unbind P u1 s1 P1.
  apply unlock_inv in P1. destruct P1 as (k & Ek & Hk & Es1). assert (k = l) by congruence. subst k.
  unbind P l1 s2 P2. apply get_inv' in P2. destruct P2 as (E1 & ->). rewrite Es1 in E1. cbn in E1.
  rewrite (replace_same _ _ _ _ _ E) in E1. assert (l1 = with_ps (-1) l) by congruence. subst l1.
  change (l_state (with_ps (-1) l)) with (l_state l) in P. destruct (l_state l) as [?|?|a b c d| |]; try (apply ret_inv in P; destruct P as (_ & ->); auto).
  destruct (S a b c d eq_refl).
Qed.

(** The effect of an instruction that may write register [r]. *)
Definition did (m m' : machine) (r n : Z) (x : option Z) : Prop :=
  match x with Some v => wrote m m' r n v | None => regs m' = regs m /\ mem m' = mem m end.
Definition after (x : option Z) (n a : Z) : Z := match x with Some v => v mod 2 ^ (8 * n) | None => a end.

Lemma sim_did : forall s m M0 L r n a m' id fp x, sim s m M0 ((Rv n a, id, fp) :: L) -> did m m' r n x -> rmap s r = Some id -> is_size_P n ->
  sim s m' M0 ((Rv n (after x n a), id, fp) :: L).
Proof.
  intros s m M0 L r n a m' id fp [v|] H D R P; cbn [did after] in *.
  - eapply sim_write_head; [exact H|exact D|exact R|lia|exact P].
  - destruct D. eapply sim_same; eassumption.
Qed.

Lemma I_bin : forall bs k reg base hi size rm m x f,
  emitted bs (requested no_prefix 0 (op8 size (8 * k + 2)) reg base hi size rm) [] ->
  k = 0 \/ k = 1 \/ k = 4 \/ k = 5 \/ k = 6 \/ k = 7 ->
  is_size_P size -> plain_reg reg -> rm_ok rm ->
  alu k (8 * size) (regs m reg mod 2 ^ (8 * size)) (rmval m size rm) = Some (x, f) ->
  exists m', runs bs m m' /\ did m m' reg size x /\ fl m' = Some f.
Proof.
  intros bs k reg base hi size rm m x f He Hk Hs Hr Hrm Ha. destruct (Z.eq_dec k 7) as [->|K7].
  - assert (x = None) by (cbn in Ha; congruence). subst x.
    destruct (I_cmp bs reg base hi size rm m f He Hs Hr Hrm Ha) as (m' & A & B & C & D). exists m'. cbn [did]. auto.
  - destruct x as [v|].
    + destruct (I_alu bs k reg base hi size rm m v f He ltac:(lia) Hs Hr Hrm Ha) as (m' & A & B & C). exists m'. auto.
    + exfalso. unfold alu in Ha. destruct Hk as [->|[->|[->|[->|[->| ->]]]]]; cbn in Ha; try discriminate. lia.
Qed.

Lemma legal_bin : forall k size, k = 0 \/ k = 1 \/ k = 4 \/ k = 5 \/ k = 6 \/ k = 7 -> legal_opcode 0 (op8 size (8 * k + 2)).
Proof.
  intros k size Hk. apply legal0. unfold op8. destruct Hk as [->|[->|[->|[->|[->| ->]]]]]; destruct (size =? 1); reflexivity.
Qed.

(** What an operation that consumes operands with footprint [fp] leaves. *)
Definition yields (s : emitter) (m : machine) (s' : emitter) (m' : machine) (M0 : Z -> Z) (L : list item)
                  (fp : list nat) (o' : op) (id' : nat) : Prop :=
  exists fp', sim s' m' M0 ((o', id', fp') :: L) /\ trans s m s' m' /\ frame s s' (0%nat :: fp) /\ clear s' fp' /\
    (forall i, In i fp' -> In i fp \/ (length (heap s) <= i)%nat) /\ (length (heap s) <= length (heap s'))%nat.

Lemma ids_exist : forall s m M0 L o id fp i, sim s m M0 ((o, id, fp) :: L) -> In i fp -> exists l, nth_error (heap s) i = Some l.
Proof. intros s m M0 L o id fp i H Hi. eapply holds_ids; [eapply sim_head, H|exact Hi]. Qed.

Lemma frame_clear : forall s s' fp g, frame s s' fp -> clear s g -> (forall i, In i g -> ~ In i fp) ->
  (forall i, In i g -> exists l, nth_error (heap s) i = Some l) -> clear s' g.
Proof.
  intros s s' fp g F C N Ex i l' Hi E'. destruct (Ex i Hi) as (l & E). destruct (C i l Hi E) as (C1 & C2).
  destruct (F i l E (N i Hi)) as [E1|(_ & r & t & _ & E1)].
  - assert (l' = l) by congruence. subst. auto.
  - assert (l' = mkloc (RegRel 0 None 0 (- (ss + t))) (l_size l) 0 (l_prevent_freeing l)) by congruence. subst. auto.
Qed.

Lemma frame_lock : forall s id l (f : location -> location) fp, In id fp -> frame s (in_heap (replace_nth id (f l) (heap s)) s) fp.
Proof. intros s id l f fp Hi j k E N. left. cbn. rewrite replace_diff by congruence. exact E. Qed.

Lemma loads_reg : forall s m M0 L n v id fp r, sim s m M0 ((Rv n v, id, fp) :: L) -> in_reg s id r n ->
  fp = [id] /\ In r volatile /\ rmap s r = Some id /\ is_size_P n /\ regs m r mod 2 ^ (8 * n) = v /\ id <> 0%nat.
Proof.
  intros s m M0 L n v id fp r H (l & E & S & Z).
  destruct (holds_loaded _ _ _ _ _ _ _ _ (sim_head _ _ _ _ _ _ _ H) (sim_wf _ _ _ _ H) E S) as (_ & A & B & [(C & _)|(_ & C & D & F)]); [discriminate|].
  repeat (split; [assumption|]). intros ->. destruct (wf_map _ _ _ (sim_wf _ _ _ _ H) r _ D) as (_ & k & Ek & Sk & _).
  destruct (wf_bp _ _ _ (sim_wf _ _ _ _ H)) as (k' & Ek' & Sk' & _). assert (r = 5) by congruence. subst. cbn in C. lia.
Qed.

Lemma same_size : forall s id l, nth_error (heap s) id = Some l -> in_heap (replace_nth id (with_size (l_size l) l) (heap s)) s = s.
Proof. intros s id l E. rewrite replace_id by (rewrite E; destruct l; reflexivity). apply in_heap_same. Qed.

(** The second operand of a binary operation, and the instruction. *)
Lemma binary_source : forall k n a b rd dest ld rhs fpr o s src s' m M0 L x f,
  k = 0 \/ k = 1 \/ k = 4 \/ k = 5 \/ k = 6 \/ k = 7 ->
  sim s m M0 ((o, rhs, fpr) :: (Rv n a, dest, [dest]) :: L) -> clear s fpr -> good M0 o -> o <> Bp -> osize o = n -> val M0 o = b ->
  nth_error (heap s) dest = Some ld -> l_state ld = Loaded rd -> l_size ld = n -> l_prevent_spilling ld <> 0 ->
  alu k (8 * n) a b = Some (x, f) ->
  (d <- get dest ;; sl <- get rhs ;;
   let with_loaded source :=
    ls <- get source ;;
    assertion (l_size d =? l_size ls) ;;;
    emit_register_register no_prefix (one_byte_opcode (if l_size ls =? 1 then 8 * k + 2 else 8 * k + 3)) dest source ;;;
    ret source in
   match l_state sl with
            | Immediate v =>
                if (l_size sl =? 8) || ((l_size sl =? 4) && negb false && (2147483647 <? v)) then
                  source <- emit_load_gpr ss rhs ;;
                  modify source (with_size (l_size d)) ;;;
                  with_loaded source
                else
                  let small := (l_size sl =? 1) && (false || (v <? 127)) in
                  (if (l_size sl =? 1) && negb small then modify rhs (with_size (l_size d)) else ret tt) ;;;
                  let inst := if n =? 1 then 0x80 else if small then 0x83 else 0x81 in
                  emit_reg_extended_op no_prefix (one_byte_opcode inst) k dest ;;;
                  s <- get rhs ;;
                  out (if l_size s =? 1 then emit v
                       else if n =? 1 then emit v
                       else if n =? 2 then emit_bytes 2 v else emit_u32 v) ;;;
                  ret rhs
            | Loaded _ => with_loaded rhs
            | RegRel _ _ _ _ =>
                assertion (l_size d =? l_size sl) ;;;
                r <- loaded_register dest ;;
                emit_register_relative_register ss no_prefix (one_byte_opcode (if l_size sl =? 1 then 8 * k + 2 else 8 * k + 3)) r rhs ;;;
                ret rhs
            | _ => crash
            end) s = Done (src, s') -> tsa s' <= TL ->
  exists m' o' fps, trans s m s' m' /\ sim s' m' M0 ((o', src, fps) :: (Rv n (after x n a), dest, [dest]) :: L) /\
    frame s s' fpr /\ nth_error (heap s') dest = Some ld /\ fl m' = Some f /\
    (forall i, In i fps -> In i fpr \/ (length (heap s) <= i)%nat) /\ (length (heap s) <= length (heap s'))%nat.
Proof.
  intros k n a b rd dest ld rhs fpr o s src s' m M0 L x f Hk H Hcl Hg Hbp Hsz Hb Ed Sd Zd Pd Ha E HT.
  assert (Ird : in_reg s dest rd n) by (exists ld; auto).
  destruct (loads_reg _ _ _ _ _ _ _ _ _ (sim_swap _ _ _ _ _ _ H) Ird) as (_ & Hrd & Mrd & Hn & Vrd & Nd0).
  destruct (volatile_plain rd Hrd) as (Prd & Ird' & _).
  assert (Ndr : ~ In dest fpr).
  { intro Hi. apply (sim_disjoint _ _ _ _ _ _ _ H Hi). left. reflexivity. }
  unbind E d s1 E1. apply get_inv' in E1. destruct E1 as (Ed' & ->). assert (d = ld) by congruence. subst d. clear Ed'.
  unbind E sl s1 E1. apply get_inv' in E1. destruct E1 as (Er & ->). cbv zeta in E.
  pose proof (sim_head _ _ _ _ _ _ _ H) as Hh. pose proof (sim_wf _ _ _ _ H) as W.
  assert (Nr0 : rhs <> 0%nat).
  { intros ->. destruct (holds_id _ _ _ _ _ Hh) as [(Hx & _)|(_ & Hx)]; [congruence|]. eapply holds_nonzero; eassumption. }
  (* the register form *)
  assert (RR : forall s0 m0 source fps (src0 : nat) s0', sim s0 m0 M0 ((Rv n b, source, fps) :: (Rv n a, dest, [dest]) :: L) ->
     nth_error (heap s0) dest = Some ld ->
     (ls <- get source ;;
      assertion (l_size ld =? l_size ls) ;;;
      emit_register_register no_prefix (one_byte_opcode (if l_size ls =? 1 then 8 * k + 2 else 8 * k + 3)) dest source ;;;
      ret source) s0 = Done (src0, s0') ->
     src0 = source /\ exists m0' bs, s0' = in_code (code s0 ++ bs) s0 /\ runs bs m0 m0' /\ fl m0' = Some f /\
       sim s0' m0' M0 ((Rv n b, source, fps) :: (Rv n (after x n a), dest, [dest]) :: L)).
  { intros s0 m0 source fps src0 s0' H0 Ed0 F. unbind F ls s2 F1. apply get_inv' in F1. destruct F1 as (Els & ->).
    unbind F u1 s2 F1. apply assertion_inv' in F1. destruct F1 as (Hse & ->). apply Z.eqb_eq in Hse.
    unbind F u2 s2 F1. apply ret_inv in F. destruct F as (-> & ->). split; [reflexivity|].
    unfold emit_register_register in F1. unbind F1 la s3 F2. apply get_inv' in F2. destruct F2 as (Ea & ->).
    unbind F1 lb s3 F2. apply get_inv' in F2. destruct F2 as (Eb & ->). assert (la = ld) by congruence. subst la.
    assert (lb = ls) by congruence. subst lb. rewrite Sd in F1. destruct (l_state ls) as [rs| | | |] eqn:Sls; try discriminate.
    unbind F1 u3 s3 F2. apply assertion_inv' in F2. destruct F2 as (_ & ->).
    unfold emit_op in F1. unbind F1 bs s3 F2. apply lift_inv' in F2. destruct F2 as (Hbs & ->). apply out_inv in F1.
    assert (Irs : in_reg s0 source rs n) by (exists ls; repeat split; congruence).
    destruct (loads_reg _ _ _ _ _ _ _ _ _ H0 Irs) as (_ & Hrs & Mrs & _ & Vrs & _).
    assert (Ird0 : in_reg s0 dest rd n) by (exists ld; auto).
    destruct (loads_reg _ _ _ _ _ _ _ _ _ (sim_swap _ _ _ _ _ _ H0) Ird0) as (_ & _ & Mrd0 & _ & Vrd0 & _).
    destruct (volatile_plain rs Hrs) as (Prs & Irs' & _).
    assert (Em : emitted (bs ++ []) (requested no_prefix 0 (op8 n (8 * k + 2)) rd rs false n (RmReg rs)) []).
    { apply emitted_reg; [apply legal_bin, Hk|exact Ird'|exact Irs'|]. rewrite Zd in Hse. rewrite <- Hse in Hbs. rewrite Zd in Hbs.
      unfold op8. replace (8 * k + 2 + 1) with (8 * k + 3) by lia. destruct (n =? 1); exact Hbs. }
    rewrite app_nil_r in Em.
    destruct (I_bin bs k rd rs false n (RmReg rs) m0 x f Em Hk Hn Prd Prs) as (m0' & Rn & Dd & Fl).
    { cbn [rmval]. rewrite Vrd0, Vrs. exact Ha. }
    exists m0', bs. split; [exact F1|]. split; [exact Rn|]. split; [exact Fl|].
    rewrite F1. apply sim_code. apply sim_swap. eapply sim_did; [apply sim_swap; exact H0|exact Dd|exact Mrd0|exact Hn]. }
  destruct (l_state sl) as [rs|v|ib idx sc off|c|] eqn:S; try discriminate.
  - (* register *)
    destruct (holds_loaded _ _ _ _ _ _ _ _ Hh W Er S) as (Hsl & _ & Hv & [(Hx & _)|((w & Ho) & _)]); [congruence|].
    assert (Ho' : o = Rv n b) by (rewrite <- Hb, <- Hsz, Ho; reflexivity).
    rewrite Ho' in H. destruct (RR s m rhs fpr src s' H Ed E) as (-> & m' & bs & Es' & Rn & Fl & Hs').
    exists m', (Rv n b), fpr. split; [exists bs; rewrite Es'; auto|]. split; [exact Hs'|].
    split; [intros i l El _; left; rewrite Es'; exact El|]. split; [rewrite Es'; exact Ed|]. split; [exact Fl|].
    split; [auto|]. rewrite Es'. cbn. lia.
  - (* immediate *)
    assert (Hop : o = Im n v /\ l_size sl = n /\ fpr = [rhs]).
    { destruct Hh as [|id l0 q n0 v0 E0 S0 Z P R V|id l0 t n0 v0 E0 S0 Z P T V|id l0 n0 w0 E0 S0 Z P
       |id l0 ib' off' n0 b0 fp E0 S0 Z Hb'|id l0 t n0 k0 v0 E0 S0 Z P K T V]; try (assert (l0 = sl) by congruence; subst l0); try congruence.
      cbn [osize] in Hsz. subst n0. repeat split; congruence. }
    destruct Hop as (Ho & Hsl & Hfr).
    destruct ((l_size sl =? 8) || ((l_size sl =? 4) && negb false && (2147483647 <? v))) eqn:Big.
    + unbind E source s1 E1. unbind E u1 s2 E2.
      assert (HT1 : tsa s1 <= TL).
      { pose proof (q_tsa _ _ (quiet_modify _ _ _ _ _ E2)).
        assert (tsa s2 <= tsa s').
        { assert (Q : quiet (ls <- get source ;; assertion (l_size ld =? l_size ls) ;;;
             emit_register_register no_prefix (one_byte_opcode (if l_size ls =? 1 then 8 * k + 2 else 8 * k + 3)) dest source ;;; ret source)) by quiet_auto.
          eapply q_tsa, (Q _ _ _ E). }
        lia. }
      destruct (load_ok_emit _ _ _ _ _ _ _ _ _ H (or_introl Hcl) Hg E1 HT1) as (m1 & (fps & A & B & C & (rs & D) & F & G & K) & _).
      rewrite loaded_no_bp, Hsz, Hb in A, D by exact Hbp. cbn [osize] in D. destruct D as (ls & Els & Sls & Zls).
      apply modify_inv in E2. destruct E2 as (l2 & El2 & Es2). assert (l2 = ls) by congruence. subst l2.
      rewrite Zd, <- Zls, (same_size _ _ _ Els) in Es2. subst s2.
      assert (Ed1 : nth_error (heap s1) dest = Some ld) by (eapply frame_locked; [exact C|exact Ed|exact Ndr|exact Pd]).
      destruct (RR s1 m1 source fps src s' A Ed1 E) as (-> & m' & bs & Es' & Rn & Fl & Hs').
      exists m', (Rv n b), fps. split; [eapply trans_trans; [exact B|exists bs; rewrite Es'; auto]|]. split; [exact Hs'|].
      split; [eapply frame_trans with (b := s1) (f2 := []); [exact C| |intros ? []]; intros i l El _; left; rewrite Es'; exact El|].
      split; [rewrite Es'; exact Ed1|]. split; [exact Fl|]. split.
      * assert (IRs : in_reg s1 source rs n) by (exists ls; auto).
        destruct (loads_reg _ _ _ _ _ _ _ _ _ A IRs) as (-> & _). intros i [<-|[]]. destruct K as [(_ & -> & _)|K]; [left; rewrite Hfr; left; reflexivity|right; exact K].
      * rewrite Es'. cbn. apply (q_heap _ _ (quiet_load ss rhs _ _ _ E1)).
    + apply orb_false_iff in Big. destruct Big as (B8 & B4). rewrite Hsl in E, B8, B4. cbn [negb andb orb] in E, B4.
      assert (Hnn : n = 1 \/ n = 2 \/ n = 4) by (apply Z.eqb_neq in B8; unfold is_size_P in Hn; lia).
      unbind E u1 s1 E1.
      assert (s1 = s).
      { destruct ((n =? 1) && negb ((n =? 1) && (v <? 127))) eqn:Q.
        - apply modify_inv in E1. destruct E1 as (l2 & El2 & Es2). assert (l2 = sl) by congruence. subst l2.
          rewrite Zd, <- Hsl, (same_size _ _ _ Er) in Es2. exact Es2.
        - apply ret_inv in E1. apply E1. }
      subst s1. unbind E u2 s1 E2. unbind E s0 s2 E3. apply get_inv' in E3. destruct E3 as (Es0 & ->).
      unbind E u3 s2 E4. apply out_inv in E4. apply ret_inv in E. destruct E as (-> & ->).
      unfold emit_reg_extended_op in E2. unbind E2 l2 s3 E5. apply get_inv' in E5. destruct E5 as (El2 & ->).
      assert (l2 = ld) by congruence. subst l2. rewrite Sd in E2. unfold emit_op in E2. unbind E2 bs s3 E5. apply lift_inv' in E5.
      destruct E5 as (Hbs & ->). apply out_inv in E2. rewrite E2 in Es0. cbn in Es0. assert (s0 = sl) by congruence. subst s0. rewrite Hsl in E4.
      rewrite E2 in E4. cbn [code in_code] in E4. rewrite Zd in Hbs.
      set (inst := if n =? 1 then 0x80 else 0x81).
      assert (Hinst : (if n =? 1 then 128 else if (n =? 1) && (v <? 127) then 131 else 129) = inst).
      { unfold inst. destruct (n =? 1); reflexivity. }
      rewrite Hinst in Hbs.
      assert (Himm : (if n =? 1 then emit v else if n =? 1 then emit v else if n =? 2 then emit_bytes 2 v else emit_u32 v)
                     = emit_bytes (alu_imm_size inst n) v).
      { destruct Hnn as [->|[->| ->]]; reflexivity. }
      rewrite Himm in E4.
      assert (Em : emitted (bs ++ emit_bytes (alu_imm_size inst n) v) (requested no_prefix 0 inst k rd false n (RmReg rd)) (emit_bytes (alu_imm_size inst n) v)).
      { apply emitted_reg; [apply legal0; unfold inst; destruct (n =? 1); reflexivity| |exact Ird'|exact Hbs].
        unfold is_register. lia. }
      destruct (I_alu_imm _ inst k k rd false n rd v m x f Em) as (m' & Rn & Dd & Fl).
      { unfold inst. destruct (n =? 1); auto. }
      { unfold inst. destruct Hnn as [->|[->| ->]]; cbn; split; intro; congruence. }
      { reflexivity. }
      { exact Hn. }
      { exact Prd. }
      { assert (Hw : wraps (8 * Z.of_nat (alu_imm_size inst n)) v mod 2 ^ (8 * n) = b).
        { rewrite <- Hb, Ho. cbn [val]. destruct Hnn as [->|[->| ->]]; (apply wraps_mod_eq; reflexivity). }
        rewrite Hw, Vrd. exact Ha. }
      exists m', o, fpr. rewrite <- app_assoc in E4.
      change (in_code (code s ++ bs ++ emit_bytes (alu_imm_size inst n) v) (in_code (code s ++ bs) s))
        with (in_code (code s ++ bs ++ emit_bytes (alu_imm_size inst n) v) s) in E4.
      split; [eexists; rewrite E4; split; [reflexivity|exact Rn]|]. split.
      { rewrite E4. apply sim_code with (c := code s ++ bs ++ emit_bytes (alu_imm_size inst n) v).
        apply sim_swap. eapply sim_did; [apply sim_swap; exact H|exact Dd|exact Mrd|exact Hn]. }
      split; [intros i l El _; left; rewrite E4; exact El|]. split; [rewrite E4; exact Ed|]. split; [exact Fl|].
      split; [auto|]. rewrite E4. cbn. lia.
  - (* memory *)
    unbind E u1 s1 E1. apply assertion_inv' in E1. destruct E1 as (Hse & ->). apply Z.eqb_eq in Hse.
    unbind E r s1 E1. apply loaded_register_inv in E1. destruct E1 as (-> & l2 & El2 & Sl2).
    assert (l2 = ld) by congruence. subst l2. assert (r = rd) by congruence. subst r.
    unbind E u2 s2 E2. apply ret_inv in E. destruct E as (-> & ->).
    assert (Hso : is_size_P (osize o)) by (rewrite Hsz; exact Hn).
    destruct (peek_val _ _ _ _ _ _ _ _ _ _ _ Hh Hg Nr0 Er S Hso) as (Hrdb & Hpk & Hgb & Ho8).
    destruct (rr_spec (emit_load_gpr ss) no_prefix _ rd rhs None s u2 s2 m M0 _ o fpr sl ib idx sc off load_ok_emit (quiet_load ss) H Er S (or_introl Hcl) Hgb Ho8 E2 HT)
      as (m1 & s1 & rb & bs & fp1 & T1 & Hs1 & F1 & _ & Hbs & _ & Es2 & Hrb & Hrbv & _ & Hval & _ & _ & Hfp1 & _ & _).
    assert (Hssl : l_size sl = n) by congruence.
    assert (Ed1 : nth_error (heap s1) dest = Some ld) by (eapply frame_locked; [exact F1|exact Ed|exact Ndr|exact Pd]).
    assert (Ird1 : in_reg s1 dest rd n) by (exists ld; auto).
    destruct (loads_reg _ _ _ _ _ _ _ _ _ (sim_swap _ _ _ _ _ _ Hs1) Ird1) as (_ & _ & Mrd1 & _ & Vrd1 & _).
    rewrite Hssl, Hsz in Hbs.
    assert (Em : emitted (fst bs) (requested no_prefix 0 (op8 n (8 * k + 2)) rd rb (high (-1)) n (RmMem (BaseReg rb) None off)) []).
    { apply (emitted_rel 0 (op8 n (8 * k + 2)) rd rb off n None bs (legal_bin k n Hk) Ird' Hrb I).
      unfold op8. replace (8 * k + 2 + 1) with (8 * k + 3) by lia. destruct (n =? 1); exact Hbs. }
    destruct (I_bin _ k rd rb _ n (RmMem (BaseReg rb) None off) m1 x f Em Hk Hn Prd I) as (m2 & Rn & Dd & Fl).
    { rewrite rmval_rel. rewrite Hval by (rewrite <- ?Hsz; assumption || (unfold is_size_P in Hn; lia)).
      rewrite Vrd1. rewrite <- Hsz at 2. rewrite Hpk, Hb. exact Ha. }
    exists m2, (reloaded M0 o), fp1. split; [eapply trans_trans; [exact T1|exists (fst bs); rewrite Es2; auto]|].
    split; [rewrite Es2; apply sim_code, sim_swap; eapply sim_did; [apply sim_swap; exact Hs1|exact Dd|exact Mrd1|exact Hn]|].
    split; [eapply frame_trans with (b := s1) (f2 := []); [exact F1| |intros ? []]; intros i l El _; left; rewrite Es2; exact El|].
    split; [rewrite Es2; exact Ed1|]. split; [exact Fl|]. split; [exact Hfp1|].
    apply (q_heap _ _ (quiet_rr ss _ _ _ _ _ _ _ E2)).
Qed.

Lemma unlock_lock : forall s s' id l, nth_error (heap s) id = Some l -> nth_error (heap s') id = Some (with_ps 1 l) ->
  nth_error (heap (in_heap (replace_nth id (with_ps (-1) (with_ps 1 l)) (heap s')) s')) id = Some l.
Proof. intros s s' id l E E'. cbn. rewrite (replace_same _ _ _ _ _ E'). f_equal. destruct l as [a b c d]. unfold with_ps. cbn. f_equal. lia. Qed.

Lemma binary_spec : forall k n a lhs rhs fpl fpr ol or s id s' m M0 L x f,
  k = 0 \/ k = 1 \/ k = 4 \/ k = 5 \/ k = 6 \/ k = 7 ->
  sim s m M0 ((ol, lhs, fpl) :: (or, rhs, fpr) :: L) -> clear s fpl -> clear s fpr -> good M0 ol -> good M0 or ->
  ol <> Bp -> or <> Bp -> osize ol = n -> osize or = n -> val M0 ol = a ->
  alu k (8 * n) a (val M0 or) = Some (x, f) ->
  emit_binary_op ss no_prefix lhs rhs n false k (8 * k + 2) (8 * k + 3) s = Done (id, s') -> tsa s' <= TL ->
  exists m', yields s m s' m' M0 L (fpl ++ fpr) (Rv n (after x n a)) id /\ fl m' = Some f.
Proof.
  intros k n a lhs rhs fpl fpr ol or s id s' m M0 L x f Hk H Hcl Hcr Hgl Hgr Nl Nr Zl Zr Va Ha E HT.
  unfold emit_binary_op in E. unbind E dest s1 E1.
  later E Q1.
  destruct (load_ok_emit _ _ _ _ _ _ _ _ _ H (or_introl Hcl) Hgl E1 ltac:(lia)) as (m1 & (fpd & A & B & C & (rd & D) & F & G & K) & _).
  rewrite loaded_no_bp, Zl, Va in A, D by exact Nl. cbn [osize] in D.
  destruct (loads_reg _ _ _ _ _ _ _ _ _ A D) as (-> & Hrd & Mrd & Hn & Vrd & Nd0).
  destruct D as (ld & Ed & Sd & Zd). specialize (G Hcl).
  assert (Ndr : ~ In dest fpr).
  { intro Hi. apply (sim_disjoint _ _ _ _ _ _ _ A (or_introl eq_refl)). exact Hi. }
  unbind E u s2 E2. apply lock_inv with (l := ld) in E2; [|exact Ed|congruence].
  assert (H2 : sim s2 m1 M0 ((or, rhs, fpr) :: (Rv n a, dest, [dest]) :: L)).
  { rewrite E2. apply sim_swap. apply (sim_locks _ _ _ _ _ ld); [exact A|exact Ed|split; reflexivity| |]; cbn; pose proof (wf_ps _ _ _ (sim_wf _ _ _ _ A) _ _ Ed); lia. }
  assert (Cr1 : clear s1 fpr).
  { apply (frame_clear s s1 fpl fpr C Hcr).
    - intros i Hi Hj. apply (sim_disjoint _ _ _ _ _ _ _ H Hj). exact Hi.
    - intros i Hi. eapply ids_exist; [apply sim_swap; exact H|exact Hi]. }
  assert (Cr2 : clear s2 fpr).
  { intros i l Hi El. rewrite E2 in El. cbn in El. rewrite replace_diff in El by congruence. apply (Cr1 i l Hi El). }
  assert (Ed2 : nth_error (heap s2) dest = Some (with_ps 1 ld)) by (rewrite E2; cbn; eapply replace_same; exact Ed).
  assert (P2 : l_prevent_spilling (with_ps 1 ld) <> 0) by (cbn; pose proof (wf_ps _ _ _ (sim_wf _ _ _ _ A) _ _ Ed); lia).
  (* the middle *)
  cbv zeta in E.
  match type of E with bind ?g1 ?h1 s2 = _ => 
     assert (Hmid : exists src s3, (d <- get dest ;; sl <- get rhs ;;
   let with_loaded source :=
    ls <- get source ;;
    assertion (l_size d =? l_size ls) ;;;
    emit_register_register no_prefix (one_byte_opcode (if l_size ls =? 1 then 8 * k + 2 else 8 * k + 3)) dest source ;;;
    ret source in
   match l_state sl with
            | Immediate v =>
                if (l_size sl =? 8) || ((l_size sl =? 4) && negb false && (2147483647 <? v)) then
                  source <- emit_load_gpr ss rhs ;;
                  modify source (with_size (l_size d)) ;;;
                  with_loaded source
                else
                  let small := (l_size sl =? 1) && (false || (v <? 127)) in
                  (if (l_size sl =? 1) && negb small then modify rhs (with_size (l_size d)) else ret tt) ;;;
                  let inst := if n =? 1 then 0x80 else if small then 0x83 else 0x81 in
                  emit_reg_extended_op no_prefix (one_byte_opcode inst) k dest ;;;
                  s <- get rhs ;;
                  out (if l_size s =? 1 then emit v
                       else if n =? 1 then emit v
                       else if n =? 2 then emit_bytes 2 v else emit_u32 v) ;;;
                  ret rhs
            | Loaded _ => with_loaded rhs
            | RegRel _ _ _ _ =>
                assertion (l_size d =? l_size sl) ;;;
                r <- loaded_register dest ;;
                emit_register_relative_register ss no_prefix (one_byte_opcode (if l_size sl =? 1 then 8 * k + 2 else 8 * k + 3)) r rhs ;;;
                ret rhs
            | _ => crash
            end) s2 = Done (src, s3) /\ (allow_spilling dest ;;; free_emit_location src ;;; ret dest) s3 = Done (id, s')) end.
  { unbind E d s3 E3. apply get_inv' in E3. destruct E3 as (Ed3 & ->). unbind E sl s3 E3. apply get_inv' in E3. destruct E3 as (Er & ->).
    unbind E src s3 E3. exists src, s3. split; [|exact E].
    rewrite (bind_done _ _ _ _ _ _ _ (get_done _ _ _ Ed3)). rewrite (bind_done _ _ _ _ _ _ _ (get_done _ _ _ Er)). exact E3. }
  destruct Hmid as (src & s3 & Em & E3). clear E.
  later E3 Q3.
  destruct (binary_source k n a (val M0 or) rd dest (with_ps 1 ld) rhs fpr or s2 src s3 m1 M0 L x f Hk H2 Cr2 Hgr Nr Zr eq_refl Ed2 Sd Zd P2 Ha Em
             ltac:(lia)) as (m3 & o' & fps & T3 & H3 & F3 & Ed3 & Fl & Hfps & Ln).
  unbind E3 u1 s4 E4. apply allow_inv with (l := with_ps 1 ld) in E4; [|exact Ed3|cbn; congruence]. destruct E4 as (E4 & _).
  assert (H4 : sim s4 m3 M0 ((o', src, fps) :: (Rv n (after x n a), dest, [dest]) :: L)).
  { rewrite E4. apply sim_swap. apply (sim_locks _ _ _ _ _ (with_ps 1 ld)); [apply sim_swap; exact H3|exact Ed3|split; reflexivity| |];
    cbn; pose proof (wf_ps _ _ _ (sim_wf _ _ _ _ A) _ _ Ed); lia. }
  unbind E3 u2 s5 E5. apply ret_inv in E3. destruct E3 as (-> & ->).
  destruct (free_spec _ _ _ _ _ _ _ _ _ H4 E5) as (Fr & H5 & F5 & T5).
  exists m3. split; [|exact Fl]. exists [dest].
  split; [exact H5|]. split.
  { eapply trans_trans; [exact B|]. eapply trans_trans with (b := s2) (mb := m1).
    { rewrite E2. exists []. cbn. rewrite app_nil_r. split; [reflexivity|apply runs_nil]. }
    eapply trans_trans; [exact T3|]. eapply trans_trans with (b := s4) (mb := m3); [|exact T5].
    rewrite E4. exists []. cbn. rewrite app_nil_r. split; [reflexivity|apply runs_nil]. }
  assert (L1 : (length (heap s) <= length (heap s1))%nat) by apply (q_heap _ _ (quiet_load ss lhs _ _ _ E1)).
  assert (L2 : length (heap s2) = length (heap s1)) by (rewrite E2; cbn; apply length_replace).
  assert (L4 : length (heap s4) = length (heap s3)) by (rewrite E4; cbn; apply length_replace).
  assert (Fd : forall i, In i [dest] -> In i fpl \/ (length (heap s) <= i)%nat).
  { intros i [<-|[]]. destruct K as [(_ & _ & _ & _ & <-)|K]; [left; left; reflexivity|right; exact K]. }
  assert (Fs : frame s s5 (fpl ++ fpr)).
  { apply frame_trans with (b := s1) (f2 := dest :: fpr).
    - apply (frame_weaken _ _ _ _ C). intros i Hi. apply in_or_app. left. exact Hi.
    - apply frame_trans with (b := s2) (f2 := dest :: fpr).
      + rewrite E2. apply frame_lock. left. reflexivity.
      + apply frame_trans with (b := s3) (f2 := dest :: fps).
        * apply (frame_weaken _ _ _ _ F3). intros i Hi. right. exact Hi.
        * apply frame_trans with (b := s4) (f2 := dest :: fps).
          -- rewrite E4. apply frame_lock. left. reflexivity.
          -- apply (frame_weaken _ _ _ _ F5). intros i Hi. right. exact Hi.
          -- auto.
        * intros i [<-|Hi] Lt; [left; reflexivity|]. destruct (Hfps i Hi) as [Hx|Hx]; [right; exact Hx|lia].
      + auto.
    - intros i [<-|Hi] Lt; apply in_or_app; [|right; exact Hi]. destruct (Fd dest (or_introl eq_refl)) as [Hx|Hx]; [left; exact Hx|lia]. }
  split; [apply (frame_weaken _ _ _ _ Fs); intros i Hi; right; exact Hi|].
  split.
  { intros i l [<-|[]] El. assert (Nds : ~ In dest fps).
    { intro Hi. apply (sim_disjoint _ _ _ _ _ _ _ H4 Hi). left. reflexivity. }
    rewrite (f_heap _ _ _ _ _ Fr _ Nds) in El. rewrite E4 in El. rewrite (unlock_lock s1 s3 dest ld Ed Ed3) in El.
    assert (l = ld) by congruence. subst l. apply (G dest ld (or_introl eq_refl) Ed). }
  split; [intros i Hi; destruct (Fd i Hi); [left; apply in_or_app; left; assumption|right; assumption]|].
  rewrite (f_len _ _ _ _ _ Fr). lia.
Qed.
End Sim.
