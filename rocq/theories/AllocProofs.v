(** Proofs about the register allocator (C16). *)
From Coq Require Import Permutation.
From Verif Require IntProofs.
From Verif Require Import Base EncModel EmitModel X64Machine StepProofs ExecProofs EmitBasics EmitSim AllocModel AllocSpec.

(** ** Slots are disjoint *)
Section Slots.
Variable ss : Z.

Record slots_ok (s : emitter) : Prop := {
  so_tsa : 0 <= tsa s;
  so_in : forall i l b x k off, nth_error (heap s) i = Some l -> l_state l = RegRel b x k off ->
    - (ss + tsa s) <= off /\ off + l_size l <= - ss /\ 0 < l_size l;
  so_apart : forall i j l l' b x k off b' x' k' off', i <> j -> nth_error (heap s) i = Some l -> nth_error (heap s) j = Some l' ->
    l_state l = RegRel b x k off -> l_state l' = RegRel b' x' k' off' -> off + l_size l <= off' \/ off' + l_size l' <= off }.

Definition keeps {A} (e : M A) : Prop := forall s a s', e s = Done (a, s') -> slots_ok s -> slots_ok s'.

(** A change of a location that does not make a slot nor move one. *)
Definition tame (l l' : location) : Prop := forall b x k off, l_state l' = RegRel b x k off ->
  l_size l' = l_size l /\ exists b' x' k', l_state l = RegRel b' x' k' off.

Lemma slots_set : forall s id l l', slots_ok s -> nth_error (heap s) id = Some l -> tame l l' -> slots_ok (in_heap (replace_nth id l' (heap s)) s).
Proof.
  intros s id l l' [T0 I A] E T.
  assert (G : forall i k b x c off, nth_error (replace_nth id l' (heap s)) i = Some k -> l_state k = RegRel b x c off ->
     exists k0 b' x' c', nth_error (heap s) i = Some k0 /\ l_state k0 = RegRel b' x' c' off /\ l_size k = l_size k0).
  { intros i k b x c off Ek S. destruct (Nat.eq_dec id i) as [<-|N].
    - rewrite (replace_same _ _ _ _ _ E) in Ek. assert (k = l') by congruence. subst k. destruct (T _ _ _ _ S) as (Z & b' & x' & c' & S').
      exists l, b', x', c'. auto.
    - rewrite replace_diff in Ek by exact N. exists k, b, x, c. auto. }
  split; cbn [heap tsa in_heap]; [exact T0| |].
  - intros i k b x c off Ek S. destruct (G _ _ _ _ _ _ Ek S) as (k0 & b' & x' & c' & E0 & S0 & ->). eapply I; eassumption.
  - intros i j k k' b x c off b' x' c' off' N Ek Ek' S S'.
    destruct (G _ _ _ _ _ _ Ek S) as (k0 & ? & ? & ? & E0 & S0 & ->). destruct (G _ _ _ _ _ _ Ek' S') as (k1 & ? & ? & ? & E1 & S1 & ->).
    eapply A; eassumption.
Qed.
Lemma slots_new : forall s l, slots_ok s -> (forall b x k off, l_state l <> RegRel b x k off) -> slots_ok (in_heap (heap s ++ [l]) s).
Proof.
  intros s l [T0 I A] T.
  assert (G : forall i k b x c off, nth_error (heap s ++ [l]) i = Some k -> l_state k = RegRel b x c off -> nth_error (heap s) i = Some k).
  { intros i k b x c off Ek S. destruct (Nat.lt_ge_cases i (length (heap s))) as [Lt|Ge].
    - rewrite nth_error_app1 in Ek by exact Lt. exact Ek.
    - rewrite nth_error_app2 in Ek by exact Ge. destruct (i - length (heap s))%nat as [|[|]]; cbn in Ek; try discriminate.
      assert (k = l) by congruence. subst k. destruct (T _ _ _ _ S). }
  split; cbn [heap tsa in_heap]; [exact T0|intros; eapply I; eauto|intros; eapply A; eauto].
Qed.

Lemma keeps_ret : forall A (a : A), keeps (ret a).
Proof. intros A a s b s' E. apply ret_inv in E. destruct E as (_ & ->). auto. Qed.
Lemma keeps_crash : forall A, keeps (@crash A).
Proof. intros A s b s' E. discriminate. Qed.
Lemma keeps_bind : forall A B (e : M A) (f : A -> M B), keeps e -> (forall a, keeps (f a)) -> keeps (bind e f).
Proof. intros A B e f He Hf s b s' E. apply bind_inv in E. destruct E as (a & s1 & E1 & E2). intro. eapply Hf; [exact E2|]. eapply He; eassumption. Qed.
Lemma keeps_assertion : forall b, keeps (assertion b).
Proof. intros [|]; [apply keeps_ret|apply keeps_crash]. Qed.
Lemma keeps_get : forall id, keeps (get id).
Proof. intros id s l s' E. apply get_inv' in E. destruct E as (_ & ->). auto. Qed.
Lemma keeps_out : forall bs, keeps (out bs).
Proof. intros bs s u s' E. apply out_inv in E. subst s'. intros [T0 I A]. split; assumption. Qed.
Lemma keeps_lift : forall A (x : outcome A), keeps (lift x).
Proof. intros A x s a s' E. apply lift_inv' in E. destruct E as (_ & ->). auto. Qed.
Lemma keeps_set_map : forall r x, keeps (set_map r x).
Proof. intros r x s u s' E. unfold set_map in E. assert (s' = in_map (fun q => if q =? r then x else rmap s q) s) by congruence. subst s'. intros [T0 I A]. split; assumption. Qed.
Lemma keeps_modify : forall id f, (forall l, tame l (f l)) -> keeps (modify id f).
Proof. intros id f T s u s' E. apply modify_inv in E. destruct E as (l & El & ->). intro H. eapply slots_set; [exact H|exact El|apply T]. Qed.
Lemma keeps_new : forall l, (forall b x k off, l_state l <> RegRel b x k off) -> keeps (new l).
Proof. intros l T s id s' E. unfold new in E. assert (s' = in_heap (heap s ++ [l]) s) by congruence. subst. intro. apply slots_new; assumption. Qed.
Lemma keeps_match_state : forall A x (f1 : Z -> M A) f2 f3 f4 f5, (forall r, keeps (f1 r)) -> (forall v, keeps (f2 v)) -> (forall b i k o, keeps (f3 b i k o)) ->
  (forall c, keeps (f4 c)) -> keeps f5 ->
  keeps (match x with Loaded r => f1 r | Immediate v => f2 v | RegRel b i k o => f3 b i k o | Conditional c => f4 c | Freed => f5 end).
Proof. intros A [] *; auto. Qed.
Lemma tame_same : forall l l', l_state l' = l_state l -> l_size l' = l_size l -> tame l l'.
Proof. intros l l' S Z b x k off E. split; [exact Z|]. rewrite S in E. eauto. Qed.

Ltac keeps_core :=
  lazymatch goal with
  | |- keeps (bind _ _) => apply keeps_bind; [|intro]
  | |- keeps (ret _) => apply keeps_ret
  | |- keeps crash => apply keeps_crash
  | |- keeps (assertion _) => apply keeps_assertion
  | |- keeps (get _) => apply keeps_get
  | |- keeps (set_map _ _) => apply keeps_set_map
  | |- keeps (out _) => apply keeps_out
  | |- keeps (lift _) => apply keeps_lift
  | |- keeps (modify _ (with_ps _)) => apply keeps_modify; intro; apply tame_same; reflexivity
  | |- keeps (modify _ _) => apply keeps_modify; intros [[] ? ? ?]; try (apply tame_same; reflexivity)
  | |- keeps (match ?x with _ => _ end) => destruct x
  end.
Create HintDb keeps.
Ltac keeps_auto := repeat first [solve [auto with keeps] | keeps_core].

Lemma keeps_spill : forall r, keeps (spill_register ss r).
Proof.
  intros r s u s' E [T0 I A]. unfold spill_register in E. destruct (rmap s r) as [id|]; [|discriminate].
  unbind E l s1 E1. apply get_inv' in E1. destruct E1 as (El & ->). unbind E u1 s1 E1. apply assertion_inv' in E1. destruct E1 as (_ & ->).
  unbind E u2 s1 E1. apply assertion_inv' in E1. destruct E1 as (Hz & ->). unbind E off s1 E1. unfold allocate_temporary in E1.
  set (n := l_size l) in *. remember (align_up (tsa s) n + n) as t eqn:Et.
  assert (Hoff : off = - (ss + t)) by congruence. assert (Es1 : s1 = in_tsa t s) by congruence. clear E1.
  assert (Hn : 0 < n) by (unfold is_size in Hz; repeat rewrite orb_true_iff in Hz; lia).
  pose proof (align_up_ge (tsa s) n Hn) as (Ht & _).
  unbind E u3 s2 E1. apply set_inv in E1. unbind E u4 s3 E2. unfold set_map in E2.
  assert (Es3 : s3 = in_map (fun q => if q =? r then None else rmap s2 q) s2) by congruence. clear E2.
  apply out_inv in E. assert (Hh : heap s' = replace_nth id (mkloc (RegRel register_bp None 0 off) n 0 (l_prevent_freeing l)) (heap s)).
  { rewrite E, Es3, E1, Es1. reflexivity. }
  assert (Hts : tsa s' = t) by (rewrite E, Es3, E1, Es1; reflexivity). clear E Es3 E1 Es1.
  assert (G : forall i k b x c o, nth_error (heap s') i = Some k -> l_state k = RegRel b x c o ->
     (i = id /\ o = off /\ l_size k = n) \/ (i <> id /\ nth_error (heap s) i = Some k)).
  { intros i k b x c o Ek S. rewrite Hh in Ek. destruct (Nat.eq_dec id i) as [<-|N].
    - left. rewrite (replace_same _ _ _ _ _ El) in Ek.
      assert (k = mkloc (RegRel register_bp None 0 off) n 0 (l_prevent_freeing l)) by congruence. subst k. cbn in S |- *. repeat split; congruence.
    - right. rewrite replace_diff in Ek by exact N. split; congruence. }
  split; [lia| |].
  - intros i k b x c o Ek S. rewrite Hts. destruct (G _ _ _ _ _ _ Ek S) as [(_ & -> & ->)|(_ & Ek')]; [lia|].
    pose proof (I _ _ _ _ _ _ Ek' S). lia.
  - intros i j k k' b x c o b' x' c' o' N Ek Ek' S S'.
    destruct (G _ _ _ _ _ _ Ek S) as [(-> & -> & ->)|(N1 & E1)]; destruct (G _ _ _ _ _ _ Ek' S') as [(-> & -> & ->)|(N2 & E2)].
    + destruct (N eq_refl).
    + left. pose proof (I _ _ _ _ _ _ E2 S'). lia.
    + right. pose proof (I _ _ _ _ _ _ E1 S). lia.
    + exact (A _ _ _ _ _ _ _ _ _ _ _ _ N E1 E2 S S').
Qed.
Hint Resolve keeps_spill : keeps.
Lemma keeps_specific : forall r, keeps (allocate_specific_register ss r).
Proof.
  intros r s a s' E. unfold allocate_specific_register in E. destruct (rmap s r).
  - revert E. apply (keeps_bind _ _ _ _ (keeps_spill r)). intro. apply keeps_ret.
  - assert (s' = s) by congruence. subst. auto.
Qed.
Lemma keeps_allocate : keeps (allocate_register ss).
Proof.
  intros s a s' E H. unfold allocate_register in E. cbv zeta in E.
  match type of E with context [in_rolling ?n s] => set (s1 := in_rolling n s) in * end.
  assert (H1 : slots_ok s1) by (destruct H; split; assumption).
  destruct (first_reg _ _); [assert (s' = s1) by congruence; subst; exact H1|].
  destruct (first_reg _ _); [|discriminate]. revert H1. revert E. apply (keeps_bind _ _ _ _ (keeps_spill _)). intro. apply keeps_ret.
Qed.
Lemma keeps_loaded : forall r n, keeps (emit_location_loaded r n).
Proof.
  intros r n s a s' E. unfold emit_location_loaded in E. destruct (rmap s r); [discriminate|]. revert E.
  apply (keeps_bind _ _ _ _ (keeps_new (mkloc (Loaded r) n 0 0) ltac:(intros; discriminate))). intro. keeps_auto.
Qed.
Hint Resolve keeps_specific keeps_allocate keeps_loaded : keeps.
Lemma keeps_spill_all : forall rs, keeps (spill_all ss rs).
Proof.
  induction rs as [|r rs IH]; intros s a s' E.
  - cbn in E. assert (s' = s) by congruence. subst. auto.
  - cbn [spill_all] in E. destruct (rmap s r); [|eapply IH, E]. revert E. apply (keeps_bind _ _ _ _ (keeps_spill r)). intro. exact IH.
Qed.
Lemma keeps_free_last : forall id, keeps (l <- get id ;; set id (with_state Freed l)).
Proof. intro id. apply (keeps_modify id (with_state Freed)). intros l b x k off E. discriminate. Qed.
Hint Resolve keeps_free_last : keeps.
Lemma keeps_free_loc : forall fuel id, keeps (free_loc fuel id).
Proof. induction fuel as [|fuel IH]; intro id; cbn [free_loc]; [apply keeps_crash|]. keeps_auto. Qed.
Lemma keeps_free : forall id, keeps (free_emit_location id).
Proof. intros id s a s' E. eapply keeps_free_loc. exact E. Qed.
Lemma keeps_unlock : forall id, keeps (unlock id).
Proof. intros id s u s' E. apply unlock_inv in E. destruct E as (l & El & _ & ->). intro H. apply (slots_set s id l _ H El). apply tame_same; reflexivity. Qed.
Hint Resolve keeps_spill_all keeps_free keeps_unlock : keeps.
Lemma keeps_allow : forall id, keeps (allow_spilling id).
Proof. intro. unfold allow_spilling. keeps_auto. Qed.
Lemma keeps_prevent_with : forall ld, (forall id, keeps (ld id)) -> forall id, keeps (prevent_spilling_with ld id).
Proof.
  intros ld H id. unfold prevent_spilling_with. keeps_auto; intros b x k off; cbn; try discriminate; intro E; split; try reflexivity.
  all: inversion E; subst; eauto.
Qed.
Hint Resolve keeps_allow keeps_prevent_with : keeps.
Lemma keeps_rr : forall ld, (forall id, keeps (ld id)) -> forall p o r id im, keeps (register_relative_with ld p o r id im).
Proof. intros. unfold register_relative_with, loaded_register. keeps_auto. Qed.
Lemma keeps_reg_reg : forall p o a b, keeps (emit_register_register p o a b).
Proof. intros. unfold emit_register_register, emit_op. keeps_auto. Qed.
Lemma keeps_ext : forall p o a b, keeps (emit_reg_extended_op p o a b).
Proof. intros. unfold emit_reg_extended_op, emit_op. keeps_auto. Qed.
Hint Resolve keeps_rr keeps_reg_reg keeps_ext : keeps.
Lemma keeps_load_into : forall ld, (forall id, keeps (ld id)) -> forall id r, keeps (load_into_specific_with ss ld id r).
Proof. intros. unfold load_into_specific_with. keeps_auto. Qed.
Hint Resolve keeps_load_into : keeps.
Lemma keeps_load_fuel : forall fuel id, keeps (load_gpr ss fuel id).
Proof. induction fuel as [|fuel IH]; intro id; cbn [load_gpr]; [apply keeps_crash|]. keeps_auto. Qed.
Lemma keeps_load : forall id, keeps (emit_load_gpr ss id).
Proof. intros id s a s' E. eapply keeps_load_fuel. exact E. Qed.
Hint Resolve keeps_load : keeps.

Lemma keeps_serve : forall q c c', slots_ok (fst c) -> serve ss q c = Done c' -> slots_ok (fst c').
Proof.
  assert (Mk : forall c (e : M nat) c', keeps e -> slots_ok (fst c) -> make c e = Done c' -> slots_ok (fst c')).
  { intros c e c' K H E. unfold make in E. destruct (e (fst c)) as [[id s]| |] eqn:Ee; try discriminate. cbn in E.
    assert (s = fst c') by (destruct c'; cbn; congruence). subst s. eapply K; eassumption. }
  assert (Nm : forall c x (f : nat -> M (option nat)) c', (forall id, keeps (f id)) -> slots_ok (fst c) -> named c x f = Done c' -> slots_ok (fst c')).
  { intros c x f c' K H E. unfold named in E. destruct (nth_error (snd c) x) as [[id|]|]; try discriminate.
    destruct (f id (fst c)) as [[id' s]| |] eqn:Ee; try discriminate. cbn in E.
    assert (s = fst c') by (destruct c'; cbn; congruence). subst s. eapply K; eassumption. }
  assert (Un : forall A (c : client) (e : M A) c', keeps e -> slots_ok (fst c) -> obind (e (fst c)) (fun '(_, s) => Done (s, snd c)) = Done c' -> slots_ok (fst c')).
  { intros A c e c' K H E. destruct (e (fst c)) as [[id s]| |] eqn:Ee; try discriminate. cbn in E.
    assert (s = fst c') by (destruct c'; cbn; congruence). subst s. eapply K; eassumption. }
  intros [n v|r n v|n v|v|x|x r|x|x|x|] c c' H E; cbn [serve] in E;
    [eapply Mk|eapply Mk|eapply Mk|eapply Un|eapply Nm|eapply Nm|eapply Nm|eapply Nm|eapply Nm|eapply Un]; try eassumption; intros; cbv beta.
  - keeps_auto.
  - keeps_auto.
  - apply keeps_new. intros. discriminate.
  - keeps_auto.
  - keeps_auto.
  - unfold load_into, emit_load_into_specific_gpr. keeps_auto.
  - unfold prevent_spilling. keeps_auto.
  - keeps_auto.
  - keeps_auto.
  - keeps_auto.
Qed.
End Slots.

(** ** Values survive *)
Inductive matches : list (option nat) -> list (Z * Z) -> list item -> Prop :=
| m_nil : matches [] [] []
| m_freed : forall ns vs L v, matches ns vs L -> matches (None :: ns) (v :: vs) L
| m_live : forall ns vs L id n v o, matches ns vs L -> osize o = n -> (o = Rv n (v mod 2 ^ (8 * n)) \/ exists w, o = Im n w /\ w mod 2 ^ (8 * n) = v mod 2 ^ (8 * n)) ->
    matches (Some id :: ns) ((n, v) :: vs) ((o, id, [id]) :: L).

Lemma matches_find : forall ns vs L x id, matches ns vs L -> nth_error ns x = Some (Some id) ->
  exists o n v L', nth_error vs x = Some (n, v) /\ osize o = n /\ (o = Rv n (v mod 2 ^ (8 * n)) \/ exists w, o = Im n w /\ w mod 2 ^ (8 * n) = v mod 2 ^ (8 * n)) /\
    Permutation L ((o, id, [id]) :: L') /\
    (forall id' o', osize o' = n -> (o' = Rv n (v mod 2 ^ (8 * n)) \/ exists w, o' = Im n w /\ w mod 2 ^ (8 * n) = v mod 2 ^ (8 * n)) ->
       exists L'', Permutation L'' ((o', id', [id']) :: L') /\ matches (replace_nth x (Some id') ns) vs L'') /\
    matches (replace_nth x None ns) vs L'.
Proof.
  intros ns vs L x id H. revert x. induction H as [|ns vs L v H IH|ns vs L id0 n v o H IH Ho Hv]; intros x E.
  - destruct x; discriminate.
  - destruct x as [|x]; [discriminate|]. cbn in E. destruct (IH x E) as (o & n & w & L' & A & B & C & D & F & G).
    exists o, n, w, L'. cbn [nth_error replace_nth]. repeat (split; [assumption|]). split; [|constructor; exact G].
    intros id' o' Ho' Hv'. destruct (F id' o' Ho' Hv') as (L'' & P & Q). exists L''. split; [exact P|constructor; exact Q].
  - destruct x as [|x].
    + cbn in E. assert (id0 = id) by congruence. subst id0. exists o, n, v, L. cbn [nth_error replace_nth].
      split; [reflexivity|]. split; [exact Ho|]. split; [exact Hv|]. split; [apply Permutation_refl|]. split; [|constructor; exact H].
      intros id' o' Ho' Hv'. exists ((o', id', [id']) :: L). split; [apply Permutation_refl|constructor; assumption].
    + cbn in E. destruct (IH x E) as (o1 & n1 & w & L' & A & B & C & D & F & G).
      exists o1, n1, w, ((o, id0, [id0]) :: L'). cbn [nth_error replace_nth]. split; [exact A|]. split; [exact B|]. split; [exact C|].
      split; [eapply Permutation_trans; [apply perm_skip, D|apply perm_swap]|]. split; [|constructor; assumption].
      intros id' o' Ho' Hv'. destruct (F id' o' Ho' Hv') as (L'' & P & Q). exists ((o, id0, [id0]) :: L'').
      split; [eapply Permutation_trans; [apply perm_skip, P|apply perm_swap]|constructor; assumption].
Qed.
Lemma matches_snoc : forall ns vs L id n v o, matches ns vs L -> osize o = n -> (o = Rv n (v mod 2 ^ (8 * n)) \/ exists w, o = Im n w /\ w mod 2 ^ (8 * n) = v mod 2 ^ (8 * n)) ->
  exists L', Permutation L' ((o, id, [id]) :: L) /\ matches (ns ++ [Some id]) (vs ++ [(n, v)]) L'.
Proof.
  intros ns vs L id n v o H Ho Hv. induction H as [|ns vs L v0 H IH|ns vs L id0 n0 v0 o0 H IH Ho0 Hv0].
  - exists [(o, id, [id])]. split; [apply Permutation_refl|]. cbn. constructor; [constructor|exact Ho|exact Hv].
  - destruct IH as (L' & P & Q). exists L'. split; [exact P|]. cbn. constructor. exact Q.
  - destruct IH as (L' & P & Q). exists ((o0, id0, [id0]) :: L'). split; [eapply Permutation_trans; [apply perm_skip, P|apply perm_swap]|].
    cbn. constructor; assumption.
Qed.

Section Values.
Variables (ss TL : Z) (regs0 : Z -> Z).
Hypothesis H_ss : 0 <= ss.
Hypothesis H_TL : 0 <= TL.
Hypothesis H_off : ss + TL <= 2 ^ 31.
Hypothesis H_bp : ss + TL <= regs0 5 < 2 ^ 64.
Notation sim := (sim ss TL regs0).

Definition live (c : client) (x : nat) : Prop := exists id, nth_error (snd c) x = Some (Some id).

(** Value [x] is locked in register [r]. *)
Definition locked (c : client) (x : nat) (r n : Z) : Prop := exists id l, nth_error (snd c) x = Some (Some id) /\
  nth_error (heap (fst c)) id = Some l /\ l_state l = Loaded r /\ l_size l = n /\ l_prevent_spilling l <> 0.

Definition stepped (q : request) (c c' : client) (m : machine) (M0 : Z -> Z) (vs : list (Z * Z)) : Prop :=
  exists m' L', trans (fst c) m (fst c') m' /\ sim (fst c') m' M0 L' /\ matches (snd c') (vs ++ made q) L' /\
    (forall x, live c x -> q <> Free x -> live c' x) /\ (forall x, (length (snd c) <= x < length (snd c'))%nat -> live c' x) /\
    (forall x r n, locked c x r n -> q <> Unlock x -> q <> Free x -> (forall r', q <> Load_into x r') -> locked c' x r n).

Lemma volatile_iff : forall r, In r [0; 1; 2; 8; 9; 10; 11] -> In r volatile.
Proof. intros r H. cbn in *. intuition. Qed.

Lemma makes : forall r n v s id s' m M0 L, In r volatile -> is_size_P n -> sim s m M0 L -> rmap s r = None ->
  (id <- emit_location_loaded r n ;; out (emit_mov_immediate r n v) ;;; ret id) s = Done (id, s') ->
  exists m', trans s m s' m' /\ sim s' m' M0 ((Rv n (v mod 2 ^ (8 * n)), id, [id]) :: L) /\ frame ss s s' [].
Proof.
  intros r n v s id s' m M0 L Hr Hn H Hm E. unbind E id1 s1 E1. unbind E u s2 E2. apply ret_inv in E. destruct E as (-> & ->). apply out_inv in E2.
  destruct (loaded_spec ss TL regs0 H_ss H_bp r n s id1 s1 m M0 L H E1 Hr Hn) as (_ & _ & Hc & _ & Hh & Hmap & H1).
  destruct (volatile_plain r Hr) as (Pr & _). destruct (I_mov_imm r n v m Pr Hn) as (m' & Rn & W & _). exists m'. split; [|split].
  - exists (emit_mov_immediate r n v). rewrite E2. cbn [code in_code]. rewrite Hc. auto.
  - rewrite E2. apply sim_code; try assumption. eapply (sim_write_head ss TL regs0 H_ss H_bp); [exact H1|exact W| |lia|exact Hn].
    rewrite Hmap, Z.eqb_refl. reflexivity.
  - intros i l El _. left. rewrite E2. cbn [heap in_code]. rewrite Hh. rewrite nth_error_app1; [exact El|]. apply nth_error_Some. congruence.
Qed.

Lemma made_live : forall (c : client) s id x, live c x -> live (s, snd c ++ [Some id]) x.
Proof. intros c s id x (i & E). exists i. cbn. rewrite nth_error_app1; [exact E|]. apply nth_error_Some. congruence. Qed.
Lemma made_new : forall (c : client) s id x, (length (snd c) <= x < length (snd (s, snd c ++ [Some id])))%nat -> live (s, snd c ++ [Some id]) x.
Proof. intros c s id x. cbn. rewrite app_length. cbn. intro. assert (x = length (snd c)) by lia. subst x. exists id. cbn. rewrite nth_error_app2, Nat.sub_diag by lia. reflexivity. Qed.

Lemma named_live : forall (c : client) s y id' x i, nth_error (snd c) y = Some (Some i) -> live c x -> (id' = None -> x <> y) -> live (s, replace_nth y id' (snd c)) x.
Proof.
  intros c s y id' x i Ey (j & Ex) H. unfold live. cbn. destruct (Nat.eq_dec y x) as [->|N].
  - rewrite (replace_same _ _ _ _ _ Ey). destruct id' as [k|]; [eauto|]. destruct (H eq_refl eq_refl).
  - rewrite replace_diff by exact N. eauto.
Qed.

Lemma item_loadable : forall s m M0 L o id n v, sim s m M0 ((o, id, [id]) :: L) -> (o = Rv n v \/ exists w, o = Im n w) ->
  loadable s id [id] /\ good ss TL regs0 M0 o /\ o <> Bp /\ is_size_P (osize o).
Proof.
  intros s m M0 L o id n v H Ho. pose proof (sim_head _ _ _ _ _ _ _ _ _ _ H) as Hh.
  destruct Hh as [|id l q n0 v0 E S Z P R V|id l t n0 v0 E S Z P T V|id l n0 w E S Z P|id l ib off n0 b fp E S Z Hb|id l t n0 k v0 E S Z P K T V].
  - destruct Ho as [Ho|(w & Ho)]; discriminate.
  - split; [right; exists l; rewrite S; auto|]. split; [exact I|]. split; [discriminate|exact P].
  - split; [right; exists l; rewrite S; split; [exact E|left; reflexivity]|]. split; [exact I|]. split; [discriminate|exact P].
  - split; [right; exists l; rewrite S; auto|]. split; [exact I|]. split; [discriminate|exact P].
  - destruct Ho as [Ho|(w & Ho)]; discriminate.
  - destruct Ho as [Ho|(w & Ho)]; discriminate.
Qed.

Lemma sim_modify : forall id f s u s' m M0 L, sim s m M0 L -> modify id f s = Done (u, s') ->
  (forall l, nth_error (heap s) id = Some l -> l_state (f l) = l_state l /\ l_size (f l) = l_size l /\ l_prevent_spilling l <= l_prevent_spilling (f l) /\ l_prevent_freeing (f l) = l_prevent_freeing l) ->
  sim s' m M0 L /\ code s' = code s /\ (forall i, nth_error (heap s') i = if Nat.eqb i id then option_map f (nth_error (heap s) i) else nth_error (heap s) i).
Proof.
  intros id f s u s' m M0 L H E F. apply modify_inv in E. destruct E as (l & El & ->). destruct (F l El) as (A & B & C & D).
  pose proof (wf_ps _ _ _ _ _ _ (sim_wf _ _ _ _ _ _ _ H) _ _ El).
  split; [apply (sim_locks ss TL regs0 H_ss H_bp s m M0 L id l); [exact H|exact El|split; congruence|lia|lia]|]. split; [reflexivity|].
  intro i. cbn. destruct (Nat.eqb_spec i id) as [->|N]; [rewrite (replace_same _ _ _ _ _ El), El; reflexivity|rewrite replace_diff by congruence; reflexivity].
Qed.

Lemma lock_spec : forall s m M0 L o id n v u s', sim s m M0 ((o, id, [id]) :: L) -> (o = Rv n v \/ exists w, o = Im n w) ->
  prevent_spilling ss id s = Done (u, s') -> sim s' m M0 ((o, id, [id]) :: L) /\ code s' = code s /\ frame ss s s' [0%nat; id] /\
    (forall l r, nth_error (heap s) id = Some l -> l_state l = Loaded r -> nth_error (heap s') id = Some (with_ps 1 l)).
Proof.
  intros s m M0 L o id n v u s' H Ho E. unfold prevent_spilling, prevent_spilling_with in E.
  unbind E u1 s1 E1. destruct (sim_modify _ _ _ _ _ _ _ _ H E1) as (H1 & C1 & G1); [intros; cbn; repeat split; lia|].
  unbind E l s2 E2. apply get_inv' in E2. destruct E2 as (El & ->).
  assert (Frm : forall a b f u0 j, modify j f a = Done (u0, b) -> In j [0%nat; id] -> frame ss a b [0%nat; id]).
  { intros a b f u0 j Em Hj. apply modify_inv in Em. destruct Em as (k & Ek & ->). intros i l0 El0 Ni. left. cbn. rewrite replace_diff; [exact El0|]. congruence. }
  assert (F1 : frame ss s s1 [0%nat; id]) by (eapply Frm; [exact E1|cbn; auto]).
  assert (K1 : forall k, nth_error (heap s) id = Some k -> nth_error (heap s1) id = Some (with_ps 1 k)).
  { intros k Ek. rewrite G1, Nat.eqb_refl, Ek. reflexivity. }
  destruct (l_state l) as [?|?|ib ix sc off| |] eqn:S; try (apply ret_inv in E; destruct E as (_ & ->); eauto).
  pose proof (sim_head _ _ _ _ _ _ _ _ _ _ H1) as Hh.
  assert (ib = 0%nat /\ ix = None) as (-> & ->).
  { inversion Hh; subst; try (destruct Ho as [Ho|(w & Ho)]; discriminate); try congruence.
    assert (l0 = l) by congruence. subst l0. split; congruence. }
  unbind E b s2 E2.
  assert (B : b = 0%nat /\ s2 = s1).
  { destruct (wf_bp _ _ _ _ _ _ (sim_wf _ _ _ _ _ _ _ H1)) as (lb & Eb & Sb & _).
    unfold emit_load_gpr in E2. cbn [load_gpr] in E2. unbind E2 l2 s3 E3. apply get_inv' in E3. destruct E3 as (E3 & ->).
    assert (l2 = lb) by congruence. subst l2. rewrite Sb in E2. apply ret_inv in E2. exact E2. }
  destruct B as (-> & ->).
  clear E2. unbind E u2 s2 E2. destruct (sim_modify _ _ _ _ _ _ _ _ H1 E2) as (H2 & C2 & _).
  { intros l2 El2. assert (l2 = l) by congruence. subst l2. rewrite S. cbn. repeat split; try reflexivity; lia. }
  unbind E u3 s3 E3. destruct (sim_modify _ _ _ _ _ _ _ _ H2 E3) as (H3 & C3 & _); [intros; cbn; repeat split; lia|].
  apply ret_inv in E. destruct E as (_ & ->). split; [exact H3|]. split; [congruence|]. split.
  - pose proof (Frm _ _ _ _ _ E2 ltac:(cbn; auto)) as F2. pose proof (Frm _ _ _ _ _ E3 ltac:(cbn; auto)) as F3.
    eapply frame_trans; [exact F1|eapply frame_trans; [exact F2|exact F3|auto]|auto].
  - intros k r Ek Sk. rewrite (K1 k Ek) in El. assert (l = with_ps 1 k) by congruence. subst l. cbn in S. congruence.
Qed.

Lemma sim_unlock : forall id s u s' m M0 L, sim s m M0 L -> unlock id s = Done (u, s') -> sim s' m M0 L /\ code s' = code s /\ frame ss s s' [id].
Proof.
  intros id s u s' m M0 L H E. apply unlock_inv in E. destruct E as (l & El & Hp & ->).
  pose proof (wf_ps _ _ _ _ _ _ (sim_wf _ _ _ _ _ _ _ H) _ _ El).
  split; [|split; [reflexivity|]].
  - apply (sim_locks ss TL regs0 H_ss H_bp s m M0 L id l); [exact H|exact El|split; reflexivity|cbn; lia|cbn; lia].
  - apply frame_lock. left. reflexivity.
Qed.
Lemma allow_spec : forall id o n v s u s' m M0 L, sim s m M0 ((o, id, [id]) :: L) -> (o = Rv n v \/ exists w, o = Im n w) ->
  allow_spilling id s = Done (u, s') -> sim s' m M0 ((o, id, [id]) :: L) /\ code s' = code s /\ frame ss s s' [0%nat; id].
Proof.
  intros id o n v s u s' m M0 L H Ho E. unfold allow_spilling in E. unbind E u1 s1 E1. destruct (sim_unlock _ _ _ _ _ _ _ H E1) as (H1 & C1 & F1).
  assert (F1' : frame ss s s1 [0%nat; id]) by (eapply frame_weaken; [exact F1|cbn; tauto]).
  unbind E l s2 E2. apply get_inv' in E2. destruct E2 as (El & ->).
  destruct (l_state l) as [?|?|b ix sc off| |] eqn:S; try (apply ret_inv in E; destruct E as (_ & ->); auto).
  pose proof (sim_head _ _ _ _ _ _ _ _ _ _ H1) as Hh.
  assert (b = 0%nat /\ ix = None) as (-> & ->).
  { inversion Hh; subst; try (destruct Ho as [Ho|(w & Ho)]; discriminate); try congruence.
    assert (l0 = l) by congruence. subst l0. split; congruence. }
  unbind E u2 s2 E2. destruct (sim_unlock _ _ _ _ _ _ _ H1 E2) as (H2 & C2 & F2). apply ret_inv in E. destruct E as (_ & ->). split; [exact H2|].
  split; [congruence|]. eapply frame_trans; [exact F1'|exact F2|cbn; tauto].
Qed.

Lemma load_into_spec : forall s m M0 L o id r n v id' s', sim s m M0 ((o, id, [id]) :: L) -> (o = Rv n v \/ exists w, o = Im n w) -> In r volatile ->
  load_into ss id r s = Done (id', s') -> tsa s' <= TL ->
  exists m', trans s m s' m' /\ sim s' m' M0 ((Rv (osize o) (val regs0 M0 o), id', [id']) :: L) /\ frame ss s s' [id].
Proof.
  intros s m M0 L o id r n v id' s' H Ho Hr E HT. destruct (item_loadable _ _ _ _ _ _ _ _ H Ho) as (_ & _ & Nb & Po).
  unfold load_into in E. unbind E l s1 E1. apply get_inv' in E1. destruct E1 as (El & ->).
  assert (D : (exists r0, l_state l = Loaded r0 /\ r0 = r /\ id' = id /\ s' = s) \/
     (allocate_specific_register ss r ;;; emit_load_into_specific_gpr ss id r) s = Done (id', s')).
  { destruct (l_state l) as [r0| | | |]; try (right; exact E). destruct (r0 =? r) eqn:Q; [|right; exact E].
    left. apply Z.eqb_eq in Q. apply ret_inv in E. destruct E as (-> & ->). exists r0. auto. }
  destruct D as [(r0 & S & _ & -> & ->)|D].
  - exists m. split; [apply trans_refl; reflexivity|].
    destruct (holds_loaded ss TL regs0 H_ss H_TL H_bp _ _ _ _ _ _ _ _ (sim_head _ _ _ _ _ _ _ _ _ _ H) (sim_wf _ _ _ _ _ _ _ H) El S) as (_ & _ & _ & [(Hx & _)|((w & Hw) & _)]); [contradiction|].
    assert (Hv : o = Rv (osize o) (val regs0 M0 o)) by (rewrite Hw; reflexivity). rewrite <- Hv. split; [exact H|apply frame_refl].
  - unbind D r1 s1 E1. pose proof (q_tsa _ _ (quiet_load_specific ss id r _ _ _ D)) as Q.
    destruct (specific_spec ss TL regs0 H_ss H_off H_bp r s r1 s1 m M0 _ H E1 ltac:(lia)) as (-> & m1 & Sp & Rn & _ & _).
    pose proof (sp_sim _ _ _ _ _ _ _ _ _ Sp) as H1.
    destruct (item_loadable _ _ _ _ _ _ _ _ H1 Ho) as (Ld & Gd & _ & _).
    destruct (load_specific_spec ss TL regs0 H_ss H_TL H_off H_bp (emit_load_gpr ss) s1 m1 M0 L o id [id] r id' s'
      (load_ok_emit ss TL regs0 H_ss H_TL H_off H_bp) (quiet_load ss) H1 Ld Gd Nb Hr ltac:(congruence) D HT) as (m' & (fp' & A & B & Fr & _) & I1).
    destruct (loads_reg ss TL regs0 H_ss H_TL H_bp _ _ _ _ _ _ _ _ _ A I1) as (-> & _).
    exists m'. split; [eapply trans_trans; [apply (sp_trans _ _ _ _ _ _ _ _ _ Sp)|exact B]|]. split; [exact A|].
    eapply frame_trans; [eapply frame_weaken; [apply (sp_frame _ _ _ _ _ _ _ _ _ Sp)|intros ? []]|exact Fr|auto].
Qed.

Lemma spill_all_spec : forall rs s u s' m M0 L, sim s m M0 L -> spill_all ss rs s = Done (u, s') -> tsa s' <= TL ->
  exists m', trans s m s' m' /\ sim s' m' M0 L /\ frame ss s s' [].
Proof.
  induction rs as [|r rs IH]; intros s u s' m M0 L H E HT.
  - cbn in E. assert (s' = s) by congruence. subst. exists m. split; [apply trans_refl; reflexivity|]. split; [exact H|apply frame_refl].
  - cbn [spill_all] in E. destruct (rmap s r); [|eapply IH; eassumption]. unbind E u1 s1 E1. pose proof (q_tsa _ _ (quiet_spill_all ss rs _ _ _ E)) as Q.
    destruct (spill_spec ss TL regs0 H_ss H_off H_bp r s u1 s1 m M0 L H E1 ltac:(lia)) as (m1 & A & B & F & _).
    destruct (IH s1 u s' m1 M0 L B E HT) as (m' & C & D & G). exists m'. split; [eapply trans_trans; eassumption|]. split; [exact D|].
    eapply frame_trans; [exact F|exact G|auto].
Qed.

Lemma locked_frame : forall (c : client) s' names' x r n fp id, locked c x r n -> nth_error (snd c) x = Some (Some id) -> frame ss (fst c) s' fp -> ~ In id fp ->
  nth_error names' x = Some (Some id) -> locked (s', names') x r n.
Proof.
  intros c s' names' x r n fp id (id0 & l & E & El & S & Z & P) E' F N Hn. assert (id0 = id) by congruence. subst id0.
  exists id, l. split; [exact Hn|]. split; [|auto]. eapply frame_locked; eassumption.
Qed.
Lemma names_differ : forall (c : client) m M0 vs L x y i j, sim (fst c) m M0 L -> matches (snd c) vs L -> x <> y ->
  nth_error (snd c) x = Some (Some i) -> nth_error (snd c) y = Some (Some j) -> i <> j.
Proof.
  intros c m M0 vs L x y i j H Mt N Hi Hj <-. destruct (matches_find _ _ _ _ _ Mt Hi) as (o & n2 & v2 & L' & _ & _ & _ & D & _ & Mt').
  assert (Hj' : nth_error (replace_nth x None (snd c)) y = Some (Some i)) by (rewrite replace_diff; assumption).
  destruct (matches_find _ _ _ _ _ Mt' Hj') as (o' & n3 & v3 & L'' & _ & _ & _ & D' & _).
  pose proof (sim_perm _ _ _ _ _ _ _ _ (Permutation_trans D (perm_skip _ D')) H) as S2.
  apply (sim_disjoint _ _ _ _ _ _ _ _ _ i S2); left; reflexivity.
Qed.
Lemma name_nonzero : forall (c : client) m M0 vs L x i, sim (fst c) m M0 L -> matches (snd c) vs L -> nth_error (snd c) x = Some (Some i) -> i <> 0%nat.
Proof.
  intros c m M0 vs L x i H Mt Hi ->. destruct (matches_find _ _ _ _ _ Mt Hi) as (o & n2 & v2 & L' & _ & _ & C & D & _).
  pose proof (sim_perm _ _ _ _ _ _ _ _ D H) as S. pose proof (sim_head _ _ _ _ _ _ _ _ _ _ S) as Hh. pose proof (sim_wf _ _ _ _ _ _ _ H) as W.
  destruct (wf_bp _ _ _ _ _ _ W) as (lb & Eb & Sb & _).
  inversion Hh; subst; try (destruct C as [C|(w0 & C & _)]; discriminate); try congruence.
  assert (l = lb) by congruence. subst l. assert (r = 5) by congruence. subst r.
  match goal with R : rmap _ 5 = Some _ |- _ => destruct (wf_map _ _ _ _ _ _ W _ _ R) as (Hv & _); cbn in Hv; lia end.
Qed.

Lemma serve_spec : forall q c c' m M0 vs L, sensible q -> sim (fst c) m M0 L -> matches (snd c) vs L -> serve ss q c = Done c' -> tsa (fst c') <= TL ->
  stepped q c c' m M0 vs.
Proof.
  assert (Mk : forall q (c c' : client) m M0 vs L (e : M nat) n v, made q = [(n, v)] -> sim (fst c) m M0 L -> matches (snd c) vs L ->
     make c e = Done c' -> (forall id s', e (fst c) = Done (id, s') -> s' = fst c' -> exists m' o, trans (fst c) m s' m' /\ sim s' m' M0 ((o, id, [id]) :: L) /\ frame ss (fst c) s' [] /\ osize o = n /\
       (o = Rv n (v mod 2 ^ (8 * n)) \/ exists w, o = Im n w /\ w mod 2 ^ (8 * n) = v mod 2 ^ (8 * n))) -> stepped q c c' m M0 vs).
  { intros q c c' m M0 vs L e n v Hq H Hm E K. unfold make in E. destruct (e (fst c)) as [[id s]| |] eqn:Ee; try discriminate. cbn in E.
    assert (c' = (s, snd c ++ [Some id])) by congruence. subst c'. destruct (K id s eq_refl eq_refl) as (m' & o & A & B & Fr & C & D).
    destruct (matches_snoc _ _ _ id _ _ _ Hm C D) as (L' & P & Q). exists m', L'. rewrite Hq. split; [exact A|]. split; [eapply sim_perm; [apply Permutation_sym, P|exact B]|].
    split; [exact Q|]. split; [intros; apply made_live; assumption|]. split; [apply made_new|].
    intros x r n0 Lk _ _ _. pose proof Lk as (i & l & Ei & _). apply (locked_frame c _ _ x r n0 [] i Lk Ei); [exact Fr|intros []|].
    rewrite nth_error_app1; [exact Ei|]. apply nth_error_Some. congruence. }
  assert (Nm : forall q (c c' : client) m M0 vs L x (f : nat -> M (option nat)), made q = [] -> sim (fst c) m M0 L -> matches (snd c) vs L ->
     named c x f = Done c' -> (forall id o n v L' id' s', sim (fst c) m M0 ((o, id, [id]) :: L') -> osize o = n -> (o = Rv n (v mod 2 ^ (8 * n)) \/ exists w, o = Im n w /\ w mod 2 ^ (8 * n) = v mod 2 ^ (8 * n)) ->
       f id (fst c) = Done (id', s') -> s' = fst c' ->
       frame ss (fst c) s' [0%nat; id] /\
       ((q = Unlock x \/ q = Free x \/ exists r, q = Load_into x r) \/ (forall r n l, nth_error (heap (fst c)) id = Some l -> l_state l = Loaded r -> l_size l = n -> l_prevent_spilling l <> 0 ->
          id' = Some id /\ exists l', nth_error (heap s') id = Some l' /\ l_state l' = Loaded r /\ l_size l' = n /\ l_prevent_spilling l' <> 0)) /\
       ((q = Free x /\ id' = None /\ exists m', trans (fst c) m s' m' /\ sim s' m' M0 L') \/
       (exists id'' m' o', id' = Some id'' /\ trans (fst c) m s' m' /\ sim s' m' M0 ((o', id'', [id'']) :: L') /\ osize o' = n /\
        (o' = Rv n (v mod 2 ^ (8 * n)) \/ exists w, o' = Im n w /\ w mod 2 ^ (8 * n) = v mod 2 ^ (8 * n))))) -> stepped q c c' m M0 vs).
  { intros q c c' m M0 vs L x f Hq H Hm E K. unfold named in E. destruct (nth_error (snd c) x) as [[id|]|] eqn:Ex; try discriminate.
    destruct (f id (fst c)) as [[id' s]| |] eqn:Ee; try discriminate. cbn in E.
    assert (c' = (s, replace_nth x id' (snd c))) by congruence. subst c'.
    destruct (matches_find _ _ _ _ _ Hm Ex) as (o & n & v & L' & A & B & C & D & F & G).
    assert (Len : forall y, (length (snd c) <= y < length (snd (s, replace_nth x id' (snd c))))%nat -> live (s, replace_nth x id' (snd c)) y).
    { cbn. rewrite length_replace. intros. lia. }
    destruct (K id o n v L' id' s (sim_perm _ _ _ _ _ _ _ _ D H) B C Ee eq_refl) as (Fr & Own & K').
    assert (Lck : forall y r n, locked c y r n -> q <> Unlock y -> q <> Free y -> (forall r', q <> Load_into y r') -> locked (s, replace_nth x id' (snd c)) y r n).
    { intros y r n0 Lk Q1 Q2 Q3. pose proof Lk as (i & l & Ei & El & Sl & Zl & Pl). destruct (Nat.eq_dec x y) as [<-|N].
      - assert (i = id) by congruence. subst i. destruct Own as [[Q|[Q|(r' & Q)]]|Own]; [contradiction|contradiction|destruct (Q3 r' Q)|].
        destruct (Own r n0 l El Sl Zl Pl) as (-> & l' & A1 & A2 & A3 & A4). exists id, l'. cbn [fst snd]. rewrite (replace_same _ _ _ _ _ Ex). auto.
      - eapply locked_frame; [exact Lk|exact Ei|exact Fr| |rewrite replace_diff by exact N; exact Ei].
        intros [<-|[<-|[]]]; [eapply name_nonzero; [exact H|exact Hm|exact Ei|reflexivity]|].
        eapply names_differ; [exact H|exact Hm|exact N|exact Ex|exact Ei|reflexivity]. }
    destruct K' as [(-> & -> & m' & T & S)|(id'' & m' & o' & -> & T & S & Zo & Vo)].
    - exists m', L'. split; [exact T|]. split; [exact S|]. rewrite Hq, app_nil_r. split; [exact G|]. split; [|split; [exact Len|exact Lck]].
      intros y Hy Hn. eapply named_live; [exact Ex|exact Hy|]. intros _ ->. congruence.
    - destruct (F id'' o' Zo Vo) as (L'' & P & Q). exists m', L''. split; [exact T|]. split; [eapply sim_perm; [apply Permutation_sym, P|exact S]|].
      rewrite Hq, app_nil_r. split; [exact Q|]. split; [|split; [exact Len|exact Lck]]. intros y Hy Hn. eapply named_live; [exact Ex|exact Hy|]. discriminate. }
  intros [n v|r n v|n v|v|x|x r|x|x|x|] c c' m M0 vs L Sn H Hm E HT; cbn [serve sensible] in E, Sn.
  - eapply Mk; [reflexivity|exact H|exact Hm|exact E|]. intros id s' Ee Es'. unbind Ee r s1 E1.
    assert (Q : quiet (id <- emit_location_loaded r n ;; out (emit_mov_immediate r n v) ;;; ret id)).
    { apply quiet_bind; [apply quiet_loaded|intro; apply quiet_bind; [apply quiet_out|intro; apply quiet_ret]]. }
    pose proof (q_tsa _ _ (Q _ _ _ Ee)).
    destruct (allocate_spec ss TL regs0 H_ss H_off H_bp _ r s1 m M0 L H E1 ltac:(subst s'; lia)) as (m1 & Sp & Hr & Rn).
    destruct (makes r n v s1 id s' m1 M0 L Hr Sn (sp_sim _ _ _ _ _ _ _ _ _ Sp) Rn Ee) as (m' & T & S & Fr).
    exists m', (Rv n (v mod 2 ^ (8 * n))). split; [eapply trans_trans; [apply (sp_trans _ _ _ _ _ _ _ _ _ Sp)|exact T]|]. split; [exact S|].
    split; [eapply frame_trans; [apply (sp_frame _ _ _ _ _ _ _ _ _ Sp)|exact Fr|intros ? []]|]. auto.
  - destruct Sn as (Hr & Sn). apply volatile_iff in Hr.
    eapply Mk; [reflexivity|exact H|exact Hm|exact E|]. intros id s' Ee Es'. unbind Ee r1 s1 E1.
    assert (Q : quiet (id <- emit_location_loaded r n ;; out (emit_mov_immediate r n v) ;;; ret id)).
    { apply quiet_bind; [apply quiet_loaded|intro; apply quiet_bind; [apply quiet_out|intro; apply quiet_ret]]. }
    pose proof (q_tsa _ _ (Q _ _ _ Ee)).
    destruct (specific_spec ss TL regs0 H_ss H_off H_bp r _ r1 s1 m M0 L H E1 ltac:(subst s'; lia)) as (-> & m1 & Sp & Rn & _).
    destruct (makes r n v s1 id s' m1 M0 L Hr Sn (sp_sim _ _ _ _ _ _ _ _ _ Sp) Rn Ee) as (m' & T & S & Fr).
    exists m', (Rv n (v mod 2 ^ (8 * n))). split; [eapply trans_trans; [apply (sp_trans _ _ _ _ _ _ _ _ _ Sp)|exact T]|]. split; [exact S|].
    split; [eapply frame_trans; [apply (sp_frame _ _ _ _ _ _ _ _ _ Sp)|exact Fr|intros ? []]|]. auto.
  - eapply Mk; [reflexivity|exact H|exact Hm|exact E|]. intros id s' Ee _. unfold emit_location_immediate, new in Ee.
    assert (Hid : id = length (heap (fst c))) by congruence.
    assert (Es : s' = in_heap (heap (fst c) ++ [mkloc (Immediate (wraps 64 v)) n 0 0]) (fst c)) by congruence.
    exists m, (Im n (wraps 64 v)). split; [apply trans_refl; rewrite Es; reflexivity|].
    assert (Hw : wraps 64 v mod 2 ^ (8 * n) = v mod 2 ^ (8 * n)).
    { apply IntProofs.wraps_mod_pow. unfold is_size_P in Sn. lia. }
    split; [|split; [rewrite Es; apply frame_new|split; [reflexivity|right; exists (wraps 64 v); auto]]].
    rewrite Es. apply sim_cons.
    + apply sim_new; try assumption; cbn; lia.
    + eapply HIm; [cbn [heap in_heap]; rewrite Hid; apply nth_error_new|reflexivity|reflexivity|exact Sn].
    + constructor; [intros []|constructor].
    + intros i [<-|[]] Hi. rewrite Hid in Hi. destruct (sim_ids _ _ _ _ _ _ _ _ H Hi) as (l & El). apply nth_error_lt in El. lia.
  - destruct ((r <- allocate_register ss ;; out (emit_mov_immediate r 8 v)) (fst c)) as [[u s]| |] eqn:Ee; try discriminate. cbn [obind] in E.
    assert (c' = (s, snd c)) by congruence. subst c'. unbind Ee r s1 E1. apply out_inv in Ee. cbn [fst snd] in *.
    assert (Ht : tsa s1 = tsa s) by (rewrite Ee; reflexivity).
    destruct (allocate_spec ss TL regs0 H_ss H_off H_bp _ r s1 m M0 L H E1 ltac:(lia)) as (m1 & Sp & Hr & Rn).
    destruct (volatile_plain r Hr) as (Pr & _). destruct (I_mov_imm r 8 v m1 Pr ltac:(unfold is_size_P; lia)) as (m2 & R2 & W2 & _).
    exists m2, L. split; [eapply trans_trans; [apply (sp_trans _ _ _ _ _ _ _ _ _ Sp)|exists (emit_mov_immediate r 8 v); rewrite Ee; auto]|].
    split; [cbn [fst]; rewrite Ee; apply sim_code; try assumption; eapply (sim_write ss TL regs0 H_ss H_bp); [apply (sp_sim _ _ _ _ _ _ _ _ _ Sp)|exact W2|exact Hr|congruence]|].
    cbn [made]. rewrite app_nil_r. split; [exact Hm|]. split; [intros x Hx _; exact Hx|]. split; [cbn; intros; lia|].
    intros x r0 n Lk _ _ _. pose proof Lk as (i & l & Ei & _). apply (locked_frame c _ _ x r0 n [] i Lk Ei); [|intros []|exact Ei].
    intros j k Ej Nj. destruct (sp_frame _ _ _ _ _ _ _ _ _ Sp j k Ej Nj) as [F|F]; [left|right]; rewrite Ee; exact F.
  - eapply Nm; [reflexivity|exact H|exact Hm|exact E|]. intros id o n v L' id' s' Hs Zo Vo Ee Es'.
    unbind Ee id1 s1 E1. apply ret_inv in Ee. destruct Ee as (-> & ->).
    assert (Ho : o = Rv n (v mod 2 ^ (8 * n)) \/ exists w, o = Im n w) by (destruct Vo as [Vo|(w & Vo & _)]; eauto).
    destruct (item_loadable _ _ _ _ _ _ _ _ Hs Ho) as (Ld & Gd & Nb & _).
    destruct (load_ok_emit ss TL regs0 H_ss H_TL H_off H_bp _ _ _ _ _ _ _ _ _ Hs Ld Gd E1 ltac:(subst; assumption)) as (m' & (fp' & A & B & Fr & (r & I1) & _) & Rd).
    split; [eapply frame_weaken; [exact Fr|cbn; tauto]|]. split.
    { right. intros r0 n0 l El Sl Zl Pl. destruct Rd as (-> & -> & _); [exists r0, n0, l; auto|]. split; [reflexivity|]. exists l. auto. }
    right. rewrite loaded_no_bp in A, I1 by exact Nb. cbn [osize] in I1.
    destruct (loads_reg ss TL regs0 H_ss H_TL H_bp _ _ _ _ _ _ _ _ _ A I1) as (-> & _).
    exists id1, m', (Rv (osize o) (val regs0 M0 o)). split; [reflexivity|]. split; [exact B|]. split; [exact A|]. split; [exact Zo|]. left.
    rewrite Zo. f_equal. destruct Vo as [->|(w & -> & Hw)]; [reflexivity|exact Hw].
  - apply volatile_iff in Sn. eapply Nm; [reflexivity|exact H|exact Hm|exact E|]. intros id o n v L' id' s' Hs Zo Vo Ee Es'.
    unbind Ee id1 s1 E1. apply ret_inv in Ee. destruct Ee as (-> & ->).
    assert (Ho : o = Rv n (v mod 2 ^ (8 * n)) \/ exists w, o = Im n w) by (destruct Vo as [Vo|(w & Vo & _)]; eauto).
    destruct (load_into_spec _ _ _ _ _ _ _ _ _ _ _ Hs Ho Sn E1 ltac:(subst; assumption)) as (m' & A & B & Fr).
    split; [eapply frame_weaken; [exact Fr|cbn; tauto]|]. split; [left; right; right; eauto|]. right.
    exists id1, m', (Rv (osize o) (val regs0 M0 o)). split; [reflexivity|]. split; [exact A|]. split; [exact B|]. split; [exact Zo|]. left.
    rewrite Zo. f_equal. destruct Vo as [->|(w & -> & Hw)]; [reflexivity|exact Hw].
  - eapply Nm; [reflexivity|exact H|exact Hm|exact E|]. intros id o n v L' id' s' Hs Zo Vo Ee Es'.
    unbind Ee u1 s1 E1. apply ret_inv in Ee. destruct Ee as (-> & ->).
    assert (Ho : o = Rv n (v mod 2 ^ (8 * n)) \/ exists w, o = Im n w) by (destruct Vo as [Vo|(w & Vo & _)]; eauto).
    destruct (lock_spec _ _ _ _ _ _ _ _ _ _ Hs Ho E1) as (A & B & Fr & Lk). split; [exact Fr|]. split.
    { right. intros r0 n0 l El Sl Zl Pl. split; [reflexivity|]. exists (with_ps 1 l). split; [eapply Lk; eassumption|].
      pose proof (wf_ps _ _ _ _ _ _ (sim_wf _ _ _ _ _ _ _ H) _ _ El). cbn. repeat split; try assumption. lia. }
    right. exists id, m, o. split; [reflexivity|]. split; [apply trans_refl; exact B|]. auto.
  - eapply Nm; [reflexivity|exact H|exact Hm|exact E|]. intros id o n v L' id' s' Hs Zo Vo Ee Es'.
    unbind Ee u1 s1 E1. apply ret_inv in Ee. destruct Ee as (-> & ->).
    assert (Ho : o = Rv n (v mod 2 ^ (8 * n)) \/ exists w, o = Im n w) by (destruct Vo as [Vo|(w & Vo & _)]; eauto).
    destruct (allow_spec _ _ _ _ _ _ _ _ _ _ Hs Ho E1) as (A & B & Fr). split; [exact Fr|]. split; [auto|].
    right. exists id, m, o. split; [reflexivity|]. split; [apply trans_refl; exact B|]. auto.
  - eapply Nm; [reflexivity|exact H|exact Hm|exact E|]. intros id o n v L' id' s' Hs Zo Vo Ee Es'.
    unbind Ee u1 s1 E1. apply ret_inv in Ee. destruct Ee as (-> & ->).
    destruct (free_spec ss TL regs0 H_ss H_bp _ _ _ _ _ _ _ _ _ Hs E1) as (_ & A & Fr & B). split; [eapply frame_weaken; [exact Fr|cbn; tauto]|]. split; [auto|].
    left. split; [reflexivity|]. split; [reflexivity|]. exists m. auto.
  - destruct (spill_all ss volatile (fst c)) as [[u s]| |] eqn:Ee; try discriminate. cbn [obind] in E.
    assert (c' = (s, snd c)) by congruence. subst c'. cbn [fst snd] in *.
    destruct (spill_all_spec _ _ _ _ _ _ _ H Ee HT) as (m' & A & B & C). exists m', L. split; [exact A|]. split; [exact B|].
    cbn [made]. rewrite app_nil_r. split; [exact Hm|]. split; [intros x Hx _; exact Hx|]. split; [cbn; intros; lia|].
    intros x r0 n Lk _ _ _. pose proof Lk as (i & l & Ei & _). apply (locked_frame c _ _ x r0 n [] i Lk Ei); [exact C|intros []|exact Ei].
Qed.
End Values.

(** ** Whole histories *)
Lemma quiet_serve : forall ss q c c', serve ss q c = Done c' -> tsa (fst c) <= tsa (fst c').
Proof.
  assert (Mk : forall c (e : M nat) c', quiet e -> make c e = Done c' -> tsa (fst c) <= tsa (fst c')).
  { intros c e c' K E. unfold make in E. destruct (e (fst c)) as [[id s]| |] eqn:Ee; try discriminate. cbn in E.
    assert (s = fst c') by (destruct c'; cbn; congruence). subst s. apply (q_tsa _ _ (K _ _ _ Ee)). }
  assert (Nm : forall c x (f : nat -> M (option nat)) c', (forall id, quiet (f id)) -> named c x f = Done c' -> tsa (fst c) <= tsa (fst c')).
  { intros c x f c' K E. unfold named in E. destruct (nth_error (snd c) x) as [[id|]|]; try discriminate.
    destruct (f id (fst c)) as [[id' s]| |] eqn:Ee; try discriminate. cbn in E.
    assert (s = fst c') by (destruct c'; cbn; congruence). subst s. apply (q_tsa _ _ (K id _ _ _ Ee)). }
  assert (Un : forall A (c : client) (e : M A) c', quiet e -> obind (e (fst c)) (fun '(_, s) => Done (s, snd c)) = Done c' -> tsa (fst c) <= tsa (fst c')).
  { intros A c e c' K E. destruct (e (fst c)) as [[id s]| |] eqn:Ee; try discriminate. cbn in E.
    assert (s = fst c') by (destruct c'; cbn; congruence). subst s. apply (q_tsa _ _ (K _ _ _ Ee)). }
  intros ss.
  Local Hint Resolve quiet_allocate quiet_loaded quiet_specific quiet_new quiet_load quiet_load_specific quiet_prevent_spilling quiet_allow_spilling quiet_free quiet_spill_all : quiet.
  intros [n v|r n v|n v|v|x|x r|x|x|x|] c c' E; cbn [serve] in E;
    [eapply Mk|eapply Mk|eapply Mk|eapply Un|eapply Nm|eapply Nm|eapply Nm|eapply Nm|eapply Nm|eapply Un]; try eassumption; intros; cbv beta.
  - quiet_auto.
  - quiet_auto.
  - apply quiet_new.
  - quiet_auto.
  - quiet_auto.
  - unfold load_into. quiet_auto.
  - quiet_auto.
  - quiet_auto.
  - quiet_auto.
  - quiet_auto.
Qed.
Lemma quiet_serve_all : forall ss qs c c', serve_all ss qs c = Done c' -> tsa (fst c) <= tsa (fst c').
Proof.
  induction qs as [|q qs IH]; intros c c' E; cbn [serve_all] in E.
  - assert (c' = c) by congruence. subst. lia.
  - destruct (serve ss q c) as [c1| |] eqn:E1; try discriminate. cbn [obind] in E. apply quiet_serve in E1. apply IH in E. lia.
Qed.

Section Histories.
Variables (ss TL : Z) (regs0 : Z -> Z).
Hypothesis H_ss : 0 <= ss.
Hypothesis H_TL : 0 <= TL.
Hypothesis H_off : ss + TL <= 2 ^ 31.
Hypothesis H_bp : ss + TL <= regs0 5 < 2 ^ 64.
Notation sim := (sim ss TL regs0).

Lemma matches_length : forall ns vs L, matches ns vs L -> length ns = length vs.
Proof. intros ns vs L H. induction H; cbn; congruence. Qed.

Lemma serve_all_spec : forall qs c c' m M0 vs L, Forall sensible qs -> sim (fst c) m M0 L -> matches (snd c) vs L -> slots_ok ss (fst c) ->
  serve_all ss qs c = Done c' -> tsa (fst c') <= TL ->
  exists m' L', trans (fst c) m (fst c') m' /\ sim (fst c') m' M0 L' /\ matches (snd c') (vs ++ values qs) L' /\ slots_ok ss (fst c') /\
    (forall x, live c x \/ (length (snd c) <= x < length (snd c'))%nat -> ~ In (Free x) qs -> live c' x) /\
    (forall x r n, locked c x r n -> ~ In (Unlock x) qs -> ~ In (Free x) qs -> (forall r', ~ In (Load_into x r') qs) -> locked c' x r n).
Proof.
  induction qs as [|q qs IH]; intros c c' m M0 vs L Hs H Hm Hk E HT.
  - cbn in E. assert (c' = c) by congruence. subst c'. exists m, L. split; [apply trans_refl; reflexivity|]. split; [exact H|].
    cbn. rewrite app_nil_r. split; [exact Hm|]. split; [exact Hk|]. split; [intros x [Hx|Hx] _; [exact Hx|lia]|auto].
  - cbn [serve_all] in E. destruct (serve ss q c) as [c1| |] eqn:E1; try discriminate. cbn [obind] in E.
    inversion Hs; subst. pose proof (quiet_serve_all _ _ _ _ E).
    destruct (serve_spec ss TL regs0 H_ss H_TL H_off H_bp q c c1 m M0 vs L) as (m1 & L1 & T1 & S1 & M1 & V1 & N1 & K1); try assumption; [lia|].
    destruct (IH c1 c' m1 M0 (vs ++ made q) L1) as (m' & L' & T & S & M & K & V & Lk); try assumption.
    { eapply keeps_serve; eassumption. }
    exists m', L'. split; [eapply trans_trans; eassumption|]. split; [exact S|]. split.
    { cbn [values flat_map]. rewrite app_assoc. exact M. }
    split; [exact K|]. split.
    2: { intros x r n Hl Hu Hf Hi. apply Lk; [|intro Q; apply Hu; right; exact Q|intro Q; apply Hf; right; exact Q|intros r' Q; apply (Hi r'); right; exact Q].
         apply K1; [exact Hl|intros ->; apply Hu; left; reflexivity|intros ->; apply Hf; left; reflexivity|intros r' ->; apply (Hi r'); left; reflexivity]. }
    intros x Hx Hf. apply V; [|intro Hi; apply Hf; right; exact Hi].
    destruct Hx as [Hx|Hx].
    + left. apply V1; [exact Hx|]. intros ->. apply Hf. left. reflexivity.
    + destruct (Nat.lt_ge_cases x (length (snd c1))); [left; apply N1; lia|right; lia].
Qed.
End Histories.

Lemma start_sim : forall ss TL n m0, 0 <= TL -> (forall r, 0 <= regs m0 r < 2 ^ 64) ->
  EmitSim.sim ss TL (regs m0) (fst (start n)) m0 (mem m0) [].
Proof.
  intros ss TL n m0 HT Hw. split; [|constructor|constructor]. split; cbn.
  - exists (mkloc (Loaded 5) 8 0 0). auto.
  - discriminate.
  - intros [|[|id]] l E; cbn in E; try discriminate. assert (l = mkloc (Loaded 5) 8 0 0) by congruence. subst l. cbn. lia.
  - reflexivity.
  - exact Hw.
  - lia.
  - reflexivity.
Qed.

Lemma places : forall ss TL regs0 c m M0 vs L x id, 0 <= ss -> ss + TL <= regs0 5 -> EmitSim.sim ss TL regs0 (fst c) m M0 L -> matches (snd c) vs L -> nth_error (snd c) x = Some (Some id) ->
  exists l n v p, nth_error (heap (fst c)) id = Some l /\ nth_error vs x = Some (n, v) /\ place_of c x = Some p /\ place_size p = n /\ contents m p = v mod 2 ^ (8 * n) /\
    match p with
    | In_register r _ => l_state l = Loaded r /\ rmap (fst c) r = Some id
    | In_slot off n => l_state l = RegRel 0 None 0 off /\ n = l_size l
    | Known _ _ => True
    end.
Proof.
  intros ss TL regs0 c m M0 vs L x id Hss Hbp H Hm E. destruct (matches_find _ _ _ _ _ Hm E) as (o & n & v & L' & A & B & C & D & _).
  pose proof (sim_perm _ _ _ _ _ _ _ _ D H) as H'. pose proof (sim_head _ _ _ _ _ _ _ _ _ _ H') as Hh.
  pose proof (wf_regs _ _ _ _ _ _ (sim_wf _ _ _ _ _ _ _ H) 5 ltac:(cbn; lia)) as R5.
  inversion Hh as [|id0 l r n0 v0 El S Z P R V|id0 l t n0 v0 El S Z P T V|id0 l n0 w El S Z P|id0 l ib off n0 b fp El S Z Hb|id0 l t n0 k v0 El S Z P K T V]; subst;
    try (destruct C as [C|(w0 & C & _)]; discriminate).
  - exists l, (l_size l), v. exists (In_register r (l_size l)). split; [exact El|]. split; [exact A|]. unfold place_of. rewrite E, El, S.
    split; [reflexivity|]. split; [reflexivity|]. split; [|auto]. cbn [contents osize]. cbn [osize] in C.
    destruct C as [C|(w0 & C & _)]; [|discriminate]. congruence.
  - exists l, (l_size l), v. exists (In_slot (- (ss + t)) (l_size l)). split; [exact El|]. split; [exact A|]. unfold place_of. rewrite E, El, S.
    split; [reflexivity|]. split; [reflexivity|]. split; [|auto]. cbn [contents osize]. cbn [osize] in C.
    destruct C as [C|(w0 & C & _)]; [|discriminate]. rewrite R5. replace (regs0 5 + - (ss + t)) with (regs0 5 - ss - t) by lia. congruence.
  - exists l, (l_size l), v. exists (Known (l_size l) w). split; [exact El|]. split; [exact A|]. unfold place_of. rewrite E, El, S.
    split; [reflexivity|]. split; [reflexivity|]. split; [|exact I]. cbn [contents osize]. cbn [osize] in C.
    destruct C as [C|(w0 & C & C')]; [discriminate|]. congruence.
Qed.

Lemma start_slots : forall ss n, slots_ok ss (fst (start n)).
Proof.
  intros ss n. assert (G : forall i l b x k off, nth_error (heap (fst (start n))) i = Some l -> l_state l = RegRel b x k off -> False).
  { intros [|[|i]] l b x k off El S; cbn in El; try discriminate. assert (l = mkloc (Loaded 5) 8 0 0) by congruence. subst l. discriminate. }
  split; [cbn; lia| |]; intros; exfalso; eapply G; eassumption.
Qed.

Theorem allocator : forall stack_space room n qs c m0,
  0 <= stack_space -> 0 <= room -> stack_space + room <= 2 ^ 31 -> stack_space + room <= regs m0 5 ->
  (forall r, 0 <= regs m0 r < 2 ^ 64) -> pc m0 = 0 -> Forall sensible qs ->
  serve_all stack_space qs (start n) = Done c -> tsa (fst c) <= room ->
  exists m, steps (code (fst c)) m0 m /\ pc m = Z.of_nat (length (code (fst c))) /\
    (forall x size v, nth_error (values qs) x = Some (size, v) -> ~ In (Free x) qs ->
       exists p, place_of c x = Some p /\ place_size p = size /\ contents m p = v mod 2 ^ (8 * size)) /\
    (forall x y p q, x <> y -> place_of c x = Some p -> place_of c y = Some q -> apart p q) /\
    (forall x off size, place_of c x = Some (In_slot off size) -> - (stack_space + room) <= off /\ off + size <= - stack_space) /\
    (forall a, ~ (regs m0 5 - stack_space - room <= a < regs m0 5 - stack_space) -> mem m a = mem m0 a) /\
    (forall r, ~ In r [0; 1; 2; 8; 9; 10; 11] -> regs m r = regs m0 r).
Proof.
  intros ss TL n qs c m0 Hss HTL Hoff Hbp Hw Hpc Hs E HT.
  pose proof (start_sim ss TL n m0 HTL Hw) as H0.
  pose proof (start_slots ss n) as K0.
  destruct (serve_all_spec ss TL (regs m0) Hss HTL Hoff ltac:(pose proof (Hw 5); lia) qs (start n) c m0 (mem m0) [] [] Hs H0 m_nil K0 E HT)
    as (m & L & (bs & Hc & Rn) & S & Mt & K & V & _).
  change (code (fst (start n))) with (@nil Z) in Hc. cbn [app] in Hc. subst bs. cbn [app] in Mt.
  destruct Rn as (Hpc' & Rn). exists m. split; [apply Rn; rewrite Hpc; split; [lia|exists []; cbn [Z.to_nat skipn]; rewrite app_nil_r; reflexivity]|]. split; [rewrite Hpc', Hpc; reflexivity|].
  assert (Pl : forall x p, place_of c x = Some p -> exists id, nth_error (snd c) x = Some (Some id)).
  { intros x p Hp. unfold place_of in Hp. destruct (nth_error (snd c) x) as [[id|]|]; try discriminate. eauto. }
  split; [|split; [|split; [|split]]].
  - intros x size v Hx Hf. destruct (V x) as (id & Hid); [right|exact Hf|].
    { change (length (snd (start n))) with 0%nat. rewrite (matches_length _ _ _ Mt). split; [lia|]. apply nth_error_Some. congruence. }
    destruct (places _ _ _ _ _ _ _ _ _ _ Hss Hbp S Mt Hid) as (l & n0 & v0 & p & _ & Hv & Hp & Hz & Hct & _).
    assert (n0 = size /\ v0 = v) as (-> & ->) by (split; congruence). eauto.
  - intros x y p q N Hp Hq. destruct (Pl _ _ Hp) as (i & Hi). destruct (Pl _ _ Hq) as (j & Hj).
    destruct (places _ _ _ _ _ _ _ _ _ _ Hss Hbp S Mt Hi) as (l & n0 & v0 & p' & El & _ & Hp' & _ & _ & Cp).
    destruct (places _ _ _ _ _ _ _ _ _ _ Hss Hbp S Mt Hj) as (l' & n1 & v1 & q' & El' & _ & Hq' & _ & _ & Cq).
    assert (p' = p) by congruence. assert (q' = q) by congruence. subst p' q'.
    assert (Nij : i <> j).
    { intros <-. destruct (matches_find _ _ _ _ _ Mt Hi) as (o & n2 & v2 & L' & _ & _ & _ & D & _ & Mt').
      assert (Hj' : nth_error (replace_nth x None (snd c)) y = Some (Some i)) by (rewrite replace_diff; assumption).
      destruct (matches_find _ _ _ _ _ Mt' Hj') as (o' & n3 & v3 & L'' & _ & _ & _ & D' & _).
      pose proof (sim_perm _ _ _ _ _ _ _ _ (Permutation_trans D (perm_skip _ D')) S) as S2.
      apply (sim_disjoint _ _ _ _ _ _ _ _ _ i S2); left; reflexivity. }
    destruct p as [r n2|off n2|]; destruct q as [r' n3|off' n3|]; cbn [apart]; try exact I.
    + destruct Cp as (_ & Cp). destruct Cq as (_ & Cq). intros ->. congruence.
    + destruct Cp as (Sp & ->). destruct Cq as (Sq & ->). exact (so_apart _ _ K _ _ _ _ _ _ _ _ _ _ _ _ Nij El El' Sp Sq).
  - intros x off size Hp. destruct (Pl _ _ Hp) as (i & Hi).
    destruct (places _ _ _ _ _ _ _ _ _ _ Hss Hbp S Mt Hi) as (l & n0 & v0 & p' & El & _ & Hp' & _ & _ & Cp).
    assert (p' = In_slot off size) by congruence. subst p'. destruct Cp as (Sp & ->).
    pose proof (so_in _ _ K _ _ _ _ _ _ El Sp). lia.
  - intros a Ha. exact (wf_mem _ _ _ _ _ _ (sim_wf _ _ _ _ _ _ _ S) a Ha).
  - intros r Hr. apply (wf_regs _ _ _ _ _ _ (sim_wf _ _ _ _ _ _ _ S)). intro Hi. apply Hr. cbn in *. intuition.
Qed.

Theorem locks : forall stack_space room n before x r size during c c',
  0 <= stack_space -> 0 <= room -> stack_space + room <= 2 ^ 31 -> Forall sensible before -> Forall sensible during ->
  serve_all stack_space before (start n) = Done c -> place_of c x = Some (In_register r size) ->
  serve_all stack_space (Lock x :: during) c = Done c' -> tsa (fst c') <= room ->
  ~ In (Unlock x) during -> ~ In (Free x) during -> (forall r', ~ In (Load_into x r') during) ->
  place_of c' x = Some (In_register r size).
Proof.
  intros ss TL n qs x r size ds c c' Hss HTL Hoff Hq Hd E Hp E' HT Nu Nf Ni.
  set (m0 := mkmachine (fun _ => ss + TL) (fun _ => 0) None 0).
  assert (Hw : forall r, 0 <= regs m0 r < 2 ^ 64) by (intro; cbn; lia).
  pose proof (quiet_serve_all _ _ _ _ E') as Hq'.
  destruct (serve_all_spec ss TL (regs m0) Hss HTL Hoff ltac:(cbn; lia) qs (start n) c m0 (mem m0) [] [] Hq (start_sim ss TL n m0 HTL Hw) m_nil (start_slots ss n) E ltac:(lia))
    as (m & L & _ & S & Mt & K & _).
  cbn [app] in Mt. cbn [serve_all] in E'. destruct (serve ss (Lock x) c) as [c1| |] eqn:E1; try discriminate. cbn [obind] in E'.
  pose proof (quiet_serve_all _ _ _ _ E') as Hq1.
  destruct (serve_spec ss TL (regs m0) Hss HTL Hoff ltac:(cbn; lia) (Lock x) c c1 m (mem m0) (values qs) L) as (m1 & L1 & _ & S1 & M1 & _); try assumption; [exact I|lia|].
  assert (Lk : locked c1 x r size).
  { unfold place_of in Hp. cbn [serve] in E1. unfold named in E1. destruct (nth_error (snd c) x) as [[id|]|] eqn:Ex; try discriminate.
    destruct (nth_error (heap (fst c)) id) as [l|] eqn:El; [|discriminate].
    destruct (matches_find _ _ _ _ _ Mt Ex) as (o & n2 & v2 & L' & _ & _ & C & D & _).
    pose proof (sim_perm _ _ _ _ _ _ _ _ D S) as S'.
    destruct (l_state l) as [r0|v|[|b] [|] [| |] off| |] eqn:Sl; try discriminate Hp.
    assert (r0 = r /\ l_size l = size) as (-> & <-) by (split; congruence).
    match type of E1 with obind ?e _ = _ => destruct e as [[id' s]| |] eqn:Ee; try discriminate end.
    unbind Ee u1 s1 Eu. apply ret_inv in Ee. destruct Ee as (-> & ->). cbn [obind] in E1. assert (c1 = (s1, replace_nth x (Some id) (snd c))) by congruence. subst c1.
    destruct (lock_spec ss TL (regs m0) Hss ltac:(cbn; lia) _ _ _ _ _ _ n2 (v2 mod 2 ^ (8 * n2)) _ _ S' ltac:(destruct C as [C|(w & C & _)]; eauto) Eu) as (_ & _ & _ & Lk).
    exists id, (with_ps 1 l). cbn [fst snd]. split; [apply (replace_same _ _ _ _ _ Ex)|]. split; [eapply Lk; eassumption|].
    pose proof (wf_ps _ _ _ _ _ _ (sim_wf _ _ _ _ _ _ _ S) _ _ El). cbn. repeat split; try assumption. lia. }
  destruct (serve_all_spec ss TL (regs m0) Hss HTL Hoff ltac:(cbn; lia) ds c1 c' m1 (mem m0) _ L1 Hd S1 M1 ltac:(eapply keeps_serve; [exact K|exact E1]) E' HT)
    as (m2 & L2 & _ & _ & _ & _ & _ & Fin).
  destruct (Fin x r size Lk Nu Nf Ni) as (id & l & A & B & C & D & _). unfold place_of. rewrite A, B, C, D. reflexivity.
Qed.
