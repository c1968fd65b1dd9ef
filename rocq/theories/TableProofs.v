(** Proofs about the concurrent table (C20). *)
From Verif Require Import Base ScopeModel ScopeProofs TableModel TableSpec.

Lemma nm_refl : forall n, names_match n n = true.
Proof. intro n. unfold names_match. destruct (name_eq n n); congruence. Qed.
Lemma nm_eq : forall n m, names_match n m = true -> n = m.
Proof. intros n m. unfold names_match. destruct (name_eq n m); congruence. Qed.
Lemma nm_ne : forall n m, names_match n m = false -> n <> m.
Proof. intros n m. unfold names_match. destruct (name_eq n m); congruence. Qed.
Lemma ne_nm : forall n m, n <> m -> names_match n m = false.
Proof. intros n m. unfold names_match. destruct (name_eq n m); congruence. Qed.

Lemma history_app : forall a es b es' c, history a es b -> history b es' c -> history a (es ++ es') c.
Proof.
  intros a es b es' c H K. induction H; cbn [app]; [exact K|apply h_call; auto| |eapply h_return; eauto].
  eapply h_effect; [exact H|]. apply IHhistory. exact K.
Qed.

Section P.
Variable H : name -> Z.
Variable cap : Z.
Hypothesis Cap : pow2 cap.

Definition probe (n : name) (d : Z) : Z := (H n + d) mod cap.
Lemma probe_range : forall n d, 0 <= probe n d < cap.
Proof. intros. apply Z.mod_pos_bound, pow2_gt, Cap. Qed.
Lemma probe_inj : forall n d e, 0 <= d < cap -> 0 <= e < cap -> probe n d = probe n e -> d = e.
Proof.
  intros n d e D E Q. unfold probe in Q. assert (P := pow2_gt _ Cap). assert (M : (d - e) mod cap = 0).
  { replace (d - e) with ((H n + d) - (H n + e)) by lia. rewrite Zminus_mod, Q, Z.sub_diag. reflexivity. }
  apply Z.mod_divide in M; [|lia]. destruct M as (q & M). assert (q = 0) by nia. lia.
Qed.
Lemma probe_next : forall n v, Z.land (probe n v + 1) (cap - 1) = probe n (v + 1).
Proof. intros n v. rewrite land_mask by exact Cap. unfold probe. rewrite Zplus_mod_idemp_l. f_equal. lia. Qed.

Definition cells := Z -> cell.
Definition passed (f : cells) (n : name) (v : Z) : Prop := 0 <= v /\ forall e, 0 <= e < v -> exists m x, f (probe n e) = Some (m, x) /\ m <> n.
Definition ext (f g : cells) : Prop := forall j x, f j = Some x -> g j = Some x.
Lemma passed_ext : forall f g n v, ext f g -> passed f n v -> passed g n v.
Proof. intros f g n v E (A & B). split; [exact A|]. intros e L. destruct (B e L) as (m & x & Q & N). exists m, x. split; [apply E, Q|exact N]. Qed.

Definition nonnull (c : cell) : bool := match c with Some _ => true | None => false end.
Definition occ (f : cells) : Z := Z.of_nat (length (filter (fun i => nonnull (f (Z.of_nat i))) (seq 0 (Z.to_nat cap)))).
Lemma occ_ext : forall f g, ext f g -> occ f <= occ g.
Proof.
  intros f g E. unfold occ. apply inj_le. generalize (seq 0 (Z.to_nat cap)). intro l. induction l as [|i l IH]; [constructor|]. cbn [filter].
  destruct (f (Z.of_nat i)) as [x|] eqn:F; cbn [nonnull].
  - rewrite (E _ _ F). cbn [nonnull length]. lia.
  - destruct (nonnull (g (Z.of_nat i))); cbn [length]; lia.
Qed.
(** [v] consecutive occupied probes are [v] occupied slots. *)
Lemma occ_ge : forall f n v, 0 <= v <= cap -> (forall e, 0 <= e < v -> f (probe n e) <> None) -> v <= occ f.
Proof.
  intros f n v L A. unfold occ.
  assert (Q : (length (map (fun e => Z.to_nat (probe n (Z.of_nat e))) (seq 0 (Z.to_nat v))) <= length (filter (fun i => nonnull (f (Z.of_nat i))) (seq 0 (Z.to_nat cap))))%nat).
  { apply NoDup_incl_length.
    - apply nodup_map_inj; [|apply seq_NoDup]. intros x y X Y E. apply in_seq in X, Y.
      assert (P1 := probe_range n (Z.of_nat x)). assert (P2 := probe_range n (Z.of_nat y)).
      assert (Z.of_nat x = Z.of_nat y) by (apply (probe_inj n); lia). lia.
    - intros i I. apply in_map_iff in I as (e & <- & I). apply in_seq in I. assert (P1 := probe_range n (Z.of_nat e)). apply filter_In. split; [apply in_seq; lia|].
      rewrite Z2Nat.id by lia. assert (B := A (Z.of_nat e)). destruct (f (probe n (Z.of_nat e))); [reflexivity|]. exfalso. apply B; [lia|reflexivity]. }
  rewrite map_length, seq_length in Q. lia.
Qed.

(** The table: every declaration sits at the first free place of its probe sequence. *)
Definition wf (f : cells) : Prop := forall j n x, 0 <= j < cap -> f j = Some (n, x) -> exists d, 0 <= d < cap /\ j = probe n d /\ passed f n d.
Definition means (f : cells) (c : name -> option Z) : Prop := forall n x, c n = Some x <-> exists j, 0 <= j < cap /\ f j = Some (n, x).

(** A free place in the probe sequence: the name is not in the table. *)
Lemma absent : forall f c n v, wf f -> means f c -> passed f n v -> f (probe n v) = None -> c n = None.
Proof.
  intros f c n v W M (V & P) F. destruct (c n) as [x|] eqn:C; [|reflexivity]. exfalso. apply M in C as (j & J & Q). destruct (W j n x J Q) as (d & D & -> & (_ & PD)).
  destruct (Z.lt_ge_cases d v) as [L|L].
  - destruct (P d ltac:(lia)) as (m & y & Q2 & N). congruence.
  - destruct (Z.eq_dec d v) as [->|N]; [congruence|]. destruct (PD v ltac:(lia)) as (m & y & Q2 & _). congruence.
Qed.

Definition at_ (f : cells) (o : op) (ix i : Z) (k : Z -> Prop) : Prop := exists v, ix = probe (op_name o) v /\ passed f (op_name o) v /\ v <= i <= cap /\ k v.

(** What a thread knows, and how far its call has got. *)
Definition fact (f : cells) (p : pc) (st : status) : Prop :=
  match p with
  | Idle => st = Ready
  | Wait o | Enter o | Start o => st = Pending o
  | Check n a => st = Pending (Add n a)
  | Head o ix i => st = Pending o /\ at_ f o ix i (fun v => i <= 2 * v \/ i <= 2 * v + 1 /\ f ix <> None)
  | Read o ix i nd => st = Pending o /\ nd = O /\ i < cap /\ at_ f o ix i (fun v => i <= 2 * v \/ i <= 2 * v + 1 /\ f ix <> None)
  | Compare o ix i nd ast => nd = O /\ i < cap /\ exists m, f ix = Some (m, ast) /\ st = (if names_match m (op_name o) then Ended o (Some ast) else Pending o) /\ at_ f o ix i (fun v => i <= 2 * v + 1)
  | Next o ix i => st = Pending o /\ i < cap /\ exists m x, f ix = Some (m, x) /\ m <> op_name o /\ at_ f o ix i (fun v => i <= 2 * v + 1)
  | Swap n a ix i nd => st = Pending (Add n a) /\ nd = O /\ i < cap /\ at_ f (Add n a) ix i (fun v => i <= 2 * v)
  | Count o => exists n a, o = Add n a /\ st = Ended o None
  | Leave o r => st = Ended o r
  | Fault => cap <= 2 * occ f
  | _ => False
  end.

Lemma at_ext : forall f g o ix i (k k' : Z -> Prop), ext f g -> (forall v, k v -> k' v) -> at_ f o ix i k -> at_ g o ix i k'.
Proof. intros f g o ix i k k' E K (v & A & B & C & D). exists v. split; [exact A|]. split; [eapply passed_ext; eassumption|]. auto. Qed.
Lemma ext_some : forall f g j, ext f g -> f j <> None -> g j <> None.
Proof. intros f g j E N. destruct (f j) as [x|] eqn:F; [|congruence]. rewrite (E _ _ F). discriminate. Qed.

Lemma fact_ext : forall f g p st, ext f g -> fact f p st -> fact g p st.
Proof.
  intros f g p st E. destruct p; cbn [fact]; auto.
  - intros (A & B). split; [exact A|]. eapply at_ext; [exact E| |exact B]. cbv beta. intros v [K|(K & N)]; [auto|right; split; [exact K|eapply ext_some; eassumption]].
  - intros (A & B & C & D). repeat split; auto. eapply at_ext; [exact E| |exact D]. cbv beta. intros v [K|(K & N)]; [auto|right; split; [exact K|eapply ext_some; eassumption]].
  - intros (A & B & m & C & D & F). repeat split; auto. exists m. repeat split; auto. eapply at_ext; [exact E| |exact F]. auto.
  - intros (A & B & m & x & C & D & F). repeat split; auto. exists m, x. repeat split; auto. eapply at_ext; [exact E| |exact F]. auto.
  - intros (A & B & C & D). repeat split; auto. eapply at_ext; [exact E| |exact D]. auto.
  - intro A. assert (O := occ_ext _ _ E). lia.
Qed.

Record inv (s : state) (a : atomic) (f : cells) : Prop := mkinv {
  i_mem : memory s O = Some (mkblock cap f);
  i_nodes : nodes s = O;
  i_cap : table_capacity s = cap;
  i_mask : mask s = cap - 1;
  i_wf : wf f;
  i_means : means f (contents a);
  i_threads : forall t, fact f (threads s t) (client a t) }.

Lemma load_ok : forall s a f i, inv s a f -> 0 <= i < cap -> load s O i = Some (f i).
Proof. intros s a f i I R. unfold load. rewrite (i_mem _ _ _ I). cbn [b_size b_cell]. destruct (Z.leb_spec 0 i); [|lia]. destruct (Z.ltb_spec i cap); [reflexivity|lia]. Qed.

(** A step that only moves thread [t]. *)
Lemma inv_goto : forall s a f t p, inv s a f -> fact f p (client a t) -> inv (set_pc s t p) a f.
Proof.
  intros s a f t p [] F. constructor; try assumption. intro u. cbn [set_pc threads]. destruct (Nat.eqb_spec u t) as [->|_]; auto.
Qed.
Lemma inv_counters : forall s a f am l fl, inv s a f -> inv (set_counters s am (table_capacity s) (mask s) l fl) a f.
Proof. intros s a f am l fl []. constructor; assumption. Qed.
Lemma inv_client : forall s a f t p x, inv s a f -> fact f p x -> inv (set_pc s t p) (set_client a t x) f.
Proof.
  intros s a f t p x [] F. constructor; try assumption. intro u. cbn [set_pc threads set_client client]. destruct (Nat.eqb_spec u t) as [->|_]; auto.
Qed.
(** The operation takes effect without changing the map. *)
Lemma inv_effect : forall s a f t p o r, inv s a f -> effect (contents a) o = (contents a, r) -> client a t = Pending o -> fact f p (Ended o r) ->
  exists a', history a [] a' /\ inv (set_pc s t p) a' f.
Proof.
  intros s a f t p o r I E C F. eexists. split.
  - eapply h_effect; [exact C|]. rewrite E. apply h_end.
  - cbn [fst snd]. destruct a as [ct cl]. apply (inv_client s (mkatomic ct cl)); assumption.
Qed.

Lemma step_inv : forall s t a f, inv s a f -> ~ growing (fst (step H s t)) -> exists a' f', history a (snd (step H s t)) a' /\ inv (fst (step H s t)) a' f'.
Proof.
  intros s t a f I G. assert (F := i_threads _ _ _ I t). assert (stay : exists a' f', history a [] a' /\ inv s a' f') by (exists a, f; split; [constructor|exact I]).
  assert (move : forall p, fact f p (client a t) -> exists a' f', history a [] a' /\ inv (set_pc s t p) a' f') by (intros p Q; exists a, f; split; [constructor|apply inv_goto; assumption]).
  unfold step, goto in *. destruct (threads s t) as [|o|n x|n x|n x|n x|n x|n x oc old|n x oc old|n x oc old i|n x old|n x|o|o|o ix i|o ix i nd|o ix i nd ast|o ix i|n x ix i nd|o|o r|] eqn:PC; cbn [fact] in F; try contradiction; try exact stay.
  - destruct (is_locked s); [exact stay|]. cbn [fst snd]. apply move. destruct o; exact F.
  - cbn [fst snd] in *. destruct (full s); [|apply move; exact F]. exfalso. apply G. exists t. cbn [set_pc threads]. rewrite Nat.eqb_refl. exact Logic.I.
  - cbn [fst snd]. exists a, f. split; [constructor|]. apply inv_goto; [apply inv_counters, I|exact F].
  - cbn [fst snd]. apply move. cbn [fact]. split; [exact F|]. exists 0. rewrite (i_mask _ _ _ I), land_mask by exact Cap. assert (P := pow2_gt _ Cap).
    split; [unfold probe; f_equal; lia|]. split; [split; [lia|intros e L; lia]|]. split; [lia|]. left. lia.
  - cbn [fst snd]. destruct F as (F & v & -> & P & B & K). rewrite (i_cap _ _ _ I), (i_nodes _ _ _ I). destruct (Z.ltb_spec i cap) as [L|L]; apply move; cbn [fact].
    + repeat split; auto. exists v. repeat split; auto; try apply P; lia.
    + assert (NN : forall e, 0 <= e < v -> f (probe (op_name o) e) <> None) by (intros e Le; destruct P as (_ & P); destruct (P e Le) as (m & y & Q & _); congruence).
      assert (V0 := proj1 P). destruct (Z.eq_dec v cap) as [->|N]; [assert (O := occ_ge f (op_name o) cap ltac:(lia) NN); lia|].
      destruct K as [K|(K & N2)]; [assert (O := occ_ge f (op_name o) v ltac:(lia) NN); lia|].
      assert (O : v + 1 <= occ f). { apply (occ_ge f (op_name o)); [lia|]. intros e Le. destruct (Z.eq_dec e v) as [->|]; [exact N2|apply NN; lia]. } lia.
  - destruct F as (F & -> & Li & v & -> & P & B & K). rewrite (load_ok _ _ _ _ I (probe_range _ _)). destruct (f (probe (op_name o) v)) as [(m & ast)|] eqn:Fx; cbn [fst snd].
    + destruct (names_match m (op_name o)) eqn:NM.
      * apply nm_eq in NM. subst m. assert (C : contents a (op_name o) = Some ast) by (apply (i_means _ _ _ I); eexists; split; [apply probe_range|exact Fx]).
        destruct (inv_effect s a f t (Compare o (probe (op_name o) v) i 0 ast) o (Some ast) I) as (a' & A1 & A2); [destruct o; cbn [effect op_name] in *; rewrite C; reflexivity|exact F| |exists a', f; split; assumption].
        cbn [fact]. repeat split; auto. exists (op_name o). rewrite nm_refl. repeat split; auto. exists v. repeat split; auto; try apply P; lia.
      * apply move. cbn [fact]. repeat split; auto. exists m. rewrite NM. repeat split; auto. exists v. repeat split; auto; try apply P; lia.
    + assert (K' : i <= 2 * v) by (destruct K as [K|(_ & K)]; [exact K|congruence]).
      assert (C := absent _ _ _ _ (i_wf _ _ _ I) (i_means _ _ _ I) P Fx). destruct o as [n x|n].
      * apply move. cbn [fact]. repeat split; auto. exists v. repeat split; auto; try apply P; lia.
      * destruct (inv_effect s a f t (Leave (Get n) None) (Get n) None I) as (a' & A1 & A2); [cbn [effect op_name] in *; rewrite C; reflexivity|exact F|reflexivity|exists a', f; split; assumption].
  - destruct F as (-> & Li & m & Fx & St & v & -> & P & B & K). rewrite (load_ok _ _ _ _ I (probe_range _ _)), Fx. cbn [fst snd]. destruct (names_match m (op_name o)) eqn:NM; apply move; cbn [fact]; [exact St|].
    repeat split; auto. exists m, ast. repeat split; auto; [apply nm_ne, NM|]. exists v. repeat split; auto; try apply P; lia.
  - cbn [fst snd]. destruct F as (F & Li & m & x & Fx & N & v & -> & P & B & K). apply move. rewrite (i_mask _ _ _ I), probe_next. cbn [fact]. split; [exact F|]. exists (v + 1). split; [reflexivity|].
    split; [|split; [lia|left; lia]]. destruct P as (V0 & P). split; [lia|]. intros e Le. destruct (Z.eq_dec e v) as [->|]; [exists m, x; auto|apply P; lia].
  - destruct F as (F & -> & Li & v & -> & P & B & K). cbn [op_name] in *. assert (R := probe_range n v). rewrite (i_mem _ _ _ I). cbn [b_size b_cell].
    destruct (Z.leb_spec 0 (probe n v)); [|lia]. destruct (Z.ltb_spec (probe n v) cap); [|lia]. cbn [andb].
    destruct (f (probe n v)) as [y|] eqn:Fx; cbn [fst snd].
    + apply move. cbn [fact]. split; [exact F|]. exists v. split; [reflexivity|]. split; [exact P|]. split; [lia|]. right. split; [lia|congruence].
    + assert (C := absent _ _ _ _ (i_wf _ _ _ I) (i_means _ _ _ I) P Fx).
      set (g := fun j => if j =? probe n v then Some (n, x) else f j).
      assert (E : ext f g). { intros j y Q. unfold g. destruct (Z.eqb_spec j (probe n v)) as [->|]; [congruence|exact Q]. }
      exists (set_client (mkatomic (fst (effect (contents a) (Add n x))) (client a)) t (Ended (Add n x) (snd (effect (contents a) (Add n x))))), g. split; [eapply h_effect; [exact F|apply h_end]|].
      cbn [effect]. rewrite C. cbn [fst snd]. destruct I as [im inn ic imk iw ims it]. constructor; cbn [set_pc set_memory memory nodes table_capacity mask threads]; try assumption.
      * reflexivity.
      * intros j k y J Q. unfold g in Q. destruct (Z.eqb_spec j (probe n v)) as [->|N].
        -- injection Q as <- <-. assert (V : v < cap) by lia. exists v. split; [destruct P; lia|]. split; [reflexivity|]. exact (passed_ext _ _ _ _ E P).
        -- destruct (iw j k y J Q) as (d & D & Jd & Pd). exists d. split; [exact D|]. split; [exact Jd|]. exact (passed_ext _ _ _ _ E Pd).
      * intros k y. cbn [contents set_client]. destruct (names_match k n) eqn:NM.
        -- apply nm_eq in NM. subst k. split.
           ++ intros [= <-]. exists (probe n v). split; [exact R|]. unfold g. rewrite Z.eqb_refl. reflexivity.
           ++ intros (j & J & Q). unfold g in Q. destruct (Z.eqb_spec j (probe n v)); [congruence|]. exfalso. assert (Cn : contents a n = Some y) by (apply ims; exists j; auto). congruence.
        -- apply nm_ne in NM. split.
           ++ intro Q. apply ims in Q as (j & J & Q). exists j. split; [exact J|apply E, Q].
           ++ intros (j & J & Q). unfold g in Q. apply ims. destruct (Z.eqb_spec j (probe n v)); [congruence|]. exists j. auto.
      * intro u. cbn [set_client client]. destruct (Nat.eqb_spec u t) as [->|]; [cbn [fact]; exists n, x; auto|]. exact (fact_ext _ _ _ _ E (it u)).
  - cbn [fst snd]. destruct F as (n & x & -> & F). exists a, f. split; [constructor|]. apply inv_goto; [apply inv_counters, I|exact F].
  - cbn [fst snd]. exists (set_client a t Ready), f. split; [eapply h_return; [exact F|constructor]|]. apply inv_client; [apply inv_counters, I|reflexivity].
Qed.

Lemma choose_inv : forall s c a f, inv s a f -> ~ growing (fst (choose H s c)) -> exists a' f', history a (snd (choose H s c)) a' /\ inv (fst (choose H s c)) a' f'.
Proof.
  intros s [t o|t] a f I G; [|exact (step_inv s t a f I G)]. cbn [choose] in *. assert (F := i_threads _ _ _ I t). destruct (threads s t) eqn:PC; try (exists a, f; split; [apply h_end|exact I]).
  cbn [fst snd fact] in *. exists (set_client a t (Pending o)), f. split; [apply h_call; [exact F|constructor]|]. apply inv_client; [exact I|reflexivity].
Qed.

Lemma run_inv : forall cs s a f, inv s a f -> Forall (fun s => ~ growing s) (fst (run H s cs)) ->
  exists a', history a (snd (run H s cs)) a' /\ Forall (fun s => exists a f, inv s a f) (fst (run H s cs)).
Proof.
  induction cs as [|c cs IH]; intros s a f I G; cbn [run] in *.
  - exists a. split; [constructor|]. repeat constructor. eauto.
  - destruct (choose H s c) as (s', e) eqn:Ch. destruct (run H s' cs) as (ss, es) eqn:Rn. cbn [fst snd] in *. inversion_clear G as [|? ? _ G2].
    assert (Gs : ~ growing (fst (choose H s c))).
    { rewrite Ch. cbn [fst]. destruct cs as [|c' cs]; cbn [run] in Rn; [injection Rn as <- _; inversion G2; assumption|]. destruct (choose H s' c'), (run H _ cs). injection Rn as <- _. inversion G2. assumption. }
    destruct (choose_inv s c a f I Gs) as (a1 & f1 & H1 & I1). rewrite Ch in H1, I1. cbn [fst snd] in *.
    assert (Q := IH s' a1 f1 I1). rewrite Rn in Q. cbn [fst snd] in Q. destruct (Q G2) as (a2 & H2 & A). exists a2. split; [eapply history_app; eassumption|]. constructor; [eauto|exact A].
Qed.

Lemma create_inv : inv (create cap) empty_map (fun _ => None).
Proof.
  constructor; try reflexivity.
  - intros j n x _ Q. discriminate.
  - intros n x. cbn. split; [discriminate|]. intros (j & _ & Q). discriminate.
Qed.

Lemma inv_registered : forall s a f, inv s a f -> registered s = occ f.
Proof. intros s a f []. unfold registered. rewrite i_nodes0, i_mem0. reflexivity. Qed.
End P.

Theorem table_linearizable : forall hash cap cs, power_of_two cap -> Forall (fun s => ~ growing s) (fst (run hash (create cap) cs)) ->
  exists a, history empty_map (snd (run hash (create cap) cs)) a.
Proof. intros hash cap cs C G. destruct (run_inv hash cap C cs _ _ _ (create_inv hash cap) G) as (a & Ha & _). eauto. Qed.

Theorem table_no_fault : forall hash cap cs, power_of_two cap -> Forall (fun s => ~ growing s) (fst (run hash (create cap) cs)) ->
  forall s t, In s (fst (run hash (create cap) cs)) -> 2 * registered s < cap -> threads s t <> Fault.
Proof.
  intros hash cap cs C G s t In2 R T. destruct (run_inv hash cap C cs _ _ _ (create_inv hash cap) G) as (_ & _ & A). rewrite Forall_forall in A. destruct (A s In2) as (a & f & I).
  rewrite (inv_registered hash cap s a f I) in R. assert (F := i_threads _ _ _ _ _ I t). rewrite T in F. cbn [fact] in F. lia.
Qed.

(** ** Consequences for callers *)
(** The map keeps what it holds, and results still to be returned report what it holds. *)
Definition sane (a : atomic) : Prop := forall t o r x, client a t = Ended o r -> reported o r = Some x -> contents a (op_name o) = Some x.

Lemma effect_keeps : forall m o n x, m n = Some x -> fst (effect m o) n = Some x.
Proof.
  intros m o n x Q. destruct o as [k y|k]; [|exact Q]. cbn [effect]. destruct (m k) eqn:K; [exact Q|]. cbn [fst]. destruct (names_match n k) eqn:NM; [|exact Q]. apply nm_eq in NM. congruence.
Qed.
Lemma effect_reports : forall m o x, reported o (snd (effect m o)) = Some x -> fst (effect m o) (op_name o) = Some x.
Proof.
  intros m [k y|k] x; cbn [effect op_name].
  - destruct (m k) eqn:K; cbn [fst snd reported]; intro Q; [congruence|]. rewrite nm_refl. exact Q.
  - destruct (m k) eqn:K; cbn [fst snd reported]; congruence.
Qed.
Lemma sane_client : forall a t st, sane a -> (forall o r, st <> Ended o r) -> sane (set_client a t st).
Proof. intros a t st S N u o r x. cbn [set_client client contents]. destruct (Nat.eqb u t); [intro Q; exfalso; exact (N _ _ Q)|apply S]. Qed.
Lemma sane_effect : forall a t o, sane a -> sane (set_client (mkatomic (fst (effect (contents a) o)) (client a)) t (Ended o (snd (effect (contents a) o)))).
Proof.
  intros a t o S u p r x. cbn [set_client client contents]. destruct (Nat.eqb u t).
  - intros [= <- <-]. apply effect_reports.
  - intros Q R. apply effect_keeps. exact (S _ _ _ _ Q R).
Qed.

Lemma history_split : forall l1 l2 a b, history a (l1 ++ l2) b -> sane a -> exists c, history a l1 c /\ history c l2 b /\ sane c.
Proof.
  intros l1 l2 a b Q. remember (l1 ++ l2) as es eqn:E. revert l1 E. induction Q as [a|a t o es b C Q IH|a t o es b C Q IH|a t o r es b C Q IH]; intros l1 E S.
  - destruct l1; [|discriminate]. cbn in E. subst l2. exists a. repeat split; [constructor|constructor|exact S].
  - destruct l1 as [|e l1]; cbn [app] in E.
    + subst l2. exists a. repeat split; [constructor|apply h_call; assumption|exact S].
    + injection E as <- E. destruct (IH l1 E) as (c & C1 & C2 & C3); [apply sane_client; [exact S|discriminate]|]. exists c. repeat split; [apply h_call; assumption|exact C2|exact C3].
  - destruct (IH l1 E) as (c & C1 & C2 & C3); [apply sane_effect, S|]. exists c. repeat split; [eapply h_effect; eassumption|exact C2|exact C3].
  - destruct l1 as [|e l1]; cbn [app] in E.
    + subst l2. exists a. repeat split; [constructor|eapply h_return; eassumption|exact S].
    + injection E as <- E. destruct (IH l1 E) as (c & C1 & C2 & C3); [apply sane_client; [exact S|discriminate]|]. exists c. repeat split; [eapply h_return; eassumption|exact C2|exact C3].
Qed.

Lemma history_keeps : forall a es b n x, history a es b -> contents a n = Some x -> contents b n = Some x.
Proof. intros a es b n x Q. induction Q; intro C; auto. apply IHQ. cbn [set_client contents]. apply effect_keeps, C. Qed.

Lemma history_reported : forall a t o r es b x, history a (Return t o r :: es) b -> sane a -> reported o r = Some x -> contents b (op_name o) = Some x.
Proof.
  intros a t o r es b x Q. remember (Return t o r :: es) as l eqn:E. induction Q as [a|a u p es' b C Q IH|a u p es' b C Q IH|a u p q es' b C Q IH]; intros S R; try discriminate.
  - apply IH; [exact E|apply sane_effect, S|exact R].
  - injection E as -> -> -> ->. apply (history_keeps _ _ _ _ _ Q). cbn [set_client contents]. exact (S _ _ _ _ C R).
Qed.

Lemma empty_sane : sane empty_map.
Proof. intros t o r x Q. discriminate. Qed.

Theorem history_agree : forall es b t o r u p q x y, history empty_map es b -> In (Return t o r) es -> In (Return u p q) es -> op_name o = op_name p ->
  reported o r = Some x -> reported p q = Some y -> x = y.
Proof.
  assert (L : forall es b t o r x, history empty_map es b -> In (Return t o r) es -> reported o r = Some x -> contents b (op_name o) = Some x).
  { intros es b t o r x Q I R. apply in_split in I as (l1 & l2 & ->). destruct (history_split _ _ _ _ Q empty_sane) as (c & _ & C2 & C3). exact (history_reported _ _ _ _ _ _ _ C2 C3 R). }
  intros es b t o r u p q x y Q I J E R S. assert (A := L _ _ _ _ _ _ Q I R). assert (B := L _ _ _ _ _ _ Q J S). rewrite E in A. congruence.
Qed.

(** A thread whose call has not taken effect will see what the map holds now. *)
Lemma history_sees : forall a es b u o r x, history a (es ++ [Return u o r]) b -> (forall p q, ~ In (Return u p q) es) -> contents a (op_name o) = Some x ->
  (forall p, client a u = Pending p -> op_name p = op_name o -> True) -> forall p, (client a u = Pending p \/ client a u = Ended p (Some x)) -> p = o -> r = Some x.
Proof.
  intros a es b u o r x Q. remember (es ++ [Return u o r]) as l eqn:E. revert es E. induction Q as [a|a t p es' b C Q IH|a t p es' b C Q IH|a t p q es' b C Q IH]; intros es E N K _ w W ->.
  - destruct es; discriminate.
  - destruct es as [|e es]; [discriminate|]. injection E as <- E. eapply IH; [exact E|intros p' q' I; exact (N p' q' (or_intror I))|exact K|trivial| |reflexivity].
    cbn [set_client client]. destruct (Nat.eqb_spec u t) as [->|]; [|exact W]. exfalso. destruct W; congruence.
  - eapply IH; [exact E|exact N|cbn [set_client contents]; apply effect_keeps, K|trivial| |reflexivity]. cbn [set_client client]. destruct (Nat.eqb_spec u t) as [->|]; [|exact W].
    assert (P : p = o) by (destruct W as [W|W]; congruence). subst p. right. f_equal. destruct o as [n y|n]; cbn [effect op_name] in *; rewrite K; reflexivity.
  - destruct es as [|e es]; cbn [app] in E.
    + injection E as -> -> -> ->. destruct W; congruence.
    + injection E as <- E. eapply IH; [exact E|intros p' q' I; exact (N p' q' (or_intror I))|exact K|trivial| |reflexivity].
      cbn [set_client client]. destruct (Nat.eqb_spec u t) as [->|]; [|exact W]. exfalso. exact (N _ _ (or_introl eq_refl)).
Qed.

Theorem history_visible : forall l1 l2 l3 b t o r u p q x, history empty_map (l1 ++ Return t o r :: l2 ++ Call u p :: l3 ++ [Return u p q]) b ->
  reported o r = Some x -> op_name p = op_name o -> (forall p' q', ~ In (Return u p' q') l3) -> q = Some x.
Proof.
  intros l1 l2 l3 b t o r u p q x Q R E N.
  replace (l1 ++ Return t o r :: l2 ++ Call u p :: l3 ++ [Return u p q]) with ((l1 ++ Return t o r :: l2) ++ Call u p :: l3 ++ [Return u p q]) in Q by (rewrite <- app_assoc; reflexivity).
  destruct (history_split _ _ _ _ Q empty_sane) as (c & C1 & C2 & C3).
  assert (K : contents c (op_name p) = Some x).
  { destruct (history_split _ _ _ _ C1 empty_sane) as (d & _ & D2 & D3). rewrite E. exact (history_reported _ _ _ _ _ _ _ D2 D3 R). }
  clear Q C1 R E. remember (Call u p :: l3 ++ [Return u p q]) as l eqn:El. induction C2 as [a|a t' p' es' b C Q IH|a t' p' es' b C Q IH|a t' p' q' es' b C Q IH]; try discriminate.
  - injection El as -> -> ->. eapply (history_sees _ l3 _ u p q x Q N); [exact K|trivial| |reflexivity]. left. cbn [set_client client]. rewrite Nat.eqb_refl. reflexivity.
  - apply IH; [exact El|apply sane_effect, C3|cbn [set_client contents]; apply effect_keeps, K].
Qed.

(** At most one call adds a name. *)
Definition winners (a : atomic) (n : name) : Prop := forall t x, client a t = Ended (Add n x) None -> contents a n <> None /\ forall u y, client a u = Ended (Add n y) None -> u = t.

Lemma no_winner : forall a es b n, history a es b -> contents a n <> None -> (forall t x, client a t <> Ended (Add n x) None) -> forall t x, ~ In (Return t (Add n x) None) es.
Proof.
  intros a es b n Q. induction Q as [a|a t p es b C Q IH|a t p es b C Q IH|a t p q es b C Q IH]; intros K N u x I.
  - destruct I.
  - destruct I as [I|I]; [discriminate|]. refine (IH K _ u x I). intros v y. cbn [set_client client]. destruct (Nat.eqb v t); [discriminate|apply N].
  - assert (K' : exists z, contents a n = Some z) by (destruct (contents a n); [eauto|congruence]). destruct K' as (z & Z). refine (IH _ _ u x I).
    + cbn [set_client contents]. rewrite (effect_keeps _ p _ _ Z). discriminate.
    + intros v y. cbn [set_client client]. destruct (Nat.eqb v t); [|apply N]. intros [= -> B]. cbn [effect] in B. rewrite Z in B. discriminate.
  - destruct I as [I|I]; [|refine (IH K _ u x I); intros v y; cbn [set_client client]; destruct (Nat.eqb v t); [discriminate|apply N]].
    injection I as <- -> ->. exact (N _ _ C).
Qed.

Theorem one_winner : forall l1 l2 b t n x u y, history empty_map (l1 ++ Return t (Add n x) None :: l2) b -> ~ In (Return u (Add n y) None) l2.
Proof.
  intros l1 l2 b t n x u y Q. assert (W : winners empty_map n) by (intros v z K; discriminate). remember (l1 ++ Return t (Add n x) None :: l2) as l eqn:E. revert l1 E W.
  induction Q as [a|a v p es b C Q IH|a v p es b C Q IH|a v p q es b C Q IH]; intros l1 E W.
  - destruct l1; discriminate.
  - destruct l1 as [|e l1]; [discriminate|]. injection E as <- E. apply (IH l1 E). intros w z. cbn [set_client client contents]. destruct (Nat.eqb w v) eqn:WV; [discriminate|]. intro K. destruct (W w z K) as (W1 & W2). split; [exact W1|].
    intros w' z'. destruct (Nat.eqb w' v); [discriminate|apply W2].
  - apply (IH l1 E). intros w z. cbn [set_client client contents]. destruct (Nat.eqb_spec w v) as [->|WV].
    + intros [= -> B]. cbn [effect] in *. destruct (contents a n) as [k|] eqn:K; [discriminate|]. cbn [fst]. rewrite nm_refl. split; [discriminate|]. intros w' z'. destruct (Nat.eqb_spec w' v); [auto|]. intro Q2. destruct (W _ _ Q2) as (W1 & _). congruence.
    + intro K. destruct (W w z K) as (W1 & W2). destruct (contents a n) as [k|] eqn:Ka; [|congruence]. split; [rewrite (effect_keeps _ p _ _ Ka); discriminate|].
      intros w' z'. destruct (Nat.eqb_spec w' v) as [->|]; [|apply W2]. intros [= -> B]. cbn [effect] in B. rewrite Ka in B. discriminate.
  - destruct l1 as [|e l1]; cbn [app] in E.
    + injection E as -> -> -> ->. destruct (W t x C) as (W1 & W2). apply (no_winner _ _ _ n Q); [exact W1|]. intros w z. cbn [set_client client]. destruct (Nat.eqb_spec w t) as [->|N]; [discriminate|]. intro K. exact (N (W2 _ _ K)).
    + injection E as <- E. apply (IH l1 E). intros w z. cbn [set_client client contents]. destruct (Nat.eqb w v) eqn:WV; [discriminate|]. intro K. destruct (W w z K) as (W1 & W2). split; [exact W1|].
      intros w' z'. destruct (Nat.eqb w' v); [discriminate|apply W2].
Qed.
