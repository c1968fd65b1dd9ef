(** Invariants of the stage: what is known, who sleeps on what, and that no wake-up is lost. *)
From Coq Require Import List Bool Arith Lia. Import ListNotations.
From Verif Require Import SleepSpec SleepModel SleepProofs SleepSteps.

Definition space_of (n : entity) : space := match n with Internal u _ => Static u | External _ => Global | Tag _ => Compounds end.
Definition atom_of (n : entity) : atom := match n with Internal _ a | External a | Tag a => a end.
Definition entity_of (f : fact) : entity := match f with Known n | Size_known n => n end.
(** The key under which entries sleep that wait for a fact. *)
Definition keyf (f : fact) : key :=
  match f with
  | Known n => mkkey (space_of n) (atom_of n) (match n with Tag _ => On_struct | _ => On_decl end)
  | Size_known n => mkkey (space_of n) (atom_of n) On_array_size
  end.

Lemma entity_eq : forall m n, space_of m = space_of n -> atom_of m = atom_of n -> m = n.
Proof. destruct m, n; cbn; congruence. Qed.

Lemma keyf_inj : forall f g, keyf f = keyf g -> f = g.
Proof.
  intros [m|m] [n|n]; cbn [keyf]; intros H.
  - injection H as A B C. f_equal. apply entity_eq; assumption.
  - injection H as A B C. destruct m; discriminate.
  - injection H as A B C. destruct n; discriminate.
  - injection H as A B. f_equal. apply entity_eq; assumption.
Qed.

(** The continuation of a thread. *)
Definition cont_op (o : operation) : option continuation := match o with Sleep _ => None | Wake c => Some c end.
Definition cont_of (q : pc) : option continuation :=
  match q with
  | Parse e j => Some (Go_on e j)
  | Set_size e j k => Some (Then_set e j k)
  | Grow_check o _ | Grow_lock o _ | Grow_recheck o _ | Grow_wait o _ | Grow_copy o _ | Grow_unlock o _ | Enter o _
  | Probe o _ _ _ | Insert o _ _ _ | Count o _ | Leave o _ _ => cont_op o
  | Swap c _ _ _ _ | Append c _ => Some c
  | _ => None
  end.
(** The key whose sleepers a thread is about to wake up. *)
Definition wake_op (o : operation) (k : key) : option key := match o with Sleep _ => None | Wake c => Some k end.
Definition wakes (q : pc) : option key :=
  match q with
  | Grow_check o k | Grow_lock o k | Grow_recheck o k | Grow_wait o k | Grow_copy o k | Grow_unlock o k | Enter o k
  | Probe o k _ _ | Insert o k _ _ => wake_op o k
  | Swap _ k _ _ _ => Some k
  | _ => None
  end.
(** The entry a thread is about to put to sleep, and its key. *)
Definition sleep_cont (c : continuation) : option (nat * key) := match c with Then_sleep e k => Some (e, k) | _ => None end.
Definition sleep_op (o : operation) (k : key) : option (nat * key) := match o with Sleep e => Some (e, k) | Wake c => sleep_cont c end.
Definition sleeping (q : pc) : option (nat * key) :=
  match q with
  | Grow_check o k | Grow_lock o k | Grow_recheck o k | Grow_wait o k | Grow_copy o k | Grow_unlock o k | Enter o k
  | Probe o k _ _ | Insert o k _ _ => sleep_op o k
  | Load e k _ | Push e k _ _ | Requeue e k => Some (e, k)
  | Count o _ | Leave o _ _ => match o with Sleep _ => None | Wake c => sleep_cont c end
  | Swap c _ _ _ _ | Append c _ => sleep_cont c
  | _ => None
  end.

Definition static_space (x : space) : bool := match x with Static _ => true | _ => false end.

Section Stage.
Variable ist : nat -> atom -> bool.
Variable hash : atom -> purpose -> nat.
Variable p : program.

Definition est (s : state) (f : fact) : Prop :=
  match f with
  | Known n => lookup s (space_of n) (atom_of n) <> None
  | Size_known n => size_known s (space_of n) (atom_of n) = true
  end.

Definition passed (s : state) (d : declaration) (j : nat) : Prop :=
  forall j' x f, j' < j -> nth_error (actions d) j' = Some x -> In f (needs ist (in_unit d) x) \/ In f (gives ist (in_unit d) x) -> est s f.
Definition at_action (s : state) (e j : nat) : Prop := forall d, nth_error p e = Some d -> passed s d j.
Definition wants (s : state) (e : nat) (f : fact) : Prop :=
  (exists d j x, nth_error p e = Some d /\ nth_error (actions d) j = Some x /\ In f (needs ist (in_unit d) x) /\ passed s d j) /\
  (forall n, f = Size_known n -> est s (Known n)).
Definition done (s : state) (e : nat) : Prop := exists d, nth_error p e = Some d /\ passed s d (length (actions d)).

Definition deleted (s : state) (k : key) : Prop :=
  exists t n, get_table s (k_space k) = Some t /\ In (Some n) (nodes t) /\ n_key n = k /\ sleepers n = None.
Definition sleeper (s : state) (k : key) (e : nat) : Prop :=
  exists m t n l, nth_error (tables s) m = Some t /\ In (Some n) (nodes t) /\ n_key n = k /\ sleepers n = Some l /\ In e l.
Definition quiet (s : state) (f : fact) : Prop :=
  (forall i q e, nth_error (threads s) i = Some q -> sleeping q <> Some (e, keyf f)) /\ forall e, ~ sleeper s (keyf f) e.

Definition cont_ok (s : state) (c : continuation) : Prop :=
  match c with
  | Go_on e j => at_action s e j
  | Then_sleep _ _ => True
  | Then_set e j k => exists d a, nth_error p e = Some d /\ nth_error (actions d) j = Some (Initialize_list a) /\ passed s d j /\
                      k = keyf (Size_known (visible ist (in_unit d) a))
  end.

Record thread_ok (s : state) (q : pc) : Prop := {
  th_sleeping : forall e k, sleeping q = Some (e, k) -> exists f, k = keyf f /\ wants s e f;
  th_cont : forall c, cont_of q = Some c -> cont_ok s c;
  th_set : forall e j k, cont_of q = Some (Then_set e j k) -> wakes q = Some k \/ deleted s k;
  th_done : forall e, q = Finish (Some e) -> done s e }.

Record logic_inv (s : state) : Prop := {
  li_threads : forall i q, nth_error (threads s) i = Some q -> thread_ok s q;
  li_nodes : forall k e, sleeper s k e -> exists f, k = keyf f /\ wants s e f;
  li_finished : forall e, In e (finished s) -> done s e;
  li_facts : forall f, est s f -> resolvable ist p f;
  li_flags : forall x a b, lookup s x a = Some b -> b = static_space x;
  li_awake : forall f, est s f -> (exists i q, nth_error (threads s) i = Some q /\ wakes q = Some (keyf f)) \/ deleted s (keyf f) \/
               ((exists n, f = Size_known n) /\ quiet s f) }.

Lemma passed_mono : forall s s' d j, (forall f, est s f -> est s' f) -> passed s d j -> passed s' d j.
Proof. intros s s' d j M P j' x f L N H. apply M. eapply P; eauto. Qed.
Lemma wants_mono : forall s s' e f, (forall f, est s f -> est s' f) -> wants s e f -> wants s' e f.
Proof.
  intros s s' e f M [(d & j & x & A & B & C & D) Z]. split; [exists d, j, x; repeat split; auto; eapply passed_mono; eauto|].
  intros n E. apply M. apply Z. exact E.
Qed.
Lemma done_mono : forall s s' e, (forall f, est s f -> est s' f) -> done s e -> done s' e.
Proof. intros s s' e M (d & A & B). exists d. split; [exact A | eapply passed_mono; eauto]. Qed.
Lemma cont_mono : forall s s' c, (forall f, est s f -> est s' f) -> cont_ok s c -> cont_ok s' c.
Proof.
  intros s s' [e j | e k | e j k] M H; cbn [cont_ok] in *; auto.
  - intros d E. eapply passed_mono; eauto.
  - destruct H as (d & a & A & B & C & D). exists d, a. repeat split; auto. eapply passed_mono; eauto.
Qed.
Lemma thread_mono : forall s s' q, (forall f, est s f -> est s' f) -> (forall k, deleted s k -> deleted s' k) -> thread_ok s q -> thread_ok s' q.
Proof.
  intros s s' q M D [A B C E]. constructor.
  - intros e k H. destruct (A e k H) as (f & F & W). exists f. split; [exact F | eapply wants_mono; eauto].
  - intros c H. eapply cont_mono; eauto.
  - intros e j k H. destruct (C e j k H); auto.
  - intros e H. eapply done_mono; eauto.
Qed.

Lemma logic_step : forall s s' i q q', logic_inv s -> nth_error (threads s) i = Some q -> threads s' = upd i q' (threads s) ->
  (forall f, est s f -> est s' f) -> (forall k, deleted s k -> deleted s' k) ->
  thread_ok s' q' ->
  (forall e k, sleeping q' = Some (e, k) -> sleeping q = Some (e, k) \/ forall f, k = keyf f -> ~ est s' f) ->
  (forall k e, sleeper s' k e -> sleeper s k e \/ sleeping q = Some (e, k)) ->
  (forall k, wakes q = Some k -> wakes q' = Some k \/ deleted s' k) ->
  (forall e, In e (finished s') -> In e (finished s) \/ q = Finish (Some e)) ->
  (forall f, est s' f -> est s f \/ resolvable ist p f /\ (wakes q' = Some (keyf f) \/ deleted s' (keyf f) \/ ((exists n, f = Size_known n) /\ quiet s' f))) ->
  (forall x a b, lookup s' x a = Some b -> b = static_space x) ->
  logic_inv s'.
Proof.
  intros s s' i q q' [L1 L2 L3 L4 L5 L6] Hq E1 M D TO S1 S2 W F N Fl.
  pose proof (L1 _ _ Hq) as TQ. constructor.
  - intros j r H. rewrite E1 in H. destruct (upd_cases _ _ _ _ _ _ H) as [(_ & -> & _) | (_ & H')]; [exact TO|]. eapply thread_mono; eauto.
  - intros k e H. destruct (S2 k e H) as [H' | H'].
    + destruct (L2 k e H') as (f & A & B). exists f. split; [exact A | eapply wants_mono; eauto].
    + destruct (th_sleeping _ _ TQ _ _ H') as (f & A & B). exists f. split; [exact A | eapply wants_mono; eauto].
  - intros e H. destruct (F e H) as [H' | H']; [eapply done_mono; eauto|]. eapply done_mono; [exact M|]. eapply (th_done _ _ TQ). exact H'.
  - intros f H. destruct (N f H) as [H' | [H' _]]; auto.
  - exact Fl.
  - intros f H. assert (LT : i < length (threads s)) by (apply nth_error_Some; congruence).
    destruct (N f H) as [H' | [_ [H' | H']]]; [| left; exists i, q'; split; [rewrite E1; eapply upd_same; eauto | exact H'] | right; exact H'].
    destruct (L6 f H') as [(j & r & R & Wr) | [Dl | [Sz Qt]]].
    + destruct (Nat.eq_dec i j) as [<- | Ne].
      * assert (r = q) by congruence. subst r. destruct (W _ Wr) as [W' | W']; [left; exists i, q'; split; [rewrite E1; eapply upd_same; eauto | exact W'] | auto].
      * left. exists j, r. split; [rewrite E1, upd_other by exact Ne; exact R | exact Wr].
    + auto.
    + right. right. split; [exact Sz|]. destruct Qt as [Q1 Q2]. split.
      * intros j r e R. rewrite E1 in R. destruct (upd_cases _ _ _ _ _ _ R) as [(_ & -> & _) | (_ & R')]; [|eapply Q1; eauto].
        intros SL. destruct (S1 _ _ SL) as [SL' | SL']; [exact (Q1 _ _ _ Hq SL') | exact (SL' f eq_refl H)].
      * intros e SL. destruct (S2 _ _ SL) as [SL' | SL']; [exact (Q2 _ SL') | exact (Q1 _ _ _ Hq SL')].
Qed.

(** The facts and the tables stay the same. *)
Lemma logic_pc : forall s s' i q q', logic_inv s -> nth_error (threads s) i = Some q -> threads s' = upd i q' (threads s) ->
  decls s' = decls s -> sizes s' = sizes s -> tables s' = tables s ->
  (thread_ok s q -> thread_ok s q') ->
  (forall e k, sleeping q' = Some (e, k) -> sleeping q = Some (e, k) \/ forall f, k = keyf f -> ~ est s f) ->
  (forall k, wakes q = Some k -> wakes q' = Some k \/ deleted s k) ->
  (forall e, In e (finished s') -> In e (finished s) \/ q = Finish (Some e)) ->
  logic_inv s'.
Proof.
  intros s s' i q q' L Hq E1 E2 E3 E4 TO S1 W F.
  assert (ES : forall f, est s' f <-> est s f) by (intros [n|n]; cbn [est]; unfold lookup, size_known; rewrite E2 || rewrite E3; tauto).
  assert (DL : forall k, deleted s' k <-> deleted s k) by (intros k; unfold deleted, get_table; rewrite E4; tauto).
  eapply (logic_step _ _ _ _ q' L Hq E1).
  - intros f. apply ES.
  - intros k. apply DL.
  - eapply thread_mono; [| | apply TO; eapply li_threads; eauto]; [intros f; apply ES | intros k; apply DL].
  - intros e k H. destruct (S1 e k H) as [H' | H']; [auto|]. right. intros f K X. apply (H' f K). apply ES. exact X.
  - intros k e (m & t & n & l & A & B). left. exists m, t, n, l. rewrite E4 in A. auto.
  - intros k H. destruct (W k H) as [H' | H']; [auto|]. right. apply DL. exact H'.
  - exact F.
  - intros f H. left. apply ES. exact H.
  - intros x a b H. apply (li_flags _ L x a b). unfold lookup in *. rewrite E2 in H. exact H.
Qed.

(** A table changes. *)
Lemma logic_table : forall s s' i q q' m t t', logic_inv s -> nth_error (threads s) i = Some q -> nth_error (tables s) m = Some t ->
  threads s' = upd i q' (threads s) -> tables s' = upd m t' (tables s) -> decls s' = decls s -> sizes s' = sizes s -> finished s' = finished s ->
  (forall n, In (Some n) (nodes t) -> sleepers n = None -> exists n', In (Some n') (nodes t') /\ n_key n' = n_key n /\ sleepers n' = None) ->
  (forall n' l' e, In (Some n') (nodes t') -> sleepers n' = Some l' -> In e l' ->
     (exists n l, In (Some n) (nodes t) /\ n_key n = n_key n' /\ sleepers n = Some l /\ In e l) \/ sleeping q = Some (e, n_key n')) ->
  (thread_ok s' q -> thread_ok s' q') ->
  (forall e k, sleeping q' = Some (e, k) -> sleeping q = Some (e, k)) ->
  (forall k, wakes q = Some k -> wakes q' = Some k \/ deleted s' k) ->
  logic_inv s'.
Proof.
  intros s s' i q q' m t t' L Hq Hm E1 E4 E2 E3 E5 Dn Sn TO S1 W.
  assert (ES : forall f, est s' f <-> est s f) by (intros [n|n]; cbn [est]; unfold lookup, size_known; rewrite E2 || rewrite E3; tauto).
  assert (DL : forall k, deleted s k -> deleted s' k).
  { intros k (t0 & n & A & B & C & D). unfold deleted, get_table in *. rewrite E4. destruct (Nat.eq_dec m (number (k_space k))) as [Y | N].
    - assert (t0 = t) by congruence. subst t0. destruct (Dn n B D) as (n' & B' & C' & D'). exists t', n'. rewrite <- Y, (upd_same _ _ _ _ _ Hm). repeat split; auto. congruence.
    - exists t0, n. rewrite upd_other by exact N. auto. }
  eapply (logic_step _ _ _ _ q' L Hq E1).
  - intros f. apply ES.
  - exact DL.
  - apply TO. eapply thread_mono; [| exact DL | eapply li_threads; eauto]. intros f. apply ES.
  - intros e k H. left. auto.
  - intros k e (m0 & t0 & n & l & A & B & C & D & E). rewrite E4 in A. destruct (upd_cases _ _ _ _ _ _ A) as [(<- & -> & _) | (_ & A')].
    + destruct (Sn n l e B D E) as [(n0 & l0 & B0 & C0 & D0 & F0) | X]; [left; exists m, t, n0, l0; repeat split; auto; congruence | right; congruence].
    + left. exists m0, t0, n, l. auto.
  - exact W.
  - intros e H. rewrite E5 in H. auto.
  - intros f H. left. apply ES. exact H.
  - intros x a b H. apply (li_flags _ L x a b). unfold lookup in *. rewrite E2 in H. exact H.
Qed.

Lemma thread_same : forall s q q', cont_of q' = cont_of q -> sleeping q' = sleeping q -> wakes q' = wakes q -> (forall e, q' <> Finish (Some e)) ->
  thread_ok s q -> thread_ok s q'.
Proof.
  intros s q q' E1 E2 E3 E4 [A B C D]. constructor; rewrite ?E1, ?E2, ?E3; auto. intros e H. exfalso. exact (E4 e H).
Qed.
Lemma thread_none : forall s q, cont_of q = None -> sleeping q = None -> (forall e, q <> Finish (Some e)) -> thread_ok s q.
Proof. intros s q A B C. constructor; rewrite ?A, ?B; try discriminate. intros e H. exfalso. exact (C e H). Qed.

(* ------------------------------------------------------------------ *)
(** Actions. *)

Hypothesis H_flags : forall d x, In d p -> In x (actions d) ->
  match x with Declare a b | Declare_array a b => b = ist (in_unit d) a | _ => True end.
Hypothesis H_lists : forall d j a, In d p -> nth_error (actions d) j = Some (Initialize_list a) ->
  exists j' b, j' < j /\ (nth_error (actions d) j' = Some (Declare a b) \/ nth_error (actions d) j' = Some (Declare_array a b)).
Hypothesis H_strings : forall d a, In d p -> ~ In (Initialize_string a) (actions d).

Lemma space_visible : forall u a, space_of (visible ist u a) = declaration_space ist u a.
Proof. intros. unfold visible, declaration_space. destruct (ist u a); reflexivity. Qed.
Lemma atom_visible : forall u a, atom_of (visible ist u a) = a.
Proof. intros. unfold visible. destruct (ist u a); reflexivity. Qed.
Lemma key_visible : forall u a, keyf (Known (visible ist u a)) = mkkey (declaration_space ist u a) a On_decl.
Proof. intros. unfold visible, declaration_space. destruct (ist u a); reflexivity. Qed.
Lemma key_size : forall u a, keyf (Size_known (visible ist u a)) = mkkey (declaration_space ist u a) a On_array_size.
Proof. intros. unfold visible, declaration_space. destruct (ist u a); reflexivity. Qed.
Lemma static_visible : forall u a, static_space (declaration_space ist u a) = ist u a.
Proof. intros. unfold declaration_space. destruct (ist u a); reflexivity. Qed.

Lemma missing_some : forall s u d k, missing ist s u d = Some k ->
  exists f, k = keyf f /\ In f (demands ist u d) /\ ~ est s f /\ forall n, f = Size_known n -> est s (Known n).
Proof.
  intros s u d k H. destruct d as [a|a|a]; cbn [missing demands] in *.
  - destruct (lookup s _ a) eqn:L; [discriminate|]. injection H as <-. exists (Known (visible ist u a)).
    split; [rewrite key_visible; reflexivity|]. split; [left; reflexivity|]. split; [|discriminate].
    cbn [est]. rewrite space_visible, atom_visible. congruence.
  - destruct (lookup s _ a) eqn:L; [discriminate|]. injection H as <-. exists (Known (Tag a)).
    split; [reflexivity|]. split; [left; reflexivity|]. split; [|discriminate]. cbn [est space_of atom_of]. congruence.
  - destruct (lookup s _ a) eqn:L.
    + destruct (size_known s _ a) eqn:Z; [discriminate|]. injection H as <-. exists (Size_known (visible ist u a)).
      split; [rewrite key_size; reflexivity|]. split; [right; left; reflexivity|]. split.
      * cbn [est]. rewrite space_visible, atom_visible. congruence.
      * intros n E. injection E as <-. cbn [est]. rewrite space_visible, atom_visible. congruence.
    + injection H as <-. exists (Known (visible ist u a)).
      split; [rewrite key_visible; reflexivity|]. split; [left; reflexivity|]. split; [|discriminate].
      cbn [est]. rewrite space_visible, atom_visible. congruence.
Qed.

Lemma missing_none : forall s u d f, missing ist s u d = None -> In f (demands ist u d) -> est s f.
Proof.
  intros s u d f H I. destruct d as [a|a|a]; cbn [missing demands] in *.
  - destruct I as [<- | []]. cbn [est]. rewrite space_visible, atom_visible. destruct (lookup s _ a); discriminate.
  - destruct I as [<- | []]. cbn [est space_of atom_of]. destruct (lookup s _ a); discriminate.
  - destruct (lookup s _ a) eqn:L; [|discriminate]. destruct (size_known s _ a) eqn:Z; [|discriminate].
    destruct I as [<- | [<- | []]]; cbn [est]; rewrite space_visible, atom_visible; congruence.
Qed.

Lemma passed_S : forall s d j x, passed s d j -> nth_error (actions d) j = Some x ->
  (forall f, In f (needs ist (in_unit d) x) \/ In f (gives ist (in_unit d) x) -> est s f) -> passed s d (S j).
Proof.
  intros s d j x P N H j' y f L N' I. destruct (Nat.eq_dec j' j) as [-> | Ne].
  - assert (y = x) by congruence. subst y. apply H. exact I.
  - eapply P; eauto. lia.
Qed.

Lemma gives_resolvable : forall s d j x f, In d p -> passed s d j -> nth_error (actions d) j = Some x -> In f (gives ist (in_unit d) x) ->
  (forall g, est s g -> resolvable ist p g) -> resolvable ist p f.
Proof.
  intros s d j x f I P N G R. destruct (nth_error_split _ _ N) as (a & b & E & L).
  eapply (resolve ist p d a x b); eauto. intros y g Y Z. apply R. apply In_nth_error in Y. destruct Y as (j' & Y).
  assert (j' < length a) by (apply nth_error_Some; congruence).
  eapply (P j' y g); [lia | rewrite E, nth_error_app1 by assumption; exact Y | left; exact Z].
Qed.

Lemma find_cons : forall s x a b z x' a', lookup (set_facts s ((x, a, b) :: decls s) z) x' a' =
  if space_eqb x x' && (a =? a') then Some b else lookup s x' a'.
Proof. intros. unfold lookup. cbn [set_facts decls find fst snd]. destruct (space_eqb x x' && (a =? a')); reflexivity. Qed.
Lemma size_cons : forall s d x a x' a', size_known (set_facts s d ((x, a) :: sizes s)) x' a' = (space_eqb x x' && (a =? a')) || size_known s x' a'.
Proof. intros. reflexivity. Qed.
Lemma pair_eqb : forall x x' a a', space_eqb x x' && (a =? a') = true <-> x = x' /\ a = a'.
Proof. intros. rewrite andb_true_iff, space_eqb_spec, Nat.eqb_eq. tauto. Qed.

(** An action that registers something. *)
Lemma logic_facts : forall s s' i e j d x q q', logic_inv s -> nth_error (threads s) i = Some q -> threads s' = upd i q' (threads s) ->
  tables s' = tables s -> finished s' = finished s ->
  nth_error p e = Some d -> nth_error (actions d) j = Some x -> passed s d j -> sleeping q = None -> sleeping q' = None ->
  (forall k, wakes q = Some k -> deleted s k) ->
  (cont_of q' = Some (Go_on e (S j)) \/ cont_of q' = None /\ forall e, q' <> Finish (Some e)) ->
  (forall f, est s f -> est s' f) ->
  (forall f, In f (needs ist (in_unit d) x) \/ In f (gives ist (in_unit d) x) -> est s' f) ->
  (forall f, est s' f -> est s f \/ In f (gives ist (in_unit d) x) /\ (wakes q' = Some (keyf f) \/ deleted s (keyf f) \/ (exists n, f = Size_known n) /\ quiet s f)) ->
  (forall x a b, lookup s' x a = Some b -> b = static_space x) ->
  logic_inv s'.
Proof.
  intros s s' i e j d x q q' L Hq E1 E4 E5 P A PA SQ SQ' W C M G N Fl.
  assert (DL : forall k, deleted s' k <-> deleted s k) by (intros k; unfold deleted, get_table; rewrite E4; tauto).
  assert (SL : forall k e, sleeper s' k e <-> sleeper s k e) by (intros k e0; unfold sleeper; rewrite E4; tauto).
  eapply (logic_step _ _ _ _ q' L Hq E1 M).
  - intros k. apply DL.
  - assert (AT : at_action s' e (S j)).
    { intros d' P'. assert (d' = d) by congruence. subst d'. eapply passed_S; eauto. eapply passed_mono; eauto. }
    destruct C as [C | [C C']]; [|apply thread_none; auto].
    constructor; rewrite ?SQ', ?C; try discriminate.
    + intros c H. injection H as <-. exact AT.
    + intros e0 ->. discriminate.
  - rewrite SQ'. discriminate.
  - intros k e0 H. left. apply SL. exact H.
  - intros k H. right. apply DL. auto.
  - intros e0 H. rewrite E5 in H. auto.
  - intros f H. destruct (N f H) as [H' | [H1 H2]]; [auto|]. right. split.
    + eapply (gives_resolvable s d j x f); eauto; [eapply nth_error_In; exact P | apply (li_facts _ L)].
    + destruct H2 as [H2 | [H2 | [H2 H3]]]; [auto | right; left; apply DL; exact H2 | right; right; split; [exact H2|]].
      destruct H3 as [Q1 Q2]. split; [|intros e0 H3; apply (Q2 e0); apply SL; exact H3].
      intros i0 q0 e0 R. rewrite E1 in R. destruct (upd_cases _ _ _ _ _ _ R) as [(_ & -> & _) | (_ & R')]; [congruence | eapply Q1; eauto].
  - exact Fl.
Qed.

(** Nobody sleeps on the size of something that is not declared. *)
Lemma undeclared_quiet : forall s n, logic_inv s -> ~ est s (Known n) -> quiet s (Size_known n).
Proof.
  intros s n L H. split.
  - intros i q e Q SL. destruct (th_sleeping _ _ (li_threads _ L _ _ Q) _ _ SL) as (f & K & _ & Z). apply keyf_inj in K. subst f. exact (H (Z n eq_refl)).
  - intros e SL. destruct (li_nodes _ L _ _ SL) as (f & K & _ & Z). apply keyf_inj in K. subst f. exact (H (Z n eq_refl)).
Qed.

Lemma go_on : forall s e j d x, at_action s e j -> nth_error p e = Some d -> nth_error (actions d) j = Some x ->
  (forall f, In f (needs ist (in_unit d) x) \/ In f (gives ist (in_unit d) x) -> est s f) -> thread_ok s (Parse e (S j)).
Proof.
  intros s e j d x A P N H. constructor; cbn [sleeping cont_of wakes]; try discriminate.
  intros c E. injection E as <-. intros d' P'. assert (d' = d) by congruence. subst d'. eapply passed_S; eauto.
Qed.
Lemma go_sleep : forall s e j d x f, at_action s e j -> nth_error p e = Some d -> nth_error (actions d) j = Some x ->
  In f (needs ist (in_unit d) x) -> (forall n, f = Size_known n -> est s (Known n)) -> wants s e f.
Proof. intros s e j d x f A P N I Z. split; [exists d, j, x; auto | exact Z]. Qed.

Lemma est_size : forall s u a, est s (Size_known (visible ist u a)) <-> size_known s (declaration_space ist u a) a = true.
Proof. intros. cbn [est]. rewrite space_visible, atom_visible. tauto. Qed.
Lemma est_known : forall s u a, est s (Known (visible ist u a)) <-> lookup s (declaration_space ist u a) a <> None.
Proof. intros. cbn [est]. rewrite space_visible, atom_visible. tauto. Qed.

Lemma visible_unique : forall n u a, declaration_space ist u a = space_of n -> a = atom_of n -> n = visible ist u a.
Proof. intros. apply entity_eq; rewrite ?space_visible, ?atom_visible; congruence. Qed.

Lemma wake_same : forall s u a old, logic_inv s -> lookup s (declaration_space ist u a) a = Some old ->
  wake_key u old a = keyf (Size_known (visible ist u a)).
Proof.
  intros s u a old L H. rewrite key_size. apply (li_flags _ L) in H. rewrite static_visible in H. subst old. unfold wake_key, declaration_space. reflexivity.
Qed.

Ltac stay L Hq := eapply (logic_pc _ _ _ _ _ L Hq); try reflexivity; cbn [sleeping wakes]; try discriminate; auto.

Lemma step_perform : forall s i e j d x, logic_inv s -> nth_error (threads s) i = Some (Parse e j) -> nth_error p e = Some d ->
  nth_error (actions d) j = Some x -> logic_inv (perform ist s i e j (in_unit d) x).
Proof.
  intros s i e j d x L Hq P A.
  assert (IP : In d p) by (eapply nth_error_In; exact P). assert (IA : In x (actions d)) by (eapply nth_error_In; exact A).
  pose proof (li_threads _ L _ _ Hq) as TQ. pose proof (th_cont _ _ TQ _ eq_refl) as AT. cbn [cont_ok] in AT. pose proof (AT d P) as PA.
  pose proof (H_flags d x IP IA) as FL.
  destruct x as [dm|a flag|a flag|a|a dm|a|a]; cbn [perform].
  - (* Need *) destruct (missing ist s (in_unit d) dm) as [k|] eqn:Mi.
    + destruct (missing_some _ _ _ _ Mi) as (f & -> & F1 & F2 & F3). unfold sleep. stay L Hq.
      * intros _. constructor; cbn [sleeping sleep_op cont_of cont_op]; try discriminate.
        intros e0 k0 H. injection H as <- <-. exists f. split; [reflexivity | eapply go_sleep; eauto].
      * cbn [sleep_op]. intros e0 k0 H. injection H as <- <-. right. intros g G. apply keyf_inj in G. subst g. exact F2.
    + stay L Hq. intros _. eapply go_on; eauto. cbn [needs gives]. intros f [H | []]. eapply missing_none; eauto.
  - (* Declare *)
    destruct (lookup s (declaration_space ist (in_unit d) a) a) as [old|] eqn:Lk.
    + stay L Hq. intros _. eapply go_on; eauto. cbn [needs gives]. intros f [[] | [<- | []]]. apply est_known. congruence.
    + assert (LS : forall y b, lookup (set_pc (set_facts s ((declaration_space ist (in_unit d) a, a, flag) :: decls s) (sizes s)) i
                        (Grow_check (Wake (Go_on e (S j))) (mkkey (declaration_space ist (in_unit d) a) a On_decl))) y b =
                      if space_eqb (declaration_space ist (in_unit d) a) y && (a =? b) then Some flag else lookup s y b) by (intros; apply find_cons).
      eapply (logic_facts _ _ i e j d _ _ (Grow_check (Wake (Go_on e (S j))) (mkkey (declaration_space ist (in_unit d) a) a On_decl)) L Hq); eauto; try reflexivity.
      * cbn. discriminate.
      * intros [n|n] H; cbn [est] in *; [|exact H]. rewrite LS. destruct (_ && _); [discriminate | exact H].
      * cbn [needs gives]. intros f [[] | [<- | []]]. apply est_known. rewrite LS. rewrite (proj2 (pair_eqb _ _ _ _)) by auto. discriminate.
      * intros [n|n] H; cbn [est] in *; [|left; exact H]. rewrite LS in H. destruct (_ && _) eqn:E; [|left; exact H].
        apply pair_eqb in E. destruct E as [E1 E2]. right. rewrite (visible_unique n _ _ E1 E2). split; [left; reflexivity|]. left. cbn [wakes wake_op]. rewrite key_visible. reflexivity.
      * intros y b f H. rewrite LS in H. destruct (_ && _) eqn:E; [|eapply li_flags; eauto]. apply pair_eqb in E. destruct E as [<- <-]. injection H as <-.
        rewrite static_visible. exact FL.
  - (* Declare_array *)
    destruct (lookup s (declaration_space ist (in_unit d) a) a) as [old|] eqn:Lk.
    + destruct (size_known s (declaration_space ist (in_unit d) a) a) eqn:Sz.
      * stay L Hq. intros _. eapply go_on; eauto. cbn [needs gives]. intros f [[] | [<- | [<- | []]]]; [apply est_known; congruence | apply est_size; exact Sz].
      * eapply (logic_facts _ _ i e j d _ _ (Grow_check (Wake (Go_on e (S j))) (wake_key (in_unit d) old a)) L Hq); eauto; try reflexivity.
        -- cbn. discriminate.
        -- intros [n|n] H; cbn [est] in *; [exact H|]. unfold set_pc, size_known. cbn [sizes set_facts existsb fst snd].
           apply orb_true_iff. right. exact H.
        -- cbn [needs gives]. intros f [[] | [<- | [<- | []]]]; [apply est_known; change (lookup s (declaration_space ist (in_unit d) a) a <> None); congruence|].
           apply est_size. unfold set_pc, size_known. cbn [sizes set_facts existsb fst snd]. rewrite (proj2 (pair_eqb _ _ _ _)) by auto. reflexivity.
        -- intros [n|n] H; cbn [est] in *; [left; exact H|]. unfold set_pc, size_known in H. cbn [sizes set_facts existsb fst snd] in H.
           apply orb_true_iff in H. destruct H as [H | H]; [|left; exact H]. apply pair_eqb in H. destruct H as [E1 E2]. right.
           rewrite (visible_unique n _ _ E1 E2). split; [right; left; reflexivity|]. left. cbn [wakes wake_op]. f_equal. eapply wake_same; eauto.
        -- apply (li_flags _ L).
    + set (s' := set_pc _ i _).
      assert (LS : forall y b, lookup s' y b = if space_eqb (declaration_space ist (in_unit d) a) y && (a =? b) then Some flag else lookup s y b) by (intros; apply find_cons).
      assert (SS : forall y b, size_known s' y b = (space_eqb (declaration_space ist (in_unit d) a) y && (a =? b)) || size_known s y b) by (intros; reflexivity).
      eapply (logic_facts s s' i e j d _ _ (Grow_check (Wake (Go_on e (S j))) (mkkey (declaration_space ist (in_unit d) a) a On_decl)) L Hq); eauto; try reflexivity.
      * cbn. discriminate.
      * intros [n|n] H; cbn [est] in *; [rewrite LS; destruct (_ && _); [discriminate | exact H]|]. rewrite SS, H. apply orb_true_r.
      * cbn [needs gives]. intros f [[] | [<- | [<- | []]]]; [apply est_known; rewrite LS | apply est_size; rewrite SS]; rewrite (proj2 (pair_eqb _ _ _ _)) by auto; [discriminate | reflexivity].
      * intros [n|n] H; cbn [est] in H.
        -- rewrite LS in H. destruct (_ && _) eqn:E; [|left; exact H].
           apply pair_eqb in E. destruct E as [E1 E2]. right. rewrite (visible_unique n _ _ E1 E2). split; [left; reflexivity|]. left. cbn [wakes wake_op]. rewrite key_visible. reflexivity.
        -- rewrite SS in H. destruct (_ && _) eqn:E; [|left; exact H].
           apply pair_eqb in E. destruct E as [E1 E2]. right. rewrite (visible_unique n _ _ E1 E2). split; [right; left; reflexivity|].
           right. right. split; [eexists; reflexivity|]. apply undeclared_quiet; [exact L|]. rewrite est_known. congruence.
      * intros y b f H. rewrite LS in H. destruct (_ && _) eqn:E; [|eapply li_flags; eauto]. apply pair_eqb in E. destruct E as [<- <-]. injection H as <-.
        rewrite static_visible. exact FL.
  - (* Define_compound *)
    destruct (lookup s Compounds a) as [old|] eqn:Lk.
    + stay L Hq. intros _. eapply go_on; eauto. cbn [needs gives]. intros f [[] | [<- | []]]. cbn [est space_of atom_of]. congruence.
    + set (s' := set_pc _ i _).
      assert (LS : forall y b, lookup s' y b = if space_eqb Compounds y && (a =? b) then Some false else lookup s y b) by (intros; apply find_cons).
      eapply (logic_facts s s' i e j d _ _ (Grow_check (Wake (Go_on e (S j))) (mkkey Compounds a On_struct)) L Hq); eauto; try reflexivity.
      * cbn. discriminate.
      * intros [n|n] H; cbn [est] in *; [|exact H]. rewrite LS. destruct (_ && _); [discriminate | exact H].
      * cbn [needs gives]. intros f [[] | [<- | []]]. cbn [est space_of atom_of]. rewrite LS, (proj2 (pair_eqb _ _ _ _)) by auto. discriminate.
      * intros [n|n] H; cbn [est] in *; [|left; exact H]. rewrite LS in H. destruct (_ && _) eqn:E; [|left; exact H].
        apply pair_eqb in E. destruct E as [E1 E2]. right. assert (n = Tag a) by (apply entity_eq; cbn; congruence). subst n.
        split; [left; reflexivity|]. left. reflexivity.
      * intros y b f H. rewrite LS in H. destruct (_ && _) eqn:E; [|eapply li_flags; eauto]. apply pair_eqb in E. destruct E as [<- <-]. injection H as <-. reflexivity.
  - (* Need_in_list *) destruct (missing ist s (in_unit d) dm) as [k|] eqn:Mi.
    + destruct (missing_some _ _ _ _ Mi) as (f & -> & F1 & F2 & F3).
      assert (W : wants s e f) by (eapply go_sleep; eauto).
      assert (X : forall e0 k0, Some (e, keyf f) = Some (e0, k0) -> None = Some (e0, k0) \/ (forall g, k0 = keyf g -> ~ est s g)).
      { intros e0 k0 H. injection H as <- <-. right. intros g G. apply keyf_inj in G. subst g. exact F2. }
      assert (Y : logic_inv (set_pc s i (sleep e (keyf f)))).
      { unfold sleep. stay L Hq. intros _. constructor; cbn [sleeping sleep_op cont_of cont_op]; try discriminate.
        intros e0 k0 H. injection H as <- <-. exists f. auto. }
      destruct (lookup s (declaration_space ist (in_unit d) a) a) as [old|] eqn:Lk; [|exact Y].
      destruct (size_known s (declaration_space ist (in_unit d) a) a); [exact Y|].
      stay L Hq. intros _. constructor; cbn [sleeping sleep_op sleep_cont cont_of cont_op]; try discriminate.
      * intros e0 k0 H. injection H as <- <-. exists f. auto.
      * intros c H. injection H as <-. exact Logic.I.
    + stay L Hq. intros _. eapply go_on; eauto. cbn [needs gives]. intros f [H | []]. eapply missing_none; eauto.
  - (* Initialize_list *)
    destruct (H_lists d j a IP A) as (j' & b & J1 & J2).
    assert (KN : est s (Known (visible ist (in_unit d) a))).
    { destruct J2 as [J2 | J2]; (eapply (PA j'); [exact J1 | exact J2 |]); right; left; reflexivity. }
    apply est_known in KN. destruct (lookup s (declaration_space ist (in_unit d) a) a) as [old|] eqn:Lk; [|congruence].
    destruct (size_known s (declaration_space ist (in_unit d) a) a) eqn:Sz.
    + stay L Hq. intros _. eapply go_on; eauto. cbn [needs gives]. intros f [[] | [<- | []]]. apply est_size. exact Sz.
    + stay L Hq. intros _. constructor; cbn [sleeping sleep_op sleep_cont cont_of cont_op wakes wake_op]; try discriminate.
      * intros c H. injection H as <-. cbn [cont_ok]. exists d, a. rewrite key_size. auto.
      * intros e0 j0 k0 H. injection H as <- <- <-. left. f_equal. rewrite (wake_same _ _ _ _ L Lk), key_size. reflexivity.
  - exfalso. exact (H_strings d a IP IA).
Qed.

(* ------------------------------------------------------------------ *)
(** All steps. *)

Variable order : list nat.
Hypothesis H_order : NoDup order.

Ltac same L Hq := eapply (logic_pc _ _ _ _ _ L Hq); try reflexivity; auto; [apply thread_same; (reflexivity || discriminate)].
Ltac fault L Hq := eapply (logic_pc _ _ _ _ _ L Hq); try reflexivity; auto; cbn [sleeping wakes]; try discriminate.

Lemma resume_ok : forall s c, cont_ok s c -> (forall e j k, c = Then_set e j k -> deleted s k) ->
  (forall e k, sleep_cont c = Some (e, k) -> exists f, k = keyf f /\ wants s e f) -> thread_ok s (resume c).
Proof.
  intros s c C D W. destruct c as [e j | e k | e j k]; cbn [resume]; constructor; cbn [sleeping cont_of wakes sleep sleep_op cont_op]; try discriminate.
  - intros c H. injection H as <-. exact C.
  - exact W.
  - intros c H. injection H as <-. exact C.
  - intros e0 j0 k0 H. injection H as <- <- <-. right. eapply D. reflexivity.
Qed.

Lemma resume_sleeping : forall c, sleeping (resume c) = sleep_cont c.
Proof. destruct c; reflexivity. Qed.

(** A table keeps its nodes. *)
Ltac same_table L Hq G := eapply (logic_table _ _ _ _ _ _ _ _ L Hq G); try reflexivity; auto;
  [ intros n N Z; exists n; auto | intros n l e0 N Z In0; left; exists n, l; auto | apply thread_same; (reflexivity || discriminate) ].

Lemma step_logic : forall s i, tables_inv hash s -> entries_inv order s -> faultless (step ist hash p s i) -> logic_inv s -> logic_inv (step ist hash p s i).
Proof.
  intros s i I EI FL L. unfold step in *. destruct (nth_error (threads s) i) as [q|] eqn:Hq; [|exact L].
  assert (NF : forall l, faultless (set_pc s i (Fault l)) -> False).
  { intros l F. apply (F l). cbn [set_pc threads]. eapply nth_error_In. eapply upd_same. exact Hq. }
  pose proof (li_threads _ L _ _ Hq) as TQ.
  destruct q.
  - (* Idle *) destruct (queue s) as [|e r]; [exact L|]. fault L Hq. intros _. constructor; cbn [sleeping cont_of]; try discriminate.
    intros c H. injection H as <-. intros d _ j' x f LT. lia.
  - (* Parse *) destruct (nth_error p e) as [d|] eqn:P; [|exfalso; eapply NF; eauto].
    destruct (nth_error (actions d) j) as [x|] eqn:A; [apply step_perform; auto|].
    fault L Hq. intros _. constructor; cbn [sleeping cont_of]; try discriminate. intros e0 H. injection H as <-. exists d. split; [exact P|].
    pose proof (th_cont _ _ TQ _ eq_refl d P) as PA. apply nth_error_None in A. intros j' x f LT. apply PA. lia.
  - (* Set_size *)
    pose proof (th_cont _ _ TQ _ eq_refl) as (d & a & P & A & PA & ->). destruct (th_set _ _ TQ _ _ _ eq_refl) as [W | D]; [discriminate|].
    eapply (logic_facts _ _ i e j d _ _ (Parse e (S j)) L Hq); eauto; try reflexivity.
    + cbn. discriminate.
    + intros [n|n] H; cbn [est] in *; [exact H|]. unfold set_pc, size_known. cbn [sizes set_facts existsb fst snd].
      apply orb_true_iff. right. exact H.
    + cbn [needs gives]. intros f [[] | [<- | []]]. cbn [est]. unfold set_pc, size_known. cbn [sizes set_facts existsb fst snd keyf k_space k_atom].
      rewrite (proj2 (pair_eqb _ _ _ _)) by auto. reflexivity.
    + intros [n|n] H; cbn [est] in *; [left; exact H|]. unfold set_pc, size_known in H. cbn [sizes set_facts existsb fst snd] in H.
      apply orb_true_iff in H. destruct H as [H | H]; [|left; exact H]. apply pair_eqb in H. destruct H as [E1 E2]. right.
      assert (n = visible ist (in_unit d) a) by (apply entity_eq; cbn in *; congruence). subst n.
      split; [left; reflexivity | right; left; exact D].
    + apply (li_flags _ L).
  - (* Grow_check *) unfold in_table in *. destruct (get_table s (k_space k)) as [t|] eqn:G; [|exfalso; eapply NF; eauto].
    destruct (is_locked t); [exact L|]. destruct (full t); same L Hq.
  - (* Grow_lock *) unfold in_table in *. destruct (get_table s (k_space k)) as [t|] eqn:G; [|exfalso; eapply NF; eauto].
    destruct (is_locked t); [same L Hq|]. unfold get_table in G. same_table L Hq G.
  - (* Grow_recheck *) unfold in_table in *. destruct (get_table s (k_space k)) as [t|] eqn:G; [|exfalso; eapply NF; eauto]. destruct (full t); same L Hq.
  - (* Grow_wait *) unfold in_table in *. destruct (get_table s (k_space k)) as [t|] eqn:G; [|exfalso; eapply NF; eauto].
    destruct (threads_in_flight t =? 0); [|exact L]. unfold get_table in G. same_table L Hq G.
  - (* Grow_copy *) unfold in_table in *. destruct (get_table s (k_space k)) as [t|] eqn:G; [|exfalso; eapply NF; eauto].
    unfold get_table in G. pose proof (ti_tables _ _ I _ _ G) as [T1 T2 T3 T4 T5 T6].
    destruct (grow_spec hash (nodes t) T1 T2) as (L1 & L2 & L3 & L4).
    eapply (logic_table _ _ _ _ _ _ _ _ L Hq G); try reflexivity; auto; cbn [nodes].
    + intros n N Z. exists n. split; [apply L4; exact N | auto].
    + intros n l e N Z In0. left. exists n, l. split; [apply L4; exact N | auto].
    + apply thread_same; (reflexivity || discriminate).
  - (* Grow_unlock *) unfold in_table in *. destruct (get_table s (k_space k)) as [t|] eqn:G; [|exfalso; eapply NF; eauto].
    unfold get_table in G. same_table L Hq G.
  - (* Enter *) unfold in_table in *. destruct (get_table s (k_space k)) as [t|] eqn:G; [|exfalso; eapply NF; eauto].
    destruct (copying t); [exfalso; eapply NF; eauto|]. unfold get_table in G. same_table L Hq G.
  - (* Probe *) unfold in_table in *. destruct (get_table s (k_space k)) as [t|] eqn:G; [|exfalso; eapply NF; eauto].
    destruct (i0 <? capacity t); [|exfalso; eapply NF; eauto]. destruct (node_at t index) as [m|]; [destruct (key_eqb (n_key m) k); [destruct o|]|]; same L Hq.
  - (* Load *) unfold in_table in *. destruct (get_table s (k_space k)) as [t|] eqn:G; [|exfalso; eapply NF; eauto].
    destruct (node_at t index) as [m|]; [|exfalso; eapply NF; eauto]. destruct (sleepers m); same L Hq.
  - (* Push *) unfold in_table in *. destruct (get_table s (k_space k)) as [t|] eqn:G; [|exfalso; eapply NF; eauto].
    pose proof (ti_threads _ _ I _ _ _ _ Hq eq_refl G) as (NE & n & N & K & V).
    pose proof G as G'. unfold get_table in G'. pose proof (ti_tables _ _ I _ _ G') as [T1 T2 T3 T4 T5 T6].
    rewrite (proj2 (node_at_some _ _ _) N) in *. destruct (same_head (sleepers n) (Some expected)) eqn:SH; [|same L Hq].
    assert (E : sleepers n = Some expected).
    { eapply heads; eauto; [apply (T3 n); eapply nth_error_In; exact N | congruence]. }
    eapply (logic_table _ _ _ _ _ _ _ _ L Hq G'); try reflexivity; auto; cbn [set_nodes nodes sleeping wakes]; try discriminate.
    + intros m M Z. apply In_nth_error in M. destruct M as (x & M). exists m. split; [|auto]. apply (nth_error_In _ x).
      rewrite upd_other; [exact M|]. intros <-. congruence.
    + intros m l e0 M Z In0. apply In_nth_error in M. destruct M as (x & M). destruct (upd_cases _ _ _ _ _ _ M) as [(_ & Q & _) | (_ & Q)].
      * injection Q as ->. cbn [sleepers n_key] in *. injection Z as <-. destruct In0 as [<- | In0]; [right; congruence|].
        left. exists n, expected. repeat split; auto. eapply nth_error_In. exact N.
      * left. exists m, l. repeat split; auto. eapply nth_error_In. exact Q.
    + intros _. apply thread_none; (reflexivity || discriminate).
  - (* Requeue *) fault L Hq. intros _. apply thread_none; (reflexivity || discriminate).
  - (* Insert *) unfold in_table in *. destruct (get_table s (k_space k)) as [t|] eqn:G; [|exfalso; eapply NF; eauto].
    destruct (node_at t index) as [m|] eqn:N; [same L Hq|].
    pose proof (ti_threads _ _ I _ _ _ _ Hq eq_refl G) as ((d & D & R) & Lt).
    pose proof G as G'. unfold get_table in G'. pose proof (ti_tables _ _ I _ _ G') as [T1 T2 T3 T4 T5 T6].
    assert (F : nth_error (nodes t) index = Some None).
    { unfold node_at in N. destruct (nth_error (nodes t) index) as [[m|]|] eqn:Q; try discriminate; [reflexivity|].
      apply nth_error_None in Q. destruct R as [-> _]. pose proof (slot_lt hash (nodes t) k d T1). lia. }
    set (s' := update_table _ _ _ _ _) in *.
    assert (DK : forall c, o = Wake c -> deleted s' k).
    { intros c ->. exists (set_nodes t (upd index (Some (mknode k None)) (nodes t))), (mknode k None). unfold s', update_table, get_table.
      cbn [set_pc set_table tables nodes set_nodes]. rewrite (upd_same _ _ _ _ _ G'). repeat split; auto. eapply nth_error_In. eapply upd_same. exact F. }
    eapply (logic_table _ _ _ _ _ _ _ _ L Hq G'); try reflexivity; auto; cbn [set_nodes nodes].
    + intros m M Z. apply In_nth_error in M. destruct M as (x & M). exists m. split; [|auto]. apply (nth_error_In _ x).
      rewrite upd_other; [exact M|]. intros <-. congruence.
    + intros m l e0 M Z In0. apply In_nth_error in M. destruct M as (x & M). destruct (upd_cases _ _ _ _ _ _ M) as [(_ & Q & _) | (_ & Q)].
      * injection Q as ->. cbn [sleepers n_key sleeping] in *. destruct o as [e|c]; [|discriminate]. injection Z as <-. destruct In0 as [<- | []]. right. reflexivity.
      * left. exists m, l. repeat split; auto. eapply nth_error_In. exact Q.
    + intros [A B C E]. constructor; try discriminate.
      * intros e0 k0 H. apply A. destruct o; [discriminate | exact H].
      * exact B.
      * intros e0 j0 k0 H. destruct (C _ _ _ H) as [W | W]; [|auto]. right. destruct o as [e|c]; [discriminate|]. cbn [wakes wake_op] in W. injection W as <-. eapply DK. reflexivity.
    + intros e0 k0 H. destruct o; [discriminate | exact H].
    + intros k0 H. right. destruct o as [e|c]; [discriminate|]. cbn [wakes wake_op] in H. injection H as <-. eapply DK. reflexivity.
  - (* Count *) unfold in_table in *. destruct (get_table s (k_space k)) as [t|] eqn:G; [|exfalso; eapply NF; eauto].
    unfold get_table in G. same_table L Hq G.
  - (* Swap *) unfold in_table in *. destruct (get_table s (k_space k)) as [t|] eqn:G; [|exfalso; eapply NF; eauto].
    pose proof (ti_threads _ _ I _ _ _ _ Hq eq_refl G) as (OP & NE & n & N & K & V).
    pose proof G as G'. unfold get_table in G'. pose proof (ti_tables _ _ I _ _ G') as [T1 T2 T3 T4 T5 T6].
    rewrite (proj2 (node_at_some _ _ _) N) in *. destruct (same_head (sleepers n) expected) eqn:SH; [|same L Hq].
    set (s' := update_table _ _ _ _ _) in *.
    assert (DK : deleted s' k).
    { exists (set_nodes t (upd index (Some (mknode (n_key n) None)) (nodes t))), (mknode (n_key n) None). unfold s', update_table, get_table.
      cbn [set_pc set_table tables nodes set_nodes]. rewrite (upd_same _ _ _ _ _ G'). repeat split; auto. eapply nth_error_In. eapply upd_same. exact N. }
    eapply (logic_table _ _ _ _ _ _ _ _ L Hq G'); try reflexivity; auto; cbn [set_nodes nodes].
    + intros m M Z. apply In_nth_error in M. destruct M as (x & M). destruct (Nat.eq_dec index x) as [<- | Ne].
      * exists (mknode (n_key n) None). split; [eapply nth_error_In; eapply upd_same; exact N|]. assert (m = n) by congruence. subst m. auto.
      * exists m. split; [|auto]. apply (nth_error_In _ x). rewrite upd_other; [exact M | exact Ne].
    + intros m l e0 M Z In0. apply In_nth_error in M. destruct M as (x & M). destruct (upd_cases _ _ _ _ _ _ M) as [(_ & Q & _) | (_ & Q)].
      * injection Q as ->. discriminate.
      * left. exists m, l. repeat split; auto. eapply nth_error_In. exact Q.
    + intros [A B C E]. constructor; try discriminate.
      * exact A.
      * exact B.
      * intros e0 j0 k0 H. destruct (C _ _ _ H) as [W | W]; [|auto]. right. cbn [wakes] in W. injection W as <-. exact DK.
    + intros k0 H. right. cbn [wakes] in H. injection H as <-. exact DK.
  - (* Leave *) unfold in_table in *. destruct (get_table s (k_space k)) as [t|] eqn:G; [|exfalso; eapply NF; eauto].
    unfold get_table in G.
    eapply (logic_table _ _ _ _ _ _ _ _ L Hq G); try reflexivity; auto.
    + intros n N Z. exists n. auto.
    + intros n l e0 N Z In0. left. exists n, l. auto.
    + intros [A B C E]. destruct o as [e|c]; [apply thread_none; (reflexivity || discriminate)|].
      destruct result as [|r l].
      * apply resume_ok; [apply B; reflexivity | | exact A]. intros e j k0 ->. destruct (C e j k0 eq_refl); [discriminate | assumption].
      * constructor; try discriminate; [exact A | exact B | exact C].
    + intros e0 k0 H. destruct o as [e|c]; [discriminate|]. cbn [sleeping]. destruct result; [rewrite <- resume_sleeping; exact H | exact H].
    + discriminate.
  - (* Append *) eapply (logic_pc _ _ _ _ _ L Hq); try reflexivity; auto.
    + intros [A B C E]. apply resume_ok; [apply B; reflexivity | | exact A].
      intros e j k ->. destruct (C e j k eq_refl); [discriminate | assumption].
    + intros e0 k0 H. rewrite resume_sleeping in H. left. exact H.
    + discriminate.
  - (* Finish *) eapply (logic_pc _ _ _ _ _ L Hq); try reflexivity; auto; try discriminate.
    + intros _. apply thread_none; (reflexivity || discriminate).
    + cbn [set_pc set_queue finished]. intros e H. destruct done0 as [e'|]; [|auto]. destruct H as [<- | H]; auto.
  - exact L.
Qed.
End Stage.
