(** With enough room and no initialiser that has to sleep inside of its braces, the stage ends if every thread gets
    to run again and again. *)
From Coq Require Import List Bool Arith Lia Permutation. Import ListNotations.
From Verif Require Import SleepSpec SleepModel SleepProofs SleepSteps SleepLogic SleepEnd SleepRoom.

Definition estb (s : state) (f : fact) : bool :=
  match f with
  | Known n => match lookup s (space_of n) (atom_of n) with Some _ => true | None => false end
  | Size_known n => size_known s (space_of n) (atom_of n)
  end.

Lemma estb_spec : forall s f, estb s f = true <-> est s f.
Proof. intros s [n|n]; cbn [estb est]; [destruct (lookup s _ _); split; congruence | tauto]. Qed.
Lemma estb_false : forall s f, estb s f = false <-> ~ est s f.
Proof. intros s f. rewrite <- estb_spec. destruct (estb s f); split; congruence. Qed.

Definition grows (s s' : state) : Prop := forall f, est s f -> est s' f.

Lemma filter_le : forall A (f g : A -> bool) l, (forall x, In x l -> f x = true -> g x = true) -> length (filter f l) <= length (filter g l).
Proof.
  induction l as [|x l IH]; intros H; [cbn; lia|]. cbn [filter]. assert (IH' := IH (fun y Y => H y (or_intror Y))).
  specialize (H x (or_introl eq_refl)). destruct (f x); [rewrite H by reflexivity; cbn [length]; lia | destruct (g x); cbn [length]; lia].
Qed.
Lemma filter_lt : forall A (f g : A -> bool) l y, (forall x, In x l -> f x = true -> g x = true) -> In y l -> f y = false -> g y = true ->
  S (length (filter f l)) <= length (filter g l).
Proof.
  induction l as [|x l IH]; intros y H I Fy Gy; [destruct I|]. cbn [filter].
  assert (LE := filter_le A f g l (fun z Z => H z (or_intror Z))). destruct I as [-> | I].
  - rewrite Fy, Gy. cbn [length]. lia.
  - assert (IH' := IH y (fun z Z => H z (or_intror Z)) I Fy Gy). specialize (H x (or_introl eq_refl)).
    destruct (f x); [rewrite H by reflexivity; cbn [length]; lia | destruct (g x); cbn [length]; lia].
Qed.
Lemma filter_same : forall A (f g : A -> bool) l, (forall x, In x l -> f x = g x) -> filter f l = filter g l.
Proof.
  induction l as [|x l IH]; intros H; [reflexivity|]. cbn [filter]. rewrite (H x (or_introl eq_refl)), IH; [reflexivity|]. intros y Y. apply H. right. exact Y.
Qed.
Lemma total_le : forall A (f g : A -> nat) l, (forall x, In x l -> f x <= g x) -> total f l <= total g l.
Proof. induction l as [|x l IH]; intros H; [cbn; lia|]. cbn [total]. pose proof (H x (or_introl eq_refl)). specialize (IH (fun y Y => H y (or_intror Y))). lia. Qed.

(** The sleepers of a key are woken up, or found to have been. *)
Definition claims (q : pc) : option key :=
  match q with
  | Requeue _ k => Some k
  | Count o k | Leave o k _ => wake_op o k
  | _ => wakes q
  end.

Section Term.
Variable ist : nat -> atom -> bool.
Variable hash : atom -> purpose -> nat.
Variable p : program.
Variable order : list nat.
Hypothesis H_order : NoDup order.
Hypothesis H_in : forall e, In e order -> e < length p.
Variable units cap : nat.
Notation K := (length (all_facts ist p)).
Notation N := (length order).
Hypothesis H_units : forall d, In d p -> in_unit d < units.
Hypothesis H_room : 2 * K + N + 4 <= cap.
Hypothesis H_flags : forall d x, In d p -> In x (actions d) ->
  match x with Declare a b | Declare_array a b => b = ist (in_unit d) a | _ => True end.
Hypothesis H_lists : forall d j a, In d p -> nth_error (actions d) j = Some (Initialize_list a) ->
  exists j' b, j' < j /\ (nth_error (actions d) j' = Some (Declare a b) \/ nth_error (actions d) j' = Some (Declare_array a b)).
Hypothesis H_strings : forall d a, In d p -> ~ In (Initialize_string a) (actions d).
Hypothesis H_braces : forall d a dm, In d p -> ~ In (Need_in_list a dm) (actions d).

(* ------------------------------------------------------------------ *)
(** What is left to do. *)

Definition needs_of (e : nat) : list fact :=
  match nth_error p e with Some d => flat_map (needs ist (in_unit d)) (actions d) | None => [] end.
Definition is_open (s : state) (ko : option key) (g : fact) : bool :=
  negb (estb s g) && match ko with Some k => negb (key_eqb (keyf g) k) | None => true end.
Definition open (s : state) (e : nat) (ko : option key) : nat := length (filter (is_open s ko) (needs_of e)).

Definition la (e : nat) : nat := match nth_error p e with Some d => length (actions d) | None => 0 end.
Definition A : nat := 3 * cap + 2 * N + 17.
Definition W : nat := length (flat_map actions p) * A + 4.
(** An entry that is in the queue or sleeps on a key. *)
Definition V (s : state) (ko : option key) (e : nat) : nat := (1 + open s e ko) * W.

Definition loadv (s : state) (k : key) (i : nat) : nat :=
  match get_table s (k_space k) with
  | Some t => match node_at t i with
              | Some n => match sleepers n with Some l => 7 + 2 * (S N - length l) | None => 5 end
              | None => 9 + 2 * N
              end
  | None => 9 + 2 * N
  end.

Definition steps (q : pc) : nat :=
  match q with
  | Grow_check _ _ => 3 * cap + 2 * N + 14
  | Enter _ _ => 3 * cap + 2 * N + 13
  | Probe _ _ n _ => 3 * (cap - n) + 2 * N + 12
  | Insert _ _ n _ | Swap _ _ n _ _ => 3 * (cap - n) + 2 * N + 11
  | Push _ _ _ l => 6 + 2 * (S N - length l)
  | Count _ _ | Requeue _ _ => 4
  | Leave _ _ _ => 3
  | Append _ _ => 2
  | Finish _ => 1
  | _ => 0
  end.

Definition cv (s : state) (c : continuation) : nat :=
  match c with
  | Go_on e j => open s e None * W + (la e - j) * A + 3
  | Then_set e j _ => open s e None * W + (la e - S j) * A + 4
  | Then_sleep _ _ => 0
  end.
Definition opv (s : state) (o : operation) (k : key) : nat := match o with Sleep e => V s (Some k) e | Wake c => cv s c end.
Definition ownv (s : state) (o : operation) : nat := match o with Sleep _ => 0 | Wake c => cv s c end.

Definition tm (s : state) (q : pc) : nat :=
  steps q +
  match q with
  | Parse e j => cv s (Go_on e j)
  | Set_size e j k => cv s (Then_set e j k)
  | Grow_check o k | Enter o k | Probe o k _ _ | Insert o k _ _ => opv s o k
  | Load e k i => V s (Some k) e + loadv s k i
  | Push e k _ _ | Requeue e k => V s (Some k) e
  | Count o _ => ownv s o
  | Swap c _ _ _ _ => cv s c
  | Leave o k l => ownv s o + total (V s (Some k)) l
  | Append c l => cv s c + total (V s None) l
  | _ => 0
  end.

Definition cell (s : state) (c : option node) : nat :=
  match c with Some n => match sleepers n with Some l => total (V s (Some (n_key n))) l | None => 0 end | None => 0 end.
Definition cells (s : state) (l : list table) : nat := total (fun t => total (cell s) (nodes t)) l.
Definition measure (s : state) : nat := total (V s None) (queue s) + total (tm s) (threads s) + cells s (tables s).

Lemma open_mono : forall s s' e ko, grows s s' -> open s' e ko <= open s e ko.
Proof.
  intros s s' e ko G. apply filter_le. intros x _ H. unfold is_open in *. apply andb_true_iff in H. destruct H as [H ->]. rewrite andb_true_r.
  apply negb_true_iff in H. apply negb_true_iff. apply estb_false in H. apply estb_false. intros E. apply H. apply G. exact E.
Qed.
Lemma open_est : forall s e f, est s f -> open s e (Some (keyf f)) = open s e None.
Proof.
  intros s e f E. unfold open. f_equal. apply filter_same. intros g _. unfold is_open. rewrite andb_true_r.
  destruct (estb s g) eqn:B; [reflexivity|]. cbn [negb andb]. apply estb_false in B. apply negb_true_iff. apply key_eqb_neq. intros H. apply keyf_inj in H. congruence.
Qed.
Lemma open_lt : forall s e f, In f (needs_of e) -> ~ est s f -> S (open s e (Some (keyf f))) <= open s e None.
Proof.
  intros s e f I E. unfold open. apply (filter_lt _ _ _ _ f).
  - intros x _ H. unfold is_open in *. rewrite andb_true_r. apply andb_true_iff in H. tauto.
  - exact I.
  - unfold is_open. rewrite (proj2 (key_eqb_spec _ _) eq_refl). apply andb_false_r.
  - unfold is_open. apply estb_false in E. rewrite E. reflexivity.
Qed.
Lemma V_mono : forall s s' ko e, grows s s' -> V s' ko e <= V s ko e.
Proof. intros. unfold V. apply Nat.mul_le_mono_r. pose proof (open_mono s s' e ko H). lia. Qed.
Lemma V_est : forall s e f, est s f -> V s (Some (keyf f)) e = V s None e.
Proof. intros. unfold V. rewrite open_est by assumption. reflexivity. Qed.
Lemma cv_mono : forall s s' c, grows s s' -> cv s' c <= cv s c.
Proof.
  intros s s' [e j|e k|e j k] G; cbn [cv]; [| lia |]; pose proof (Nat.mul_le_mono_r _ _ W (open_mono s s' e None G)); lia.
Qed.
Lemma opv_mono : forall s s' o k, grows s s' -> opv s' o k <= opv s o k.
Proof. intros s s' [e|c] k G; [apply V_mono | apply cv_mono]; exact G. Qed.
Lemma ownv_mono : forall s s' o, grows s s' -> ownv s' o <= ownv s o.
Proof. intros s s' [e|c] G; [reflexivity | apply cv_mono; exact G]. Qed.
Lemma cell_mono : forall s s' c, grows s s' -> cell s' c <= cell s c.
Proof. intros s s' [n|] G; cbn [cell]; [|lia]. destruct (sleepers n); [|lia]. apply total_le. intros x _. apply V_mono. exact G. Qed.

Definition tables_evolve (s s' : state) : Prop :=
  forall x t, get_table s x = Some t -> exists t', get_table s' x = Some t' /\ evolves (nodes t) (nodes t').

Lemma loadv_mono : forall s s' k i, tables_evolve s s' -> loadv s' k i <= loadv s k i.
Proof.
  intros s s' k i T. unfold loadv. destruct (get_table s (k_space k)) as [t|] eqn:G.
  - destruct (T _ _ G) as (t' & G' & E & EV). rewrite G'. destruct (node_at t i) as [n|] eqn:X.
    + apply node_at_some in X. destruct (EV _ _ X) as (n' & X' & _ & V'). rewrite (proj2 (node_at_some _ _ _) X').
      destruct V' as [-> | (l & pre & -> & ->)]; [destruct (sleepers n); lia|]. rewrite app_length. lia.
    + destruct (node_at t' i) as [n|]; [destruct (sleepers n); lia | lia].
  - destruct (get_table s' _) as [t|]; [|lia]. destruct (node_at t i) as [n|]; [destruct (sleepers n); lia | lia].
Qed.

Lemma tm_mono : forall s s' q, grows s s' -> tables_evolve s s' -> tm s' q <= tm s q.
Proof.
  intros s s' q G T. unfold tm.
  assert (TL : forall ko l, total (V s' ko) l <= total (V s ko) l) by (intros; apply total_le; intros; apply V_mono; exact G).
  destruct q; try lia; try (pose proof (opv_mono s s' o k G); lia); try (pose proof (cv_mono s s' (Go_on e j) G); lia);
    try (pose proof (cv_mono s s' (Then_set e j k) G); lia); try (pose proof (V_mono s s' (Some k) e G); lia).
  - pose proof (V_mono s s' (Some k) e G). pose proof (loadv_mono s s' k index T). lia.
  - pose proof (ownv_mono s s' o G). lia.
  - pose proof (cv_mono s s' c G). lia.
  - pose proof (ownv_mono s s' o G). specialize (TL (Some k) result). lia.
  - pose proof (cv_mono s s' c G). specialize (TL None result). lia.
Qed.

Lemma measure_lt : forall s s' i q q', nth_error (threads s) i = Some q -> threads s' = upd i q' (threads s) -> grows s s' -> tables_evolve s s' ->
  total (V s None) (queue s') + tm s' q' + cells s (tables s') < total (V s None) (queue s) + tm s q + cells s (tables s) -> measure s' < measure s.
Proof.
  intros s s' i q q' Hq E G T LT. unfold measure.
  assert (M1 : total (V s' None) (queue s') <= total (V s None) (queue s')) by (apply total_le; intros; apply V_mono; exact G).
  assert (M2 : total (tm s') (threads s) <= total (tm s) (threads s)) by (apply total_le; intros; apply tm_mono; assumption).
  assert (M3 : cells s' (tables s') <= cells s (tables s')) by (unfold cells; apply total_le; intros t _; apply total_le; intros c _; apply cell_mono; exact G).
  rewrite E. destruct (upd_split _ _ _ q' _ Hq) as (a & b & EA & _ & EB). rewrite EB, EA in *. rewrite !total_app in *. cbn [total] in *.
  assert (M4 : total (tm s') a <= total (tm s) a) by (apply total_le; intros; apply tm_mono; assumption).
  assert (M5 : total (tm s') b <= total (tm s) b) by (apply total_le; intros; apply tm_mono; assumption). lia.
Qed.

Lemma total_none : forall e, la e <= length (flat_map actions p).
Proof.
  intros e. unfold la. destruct (nth_error p e) as [d|] eqn:P; [|lia]. destruct (nth_error_split _ _ P) as (a & b & -> & _).
  rewrite flat_map_app. cbn [flat_map]. rewrite !app_length. lia.
Qed.

(* ------------------------------------------------------------------ *)
(** One step. *)

Definition pending (s : state) (k : key) : Prop := exists i q e j, nth_error (threads s) i = Some q /\ cont_of q = Some (Then_set e j k).
Definition settled (s : state) : Prop :=
  forall k, (exists i q, nth_error (threads s) i = Some q /\ claims q = Some k) \/ deleted s k -> exists f, k = keyf f /\ est s f.

Record moved (s : state) (q : pc) (s' : state) (q' : pc) : Prop := {
  mv_grows : grows s s';
  mv_claims : forall k, claims q' = Some k -> claims q = Some k \/ deleted s k \/
    exists f, k = keyf f /\ (est s' f \/ exists e j, cont_of q' = Some (Then_set e j k));
  mv_deleted : forall k, deleted s' k -> deleted s k \/ claims q = Some k;
  mv_rank : forall e j k, cont_of q = Some (Then_set e j k) -> cont_of q' = Some (Then_set e j k) /\ steps q' < steps q \/ exists f, k = keyf f /\ est s' f;
  mv_plain : forall e k, cont_of q' = Some (Then_sleep e k) -> cont_of q = Some (Then_sleep e k);
  mv_measure : settled s -> measure s' < measure s }.

Lemma same_facts : forall s s', decls s' = decls s -> sizes s' = sizes s -> grows s s'.
Proof. intros s s' E1 E2 [n|n]; cbn [est]; unfold lookup, size_known; rewrite ?E1, ?E2; auto. Qed.
Lemma same_tables : forall s s', tables s' = tables s -> tables_evolve s s'.
Proof. intros s s' E x t G. exists t. split; [unfold get_table in *; congruence | apply evolves_refl]. Qed.

Lemma moved_pc : forall s s' i q q', nth_error (threads s) i = Some q -> threads s' = upd i q' (threads s) -> tables s' = tables s -> queue s' = queue s -> grows s s' ->
  (forall k, claims q' = Some k -> claims q = Some k \/ deleted s k \/
    exists f, k = keyf f /\ (est s' f \/ exists e j, cont_of q' = Some (Then_set e j k))) ->
  (forall e j k, cont_of q = Some (Then_set e j k) -> cont_of q' = Some (Then_set e j k) /\ steps q' < steps q \/ exists f, k = keyf f /\ est s' f) ->
  (forall e k, cont_of q' = Some (Then_sleep e k) -> cont_of q = Some (Then_sleep e k)) ->
  (settled s -> tm s' q' < tm s q) -> moved s q s' q'.
Proof.
  intros s s' i q q' Hq E1 E2 E3 G C R P M. constructor; auto.
  - intros k (t & n & X & Y). left. exists t, n. unfold get_table in *. rewrite E2 in X. auto.
  - intros S. eapply measure_lt; eauto using same_tables. rewrite E2, E3. specialize (M S). lia.
Qed.

(** A cell of a table changes, or only the counters do. *)
Lemma moved_table : forall s s' i q q' m t t', nth_error (threads s) i = Some q -> threads s' = upd i q' (threads s) -> queue s' = queue s ->
  decls s' = decls s -> sizes s' = sizes s -> nth_error (tables s) m = Some t -> tables s' = upd m t' (tables s) -> evolves (nodes t) (nodes t') ->
  (forall n, In (Some n) (nodes t') -> sleepers n = None -> (exists n0, In (Some n0) (nodes t) /\ n_key n0 = n_key n /\ sleepers n0 = None) \/ claims q = Some (n_key n)) ->
  (forall k, claims q' = Some k -> claims q = Some k) ->
  (forall e j k, cont_of q = Some (Then_set e j k) -> cont_of q' = Some (Then_set e j k) /\ steps q' < steps q) ->
  (forall e k, cont_of q' = Some (Then_sleep e k) -> cont_of q = Some (Then_sleep e k)) ->
  (settled s -> tm s' q' + total (cell s) (nodes t') < tm s q + total (cell s) (nodes t)) -> moved s q s' q'.
Proof.
  intros s s' i q q' m t t' Hq E1 E2 E3 E4 Hm E5 EV D C R P M.
  assert (G : grows s s') by (apply same_facts; assumption).
  assert (TE : tables_evolve s s').
  { intros x t0 X. unfold get_table in *. rewrite E5. destruct (Nat.eq_dec m (number x)) as [Y | NE].
    - exists t'. rewrite <- Y in *. rewrite (upd_same _ _ _ _ _ Hm). split; [reflexivity|]. assert (t0 = t) by congruence. subst t0. exact EV.
    - exists t0. rewrite upd_other by exact NE. split; [exact X | apply evolves_refl]. }
  constructor; auto.
  - intros k (t0 & n & X & Y & KN & Z). unfold get_table in X. rewrite E5 in X. destruct (upd_cases _ _ _ _ _ _ X) as [(Q & -> & _) | (_ & X')].
    + destruct (D n Y Z) as [(n0 & Y0 & K0 & Z0) | CL]; [|right; congruence]. left. exists t, n0. unfold get_table. rewrite <- Q. repeat split; auto. congruence.
    + left. exists t0, n. auto.
  - intros S. eapply measure_lt; eauto. rewrite E2, E5. specialize (M S). unfold cells.
    pose proof (total_upd _ (fun t => total (cell s) (nodes t)) _ _ t' _ Hm) as U. cbn beta in U. lia.
Qed.

Lemma grows_decls : forall s s' x a b z, decls s' = (x, a, b) :: decls s -> sizes s' = z -> (forall y c, size_known s y c = true -> size_known s' y c = true) -> grows s s'.
Proof.
  intros s s' x a b z E1 E2 H [n|n]; cbn [est]; [|apply H]. unfold lookup. rewrite E1. cbn [find fst snd]. destruct (space_eqb x _ && (a =? _)); [discriminate | auto].
Qed.
Lemma grows_sizes : forall s s' x a, decls s' = decls s -> sizes s' = (x, a) :: sizes s -> grows s s'.
Proof.
  intros s s' x a E1 E2 [n|n]; cbn [est].
  - unfold lookup. rewrite E1. auto.
  - unfold size_known. rewrite E2. cbn [existsb]. intros ->. apply orb_true_r.
Qed.

Ltac use_cv := unfold tm; cbn [steps opv ownv cv total]; repeat match goal with |- context [?a * ?b] => generalize (a * b); intros end; lia.

Lemma moved_perform : forall s i e j d x, logic_inv ist p s -> nth_error (threads s) i = Some (Parse e j) -> nth_error p e = Some d ->
  nth_error (actions d) j = Some x -> exists q', threads (perform ist s i e j (in_unit d) x) = upd i q' (threads s) /\ moved s (Parse e j) (perform ist s i e j (in_unit d) x) q'.
Proof.
  intros s i e j d x L Hq P X.
  assert (D : In d p) by (eapply nth_error_In; exact P). assert (XI : In x (actions d)) by (eapply nth_error_In; exact X).
  assert (LA : j < la e) by (unfold la; rewrite P; apply nth_error_Some; congruence).
  assert (AL : forall s s', grows s s' -> cv s' (Go_on e (S j)) + A <= cv s (Go_on e j)).
  { intros s0 s' G. pose proof (cv_mono s0 s' (Go_on e (S j)) G). cbn [cv] in *. assert (la e - j = S (la e - S j)) as -> by lia. cbn [Nat.mul] in *. lia. }
  assert (GO : forall s', tables s' = tables s -> threads s' = upd i (Parse e (S j)) (threads s) -> queue s' = queue s -> grows s s' ->
     exists q', threads s' = upd i q' (threads s) /\ moved s (Parse e j) s' q').
  { intros s' E1 E2 E3 G. exists (Parse e (S j)). split; [exact E2|]. eapply (moved_pc s s'); eauto; try discriminate.
    intros _. unfold tm. cbn [steps]. specialize (AL s s' G). unfold A in AL. lia. }
  assert (WK : forall f k s', threads s' = upd i (Grow_check (Wake (Go_on e (S j))) k) (threads s) -> k = keyf f -> est s' f -> tables s' = tables s -> queue s' = queue s -> grows s s' ->
     exists q', threads s' = upd i q' (threads s) /\ moved s (Parse e j) s' q').
  { intros f k s' E2 KF F E1 E3 G. exists (Grow_check (Wake (Go_on e (S j))) k). split; [exact E2|]. eapply (moved_pc s s'); eauto; try discriminate.
    - intros k' H. injection H as <-. right. right. exists f. auto.
    - intros _. unfold tm. cbn [steps opv]. specialize (AL s s' G). unfold A in AL. lia. }
  assert (EK : forall s' a b z, decls s' = (declaration_space ist (in_unit d) a, a, b) :: decls s -> sizes s' = z -> est s' (Known (visible ist (in_unit d) a))).
  { intros s' a b z E1 _. apply (est_known ist hash). unfold lookup. rewrite E1. cbn [find fst snd].
    rewrite (proj2 (space_eqb_spec _ _) eq_refl), Nat.eqb_refl. discriminate. }
  assert (EZ : forall s' a, sizes s' = (declaration_space ist (in_unit d) a, a) :: sizes s -> est s' (Size_known (visible ist (in_unit d) a))).
  { intros s' a E1. apply (est_size ist hash). unfold size_known. rewrite E1. cbn [existsb fst snd].
    rewrite (proj2 (space_eqb_spec _ _) eq_refl), Nat.eqb_refl. reflexivity. }
  destruct x as [dm|a flag|a flag|a|a dm|a|a]; cbn [perform].
  - destruct (missing ist s (in_unit d) dm) as [k|] eqn:Mi; [|apply GO; try reflexivity; apply same_facts; reflexivity].
    destruct (missing_some ist _ _ _ _ Mi) as (f & -> & F1 & F2 & _).
    exists (sleep e (keyf f)). split; [reflexivity|]. eapply (moved_pc s); try reflexivity; eauto; try discriminate; [apply same_facts; reflexivity|].
    intros _. assert (I : In f (needs_of e)) by (unfold needs_of; rewrite P; apply in_flat_map; exists (Need dm); auto).
    pose proof (open_lt s e f I F2) as O. unfold tm, sleep. cbn [steps opv cv]. unfold V.
    change (open (set_pc s i (Grow_check (Sleep e) (keyf f))) e (Some (keyf f))) with (open s e (Some (keyf f))).
    pose proof (Nat.mul_le_mono_r _ _ W O). assert (la e - j = S (la e - S j)) as -> by lia. change (1 + open s e (Some (keyf f))) with (S (open s e (Some (keyf f)))).
    rewrite (Nat.mul_succ_l (la e - S j) A). assert (AE : A = 3 * cap + 2 * N + 17) by reflexivity. generalize dependent ((la e - S j) * A). intros. lia.
  - destruct (lookup s _ a); [apply GO; try reflexivity; apply same_facts; reflexivity|].
    eapply (WK (Known (visible ist (in_unit d) a))); [reflexivity | ..]; try reflexivity; [symmetry; apply key_visible | eapply EK; reflexivity|].
    eapply grows_decls; try reflexivity. auto.
  - destruct (lookup s _ a) as [old|] eqn:Lk.
    + destruct (size_known s _ a); [apply GO; try reflexivity; apply same_facts; reflexivity|].
      eapply (WK (Size_known (visible ist (in_unit d) a))); [reflexivity | ..]; try reflexivity; [apply (wake_same ist p s _ _ _ L Lk) | eapply EZ; reflexivity|].
      eapply grows_sizes; reflexivity.
    + eapply (WK (Known (visible ist (in_unit d) a))); [reflexivity | ..]; try reflexivity; [symmetry; apply key_visible | eapply EK; reflexivity|].
      eapply grows_decls; try reflexivity. intros y c H. unfold size_known. cbn [sizes set_pc set_facts existsb]. unfold size_known in H. rewrite H. apply orb_true_r.
  - destruct (lookup s _ a) eqn:Lk; [apply GO; try reflexivity; apply same_facts; reflexivity|].
    eapply (WK (Known (Tag a))); [reflexivity | ..]; try reflexivity.
    + cbn [est space_of atom_of]. unfold lookup. cbn [decls set_pc set_facts find fst snd]. cbn [space_eqb andb]. rewrite Nat.eqb_refl. discriminate.
    + eapply grows_decls; try reflexivity. auto.
  - exfalso. exact (H_braces d a dm D XI).
  - destruct (lookup s _ a) as [old|] eqn:Lk; [|apply GO; try reflexivity; apply same_facts; reflexivity].
    destruct (size_known s _ a); [apply GO; try reflexivity; apply same_facts; reflexivity|].
    pose proof (wake_same ist p s _ _ _ L Lk) as WS. rewrite <- (key_size ist), WS.
    set (k := keyf (Size_known (visible ist (in_unit d) a))).
    exists (Grow_check (Wake (Then_set e j k)) k). split; [reflexivity|]. eapply (moved_pc s); try reflexivity; eauto; try discriminate; [apply same_facts; reflexivity| |].
    + intros k' H. injection H as <-. right. right. exists (Size_known (visible ist (in_unit d) a)). split; [reflexivity|]. right. exists e, j. reflexivity.
    + intros _. unfold tm. cbn [steps opv cv].
      change (open (set_pc s i (Grow_check (Wake (Then_set e j k)) k)) e None) with (open s e None).
      assert (la e - j = S (la e - S j)) as -> by lia. rewrite (Nat.mul_succ_l (la e - S j) A). assert (AE : A = 3 * cap + 2 * N + 17) by reflexivity. generalize dependent ((la e - S j) * A). intros. lia.
  - exfalso. exact (H_strings d a D XI).
Qed.

Lemma claims_op : forall o k k', wake_op o k = Some k' -> k' = k.
Proof. intros [e|c] k k' H; [discriminate | injection H as <-; reflexivity]. Qed.

Definition plain (s : state) : Prop := forall i q e k, nth_error (threads s) i = Some q -> cont_of q <> Some (Then_sleep e k).

Lemma claims_usable : forall s i q k, room_inv ist hash p order units cap s -> nth_error (threads s) i = Some q -> claims q = Some k -> usable ist p k.
Proof.
  intros s i q k R Hq C. eapply (ro_key _ _ _ _ _ _ (ri_threads _ _ _ _ _ _ _ R _ _ Hq)).
  destruct q; cbn [claims wakes op_key] in *; try discriminate; try (apply claims_op in C; congruence); exact C.
Qed.

Ltac step_pc Hq s := eexists; split; [reflexivity|]; eapply (moved_pc s); try reflexivity; try exact Hq; try (apply same_facts; reflexivity);
  cbn [claims wakes cont_of]; auto; try discriminate.

Lemma step_moved : forall s i q, room_inv ist hash p order units cap s -> tables_inv hash s -> entries_inv order s -> logic_inv ist p s -> plain s ->
  nth_error (threads s) i = Some q ->
  (q = Idle /\ queue s = [] /\ step ist hash p s i = s) \/
  exists q', threads (step ist hash p s i) = upd i q' (threads s) /\ moved s q (step ist hash p s i) q'.
Proof.
  intros s i q R T EI L PL Hq. unfold step. rewrite Hq.
  pose proof (ri_threads _ _ _ _ _ _ _ R _ _ Hq) as RO.
  assert (KU : forall k, op_key q = Some k -> exists t, get_table s (k_space k) = Some t) by (intros k H; eapply (usable_table ist hash p order units cap H_units); eauto; eapply (ro_key _ _ _ _ _ _ RO); exact H).
  destruct q; pose proof (ro_growing _ _ _ _ _ _ RO) as GR; try discriminate; cbn [op_key] in KU; unfold in_table;
    try (destruct (KU _ eq_refl) as (t & G); rewrite G).
  - (* Idle *) destruct (queue s) as [|e r] eqn:Q; [left; auto|]. right. exists (Parse e 0). split; [reflexivity|].
    constructor; try discriminate; auto; [apply same_facts; reflexivity|].
    intros _. eapply (measure_lt s _ i Idle); try reflexivity; eauto; [apply same_facts; reflexivity | apply same_tables; reflexivity|].
    rewrite Q. cbn [set_pc set_queue queue tables total].
    assert (LT : open s e None * W + (la e - 0) * A + 3 < V s None e).
    { unfold V. rewrite Nat.mul_add_distr_r. pose proof (Nat.mul_le_mono_r _ _ A (total_none e)) as TN. unfold W at 2. rewrite Nat.sub_0_r. lia. }
    unfold tm. cbn [steps cv]. match goal with |- context [open ?x e None * W] => change (open x e None) with (open s e None) end. lia.
  - (* Parse *) right.
    assert (EP : e < length p).
    { apply H_in. apply (count_occ_In Nat.eq_dec). pose proof (ei_count _ _ EI e) as C. pose proof (total_in _ (fun q => cnt (held q) e) _ _ _ Hq) as B.
      cbn [held] in B. rewrite count_occ_cons_eq in B by reflexivity. lia. }
    destruct (nth_error p e) as [d|] eqn:P; [|apply nth_error_None in P; lia].
    destruct (nth_error (actions d) j) as [x|] eqn:X; [apply moved_perform; assumption|].
    step_pc Hq s. intros _. use_cv.
  - (* Set_size *) right. destruct (th_cont _ _ _ _ (li_threads _ _ _ L _ _ Hq) _ eq_refl) as (d & a & _ & _ & _ & KE). rewrite key_size in KE.
    eexists. split; [reflexivity|]. assert (GW : grows s (set_pc (set_facts s (decls s) ((k_space k, k_atom k) :: sizes s)) i (Parse e (S j)))) by (eapply grows_sizes; reflexivity).
    eapply (moved_pc s); try reflexivity; try exact Hq; try discriminate; auto.
    + intros e0 j0 k0 H. injection H as <- <- <-. right. exists (Size_known (visible ist (in_unit d) a)). split; [rewrite key_size; exact KE|].
      apply (est_size ist hash). unfold size_known. cbn [set_pc set_facts sizes existsb fst snd]. rewrite KE. cbn [k_space k_atom].
      rewrite (proj2 (space_eqb_spec _ _) eq_refl), Nat.eqb_refl. reflexivity.
    + intros _. pose proof (cv_mono _ _ (Go_on e (S j)) GW) as MO. unfold tm. cbn [steps]. cbn [cv] in *. lia.
  - (* Grow_check *) right. unfold get_table in G. rewrite (rt_locked _ _ _ _ _ _ (ri_table _ _ _ _ _ _ _ R _ _ G)).
    rewrite (not_full ist hash p order units cap H_room _ _ _ R T G). step_pc Hq s.
    + intros e0 j0 k0 H. left. split; [exact H | cbn [steps]; lia].
    + intros _. unfold tm. cbn [steps]. change (opv (set_pc s i (Enter o k)) o k) with (opv s o k). lia.
  - (* Enter *) right. pose proof G as G'. unfold get_table in G'. rewrite (rt_copying _ _ _ _ _ _ (ri_table _ _ _ _ _ _ _ R _ _ G')).
    eexists. split; [reflexivity|]. eapply (moved_table s); try reflexivity; try exact Hq; try exact G'; cbn [claims wakes cont_of set_growth nodes]; auto using evolves_refl.
    + intros n I Z. left. exists n. auto.
    + intros e0 j0 k0 H. split; [exact H | cbn [steps]; lia].
    + intros _. unfold tm. cbn [steps]. rewrite Nat.sub_0_r. match goal with |- context [opv ?x o k] => change (opv x o k) with (opv s o k) end. lia.
  - (* Probe *) right. pose proof G as G'. unfold get_table in G'.
    pose proof (step_room ist hash p order H_order H_in units cap H_units H_room H_strings s i R T EI L) as R'.
    assert (FL : faultless (step ist hash p s i)) by (eapply room_faultless; exact R').
    unfold step in FL. rewrite Hq in FL. unfold in_table in FL. rewrite G in FL.
    destruct (i0 <? capacity t) eqn:LT.
    2: { exfalso. eapply (FL [operation_entry o]). eapply nth_error_In. cbn [threads set_pc]. eapply upd_same. exact Hq. }
    apply Nat.ltb_lt in LT. unfold capacity in LT. rewrite (rt_length _ _ _ _ _ _ (ri_table _ _ _ _ _ _ _ R _ _ G')) in LT. clear FL R'.
    destruct (node_at t index) as [m|] eqn:X; [destruct (key_eqb (n_key m) k) eqn:KE; [destruct o as [e|c]|]|].
    + step_pc Hq s. intros _. unfold tm. cbn [steps opv].
      match goal with |- context [V ?x (Some k) e + loadv ?x k index] => change (V x (Some k) e) with (V s (Some k) e); change (loadv x k index) with (loadv s k index) end.
      unfold loadv. rewrite G, X. destruct (sleepers m); lia.
    + step_pc Hq s.
      * intros e0 j0 k0 H. left. split; [exact H | cbn [steps]; lia].
      * intros _. unfold tm. cbn [steps opv]. match goal with |- context [cv ?x c] => change (cv x c) with (cv s c) end. lia.
    + step_pc Hq s.
      * intros e0 j0 k0 H. left. split; [exact H | cbn [steps]; lia].
      * intros _. unfold tm. cbn [steps]. match goal with |- context [opv ?x o k] => change (opv x o k) with (opv s o k) end. lia.
    + step_pc Hq s.
      * intros e0 j0 k0 H. left. split; [exact H | cbn [steps]; lia].
      * intros _. unfold tm. cbn [steps]. match goal with |- context [opv ?x o k] => change (opv x o k) with (opv s o k) end. lia.
  - (* Load *) right. pose proof (ti_threads _ _ T _ _ _ _ Hq eq_refl G) as (n & X & KX). pose proof (proj2 (node_at_some _ _ _) X) as XN. rewrite XN.
    destruct (sleepers n) as [l|] eqn:Sl.
    + step_pc Hq s. intros _. unfold tm. cbn [steps]. match goal with |- context [6 + _ + V ?x (Some k) e] => change (V x (Some k) e) with (V s (Some k) e) end.
      unfold loadv. rewrite G, XN, Sl. lia.
    + step_pc Hq s.
      * intros k0 H. injection H as <-. right. left. exists t, n. repeat split; auto. eapply nth_error_In. exact X.
      * intros _. unfold tm. cbn [steps]. match goal with |- context [4 + V ?x (Some k) e] => change (V x (Some k) e) with (V s (Some k) e) end.
        unfold loadv. rewrite G, XN, Sl. lia.
  - (* Push *) right. pose proof (ti_threads _ _ T _ _ _ _ Hq eq_refl G) as (NE & n & X & KX & VX). pose proof (proj2 (node_at_some _ _ _) X) as XN. rewrite XN.
    pose proof G as G'. unfold get_table in G'. pose proof (ti_tables _ _ T _ _ G') as [T1 T2 T3 T4 T5 T6].
    destruct (same_head (sleepers n) (Some expected)) eqn:SH.
    + assert (E : sleepers n = Some expected).
      { eapply heads; eauto; [apply (T3 n); eapply nth_error_In; exact X | congruence]. }
      eexists. split; [reflexivity|]. eapply (moved_table s); try reflexivity; try exact Hq; try exact G'; cbn [claims wakes wake_op cont_of cont_op set_nodes nodes]; try discriminate.
      * apply change_evolves; [exact X|]. rewrite E. right. exists expected, [e]. auto.
      * intros m M Z. left. apply In_nth_error in M. destruct M as (x & M). destruct (upd_cases _ _ _ _ _ _ M) as [(_ & Q & _) | (_ & Q)].
        -- injection Q as ->. discriminate.
        -- exists m. split; [eapply nth_error_In; exact Q | auto].
      * intros _. pose proof (total_upd _ (cell s) _ _ (Some (mknode (n_key n) (Some (e :: expected)))) _ X) as U.
        cbn [cell sleepers n_key total] in U. rewrite E in U. rewrite KX in U at 3. unfold tm. cbn [steps ownv total]. rewrite KX in *. lia.
    + step_pc Hq s. intros _. unfold tm. cbn [steps].
      match goal with |- context [V ?x (Some k) e + loadv ?x k index] => change (V x (Some k) e) with (V s (Some k) e); change (loadv x k index) with (loadv s k index) end.
      unfold loadv. rewrite G, XN. destruct VX as [VX | (l & pre & Q & VX)]; rewrite VX in *; [lia|]. injection Q as <-.
      pose proof (list_bound ist p order H_order cap H_room s _ t n _ EI G' (nth_error_In _ _ X) VX) as LB. rewrite app_length in *.
      destruct pre as [|y pre]; [|cbn [length] in *; lia]. exfalso. cbn [app] in SH. destruct expected as [|y l]; [congruence|]. cbn in SH. rewrite Nat.eqb_refl in SH. discriminate.
  - (* Requeue *) right. eexists. split; [reflexivity|]. constructor; cbn [claims wake_op cont_of cont_op]; try discriminate; auto; [apply same_facts; reflexivity|].
    intros S. destruct (S k) as (f & KF & F); [left; exists i, (Requeue e k); auto|].
    eapply (measure_lt s _ i _ _ Hq); try reflexivity; [apply same_facts; reflexivity | apply same_tables; reflexivity|].
    cbn [set_pc set_queue queue tables]. rewrite total_app. unfold tm. cbn [steps ownv total]. rewrite KF, (V_est s e f F). lia.
  - (* Insert *) right.
    pose proof (ro_at _ _ _ _ _ _ RO _ _ eq_refl G) as (dd & D & RE & LE).
    pose proof G as G'. unfold get_table in G'. pose proof (ti_tables _ _ T _ _ G') as [T1 T2 T3 T4 T5 T6].
    destruct (node_at t index) as [m|] eqn:X.
    + step_pc Hq s.
      * intros e0 j0 k0 H. left. split; [exact H | cbn [steps]; lia].
      * intros _. unfold tm. cbn [steps]. match goal with |- context [opv ?x o k] => change (opv x o k) with (opv s o k) end. lia.
    + assert (F : nth_error (nodes t) index = Some None).
      { unfold node_at in X. destruct (nth_error (nodes t) index) as [[m|]|] eqn:Q; try discriminate; [reflexivity|].
        apply nth_error_None in Q. destruct RE as [-> _]. pose proof (slot_lt hash (nodes t) k dd T1). lia. }
      eexists. split; [reflexivity|]. eapply (moved_table s); try reflexivity; try exact Hq; try exact G'; cbn [claims wakes cont_of set_nodes nodes]; auto.
      * apply insert_evolves. exact F.
      * intros m M Z. apply In_nth_error in M. destruct M as (x & M). destruct (upd_cases _ _ _ _ _ _ M) as [(_ & Q & _) | (_ & Q)].
        -- injection Q as ->. right. destruct o; [discriminate | reflexivity].
        -- left. exists m. split; [eapply nth_error_In; exact Q | auto].
      * intros e0 j0 k0 H. split; [exact H | cbn [steps]; lia].
      * intros _. pose proof (total_upd _ (cell s) _ _ (Some (mknode k (match o with Sleep e => Some [e] | Wake _ => None end))) _ F) as U.
        unfold tm. cbn [steps]. match goal with |- context [ownv ?x o] => change (ownv x o) with (ownv s o) end.
        destruct o; cbn [cell sleepers n_key total opv ownv] in *; lia.
  - (* Count *) right. pose proof G as G'. unfold get_table in G'.
    eexists. split; [reflexivity|]. eapply (moved_table s); try reflexivity; try exact Hq; try exact G'; cbn [claims wakes cont_of set_growth nodes]; auto using evolves_refl.
    + intros n I Z. left. exists n. auto.
    + intros _. unfold tm. cbn [steps total]. match goal with |- context [ownv ?x o] => change (ownv x o) with (ownv s o) end. lia.
  - (* Swap *) right.
    pose proof (ro_at _ _ _ _ _ _ RO _ _ eq_refl G) as ((dd & D & RE & LE) & LB).
    pose proof (ti_threads _ _ T _ _ _ _ Hq eq_refl G) as (OP & NE & n & X & KX & VX). pose proof (proj2 (node_at_some _ _ _) X) as XN. rewrite XN.
    pose proof G as G'. unfold get_table in G'. pose proof (ti_tables _ _ T _ _ G') as [T1 T2 T3 T4 T5 T6].
    assert (LT : i0 < cap). { assert (w order expected <= N + 2) by (destruct expected as [l|]; cbn [w]; [specialize (LB l eq_refl); lia | lia]). lia. }
    destruct (same_head (sleepers n) expected) eqn:SH.
    + assert (E : sleepers n = expected).
      { eapply heads; eauto; [apply (T3 n); eapply nth_error_In; exact X]. }
      eexists. split; [reflexivity|]. eapply (moved_table s); try reflexivity; try exact Hq; try exact G'; cbn [claims wakes wake_op cont_of cont_op set_nodes nodes]; auto.
      * apply change_evolves; [exact X|]. left. reflexivity.
      * intros m M Z. apply In_nth_error in M. destruct M as (x & M). destruct (upd_cases _ _ _ _ _ _ M) as [(_ & Q & _) | (_ & Q)].
        -- injection Q as ->. right. cbn [n_key]. congruence.
        -- left. exists m. split; [eapply nth_error_In; exact Q | auto].
      * intros e0 j0 k0 H. split; [exact H | cbn [steps]; lia].
      * intros _. pose proof (total_upd _ (cell s) _ _ (Some (mknode (n_key n) None)) _ X) as U. cbn [cell sleepers] in U. rewrite E, KX in U.
        unfold tm. cbn [steps ownv].
        match goal with |- context [cv ?x c + total (V ?x (Some k)) _] => change (cv x c) with (cv s c); change (V x (Some k)) with (V s (Some k)) end.
        rewrite KX. destruct expected; cbn [total] in *; lia.
    + step_pc Hq s.
      * intros e0 j0 k0 H. left. split; [exact H | cbn [steps]; lia].
      * intros _. unfold tm. cbn [steps opv]. match goal with |- context [cv ?x c] => change (cv x c) with (cv s c) end. lia.
  - (* Leave *) right. pose proof G as G'. unfold get_table in G'. eexists. split; [reflexivity|].
    eapply (moved_table s); try reflexivity; try exact Hq; try exact G'; cbn [set_growth nodes]; auto using evolves_refl.
    + intros n I Z. left. exists n. auto.
    + destruct o as [e|[e j|e k'|e j k']]; [|destruct result ..]; discriminate.
    + intros e0 j0 k0 H. destruct o as [e|[e j|e k'|e j k']]; try discriminate; destruct result; (split; [exact H | cbn; lia]).
    + intros e0 k0 H. exfalso. destruct o as [e|[e j|e k'|e j k']]; [discriminate | | |]; try (destruct result; discriminate).
      exact (PL _ _ _ _ Hq eq_refl).
    + intros S. destruct o as [e|c].
      * unfold tm. cbn [steps ownv]. lia.
      * destruct (S k) as (f & KF & F); [left; exists i, (Leave (Wake c) k result); auto|].
        assert (VE : total (V s (Some k)) result = total (V s None) result) by (apply total_ext; intros x _; rewrite KF; apply V_est; exact F).
        destruct c as [e j|e k'|e j k']; [| exfalso; exact (PL _ _ _ _ Hq eq_refl) |]; destruct result as [|y l]; unfold tm; cbn [resume steps ownv];
          rewrite ?VE; cbn [total];
          match goal with |- context [cv ?x ?c] => change (cv x c) with (cv s c) end; try lia;
          match goal with |- context [total (V (update_table ?x ?a ?b ?c ?d) None) l] => change (V (update_table x a b c d) None) with (V s None) end; lia.
  - (* Append *) right. eexists. split; [reflexivity|]. constructor; auto.
    + apply same_facts; reflexivity.
    + destruct c; discriminate.
    + intros e0 j0 k0 H. injection H as ->. left. split; [reflexivity | cbn; lia].
    + intros e0 k0 H. destruct c; discriminate.
    + intros _. eapply (measure_lt s _ i _ _ Hq); try reflexivity; [apply same_facts; reflexivity | apply same_tables; reflexivity|].
      cbn [set_pc set_queue queue tables]. rewrite total_app. destruct c as [e j|e k'|e j k']; [| exfalso; exact (PL _ _ _ _ Hq eq_refl) |]; unfold tm; cbn [resume steps];
        match goal with |- context [cv ?x ?c] => change (cv x c) with (cv s c) end; lia.
  - (* Finish *) right. step_pc Hq s.
Qed.

(* ------------------------------------------------------------------ *)
(** Invariants. *)

(** Who sleeps on a key that has been woken up waits for something that is known, or is about to be. *)
Definition justified (s : state) : Prop :=
  forall k, (exists i q, nth_error (threads s) i = Some q /\ claims q = Some k) \/ deleted s k -> exists f, k = keyf f /\ (est s f \/ pending s k).

Record good (s : state) : Prop := {
  g_room : room_inv ist hash p order units cap s;
  g_tables : tables_inv hash s;
  g_entries : entries_inv order s;
  g_logic : logic_inv ist p s;
  g_plain : plain s;
  g_justified : justified s }.

Lemma justified_step : forall s s' i q q', justified s -> nth_error (threads s) i = Some q -> threads s' = upd i q' (threads s) -> moved s q s' q' -> justified s'.
Proof.
  intros s s' i q q' J Hq E M k C.
  assert (KEEP : (exists f, k = keyf f /\ (est s f \/ pending s k)) -> exists f, k = keyf f /\ (est s' f \/ pending s' k)).
  { intros (f & KF & [F | (j & r & e & j' & Hr & C')]); exists f; (split; [exact KF|]); [left; apply (mv_grows _ _ _ _ M); exact F|].
    destruct (Nat.eq_dec i j) as [<- | NE].
    - assert (r = q) by congruence. subst r. destruct (mv_rank _ _ _ _ M _ _ _ C') as [[C2 _] | (g & KG & G)].
      + right. exists i, q', e, j'. split; [rewrite E; eapply upd_same; exact Hq | exact C2].
      + left. assert (f = g) by (apply keyf_inj; congruence). subst g. exact G.
    - right. exists j, r, e, j'. split; [rewrite E, upd_other by exact NE; exact Hr | exact C']. }
  destruct C as [(j & r & Hr & C) | D].
  - rewrite E in Hr. destruct (upd_cases _ _ _ _ _ _ Hr) as [(<- & -> & LT) | (NE & Hr')].
    + destruct (mv_claims _ _ _ _ M k C) as [C' | [D | (f & KF & [F | (e & j' & C')])]].
      * apply KEEP. apply J. left. exists i, q. auto.
      * apply KEEP. apply J. right. exact D.
      * exists f. auto.
      * exists f. split; [exact KF|]. right. exists i, q', e, j'. split; [rewrite E; exact Hr | exact C'].
    + apply KEEP. apply J. left. exists j, r. auto.
  - apply KEEP. apply J. destruct (mv_deleted _ _ _ _ M k D) as [D' | C']; [right; exact D' | left; exists i, q; auto].
Qed.

Lemma good_step : forall s i, good s -> good (step ist hash p s i).
Proof.
  intros s i [R T E L P J].
  destruct (step_all ist hash p order H_order H_in units cap H_units H_room H_flags H_lists H_strings s i R T E L) as (R' & T' & E' & L').
  destruct (nth_error (threads s) i) as [q|] eqn:Hq.
  2: { assert (step ist hash p s i = s) as -> by (unfold step; rewrite Hq; reflexivity). constructor; assumption. }
  destruct (step_moved s i q R T E L P Hq) as [(_ & _ & ->) | (q' & E1 & M)]; [constructor; assumption|].
  constructor; auto.
  - intros j r e k Hr. rewrite E1 in Hr. destruct (upd_cases _ _ _ _ _ _ Hr) as [(<- & -> & LT) | (NE & Hr')]; [|eapply P; exact Hr'].
    intros C. exact (P _ _ _ _ Hq (mv_plain _ _ _ _ M _ _ C)).
  - eapply justified_step; eauto.
Qed.

Lemma good_initial : forall n, good (initial order units cap n).
Proof.
  intros n. constructor; auto using initial_room, initial_entries, initial_logic.
  - apply initial_tables. lia.
  - intros i q e k H. apply nth_error_In in H. apply repeat_spec in H. subst q. discriminate.
  - intros k [(i & q & H & C) | (t & x & G & I & _)].
    + apply nth_error_In in H. apply repeat_spec in H. subst q. discriminate.
    + unfold get_table in G. cbn [initial tables] in G. apply nth_error_In in G. apply repeat_spec in G. subst t. cbn [empty_table nodes] in I. apply repeat_spec in I. discriminate.
Qed.

(* ------------------------------------------------------------------ *)
(** Infinite runs. *)

Variable schedule : nat -> nat.
Variable start : state.
Hypothesis H_start : good start.
Notation thread_count := (length (threads start)).
Hypothesis H_threads : 0 < thread_count.
Hypothesis H_fair : forall i t, i < thread_count -> exists t', t <= t' /\ schedule t' = i.

Fixpoint at_time (t : nat) : state := match t with O => start | S t => step ist hash p (at_time t) (schedule t) end.

Lemma good_at : forall t, good (at_time t).
Proof. induction t as [|t IH]; [exact H_start|]. cbn [at_time]. apply good_step. exact IH. Qed.

Lemma threads_step : forall s i, length (threads (step ist hash p s i)) = length (threads s).
Proof. intros s i. destruct (step_threads ist hash p s i) as (q & [-> | ->]); [apply upd_length | reflexivity]. Qed.
Lemma threads_at : forall t, length (threads (at_time t)) = thread_count.
Proof. induction t as [|t IH]; [reflexivity|]. cbn [at_time]. rewrite threads_step. exact IH. Qed.

Lemma other_thread : forall s i j, i <> j -> nth_error (threads (step ist hash p s i)) j = nth_error (threads s) j.
Proof. intros s i j NE. destruct (step_threads ist hash p s i) as (q & [-> | ->]); [apply upd_other; exact NE | reflexivity]. Qed.

Lemma grows_step : forall s i, good s -> grows s (step ist hash p s i).
Proof.
  intros s i [R T E L P J]. destruct (nth_error (threads s) i) as [q|] eqn:Hq.
  - destruct (step_moved s i q R T E L P Hq) as [(_ & _ & ->) | (q' & E1 & M)]; [intros f; auto | apply (mv_grows _ _ _ _ M)].
  - unfold step. rewrite Hq. intros f. auto.
Qed.
Lemma grows_at : forall t t', t <= t' -> grows (at_time t) (at_time t').
Proof.
  intros t t' H. induction H as [|t' H IH]; [intros f; auto|]. cbn [at_time]. intros f F. apply (grows_step _ _ (good_at t')). apply IH. exact F.
Qed.

(** A thread that is about to set a size does so. *)
Lemma eventually_set : forall r i q e j k t, nth_error (threads (at_time t)) i = Some q -> cont_of q = Some (Then_set e j k) -> steps q <= r ->
  exists t' f, t <= t' /\ k = keyf f /\ est (at_time t') f.
Proof.
  induction r as [r IH] using lt_wf_ind. intros i q e j k t Hq C ST.
  assert (LT : i < thread_count) by (rewrite <- (threads_at t); apply nth_error_Some; congruence).
  destruct (H_fair i t LT) as (t' & T' & S').
  assert (D : exists d, t' = t + d) by (exists (t' - t); lia). destruct D as (d & D). revert t Hq T' D. induction d as [|d IHd]; intros t Hq T' D.
  - rewrite Nat.add_0_r in D. subst t'. destruct (good_at t) as [R T E L P J].
    destruct (step_moved _ i q R T E L P Hq) as [(-> & _ & _) | (q' & E1 & M)]; [discriminate|].
    destruct (mv_rank _ _ _ _ M _ _ _ C) as [[C' ST'] | (f & KF & F)].
    + assert (Hq' : nth_error (threads (at_time (S t))) i = Some q') by (cbn [at_time]; rewrite S', E1; eapply upd_same; exact Hq).
      destruct (IH (steps q') ltac:(lia) i q' e j k (S t) Hq' C' (le_n _)) as (t2 & f & A1 & A2 & A3). exists t2, f. repeat split; auto. lia.
    + exists (S t), f. repeat split; auto. cbn [at_time]. rewrite S'. exact F.
  - destruct (Nat.eq_dec (schedule t) i) as [SE | NE].
    + destruct (good_at t) as [R T E L P J].
      destruct (step_moved _ i q R T E L P Hq) as [(-> & _ & _) | (q' & E1 & M)]; [discriminate|].
      destruct (mv_rank _ _ _ _ M _ _ _ C) as [[C' ST'] | (f & KF & F)].
      * assert (Hq' : nth_error (threads (at_time (S t))) i = Some q') by (cbn [at_time]; rewrite SE, E1; eapply upd_same; exact Hq).
        destruct (IH (steps q') ltac:(lia) i q' e j k (S t) Hq' C' (le_n _)) as (t2 & f & A1 & A2 & A3). exists t2, f. repeat split; auto. lia.
      * exists (S t), f. repeat split; auto. cbn [at_time]. rewrite SE. exact F.
    + destruct (IHd (S t)) as (t2 & f & A1 & A2 & A3); [cbn [at_time]; rewrite other_thread by exact NE; exact Hq | lia | lia |].
      exists t2, f. repeat split; auto. lia.
Qed.

Definition unknown (s : state) : nat := length (filter (fun f => negb (estb s f)) (all_facts ist p)).

Lemma unknown_le : forall s s', grows s s' -> unknown s' <= unknown s.
Proof.
  intros s s' G. apply filter_le. intros f _ H. apply negb_true_iff in H. apply negb_true_iff. apply estb_false. apply estb_false in H. auto.
Qed.
Lemma unknown_lt : forall s s' f, grows s s' -> In f (all_facts ist p) -> ~ est s f -> est s' f -> unknown s' < unknown s.
Proof.
  intros s s' f G I F F'. apply (filter_lt _ _ _ _ f); auto.
  - intros g _ H. apply negb_true_iff in H. apply negb_true_iff. apply estb_false. apply estb_false in H. auto.
  - apply negb_false_iff. apply estb_spec. exact F'.
  - apply negb_true_iff. apply estb_false. exact F.
Qed.

(** A thread is about to set a size that is not known. *)
Definition late (s : state) (q : pc) : bool := match cont_of q with Some (Then_set _ _ k) => negb (size_known s (k_space k) (k_atom k)) | _ => false end.

Lemma late_settled : forall s, good s -> existsb (late s) (threads s) = false -> settled s.
Proof.
  intros s [R T E L P J] H k C. destruct (J k C) as (f & KF & [F | (i & q & e & j & Hq & CQ)]); [eauto|].
  exists f. split; [exact KF|]. destruct (th_cont _ _ _ _ (li_threads _ _ _ L _ _ Hq) _ CQ) as (d & a & _ & _ & _ & KE).
  assert (f = Size_known (visible ist (in_unit d) a)) by (apply keyf_inj; congruence). subst f.
  destruct (late s q) eqn:LQ; [assert (X : existsb (late s) (threads s) = true) by (apply existsb_exists; exists q; split; [eapply nth_error_In; exact Hq | exact LQ]); congruence|].
  unfold late in LQ. rewrite CQ in LQ. apply negb_false_iff in LQ. apply (est_size ist hash). rewrite KE, key_size in LQ. exact LQ.
Qed.

(** The next step that is not one of an idle thread. *)
Lemma next_move : forall i q t, nth_error (threads (at_time t)) i = Some q -> q <> Idle \/ queue (at_time t) <> [] ->
  exists t' i' q' q2, t <= t' /\ at_time t' = at_time t /\ schedule t' = i' /\ nth_error (threads (at_time t')) i' = Some q' /\
    moved (at_time t') q' (at_time (S t')) q2.
Proof.
  intros i q t Hq B.
  assert (LT : i < thread_count) by (rewrite <- (threads_at t); apply nth_error_Some; congruence).
  destruct (H_fair i t LT) as (t' & T' & S').
  assert (D : exists d, t' = t + d) by (exists (t' - t); lia). destruct D as (d & D). revert t Hq B T' D. induction d as [|d IHd]; intros t Hq B T' D.
  - rewrite Nat.add_0_r in D. subst t'. destruct (good_at t) as [R T E L P J].
    destruct (step_moved _ i q R T E L P Hq) as [(-> & Q & _) | (q' & E1 & M)]; [destruct B; congruence|].
    exists t, i, q, q'. cbn [at_time]. rewrite S'. auto.
  - destruct (nth_error (threads (at_time t)) (schedule t)) as [r|] eqn:Hr.
    + destruct (good_at t) as [R T E L P J]. destruct (step_moved _ _ r R T E L P Hr) as [(-> & Q & SE) | (q' & E1 & M)].
      * assert (ST : at_time (S t) = at_time t) by exact SE.
        destruct (IHd (S t)) as (t2 & i' & q1 & q2 & A1 & A2 & A3); [rewrite ST; exact Hq | rewrite ST; exact B | lia | lia |].
        exists t2, i', q1, q2. split; [lia|]. split; [congruence | exact A3].
      * exists t, (schedule t), r, q'. auto.
    + assert (ST : at_time (S t) = at_time t) by (cbn [at_time]; unfold step; rewrite Hr; reflexivity).
      destruct (IHd (S t)) as (t2 & i' & q1 & q2 & A1 & A2 & A3); [rewrite ST; exact Hq | rewrite ST; exact B | lia | lia |].
      exists t2, i', q1, q2. split; [lia|]. split; [congruence | exact A3].
Qed.

Lemma total_busy : forall l, 0 < total busy l -> exists i q, nth_error l i = Some q /\ q <> Idle.
Proof.
  induction l as [|q l IH]; cbn [total]; [lia|]. intros H. destruct q; try (exists 0; eexists; split; [reflexivity | discriminate]).
  destruct IH as (i & q & A1 & A2); [cbn [busy] in H; lia|]. exists (S i), q. auto.
Qed.

Lemma ends : forall c m t, unknown (at_time t) <= c -> measure (at_time t) <= m -> exists t', t <= t' /\ ended (at_time t') = true.
Proof.
  induction c as [c IHc] using lt_wf_ind. induction m as [m IHm] using lt_wf_ind. intros t C M.
  destruct (ended (at_time t)) eqn:En; [exists t; auto|].
  destruct (good_at t) as [R T E L P J] eqn:GE. clear GE.
  destruct (existsb (late (at_time t)) (threads (at_time t))) eqn:LA.
  - apply existsb_exists in LA. destruct LA as (q & Q & LQ). apply In_nth_error in Q. destruct Q as (i & Hq). unfold late in LQ.
    destruct (cont_of q) as [[e j|e k|e j k]|] eqn:CQ; try discriminate. apply negb_true_iff in LQ.
    destruct (th_cont _ _ _ _ (li_threads _ _ _ L _ _ Hq) _ CQ) as (d & a & PD & AD & _ & KE).
    destruct (eventually_set _ i q e j k t Hq CQ (le_n _)) as (t' & f & T' & KF & F).
    assert (f = Size_known (visible ist (in_unit d) a)) by (apply keyf_inj; congruence). subst f.
    assert (U : unknown (at_time t') < unknown (at_time t)).
    { apply (unknown_lt _ _ (Size_known (visible ist (in_unit d) a))); auto using grows_at.
      - unfold all_facts. apply in_flat_map. exists d. split; [eapply nth_error_In; exact PD|]. unfold facts_of. apply in_flat_map.
        exists (Initialize_list a). split; [eapply nth_error_In; exact AD|]. left. reflexivity.
      - intros X. apply (est_size ist hash) in X. rewrite KE, key_size in LQ. cbn [k_space k_atom] in LQ. congruence. }
    destruct (IHc (unknown (at_time t')) ltac:(lia) (measure (at_time t')) t' (le_n _) (le_n _)) as (t2 & A1 & A2). exists t2. split; [lia | exact A2].
  - pose proof (late_settled _ (good_at t) LA) as ST.
    assert (B : exists i q, nth_error (threads (at_time t)) i = Some q /\ (q <> Idle \/ queue (at_time t) <> [])).
    { unfold ended in En. apply Nat.eqb_neq in En. pose proof (ei_flight _ _ E) as FL. destruct (queue (at_time t)) as [|e r] eqn:Q.
      - destruct (total_busy (threads (at_time t))) as (i & q & A1 & A2); [cbn [length] in FL; lia|]. exists i, q. auto.
      - destruct (nth_error (threads (at_time t)) 0) as [q|] eqn:H0; [exists 0, q; split; [exact H0 | right; discriminate]|].
        apply nth_error_None in H0. rewrite threads_at in H0. lia. }
    destruct B as (i & q & Hq & B). destruct (next_move i q t Hq B) as (t' & i' & q' & q2 & T' & EQ & _ & _ & MV).
    rewrite EQ in MV. pose proof (mv_measure _ _ _ _ MV ST) as ML. pose proof (unknown_le _ _ (mv_grows _ _ _ _ MV)) as UL.
    destruct (IHm (measure (at_time (S t'))) ltac:(lia) (S t') ltac:(lia) (le_n _)) as (t2 & A1 & A2). exists t2. split; [lia | exact A2].
Qed.

(** Then nothing happens any more. *)
Lemma ended_stays : forall t t', t <= t' -> ended (at_time t) = true -> at_time t' = at_time t.
Proof.
  intros t t' H En. induction H as [|t' H IH]; [reflexivity|]. cbn [at_time]. rewrite IH.
  destruct (end_queue order _ (g_entries _ (good_at t)) En) as [Q ID]. unfold step.
  destruct (nth_error (threads (at_time t)) (schedule t')) as [q|] eqn:Hq; [|reflexivity].
  rewrite (ID q) by (eapply nth_error_In; exact Hq). rewrite Q. reflexivity.
Qed.
End Term.
