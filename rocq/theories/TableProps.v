(** C20: the table of global declarations is an insert-or-get map under concurrency. *)
From Verif Require Import Base ScopeModel TableModel TableSpec TableProofs.

(** Every execution without growth, of any number of threads, looks to its callers like an
    atomic map. *)
Theorem C20_linearizable : forall hash capacity schedule, power_of_two capacity ->
  Forall (fun s => ~ growing s) (fst (run hash (create capacity) schedule)) ->
  exists final, history empty_map (snd (run hash (create capacity) schedule)) final.
Proof. exact table_linearizable. Qed.
Print Assumptions C20_linearizable.

(** At most one insertion of a name succeeds. *)
Theorem C20_registered_once : forall hash capacity schedule before after t n x u y, power_of_two capacity ->
  Forall (fun s => ~ growing s) (fst (run hash (create capacity) schedule)) ->
  snd (run hash (create capacity) schedule) = before ++ Return t (Add n x) None :: after -> ~ In (Return u (Add n y) None) after.
Proof. intros h c sch l1 l2 t n x u y P G E. destruct (table_linearizable h c sch P G) as (a & A). rewrite E in A. exact (one_winner _ _ _ _ _ _ _ _ A). Qed.
Print Assumptions C20_registered_once.

(** All calls report the same declaration for a name. *)
Theorem C20_same_for_all : forall hash capacity schedule t o r u p q x y, power_of_two capacity ->
  Forall (fun s => ~ growing s) (fst (run hash (create capacity) schedule)) ->
  In (Return t o r) (snd (run hash (create capacity) schedule)) -> In (Return u p q) (snd (run hash (create capacity) schedule)) ->
  op_name o = op_name p -> reported o r = Some x -> reported p q = Some y -> x = y.
Proof. intros h c sch t o r u p q x y P G I J. destruct (table_linearizable h c sch P G) as (a & A). exact (history_agree _ _ _ _ _ _ _ _ _ _ A I J). Qed.
Print Assumptions C20_same_for_all.

(** What a finished call reported, every later call sees. *)
Theorem C20_visible_later : forall hash capacity schedule l1 l2 l3 t o r u p q x, power_of_two capacity ->
  Forall (fun s => ~ growing s) (fst (run hash (create capacity) schedule)) ->
  snd (run hash (create capacity) schedule) = l1 ++ Return t o r :: l2 ++ Call u p :: l3 ++ [Return u p q] -> (forall p' q', ~ In (Return u p' q') l3) ->
  op_name p = op_name o -> reported o r = Some x -> q = Some x.
Proof. intros h c sch l1 l2 l3 t o r u p q x P G E N O R. destruct (table_linearizable h c sch P G) as (a & A). rewrite E in A. exact (history_visible _ _ _ _ _ _ _ _ _ _ _ A R O N). Qed.
Print Assumptions C20_visible_later.

(** No thread leaves the array or runs out of nodes to look at while the table is less than
    half full. *)
Theorem C20_stays_inside : forall hash capacity schedule, power_of_two capacity ->
  Forall (fun s => ~ growing s) (fst (run hash (create capacity) schedule)) ->
  forall s t, In s (fst (run hash (create capacity) schedule)) -> 2 * registered s < capacity -> threads s t <> Fault.
Proof. exact table_no_fault. Qed.
Print Assumptions C20_stays_inside.

(** Two threads add the same name, the other probes past a collision: both read the empty node
    before either swaps. *)
Definition x_name : name := [120]. Definition y_name : name := [121].
Definition many (t k : nat) : list choice := repeat (Steps t) k.
Definition race : list choice :=
  [Calls 0 (Add x_name 10); Calls 1 (Add x_name 11)] ++ many 0 6 ++ many 1 6 ++ many 0 3 ++ many 1 5 ++
  [Calls 2 (Add y_name 12)] ++ many 2 14 ++ [Calls 0 (Get y_name)] ++ many 0 12.
Definition still (s : state) : bool := forallb (fun t => match threads s t with
  | Lock _ _ | Recheck _ _ | Drain _ _ | Double _ _ | Fresh _ _ _ _ | Mask _ _ _ _ | Move _ _ _ _ _ | Free _ _ _ | Unlock _ _ => false | _ => true end) [0; 1; 2]%nat.
Lemma move_threads : forall h s old i s', move_one h s old i = Some s' -> threads s' = threads s.
Proof.
  intros h s old i s' E. unfold move_one in E. destruct (load s old i) as [[(n & a)|]|]; try congruence. destruct (memory s (nodes s)); try congruence.
  destruct (free_slot _ _ _ _); injection E as <-; reflexivity.
Qed.
Lemma step_frame : forall h s v u, u <> v -> threads (fst (step h s v)) u = threads s u.
Proof.
  intros h s v u N. assert (P : forall s0 p, threads (set_pc s0 v p) u = threads s0 u) by (intros s0 p; cbn [set_pc threads]; destruct (Nat.eqb_spec u v); [contradiction|reflexivity]).
  unfold step, goto. destruct (threads s v) as [|o|n x|n x|n x|n x|n x|n x oc old|n x oc old|n x oc old i|n x old|n x|o|o|o ix i|o ix i nd|o ix i nd ast|o ix i|n x ix i nd|o|o r|]; cbn [fst]; rewrite ?P; try reflexivity.
  - destruct (is_locked s); cbn [fst]; rewrite ?P; reflexivity.
  - destruct (is_locked s); cbn [fst]; rewrite ?P; reflexivity.
  - destruct (threads_in_flight s =? 0); cbn [fst]; rewrite ?P; reflexivity.
  - destruct (i <? oc); cbn [fst]; rewrite ?P; try reflexivity. destruct (move_one h s old i) as [s1|] eqn:M; cbn [fst]; rewrite ?P; try reflexivity. rewrite (move_threads _ _ _ _ _ M). reflexivity.
  - destruct (load s nd ix) as [[(m & a)|]|]; cbn [fst]; rewrite ?P; reflexivity.
  - destruct (load s nd ix) as [[(m & a)|]|]; cbn [fst]; rewrite ?P; reflexivity.
  - destruct (memory s nd) as [b|]; cbn [fst]; rewrite ?P; try reflexivity. destruct ((0 <=? ix) && (ix <? b_size b)); cbn [fst]; rewrite ?P; try reflexivity. destruct (b_cell b ix); cbn [fst]; rewrite ?P; reflexivity.
Qed.
Lemma others_idle : forall h cs s t, (forall t, (t < 3)%nat \/ threads s t = Idle) -> Forall (fun c => match c with Calls u _ => (u < 3)%nat | Steps u => (u < 3)%nat end) cs -> (3 <= t)%nat ->
  forall s', In s' (fst (run h s cs)) -> threads s' t = Idle.
Proof.
  intros h cs. induction cs as [|c cs IH]; intros s t I F T s' M; cbn [run] in M.
  - destruct M as [<-|[]]. destruct (I t); [lia|assumption].
  - inversion_clear F as [|? ? Fc Fcs]. destruct (choose h s c) as (s1, e) eqn:C. destruct (run h s1 cs) as (ss, es) eqn:R. cbn [fst] in M. destruct M as [<-|M]; [destruct (I t); [lia|assumption]|].
    refine (IH s1 t _ Fcs T s' _); [|rewrite R; exact M]. intro u. destruct (Nat.lt_ge_cases u 3) as [L|L]; [auto|right]. destruct (I u) as [?|Iu]; [lia|].
    assert (K : threads s1 u = threads s u); [|congruence]. replace s1 with (fst (choose h s c)) by (rewrite C; reflexivity).
    assert (P : forall s0 v p, (v < 3)%nat -> threads (set_pc s0 v p) u = threads s0 u) by (intros s0 v p V; cbn [set_pc threads]; destruct (Nat.eqb_spec u v); [lia|reflexivity]).
    destruct c as [v o|v]; cbn [choose].
    + destruct (threads s v); cbn [fst]; auto.
    + apply step_frame. lia.
Qed.
Example C20_case : power_of_two 8 /\ Forall (fun s => ~ growing s) (fst (run (fun _ => 5) (create 8) race)) /\
  snd (run (fun _ => 5) (create 8) race) =
    [Call 0 (Add x_name 10); Call 1 (Add x_name 11); Return 0 (Add x_name 10) None; Return 1 (Add x_name 11) (Some 10);
     Call 2 (Add y_name 12); Return 2 (Add y_name 12) None; Call 0 (Get y_name); Return 0 (Get y_name) (Some 12)] /\
  Forall (fun s => 2 * registered s < 8) (fst (run (fun _ => 5) (create 8) race)).
Proof.
  split; [exists 3; split; [lia|reflexivity]|]. split; [|split; [vm_compute; reflexivity|]].
  - assert (S : forallb still (fst (run (fun _ => 5) (create 8) race)) = true) by (vm_compute; reflexivity). rewrite forallb_forall in S. apply Forall_forall. intros s M (t & G). specialize (S s M).
    destruct (Nat.lt_ge_cases t 3) as [L|L].
    + unfold still in S. rewrite forallb_forall in S. specialize (S t). assert (Q : In t [0; 1; 2]%nat) by (cbn; lia). specialize (S Q). clear M Q. destruct (threads s t); try exact G; discriminate S.
    + rewrite (others_idle (fun _ => 5) race (create 8) t) in G; [destruct G|intro; right; reflexivity| |exact L|exact M]. unfold race, many. repeat constructor.
  - assert (S : forallb (fun s => 2 * registered s <? 8) (fst (run (fun _ => 5) (create 8) race)) = true) by (vm_compute; reflexivity). rewrite forallb_forall in S. apply Forall_forall. intros s M. specialize (S s M). apply Z.ltb_lt in S. exact S.
Qed.

(** With growth the claim is false: a thread that has passed the test of the lock but has not
    yet announced itself inserts into the new, still empty array while it is being filled.
    Both insertions of the name succeed. *)
Definition growth_race : list choice :=
  [Calls 0 (Add x_name 10)] ++ many 0 9 ++ [Calls 1 (Add x_name 11)] ++ many 1 2 ++
  [Calls 0 (Add y_name 12)] ++ many 0 13 ++ [Calls 0 (Add [122] 13)] ++ many 0 8 ++ many 1 7.
Theorem C20_growth_refuted : exists hash capacity schedule, power_of_two capacity /\
  In (Return 0 (Add x_name 10) None) (snd (run hash (create capacity) schedule)) /\ In (Return 1 (Add x_name 11) None) (snd (run hash (create capacity) schedule)) /\
  forall final, ~ history empty_map (snd (run hash (create capacity) schedule)) final.
Proof.
  exists (fun _ => 5), 4, growth_race. split; [exists 2; split; [lia|reflexivity]|].
  assert (E : exists l, snd (run (fun _ => 5) (create 4) growth_race) = [Call 0 (Add x_name 10)] ++ Return 0 (Add x_name 10) None :: l ++ [Return 1 (Add x_name 11) None]).
  { eexists [_; _; _; _]. vm_compute. reflexivity. }
  destruct E as (l & E). rewrite E. split; [right; left; reflexivity|]. split; [apply in_or_app; right; right; apply in_or_app; right; left; reflexivity|].
  intros a A. apply (one_winner _ _ _ _ _ _ 1%nat 11 A). apply in_or_app. right. left. reflexivity.
Qed.
Print Assumptions C20_growth_refuted.
